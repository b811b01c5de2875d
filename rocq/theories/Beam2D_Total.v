(** The xi loop always succeeds on a beam that lies on the grid (C13). *)
From Coq Require Import Reals ZArith List Bool Lia Lra Permutation.
From Verif Require Import Beam2D_Model Beam2D_Spec Beam2D_Proofs Beam2D_Push Beam2D_Free Beam2D_Dep.
Import ListNotations.
Open Scope R_scope.

Definition fuel_ok (h : nat) (c : pcfg) (p : part) : Prop := exists b, prepare h c (fresh p) = Some b.

Lemma fuel_exists c (l : list part) : 0 <= sub_energy c -> (forall p, In p l -> q_m p <> 0) ->
  exists h0, forall h, (h0 <= h)%nat -> forall p, In p l -> fuel_ok h c p.
Proof.
  intros He. induction l as [|p l IH]; intros Hq.
  - exists 0%nat. intros h _ p [].
  - destruct IH as (h1 & H1); [intros; apply Hq; now right|].
    destruct (Req_EM_T (sub_energy c) 0) as [E|E].
    + exists 0%nat. intros h _ p' _. unfold fuel_ok, prepare. cbn [dt fresh].
      destruct (Req_EM_T 0 0); [|lra]. destruct (Req_EM_T (sub_energy c) 0); [eauto|contradiction].
    + destruct (substep_fuel (q_m p) (p_z p) (sub_energy c)) as (h2 & H2); [apply Hq; now left|lra|].
      exists (h1 + h2)%nat. intros h Hh p' [<-|Hp]; [|apply H1; [lia|auto]].
      destruct (H2 h ltac:(lia)) as (k & E2 & _). unfold fuel_ok, prepare. cbn [dt fresh pt].
      destruct (Req_EM_T 0 0); [|lra]. destruct (Req_EM_T (sub_energy c) 0); [eauto|]. rewrite E2. simpl. eauto.
Qed.

Lemma map_opt_some {X Y} (f : X -> option Y) l : (forall x, In x l -> exists y, f x = Some y) -> exists l', map_opt f l = Some l'.
Proof.
  induction l as [|x l IH]; intros H; simpl; eauto.
  destruct (H x (or_introl eq_refl)) as (y & E). rewrite E. simpl.
  destruct IH as (l' & E'); [intros; apply H; now right|]. rewrite E'. simpl. eauto.
Qed.

Section Total.
  Variable sort_bool : (bpart -> bool) -> list bpart -> list bpart.
  Hypothesis Hok : sort_bool_ok sort_bool.
  Variable Pl : Type.
  Variable plasma : Pl -> list R -> list R -> Pl.
  Variable pl_fields : Pl -> fields.
  Notation iter := (xi_iter sort_bool Pl plasma pl_fields).
  Notation loop := (xi_loop sort_bool Pl plasma pl_fields).
  Variable c : pcfg.
  Hypothesis Hx : 0 < xi_step c.
  Hypothesis Hr : 0 < r_step c.
  Hypothesis Ht : time_step c <> 0.
  Variable src0 : source.
  Variable h : nat.
  Variable N : nat.
  Hypothesis Hgrid : forall p, In (fresh p) (undelivered src0) -> on_grid (r_step c) N (fresh p).
  Hypothesis Hfuel : forall p, In (fresh p) (undelivered src0) -> fuel_ok h c p.

  Lemma iter_total i s : linv Pl h c src0 i s -> length (ls_rho Pl s) = N ->
    exists s', iter h c i s = Some s' /\ length (ls_rho Pl s') = N.
  Proof.
    intros I HN. unfold xi_iter.
    destruct (get_beam_slice (ls_src Pl s) (IZR i * - xi_step c) (IZR (i + 1) * - xi_step c)) as [[[sz layer] src']|] eqn:Eg.
    2:{ exfalso. unfold get_beam_slice in Eg. rewrite plus_IZR in Eg.
        destruct (Rlt_dec ((IZR i + 1) * - xi_step c) (IZR i * - xi_step c)); [|nra].
        destruct (scan _ _ _ _ _); discriminate. }
    cbn [bind]. apply get_slice_ledger in Eg.
    assert (Hlay : forall b, In b layer -> on_grid (r_step c) N b).
    { intros b Hb. assert (Hin : In b (undelivered (ls_src Pl s))) by (rewrite Eg; apply in_or_app; auto).
      destruct (in_undelivered_fresh _ _ Hin) as (p & ->). apply Hgrid. now apply (li_src _ _ _ _ _ _ I). }
    destruct (layout_some (r_step c) (xi_step c) (ls_rho Pl s) layer i Hr) as (rho & next & El).
    { rewrite HN. exact Hlay. }
    assert (Hlen : length next = N).
    { unfold layout_beam_layer in El. destruct (deposit _ _ _ _ _ _) as [[o0 o1]|] eqn:Ed; cbn [bind] in El; [|discriminate].
      injection El as _ <-. apply deposit_spec in Ed; auto; [|lra|].
      - destruct Ed as (_ & L1 & _). cbn [snd]. rewrite L1, map_length. exact HN.
      - intros b Hb. apply (Hlay b Hb). }
    rewrite El. cbn [bind].
    unfold move_beam_layer.
    destruct (map_opt_some (prepare h c) (ls_move Pl s)) as (l' & Em).
    { intros b Hb. destruct (li_move _ _ _ _ _ _ I b Hb) as ((_ & n & p & Hin & Hh) & _).
      destruct (history_account h c n p b Ht Hh) as [(_ & ->)|(k & K1 & _)].
      - apply Hfuel. exact Hin.
      - exists b. unfold prepare. destruct (Req_EM_T (dt b) 0) as [E|]; auto. exfalso.
        rewrite K1 in E. apply Rmult_integral in E. destruct E as [E|E]; [contradiction|].
        revert E. apply Rinv_neq_0_compat. apply pow_nonzero. lra. }
    rewrite Em. cbn [option_map bind].
    destruct (split_beam_slice _ _ _) as [[a b] d]. cbn [bind]. eexists. split; [reflexivity|]. exact Hlen.
  Qed.

  Lemma loop_total n : forall i s, linv Pl h c src0 i s -> length (ls_rho Pl s) = N -> exists s', loop h c n i s = Some s'.
  Proof.
    induction n as [|n IH]; intros i s I HN; cbn [xi_loop]; eauto.
    destruct (iter_total i s I HN) as (s1 & E & HN1). rewrite E. cbn [bind].
    apply IH; auto. eapply iter_inv; eauto. lra.
  Qed.
End Total.

Lemma xi_loop_total sort_bool Pl plasma pl_fields c src0 N : sort_bool_ok sort_bool ->
  0 < xi_step c -> 0 < r_step c -> time_step c <> 0 -> 0 <= sub_energy c ->
  (forall p, In p (s_parts src0) -> q_m p <> 0 /\ 0 <= rad p < r_step c * INR (N - 1)) ->
  exists h0, forall h, (h0 <= h)%nat -> forall n i rho prev pl, length rho = N ->
  exists s', xi_loop sort_bool Pl plasma pl_fields h c n i (mkLS Pl src0 [] [] [] rho prev pl) = Some s'.
Proof.
  intros Hok Hx Hr Ht He Hp.
  destruct (fuel_exists c (s_parts src0) He) as (h0 & Hf); [intros p H; apply (Hp p H)|].
  assert (Hin : forall p, In (fresh p) (undelivered src0) -> In p (s_parts src0)).
  { intros p H. unfold undelivered in H. apply in_map_iff in H. destruct H as (q & E & Hq).
    injection E as <-. rewrite <- (firstn_skipn (used src0) (s_parts src0)). apply in_or_app. auto. }
  exists h0. intros h Hh n i rho prev pl Hl.
  apply (loop_total sort_bool Hok Pl plasma pl_fields c Hx Hr Ht src0 h N); auto.
  - intros p H. destruct (Hp p (Hin p H)) as [_ H2]. unfold on_grid. cbn [pt fresh]. lra.
  - constructor; cbn [ls_src ls_move ls_lost ls_drain concat]; auto; intros b [].
Qed.
