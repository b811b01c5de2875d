(** Comparison of the reference semantics for different numbers of processes, and consequences
    for complete runs. *)
From Coq Require Import List Arith Bool Lia ZArith Permutation.
From Coq Require Import ZifyBool ZifyNat.
From Verif Require Import Ring Ring_Proofs Mpi_Model Mpi_Spec Mpi_Proofs.
Import ListNotations.

Section R.
  Variable A : Type.
  Variable Src : Type.
  Variable mk_source : list A -> Src.
  Variable get_slice : Src -> nat -> list A * Src.
  Variable Sig : Type.
  Variable kinit : nat -> Sig.
  Variable kern : Sig -> nat -> list A -> Sig * list A.
  Variable L : nat.
  Variable beam0 : list A.
  Variable inl : nat -> A -> bool.

  Notation rin := (ref_in A Src mk_source get_slice Sig kinit kern L beam0).
  Notation rout := (ref_out A Src mk_source get_slice Sig kinit kern L beam0).
  Notation T := (fun t ins => run_kernel A Sig kern (kinit t) 0 ins).
  Notation cut := (fun b n => slices A Src get_slice (mk_source b) 0 n).

  Hypothesis Hdis : layers_disjoint inl.
  Hypothesis Hcut : source_ok inl cut.
  Hypothesis HT : step_ok inl T.
  Hypothesis Hb0 : forall a, In a beam0 -> exists i, inl i a = true.
  Hypothesis HL : 0 < L.

  Lemma same_refl (x : list (list A)) : same_layers x x.
  Proof. induction x; constructor; auto. Qed.
  Lemma same_sym (x y : list (list A)) : same_layers x y -> same_layers y x.
  Proof. induction 1; constructor; auto. now apply Permutation_sym. Qed.
  Lemma same_trans (x y z : list (list A)) : same_layers x y -> same_layers y z -> same_layers x z.
  Proof.
    intros H. revert z. induction H as [|a b x y Hab H IH]; intros z Hz; inversion Hz; subst; constructor.
    - eapply Permutation_trans; eauto.
    - now apply IH.
  Qed.
  Lemma same_nth (x y : list (list A)) : length x = length y ->
    (forall i, i < length x -> Permutation (nth i x []) (nth i y [])) -> same_layers x y.
  Proof.
    revert y. induction x as [|a x IH]; intros [|b y] Hl Hp; simpl in Hl; try discriminate; constructor.
    - apply (Hp 0). simpl. lia.
    - apply IH; [lia|]. intros i Hi. apply (Hp (S i)). simpl. lia.
  Qed.
  Lemma same_concat (x y : list (list A)) : same_layers x y -> Permutation (concat x) (concat y).
  Proof. induction 1; simpl; auto. now apply Permutation_app. Qed.
  Lemma same_length (x y : list (list A)) : same_layers x y -> length x = length y.
  Proof. induction 1; simpl; auto. Qed.

  Lemma filter_concat_layers (o : list (list A)) : forall s, (forall i a, In a (nth i o []) -> inl (s + i) a = true) ->
    forall j, filter (inl j) (concat o) = if (s <=? j) then nth (j - s) o [] else [].
  Proof.
    induction o as [|x o IH]; intros s H j.
    - simpl. destruct (s <=? j); auto. now destruct (j - s).
    - simpl concat. rewrite filter_app.
      rewrite (IH (S s)) by (intros i a Hi; replace (S s + i) with (s + S i) by lia; now apply (H (S i))).
      assert (Hx : filter (inl j) x = if j =? s then x else []).
      { destruct (Nat.eqb_spec j s) as [->|Hn].
        - assert (G : forall l, (forall a, In a l -> inl s a = true) -> filter (inl s) l = l).
          { induction l as [|a l IHl]; intros G; simpl; auto. rewrite (G a) by (left; auto). f_equal. apply IHl.
            intros b Hb. apply G. now right. }
          apply G. intros a Ha. specialize (H 0 a Ha). now rewrite Nat.add_0_r in H.
        - assert (G : forall l, (forall a, In a l -> inl s a = true) -> filter (inl j) l = []).
          { induction l as [|a l IHl]; intros G; simpl; auto.
            destruct (inl j a) eqn:E.
            - exfalso. apply Hn. eapply Hdis; eauto. apply G. now left.
            - apply IHl. intros b Hb. apply G. now right. }
          apply G. intros a Ha. specialize (H 0 a Ha). now rewrite Nat.add_0_r in H. }
      rewrite Hx. clear Hx. destruct (Nat.eqb_spec j s) as [Ej|Hn]; [subst j|].
      + replace (S s <=? s) with false by (symmetry; apply Nat.leb_gt; lia).
        rewrite Nat.leb_refl, Nat.sub_diag, app_nil_r. reflexivity.
      + rewrite app_nil_l. destruct (Nat.leb_spec (S s) j).
        * replace (s <=? j) with true by (symmetry; apply Nat.leb_le; lia).
          replace (j - s) with (S (j - S s)) by lia. reflexivity.
        * replace (s <=? j) with false by (symmetry; apply Nat.leb_gt; lia). reflexivity.
  Qed.

  Lemma in_concat_layer (o : list (list A)) : layers_ok inl o -> forall a, In a (concat o) -> exists i, inl i a = true.
  Proof.
    intros H a Ha. apply in_concat in Ha. destruct Ha as (x & Hx & Ha).
    destruct (In_nth _ _ [] Hx) as (i & _ & <-). exists i. now apply H.
  Qed.

  Lemma cut_layers_ok b : (forall a, In a b -> exists i, inl i a = true) -> forall n, layers_ok inl (cut b n).
  Proof.
    intros Hb n i a Ha. destruct (Hcut b n Hb) as [Hl Hp].
    destruct (Nat.lt_ge_cases i n).
    - eapply Permutation_in in Ha; [|apply Hp; auto]. apply filter_In in Ha. tauto.
    - rewrite nth_overflow in Ha by lia. contradiction.
  Qed.

  Lemma T_length t x : length (T t x) = length x. Proof. apply run_kernel_length. Qed.

  (** Whatever the number of processes, the layers pulled by step [g+1] are, up to order, the
      layers pushed by step [g]. *)
  Lemma next_layers o : length o = L -> nth 0 o [] = [] -> layers_ok inl (tl o) ->
    same_layers (cut (concat o) L) (tl o ++ [[]]) /\ layers_ok inl (tl o ++ [[]]).
  Proof.
    intros Hl H0 Hlay. destruct o as [|x o]; [simpl in Hl; lia|]. simpl in H0, Hlay, Hl. subst x.
    cbn [concat app tl].
    assert (OK : layers_ok inl (o ++ [[]])).
    { intros i a Hi. destruct (Nat.lt_ge_cases i (length o)).
      - rewrite app_nth1 in Hi by auto. now apply Hlay.
      - rewrite app_nth2 in Hi by auto. destruct (i - length o) as [|[|k]]; simpl in Hi; contradiction. }
    split; auto.
    destruct (Hcut (concat o) L (in_concat_layer o Hlay)) as [Cl Cp].
    apply same_nth.
    - rewrite Cl, app_length. simpl. lia.
    - intros i Hi. rewrite Cl in Hi. eapply Permutation_trans; [apply Cp; auto|].
      rewrite (filter_concat_layers o 0) by (intros; now apply Hlay). simpl. rewrite Nat.sub_0_r.
      destruct (Nat.lt_ge_cases i (length o)).
      + now rewrite app_nth1 by auto.
      + rewrite nth_overflow by auto. rewrite app_nth2 by auto.
        destruct (i - length o) as [|[|k]]; simpl; auto.
  Qed.

  Lemma rin_ok P : 0 < P -> forall g, layers_ok inl (rin P g).
  Proof.
    intros HP. induction g as [|g IH]; cbn [ref_in].
    - now apply cut_layers_ok.
    - set (o := run_kernel A Sig kern (kinit (g + 1)) 0 (rin P g)).
      assert (Hlay : layers_ok inl (tl o)) by (apply (so_layer _ _ HT (g + 1)); auto).
      assert (Hl : length o = L) by (unfold o; rewrite run_kernel_length; apply rin_length; auto).
      assert (H0 : nth 0 o [] = []) by (apply (so_first _ _ HT (g + 1))).
      destruct (next_layers o Hl H0 Hlay) as [_ K].
      destruct (S g mod P =? 0); auto.
      apply cut_layers_ok.
      destruct o as [|x o'] eqn:Eo; [intros a []|].
      simpl in H0.
      subst x. simpl concat. now apply in_concat_layer.
  Qed.

  Lemma rin_same P P' : 0 < P -> 0 < P' -> forall g, same_layers (rin P g) (rin P' g).
  Proof.
    intros HP HP'. assert (G : forall Q g, 0 < Q -> same_layers (rin Q (S g)) (tl (rout Q g) ++ [[]])).
    { intros Q g HQ. cbn [ref_in]. unfold ref_out.
      set (o := run_kernel A Sig kern (kinit (g + 1)) 0 (rin Q g)).
      assert (K : same_layers (cut (concat o) L) (tl o ++ [[]])).
      { apply next_layers.
        - unfold o. rewrite run_kernel_length. apply rin_length; auto.
        - apply (so_first _ _ HT (g + 1)).
        - apply (so_layer _ _ HT (g + 1)). now apply rin_ok. }
      destruct (S g mod Q =? 0); auto. apply same_refl. }
    induction g as [|g IH]; [apply same_refl|].
    eapply same_trans; [now apply G|]. eapply same_trans; [|apply same_sym; now apply G].
    assert (K : same_layers (rout P g) (rout P' g)) by (apply (so_order _ _ HT); auto).
    apply Forall2_app; [|repeat constructor].
    inversion K; simpl; auto.
  Qed.
  Lemma rout_same P P' g : 0 < P -> 0 < P' -> same_layers (rout P g) (rout P' g).
  Proof. intros. apply (so_order _ _ HT). now apply rin_same. Qed.
End R.

(** Complete runs. *)
Section Runs.
  Variable A : Type.
  Variable Src : Type.
  Variable mk_source : list A -> Src.
  Variable get_slice : Src -> nat -> list A * Src.
  Variable Sig : Type.
  Variable kinit : nat -> Sig.
  Variable kern : Sig -> nat -> list A -> Sig * list A.
  Variable L : nat.
  Variable beam0 : list A.
  Hypothesis HL : 0 < L.
  Notation prog := (rank_program A Src mk_source get_slice Sig kinit kern L beam0).
  Notation rin := (ref_in A Src mk_source get_slice Sig kinit kern L beam0).
  Notation rout := (ref_out A Src mk_source get_slice Sig kinit kern L beam0).
  Notation msg := (Mpi_Model.msg A).
  Notation tr := (Mpi_Model.tr A Src).

  Lemma sync_is_step P c c' : sync_step msg tr P c c' -> step msg tr P c c'.
  Proof. intros H; inversion H; subst; econstructor; eauto. Qed.

  Lemma steps_trans P n : forall c0 c1 m c2, steps msg tr P n c0 c1 -> steps msg tr P m c1 c2 -> steps msg tr P (n + m) c0 c2.
  Proof.
    intros c0 c1 m c2 H1 H2. induction H2 as [c|m c a b H2 IH Hs].
    - now rewrite Nat.add_0_r.
    - rewrite Nat.add_succ_r. econstructor; eauto.
  Qed.

  Lemma can_finish P N : 0 < P -> forall n c, steps msg tr P n (init_conf msg tr (prog P N)) c ->
    exists m c', steps msg tr P m c c' /\ finished msg tr P c'.
  Proof.
    intros HP.
    pose proof (mpi_bounded A Src mk_source get_slice Sig kinit kern L beam0 P N HP HL) as B.
    pose proof (mpi_progress A Src mk_source get_slice Sig kinit kern L beam0 P N HP HL) as Pg.
    set (bd := total P _) in B.
    assert (G : forall k n c, steps msg tr P n (init_conf msg tr (prog P N)) c -> bd - n <= k ->
      exists m c', steps msg tr P m c c' /\ finished msg tr P c').
    { induction k as [|k IH]; intros n c Hc Hk.
      - destruct (Pg n c Hc) as [F|(c' & S')].
        + exists 0, c. split; auto. constructor.
        + exfalso. apply sync_is_step in S'.
          assert (steps msg tr P (S n) (init_conf msg tr (prog P N)) c') by (econstructor; eauto).
          pose proof (B _ _ H). lia.
      - destruct (Pg n c Hc) as [F|(c' & S')].
        + exists 0, c. split; auto. constructor.
        + apply sync_is_step in S'.
          assert (H : steps msg tr P (S n) (init_conf msg tr (prog P N)) c') by (econstructor; eauto).
          destruct (IH _ _ H ltac:(lia)) as (m & c2 & S2 & F2).
          exists (1 + m), c2. split; auto. eapply steps_trans; eauto.
          econstructor; [constructor|]. exact S'. }
    intros n c Hc. eapply G; eauto.
  Qed.

  (** All the results of a finished run. *)
  Lemma finished_results P N n c : 0 < P -> steps msg tr P n (init_conf msg tr (prog P N)) c ->
    finished msg tr P c -> exists st : nat -> tr, forall r, r < P -> pr c r = Ret (st r) /\
      log (st r) = map (fun q => mkRec (q * P + r + 1) (rin P (q * P + r)) (rout P (q * P + r))) (seq 0 (steps_per_node P N r)) /\
      (0 < steps_per_node P N r -> (steps_per_node P N r - 1) * P + r + 1 = N -> final_drain (st r) = rout P (N - 1)).
  Proof.
    intros HP Hs F.
    exists (fun r => match pr c r with Ret x => x | _ => init_tr A Src mk_source beam0 r end).
    intros r Hr. destruct (F r Hr) as ((x & E) & _). rewrite E. split; auto.
    pose proof (mpi_results A Src mk_source get_slice Sig kinit kern L beam0 P N HP HL n c r x Hs Hr E) as D.
    unfold rank_done in D. destruct D as (D1 & D2 & D3).
    split; [exact D1|]. intros H0 Hfin.
    rewrite D3. match goal with |- (if ?b then _ else _) = _ => destruct b eqn:Eb end; auto.
    exfalso. apply andb_false_iff in Eb. unfold is_final, g_of in Eb. destruct Eb as [Eb|Eb]; lia.
  Qed.
End Runs.
