(** C08 for a given run: what the single-process run has to satisfy so that every parallel run
    shows the same beam.  Same proof idea as Mpi_Ref.v, with the condition on the layers required
    only of the steps the single-process run makes. *)
From Coq Require Import List Arith Bool Lia ZArith Permutation.
From Coq Require Import ZifyBool ZifyNat.
From Verif Require Import Ring Ring_Proofs Mpi_Model Mpi_Spec Mpi_Proofs Mpi_Ref Mpi_Sched.
Import ListNotations.

Lemma same_at {A} (x y : list (list A)) : same_layers x y -> forall i, Permutation (nth i x []) (nth i y []).
Proof. induction 1; intros [|i]; simpl; auto. Qed.
Lemma layers_ok_same {A} (inl : nat -> A -> bool) x y : same_layers x y -> layers_ok inl x -> layers_ok inl y.
Proof. intros H K i p Hp. apply K. eapply Permutation_in; [apply Permutation_sym, same_at|]; eauto. Qed.
Lemma layers_ok_shift {A} (inl : nat -> A -> bool) x y : same_layers x y -> layers_ok inl (tl x) -> layers_ok inl (tl y).
Proof. intros H. apply layers_ok_same. inversion H; simpl; auto. constructor. Qed.

Section R.
  Variable A : Type.
  Variable Src : Type.
  Variable mk_source : list A -> Src.
  Variable get_slice : Src -> nat -> list A * Src.
  Variable Sig : Type.
  Variable kinit : nat -> Sig.
  Variable kern : Sig -> nat -> list A -> Sig * list A.
  Variable L : nat.
  Variable beam0 : list A.
  Variable inl : nat -> A -> bool.
  Variable N : nat.

  Notation rin := (ref_in A Src mk_source get_slice Sig kinit kern L beam0).
  Notation rout := (ref_out A Src mk_source get_slice Sig kinit kern L beam0).
  Notation T := (fun t ins => run_kernel A Sig kern (kinit t) 0 ins).
  Notation cut := (fun b => slices A Src get_slice (mk_source b) 0 L).

  Hypothesis Hdis : layers_disjoint inl.
  Hypothesis Hcut : forall b, (forall a, In a b -> exists i, inl i a = true) ->
    forall i, i < L -> Permutation (nth i (cut b) []) (filter (inl i) b).
  Hypothesis Hord : forall t x y, same_layers x y -> same_layers (T t x) (T t y).
  Hypothesis Hfirst : forall t x, nth 0 (T t x) [] = [].
  Hypothesis HL : 0 < L.
  Hypothesis Hlay : forall g, g < N -> layers_ok inl (tl (rout 1 g)).

  Lemma slices_length s i n : length (slices A Src get_slice s i n) = n.
  Proof. revert s i. induction n as [|n IH]; intros s i; simpl; auto. destruct (get_slice s i). simpl. now rewrite IH. Qed.

  Lemma next_layers' o : length o = L -> nth 0 o [] = [] -> layers_ok inl (tl o) ->
    same_layers (cut (concat o)) (tl o ++ [[]]).
  Proof.
    intros Hl H0 Hy. destruct o as [|x o]; [simpl in Hl; lia|]. simpl in H0, Hy, Hl. subst x.
    cbn [concat app tl].
    pose proof (Hcut (concat o) (in_concat_layer A inl o Hy)) as Cp.
    apply (same_nth A L HL).
    - rewrite slices_length, app_length. simpl. lia.
    - intros i Hi. rewrite slices_length in Hi. eapply Permutation_trans; [apply Cp; auto|].
      rewrite (filter_concat_layers A L [] inl Hdis (fun a (H : In a []) => match H with end) HL o 0) by (intros; now apply Hy). simpl. rewrite Nat.sub_0_r.
      destruct (Nat.lt_ge_cases i (length o)).
      + now rewrite app_nth1 by auto.
      + rewrite nth_overflow by auto. rewrite app_nth2 by auto.
        destruct (i - length o) as [|[|k]]; simpl; auto.
  Qed.

  Lemma rin_next Q g : 0 < Q -> layers_ok inl (tl (rout Q g)) -> same_layers (rin Q (S g)) (tl (rout Q g) ++ [[]]).
  Proof.
    intros HQ Hy. cbn [ref_in]. change (run_kernel A Sig kern (kinit (g + 1)) 0 (rin Q g)) with (rout Q g).
    destruct (S g mod Q =? 0); [|apply same_refl].
    apply next_layers'; auto.
    - unfold ref_out. rewrite run_kernel_length. apply rin_length; auto.
    - apply (Hfirst (g + 1)).
  Qed.

  Lemma rin_same' P : 0 < P -> forall g, g <= N -> same_layers (rin P g) (rin 1 g).
  Proof.
    intros HP. induction g as [|g IH]; intros Hg; [apply same_refl|].
    assert (K : same_layers (rout P g) (rout 1 g)) by (apply (Hord (g + 1)), IH; lia).
    pose proof (Hlay g ltac:(lia)) as L1.
    assert (LP : layers_ok inl (tl (rout P g))) by (eapply layers_ok_shift; [apply same_sym; eauto|auto]).
    eapply same_trans; [apply rin_next; auto|]. eapply same_trans; [|apply same_sym, rin_next; auto].
    apply Forall2_app; [|repeat constructor]. inversion K; simpl; auto.
  Qed.
  Lemma rout_same' P g : 0 < P -> g <= N -> same_layers (rout P g) (rout 1 g).
  Proof. intros. apply (Hord (g + 1)). now apply rin_same'. Qed.
End R.

(** The run version of [same_as_single]: the hypothesis on the layers is about the records of the
    single-process run. *)
Lemma same_as_single_run A Src mk_source get_slice Sig kinit kern L beam0 inl P N n c n1 c1 st1 :
  0 < P -> 0 < L -> 0 < N ->
  layers_disjoint inl ->
  (forall b, (forall a, In a b -> exists i, inl i a = true) ->
     forall i, i < L -> Permutation (nth i (slices A Src get_slice (mk_source b) 0 L) []) (filter (inl i) b)) ->
  (forall t x y, same_layers x y -> same_layers (run_kernel A Sig kern (kinit t) 0 x) (run_kernel A Sig kern (kinit t) 0 y)) ->
  (forall t x, nth 0 (run_kernel A Sig kern (kinit t) 0 x) [] = []) ->
  steps (msg A) (tr A Src) P n
    (init_conf _ _ (rank_program A Src mk_source get_slice Sig kinit kern L beam0 P N)) c ->
  finished (msg A) (tr A Src) P c ->
  steps (msg A) (tr A Src) 1 n1
    (init_conf _ _ (rank_program A Src mk_source get_slice Sig kinit kern L beam0 1 N)) c1 ->
  finished (msg A) (tr A Src) 1 c1 -> pr c1 0 = Ret st1 ->
  (forall rec, In rec (log st1) -> layers_ok inl (tl (sr_out rec))) ->
  exists st : nat -> tr A Src,
    (forall r, r < P -> pr c r = Ret (st r)) /\
    (forall g, g < N -> exists rec rec1,
        nth_error (log (st (g mod P))) (g / P) = Some rec /\ nth_error (log st1) g = Some rec1 /\
        sr_time rec = sr_time rec1 /\ sr_time rec = g + 1 /\
        sr_out rec = run_kernel A Sig kern (kinit (g + 1)) 0 (sr_in rec) /\
        sr_out rec1 = run_kernel A Sig kern (kinit (g + 1)) 0 (sr_in rec1) /\
        same_layers (sr_in rec) (sr_in rec1) /\ same_layers (sr_out rec) (sr_out rec1)) /\
    same_layers (final_drain (st ((N - 1) mod P))) (final_drain st1).
Proof.
  intros HP HL HN Hdis Hcut Hord Hfirst Hs F Hs1 F1 E1 Hlog.
  destruct (finished_results A Src mk_source get_slice Sig kinit kern L beam0 HL P N n c HP Hs F) as (st & H).
  destruct (finished_results A Src mk_source get_slice Sig kinit kern L beam0 HL 1 N n1 c1 ltac:(lia) Hs1 F1) as (st' & H1).
  destruct (H1 0 ltac:(lia)) as (R1 & L1 & D1). rewrite E1 in R1. injection R1 as R1. rewrite <- R1 in L1, D1. clear R1 st' H1.
  rewrite (spn_1 N) in L1, D1.
  assert (Hlay : forall g, g < N -> layers_ok inl (tl (ref_out A Src mk_source get_slice Sig kinit kern L beam0 1 g))).
  { intros g Hg.
    assert (I : In (mkRec (g * 1 + 0 + 1) (ref_in A Src mk_source get_slice Sig kinit kern L beam0 1 (g * 1 + 0))
                      (ref_out A Src mk_source get_slice Sig kinit kern L beam0 1 (g * 1 + 0))) (log st1)).
    { rewrite L1. apply in_map_iff. exists g. split; auto. apply in_seq. lia. }
    specialize (Hlog _ I). cbn [sr_out] in Hlog. now replace (g * 1 + 0) with g in Hlog by lia. }
  exists st. split; [intros r Hr; now destruct (H r Hr)|]. split.
  - intros g Hg. pose proof (Nat.mod_upper_bound g P ltac:(lia)) as Hm.
    pose proof (Nat.div_mod g P ltac:(lia)) as Hdm.
    destruct (H (g mod P) Hm) as (_ & Lr & _).
    set (q := g / P) in *. set (r := g mod P) in *.
    assert (Hq : q < steps_per_node P N r) by (apply spn_iff; auto; lia).
    assert (Eg : q * P + r = g) by lia.
    eexists. eexists. split; [|split].
    + rewrite Lr, nth_error_map, (nth_error_nth' _ 0) by (rewrite seq_length; auto).
      rewrite seq_nth by auto. reflexivity.
    + rewrite L1, nth_error_map, (nth_error_nth' _ 0) by (rewrite seq_length; auto).
      rewrite seq_nth by auto. reflexivity.
    + cbn [sr_time sr_in sr_out]. simpl plus. rewrite Eg. replace (g * 1 + 0) with g by lia.
      split; [lia|]. split; [lia|]. split; [reflexivity|]. split; [reflexivity|]. split.
      * eapply rin_same'; eauto. lia.
      * eapply rout_same'; eauto. lia.
  - set (r := (N - 1) mod P). pose proof (Nat.mod_upper_bound (N - 1) P ltac:(lia)) as Hm.
    pose proof (Nat.div_mod (N - 1) P ltac:(lia)) as Hdm. fold r in Hm, Hdm.
    destruct (H r Hm) as (_ & _ & Dr).
    assert (Hq : (N - 1) / P < steps_per_node P N r) by (apply spn_iff; auto; lia).
    assert (Hq' : ~ ((N - 1) / P + 1 < steps_per_node P N r)) by (rewrite spn_iff; auto; nia).
    set (d := (N - 1) / P) in *. clearbody d.
    rewrite Dr; [rewrite D1; [|lia|lia]| |].
    + eapply rout_same'; eauto. lia.
    + lia.
    + replace (steps_per_node P N r - 1) with d by lia. nia.
Qed.
