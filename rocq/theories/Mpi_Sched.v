(** Schedule of the time steps over the ranks (C06) and repeated calls of step (C09). *)
From Coq Require Import List Arith Bool Lia ZArith Permutation.
From Coq Require Import ZifyBool ZifyNat.
From Verif Require Import Ring Ring_Proofs Mpi_Model Mpi_Spec Mpi_Proofs Mpi_Ref.
Import ListNotations.

Lemma NoDup_flat_map {X Y} (f : X -> list Y) l : NoDup l -> (forall x, In x l -> NoDup (f x)) ->
  (forall x y a, In x l -> In y l -> In a (f x) -> In a (f y) -> x = y) -> NoDup (flat_map f l).
Proof.
  induction 1 as [|x l Hx Hl IH]; intros Hf Hd; simpl; [constructor|].
  assert (IH' : NoDup (flat_map f l)).
  { apply IH; [intros y Hy; apply Hf; now right|]. intros y z a Hy Hz. apply Hd; now right. }
  assert (G : forall l1, NoDup l1 -> (forall a, In a l1 -> In a (f x)) -> NoDup (l1 ++ flat_map f l)).
  { induction 1 as [|a l1 Ha Hl1 IHl1]; intros Hin; simpl; auto. constructor.
    - rewrite in_app_iff, in_flat_map. intros [H|(y & Hy & H)]; auto.
      assert (x = y) by (apply (Hd x y a); [now left|now right| |auto]; apply Hin; now left).
      subst. contradiction.
    - apply IHl1. intros b Hb. apply Hin. now right. }
  apply G; auto. apply Hf. now left.
Qed.

Lemma NoDup_map_inj {X Y} (f : X -> Y) l : (forall x y, f x = f y -> x = y) -> NoDup l -> NoDup (map f l).
Proof.
  intros Hf. induction 1; simpl; constructor; auto. rewrite in_map_iff. intros (y & E & Hy). apply Hf in E. now subst.
Qed.

Lemma div_mod_unique_nat P q1 r1 q2 r2 : r1 < P -> r2 < P -> q1 * P + r1 = q2 * P + r2 -> r1 = r2 /\ q1 = q2.
Proof.
  intros H1 H2 E. assert (q1 = q2) by nia. subst. split; lia.
Qed.

(** The global numbers of the steps given to the ranks are 0..N-1, each once. *)
Lemma schedule_perm P N : 0 < P ->
  Permutation (flat_map (fun r => map (fun q => q * P + r + 1) (seq 0 (steps_per_node P N r))) (seq 0 P)) (seq 1 N).
Proof.
  intros HP. apply NoDup_Permutation.
  - apply NoDup_flat_map; [apply seq_NoDup| |].
    + intros r _. apply NoDup_map_inj; [intros; nia|apply seq_NoDup].
    + intros r1 r2 a H1 H2 Ha Hb. apply in_seq in H1, H2.
      apply in_map_iff in Ha, Hb. destruct Ha as (q1 & E1 & _), Hb as (q2 & E2 & _).
      apply (div_mod_unique_nat P q1 r1 q2 r2); lia.
  - apply seq_NoDup.
  - intros g. rewrite in_flat_map, in_seq. split.
    + intros (r & Hr & Hg). apply in_seq in Hr. apply in_map_iff in Hg. destruct Hg as (q & E & Hq).
      apply in_seq in Hq. assert (q * P + r < N) by (apply (spn_iff P N r q); lia). lia.
    + intros Hg. exists ((g - 1) mod P). pose proof (Nat.mod_upper_bound (g - 1) P ltac:(lia)).
      pose proof (Nat.div_mod (g - 1) P ltac:(lia)).
      split; [apply in_seq; lia|]. apply in_map_iff. exists ((g - 1) / P). split; [nia|].
      apply in_seq. split; [apply Nat.le_0_l|]. simpl. apply spn_iff; auto. nia.
Qed.

  Lemma spn_1 N : steps_per_node 1 N 0 = N.
  Proof. unfold steps_per_node. rewrite Nat.div_1_r, Nat.mod_1_r. simpl. lia. Qed.

Section Again.
  Variable A : Type.
  Variable Src : Type.
  Variable mk_source : list A -> Src.
  Variable get_slice : Src -> nat -> list A * Src.
  Variable Sig : Type.
  Variable kinit : nat -> Sig.
  Variable kern : Sig -> nat -> list A -> Sig * list A.
  Variable L : nat.
  Variable beam0 : list A.
  Notation tr := (Mpi_Model.tr A Src).
  Notation layers := (Mpi_Model.layers A Src get_slice Sig kern 1).
  Notation time_loop := (Mpi_Model.time_loop A Src mk_source get_slice Sig kinit kern L 1).
  Variable N : nat.

  Lemma layers_1 n : forall i s (st : tr) ins outs k,
    exists st' ins' outs', layers N 0 n i s st ins outs k = k st' ins' outs' /\
      time A Src st' = time A Src st /\ log st' = log st /\ processed st' = processed st.
  Proof.
    induction n as [|n IH]; intros i s st ins outs k.
    - exists st, ins, outs. simpl. auto.
    - cbn [Mpi_Model.layers]. unfold pull. replace (first_step A Src 0 st || (0 =? 0)) with true
        by (symmetry; apply orb_true_r).
      destruct (get_slice (initial_source A Src st) i) as [b s1].
      destruct (kern s i b) as [s' o]. unfold push.
      replace (final_step A Src 1 N 0 _ || (0 =? 1 - 1)) with true by (symmetry; apply orb_true_r).
      edestruct IH as (st' & ins' & outs' & E1 & E2 & E3 & E4).
      exists st', ins', outs'. split; [exact E1|]. simpl in E2, E3, E4. auto.
  Qed.

  Lemma time_loop_1 n : forall st : tr, exists st', time_loop N 0 n st = Ret st' /\
    (exists l, log st' = log st ++ l /\ map sr_time l = seq (time A Src st) n).
  Proof.
    induction n as [|n IH]; intros st.
    - exists st. split; auto. exists []. rewrite app_nil_r. auto.
    - cbn [Mpi_Model.time_loop].
      edestruct (layers_1 L 0 (kinit (time A Src st)) st [] []) as (st1 & ins & outs & E & E2 & E3 & E4).
      rewrite E. clear E. unfold next_step.
      match goal with |- context [if ?b then _ else _] => destruct b end.
      + cbn -[Mpi_Model.time_loop]. edestruct IH as (st' & F1 & l & F2 & F3).
        rewrite F1. exists st'. split; auto. cbn in F2, F3. exists (mkRec (time A Src st1) ins outs :: l).
        rewrite F2, <- app_assoc, E3. split; auto. simpl. rewrite F3, E2. f_equal. f_equal. lia.
      + cbn -[Mpi_Model.time_loop]. edestruct IH as (st' & F1 & l & F2 & F3).
        rewrite F1. exists st'. split; auto. cbn in F2, F3. exists (mkRec (time A Src st1) ins outs :: l).
        rewrite F2, <- app_assoc, E3. split; auto. simpl. rewrite F3, E2. f_equal. f_equal. lia.
  Qed.


  Lemma again_1 m : exists st1 st2,
    rank_program A Src mk_source get_slice Sig kinit kern L beam0 1 N 0 = Ret st1 /\
    step_again A Src mk_source get_slice Sig kinit kern L 1 N 0 m st1 = Ret st2 /\
    map sr_time (log st1) = seq 1 N /\
    map sr_time (log st2) = seq 1 N ++ seq 1 N.
  Proof.
    unfold rank_program, step_again. rewrite spn_1.
    destruct (time_loop_1 N (init_tr A Src mk_source beam0 0)) as (st1 & E1 & l1 & E2 & E3).
    edestruct (time_loop_1 N) as (st2 & F1 & l2 & F2 & F3).
    exists st1, st2. rewrite E1. split; [reflexivity|]. split; [exact F1|].
    simpl in E2, E3. rewrite E2. split; auto.
    cbn in F2, F3. rewrite F2, map_app, F3, E2, E3. reflexivity.
  Qed.
End Again.

(** *** A small concrete instance, for non-vacuity and counterexamples: a particle is the number of
    its layer, the source hands out and forgets the particles of the requested layer, the kernel
    pushes at iteration i the particles pulled at iteration i-1. *)
Definition toy_cut (s : list nat) (i : nat) : list nat * list nat :=
  (filter (Nat.eqb i) s, filter (fun a => negb (Nat.eqb i a)) s).
Definition toy_kern (s : list nat) (i : nat) (b : list nat) : list nat * list nat := (b, s).

Lemma toy_disjoint : layers_disjoint Nat.eqb.
Proof. intros i j a H1 H2. apply Nat.eqb_eq in H1, H2. lia. Qed.

Lemma toy_slices n : forall i b, length (slices nat (list nat) toy_cut b i n) = n /\
  forall j, j < n -> nth j (slices nat (list nat) toy_cut b i n) [] = filter (Nat.eqb (i + j)) b.
Proof.
  induction n as [|n IH]; intros i b; simpl; split; auto; try lia.
  - f_equal. apply IH.
  - intros [|j] Hj.
    + now rewrite Nat.add_0_r.
    + destruct (IH (i + 1) (filter (fun a => negb (i =? a)) b)) as [_ IHj].
      rewrite IHj by lia. replace (i + 1 + j) with (i + S j) by lia. clear.
      induction b as [|a b IHb]; simpl; auto.
      destruct (Nat.eqb_spec i a); simpl.
      * destruct (Nat.eqb_spec (i + S j) a); auto. lia.
      * destruct (Nat.eqb_spec (i + S j) a); [f_equal|]; auto.
Qed.
Lemma toy_source : source_ok Nat.eqb (fun b n => slices nat (list nat) toy_cut b 0 n).
Proof.
  intros b n _. destruct (toy_slices n 0 b) as [H1 H2]. split; auto.
  intros i Hi. rewrite H2 by auto. reflexivity.
Qed.
Lemma toy_run ins : forall s i, ins <> [] -> run_kernel nat (list nat) toy_kern s i ins = s :: removelast ins.
Proof.
  induction ins as [|b ins IH]; intros s i H; [congruence|]. simpl. f_equal.
  destruct ins; auto. apply IH. discriminate.
Qed.
Lemma nth_removelast {X} (l : list X) d : forall i, i + 1 < length l -> nth i (removelast l) d = nth i l d.
Proof.
  induction l as [|x l IH]; intros i H; simpl in H; [lia|].
  destruct l as [|y l]; [simpl in H; lia|]. change (removelast (x :: y :: l)) with (x :: removelast (y :: l)).
  destruct i as [|i]; auto. simpl nth at 1. rewrite IH; [reflexivity|simpl in *; lia].
Qed.
Lemma removelast_len {X} (l : list X) : length (removelast l) = length l - 1.
Proof. induction l as [|x [|y l] IH]; simpl in *; auto. rewrite IH. lia. Qed.

Lemma toy_step : step_ok Nat.eqb (fun t ins => run_kernel nat (list nat) toy_kern [] 0 ins).
Proof.
  constructor.
  - intros t x y H. destruct x as [|a x].
    + inversion H; subst. constructor.
    + destruct y as [|b y]; [inversion H|]. rewrite !toy_run by discriminate. constructor; auto.
      clear t. revert a b y H. induction x as [|c x IH]; intros a b y H.
      * inversion H; subst. inversion H5; subst. constructor.
      * inversion H; subst. destruct y as [|d y]; [inversion H5|]. cbn [removelast].
        constructor; auto. apply (IH c d y). exact H5.
  - intros t [|a x]; auto.
  - intros t [|a x] H i q Hq.
    + destruct i; simpl in Hq; contradiction.
    + rewrite toy_run in Hq by discriminate. cbn [tl] in Hq.
      destruct (Nat.lt_ge_cases (i + 1) (length (a :: x))).
      * rewrite nth_removelast in Hq by auto. now apply H.
      * rewrite nth_overflow in Hq; [contradiction|]. rewrite removelast_len. lia.
Qed.

Lemma flat_map_ext' {Y} (f g : nat -> list Y) n : (forall r, r < n -> f r = g r) ->
  flat_map f (seq 0 n) = flat_map g (seq 0 n).
Proof.
  intros H. rewrite !flat_map_concat_map. f_equal. apply map_ext_in. intros r Hr. apply H.
  apply in_seq in Hr. lia.
Qed.

Lemma final_step_iff A Src P N rank (st : tr A Src) : 0 < N ->
  final_step A Src P N rank st = true <-> processed st * P + rank = N - 1.
Proof. intros HN. unfold final_step. rewrite Nat.eqb_eq. lia. Qed.

Lemma right_data A Src mk_source get_slice Sig kinit kern L beam0 P N n c r st :
  0 < P -> 0 < L -> r < P ->
  steps (msg A) (tr A Src) P n
    (init_conf _ _ (rank_program A Src mk_source get_slice Sig kinit kern L beam0 P N)) c ->
  pr c r = Ret st ->
  forall q rec, nth_error (log st) q = Some rec ->
    sr_in rec = ref_in A Src mk_source get_slice Sig kinit kern L beam0 P (q * P + r) /\
    sr_out rec = ref_out A Src mk_source get_slice Sig kinit kern L beam0 P (q * P + r).
Proof.
  intros HP HL Hr Hs E q rec Hq.
  destruct (mpi_results A Src mk_source get_slice Sig kinit kern L beam0 P N HP HL n c r st Hs Hr E) as (D & _ & _).
  rewrite D in Hq. rewrite nth_error_map in Hq.
  destruct (nth_error (seq 0 (steps_per_node P N r)) q) eqn:Eq; simpl in Hq; [|discriminate].
  apply nth_error_nth with (d := 0) in Eq as Eq'.
  assert (Hlt : q < steps_per_node P N r).
  { pose proof (proj1 (nth_error_Some (seq 0 (steps_per_node P N r)) q)) as Y. rewrite seq_length in Y.
    apply Y. rewrite Eq. discriminate. }
  rewrite seq_nth in Eq' by auto. simpl in Eq'. subst n0.
  injection Hq as <-. simpl. unfold g_of. auto.
Qed.

Lemma same_as_single A Src mk_source get_slice Sig kinit kern L beam0 inl P N n c n1 c1 st1 :
  0 < P -> 0 < L -> 0 < N ->
  layers_disjoint inl ->
  source_ok inl (fun b k => slices A Src get_slice (mk_source b) 0 k) ->
  step_ok inl (fun t ins => run_kernel A Sig kern (kinit t) 0 ins) ->
  (forall a, In a beam0 -> exists i, inl i a = true) ->
  steps (msg A) (tr A Src) P n
    (init_conf _ _ (rank_program A Src mk_source get_slice Sig kinit kern L beam0 P N)) c ->
  finished (msg A) (tr A Src) P c ->
  steps (msg A) (tr A Src) 1 n1
    (init_conf _ _ (rank_program A Src mk_source get_slice Sig kinit kern L beam0 1 N)) c1 ->
  finished (msg A) (tr A Src) 1 c1 -> pr c1 0 = Ret st1 ->
  exists st : nat -> tr A Src,
    (forall r, r < P -> pr c r = Ret (st r)) /\
    (forall g, g < N -> exists rec rec1,
        nth_error (log (st (g mod P))) (g / P) = Some rec /\ nth_error (log st1) g = Some rec1 /\
        sr_time rec = sr_time rec1 /\
        same_layers (sr_in rec) (sr_in rec1) /\ same_layers (sr_out rec) (sr_out rec1)) /\
    same_layers (final_drain (st ((N - 1) mod P))) (final_drain st1).
Proof.
  intros HP HL HN Hdis Hcut HT Hb0 Hs F Hs1 F1 E1.
  destruct (finished_results A Src mk_source get_slice Sig kinit kern L beam0 HL P N n c HP Hs F) as (st & H).
  destruct (finished_results A Src mk_source get_slice Sig kinit kern L beam0 HL 1 N n1 c1 ltac:(lia) Hs1 F1) as (st' & H1).
  destruct (H1 0 ltac:(lia)) as (R1 & L1 & D1). rewrite E1 in R1. injection R1 as R1. rewrite <- R1 in L1, D1. clear R1 st' H1.
  rewrite (spn_1 N) in L1, D1.
  exists st. split; [intros r Hr; now destruct (H r Hr)|]. split.
  - intros g Hg. pose proof (Nat.mod_upper_bound g P ltac:(lia)) as Hm.
    pose proof (Nat.div_mod g P ltac:(lia)) as Hdm.
    destruct (H (g mod P) Hm) as (_ & Lr & _).
    set (q := g / P) in *. set (r := g mod P) in *.
    assert (Hq : q < steps_per_node P N r) by (apply spn_iff; auto; lia).
    assert (Eg : q * P + r = g) by lia.
    eexists. eexists. split; [|split].
    + rewrite Lr, nth_error_map, (nth_error_nth' _ 0) by (rewrite seq_length; auto).
      rewrite seq_nth by auto. reflexivity.
    + rewrite L1, nth_error_map, (nth_error_nth' _ 0) by (rewrite seq_length; auto).
      rewrite seq_nth by auto. reflexivity.
    + cbn [sr_time sr_in sr_out]. simpl plus. rewrite Eg. replace (g * 1 + 0) with g by lia.
      split; [lia|]. split.
      * eapply rin_same; eauto.
      * eapply rout_same; eauto.
  - set (r := (N - 1) mod P). pose proof (Nat.mod_upper_bound (N - 1) P ltac:(lia)) as Hm.
    pose proof (Nat.div_mod (N - 1) P ltac:(lia)) as Hdm. fold r in Hm, Hdm.
    destruct (H r Hm) as (_ & _ & Dr).
    assert (Hq : (N - 1) / P < steps_per_node P N r) by (apply spn_iff; auto; lia).
    assert (Hq' : ~ ((N - 1) / P + 1 < steps_per_node P N r)) by (rewrite spn_iff; auto; nia).
    set (d := (N - 1) / P) in *. clearbody d.
    rewrite Dr; [rewrite D1; [|lia|lia]| |].
    + eapply rout_same; eauto.
    + lia.
    + replace (steps_per_node P N r - 1) with d by lia. nia.
Qed.

Lemma step_twice_refuted :
  ~ (forall A Src mk_source get_slice Sig kinit kern L beam0 n m st1 st2 st3,
      rank_program A Src mk_source get_slice Sig kinit kern L beam0 1 n 0 = Ret st1 ->
      step_again A Src mk_source get_slice Sig kinit kern L 1 n 0 m st1 = Ret st2 ->
      rank_program A Src mk_source get_slice Sig kinit kern L beam0 1 (n + m) 0 = Ret st3 ->
      map sr_time (log st2) = map sr_time (log st3)) /\
  ~ (forall A Src mk_source get_slice Sig kinit kern L beam0 n m st1 st2 st3,
      rank_program A Src mk_source get_slice Sig kinit kern L beam0 1 n 0 = Ret st1 ->
      step_again A Src mk_source get_slice Sig kinit kern L 1 n 0 m st1 = Ret st2 ->
      rank_program A Src mk_source get_slice Sig kinit kern L beam0 1 (n + m) 0 = Ret st3 ->
      Permutation (concat (final_drain st2)) (concat (final_drain st3))).
Proof.
  set (e1 := mkRec 1 [[0]; [1]; []] [[]; [0]; [1]]).
  set (e2 := mkRec 1 [[]; []; []] [[]; []; []] : srec nat).
  set (e3 := mkRec 2 [[0]; [1]; []] [[]; [0]; [1]]).
  set (s1 := mkTr nat (list nat) 1 true [] [[]; [0]; [1]] 2 [e1]).
  set (s2 := mkTr nat (list nat) 2 true [0; 1] [] 2 [e1; e2]).
  set (s3 := mkTr nat (list nat) 2 true [] [[]; [0]; [1]] 3 [e1; e3]).
  assert (R1 : rank_program nat (list nat) (fun b => b) toy_cut (list nat) (fun _ => []) toy_kern 3 [0; 1] 1 1 0 = Ret s1)
    by (vm_compute; reflexivity).
  assert (R2 : step_again nat (list nat) (fun b => b) toy_cut (list nat) (fun _ => []) toy_kern 3 1 1 0 1 s1 = Ret s2)
    by (vm_compute; reflexivity).
  assert (R3 : rank_program nat (list nat) (fun b => b) toy_cut (list nat) (fun _ => []) toy_kern 3 [0; 1] 1 (1 + 1) 0 = Ret s3)
    by (vm_compute; reflexivity).
  split; intros H; specialize (H _ _ _ _ _ _ _ _ _ _ _ _ _ _ R1 R2 R3).
  - vm_compute in H. discriminate.
  - vm_compute in H. apply Permutation_length in H. discriminate.
Qed.
