(** C08 with the beam code of this commit: the layers handed from one process to the next give the
    same beam, step by step, as a single process, for every schedule and every plasma solver. *)
From Coq Require Import Reals ZArith List Bool Lia Lra Permutation Sorting.Sorted.
From Verif Require Import Beam2D_Model Beam2D_Spec Beam2D_Proofs Beam2D_Ex Shape_Model Beam3D_Model Beam3D_Spec Beam3D_Proofs Beam3D_Ex Causal_Proofs.
From Verif Require Import Ring Ring_Proofs Mpi_Model Mpi_Spec Mpi_Proofs Mpi_Ref Mpi_Sched Mpi_Run MpiBeam_Model MpiBeam_Proofs MpiBeam_Ex.
Import ListNotations.
Open Scope R_scope.

(** Layer i of the window: -(i+1) dxi <= xi < -i dxi (2D: xi = 0 counts as layer 0). *)
Definition in_layer_2d (dxi : R) (i : nat) (p : part) : bool :=
  if Nat.eqb i 0 then in_xi_layer_top dxi 0 p else in_xi_layer dxi (Z.of_nat i) p.
Definition in_layer_3d (dxi : R) (i : nat) (p : part3) : bool := in_layer3 dxi (Z.of_nat i) p.
(** The particle is not ahead of layer i. *)
Definition not_ahead_of (dxi : R) (i : nat) (p : part) : Prop :=
  if Nat.eqb i 0 then xi p <= 0 else xi p < - (INR i * dxi).

(** The program of one rank: the time loop of simulation.py with the 2D (3D) beam. *)
Definition program2 sort_xi sort_bool {Pl} plasma pl_fields halvings c cells (pl0 : nat -> Pl) L beam0 (P N : nat) :=
  rank_program part source (new_source sort_xi) (get_slice2 (xi_step c)) (sig2 Pl) (kinit2 Pl cells pl0)
    (kern2 sort_bool Pl plasma pl_fields halvings c) L beam0 P N.
Definition program3 sort3 u {Pl} plasma pl_fields halvings c (pl0 : nat -> Pl) L beam0 (P N : nat) :=
  rank_program part3 (list part3) (new_source3 sort3) (get_slice3 (c_dxi c)) (sig3 Pl) (kinit3 Pl pl0)
    (kern3 Pl plasma pl_fields u halvings c) L beam0 P N.
(** Did the time step at time t with these layers finish without an exception? *)
Definition finishes2 sort_bool {Pl} plasma pl_fields halvings c cells (pl0 : nat -> Pl) (t : nat) (ins : list (list part)) : Prop :=
  completes _ _ (kern2 sort_bool Pl plasma pl_fields halvings c) (kinit2 Pl cells pl0 t) ins.
Definition finishes3 u {Pl} plasma pl_fields halvings c (pl0 : nat -> Pl) (t : nat) (ins : list (list part3)) : Prop :=
  completes _ _ (kern3 Pl plasma pl_fields u halvings c) (kinit3 Pl pl0 t) ins.

(** One time step of the program is the xi loop of Beam2D_Model: the same exception or none, and the
    pushed layers make up the beam in the drain. *)
Theorem C08_2d_step_is_the_xi_loop : forall sort_xi sort_bool Pl plasma pl_fields halvings c cells (pl0 : nat -> Pl) L beam t,
  0 < xi_step c ->
  let ins := slices part source (get_slice2 (xi_step c)) (new_source sort_xi beam) 0 L in
  match xi_loop sort_bool Pl plasma pl_fields halvings c L 0
          (mkLS Pl (new_source sort_xi beam) [] [] [] (repeat 0 cells) (repeat 0 cells) (pl0 t)) with
  | Some s => finishes2 sort_bool plasma pl_fields halvings c cells pl0 t ins /\
              drain_beam (ls_drain Pl s) = concat (run_kernel part _ (kern2 sort_bool Pl plasma pl_fields halvings c) (kinit2 Pl cells pl0 t) 0 ins)
  | None => ~ finishes2 sort_bool plasma pl_fields halvings c cells pl0 t ins
  end.
Proof.
  intros sort_xi sort_bool Pl plasma pl_fields h c cells pl0 L beam t Hd ins.
  pose proof (loop2 sort_bool Pl plasma pl_fields h c Hd L 0%nat _ (new_source sort_xi beam) [] [] [] (repeat 0 cells) (repeat 0 cells) (pl0 t) eq_refl) as K.
  change (Z.of_nat 0) with 0%Z in K. destruct (xi_loop _ _ _ _ _ _ _ _ _) as [s|].
  - destruct K as [K1 K2]. split; [|exact K2]. unfold finishes2, completes, kinit2. fold ins in K1. rewrite K1. discriminate.
  - intros F. apply F. exact K.
Qed.
Print Assumptions C08_2d_step_is_the_xi_loop.

Theorem C08_3d_step_is_the_xi_loop : forall sort3 u Pl plasma pl_fields halvings c (pl0 : nat -> Pl) L beam t,
  let ins := slices part3 (list part3) (get_slice3 (c_dxi c)) (new_source3 sort3 beam) 0 L in
  match run3 Pl plasma pl_fields u halvings c L 0
          (mkS3 Pl (new_source3 sort3 beam) [] 0 [] [] zero_grid zero_grid (pl0 t)) with
  | Some s => finishes3 u plasma pl_fields halvings c pl0 t ins /\
              map strip (s_drain Pl s) = concat (run_kernel part3 _ (kern3 Pl plasma pl_fields u halvings c) (kinit3 Pl pl0 t) 0 ins)
  | None => ~ finishes3 u plasma pl_fields halvings c pl0 t ins
  end.
Proof.
  intros sort3 u Pl plasma pl_fields h c pl0 L beam t ins.
  pose proof (loop3_kernel Pl plasma pl_fields u h c L 0%nat (new_source3 sort3 beam) [] [] [] [] zero_grid zero_grid (pl0 t)) as K.
  change (Z.of_nat 0) with 0%Z in K. cbn [app length map] in K. destruct (run3 _ _ _ _ _ _ _ _ _) as [s|].
  - destruct K as [(l & f & _ & _ & K1) K2]. split; [|exact K2]. unfold finishes3, completes, kinit3. fold ins in K1. rewrite K1. discriminate.
  - intros F. apply F. exact K.
Qed.
Print Assumptions C08_3d_step_is_the_xi_loop.

(** 2D: if in the single-process run no particle ends a time step ahead of the layer it is pushed
    for, then for every number of processes and every schedule the run shows the same beam in every
    layer of every time step, raises where the single process raises, and leaves the same beam. *)
Theorem C08_2d_same_as_single_process : forall sort_xi sort_bool Pl plasma pl_fields halvings c cells (pl0 : nat -> Pl) L beam0 P N n cf n1 cf1 st1,
  sort_xi_ok sort_xi -> sort_bool_ok sort_bool ->
  0 < r_step c -> 0 < xi_step c -> INR L * xi_step c <= 99999 -> (0 < P)%nat -> (0 < L)%nat -> (0 < N)%nat ->
  let prog := program2 sort_xi sort_bool plasma pl_fields halvings c cells pl0 L beam0 in
  let fin := finishes2 sort_bool plasma pl_fields halvings c cells pl0 in
  steps (msg part) (tr part source) P n (init_conf _ _ (prog P N)) cf -> finished (msg part) (tr part source) P cf ->
  steps (msg part) (tr part source) 1 n1 (init_conf _ _ (prog 1%nat N)) cf1 -> finished (msg part) (tr part source) 1 cf1 ->
  pr cf1 0%nat = Ret st1 ->
  (forall rec i p, In rec (log st1) -> In p (nth (S i) (sr_out rec) []) -> not_ahead_of (xi_step c) i p) ->
  exists st : nat -> tr part source,
    (forall r, (r < P)%nat -> pr cf r = Ret (st r)) /\
    (forall g, (g < N)%nat -> exists rec rec1,
        nth_error (log (st (g mod P)%nat)) (g / P)%nat = Some rec /\ nth_error (log st1) g = Some rec1 /\
        sr_time rec = sr_time rec1 /\
        same_layers (sr_in rec) (sr_in rec1) /\ same_layers (sr_out rec) (sr_out rec1) /\
        (fin (sr_time rec) (sr_in rec) <-> fin (sr_time rec1) (sr_in rec1))) /\
    same_layers (final_drain (st ((N - 1) mod P)%nat)) (final_drain st1).
Proof.
  intros sort_xi sort_bool Pl plasma pl_fields h c cells pl0 L beam0 P N n cf n1 cf1 st1 Hx Hb Hr Hd HW HP HL HN prog fin S1 F1 S2 F2 E Hlog.
  unfold prog, program2 in S1, S2.
  assert (Hlay : forall rec, In rec (log st1) -> layers_ok (layer2 (xi_step c) 0) (tl (sr_out rec))).
  { intros rec Hrec i p Hp.
    destruct (finished_results _ _ _ _ _ _ _ _ _ HL 1 N n1 cf1 ltac:(lia) S2 F2) as (st' & H'). destruct (H' 0%nat ltac:(lia)) as (R1 & L1 & _).
    rewrite E in R1. injection R1 as R1. rewrite <- R1 in L1. pose proof Hrec as Hrec'. rewrite L1 in Hrec'. apply in_map_iff in Hrec'. destruct Hrec' as (g & Eg & _).
    assert (Hp' : In p (nth (S i) (sr_out rec) [])) by (destruct (sr_out rec); [destruct i; destruct Hp|exact Hp]).
    pose proof (Hlog rec i p Hrec Hp') as Up. rewrite <- Eg in Hp'. cbn [sr_out] in Hp'. unfold ref_out in Hp'.
    apply (pushed_above sort_bool Pl plasma pl_fields h c Hb) in Hp'. rewrite Nat.add_0_l in Hp'.
    unfold layer2, in_xi_layer_top, in_xi_layer. unfold not_ahead_of in Up. destruct (Nat.eqb_spec i 0) as [->|].
    - cbn in Hp'. destruct (Rle_dec _ _); [|exfalso; cbn in *; lra]. destruct (Rle_dec _ _); [reflexivity|exfalso; cbn in *; lra].
    - rewrite Z.add_0_l. rewrite Nat2Z.inj_succ in Hp'. unfold Z.succ in Hp'. destruct (Rle_dec _ _); [|contradiction].
      rewrite <- INR_IZR_INZ. destruct (Rlt_dec _ _); [reflexivity|contradiction]. }
  destruct (same_as_single_run _ _ _ _ _ _ _ _ _ (layer2 (xi_step c) 0) P N n cf n1 cf1 st1 HP HL HN
    (disjoint2 c Hd) (cut2 sort_xi c L Hx Hd HW)
    (fun t x y Q => proj1 (order2 sort_bool Pl plasma pl_fields h c cells pl0 Hb Hr Hd t x y Q))
    (first2 sort_bool Pl plasma pl_fields h c cells pl0 Hb) S1 F1 S2 F2 E Hlay) as (st & A & B & D).
  exists st. split; auto. split; auto. intros g Hg. destruct (B g Hg) as (rec & rec1 & B1 & B2 & B3 & B4 & B5 & B6 & B7 & B8).
    exists rec, rec1. do 5 (split; auto). unfold fin, finishes2. rewrite <- B3. now apply order2.
Qed.
Print Assumptions C08_2d_same_as_single_process.

(** 3D, CPU and GPU: the same, if the particles pushed at iteration i + 1 of the single-process run
    lie in layer i. *)
Theorem C08_3d_same_as_single_process : forall sort3 u Pl plasma pl_fields halvings c (pl0 : nat -> Pl) L beam0 P N n cf n1 cf1 st1,
  sort3_ok sort3 -> 0 < c_h c -> 0 < c_dxi c -> (0 < P)%nat -> (0 < L)%nat -> (0 < N)%nat ->
  let prog := program3 sort3 u plasma pl_fields halvings c pl0 L beam0 in
  let fin := finishes3 u plasma pl_fields halvings c pl0 in
  steps (msg part3) (tr part3 (list part3)) P n (init_conf _ _ (prog P N)) cf -> finished (msg part3) (tr part3 (list part3)) P cf ->
  steps (msg part3) (tr part3 (list part3)) 1 n1 (init_conf _ _ (prog 1%nat N)) cf1 -> finished (msg part3) (tr part3 (list part3)) 1 cf1 ->
  pr cf1 0%nat = Ret st1 ->
  (forall rec, In rec (log st1) -> layers_ok (in_layer_3d (c_dxi c)) (tl (sr_out rec))) ->
  exists st : nat -> tr part3 (list part3),
    (forall r, (r < P)%nat -> pr cf r = Ret (st r)) /\
    (forall g, (g < N)%nat -> exists rec rec1,
        nth_error (log (st (g mod P)%nat)) (g / P)%nat = Some rec /\ nth_error (log st1) g = Some rec1 /\
        sr_time rec = sr_time rec1 /\
        same_layers (sr_in rec) (sr_in rec1) /\ same_layers (sr_out rec) (sr_out rec1) /\
        (fin (sr_time rec) (sr_in rec) <-> fin (sr_time rec1) (sr_in rec1))) /\
    same_layers (final_drain (st ((N - 1) mod P)%nat)) (final_drain st1).
Proof.
  intros sort3 u Pl plasma pl_fields h c pl0 L beam0 P N n cf n1 cf1 st1 Hx Hr Hd HP HL HN prog fin S1 F1 S2 F2 E Hlog.
  unfold prog, program3 in S1, S2.
  destruct (same_as_single_run _ _ _ _ _ _ _ _ _ (in_layer_3d (c_dxi c)) P N n cf n1 cf1 st1 HP HL HN
    (disjoint3 c Hd) (cut3_layers sort3 c L Hx Hd)
    (fun t x y Q => proj1 (order3 sort3 Pl plasma pl_fields u h c pl0 Hr t x y Q))
    (first3 Pl plasma pl_fields u h c pl0) S1 F1 S2 F2 E Hlog) as (st & A & B & D).
  exists st. split; auto. split; auto. intros g Hg. destruct (B g Hg) as (rec & rec1 & B1 & B2 & B3 & B4 & B5 & B6 & B7 & B8).
    exists rec, rec1. do 5 (split; auto). unfold fin, finishes3. rewrite <- B3. now apply order3.
Qed.
Print Assumptions C08_3d_same_as_single_process.

(** A run of the program always finishes. *)
Lemma run_exists {A Src} mk_source get_slice Sig kinit kern L beam0 P N : (0 < L)%nat -> (0 < P)%nat ->
  exists n c, steps (msg A) (tr A Src) P n (init_conf _ _ (rank_program A Src mk_source get_slice Sig kinit kern L beam0 P N)) c /\ finished (msg A) (tr A Src) P c.
Proof.
  intros HL HP. destruct (can_finish A Src mk_source get_slice Sig kinit kern L beam0 HL P N HP 0 _ (steps_O _ _ _ _)) as (m & c' & S & F). eauto.
Qed.

(** Two processes and one process run two time steps with a particle that is overtaken by one layer
    per time step; the hypothesis of the 2D theorem holds. *)
Example C08_2d_nonvacuous : exists n cf n1 cf1 st1,
  let prog := program2 isort bsort (fun _ _ _ => tt) (fun _ => still) 0 rest_cfg 6 (fun _ => tt) 4 [at_layer 0] in
  steps (msg part) (tr part source) 2 n (init_conf _ _ (prog 2%nat 2%nat)) cf /\ finished (msg part) (tr part source) 2 cf /\
  steps (msg part) (tr part source) 1 n1 (init_conf _ _ (prog 1%nat 2%nat)) cf1 /\ finished (msg part) (tr part source) 1 cf1 /\
  pr cf1 0%nat = Ret st1 /\
  map sr_out (log st1) = [[[]; []; [at_layer 1]; []]; [[]; []; []; [at_layer 2]]] /\
  (forall rec i p, In rec (log st1) -> In p (nth (S i) (sr_out rec) []) -> not_ahead_of (xi_step rest_cfg) i p).
Proof.
  unfold program2. set (kn := kern2 bsort unit (fun _ _ _ => tt) (fun _ => still) 0 rest_cfg).
  destruct (run_exists (new_source isort) (get_slice2 (xi_step rest_cfg)) (sig2 unit) (kinit2 unit 6 (fun _ => tt)) kn 4 [at_layer 0] 2 2 ltac:(lia) ltac:(lia)) as (n & cf & A1 & A2).
  destruct (run_exists (new_source isort) (get_slice2 (xi_step rest_cfg)) (sig2 unit) (kinit2 unit 6 (fun _ => tt)) kn 4 [at_layer 0] 1 2 ltac:(lia) ltac:(lia)) as (n1 & cf1 & B1 & B2).
  destruct (finished_results _ _ _ _ _ _ _ 4%nat _ ltac:(lia) 1 2 n1 cf1 ltac:(lia) B1 B2) as (st' & H'). destruct (H' 0%nat ltac:(lia)) as (R1 & L1 & _).
  exists n, cf, n1, cf1, (st' 0%nat). do 5 (split; auto).
  assert (Lg : map sr_out (log (st' 0%nat)) = [[[]; []; [at_layer 1]; []]; [[]; []; []; [at_layer 2]]]).
  { rewrite L1. change (steps_per_node 1 2 0) with 2%nat. cbn [seq map sr_out plus Nat.mul]. unfold ref_out. cbn [plus].
    assert (I0 : ref_in part source (new_source isort) (get_slice2 (xi_step rest_cfg)) (sig2 unit) (kinit2 unit 6 (fun _ => tt)) kn 4 [at_layer 0] 1 0 = [[at_layer 0]; []; []; []])
      by exact (rest_slices 0 ltac:(lia)).
    assert (I1 : ref_in part source (new_source isort) (get_slice2 (xi_step rest_cfg)) (sig2 unit) (kinit2 unit 6 (fun _ => tt)) kn 4 [at_layer 0] 1 1 = [[]; [at_layer 1]; []; []]).
    { cbn [ref_in]. change (1 mod 1 =? 0)%nat with true. cbv iota. cbn [plus].
      change (slices part source (get_slice2 (xi_step rest_cfg)) (new_source isort [at_layer 0]) 0 4) with
        (ref_in part source (new_source isort) (get_slice2 (xi_step rest_cfg)) (sig2 unit) (kinit2 unit 6 (fun _ => tt)) kn 4 [at_layer 0] 1 0).
      rewrite I0. unfold kn. rewrite rest_out0. exact (rest_slices 1 ltac:(lia)). }
    rewrite I0, I1. unfold kn. rewrite rest_out0, rest_out1. reflexivity. }
  split; [exact Lg|].
  intros rec i p Hr Hp. apply (in_map sr_out) in Hr. rewrite Lg in Hr.
  destruct Hr as [Hr|[Hr|[]]]; rewrite <- Hr in Hp; destruct i as [|[|[|i]]]; cbn [nth] in Hp; try (now destruct Hp); try (now destruct i; destruct Hp);
    destruct Hp as [<-|[]]; unfold not_ahead_of, at_layer; cbn; lra.
Qed.

(** The same in 3D, on the CPU and on the GPU: a particle that stays in its layer. *)
Example C08_3d_nonvacuous : forall u, exists n cf n1 cf1 st1,
  let prog := program3 isort3 u (fun _ _ _ => tt) (fun _ => no_fields) 0 (s_cfg (1 / 4)) (fun _ => tt) 2 [s_part (- (1 / 4))] in
  steps (msg part3) (tr part3 (list part3)) 2 n (init_conf _ _ (prog 2%nat 2%nat)) cf /\ finished (msg part3) (tr part3 (list part3)) 2 cf /\
  steps (msg part3) (tr part3 (list part3)) 1 n1 (init_conf _ _ (prog 1%nat 2%nat)) cf1 /\ finished (msg part3) (tr part3 (list part3)) 1 cf1 /\
  pr cf1 0%nat = Ret st1 /\
  map sr_out (log st1) = [[[]; [s_part (- (1 / 4) - 1 / 4)]]; [[]; [s_part (- (1 / 4) - 1 / 4 - 1 / 4)]]] /\
  (forall rec, In rec (log st1) -> layers_ok (in_layer_3d (c_dxi (s_cfg (1 / 4)))) (tl (sr_out rec))).
Proof.
  intros u. unfold program3. set (kn := kern3 unit (fun _ _ _ => tt) (fun _ => no_fields) u 0 (s_cfg (1 / 4))). set (x := - (1 / 4)).
  destruct (run_exists (new_source3 isort3) (get_slice3 (c_dxi (s_cfg (1 / 4)))) (sig3 unit) (kinit3 unit (fun _ => tt)) kn 2 [s_part x] 2 2 ltac:(lia) ltac:(lia)) as (n & cf & A1 & A2).
  destruct (run_exists (new_source3 isort3) (get_slice3 (c_dxi (s_cfg (1 / 4)))) (sig3 unit) (kinit3 unit (fun _ => tt)) kn 2 [s_part x] 1 2 ltac:(lia) ltac:(lia)) as (n1 & cf1 & B1 & B2).
  destruct (finished_results _ _ _ _ _ _ _ 2%nat _ ltac:(lia) 1 2 n1 cf1 ltac:(lia) B1 B2) as (st' & H'). destruct (H' 0%nat ltac:(lia)) as (R1 & L1 & _).
  exists n, cf, n1, cf1, (st' 0%nat). do 5 (split; auto).
  assert (Lg : map sr_out (log (st' 0%nat)) = [[[]; [s_part (x - 1 / 4)]]; [[]; [s_part (x - 1 / 4 - 1 / 4)]]]).
  { rewrite L1. change (steps_per_node 1 2 0) with 2%nat. cbn [seq map sr_out plus Nat.mul]. unfold ref_out. cbn [plus].
    assert (I0 : ref_in part3 (list part3) (new_source3 isort3) (get_slice3 (c_dxi (s_cfg (1 / 4)))) (sig3 unit) (kinit3 unit (fun _ => tt)) kn 2 [s_part x] 1 0 = [[s_part x]; []])
      by (refine (s_slices 0 x ltac:(lia) _); unfold x; cbn; lra).
    assert (I1 : ref_in part3 (list part3) (new_source3 isort3) (get_slice3 (c_dxi (s_cfg (1 / 4)))) (sig3 unit) (kinit3 unit (fun _ => tt)) kn 2 [s_part x] 1 1 = [[s_part (x - 1 / 4)]; []]).
    { cbn [ref_in]. change (1 mod 1 =? 0)%nat with true. cbv iota. cbn [plus].
      change (slices part3 (list part3) (get_slice3 (c_dxi (s_cfg (1 / 4)))) (new_source3 isort3 [s_part x]) 0 2) with
        (ref_in part3 (list part3) (new_source3 isort3) (get_slice3 (c_dxi (s_cfg (1 / 4)))) (sig3 unit) (kinit3 unit (fun _ => tt)) kn 2 [s_part x] 1 0).
      rewrite I0. unfold kn. rewrite s_run by (unfold x; lra). refine (s_slices 0 (x - 1 / 4) ltac:(lia) _). unfold x. cbn. lra. }
    rewrite I0, I1. unfold kn. rewrite !s_run by (unfold x; lra). reflexivity. }
  split; [exact Lg|].
  intros rec Hr. apply (in_map sr_out) in Hr. rewrite Lg in Hr.
  destruct Hr as [Hr|[Hr|[]]]; rewrite <- Hr; intros i p Hp; cbn [tl] in Hp; (destruct i as [|[|i]]; cbn [nth] in Hp; try (now destruct Hp));
    destruct Hp as [<-|[]]; unfold in_layer_3d; cbn [c_dxi s_cfg]; apply s_layer; unfold x; cbn; lra.
Qed.

(** On the CPU the 3D condition fails for a single particle at rest without any field: the code tests
    x instead of xi (move.py:124) and pushes the particle for the layer it has just left.  Two
    processes then put it one layer ahead of where one process puts it. *)
Theorem C08_3d_cpu_same_as_single_refuted :
  ~ (forall n cf n1 cf1 st1,
    let prog := program3 isort3 CPU (fun _ _ _ => tt) (fun _ => no_fields) 0 (s_cfg 1) (fun _ => tt) 2 [s_part (- (1 / 4))] in
    steps (msg part3) (tr part3 (list part3)) 2 n (init_conf _ _ (prog 2%nat 2%nat)) cf -> finished (msg part3) (tr part3 (list part3)) 2 cf ->
    steps (msg part3) (tr part3 (list part3)) 1 n1 (init_conf _ _ (prog 1%nat 2%nat)) cf1 -> finished (msg part3) (tr part3 (list part3)) 1 cf1 ->
    pr cf1 0%nat = Ret st1 ->
    exists st : nat -> tr part3 (list part3), (forall r, (r < 2)%nat -> pr cf r = Ret (st r)) /\
      exists rec rec1, nth_error (log (st 1%nat)) 0 = Some rec /\ nth_error (log st1) 1 = Some rec1 /\ same_layers (sr_in rec) (sr_in rec1)).
Proof.
  intros H. unfold program3 in H. set (kn := kern3 unit (fun _ _ _ => tt) (fun _ => no_fields) CPU 0 (s_cfg 1)) in H. set (x := - (1 / 4)) in H.
  destruct (run_exists (new_source3 isort3) (get_slice3 (c_dxi (s_cfg 1))) (sig3 unit) (kinit3 unit (fun _ => tt)) kn 2 [s_part x] 2 2 ltac:(lia) ltac:(lia)) as (n & cf & A1 & A2).
  destruct (run_exists (new_source3 isort3) (get_slice3 (c_dxi (s_cfg 1))) (sig3 unit) (kinit3 unit (fun _ => tt)) kn 2 [s_part x] 1 2 ltac:(lia) ltac:(lia)) as (n1 & cf1 & B1 & B2).
  destruct (finished_results _ _ _ _ _ _ _ 2%nat _ ltac:(lia) 1 2 n1 cf1 ltac:(lia) B1 B2) as (st' & H'). destruct (H' 0%nat ltac:(lia)) as (R1 & L1 & _).
  destruct (finished_results _ _ _ _ _ _ _ 2%nat _ ltac:(lia) 2 2 n cf ltac:(lia) A1 A2) as (st2 & H2). destruct (H2 1%nat ltac:(lia)) as (Q1 & M1 & _).
  destruct (H n cf n1 cf1 (st' 0%nat) A1 A2 B1 B2 R1) as (st & Hst & rec & rec1 & E1 & E2 & S).
  assert (K : Ret (st 1%nat) = Ret (st2 1%nat)) by (rewrite <- Hst, <- Q1 by lia; reflexivity). injection K as K. rewrite K, M1 in E1. rewrite L1 in E2.
  change (steps_per_node 2 2 1) with 1%nat in E1. change (steps_per_node 1 2 0) with 2%nat in E2.
  cbn [seq map nth_error] in E1, E2. injection E1 as <-. injection E2 as <-. cbn [sr_in plus Nat.mul] in S.
  assert (I0 : forall P, ref_in part3 (list part3) (new_source3 isort3) (get_slice3 (c_dxi (s_cfg 1))) (sig3 unit) (kinit3 unit (fun _ => tt)) kn 2 [s_part x] P 0 = [[s_part x]; []])
      by (intros P; refine (s_slices 0 x ltac:(lia) _); unfold x; cbn; lra).
  assert (O : forall P, run_kernel part3 (sig3 unit) kn (kinit3 unit (fun _ => tt) 1) 0
      (ref_in part3 (list part3) (new_source3 isort3) (get_slice3 (c_dxi (s_cfg 1))) (sig3 unit) (kinit3 unit (fun _ => tt)) kn 2 [s_part x] P 0) = [[]; [s_part (x - 1)]]).
  { intros P. rewrite I0. apply s_run; [unfold x; lra|now left]. }
  assert (J1 : ref_in part3 (list part3) (new_source3 isort3) (get_slice3 (c_dxi (s_cfg 1))) (sig3 unit) (kinit3 unit (fun _ => tt)) kn 2 [s_part x] 1 1 = [[]; [s_part (x - 1)]]).
  { transitivity (slices part3 (list part3) (get_slice3 1) (new_source3 isort3 [s_part (x - 1)]) 0 2).
    - change (slices part3 (list part3) (get_slice3 1) (new_source3 isort3 (concat (run_kernel part3 (sig3 unit) kn (kinit3 unit (fun _ => tt) 1) 0
        (ref_in part3 (list part3) (new_source3 isort3) (get_slice3 (c_dxi (s_cfg 1))) (sig3 unit) (kinit3 unit (fun _ => tt)) kn 2 [s_part x] 1 0)))) 0 2
        = slices part3 (list part3) (get_slice3 1) (new_source3 isort3 [s_part (x - 1)]) 0 2). rewrite O. reflexivity.
    - refine (s_slices 1 (x - 1) ltac:(lia) _). unfold x. cbn. lra. }
  assert (J2 : ref_in part3 (list part3) (new_source3 isort3) (get_slice3 (c_dxi (s_cfg 1))) (sig3 unit) (kinit3 unit (fun _ => tt)) kn 2 [s_part x] 2 1 = [[s_part (x - 1)]; []]).
  { change (tl (run_kernel part3 (sig3 unit) kn (kinit3 unit (fun _ => tt) 1) 0
        (ref_in part3 (list part3) (new_source3 isort3) (get_slice3 (c_dxi (s_cfg 1))) (sig3 unit) (kinit3 unit (fun _ => tt)) kn 2 [s_part x] 2 0)) ++ [[]] = [[s_part (x - 1)]; []]).
    rewrite O. reflexivity. }
  assert (S' : same_layers [[s_part (x - 1)]; []] [[]; [s_part (x - 1)]])
    by exact (eq_ind _ (fun l => same_layers l _) (eq_ind _ (fun l => same_layers _ l) S _ J1) _ J2).
  inversion S' as [|? ? ? ? P1 _]; subst. apply Permutation_length in P1. discriminate.
Qed.
Print Assumptions C08_3d_cpu_same_as_single_refuted.
