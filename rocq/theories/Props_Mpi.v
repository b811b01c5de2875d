(** C06-C09: distribution of the time steps over MPI processes.
    [run_state P prog n c] below is any configuration reachable in [n] transitions under any
    schedule and any choice (buffered or rendezvous) for every Send. *)
From Coq Require Import List Arith Bool Lia Permutation.
From Verif Require Import Ring Ring_Proofs Mpi_Model Mpi_Spec Mpi_Proofs Mpi_Ref Mpi_Sched.
Import ListNotations.

(** C06.  In every finished run every time step 1..N was executed exactly once, the q-th step of
    rank r being global step q*P + r at time (q*P+r+1)*dt. *)
Theorem C06_every_step_run_once : forall A Src mk_source get_slice Sig kinit kern L beam0 P N n c,
  0 < P -> 0 < L ->
  steps (msg A) (tr A Src) P n
    (init_conf _ _ (rank_program A Src mk_source get_slice Sig kinit kern L beam0 P N)) c ->
  finished (msg A) (tr A Src) P c ->
  exists st : nat -> tr A Src,
    (forall r, r < P -> pr c r = Ret (st r)) /\
    (forall r, r < P -> forall q t, nth_error (map sr_time (log (st r))) q = Some t <->
       (q * P + r < N /\ t = q * P + r + 1)) /\
    Permutation (flat_map (fun r => map sr_time (log (st r))) (seq 0 P)) (seq 1 N).
Proof.
  intros A Src mk_source get_slice Sig kinit kern L beam0 P N n c HP HL Hs F.
  destruct (finished_results A Src mk_source get_slice Sig kinit kern L beam0 HL P N n c HP Hs F) as (st & H).
  assert (E : forall r, r < P -> map sr_time (log (st r)) = map (fun q => q * P + r + 1) (seq 0 (steps_per_node P N r))).
  { intros r Hr. destruct (H r Hr) as (_ & E & _). rewrite E, map_map. reflexivity. }
  exists st. split; [intros r Hr; now destruct (H r Hr)|]. split.
  - intros r Hr q t. rewrite E by auto. rewrite <- (spn_iff P N r q HP Hr). split.
    + intros X. pose proof (nth_error_Some (map (fun q => q * P + r + 1) (seq 0 (steps_per_node P N r))) q) as Y.
      rewrite X in Y. rewrite map_length, seq_length in Y.
      assert (Hq : q < steps_per_node P N r) by (apply Y; discriminate). split; auto.
      rewrite nth_error_map, (nth_error_nth' _ 0) in X by (rewrite seq_length; auto).
      rewrite seq_nth in X by auto. simpl in X. congruence.
    + intros [Hq ->]. rewrite nth_error_map, (nth_error_nth' _ 0) by (rewrite seq_length; auto).
      rewrite seq_nth by auto. reflexivity.
  - rewrite (flat_map_ext' _ _ _ E). now apply schedule_perm.
Qed.
Print Assumptions C06_every_step_run_once.

(** Exactly one step is treated as the final one, the last in time. *)
Theorem C06_one_final_step : forall A Src P N rank (st : tr A Src), 0 < N ->
  final_step A Src P N rank st = true <-> processed st * P + rank = N - 1.
Proof. exact final_step_iff. Qed.
Print Assumptions C06_one_final_step.

(** C07.  No reachable configuration is stuck, even if no Send is ever buffered; every execution
    ends; at the end every message has been received. *)
Theorem C07_no_deadlock : forall A Src mk_source get_slice Sig kinit kern L beam0 P N n c,
  0 < P -> 0 < L ->
  steps (msg A) (tr A Src) P n
    (init_conf _ _ (rank_program A Src mk_source get_slice Sig kinit kern L beam0 P N)) c ->
  finished (msg A) (tr A Src) P c \/ exists c', sync_step (msg A) (tr A Src) P c c'.
Proof.
  intros A Src mk_source get_slice Sig kinit kern L beam0 P N n c HP HL.
  exact (mpi_progress A Src mk_source get_slice Sig kinit kern L beam0 P N HP HL n c).
Qed.
Print Assumptions C07_no_deadlock.

Theorem C07_always_terminates : forall A Src mk_source get_slice Sig kinit kern L beam0 P N,
  0 < P -> 0 < L ->
  exists bound, forall n c,
  steps (msg A) (tr A Src) P n
    (init_conf _ _ (rank_program A Src mk_source get_slice Sig kinit kern L beam0 P N)) c ->
  n <= bound /\ exists m c', steps (msg A) (tr A Src) P m c c' /\ finished (msg A) (tr A Src) P c'.
Proof.
  intros A Src mk_source get_slice Sig kinit kern L beam0 P N HP HL. eexists. intros n c Hs. split.
  - exact (mpi_bounded A Src mk_source get_slice Sig kinit kern L beam0 P N HP HL n c Hs).
  - exact (can_finish A Src mk_source get_slice Sig kinit kern L beam0 HL P N HP n c Hs).
Qed.
Print Assumptions C07_always_terminates.

(** A receiver always obtains the message meant for it: whatever the schedule, the layers each step
    pulls and pushes are those of the sequential reference semantics, in which step g pulls
    exactly what step g-1 pushed. *)
Theorem C07_right_data : forall A Src mk_source get_slice Sig kinit kern L beam0 P N n c r st,
  0 < P -> 0 < L -> r < P ->
  steps (msg A) (tr A Src) P n
    (init_conf _ _ (rank_program A Src mk_source get_slice Sig kinit kern L beam0 P N)) c ->
  pr c r = Ret st ->
  forall q rec, nth_error (log st) q = Some rec ->
    sr_in rec = ref_in A Src mk_source get_slice Sig kinit kern L beam0 P (q * P + r) /\
    sr_out rec = ref_out A Src mk_source get_slice Sig kinit kern L beam0 P (q * P + r).
Proof. exact right_data. Qed.
Print Assumptions C07_right_data.

(** C08.  If a time step does not depend on the order of particles inside a layer and leaves every
    pushed particle in the layer it is pushed for, then for every number of processes and every
    schedule each time step sees the same beam, layer by layer, as in the single-process run, and
    so does the beam left in the drain by the final step. *)
Theorem C08_same_as_single_process : forall A Src mk_source get_slice Sig kinit kern L beam0 inl
    P N n c n1 c1 st1,
  0 < P -> 0 < L -> 0 < N ->
  layers_disjoint inl ->
  source_ok inl (fun b k => slices A Src get_slice (mk_source b) 0 k) ->
  step_ok inl (fun t ins => run_kernel A Sig kern (kinit t) 0 ins) ->
  (forall a, In a beam0 -> exists i, inl i a = true) ->
  (* the parallel run *)
  steps (msg A) (tr A Src) P n
    (init_conf _ _ (rank_program A Src mk_source get_slice Sig kinit kern L beam0 P N)) c ->
  finished (msg A) (tr A Src) P c ->
  (* the single-process run *)
  steps (msg A) (tr A Src) 1 n1
    (init_conf _ _ (rank_program A Src mk_source get_slice Sig kinit kern L beam0 1 N)) c1 ->
  finished (msg A) (tr A Src) 1 c1 -> pr c1 0 = Ret st1 ->
  exists st : nat -> tr A Src,
    (forall r, r < P -> pr c r = Ret (st r)) /\
    (forall g, g < N -> exists rec rec1,
        nth_error (log (st (g mod P))) (g / P) = Some rec /\ nth_error (log st1) g = Some rec1 /\
        sr_time rec = sr_time rec1 /\
        same_layers (sr_in rec) (sr_in rec1) /\ same_layers (sr_out rec) (sr_out rec1)) /\
    same_layers (final_drain (st ((N - 1) mod P))) (final_drain st1).
Proof. exact same_as_single. Qed.
Print Assumptions C08_same_as_single_process.

(** Non-vacuity: the hypotheses hold of the toy instance of Mpi_Sched.v, whose beam really moves
    through the ranks. *)
Example C08_nonvacuous :
  layers_disjoint Nat.eqb /\
  source_ok Nat.eqb (fun b n => slices nat (list nat) toy_cut b 0 n) /\
  step_ok Nat.eqb (fun t ins => run_kernel nat (list nat) toy_kern [] 0 ins) /\
  ref_out nat (list nat) (fun b => b) toy_cut (list nat) (fun _ => []) toy_kern 4 [2; 0; 1; 0] 2 5
    = [[]; [0; 0]; [1]; [2]].
Proof.
  split; [exact toy_disjoint|]. split; [exact toy_source|]. split; [exact toy_step|]. vm_compute. reflexivity.
Qed.

(** C09.  A second call of step on the same object executes the number of steps of the first call
    whatever its own argument is, at times that start again from dt. *)
Theorem C09_second_call_repeats_first_count :
  forall A Src mk_source get_slice Sig kinit kern L beam0 n m, exists st1 st2,
    rank_program A Src mk_source get_slice Sig kinit kern L beam0 1 n 0 = Ret st1 /\
    step_again A Src mk_source get_slice Sig kinit kern L 1 n 0 m st1 = Ret st2 /\
    map sr_time (log st1) = seq 1 n /\
    map sr_time (log st2) = seq 1 n ++ seq 1 n.
Proof. exact again_1. Qed.
Print Assumptions C09_second_call_repeats_first_count.

(** The wanted property fails: step(n); step(m) is not step(n+m), neither in the times nor in the
    beam that is left in the drain. *)
Theorem C09_step_twice_is_step_sum_refuted :
  ~ (forall A Src mk_source get_slice Sig kinit kern L beam0 n m st1 st2 st3,
      rank_program A Src mk_source get_slice Sig kinit kern L beam0 1 n 0 = Ret st1 ->
      step_again A Src mk_source get_slice Sig kinit kern L 1 n 0 m st1 = Ret st2 ->
      rank_program A Src mk_source get_slice Sig kinit kern L beam0 1 (n + m) 0 = Ret st3 ->
      map sr_time (log st2) = map sr_time (log st3)) /\
  ~ (forall A Src mk_source get_slice Sig kinit kern L beam0 n m st1 st2 st3,
      rank_program A Src mk_source get_slice Sig kinit kern L beam0 1 n 0 = Ret st1 ->
      step_again A Src mk_source get_slice Sig kinit kern L 1 n 0 m st1 = Ret st2 ->
      rank_program A Src mk_source get_slice Sig kinit kern L beam0 1 (n + m) 0 = Ret st3 ->
      Permutation (concat (final_drain st2)) (concat (final_drain st3))).
Proof. exact step_twice_refuted. Qed.
Print Assumptions C09_step_twice_is_step_sum_refuted.
