(** Theorems C33 (output period), C34 (quantities recorded), C49 (contents of files), C50 (positions),
    C51 (file names), C52 (energy flux and maxima). *)
From Coq Require Import Reals ZArith List Bool String Ascii Lra Lia Psatz Permutation.
From Verif Require Import Beam2D_Model Beam2D_Spec Beam2D_Free Beam2D_Ex Shape_Model Plasma2D_Model Plasma2D_Ode Plasma3D_Model Mpi_Model Mpi_Sched Diag_Model Diag_Spec Diag_Proofs.
Import ListNotations.
Local Open Scope list_scope.
Local Open Scope R_scope.

(** ** C33 *)
(** A step is output exactly when it is within half a time step of a multiple of the period. *)
Theorem C33_output_when_due : forall P dt t, 0 < dt ->
  condition_check t (clamp_period P dt) dt = true <-> due P dt t.
Proof. exact condition_due. Qed.
Print Assumptions C33_output_when_due.
(** An infinite period gives no periodic output at all. *)
Theorem C33_never : forall dt k, 0 < dt -> (1 <= k)%nat -> ~ due Never dt (INR k * dt).
Proof.
  intros dt k H Hk. simpl. apply le_INR in Hk. simpl in Hk. intros C. apply abs_le_inv in C. nra.
Qed.
Print Assumptions C33_never.

(** the step whose time is nearest to x *)
Lemma nearest_step dt x N : 0 < dt -> dt / 2 <= x -> x <= INR N * dt + dt / 2 -> (1 <= N)%nat ->
  exists k, (1 <= k <= N)%nat /\ Rabs (INR k * dt - x) <= dt / 2.
Proof.
  intros H L U HN. set (z := floorR (x / dt + 1 / 2)). pose proof (floorR_spec (x / dt + 1 / 2)) as F. fold z in F.
  assert (Ex : x = x / dt * dt) by (field; lra).
  assert (A : 1 / 2 <= x / dt) by (apply (Rmult_le_reg_r dt); [auto|]; rewrite <- Ex; lra).
  assert (B : x / dt <= INR N + 1 / 2) by (apply (Rmult_le_reg_r dt); [auto|]; rewrite <- Ex; lra).
  assert (Z1 : (1 <= z)%Z). { apply Z.lt_pred_le. apply lt_IZR. unfold Z.pred. rewrite plus_IZR. simpl. lra. }
  assert (Z2 : (z <= Z.of_nat N + 1)%Z). { apply le_IZR. rewrite plus_IZR, <- INR_IZR_INZ. lra. }
  destruct (Z.eq_dec z (Z.of_nat N + 1)) as [E|E].
  - exists N. split; [lia|]. rewrite E, plus_IZR, <- INR_IZR_INZ in F. assert (x / dt = INR N + 1 / 2) by lra.
    rewrite Ex, H0. replace (INR N * dt - (INR N + 1 / 2) * dt) with (- (dt / 2)) by field. rewrite Rabs_Ropp, Rabs_right; lra.
  - exists (Z.to_nat z). split; [lia|]. rewrite INR_IZR_INZ, Z2Nat.id by lia. rewrite Ex.
    replace (IZR z * dt - x / dt * dt) with ((IZR z - x / dt) * dt) by ring.
    rewrite Rabs_mult, (Rabs_right dt) by lra. replace (dt / 2) with (1 / 2 * dt) by field. apply Rmult_le_compat_r; [lra|].
    apply Rabs_le. lra.
Qed.
(** Every multiple of the period that the run reaches has its output step, half a time step away at
    most. *)
Theorem C33_every_multiple_has_output : forall p dt n N, 0 < dt -> (1 <= n)%Z -> (1 <= N)%nat -> IZR n * Rmax p dt <= INR N * dt + dt / 2 ->
  exists k, (1 <= k <= N)%nat /\ Rabs (INR k * dt - IZR n * Rmax p dt) <= dt / 2 /\
    condition_check (INR k * dt) (clamp_period (Every p) dt) dt = true.
Proof.
  intros p dt n N H Hn HN U. apply IZR_le in Hn. simpl in Hn. assert (dt <= Rmax p dt) by apply Rmax_r.
  destruct (nearest_step dt (IZR n * Rmax p dt) N) as (k & Hk & D); auto; [nra|].
  exists k. repeat split; try lia; auto. apply condition_due; auto. now exists n.
Qed.
Print Assumptions C33_every_multiple_has_output.
Example C33_every_multiple_ex : exists k, (1 <= k <= 10)%nat /\ Rabs (INR k * 1 - 3 * Rmax (5/2) 1) <= 1 / 2 /\
    condition_check (INR k * 1) (clamp_period (Every (5/2)) 1) 1 = true.
Proof.
  apply C33_every_multiple_has_output; try lra; try lia. rewrite Rmax_left by lra.
  replace (INR 10) with 10 by (rewrite INR_IZR_INZ; reflexivity). lra.
Qed.
(** With a period not longer than the time step every step is output. *)
Theorem C33_small_period_every_step : forall p dt k, 0 < dt -> p <= dt -> due (Every p) dt (INR k * dt).
Proof.
  intros p dt k H Hp. exists (Z.of_nat k). rewrite Rmax_right, <- INR_IZR_INZ by auto. rewrite Rminus_eq_0, Rabs_R0. lra.
Qed.
Print Assumptions C33_small_period_every_step.
(** With a period of m time steps exactly every m-th step is output. *)
Theorem C33_whole_period : forall m dt k, 0 < dt -> (1 <= m)%nat ->
  due (Every (INR m * dt)) dt (INR k * dt) <-> Nat.divide m k.
Proof.
  intros m dt k H Hm. assert (M : 1 <= INR m) by (apply (le_INR 1); auto).
  unfold due. rewrite Rmax_left by nra. split.
  - intros [n Hn]. replace (INR k * dt - IZR n * (INR m * dt)) with ((INR k - IZR n * INR m) * dt) in Hn by ring.
    rewrite Rabs_mult, (Rabs_right dt) in Hn by lra. assert (X : Rabs (INR k - IZR n * INR m) <= 1 / 2) by (apply (Rmult_le_reg_r dt); auto; lra).
    rewrite !INR_IZR_INZ, <- mult_IZR, <- minus_IZR, <- abs_IZR in X.
    assert (Z.abs (Z.of_nat k - n * Z.of_nat m) = 0)%Z. { apply Z.le_antisymm; [|apply Z.abs_nonneg]. apply IZR_lt1. simpl. lra. }
    exists (Z.to_nat n). assert (Z.of_nat k = n * Z.of_nat m)%Z by lia. assert (0 <= n)%Z by nia. nia.
  - intros [q E]. exists (Z.of_nat q). rewrite E, mult_INR, <- INR_IZR_INZ. replace (INR q * INR m * dt - INR q * (INR m * dt)) with 0 by ring. rewrite Rabs_R0. lra.
Qed.
Print Assumptions C33_whole_period.
(** Two different steps are output for the same multiple only when it lies exactly in the middle
    between them. *)
Theorem C33_once_outside_ties : forall p dt n k k', 0 < dt -> (k < k')%nat ->
  Rabs (INR k * dt - IZR n * Rmax p dt) <= dt / 2 -> Rabs (INR k' * dt - IZR n * Rmax p dt) <= dt / 2 ->
  k' = (k + 1)%nat /\ IZR n * Rmax p dt = (INR k + 1 / 2) * dt.
Proof.
  intros p dt n k k' H Hk A B. apply abs_le_inv in A, B. assert (C : INR k' - INR k <= 1) by (apply (Rmult_le_reg_r dt); auto; lra).
  assert (E : k' = (k + 1)%nat). { assert (INR k' <= INR (k + 1)) by (rewrite plus_INR; simpl; lra). apply INR_le in H0. lia. }
  split; [auto|]. rewrite E, plus_INR in B. simpl in B. lra.
Qed.
Print Assumptions C33_once_outside_ties.
(** ... and then both are: "once per period" is not exact. *)
Theorem C33_exactly_once_refuted : exists p dt n k k', 0 < dt /\ (0 < n)%Z /\ k <> k' /\
  Rabs (INR k * dt - IZR n * Rmax p dt) <= dt / 2 /\ Rabs (INR k' * dt - IZR n * Rmax p dt) <= dt / 2 /\
  condition_check (INR k * dt) (clamp_period (Every p) dt) dt = true /\ condition_check (INR k' * dt) (clamp_period (Every p) dt) dt = true.
Proof.
  exists (5/2), 1, 1%Z, 2%nat, 3%nat. assert (M : Rmax (5/2) 1 = 5/2) by (apply Rmax_left; lra).
  assert (A : Rabs (INR 2 * 1 - 1 * Rmax (5/2) 1) <= 1 / 2) by (rewrite M; simpl; apply Rabs_le; lra).
  assert (B : Rabs (INR 3 * 1 - 1 * Rmax (5/2) 1) <= 1 / 2) by (rewrite M; simpl; apply Rabs_le; lra).
  repeat split; try lra; try lia; auto; (apply condition_due; [lra|]; exists 1%Z; auto).
Qed.
Print Assumptions C33_exactly_once_refuted.

(** The ranks together execute the times dt, 2dt, ..., N dt, each once. *)
Lemma rank_time dt size r j : dt * INR (r + 1) + INR j * (dt * INR size) = INR (j * size + r + 1) * dt.
Proof. rewrite <- Nat.add_assoc, (plus_INR (j * size)), mult_INR. ring. Qed.
Lemma times_perm dt size N : (0 < size)%nat ->
  Permutation (flat_map (fun r => rank_times dt size r (steps_per_node size N r)) (seq 0 size)) (map (fun k => INR k * dt) (seq 1 N)).
Proof.
  intros H. rewrite <- (Permutation_map (fun k => INR k * dt) (schedule_perm size N H)).
  rewrite !flat_map_concat_map, concat_map, map_map. apply Permutation_refl'. f_equal. apply map_ext. intros r.
  unfold rank_times. rewrite map_map. apply map_ext. intros j. apply rank_time.
Qed.
Lemma perm_filter {A} (f : A -> bool) l l' : Permutation l l' -> Permutation (filter f l) (filter f l').
Proof.
  induction 1; simpl; auto.
  - destruct (f x); auto.
  - destruct (f x), (f y); auto. constructor.
  - etransitivity; eauto.
Qed.
Section Outs.
  Context {layer : Type}.
  Variable P : period.
  Variable dt : R.
  Hypothesis Hdt : 0 < dt.
  Definition dueb (s : R * list layer) : bool := condition_check (fst s) (clamp_period P dt) dt.
  Lemma outs_false steps o : output_steps P dt false steps o -> o = filter dueb steps.
  Proof.
    remember false as b. induction 1; subst; simpl; auto.
    - destruct H; [discriminate|]. unfold dueb at 1. simpl. apply condition_due in H; auto. rewrite H. f_equal. auto.
    - unfold dueb at 1. simpl. apply condition_due_false in H; auto. rewrite H. auto.
  Qed.
  Lemma outs_true s r o : output_steps P dt true (s :: r) o -> o = s :: filter dueb r.
  Proof. intros H. inversion H; subst. f_equal. now apply outs_false. Qed.
End Outs.
Lemma filter_flat_map {A B} (f : B -> bool) (g : A -> list B) l : filter f (flat_map g l) = flat_map (fun a => filter f (g a)) l.
Proof. induction l; simpl; auto. rewrite filter_app. congruence. Qed.
(** Splitting the run over any number of ranks gives the same output steps as one process. *)
Theorem C33_same_output_for_any_ranks : forall (layer : Type) (shown : R -> list layer) P dt size N outs single,
  0 < dt -> (0 < size)%nat -> (1 <= N)%nat ->
  (forall r, (r < size)%nat -> output_steps P dt (Nat.eqb r 0) (map (fun t => (t, shown t)) (rank_times dt size r (steps_per_node size N r))) (outs r)) ->
  output_steps P dt true (map (fun t => (t, shown t)) (rank_times dt 1 0 N)) single ->
  Permutation (flat_map outs (seq 0 size)) single.
Proof.
  intros layer shown P dt size N outs single Hdt Hs HN HR H1.
  set (st := fun r => map (fun t => (t, shown t)) (rank_times dt size r (steps_per_node size N r))) in *.
  assert (PT : Permutation (flat_map st (seq 0 size)) (map (fun t => (t, shown t)) (map (fun k => INR k * dt) (seq 1 N)))).
  { rewrite <- (times_perm dt size N Hs). rewrite flat_map_concat_map, flat_map_concat_map, concat_map, map_map. apply Permutation_refl. }
  assert (S1 : map (fun t => (t, shown t)) (rank_times dt 1 0 N) = map (fun t => (t, shown t)) (map (fun k => INR k * dt) (seq 1 N))).
  { f_equal. unfold rank_times. rewrite <- seq_shift, map_map. apply map_ext. intros j. rewrite rank_time. f_equal. f_equal. lia. }
  rewrite S1 in H1. destruct N as [|N]; [lia|]. cbn [seq map] in H1, PT. apply outs_true in H1; auto. subst single.
  destruct size as [|size]; [lia|]. cbn [seq flat_map]. cbn [seq flat_map] in PT.
  assert (SP : exists m, steps_per_node (S size) (S N) 0 = S m).
  { pose proof (proj2 (Mpi_Proofs.spn_iff (S size) (S N) 0 0 ltac:(lia) ltac:(lia)) ltac:(lia)). exists (steps_per_node (S size) (S N) 0 - 1)%nat. lia. }
  destruct SP as [m Em]. pose proof (HR 0%nat ltac:(lia)) as H0. change (Nat.eqb 0 0) with true in H0. fold (st 0%nat) in H0.
  assert (ST0 : exists r0, st 0%nat = (INR 1 * dt, shown (INR 1 * dt)) :: r0).
  { unfold st, rank_times. rewrite Em. simpl seq. simpl map. eexists. f_equal. f_equal; [simpl; ring|f_equal; simpl; ring]. }
  destruct ST0 as [r0 E0]. rewrite E0 in H0, PT. apply outs_true in H0; auto. rewrite H0.
  simpl app. apply perm_skip. simpl app in PT. apply Permutation_cons_inv in PT.
  apply (perm_filter (dueb P dt)) in PT. rewrite filter_app, filter_flat_map in PT.
  rewrite <- PT. apply Permutation_app_head. rewrite !flat_map_concat_map. 
  apply Permutation_refl'. f_equal. apply map_ext_in. intros r Hr. apply in_seq in Hr. 
  pose proof (HR r ltac:(lia)) as X. destruct r as [|r]; [lia|]. change (Nat.eqb (S r) 0) with false in X. now apply outs_false in X.
Qed.
Print Assumptions C33_same_output_for_any_ranks.

(** ** C34, C49: what the files contain *)
Lemma Forall2_len {A B} (Q : A -> B -> Prop) l l' : Forall2 Q l l' -> List.length l = List.length l'.
Proof. induction 1; simpl; congruence. Qed.
Lemma new_is rank : new_diag rank = mkD (Nat.eqb rank 0) no_data.
Proof. reflexivity. Qed.
(** FXiDiag in 3D: one file per output step (the steps due, and the first step of rank 0), holding the
    layers of that step and of no other, in order; under the name of every quantity asked for one value
    per layer, the field at the probe lines' cells (or the largest chaotic displacement, or the energy
    flux), and nothing under other names. *)
Theorem C49_fxi_files_3d : forall P dt h n probes qs rank (steps : list (R * list layer3)), 0 < dt ->
  let cells := map (probe3 n h) probes in
  (forall t ls l, In (t, ls) steps -> In l ls -> readable3 cells l) ->
  exists s' fs outs,
    diag_run (fun _ => entries3 (flags qs) h cells) (clamp_period P dt) dt steps (new_diag rank) = Some (s', fs) /\
    output_steps P dt (Nat.eqb rank 0) steps outs /\
    Forall2 (fun step f => f_time f = fst step /\
       f_data f "xi"%string = map (fun l => [[l3_xi l]]) (snd step) /\
       (forall q, In q qs -> Forall2 (stored3 h cells q) (snd step) (f_data f (key3 q))) /\
       (forall q, ~ In q qs -> f_data f (key3 q) = [])) outs fs.
Proof.
  intros P dt h n probes qs rank steps Hdt cells H.
  destruct (output_total P dt Hdt steps (Nat.eqb rank 0)) as (outs & O).
  pose proof (outs_incl _ _ _ _ _ O) as I.
  destruct (run_total (fun _ => entries3 (flags qs) h cells) P dt Hdt steps _ outs O) as (s' & fs & E).
  { intros t ls X. apply (traverse_total (fun _ => entries3 (flags qs) h cells) t). intros l Hl. destruct (entries3_spec qs h cells l (H t ls l (I _ X) Hl)) as (es & Ee & _). eauto. }
  exists s', fs, outs. rewrite new_is. split; [exact E|]. split; [exact O|].
  destruct (run_files _ P dt Hdt _ _ _ _ E) as (o2 & O2 & F). rewrite <- (output_unique _ _ _ _ _ O _ O2) in F.
  apply (Forall2_impl' _ _ _ _ F). intros [t ls] f X Hh. split; [apply Hh|].
  destruct (holds_layers _ t ls f (fun l es => under "xi"%string es = [scalar (l3_xi l)] /\
     forall q, (In q qs -> under (key3 q) es = [val3 h cells l q]) /\ (~ In q qs -> under (key3 q) es = [])) Hh) as (ess & F2 & D).
  { intros l Hl. apply entries3_spec. apply (H t ls l (I _ X) Hl). }
  split; [|split].
  - rewrite D. apply (concat_single ls). apply (Forall2_impl' _ _ _ _ F2). tauto.
  - intros q Hq. rewrite D. rewrite (concat_single ls ess (key3 q) (fun l => val3 h cells l q)).
    2:{ apply (Forall2_impl' _ _ _ _ F2). intros l es _ [_ A]. now apply A. }
    cbn [snd]. assert (G : forall l, In l ls -> stored3 h cells q l (val3 h cells l q)) by (intros l Hl; apply process3_spec, (H t ls l (I _ X) Hl)).
    clear - G. induction ls; simpl; constructor; [apply G; simpl; auto|apply IHls; intros; apply G; simpl; auto].
  - intros q Hq. rewrite D. apply (concat_empty ls). apply (Forall2_impl' _ _ _ _ F2). intros l es _ [_ A]. now apply A.
Qed.
Print Assumptions C49_fxi_files_3d.

(** FXiDiag in 2D, the same for the quantities that exist there. *)
Theorem C49_fxi_files_2d : forall P dt h probes qs rank (steps : list (R * list layer2)), 0 < dt ->
  let cells := map (probe2 h) probes in
  (forall t ls l, In (t, ls) steps -> In l ls -> readable2 cells l) -> (forall q, In q qs -> supported2 q) ->
  exists s' fs outs,
    diag_run (fun _ => entries2 (flags qs) cells) (clamp_period P dt) dt steps (new_diag rank) = Some (s', fs) /\
    output_steps P dt (Nat.eqb rank 0) steps outs /\
    Forall2 (fun step f => f_time f = fst step /\
       f_data f "xi"%string = map (fun l => [[l2_xi l]]) (snd step) /\
       (forall q k, key2 q = Some k -> In q qs -> f_data f k = map (fun l => [map (field2_of q l) cells]) (snd step)) /\
       (forall q k, key2 q = Some k -> ~ In q qs -> f_data f k = [])) outs fs.
Proof.
  intros P dt h probes qs rank steps Hdt cells H SU.
  destruct (output_total P dt Hdt steps (Nat.eqb rank 0)) as (outs & O).
  pose proof (outs_incl _ _ _ _ _ O) as I.
  destruct (run_total (fun _ => entries2 (flags qs) cells) P dt Hdt steps _ outs O) as (s' & fs & E).
  { intros t ls X. apply (traverse_total (fun _ => entries2 (flags qs) cells) t). intros l Hl. destruct (entries2_spec qs cells l (H t ls l (I _ X) Hl) SU) as (es & Ee & _). eauto. }
  exists s', fs, outs. rewrite new_is. split; [exact E|]. split; [exact O|].
  destruct (run_files _ P dt Hdt _ _ _ _ E) as (o2 & O2 & F). rewrite <- (output_unique _ _ _ _ _ O _ O2) in F.
  apply (Forall2_impl' _ _ _ _ F). intros [t ls] f X Hh. split; [apply Hh|].
  destruct (holds_layers _ t ls f (fun l es => under "xi"%string es = [scalar (l2_xi l)] /\
     forall q k, key2 q = Some k -> (In q qs -> under k es = [[map (field2_of q l) cells]]) /\ (~ In q qs -> under k es = [])) Hh) as (ess & F2 & D).
  { intros l Hl. apply entries2_spec; auto. apply (H t ls l (I _ X) Hl). }
  split; [|split].
  - rewrite D. apply (concat_single ls). apply (Forall2_impl' _ _ _ _ F2). tauto.
  - intros q k K Hq. rewrite D. apply (concat_single ls). apply (Forall2_impl' _ _ _ _ F2). intros l es _ [_ A]. now apply (A q k K).
  - intros q k K Hq. rewrite D. apply (concat_empty ls). apply (Forall2_impl' _ _ _ _ F2). intros l es _ [_ A]. now apply (A q k K).
Qed.
Print Assumptions C49_fxi_files_2d.

(** The first step of rank 0 is always in the output, whatever the period. *)
Theorem C49_first_step_output : forall (layer : Type) P dt (steps outs : list (R * list layer)) t ls,
  output_steps P dt true ((t, ls) :: steps) outs -> exists r, outs = (t, ls) :: r.
Proof. intros layer P dt steps outs t ls H. inversion H; subst. eauto. Qed.
Print Assumptions C49_first_step_output.

(** a concrete run: two steps, the first kept as the first, the second not due *)
Definition flat3 (x : R) : layer3 :=
  let g := fun _ _ => x in
  mkL3 (- x) 8 g g g g g g g g g g [] (repeat (repeat x 6) 6) (repeat (repeat x 6) 6).
Lemma flat_readable x : readable3 [probe3 8 1 (0, 0)] (flat3 x).
Proof.
  assert (S : square (repeat (repeat x 6) 6)). { intros row Hr. simpl in Hr. repeat (destruct Hr as [<-|Hr]; [reflexivity|]). contradiction. }
  repeat split; auto; try (simpl; lia); simpl in H; destruct H as [<-|[]]; unfold probe3; cbn [fst snd];
  replace (0 / 1) with (IZR 0) by (simpl; field); rewrite ne_int; vm_compute; congruence.
Qed.
Example C49_fxi_3d_ex : exists s' fs outs,
    diag_run (fun _ => entries3 (flags [qEz; qdx_perp]) 1 [probe3 8 1 (0, 0)]) (clamp_period (Every 10) 1) 1 [(1, [flat3 1; flat3 2]); (2, [flat3 3])] (new_diag 0) = Some (s', fs) /\
    output_steps (Every 10) 1 true [(1, [flat3 1; flat3 2]); (2, [flat3 3])] outs /\ List.length fs = 1%nat.
Proof.
  destruct (C49_fxi_files_3d (Every 10) 1 1 8 [(0, 0)] [qEz; qdx_perp] 0 [(1, [flat3 1; flat3 2]); (2, [flat3 3])] ltac:(lra)) as (s' & fs & outs & E & O & F).
  - intros t ls l [X|[X|[]]]; inversion X; subst; simpl; intros Hl; repeat (destruct Hl as [<-|Hl]; [apply flat_readable|]); contradiction.
  - exists s', fs, outs. split; [exact E|]. split; [exact O|]. apply Forall2_len in F. rewrite <- F. cbn [Nat.eqb] in O. apply outs_true in O; [|lra]. rewrite O.
    cbn [List.length filter]. assert (C : dueb (Every 10) 1 (2, [flat3 3]) = false); [|now rewrite C].
    apply condition_due_false; [lra|]. intros [n Hn]. simpl fst in Hn. rewrite Rmax_left in Hn by lra. apply abs_le_inv in Hn.
    assert (n <= 0)%Z by (apply IZR_lt1; simpl; lra). assert (0 < n)%Z by (apply lt_IZR; simpl; lra). lia.
Qed.

(** ** C34 *)
(** A quantity is recorded exactly when its flag is among those combined with `|`. *)
Theorem C34_flag_means_recorded : forall qs q, asked (flags qs) q = true <-> In q qs.
Proof. exact asked_flags. Qed.
Print Assumptions C34_flag_means_recorded.
(** In 2D asking for Phi, the energy flux or a chaotic displacement stops the run with an exception
    at the first output step: those names are accepted at construction but not supported. *)
Theorem C34_unsupported_2d_refuted : forall P dt h probes qs q rank (steps outs : list (R * list layer2)) t l ls, 0 < dt ->
  In q qs -> ~ supported2 q -> output_steps P dt (Nat.eqb rank 0) steps outs -> In (t, l :: ls) outs ->
  readable2 (map (probe2 h) probes) l ->
  diag_run (fun _ => entries2 (flags qs) (map (probe2 h) probes)) (clamp_period P dt) dt steps (new_diag rank) = None.
Proof.
  intros P dt h probes qs q rank steps outs t l ls Hdt Hq U O I Rd. rewrite new_is. apply (run_fails _ P dt Hdt steps _ outs O).
  exists t, (l :: ls). split; auto. simpl. now rewrite (entries2_unsupported qs _ l q Rd Hq U).
Qed.
Print Assumptions C34_unsupported_2d_refuted.
