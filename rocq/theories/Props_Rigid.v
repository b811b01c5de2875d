(** Theorems C61: the rigid-beam mode. *)
From Coq Require Import Reals ZArith List Bool Lra Lia FunctionalExtensionality.
From Verif Require Import Beam2D_Spec Plasma3D_Model Coupling_Spec Sym3D_Spec Sym3D_Plasma Props_Sym3D Mpi_Model Rigid_Model Rigid_Spec.
Import ListNotations.
Open Scope R_scope.

Lemma rigid_loop_wake f Pl plasma n h dxi count : forall xi_i (s : Pl * arr2),
  fst (rigid_loop f Pl plasma n h dxi count xi_i s) = wake plasma (fst s) (snd s) (map (rigid_layout f n h dxi) (seq xi_i count)).
Proof.
  induction count as [|c IH]; intros xi_i [pl prev]; cbn [rigid_loop seq map wake fst snd]; [reflexivity|]. rewrite IH. reflexivity.
Qed.
Lemma rigid_is_swapped f n h dxi k : rigid_layout f n h dxi k = swap_arr (asked_density f n h dxi k).
Proof.
  apply functional_extensionality. intros a. apply functional_extensionality. intros b.
  unfold rigid_layout, swap_arr, asked_density, x_grid, y_grid, rigid_grid, node_at. f_equal. ring.
Qed.

(** The plasma sees, layer by layer from the first to the last, the given distribution at the xi of
    that layer and (as the previous density) of the layer ahead - with x and y exchanged. *)
Theorem C61_plasma_sees_the_exchanged_density : forall f Pl (plasma : Pl -> arr2 -> arr2 -> Pl) n h dxi first last pl,
  rigid_step_dt f Pl plasma n h dxi first last pl = wake_of plasma (fun k => swap_arr (asked_density f n h dxi k)) first last pl.
Proof.
  intros. unfold rigid_step_dt, wake_of. rewrite rigid_loop_wake. cbn [fst snd]. f_equal. apply map_ext. intros k. apply rigid_is_swapped.
Qed.
Print Assumptions C61_plasma_sees_the_exchanged_density.

(** So it is not what was asked for: a beam displaced along x is displaced along y. *)
Theorem C61_plasma_sees_the_given_density_refuted :
  ~ (forall f Pl (plasma : Pl -> arr2 -> arr2 -> Pl) n h dxi first last pl, 0 < h -> 0 < dxi ->
     rigid_step_dt f Pl plasma n h dxi first last pl = wake_of plasma (asked_density f n h dxi) first last pl).
Proof.
  intros H. specialize (H (fun _ x _ => x) arr2 (fun _ ro _ => ro) 3%nat 1 1 0%nat 0%nat zeros2 ltac:(lra) ltac:(lra)).
  apply (f_equal (fun a : arr2 => a 2%nat 1%nat)) in H. unfold rigid_step_dt, wake_of in H. cbn in H. 
  unfold rigid_layout, x_grid, rigid_grid, asked_density, node_at in H. cbn in H. lra.
Qed.
Print Assumptions C61_plasma_sees_the_given_density_refuted.

(** Right for distributions that are the same in x and y... *)
Theorem C61_symmetric_density : forall f Pl (plasma : Pl -> arr2 -> arr2 -> Pl) n h dxi first last pl,
  (forall k a b, (first <= k <= last)%nat ->
     f (- (INR k * dxi)) (node_at n h a) (node_at n h b) = f (- (INR k * dxi)) (node_at n h b) (node_at n h a)) ->
  rigid_step_dt f Pl plasma n h dxi first last pl = wake_of plasma (asked_density f n h dxi) first last pl.
Proof.
  intros f Pl plasma n h dxi first last pl Hs. rewrite C61_plasma_sees_the_exchanged_density. unfold wake_of. f_equal. apply map_ext_in. intros k Hk. apply in_seq in Hk.
  apply functional_extensionality. intros a. apply functional_extensionality. intros b. unfold swap_arr, asked_density. symmetry. apply Hs. lia.
Qed.
Print Assumptions C61_symmetric_density.

(** ... and for any distribution the whole result of the solver in a plasma that is the same in x and
    y is the right one with x and y exchanged. *)
Theorem C61_result_is_exchanged : forall sigma K s f n h dxi first last st, Plasma3D_Model.u_h s <> 0 ->
  swap_solver s = s -> swap_state st = st ->
  let plasma := fun st ro prev => step_dxi3 (gauss_average K sigma) s ro prev st in
  rigid_step_dt f Plasma3D_Model.state3 plasma n h dxi first last st = swap_state (wake_of plasma (asked_density f n h dxi) first last st).
Proof.
  intros sigma K s f n h dxi first last st Hh Es Ep plasma. rewrite C61_plasma_sees_the_exchanged_density. unfold wake_of.
  assert (G : forall l st prev, wake plasma (swap_state st) (swap_arr prev) (map (fun k => swap_arr (asked_density f n h dxi k)) l) =
                          swap_state (wake plasma st prev (map (asked_density f n h dxi) l))).
  { induction l as [|k l IH]; intros st0 prev; cbn [map wake]; [reflexivity|]. rewrite <- IH. f_equal. unfold plasma. rewrite <- Es at 1.
    apply step_swap; auto. intros. apply gauss_swap. }
  rewrite <- G, Ep. reflexivity.
Qed.
Print Assumptions C61_result_is_exchanged.

(** A rigid beam is simulated for exactly one time step whatever the user asks for: rank 0 makes it,
    and the others none. *)
Theorem C61_one_time_step : forall N_steps limit P rank, (0 < P)%nat -> (rank < P)%nat ->
  steps_per_node P (n_steps true N_steps limit) rank = if (rank =? 0)%nat then 1%nat else 0%nat.
Proof.
  intros N_steps limit P rank HP Hr. cbn [n_steps]. unfold steps_per_node. destruct P as [|[|P]]; [lia| |].
  - assert (rank = 0)%nat by lia. subst. reflexivity.
  - rewrite (Nat.div_small 1), (Nat.mod_small 1) by lia. destruct (Nat.eqb_spec rank 0), (Nat.ltb_spec rank 1); lia.
Qed.
Print Assumptions C61_one_time_step.
(** The hypotheses are met by a Gaussian beam, and not by one displaced along x. *)
Example C61_nonvacuous : (forall xi x y, (fun xi x y => exp (- (x ^ 2 + y ^ 2)) * exp (- xi ^ 2)) xi x y = (fun xi x y => exp (- (x ^ 2 + y ^ 2)) * exp (- xi ^ 2)) xi y x) /\
  swap_solver (mkS3 21 1 (1 / 100) (wall 21 1 5) 0.1 Mobile3 true 0.2 1 0.5) = mkS3 21 1 (1 / 100) (wall 21 1 5) 0.1 Mobile3 true 0.2 1 0.5.
Proof. split; [intros; rewrite (Rplus_comm (x ^ 2)); reflexivity|reflexivity]. Qed.
