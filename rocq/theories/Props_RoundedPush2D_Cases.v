(** Non-vacuity of the C78 theorems on the 2D pusher. *)
From Coq Require Import Reals ZArith List Bool Lra Lia Psatz.
From Flocq Require Import Core.
From Verif Require Import Float_Model Float_Proofs Beam2D_Model Beam2D_Spec Beam2D_Free Beam3D_Model Beam3D_Spec Rounded3D_Model RoundedBeam_Spec RoundedBeam_Model BeamPush_Spec Props_RoundedBeam RoundedSum_Proofs RoundedDep_Spec Props_RoundedDep RoundedField_Model RoundedPush_Model RoundedPush_Spec RoundedPush_Proofs Props_RoundedPush RoundedLight_Proofs Props_RoundedLight Props_RoundedPush_Cases Props_RoundedPush2D.
Import ListNotations.
Open Scope R_scope.

Definition case_pull2 : part := mkPart (- (1/8)) (1/2) 0 0 0 (1/4) 1 0.
Definition case_moving2 : part := mkPart (- (1/8)) (1/2) 0 3 0 (1/4) 1 0.
Definition case_cfg2 : pcfg := mkP (1/8) (1/2) 6 0 1 0.
Lemma case_pull2_stored : stored2 case_pull2.
Proof. unfold stored2. cbn. repeat split; first [apply double_0|dy 1%Z (-1)%Z|dy (-1)%Z (-3)%Z]. Qed.
Lemma case_moving2_stored : stored2 case_moving2.
Proof. unfold stored2. cbn. repeat split; first [apply double_0|dy 1%Z (-1)%Z|dy (-1)%Z (-3)%Z|dy 6%Z (-1)%Z]. Qed.
Lemma no_ang (x : R) : double (0 / x) = 0. Proof. unfold Rdiv. rewrite Rmult_0_l. apply double_0. Qed.

Example C78_2d_half_step_case : let h := half_position_f case_moving2 (1/2) in
  Rabs (vx h - 13/20) <= 7 * rounding /\ Rabs (vy h) <= 5 * rounding /\ Rabs (vz h + 3/8) <= 7 * rounding.
Proof.
  assert (U := u_pos). assert (S4 : ordinary_step (1/2/2)). { unfold ordinary_step. replace (1/2/2) with (bpow radix2 (-2)) by (change (bpow radix2 (-2)) with (/ 4); lra). split; apply bpow_le; lia. }
  assert (K := C78_2d_half_step case_moving2 (1/2) case_ratio case_step S4 case_double case_moving2_stored). cbv zeta in K.
  assert (Mo : momentum2_f case_moving2 = (3, 0, 0)) by (unfold momentum2_f; cbn [case_moving2 p_r p_z ang rad]; now rewrite no_ang). rewrite Mo in K. change (q_m case_moving2) with (1/4) in K.
  assert (En : energy (1/4) (3, 0, 0) = 5). { unfold energy, norm2, vx, vy, vz. cbn [fst snd]. replace ((1 / (1/4)) ^ 2 + (3 ^ 2 + 0 ^ 2 + 0 ^ 2)) with (5 * 5) by field. apply sqrt_square. lra. }
  assert (Ha : plus (place2 case_moving2) (shift (1 / 2 / 2) (velocity (1 / 4) (3, 0, 0))) = (13/20, 0, - (3/8))).
  { unfold plus, shift, velocity, place2, times, plus. rewrite En. unfold vx, vy, vz. cbn [case_moving2 rad xi fst snd]. f_equal; [f_equal|]; field. }
  rewrite Ha in K. assert (K1 := K vx ltac:(cbn; tauto)). assert (K2 := K vy ltac:(cbn; tauto)). assert (K3 := K vz ltac:(cbn; tauto)). clear K. cbv zeta. change (vx (13/20, 0, - (3/8))) with (13/20) in K1. change (vy (13/20, 0, - (3/8))) with 0 in K2. change (vz (13/20, 0, - (3/8))) with (- (3/8)) in K3.
  set (h := half_position_f _ _) in *. rewrite (Rabs_pos_eq (13/20)) in K1 by lra. rewrite Rminus_0_r, Rabs_R0 in K2. rewrite (Rabs_Ropp (3/8)), (Rabs_pos_eq (3/8)) in K3 by lra. replace (vz h - - (3/8)) with (vz h + 3/8) in K3 by ring. change rounding with u in *. repeat split; (eapply Rle_trans; [eassumption|lra]).
Qed.

Example C78_2d_substep_in_fields_case : let '(x, q) := substep_f case_cfg2 case_pull2 (1/2) ((12, 0, 0), (0, 0, 0)) in
  Rabs (vx q - 6) <= 402 * rounding /\ Rabs (vx x - 4/5) <= 91 * rounding /\ Rabs (vy x) <= 91 * rounding /\ Rabs (vz x + 5/8) <= 91 * rounding.
Proof.
  assert (U := u_pos). assert (T := u_tiny). assert (K := C78_2d_substep_in_fields case_cfg2 case_pull2 (1/2) 1 (12, 0, 0) (0, 0, 0) (12, 0, 0) (0, 0, 0) 12 0 case_ratio positive case_step case_double case_pull2_stored ltac:(rewrite <- (Rabs_pos_eq 12) by lra; apply case_ordinary; rewrite Rabs_pos_eq; lra) ltac:(lra) ltac:(lra)).
  assert (HF : forall c, In c [vx; vy; vz] -> Rabs (c (12, 0, 0)) <= 12 /\ Rabs (c (0, 0, 0)) <= 12 /\ Rabs (c (12, 0, 0) - c (12, 0, 0)) <= 0 * rounding * 12 /\ Rabs (c (plus (0, 0, 0) (0, 0, magnetic_field case_cfg2)) - c (0, 0, 0)) <= 0 * rounding * 12).
  { intros c Hc. assert (Z : plus (0, 0, 0) (0, 0, magnetic_field case_cfg2) = (0, 0, 0)) by (unfold plus, vx, vy, vz; cbn [fst snd case_cfg2 magnetic_field]; f_equal; [f_equal|]; lra). rewrite Z, !Rminus_eq_0, Rabs_R0, !Rmult_0_l. repeat split; try lra; destruct Hc as [<-|[<-|[<-|[]]]]; unfold vx, vy, vz; cbn [fst snd]; rewrite ?Rabs_R0, ?Rabs_pos_eq; lra. }
  specialize (K HF). cbv zeta in K. assert (Mo : momentum2_f case_pull2 = (0, 0, 0)) by (unfold momentum2_f; cbn [case_pull2 p_r p_z ang rad]; now rewrite no_ang). rewrite Mo in K. change (q_m case_pull2) with (1/4) in K. rewrite case_rest_velocity in K. destruct (case_rest_pulled _ eq_refl _ eq_refl) as (E1 & E2 & E3). rewrite E3, E1 in K. rewrite E1 in E2. change (place3 case_rest) with (place2 case_pull2) in E2. rewrite E2 in K.
  destruct (substep_f _ case_pull2 _ _) as [x q]. assert (K1 := K vx ltac:(cbn; tauto)). assert (K2 := K vy ltac:(cbn; tauto)). assert (K3 := K vz ltac:(cbn; tauto)). change (vx (6, 0, 0)) with 6 in K1. change (vx (4/5, 0, - (5/8))) with (4/5) in K1. change (vy (4/5, 0, - (5/8))) with 0 in K2. change (vz (4/5, 0, - (5/8))) with (- (5/8)) in K3. change (vx (0, 0, 0)) with 0 in K1. rewrite Rabs_Ropp in K3. rewrite (Rabs_pos_eq (5/8)) in K3 by lra. rewrite (Rabs_pos_eq (4/5)), Rabs_R0 in K1 by lra. rewrite Rabs_R0, !Rminus_0_r in K2.
  replace (vz x - - (5/8)) with (vz x + 5/8) in K3 by ring. change rounding with u in *. destruct K1 as [K1 K1']. destruct K2 as [_ K2]. destruct K3 as [_ K3]. repeat split; (eapply Rle_trans; [eassumption|lra]).
Qed.
