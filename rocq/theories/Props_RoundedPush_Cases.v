(** Concrete cases for C78 and C79. *)
From Coq Require Import Reals ZArith List Bool Lra Lia Psatz.
From Flocq Require Import Core.
From Verif Require Import Float_Model Float_Proofs Beam2D_Model Beam2D_Spec Beam2D_Free Beam3D_Model Beam3D_Spec Shape_Model Shape_Spec Shape_Proofs Rounded3D_Model RoundedBeam_Spec RoundedBeam_Model BeamPush_Spec Props_RoundedBeam RoundedSum_Proofs RoundedWeight_Proofs RoundedDep_Model RoundedDep_Spec RoundedDep_Proofs RoundedPlasma_Proofs Props_RoundedDep RoundedCell_Proofs Props_RoundedCell RoundedField_Model RoundedField_Proofs Props_RoundedField Props_RoundedField2 Props_RoundedField4 RoundedPush_Model RoundedPush_Spec RoundedPush_Proofs Props_RoundedPush RoundedLight_Proofs Props_RoundedLight Props_RoundedLight2 Props_RoundedPush2.
Import ListNotations.
Open Scope R_scope.

Lemma dyadic m k x : x = IZR m * bpow radix2 k -> (Z.abs m < 2 ^ 53)%Z -> (-1074 <= k)%Z -> double x = x.
Proof. intros -> H1 H2. now apply double_exact. Qed.
Ltac dy m k := apply (dyadic m k); [change (bpow radix2 k) with (/ IZR (2 ^ - k)); cbn [Z.opp Z.pow Z.pow_pos Pos.iter Z.mul Pos.mul]; lra|lia|lia].
Lemma case_ratio : ordinary_ratio (1 / 4).
Proof. unfold ordinary_ratio. rewrite Rabs_pos_eq by lra. replace (1/4) with (bpow radix2 (-2)) by (change (bpow radix2 (-2)) with (/ 4); lra). split; apply bpow_le; lia. Qed.
Lemma case_double : is_double (1 / 2). Proof. dy 1%Z (-1)%Z. Qed.

(** a particle with momentum (3, 0, 12), rest energy 4 and energy 13 *)
Definition case_moving : part3 := mk3 (- (1/8)) (1/2) 0 3 0 12 (1/4) 1 1 (1/2) 1.
Example C78_3d_half_step_case : ordinary_ratio (b_qm case_moving) /\ ordinary_step (b_dt case_moving) /\ stored3 case_moving /\
  let '(hx, hy, hz) := half3_f case_moving in Rabs (hx - (1/2 + 3/52)) <= 5 * rounding /\ Rabs hy <= 4 * rounding /\ Rabs (hz + (1/8 + 1/52)) <= 6 * rounding.
Proof.
  assert (St : stored3 case_moving). { unfold stored3. cbn. repeat split; [dy 1%Z (-1)%Z|apply double_0|dy (-1)%Z (-3)%Z|dy 6%Z (-1)%Z|apply double_0|dy 24%Z (-1)%Z]. }
  split; [exact case_ratio|]. split; [exact case_step|]. split; [exact St|]. assert (K := C78_3d_half_step case_moving case_ratio case_step St). cbv zeta in K. destruct (half3_f case_moving) as [[hx hy] hz].
  assert (En : energy (1/4) (3, 0, 12) = 13). { unfold energy, norm2, vx, vy, vz. cbn [fst snd]. replace ((1 / (1/4)) ^ 2 + (3 ^ 2 + 0 ^ 2 + 12 ^ 2)) with (13 * 13) by field. apply sqrt_square. lra. }
  unfold plus, shift, velocity, times, place3, plus in K. cbn [case_moving b_x b_y b_xi b_qm b_dt] in K. change (p_of case_moving) with (3, 0, 12) in K. rewrite En in K. unfold vx, vy, vz in K. cbn [fst snd] in K.
  replace (1 / 2 + (1 / 2 / 2 * (/ 13 * 3) + 0)) with (1/2 + 3/52) in K by field. replace (0 + (1 / 2 / 2 * (/ 13 * 0) + 0)) with 0 in K by field. replace (- (1 / 8) + (1 / 2 / 2 * (/ 13 * 12) + - (1 / 2 / 2))) with (- (1/8 + 1/52)) in K by field.
  rewrite Rabs_R0, Rabs_Ropp, !(Rabs_pos_eq (_ + _ / 52)), Rminus_0_r in K by lra. replace (hz - - (1 / 8 + 1 / 52)) with (hz + (1/8 + 1/52)) in K by ring. assert (U := u_pos). change rounding with u in *. destruct K as (K1 & K2 & K3). repeat split; (eapply Rle_trans; [eassumption|lra]).
Qed.

(** a particle at rest, pulled by a field of 12 *)
Definition case_rest : part3 := mk3 (- (1/8)) (1/2) 0 0 0 0 (1/4) 1 1 (1/2) 1.
Lemma case_rest_stored : stored3 case_rest.
Proof. unfold stored3. cbn. repeat split; first [apply double_0|dy 1%Z (-1)%Z|dy (-1)%Z (-3)%Z]. Qed.
Lemma case_rest_velocity : velocity (1/4) (0, 0, 0) = (0, 0, 0).
Proof. unfold velocity, times, vx, vy, vz. cbn [fst snd]. now rewrite Rmult_0_r. Qed.
Lemma case_rest_pulled E : E = (12, 0, 0) -> forall p1, p1 = plus (0, 0, 0) (times (1/2) (force 1 E (0, 0, 0) (0, 0, 0))) -> p1 = (6, 0, 0) /\ plus (place3 case_rest) (shift (1/2) (velocity (1/4) (mean (0, 0, 0) p1))) = (4/5, 0, - (5/8)) /\ energy (1/4) (mean (0, 0, 0) p1) = 5.
Proof.
  intros -> p1 ->. assert (P1 : plus (0, 0, 0) (times (1/2) (force 1 (12, 0, 0) (0, 0, 0) (0, 0, 0))) = (6, 0, 0)). { unfold plus, times, force, vcross, plus, times, vx, vy, vz. cbn [fst snd]. f_equal; [f_equal|]; lra. } rewrite P1.
  assert (Mn : mean (0, 0, 0) (6, 0, 0) = (3, 0, 0)). { unfold mean, times, plus, vx, vy, vz. cbn [fst snd]. f_equal; [f_equal|]; lra. } rewrite Mn.
  assert (En : energy (1/4) (3, 0, 0) = 5). { unfold energy, norm2, vx, vy, vz. cbn [fst snd]. replace ((1 / (1/4)) ^ 2 + (3 ^ 2 + 0 ^ 2 + 0 ^ 2)) with (5 * 5) by field. apply sqrt_square. lra. }
  split; [reflexivity|]. split; [|exact En]. unfold plus, shift, velocity, place3, times, plus. rewrite En. unfold vx, vy, vz. cbn [case_rest b_x b_y b_xi fst snd]. f_equal; [f_equal|]; field.
Qed.
Lemma positive : sign_of (1/4) 1. Proof. left. split; [lra|reflexivity]. Qed.
Example C78_3d_substep_in_fields_case : let '(q, x) := update_f case_rest ((12, 0, 0), (0, 0, 0)) in
  Rabs (vx q - 6) <= 342 * rounding /\ Rabs (vx x - 4/5) <= 78 * rounding /\ Rabs (vy x) <= 78 * rounding /\ Rabs (vz x + 5/8) <= 78 * rounding.
Proof.
  assert (U := u_pos). assert (T := u_tiny). assert (K := C78_3d_substep_in_fields case_rest 1 (12, 0, 0) (0, 0, 0) (12, 0, 0) (0, 0, 0) 12 0 case_ratio positive case_step case_rest_stored ltac:(rewrite <- (Rabs_pos_eq 12) by lra; apply case_ordinary; rewrite Rabs_pos_eq; lra) ltac:(lra) ltac:(lra)).
  assert (HF : forall c, In c [vx; vy; vz] -> Rabs (c (12, 0, 0)) <= 12 /\ Rabs (c (0, 0, 0)) <= 12 /\ Rabs (c (12, 0, 0) - c (12, 0, 0)) <= 0 * rounding * 12 /\ Rabs (c (0, 0, 0) - c (0, 0, 0)) <= 0 * rounding * 12).
  { intros c Hc. rewrite !Rminus_eq_0, Rabs_R0, !Rmult_0_l. repeat split; try lra; destruct Hc as [<-|[<-|[<-|[]]]]; unfold vx, vy, vz; cbn [fst snd]; rewrite ?Rabs_R0, ?Rabs_pos_eq; lra. }
  specialize (K HF). cbv zeta in K. cbn [case_rest b_qm b_dt] in K. change (p_of case_rest) with (0, 0, 0) in K. rewrite case_rest_velocity in K. destruct (case_rest_pulled _ eq_refl _ eq_refl) as (E1 & E2 & E3). rewrite E3, E1 in K. rewrite E1 in E2. change (place3 (mk3 (- (1 / 8)) (1 / 2) 0 0 0 0 (1 / 4) 1 1 (1 / 2) 1)) with (place3 case_rest) in K. rewrite E2 in K. change (mk3 (- (1 / 8)) (1 / 2) 0 0 0 0 (1 / 4) 1 1 (1 / 2) 1) with case_rest in K.
  destruct (update_f case_rest _) as [q x]. assert (K1 := K vx ltac:(cbn; tauto)). assert (K2 := K vy ltac:(cbn; tauto)). assert (K3 := K vz ltac:(cbn; tauto)). change (vx (6, 0, 0)) with 6 in K1. change (vx (4/5, 0, - (5/8))) with (4/5) in K1. change (vy (4/5, 0, - (5/8))) with 0 in K2. change (vz (4/5, 0, - (5/8))) with (- (5/8)) in K3. change (vx (0, 0, 0)) with 0 in K1. rewrite Rabs_Ropp in K3. rewrite (Rabs_pos_eq (5/8)) in K3 by lra. rewrite (Rabs_pos_eq (4/5)), Rabs_R0 in K1 by lra. rewrite Rabs_R0, !Rminus_0_r in K2.
  replace (vz x - - (5/8)) with (vz x + 5/8) in K3 by ring. change rounding with u in *. destruct K1 as [K1 K1']. destruct K2 as [_ K2]. destruct K3 as [_ K3]. repeat split; (eapply Rle_trans; [eassumption|lra]).
Qed.

(** the same particle in the program's own loop, on a grid of 101 x 101 cells filled with the field (12, 0, 0) *)
Definition case_cfg3 : cfg3 := mkC3 101 (1/8) (1/2) 1 1.
Definition case_pull : fields3 := mkF3 (fun _ _ => 12) (fun _ _ => 0) (fun _ _ => 0) (fun _ _ => 0) (fun _ _ => 0) (fun _ _ => 0).
Lemma case_half : half3_f case_rest = (1/2, 0, - (3/8)).
Proof.
  unfold half3_f. cbn [case_rest b_qm b_px b_py b_pz b_dt b_x b_y b_xi]. set (g := gam_f _ _ _ _). assert (Z0 := double_0). replace (0 / g) with 0 by (unfold Rdiv; ring). rewrite !Z0, !Rmult_0_r, !Z0, !Rplus_0_r, Z0, Rminus_0_l.
  assert (D1 : double (- (1)) = - (1)) by (dy (-2)%Z (-1)%Z). assert (D2 : double (1/2) = 1/2) by exact case_double. assert (D4 : double (1 / 2 / 2) = 1/4) by (replace (1 / 2 / 2) with (1/4) by field; dy 1%Z (-2)%Z). rewrite D1, D2, D4.
  assert (D5 : double (1 / 4 * - (1)) = - (1/4)) by (replace (1 / 4 * - (1)) with (- (1/4)) by ring; dy (-1)%Z (-2)%Z). rewrite D5. replace (- (1 / 8) + - (1 / 4)) with (- (3/8)) by field. assert (D6 : double (- (3/8)) = - (3/8)) by (dy (-3)%Z (-3)%Z). now rewrite D6.
Qed.
Lemma case_radius : 5 <= lost_radius_f case_cfg3.
Proof.
  unfold lost_radius_f. cbn [case_cfg3 c_h c_n]. eapply Rle_trans; [|apply Rmax_r]. assert (D1 : double (1 / 8 * 101) = 101/8) by (replace (1 / 8 * 101) with (101/8) by field; dy 101%Z (-3)%Z). rewrite D1. assert (D2 : double (101 / 8 / 2) = 101/16) by (replace (101 / 8 / 2) with (101/16) by field; dy 101%Z (-4)%Z). rewrite D2.
  assert (D3 : double (101 / 16 - 1) = 85/16) by (replace (101 / 16 - 1) with (85/16) by field; dy 85%Z (-4)%Z). rewrite D3. lra.
Qed.
Lemma case_not_lost x y : Rabs x <= 1 -> Rabs y <= 1 -> is_lost3_f x y (lost_radius_f case_cfg3) = false.
Proof.
  intros Hx Hy. assert (R := case_radius). set (l := lost_radius_f case_cfg3) in *. unfold is_lost3_f. destruct (Rle_dec _ _) as [L|]; [exfalso|reflexivity].
  assert (D25 : is_double 25) by (dy 50%Z (-1)%Z). assert (D1 := double_1). assert (D2 : is_double 2) by (apply (double_pow 1); lia). assert (A : 25 <= double (l * l)) by (apply double_ge; [exact D25|nra]).
  assert (S : forall a, Rabs a <= 1 -> double (a * a) <= 1) by (intros a Ha; apply double_le; [exact D1|apply Rabs_le_inv in Ha; nra]). assert (B : double (double (x * x) + double (y * y)) <= 2) by (apply double_le; [exact D2|assert (S1 := S x Hx); assert (S2 := S y Hy); lra]). lra.
Qed.
Lemma case_flat v x y : Rabs x <= 1 -> Rabs y <= 1 -> grid_value 101 (1/8) (fun _ _ => v) x y = v.
Proof.
  intros Hx Hy. unfold grid_value. assert (In1 : forall a, Rabs a <= 1 -> inside (Z.of_nat 101) (1/8) a). { intros a Ha. apply inside_3; [lra|]. change (Z.of_nat 101 / 2)%Z with 50%Z. unfold Rdiv. rewrite Rabs_mult, (Rabs_pos_eq (/ _)) by lra. lra. }
  rewrite gsum_scal, shape_sum by (apply In1; assumption). lra.
Qed.
Example C78_3d_substep_case : exists q, loop3_f case_cfg3 0 case_pull case_pull 1 case_rest = (q, false, false) /\
  Rabs (b_px q - 6) <= 500000 * rounding /\ Rabs (b_x q - 4/5) <= 75000 * rounding /\ Rabs (b_xi q + 5/8) <= 75000 * rounding.
Proof.
  assert (Run : exists q, loop3_f case_cfg3 0 case_pull case_pull 1 case_rest = (q, false, false)).
  { cbn [loop3_f]. rewrite case_half. unfold not_in_layer_f. cbn [case_cfg3 c_dxi]. assert (D1 : double (IZR (0 + 1) * - (1/2)) = - (1/2)) by (change (0 + 1)%Z with 1%Z; replace (1 * - (1/2)) with (- (1/2)) by ring; dy (-1)%Z (-1)%Z). rewrite D1. destruct (Rlt_dec _ _) as [L|_]; [lra|]. change (mkC3 101 (1 / 8) (1 / 2) 1 1) with case_cfg3. rewrite case_not_lost by (rewrite ?Rabs_R0, ?Rabs_pos_eq; lra).
    set (eb := fields_at_f _ _ _ _ _ _ _). destruct (C79_3d_speed_limit case_rest eb case_ratio case_double ltac:(cbn; lra) case_rest_stored) as [W _]. destruct (update_f case_rest eb) as [a x]. unfold within in W. cbn [case_rest b_x b_y b_dt] in W. destruct W as (W1 & W2 & _).
    replace (1 / 2 - 1 / 2) with 0 in W1 by ring. replace (1 / 2 + 1 / 2) with 1 in W1 by field. rewrite Rminus_0_l, Rplus_0_l, double_opp in W2. assert (Dh := case_double). unfold is_double in Dh. rewrite Dh in W2. rewrite double_0 in W1. assert (D2 := double_1). unfold is_double in D2. rewrite D2 in W1.
    rewrite case_not_lost by (apply Rabs_le; lra). eexists. reflexivity. }
  destruct Run as [q Run]. exists q. split; [exact Run|]. assert (U := u_pos). assert (T := u_tiny).
  assert (H8 : ordinary_step (1/8)). { unfold ordinary_step. replace (1/8) with (bpow radix2 (-3)) by (change (bpow radix2 (-3)) with (/ 8); lra). split; apply bpow_le; lia. }
  assert (HF : forall a b f, (0 <= a < Z.of_nat 101)%Z -> (0 <= b < Z.of_nat 101)%Z -> In f [Ex; Ey; Ez; Bx; By; Bz] -> Rabs (f case_pull a b) <= 12 /\ Rabs (f case_pull a b) <= 12).
  { intros a b f _ _ Hf. repeat (destruct Hf as [<-|Hf]; [cbn [case_pull Ex Ey Ez Bx By Bz]; rewrite ?Rabs_R0, ?(Rabs_pos_eq 12); lra|]). destruct Hf. }
  assert (B0 : border (1/2) 0 = 0) by (rewrite case_border by lia; lra).
  assert (K := C78_3d_substep 101 case_cfg3 0 case_pull case_pull case_rest q 1 12 eq_refl ltac:(cbn; lia) ltac:(lia) H8 ltac:(cbn; lra) case_step case_step case_ratio positive case_rest_stored ltac:(rewrite <- (Rabs_pos_eq 12) by lra; apply case_ordinary; rewrite Rabs_pos_eq; lra) HF).
  cbv zeta in K. change rounding with u in *. replace (90 * INR 101 + 5 * 0 + 2100 + 600 * (b_dt case_rest / c_h case_cfg3) + 25 * (b_dt case_rest / c_dxi case_cfg3)) with 13615 in K by (cbn [case_rest case_cfg3 b_dt c_h c_dxi]; replace (INR 101) with 101 by (rewrite INR_IZR_INZ; reflexivity); field).
  specialize (K ltac:(lra) case_double ltac:(cbn [case_cfg3 c_dxi case_rest b_xi]; rewrite B0; lra) Run). destruct K as [K _]. change (b_qm case_rest) with (1/4) in K. change (b_dt case_rest) with (1/2) in K. change (p_of case_rest) with (0, 0, 0) in K. rewrite case_rest_velocity in K.
  assert (Hh : plus (place3 case_rest) (shift (1 / 2 / 2) (0, 0, 0)) = (1/2, 0, - (3/8))). { unfold plus, shift, place3, times, plus, vx, vy, vz. cbn [case_rest b_x b_y b_xi fst snd]. f_equal; [f_equal|]; lra. } rewrite Hh in K. change (vx (1/2, 0, - (3/8))) with (1/2) in K. change (vy (1/2, 0, - (3/8))) with 0 in K. change (vz (1/2, 0, - (3/8))) with (- (3/8)) in K.
  assert (Mx : forall v, mixed 101 (1/8) (1/2) (layer_xi case_cfg3 0) (fun _ _ => v) (fun _ _ => v) (1/2) 0 (- (3/8)) = v) by (intros v; unfold mixed; rewrite !case_flat by (rewrite ?Rabs_R0, ?Rabs_pos_eq; lra); ring).
  assert (HE : e_on3 101 case_cfg3 0 case_pull case_pull (1/2) 0 (- (3/8)) = (12, 0, 0)) by (unfold e_on3; cbn [case_pull Ex Ey Ez case_cfg3 c_h c_dxi]; change (mkC3 101 (1 / 8) (1 / 2) 1 1) with case_cfg3; now rewrite !Mx).
  assert (HB : b_on3 101 case_cfg3 0 case_pull case_pull (1/2) 0 (- (3/8)) = (0, 0, 0)) by (unfold b_on3; cbn [case_pull Bx By Bz case_cfg3 c_h c_dxi]; change (mkC3 101 (1 / 8) (1 / 2) 1 1) with case_cfg3; now rewrite !Mx).
  rewrite HE, HB in K. destruct (case_rest_pulled _ eq_refl _ eq_refl) as (E1 & E2 & E3). rewrite E3, E1 in K. rewrite E1 in E2. rewrite E2 in K.
  assert (K1 := K vx ltac:(cbn; tauto)). assert (K3 := K vz ltac:(cbn; tauto)). change (vx (6, 0, 0)) with 6 in K1. change (vx (4/5, 0, - (5/8))) with (4/5) in K1. change (vz (4/5, 0, - (5/8))) with (- (5/8)) in K3. change (vx (0, 0, 0)) with 0 in K1. rewrite Rabs_Ropp in K3. rewrite (Rabs_pos_eq (5/8)) in K3 by lra. rewrite (Rabs_pos_eq (4/5)), Rabs_R0 in K1 by lra.
  change (vx (p_of q)) with (b_px q) in K1. change (vx (place3 q)) with (b_x q) in K1. change (vz (place3 q)) with (b_xi q) in K3. replace (b_xi q - - (5/8)) with (b_xi q + 5/8) in K3 by ring. destruct K1 as [K1 K1']. destruct K3 as [_ K3].
  repeat split; (eapply Rle_trans; [eassumption|lra]).
Qed.

(** The particle that the 2D program moves ahead of the window stays in the window of the 3D program, in any fields. *)
Example C79_3d_never_forward_case : forall c idx fk fk1 n, let p := mk3 0 1 0 0 0 (IZR 5 * bpow radix2 60) 1 1 1 case_d n in
  ordinary_ratio (b_qm p) /\ is_double (b_dt p) /\ 0 <= b_dt p /\ stored3 p /\ let '(q, _) := move_one3_f c idx fk fk1 p in b_xi q <= 0.
Proof.
  intros c idx fk fk1 n p. destruct C79_2d_can_move_forward as (Oq & Os & _ & Dd & _ & _ & Dw & _). cbn [case_fast q_m p_z] in Oq, Dw. assert (P : 0 <= b_dt p) by (left; exact (step_pos _ Os)). assert (St : stored3 p) by (unfold stored3, p; cbn [b_x b_y b_xi b_px b_py b_pz]; repeat split; first [exact Dw|apply double_0|apply double_1]).
  split; [exact Oq|]. split; [exact Dd|]. split; [exact P|]. split; [exact St|]. assert (K := C79_3d_never_forward c idx fk fk1 p Oq Dd P St). destruct (move_one3_f c idx fk fk1 p) as [q fl]. exact (proj1 K).
Qed.
Print Assumptions C78_3d_substep_case.
