(** Non-vacuity of C78_2d_substep: a particle at rest at r = 1/2 in a uniform radial field. *)
From Coq Require Import Reals ZArith List Bool Lra Lia Psatz.
From Flocq Require Import Core.
From Verif Require Import Float_Model Float_Proofs Beam2D_Model Beam2D_Spec Beam2D_Free Beam3D_Model Beam3D_Spec Shape_Model Rounded3D_Model RoundedBeam_Spec RoundedBeam_Model BeamPush_Spec BeamPush_Proofs Props_RoundedBeam RoundedSum_Proofs RoundedDep_Spec Props_RoundedDep RoundedField_Model Props_RoundedField4 RoundedPush_Model RoundedPush_Spec RoundedPush_Proofs Props_RoundedPush RoundedLight_Proofs Props_RoundedLight Props_RoundedPush_Cases Props_RoundedPush2D Props_RoundedPush2D_Cases Props_RoundedPush2DFull.
Import ListNotations.
Open Scope R_scope.

Definition case_cfg2p : pcfg := mkP (1/8) (1/2) 4 0 1 0.
Definition case_pull2_f : fields := mkF (repeat 12 40) (repeat 0 40) (repeat 0 40) (repeat 0 40) (repeat 0 40).
Lemma case_half2 : half_position_f case_pull2 (1/2) = (1/2, 0, - (3/8)).
Proof.
  unfold half_position_f, beam_to_vec_f. cbn [case_pull2 p_r p_z ang rad q_m xi]. rewrite no_ang. unfold vx, vy, vz. cbn [fst snd]. set (g := gam2_f _ _ _ _). rewrite !Rmult_0_r, double_0. rewrite no_ang, !Rplus_0_r, double_0.
  replace (double (1/2)) with (1/2) by (symmetry; exact case_double). assert (D8 : double (- (1/8)) = - (1/8)) by dy (-1)%Z (-3)%Z. assert (D4 : double (1/2/2) = 1/4) by (replace (1/2/2) with (1/4) by field; dy 1%Z (-2)%Z). rewrite D8, D4.
  assert (D38 : double (- (1/8) - 1/4) = - (3/8)) by (replace (- (1/8) - 1/4) with (- (3/8)) by field; dy (-3)%Z (-3)%Z). now rewrite D38.
Qed.
Lemma case_boundary2 : 3 <= lost_boundary_f case_cfg2p.
Proof. unfold lost_boundary_f. cbn [case_cfg2p max_radius]. eapply Rle_trans; [|apply Rmax_r]. replace (4 - 1) with 3 by ring. right. symmetry. dy 6%Z (-1)%Z. Qed.
Lemma case_not_lost2 x : Rabs (vx x) <= 1 -> Rabs (vy x) <= 1 -> is_lost2_f x (lost_boundary_f case_cfg2p) = false.
Proof.
  intros X Y. unfold is_lost2_f. destruct (Rle_dec _ _) as [H|]; [exfalso|reflexivity]. assert (L := case_boundary2). set (l := lost_boundary_f _) in *. assert (D9 : 9 <= double (l * l)). { replace 9 with (double 9) by dy 18%Z (-1)%Z. apply double_mono. nra. }
  assert (S1 : forall a, Rabs a <= 1 -> double (a * a) <= 1). { intros a Ha. rewrite <- double_1. apply double_mono. rewrite <- (Rabs_pos_eq (a * a)) by nra. rewrite Rabs_mult. assert (Q := Rabs_pos a). nra. }
  assert (D2 : double (double (vx x * vx x) + double (vy x * vy x)) <= 2). { replace 2 with (double 2) at 1 by dy 4%Z (-1)%Z. apply double_mono. assert (A := S1 _ X). assert (A' := S1 _ Y). lra. } lra.
Qed.
Lemma nth_repeat_lt (a : R) n k : (k < n)%nat -> nth k (repeat a n) 0 = a.
Proof. intros H. rewrite (nth_indep _ 0 a) by (rewrite repeat_length; exact H). apply nth_repeat. Qed.
Lemma case_flat2 z0 a r z : 0 <= r <= (INR 40 - 2) * (1/8) -> between (1/8) (1/2) z0 (repeat a 40) (repeat a 40) r z = a.
Proof.
  intros Hr. unfold between. rewrite repeat_length. set (s := (z - z0) / (1/2)). assert (Rn : 0 <= r / (1/8)) by lra. set (q := r / (1/8)) in *. assert (Rl : q <= 38) by (replace (INR 40) with 40 in Hr by (rewrite INR_IZR_INZ; reflexivity); unfold q; lra).
  set (j := floorR q). assert (Fr := floorR_spec q). fold j in Fr. assert (J0 : (0 <= j)%Z) by now apply floorR_nonneg. assert (J1 : (j <= 38)%Z) by (apply le_IZR; lra).
  rewrite (sumR_two _ 40 (Z.to_nat j)); [|lia|].
  - rewrite !nth_repeat_lt by lia. rewrite S_INR, INR_IZR_INZ, Z2Nat.id by exact J0. replace (hat (q - IZR j)) with (1 - (q - IZR j)) by (unfold hat, Rmax, Rabs; repeat destruct (Rle_dec _ _); repeat destruct (Rcase_abs _); lra).
    replace (hat (q - (IZR j + 1))) with (q - IZR j) by (unfold hat, Rmax, Rabs; repeat destruct (Rle_dec _ _); repeat destruct (Rcase_abs _); lra). ring.
  - intros k K1 K2. assert (O : forall t, Rabs t >= 1 -> hat t = 0) by (intros t Ht; unfold hat; apply Rmax_left; lra). rewrite O; [ring|]. rewrite INR_IZR_INZ. destruct (Z_le_gt_dec (Z.of_nat k) j) as [L|L].
    + assert (Lk : (Z.of_nat k <= j - 1)%Z) by lia. apply IZR_le in Lk. rewrite minus_IZR in Lk. rewrite Rabs_pos_eq by lra. lra.
    + assert (Lk : (j + 2 <= Z.of_nat k)%Z) by lia. apply IZR_le in Lk. rewrite plus_IZR in Lk. rewrite Rabs_left by lra. lra.
Qed.

Example C78_2d_substep_case : let q := push_particle_f case_cfg2p case_pull2_f case_pull2_f 1 (mkB case_pull2 (1/2) 1 false) in
  rem q = 0%nat /\ lost q = false /\ Rabs (rad (pt q) - 4/5) <= 112000 * rounding /\ Rabs (xi (pt q) + 5/8) <= 56000 * rounding /\ Rabs (p_r (pt q) - 6) <= 740000 * rounding.
Proof.
  assert (U := u_pos). assert (T := u_tiny).
  assert (H8 : ordinary_step (1/8)). { unfold ordinary_step. replace (1/8) with (bpow radix2 (-3)) by (change (bpow radix2 (-3)) with (/ 8); lra). split; apply bpow_le; lia. }
  assert (S4 : ordinary_step (1/2/2)). { unfold ordinary_step. replace (1/2/2) with (bpow radix2 (-2)) by (change (bpow radix2 (-2)) with (/ 4); lra). split; apply bpow_le; lia. }
  assert (HM : bpow radix2 (-500) <= 12) by (rewrite <- (Rabs_pos_eq 12) by lra; apply case_ordinary; rewrite Rabs_pos_eq; lra).
  assert (HF : forall k f, (k < 40)%nat -> In f [E_r; E_f; E_z; B_f; B_z] -> Rabs (nth k (f case_pull2_f) 0) <= 12 /\ Rabs (nth k (f case_pull2_f) 0) <= 12).
  { intros k f Hk Hf. repeat (destruct Hf as [<-|Hf]; [cbn [case_pull2_f E_r E_f E_z B_f B_z]; rewrite !nth_repeat_lt by exact Hk; rewrite ?Rabs_R0, ?(Rabs_pos_eq 12); lra|]). destruct Hf. }
  assert (Nd : nodes 40 case_pull2_f) by (repeat split; reflexivity).
  assert (B0 : border (1/2) 0 = 0) by (rewrite case_border by lia; lra). assert (B1 : border (1/2) 1 = - (1/2)) by (rewrite case_border by lia; lra).
  assert (HB0 : Rabs (magnetic_field case_cfg2p) <= 12) by (cbn; rewrite Rabs_R0; lra). assert (N40 : INR 40 = 40) by (rewrite INR_IZR_INZ; reflexivity).
  assert (KE : slack2 40 case_cfg2p 0 (1/2) = 10235) by (unfold slack2; cbn [case_cfg2p r_step xi_step]; rewrite N40; field).
  assert (Hz0 : vz (half_position_f case_pull2 (1/2)) <= border (xi_step case_cfg2p) 0) by (rewrite case_half2; cbn [case_cfg2p xi_step]; rewrite B0; unfold vz; cbn; lra).
  assert (Sq0 : sqrt ((1/2) ^ 2 + 0 ^ 2) = 1/2) by (replace ((1/2) ^ 2 + 0 ^ 2) with ((1/2) * (1/2)) by field; apply sqrt_square; lra).
  assert (Mo : momentum2_f case_pull2 = (0, 0, 0)) by (unfold momentum2_f; cbn [case_pull2 p_r p_z ang rad]; now rewrite no_ang).
  assert (Hh : plus (place2 case_pull2) (shift (1 / 2 / 2) (0, 0, 0)) = (1/2, 0, - (3/8))). { unfold plus, shift, place2, times, plus, vx, vy, vz. cbn [case_pull2 rad xi fst snd]. f_equal; [f_equal|]; lra. }
  assert (Fl : forall z0 a z, between (1/8) (1/2) z0 (repeat a 40) (repeat a 40) (1/2) z = a) by (intros; apply case_flat2; rewrite N40; lra).
  assert (HE : e_on case_cfg2p (- (1 * xi_step case_cfg2p)) case_pull2_f case_pull2_f (1/2) (- (3/8)) = (12, 0, 0)) by (unfold e_on; cbn [case_pull2_f E_r E_f E_z case_cfg2p r_step xi_step]; now rewrite !Fl).
  assert (HBe : b_on case_cfg2p (- (1 * xi_step case_cfg2p)) case_pull2_f case_pull2_f (1/2) (- (3/8)) = (0, 0, 0)) by (unfold b_on; cbn [case_pull2_f E_f B_f B_z case_cfg2p r_step xi_step magnetic_field]; rewrite !Fl; f_equal; [f_equal|]; ring).
  destruct (case_rest_pulled _ eq_refl _ eq_refl) as (E1 & E2 & E3). rewrite E1 in E2. change (place3 case_rest) with (place2 case_pull2) in E2.
  assert (Run : let q := push_particle_f case_cfg2p case_pull2_f case_pull2_f 1 (mkB case_pull2 (1/2) 1 false) in rem q = 0%nat /\ lost q = false).
  { assert (Fn := fields_near2 40 case_cfg2p 0 case_pull2_f case_pull2_f case_pull2 (1/2) 12 ltac:(cbn; lia) ltac:(lia) H8 case_step case_step S4 case_double case_ratio case_pull2_stored HM Nd Nd HB0 HF ltac:(rewrite KE; lra)
      ltac:(rewrite case_half2; change (vx (1/2, 0, - (3/8))) with (1/2); change (vy (1/2, 0, - (3/8))) with 0; rewrite Sq0, N40; cbn; lra)
      ltac:(rewrite case_half2; unfold in_layer; cbn [Z.add case_cfg2p xi_step]; rewrite B0, B1; unfold vz; cbn; lra)).
    cbn zeta. unfold push_particle_f. cbn [rem push_loop_f pt dt]. assert (Eb : double (1 * - xi_step case_cfg2p) = border (xi_step case_cfg2p) 1) by (unfold border; f_equal; ring). rewrite Eb. change (0 + 1)%Z with 1%Z in Fn. unfold beam_to_vec_f. rewrite KE, case_half2 in *.
    set (fe := particle_fields_f (1/2, 0, - (3/8)) case_pull2_f case_pull2_f (border (xi_step case_cfg2p) 1) (r_step case_cfg2p) (xi_step case_cfg2p)) in *. clearbody fe. destruct fe as [e b].
    unfold in_layer2_f. cbn [case_cfg2p xi_step]. rewrite B1. change (vz (1/2, 0, - (3/8))) with (- (3/8)). destruct (Rle_dec _ _) as [_|L]; [|lra]. cbn [negb]. change (mkP (1 / 8) (1 / 2) 4 0 1 0) with case_cfg2p. rewrite case_not_lost2 by (unfold vx, vy; cbn [fst snd]; rewrite ?Rabs_R0, ?Rabs_pos_eq; lra).
    rewrite Mo in Fn. change (q_m case_pull2) with (1/4) in Fn. rewrite case_rest_velocity, Hh in Fn. change (vx (1/2, 0, - (3/8))) with (1/2) in Fn. change (vy (1/2, 0, - (3/8))) with 0 in Fn. change (vz (1/2, 0, - (3/8))) with (- (3/8)) in Fn. rewrite Sq0, HE, HBe in Fn.
    assert (S := C78_2d_substep_in_fields case_cfg2p case_pull2 (1/2) 1 e b (12, 0, 0) (0, 0, 0) (4 * 12) (10235 / 4) case_ratio positive case_step case_double case_pull2_stored ltac:(lra) ltac:(lra) ltac:(change rounding with u; lra) Fn). cbv zeta in S. rewrite Mo in S. change (q_m case_pull2) with (1/4) in S. rewrite case_rest_velocity, E3, E1, E2 in S.
    destruct (substep_f case_cfg2p case_pull2 (1/2) (e, b)) as [x v]. destruct (S vx ltac:(cbn; tauto)) as [_ S1]. destruct (S vy ltac:(cbn; tauto)) as [_ S2]. change (vx (4/5, 0, - (5/8))) with (4/5) in S1. change (vy (4/5, 0, - (5/8))) with 0 in S2. rewrite (Rabs_pos_eq (4/5)) in S1 by lra. rewrite Rabs_R0, Rminus_0_r in S2. change rounding with u in *.
    apply Rabs_le_inv in S1. rewrite case_not_lost2; [split; reflexivity|apply Rabs_le; lra|eapply Rle_trans; [exact S2|lra]]. }
  cbn zeta in *. destruct Run as [R1 R2]. split; [exact R1|]. split; [exact R2|].
  assert (K := C78_2d_substep 40 case_cfg2p 0 case_pull2_f case_pull2_f case_pull2 (1/2) 1 12 ltac:(cbn; lia) ltac:(lia) H8 ltac:(cbn; lra) ltac:(cbn [case_cfg2p max_radius r_step]; rewrite N40; lra) case_step case_step S4 case_double case_ratio positive case_pull2_stored HM HB0 Nd Nd HF). cbv zeta in K.
  change rounding with u in *. replace (210 * INR 40 + 22 * 0 + 130 + 420 * (1 / 2 / r_step case_cfg2p) + 25 * (1 / 2 / xi_step case_cfg2p)) with 10235 in K by (cbn [case_cfg2p r_step xi_step]; rewrite N40; field).
  change (0 + 1)%Z with 1%Z in K. specialize (K ltac:(lra) Hz0 R1 R2). rewrite Mo in K. change (q_m case_pull2) with (1/4) in K. rewrite case_rest_velocity, Hh in K. change (vx (1/2, 0, - (3/8))) with (1/2) in K. change (vy (1/2, 0, - (3/8))) with 0 in K. change (vz (1/2, 0, - (3/8))) with (- (3/8)) in K. rewrite Sq0, HE, HBe, E3, E1, E2 in K.
  destruct K as (x & v & Kx & (Q1 & _ & Q3 & Q4 & _) & _). set (q := pt _) in *. clearbody q.
  destruct (Kx vx ltac:(cbn; tauto)) as [V1 X1]. destruct (Kx vy ltac:(cbn; tauto)) as [V2 X2]. destruct (Kx vz ltac:(cbn; tauto)) as [_ X3]. clear Kx. change (vx (4/5, 0, - (5/8))) with (4/5) in X1. change (vy (4/5, 0, - (5/8))) with 0 in X2. change (vz (4/5, 0, - (5/8))) with (- (5/8)) in X3. change (vx (6, 0, 0)) with 6 in V1. change (vy (6, 0, 0)) with 0 in V2. change (vx (0, 0, 0)) with 0 in V1. change (vy (0, 0, 0)) with 0 in V2.
  rewrite (Rabs_pos_eq (4/5)) in X1 by lra. rewrite Rabs_Ropp, (Rabs_pos_eq (5/8)) in X3 by lra. rewrite Rabs_R0 in V1, V2, X2. rewrite !Rminus_0_r in V2, X2. rewrite Q1. replace (vz x - - (5/8)) with (vz x + 5/8) in X3 by ring. set (a := vx x) in *. set (b := vy x) in *. set (v1 := vx v) in *. set (v2 := vy v) in *.
  assert (Sq : sqrt ((4/5) ^ 2 + 0 ^ 2) = 4/5) by (replace ((4/5) ^ 2 + 0 ^ 2) with ((4/5) * (4/5)) by field; apply sqrt_square; lra).
  assert (RL := radius_lip a b (4/5) 0). rewrite Sq, Rminus_0_r in RL. assert (RL2 := radius_lip a b a 0). rewrite Rminus_eq_0, Rabs_R0, Rminus_0_r in RL2. destruct (part_radius a b) as [Pa Pb]. set (r := sqrt (a ^ 2 + b ^ 2)) in *.
  assert (X1' : Rabs (a - 4/5) <= 55600 * u) by lra. assert (X2' : Rabs b <= 55600 * u) by lra. assert (V1' : Rabs (v1 - 6) <= 308700 * u) by lra. assert (V2' : Rabs v2 <= 308700 * u) by lra. clear X1 X2 V1 V2. assert (Rr : Rabs (r - 4/5) <= 111200 * u) by lra.
  assert (Sm : bpow radix2 (-400) <= u) by (change u with (bpow radix2 (-53)); apply bpow_le; lia). assert (Sm7 : bpow radix2 (-700) <= u) by (change u with (bpow radix2 (-53)); apply bpow_le; lia). apply Rabs_le_inv in Rr. assert (r1 : 0.79 <= r <= 0.81) by lra.
  assert (Ur : u * r <= u * 0.81) by (apply Rmult_le_compat_l; lra). split; [|split].
  - replace (rad q - 4/5) with ((rad q - r) + (r - 4/5)) by ring. eapply Rle_trans; [apply Rabs_triang|]. assert (Rabs (r - 4/5) <= 111200 * u) by (apply Rabs_le; lra). lra.
  - eapply Rle_trans; [exact X3|]. lra.
  - assert (Q4' : Rabs (p_r q - (a * v1 + b * v2) / r) <= 8 * u * (Rabs v1 + Rabs v2) + bpow radix2 (-700)). { apply Q4. apply Rle_trans with (bpow radix2 (-1)); [apply bpow_le; lia|change (bpow radix2 (-1)) with (/ 2); lra]. }
    apply Rabs_le_inv in X1'. assert (Sa : sqrt (a ^ 2 + 0 ^ 2) = a) by (replace (a ^ 2 + 0 ^ 2) with (a * a) by ring; apply sqrt_square; lra). rewrite Sa in RL2. assert (Sv1 : Rabs v1 <= 6.1). { replace v1 with (6 + (v1 - 6)) by ring. eapply Rle_trans; [apply Rabs_triang|]. rewrite (Rabs_pos_eq 6) by lra. lra. } assert (Sv2 : Rabs v2 <= 0.001) by lra.
    assert (Us : u * (Rabs v1 + Rabs v2) <= u * 6.2) by (apply Rmult_le_compat_l; lra).
    assert (DD : Rabs ((a * v1 + b * v2) / r - 6) <= 735000 * u).
    { replace ((a * v1 + b * v2) / r - 6) with ((a * (v1 - 6) + (6 * (a - r) + b * v2)) * / r) by (field; lra). rewrite Rabs_mult, (Rabs_pos_eq (/ r)) by (left; apply Rinv_0_lt_compat; lra). apply Rmult_le_reg_r with r; [lra|]. rewrite Rmult_assoc, Rinv_l by lra. rewrite Rmult_1_r.
      assert (A1 : Rabs (a * (v1 - 6)) <= r * (308700 * u)) by (rewrite Rabs_mult; apply Rmult_le_compat; try apply Rabs_pos; assumption). assert (A2 : Rabs (6 * (a - r)) <= 6 * (55600 * u)) by (rewrite Rabs_mult, (Rabs_pos_eq 6), Rabs_minus_sym by lra; lra). assert (A3 : Rabs (b * v2) <= 55600 * u * 0.001) by (rewrite Rabs_mult; apply Rmult_le_compat; try apply Rabs_pos; assumption).
      eapply Rle_trans; [apply Rabs_triang|]. eapply Rle_trans; [apply Rplus_le_compat_l, Rabs_triang|]. assert (0.79 * u <= r * u) by (apply Rmult_le_compat_r; lra). lra. }
    replace (p_r q - 6) with ((p_r q - (a * v1 + b * v2) / r) + ((a * v1 + b * v2) / r - 6)) by ring. eapply Rle_trans; [apply Rabs_triang|]. lra.
Qed.
Print Assumptions C78_2d_substep_case.
