(** Theorems C79, continued: the 2D program. *)
From Coq Require Import Reals ZArith List Bool Lra Lia Psatz Permutation Sorted.
From Flocq Require Import Core Mult_error.
From Verif Require Import Float_Model Float_Proofs Beam2D_Model Beam2D_Spec Beam3D_Model Shape_Model RoundedBeam_Spec RoundedBeam_Model Props_RoundedBeam RoundedSum_Proofs RoundedDep_Model RoundedDep_Spec Props_RoundedDep RoundedCell_Proofs Props_RoundedCell RoundedField_Model RoundedPush_Model RoundedPush_Spec RoundedPush_Proofs RoundedLight_Proofs Props_RoundedLight.
Import ListNotations.
Open Scope R_scope.

Lemma gam2_big qm px py pz : ordinary_ratio qm -> bpow radix2 (-100) <= gam2_f qm px py pz.
Proof.
  intros Hq. assert (R := rest_big _ Hq). unfold gam2_f. set (m := double (double (1 / qm) * double (1 / qm))) in *. set (b := double (double (double (px * px) + double (py * py)) + double (pz * pz))). assert (B0 : 0 <= b) by (apply double_pos; assert (0 <= double (double (px * px) + double (py * py))) by (apply double_pos; assert (A := double_sq px); assert (B := double_sq py); lra); assert (C := double_sq pz); lra).
  assert (C2 : m <= double (m + b)) by (apply double_ge; [apply double_double|lra]). apply double_ge; [apply double_pow; lia|]. rewrite <- (Rabs_pos_eq (bpow radix2 (-100))), <- half_of_sq, <- bpow_plus by apply bpow_ge_0. apply sqrt_le_1; [apply bpow_ge_0|eapply Rle_trans; [apply bpow_ge_0|eapply Rle_trans; [exact R|exact C2]]|]. change (-100 + -100)%Z with (-200)%Z. lra.
Qed.
Lemma half_exact d : is_double d -> ordinary_step d -> double (d / 2) = d / 2.
Proof.
  intros Dd Hd. assert (P := step_pos _ Hd). destruct Hd as [Lo _]. unfold double. apply round_generic; [apply valid_rnd_N|]. replace (d / 2) with (d * bpow radix2 (-1)) by (change (bpow radix2 (-1)) with (/ 2); field). apply mult_bpow_exact_FLT; [now apply format_of|].
  assert (M : (-99 <= mag radix2 d)%Z) by (apply mag_ge_bpow; rewrite Rabs_pos_eq by lra; exact Lo). lia.
Qed.
(** the displacement as the 2D program computes it *)
Lemma displacement d w g : ordinary_step d -> bpow radix2 (-100) <= g -> Rabs w <= g -> double (double (d * w) / g) <= d + 2.01 * u * d.
Proof.
  intros Hd Hg Hw. assert (P := step_pos _ Hd). assert (U := u_pos). assert (T := u_tiny). assert (X := bpow_gt_0 radix2 (-100)). assert (G0 : 0 < g) by lra. apply Rabs_le_inv in Hw.
  assert (Et := eta_step _ Hd). assert (UD : 0 < u * d) by (apply Rmult_lt_0_compat; lra). assert (EG : eta <= / 10000 * u * d * g).
  { apply Rle_trans with (bpow radix2 (-300)); [unfold eta; apply bpow_le; lia|]. destruct Hd as [Hd _]. apply Rle_trans with (/ 10000 * u * bpow radix2 (-100) * bpow radix2 (-100)); [|apply Rmult_le_compat; try lra; [apply Rmult_le_pos; lra|apply Rmult_le_compat_l; [lra|exact Hd]]].
    replace (-300)%Z with (-100 + (-100 + -100))%Z by lia. rewrite !bpow_plus. replace (/ 10000 * u * bpow radix2 (-100) * bpow radix2 (-100)) with (/ 10000 * u * (bpow radix2 (-100) * bpow radix2 (-100))) by ring. apply Rmult_le_compat_r; [apply Rmult_le_pos; lra|]. replace u with (bpow radix2 (-53)) by reflexivity. assert (B47 : bpow radix2 (-47) <= / 10000) by (change (bpow radix2 (-47)) with (/ IZR (2 ^ 47)); apply Rinv_le_contravar; [lra|apply IZR_le; lia]). apply Rle_trans with (bpow radix2 (-47 + -53)); [exact (bpow_le radix2 (-100) (-47 + -53) ltac:(lia))|rewrite bpow_plus; apply Rmult_le_compat_r; [apply bpow_ge_0|exact B47]]. }
  assert (D1 : double (d * w) <= d * g + 1.0001 * u * d * g).
  { apply Rle_trans with (double (d * g)); [apply double_mono; apply Rmult_le_compat_l; lra|]. assert (R := round_error (d * g)). rewrite (Rabs_pos_eq (d * g)) in R by (apply Rmult_le_pos; lra). apply Rabs_le_inv in R. lra. }
  assert (D2 : double (d * w) / g <= d + 1.0001 * u * d). { apply (Rmult_le_reg_r g); [exact G0|]. unfold Rdiv. rewrite Rmult_assoc, Rinv_l, Rmult_1_r by lra. lra. }
  eapply Rle_trans; [apply double_mono; exact D2|]. assert (R := round_error (d + 1.0001 * u * d)). rewrite (Rabs_pos_eq (d + 1.0001 * u * d)) in R by lra. apply Rabs_le_inv in R. assert (u * (1.0001 * u * d) <= 0.0001 * (u * d)) by (assert (u * (u * d) <= / 1000000000000 * (u * d)) by (apply Rmult_le_compat_r; lra); lra). lra.
Qed.
Lemma advance z q d : is_double z -> ordinary_step d -> q <= d + 2.01 * u * d -> double (double (z + q) - d) <= z + (3 * Rabs z + 4 * d) * u.
Proof.
  intros Dz Hd Hq. assert (P := step_pos _ Hd). assert (U := u_pos). assert (T := u_tiny). assert (Et := eta_step _ Hd). assert (UD : 0 < u * d) by (apply Rmult_lt_0_compat; lra). assert (UU : u * (u * d) <= / 1000000000000 * (u * d)) by (apply Rmult_le_compat_r; lra). assert (Az := Rabs_pos z). assert (UZ : 0 <= u * Rabs z) by (apply Rmult_le_pos; lra). assert (UUZ : u * (u * Rabs z) <= / 1000000000000 * (u * Rabs z)) by (apply Rmult_le_compat_r; lra).
  assert (Up : forall y b, Rabs y <= b -> double y <= y + u * b + eta). { intros y b Hb. assert (R := round_error y). apply Rabs_le_inv in R. assert (u * Rabs y <= u * b) by (apply Rmult_le_compat_l; lra). lra. }
  assert (Zs := Rle_abs z). assert (Zn := Rle_abs (- z)). rewrite Rabs_Ropp in Zn. assert (Pe := eta_pos).
  assert (A : double (z + q) <= z + d + 2.01 * u * d + u * (Rabs z + d + 2.01 * u * d) + eta).
  { apply Rle_trans with (double (z + (d + 2.01 * u * d))); [apply double_mono; lra|]. eapply Rle_trans; [apply (Up _ (Rabs z + d + 2.01 * u * d)); apply Rabs_le; lra|lra]. }
  assert (UZ1 : u * Rabs z <= / 1000000000000 * Rabs z) by (apply Rmult_le_compat_r; lra). apply Rle_trans with (double (z + (u * Rabs z + 3.1 * (u * d)))); [apply double_mono; lra|]. eapply Rle_trans; [apply (Up _ (1.1 * Rabs z + 3.2 * (u * d))); apply Rabs_le; lra|]. lra.
Qed.

(** In the 2D program a substep moves a particle forward by a few roundings at most. *)
Theorem C79_2d_forward_by_roundings : forall c p d eb, ordinary_ratio (q_m p) -> ordinary_step d -> ordinary_step (d / 2) -> is_double d -> is_double (xi p) -> is_double (p_r p) -> is_double (p_z p) ->
  vz (fst (substep_f c p d eb)) <= xi p + (3 * Rabs (xi p) + 4 * d) * rounding /\
  vz (half_position_f p d) <= xi p + (3 * Rabs (xi p) + 2 * d) * rounding.
Proof.
  intros c p d eb Hq Hd Hd2 Dd Dz Dr Dp. change rounding with u. assert (P := step_pos _ Hd). assert (U := u_pos). assert (T := u_tiny). split.
  - unfold substep_f, beam_to_vec_f. cbv zeta. unfold vx, vy, vz. cbn [fst snd]. set (hx := double (p_r p + _)). set (hy := double (double (ang p / rad p) + _)). set (hz := double (p_z p + _)).
    destruct (gam2_least (q_m p) hx hy hz Hq (double_double _) (double_double _) (double_double _)) as (G & _ & _ & Gz). apply advance; [exact Dz|exact Hd|]. apply displacement; [exact Hd|now apply gam2_big|exact Gz].
  - unfold half_position_f, beam_to_vec_f. cbv zeta. unfold vx, vy, vz. cbn [fst snd]. destruct (gam2_least (q_m p) (p_r p) (double (ang p / rad p)) (p_z p) Hq Dr (double_double _) Dp) as (G & _ & _ & Gz).
    rewrite (half_exact d Dd Hd). replace (2 * d) with (4 * (d / 2)) by field. apply advance; [exact Dz|exact Hd2|]. apply displacement; [exact Hd2|now apply gam2_big|exact Gz].
Qed.

(** ... and it can: a fast particle at the front border of the window goes ahead of it, in free space. *)
Definition case_d : R := IZR (2 ^ 53 - 2 ^ 50 + 1) * bpow radix2 (-56).
Definition case_fast : part := mkPart 0 1 (IZR 5 * bpow radix2 60) 0 0 1 1 1.
Lemma above m e v : (2 ^ 52 < m < 2 ^ 53)%Z -> (-1000 <= e)%Z -> (IZR m - 1 / 2) * bpow radix2 e < v -> IZR m * bpow radix2 e <= double v.
Proof.
  intros Hm He Hv. pose (x := IZR m * bpow radix2 e). fold x. assert (B := bpow_gt_0 radix2 e). assert (X0 : 0 < x) by (apply Rmult_lt_0_compat; [apply IZR_lt; lia|exact B]).
  assert (Fx : generic_format radix2 fx x) by (apply format_of; apply double_exact; lia).
  assert (MA : mag radix2 x = (e + 53)%Z :> Z). { apply mag_unique_pos. unfold x. replace (e + 53 - 1)%Z with (52 + e)%Z by lia. replace (e + 53)%Z with (53 + e)%Z by lia. rewrite !bpow_plus. change (bpow radix2 52) with (IZR (2 ^ 52)). change (bpow radix2 53) with (IZR (2 ^ 53)). split; [apply Rmult_le_compat_r; [lra|apply IZR_le; lia]|apply Rmult_lt_compat_r; [lra|apply IZR_lt; lia]]. }
  assert (Pr : pred radix2 fx x = x - bpow radix2 e). { rewrite pred_eq_pos by lra. unfold pred_pos. rewrite MA. rewrite Req_bool_false. { rewrite ulp_neq_0 by lra. unfold cexp. rewrite MA. do 2 f_equal. unfold FLT_exp. lia. } unfold x. replace (e + 53 - 1)%Z with (52 + e)%Z by lia. rewrite bpow_plus. change (bpow radix2 52) with (IZR (2 ^ 52)). intros K. apply Rmult_eq_reg_r in K; [apply eq_IZR in K; lia|lra]. }
  unfold double. apply round_N_ge_midp; [apply fx_ok|exact Fx|]. rewrite Pr. unfold x. lra.
Qed.
Lemma below m e v : (2 ^ 52 <= m < 2 ^ 53)%Z -> (-1000 <= e)%Z -> v < (IZR m + 1 / 2) * bpow radix2 e -> double v <= IZR m * bpow radix2 e.
Proof.
  intros Hm He Hv. pose (x := IZR m * bpow radix2 e). fold x. assert (B := bpow_gt_0 radix2 e). assert (X0 : 0 < x) by (apply Rmult_lt_0_compat; [apply IZR_lt; lia|exact B]).
  assert (Fx : generic_format radix2 fx x) by (apply format_of; apply double_exact; lia).
  assert (MA : mag radix2 x = (e + 53)%Z :> Z). { apply mag_unique_pos. unfold x. replace (e + 53 - 1)%Z with (52 + e)%Z by lia. replace (e + 53)%Z with (53 + e)%Z by lia. rewrite !bpow_plus. change (bpow radix2 52) with (IZR (2 ^ 52)). change (bpow radix2 53) with (IZR (2 ^ 53)). split; [apply Rmult_le_compat_r; [lra|apply IZR_le; lia]|apply Rmult_lt_compat_r; [lra|apply IZR_lt; lia]]. }
  assert (Su : succ radix2 fx x = x + bpow radix2 e). { rewrite succ_eq_pos by lra. rewrite ulp_neq_0 by lra. unfold cexp. rewrite MA. do 2 f_equal. unfold FLT_exp. lia. }
  unfold double. apply round_N_le_midp; [apply fx_ok|exact Fx|]. rewrite Su. unfold x. lra.
Qed.
Lemma case_gam : gam2_f 1 0 0 (IZR 5 * bpow radix2 60) <= IZR 5 * bpow radix2 60.
Proof.
  assert (O := double_1). unfold is_double in O. assert (Z0 := double_0). unfold gam2_f. replace (1 / 1) with 1 by lra. rewrite !O, !Rmult_1_l, O, !Rmult_0_l, !Z0, Rplus_0_l, Z0, Rplus_0_l, double_double.
  set (w := IZR 5 * bpow radix2 60). assert (B := bpow_gt_0 radix2 60).
  assert (W2 : w * w = IZR (25 * 2 ^ 48) * bpow radix2 72). { unfold w. rewrite mult_IZR. change (IZR (2 ^ 48)) with (bpow radix2 48). replace (IZR 5 * bpow radix2 60 * (IZR 5 * bpow radix2 60)) with (25 * (bpow radix2 60 * bpow radix2 60)) by ring. rewrite Rmult_assoc, <- !bpow_plus. reflexivity. }
  assert (D2 : double (w * w) = w * w) by (rewrite W2; apply double_exact; lia). rewrite D2.
  assert (S1 : double (1 + w * w) <= w * w). { rewrite W2. apply below; [lia|lia|]. assert (2 < bpow radix2 72) by (change 2 with (bpow radix2 1); apply bpow_lt; lia). lra. }
  apply double_le; [apply double_exact; lia|]. apply Rle_trans with (sqrt (w * w)); [apply sqrt_le_1; [apply double_pos; nra|nra|exact S1]|]. rewrite half_of_sq, Rabs_pos_eq by (unfold w; lra). lra.
Qed.
Lemma case_forward k g : (-1000 <= k <= 0)%Z -> 0 < g <= IZR 5 * bpow radix2 60 -> let d := IZR (2 ^ 53 - 2 ^ 50 + 1) * bpow radix2 k in d + bpow radix2 k <= double (double (d * (IZR 5 * bpow radix2 60)) / g).
Proof.
  intros Hk [G0 G1] d. set (D := (2 ^ 53 - 2 ^ 50 + 1)%Z) in *. set (w := IZR 5 * bpow radix2 60) in *. assert (B := bpow_gt_0 radix2 60). assert (Bk := bpow_gt_0 radix2 k).
  assert (A : IZR (5 * D + 3) * bpow radix2 (k + 60) <= double (d * w)). { replace (IZR (5 * D + 3) * bpow radix2 (k + 60)) with (IZR ((5 * D + 3) / 8) * bpow radix2 (k + 63)) by (replace (k + 63)%Z with (3 + (k + 60))%Z by lia; rewrite (bpow_plus radix2 3); change (bpow radix2 3) with 8; rewrite <- Rmult_assoc, <- (mult_IZR _ 8); reflexivity).
    apply above; [split; reflexivity|lia|]. replace (d * w) with (IZR (5 * D) * bpow radix2 (k + 60)) by (unfold d, w; rewrite mult_IZR, bpow_plus; ring). replace (k + 63)%Z with (3 + (k + 60))%Z by lia. rewrite (bpow_plus radix2 3). change (bpow radix2 3) with 8. rewrite <- Rmult_assoc. apply Rmult_lt_compat_r; [apply bpow_gt_0|]. replace ((IZR ((5 * D + 3) / 8) - 1 / 2) * 8) with (IZR ((5 * D + 3) / 8 * 8) - 4) by (rewrite mult_IZR; lra). change ((5 * D + 3) / 8 * 8)%Z with (5 * D + 3)%Z. rewrite plus_IZR. lra. }
  replace (d + bpow radix2 k) with (IZR (D + 1) * bpow radix2 k) by (unfold d; rewrite plus_IZR; ring). apply above; [unfold D; lia|lia|].
  apply Rlt_le_trans with (IZR (5 * D + 3) * bpow radix2 (k + 60) / w).
  - unfold w. rewrite bpow_plus. replace (IZR (5 * D + 3) * (bpow radix2 k * bpow radix2 60) / (5 * bpow radix2 60)) with (IZR (5 * D + 3) / 5 * bpow radix2 k) by (field; lra). apply Rmult_lt_compat_r; [exact Bk|]. rewrite !plus_IZR, mult_IZR. lra.
  - assert (P : 0 <= IZR (5 * D + 3) * bpow radix2 (k + 60)) by (apply Rmult_le_pos; [apply IZR_le; unfold D; lia|apply bpow_ge_0]). unfold Rdiv. apply Rmult_le_compat; [exact P|left; apply Rinv_0_lt_compat; lra|exact A|apply Rinv_le_contravar; lra].
Qed.
Theorem C79_2d_can_move_forward : let p := case_fast in
  ordinary_ratio (q_m p) /\ ordinary_step case_d /\ ordinary_step (case_d / 2) /\ is_double case_d /\ is_double (xi p) /\ is_double (p_r p) /\ is_double (p_z p) /\ xi p = 0 /\
  forall c, magnetic_field c = 0 -> bpow radix2 (-57) <= vz (half_position_f p case_d) /\ bpow radix2 (-56) <= vz (fst (substep_f c p case_d ((0, 0, 0), (0, 0, 0)))).
Proof.
  assert (B := bpow_gt_0 radix2 (-56)). assert (Dd : is_double case_d) by (apply double_exact; lia). assert (Os : ordinary_step case_d). { unfold ordinary_step, case_d. split; [apply Rle_trans with (1 * bpow radix2 (-56)); [rewrite Rmult_1_l; apply bpow_le; lia|apply Rmult_le_compat_r; [lra|apply IZR_le; lia]]|]. apply Rle_trans with (bpow radix2 53 * bpow radix2 (-56)); [apply Rmult_le_compat_r; [lra|change (bpow radix2 53) with (IZR (2 ^ 53)); apply IZR_le; lia]|rewrite <- bpow_plus; apply bpow_le; lia]. }
  assert (Hd2 : case_d / 2 = IZR (2 ^ 53 - 2 ^ 50 + 1) * bpow radix2 (-57)) by (unfold case_d, Rdiv; rewrite Rmult_assoc; f_equal; change (-57)%Z with (-56 + -1)%Z; rewrite bpow_plus; reflexivity).
  assert (Os2 : ordinary_step (case_d / 2)). { rewrite Hd2. unfold ordinary_step. assert (B7 := bpow_gt_0 radix2 (-57)). split; [apply Rle_trans with (1 * bpow radix2 (-57)); [rewrite Rmult_1_l; apply bpow_le; lia|apply Rmult_le_compat_r; [lra|apply IZR_le; lia]]|]. apply Rle_trans with (bpow radix2 53 * bpow radix2 (-57)); [apply Rmult_le_compat_r; [lra|change (bpow radix2 53) with (IZR (2 ^ 53)); apply IZR_le; lia]|rewrite <- bpow_plus; apply bpow_le; lia]. }
  assert (Oq : ordinary_ratio 1). { unfold ordinary_ratio. rewrite Rabs_R1. split; [apply (bpow_le radix2 _ 0)|apply (bpow_le radix2 0)]; lia. }
  assert (Dw : is_double (IZR 5 * bpow radix2 60)) by (apply double_exact; lia). assert (Z0 := double_0).
  cbv zeta. cbn [case_fast q_m xi p_r p_z]. do 8 (split; [first [assumption|reflexivity]|]).
  intros c Hc. assert (G1 := case_gam). assert (G0 : 0 < gam2_f 1 0 0 (IZR 5 * bpow radix2 60)) by (assert (K := gam2_big 1 0 0 (IZR 5 * bpow radix2 60) Oq); assert (K2 := bpow_gt_0 radix2 (-100)); lra).
  assert (Fin : forall k g, (-1000 <= k <= 0)%Z -> 0 < g <= IZR 5 * bpow radix2 60 -> let d := IZR (2 ^ 53 - 2 ^ 50 + 1) * bpow radix2 k in bpow radix2 k <= double (double (0 + double (double (d * (IZR 5 * bpow radix2 60)) / g)) - d)).
  { intros k g Hk Hg d. rewrite Rplus_0_l, double_double. assert (F := case_forward k g Hk Hg). cbv zeta in F. fold d in F. apply double_ge; [apply double_pow; lia|lra]. }
  unfold half_position_f, substep_f, beam_to_vec_f, case_fast. cbv zeta. unfold vx, vy, vz. cbn [fst snd q_m p_r p_z xi rad ang]. replace (0 / 1) with 0 by lra. rewrite Z0. split.
  - rewrite (half_exact _ Dd Os), Hd2. apply Fin; [lia|lra].
  - rewrite Hc. unfold lorentz2_f. repeat first [rewrite Rmult_0_r|rewrite Rmult_0_l|rewrite Rplus_0_l|rewrite Rplus_0_r|rewrite Rminus_0_r|rewrite Z0]. rewrite !Dw. assert (F := Fin (-56)%Z _ ltac:(lia) (conj G0 G1)). cbv zeta in F. rewrite Rplus_0_l in F. exact F.
Qed.

(** ** What that particle does to the rest of the beam *)
Lemma lost2_not c x : 4 <= max_radius c -> vx x = 1 -> vy x = 0 -> is_lost2_f x (lost_boundary_f c) = false.
Proof.
  intros Hm Hx Hy. assert (D3 : is_double 3) by (unfold is_double; replace 3 with (IZR 3 * bpow radix2 0) by (cbn; ring); apply double_exact; lia). assert (D9 : is_double 9) by (unfold is_double; replace 9 with (IZR 9 * bpow radix2 0) by (cbn; ring); apply double_exact; lia).
  assert (L : 3 <= lost_boundary_f c) by (unfold lost_boundary_f; eapply Rle_trans; [|apply Rmax_r]; apply double_ge; [exact D3|lra]). set (l := lost_boundary_f c) in *. unfold is_lost2_f. rewrite Hx, Hy. destruct (Rle_dec _ _) as [K|]; [exfalso|reflexivity].
  assert (A : 9 <= double (l * l)) by (apply double_ge; [exact D9|nra]). assert (O := double_1). unfold is_double in O. rewrite Rmult_1_r, O, Rmult_0_l, double_0, Rplus_0_r, O in K. lra.
Qed.
Lemma none_at l j : Forall (fun v => v = 0) l -> at_ l j = 0.
Proof. intros H. unfold at_. destruct (Nat.ltb_spec (Z.to_nat j) (List.length l)) as [L|L]; [|now apply nth_overflow]. rewrite Forall_forall in H. apply H. now apply nth_In. Qed.
Lemma no_fields x fl fu xe h dxi : (forall f, In f [E_r; E_f; E_z; B_f; B_z] -> Forall (fun v => v = 0) (f fl) /\ Forall (fun v => v = 0) (f fu)) -> particle_fields_f x fl fu xe h dxi = ((0, 0, 0), (0, 0, 0)).
Proof.
  intros H. assert (Z0 := double_0). assert (I : forall w f, In f [E_r; E_f; E_z; B_f; B_z] -> interpolate_f (f fu) (f fl) w = 0).
  { intros [[[[j a] b] c] d] f Hf. destruct (H f Hf) as [H1 H2]. unfold interpolate_f. rewrite !none_at by assumption. rewrite !Rmult_0_r, !Z0, !Rplus_0_r, !Z0. reflexivity. }
  unfold particle_fields_f. cbv zeta. rewrite !I by (cbn; tauto). now rewrite Ropp_0.
Qed.
Lemma blocked xs parts x rest dxi : fine_step dxi -> xs = x :: rest -> bpow radix2 (-56) <= x -> forall n i, (0 <= i)%Z -> (i + Z.of_nat n <= 2 ^ 51)%Z ->
  ask_f (mkSrc xs parts 0) dxi i n = Some (repeat (0%nat, []) n, mkSrc xs parts 0).
Proof.
  intros Hf -> Hx. assert (D0 : 0 < dxi) by (destruct Hf as [H _]; assert (X := bpow_gt_0 radix2 (-900)); lra). assert (X0 := bpow_gt_0 radix2 (-56)). induction n as [|n IH]; intros i Hi Hn; cbn [ask_f]; [reflexivity|].
  assert (Bd := border_down dxi i Hf ltac:(lia)). assert (B0 : border2 dxi i <= 0) by (apply double_le; [apply double_0|]; assert (0 <= IZR i) by (apply IZR_le; lia); nra).
  unfold get_beam_slice_f. cbn [used s_xi s_parts skipn scan_f]. destruct (Rlt_dec _ _) as [_|K]; [|contradiction].
  destruct (Rlt_dec _ _) as [K|_]. { assert (0 <= double (x - border2 dxi (i + 1))) by (apply double_pos; lra). lra. }
  destruct (Rlt_dec _ _) as [_|K]; [|exfalso; apply K; apply Rlt_le_trans with (bpow radix2 (-56)); [exact X0|apply double_ge; [apply double_pow; lia|lra]]].
  cbn [Nat.sub firstn map Nat.add]. rewrite IH by lia. reflexivity.
Qed.

(** A particle inside the window, in free space: after its time step the 2D program has it ahead of the window, not lost,
    and in the next time step no layer is given any particle of the beam, however many there are (see C11). *)
Theorem C79_2d_rounding_stops_the_beam : exists p d, xi p = 0 /\ is_double d /\ ordinary_step d /\ ordinary_ratio (q_m p) /\ Forall is_double [xi p; rad p; p_z p; p_r p; ang p] /\
  forall c fl fu i, magnetic_field c = 0 -> 4 <= max_radius c -> 0 < xi_step c -> (0 <= i)%Z ->
    (forall f, In f [E_r; E_f; E_z; B_f; B_z] -> Forall (fun v => v = 0) (f fl) /\ Forall (fun v => v = 0) (f fu)) ->
    let q := push_particle_f c fl fu i (mkB p d 1 false) in
    rem q = 0%nat /\ lost q = false /\ 0 < xi (pt q) /\
    forall sort_xi beam dxi n, sort_xi_ok sort_xi -> fine_step dxi -> (Z.of_nat n <= 2 ^ 51)%Z -> In (pt q) beam ->
      exists s, ask_f (new_source_f sort_xi beam) dxi 0 n = Some (repeat (0%nat, []) n, s).
Proof.
  exists case_fast, case_d. destruct C79_2d_can_move_forward as (Oq & Os & _ & Dd & _ & _ & Dw & _ & Fw). assert (Z0 := double_0). assert (O1 := double_1). unfold is_double in O1.
  split; [reflexivity|]. split; [exact Dd|]. split; [exact Os|]. split; [exact Oq|]. split; [repeat constructor; cbn; assumption|]. intros c fl fu i Hm Hr Hx Hi HF q. destruct (Fw c Hm) as [F1 F2]. clear Fw. assert (B7 := bpow_gt_0 radix2 (-57)). assert (B6 := bpow_gt_0 radix2 (-56)).
  assert (Hh : vx (half_position_f case_fast case_d) = 1 /\ vy (half_position_f case_fast case_d) = 0).
  { unfold half_position_f, beam_to_vec_f, case_fast. cbv zeta. unfold vx, vy, vz. cbn [fst snd q_m p_r p_z xi rad ang]. replace (0 / 1) with 0 by lra. rewrite Z0. set (g := gam2_f _ _ _ _). rewrite Rmult_0_r, Z0. replace (0 / g) with 0 by (unfold Rdiv; ring). rewrite Z0, !Rplus_0_r, Z0, O1. split; reflexivity. }
  assert (Hs : vx (fst (substep_f c case_fast case_d ((0, 0, 0), (0, 0, 0)))) = 1 /\ vy (fst (substep_f c case_fast case_d ((0, 0, 0), (0, 0, 0)))) = 0).
  { unfold substep_f, beam_to_vec_f, case_fast. cbv zeta. unfold vx, vy, vz. cbn [fst snd q_m p_r p_z xi rad ang]. rewrite Hm. replace (0 / 1) with 0 by lra. unfold lorentz2_f. repeat first [rewrite Rmult_0_r|rewrite Rmult_0_l|rewrite Rplus_0_l|rewrite Rplus_0_r|rewrite Rminus_0_r|rewrite Z0]. set (g := gam2_f 1 0 0 (double _)). replace (0 / g) with 0 by (unfold Rdiv; ring). rewrite Z0, !Rplus_0_r, O1, Z0. split; reflexivity. }
  assert (Q : xi (pt q) = vz (fst (substep_f c case_fast case_d ((0, 0, 0), (0, 0, 0)))) /\ rem q = 0%nat /\ lost q = false).
  { unfold q, push_particle_f. cbn [rem]. cbn [push_loop_f pt dt]. unfold beam_to_vec_f at 1. set (xe := double (IZR i * - xi_step c)). assert (E0 : xe <= 0) by (apply double_le; [exact Z0|]; assert (0 <= IZR i) by (apply IZR_le; lia); nra).
    unfold in_layer2_f. destruct (Rle_dec _ _) as [_|K]; [|exfalso; lra]. cbn [negb]. rewrite lost2_not by tauto. rewrite no_fields by exact HF. destruct (substep_f c case_fast case_d _) as [x1 p1]. cbn [fst] in Hs |- *. rewrite lost2_not by tauto. cbn [push_loop_f vec_to_beam_f pt xi rem lost]. repeat split. }
  destruct Q as (Q1 & Q2 & Q3). split; [exact Q2|]. split; [exact Q3|]. split; [lra|]. intros sort_xi beam dxi n Hok Hf Hn Hin. destruct (Hok beam) as [Hp Hso].
  assert (Hin' : In (pt q) (sort_xi beam)) by (eapply Permutation_in; [apply Permutation_sym; exact Hp|exact Hin]). unfold new_source_f. destruct (sort_xi beam) as [|p0 l] eqn:E; [contradiction|].
  assert (G : xi (pt q) <= xi p0) by (destruct Hin' as [->|H]; [lra|]; inversion Hso as [|? ? _ Hall]; subst; rewrite Forall_forall in Hall; auto). eexists. rewrite (blocked _ _ (xi p0) (map xi l) dxi Hf); [reflexivity|reflexivity|lra|lia|lia].
Qed.
