(** Lemmas for C79: the computed energy is never below any component of the momentum. *)
From Coq Require Import Reals ZArith List Bool Lra Lia Psatz.
From Flocq Require Import Core.
From Verif Require Import Float_Model Float_Proofs Beam2D_Model Beam3D_Model RoundedBeam_Spec Props_RoundedBeam RoundedSum_Proofs RoundedDep_Spec Props_RoundedDep RoundedPush_Model RoundedPush_Spec RoundedPush_Proofs.
Import ListNotations.
Open Scope R_scope.

Notation fx := (FLT_exp (-1074) 53).
Global Instance fx_ok : Valid_exp fx. Proof. apply FLT_exp_valid. reflexivity. Qed.
Lemma half_of_sq (x : R) : sqrt (x * x) = Rabs x. Proof. exact (sqrt_Rsqr_abs x). Qed.
Lemma double_pow e : (-1000 <= e)%Z -> double (bpow radix2 e) = bpow radix2 e.
Proof. intros H. unfold double. apply round_generic; [apply valid_rnd_N|]. apply generic_format_bpow. unfold FLT_exp. lia. Qed.
(** the square root of a rounded square is not below the number *)
Lemma root_of_square p s : is_double p -> bpow radix2 (-400) <= p -> double (p * p) <= s -> p <= double (sqrt s).
Proof.
  intros Dp Lo Hs. assert (Pp : 0 < p) by (assert (X := bpow_gt_0 radix2 (-400)); lra). assert (Fp := format_of _ Dp).
  destruct (mag radix2 p) as [e1 He]. specialize (He ltac:(lra)). rewrite Rabs_pos_eq in He by lra. destruct He as [H1 H2]. pose (e := (e1 - 1)%Z).
  assert (Le : (-400 <= e)%Z). { apply Z.lt_succ_r; apply (lt_bpow radix2); unfold e; replace (Z.succ (e1 - 1)) with e1 by lia; lra. }
  fold e in H1. replace e1 with (e + 1)%Z in H2 by (unfold e; lia). clearbody e. clear e1. pose (Q := bpow radix2 e). assert (Q0 : 0 < Q) by apply bpow_gt_0.
  destruct (Rle_lt_or_eq_dec _ _ H1) as [G|G].
  2:{ assert (E2 : p * p = bpow radix2 (e + e)) by (rewrite bpow_plus; fold Q; rewrite <- G; fold Q; ring). rewrite E2 in Hs. rewrite double_pow in Hs by lia. rewrite <- Dp. apply double_mono. rewrite <- (Rabs_pos_eq p), <- half_of_sq by lra. apply sqrt_le_1; [nra|eapply Rle_trans; [apply bpow_ge_0|exact Hs]|lra]. }
  assert (MA : mag radix2 p = (e + 1)%Z :> Z) by (apply mag_unique_pos; replace (e + 1 - 1)%Z with e by lia; split; [lra|exact H2]).
  assert (Up : ulp radix2 fx p = bpow radix2 (e - 52)). { rewrite ulp_neq_0 by lra. unfold cexp. rewrite MA. f_equal. unfold FLT_exp. lia. }
  assert (D : bpow radix2 (e - 52) = Q * / IZR (2 ^ 52)). { unfold Q. replace (e - 52)%Z with (e + (-52))%Z by lia. rewrite bpow_plus. reflexivity. }
  assert (S1 : Q + bpow radix2 (e - 52) <= p). { assert (K := succ_le_lt radix2 fx Q p). rewrite succ_eq_pos in K by lra. change (ulp radix2 fx Q) with (ulp radix2 fx (bpow radix2 e)) in K. rewrite ulp_bpow in K. replace (fx (e + 1)) with (e - 52)%Z in K by (unfold FLT_exp; lia). apply K; [apply generic_format_bpow; unfold FLT_exp; lia|exact Fp|exact G]. }
  assert (Pr : pred radix2 fx p = p - bpow radix2 (e - 52)). { rewrite pred_eq_pos by lra. unfold pred_pos. rewrite MA. replace (e + 1 - 1)%Z with e by lia. rewrite Req_bool_false by lra. now rewrite Up. }
  assert (P2 : p * p < bpow radix2 (e + e + 2)). { replace (e + e + 2)%Z with ((e + 1) + (e + 1))%Z by lia. rewrite bpow_plus. apply Rmult_le_0_lt_compat; lra. }
  assert (U2 : ulp radix2 fx (p * p) <= bpow radix2 (e + e - 51)). { rewrite ulp_neq_0 by nra. apply bpow_le. unfold cexp. assert (M2 : (mag radix2 (p * p) <= e + e + 2)%Z) by (apply mag_le_bpow; [nra|rewrite Rabs_pos_eq by nra; exact P2]). unfold FLT_exp. lia. }
  assert (Er := error_le_half_ulp radix2 fx (fun x => negb (Z.even x)) (p * p)). change (round radix2 fx ZnearestE (p * p)) with (double (p * p)) in Er. apply Rabs_le_inv in Er.
  assert (B2 : bpow radix2 (e + e - 51) = Q * Q * (2 * / IZR (2 ^ 52))). { replace (e + e - 51)%Z with (e + e + (-51))%Z by lia. rewrite !bpow_plus. fold Q. change (bpow radix2 (-51)) with (/ IZR (2 ^ 51)). replace (IZR (2 ^ 52)) with (2 * IZR (2 ^ 51)) by (rewrite <- mult_IZR; reflexivity). field. apply IZR_neq. lia. }
  unfold double. apply round_N_ge_midp; [apply fx_ok|exact Fp|]. rewrite Pr.
  set (t := / IZR (2 ^ 52)) in *. assert (T : 0 < t < / 1000) by (unfold t; split; [apply Rinv_0_lt_compat, IZR_lt; lia|apply Rinv_lt_contravar; [apply Rmult_lt_0_compat; [lra|apply IZR_lt; lia]|apply IZR_lt; lia]]). rewrite D in *.
  replace ((p + (p - Q * t)) / 2) with (p - Q * t / 2) by field.
  assert (Ps : 0 <= p - Q * t / 2) by nra. rewrite <- (Rabs_pos_eq (p - Q * t / 2)), <- half_of_sq by lra. apply sqrt_lt_1; [nra| |].
  - eapply Rle_trans; [|exact Hs]. rewrite <- double_0. apply double_mono. nra.
  - apply Rlt_le_trans with (double (p * p)); [|exact Hs]. apply Rlt_le_trans with (p * p - / 2 * (Q * Q * (2 * t))); [|lra].
    assert (0 < Q * t) by (apply Rmult_lt_0_compat; lra). assert (Q * t * (Q + Q * t) <= Q * t * p) by (apply Rmult_le_compat_l; lra). assert (0 < (Q * t) * (Q * t)) by (apply Rmult_lt_0_compat; lra). nra.
Qed.

Lemma double_pos x : 0 <= x -> 0 <= double x. Proof. intros H. rewrite <- double_0. now apply double_mono. Qed.
Lemma double_sq x : 0 <= double (x * x). Proof. apply double_pos. nra. Qed.
Lemma double_ge a x : is_double a -> a <= x -> a <= double x. Proof. intros D H. rewrite <- D. now apply double_mono. Qed.
Lemma double_le a x : is_double a -> x <= a -> double x <= a. Proof. intros D H. rewrite <- D. now apply double_mono. Qed.
(** a part of the rounded sum under the root *)
Lemma root_least a s : bpow radix2 (-200) <= s -> double (a * a) <= s -> is_double a -> Rabs a <= double (sqrt s) /\ 0 < double (sqrt s).
Proof.
  intros Hs Ha Da. assert (R : bpow radix2 (-100) <= double (sqrt s)). { apply double_ge; [apply double_pow; lia|]. rewrite <- (Rabs_pos_eq (bpow radix2 (-100))), <- half_of_sq, <- bpow_plus by apply bpow_ge_0. apply sqrt_le_1; [apply bpow_ge_0|eapply Rle_trans; [apply bpow_ge_0|exact Hs]|exact Hs]. }
  assert (P := bpow_gt_0 radix2 (-100)). split; [|lra]. destruct (Rle_lt_dec (Rabs a) (bpow radix2 (-100))) as [|G]; [lra|]. apply root_of_square.
  - unfold is_double in *. unfold Rabs. destruct (Rcase_abs a); [rewrite double_opp; now rewrite Da|exact Da].
  - apply Rle_trans with (bpow radix2 (-100)); [apply bpow_le; lia|lra].
  - replace (Rabs a * Rabs a) with (a * a) by (unfold Rabs; destruct (Rcase_abs a); ring). exact Ha.
Qed.
Lemma rest_big qm : ordinary_ratio qm -> bpow radix2 (-200) <= double (double (1 / qm) * double (1 / qm)).
Proof.
  intros [H1 H2]. assert (N : qm <> 0) by (intros ->; rewrite Rabs_R0 in H1; assert (X := bpow_gt_0 radix2 (-100)); lra). assert (Pq := Rabs_pos_lt _ N). assert (X := bpow_gt_0 radix2 100).
  assert (A : bpow radix2 (-100) <= Rabs (1 / qm)). { unfold Rdiv. rewrite Rmult_1_l, Rabs_inv by assumption. change (-100)%Z with (- (100))%Z. rewrite bpow_opp. apply Rinv_le_contravar; lra. }
  assert (B : bpow radix2 (-100) <= Rabs (double (1 / qm))). { replace (Rabs (double (1 / qm))) with (double (Rabs (1 / qm))) by (unfold Rabs; destruct (Rcase_abs (1 / qm)) as [L|L]; [rewrite double_opp; assert (K := double_mono (1 / qm) 0 ltac:(lra)); rewrite double_0 in K; destruct (Rcase_abs _); lra|assert (K := double_pos _ (Rge_le _ _ L)); destruct (Rcase_abs _); lra]). apply double_ge; [apply double_pow; lia|exact A]. }
  apply double_ge; [apply double_pow; lia|]. replace (double (1 / qm) * double (1 / qm)) with (Rabs (double (1 / qm)) * Rabs (double (1 / qm))) by (unfold Rabs; destruct (Rcase_abs _); ring). change (-200)%Z with (-100 + -100)%Z. rewrite bpow_plus. apply Rmult_le_compat; try apply bpow_ge_0; exact B.
Qed.
(** 3D: the energy is at least every component *)
Lemma gam_least qm px py pz : ordinary_ratio qm -> is_double px -> is_double py -> is_double pz -> let g := gam_f qm px py pz in 0 < g /\ Rabs px <= g /\ Rabs py <= g /\ Rabs pz <= g.
Proof.
  intros Hq Dx Dy Dz g. assert (R := rest_big _ Hq). set (m := double (double (1 / qm) * double (1 / qm))) in *. assert (M0 : 0 <= m) by (eapply Rle_trans; [apply bpow_ge_0|exact R]). assert (Qx := double_sq px). assert (Qy := double_sq py). assert (Qz := double_sq pz). assert (Dm : is_double m) by apply double_double.
  unfold g, gam_f. fold m. set (a := double (m + double (px * px))). set (b := double (a + double (py * py))). set (c := double (b + double (pz * pz))).
  assert (A1 : m <= a) by (apply double_ge; [exact Dm|lra]). assert (A2 : double (px * px) <= a) by (apply double_ge; [apply double_double|lra]).
  assert (B1 : a <= b) by (apply double_ge; [apply double_double|lra]). assert (B2 : double (py * py) <= b) by (apply double_ge; [apply double_double|lra]).
  assert (C1 : b <= c) by (apply double_ge; [apply double_double|lra]). assert (C2 : double (pz * pz) <= c) by (apply double_ge; [apply double_double|lra]).
  destruct (root_least px c ltac:(lra) ltac:(lra) Dx) as [X G]. destruct (root_least py c ltac:(lra) ltac:(lra) Dy) as [Y _]. destruct (root_least pz c ltac:(lra) ltac:(lra) Dz) as [Z _]. tauto.
Qed.
(** 2D, with its own order of the sum *)
Lemma gam2_least qm px py pz : ordinary_ratio qm -> is_double px -> is_double py -> is_double pz -> let g := gam2_f qm px py pz in 0 < g /\ Rabs px <= g /\ Rabs py <= g /\ Rabs pz <= g.
Proof.
  intros Hq Dx Dy Dz g. assert (R := rest_big _ Hq). set (m := double (double (1 / qm) * double (1 / qm))) in *. assert (M0 : 0 <= m) by (eapply Rle_trans; [apply bpow_ge_0|exact R]). assert (Qx := double_sq px). assert (Qy := double_sq py). assert (Qz := double_sq pz). assert (Dm : is_double m) by apply double_double.
  unfold g, gam2_f. fold m. set (a := double (double (px * px) + double (py * py))). set (b := double (a + double (pz * pz))). set (c := double (m + b)).
  assert (A1 : double (px * px) <= a) by (apply double_ge; [apply double_double|lra]). assert (A2 : double (py * py) <= a) by (apply double_ge; [apply double_double|lra]).
  assert (B1 : a <= b) by (apply double_ge; [apply double_double|lra]). assert (B2 : double (pz * pz) <= b) by (apply double_ge; [apply double_double|lra]).
  assert (C1 : b <= c) by (apply double_ge; [apply double_double|lra]). assert (C2 : m <= c) by (apply double_ge; [exact Dm|lra]).
  destruct (root_least px c ltac:(lra) ltac:(lra) Dx) as [X G]. destruct (root_least py c ltac:(lra) ltac:(lra) Dy) as [Y _]. destruct (root_least pz c ltac:(lra) ltac:(lra) Dz) as [Z _]. tauto.
Qed.
Lemma double_1 : is_double 1. Proof. apply (double_pow 0). lia. Qed.
Lemma speed_limit w g : 0 < g -> Rabs w <= g -> -1 <= double (w / g) <= 1.
Proof.
  intros G H. apply Rabs_le_inv in H. assert (L : -1 <= w / g <= 1) by (split; [apply (Rmult_le_reg_r g)|apply (Rmult_le_reg_r g)]; try exact G; unfold Rdiv; rewrite Rmult_assoc, Rinv_l, Rmult_1_r by lra; lra). assert (D := double_1). split.
  - apply double_ge; [unfold is_double; replace (-1) with (- (1)) by lra; rewrite double_opp; now rewrite D|lra].
  - apply double_le; [exact D|lra].
Qed.
