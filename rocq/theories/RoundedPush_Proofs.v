(** Lemmas for C78: the pieces of one substep of a beam particle in binary64. *)
From Coq Require Import Reals ZArith List Bool Lra Lia Psatz.
From Flocq Require Import Core Mult_error.
From Verif Require Import Float_Model Float_Proofs Beam2D_Model Beam2D_Spec Beam2D_Free Beam3D_Model Beam3D_Spec Shape_Model Shape_Spec Shape_Proofs Rounded3D_Model RoundedBeam_Spec RoundedBeam_Model BeamPush_Spec Props_RoundedBeam RoundedSum_Proofs RoundedWeight_Proofs RoundedDep_Model RoundedDep_Spec RoundedDep_Proofs RoundedPlasma_Proofs Props_RoundedDep RoundedCell_Proofs Props_RoundedCell RoundedField_Model RoundedField_Proofs Props_RoundedField Props_RoundedField2 Props_RoundedField4 RoundedPush_Model RoundedPush_Spec.
Import ListNotations.
Open Scope R_scope.

Lemma sq_abs x : Rabs x * Rabs x = x * x.
Proof. rewrite <- Rabs_mult. apply Rabs_pos_eq. nra. Qed.
Lemma double_bpow e : (-900 <= e <= 900)%Z -> double (bpow radix2 e) = bpow radix2 e.
Proof. intros H. unfold double. apply round_generic; [apply valid_rnd_N|]. apply generic_format_bpow. unfold FLT_exp. lia. Qed.
Lemma double_twice x : is_double x -> double (2 * x) = 2 * x.
Proof.
  intros H. unfold double. apply round_generic; [apply valid_rnd_N|]. rewrite Rmult_comm. change 2 with (bpow radix2 1). apply mult_bpow_pos_exact_FLT; [now apply format_of|lia].
Qed.

Lemma ratio_ne qm : ordinary_ratio qm -> qm <> 0.
Proof. intros [H _] ->. rewrite Rabs_R0 in H. assert (K := bpow_gt_0 radix2 (-100)). lra. Qed.
Lemma ratio_inv qm : ordinary_ratio qm -> bpow radix2 (-100) <= Rabs (1 / qm) <= bpow radix2 100.
Proof.
  intros H. assert (N := ratio_ne _ H). destruct H as [A B]. unfold Rdiv. rewrite Rmult_1_l, Rabs_inv. assert (K := bpow_gt_0 radix2 (-100)). assert (K2 := bpow_gt_0 radix2 100). split.
  - change (-100)%Z with (- (100))%Z. rewrite bpow_opp. apply Rinv_le_contravar; lra.
  - change 100%Z with (- -100)%Z. rewrite bpow_opp. apply Rinv_le_contravar; lra.
Qed.

(** ** The energy *)
Section Energy.
  Variables (qm px py pz : R).
  Hypothesis Hq : ordinary_ratio qm.
  Let m := 1 / qm.
  Let w := Rabs (double m).
  Lemma w_big : bpow radix2 (-100) <= w.
  Proof.
    destruct (ratio_inv _ Hq) as [A _]. unfold w. replace (Rabs (double m)) with (double (Rabs m)). { rewrite <- (double_bpow (-100)) by lia. now apply double_mono. }
    unfold Rabs. destruct (Rcase_abs m) as [L|L].
    - destruct (Rcase_abs (double m)) as [D|D]; [apply double_opp|]. assert (K := double_mono m 0 ltac:(lra)). rewrite double_0 in K. assert (E : double m = 0) by lra. rewrite double_opp, E. ring.
    - destruct (Rcase_abs (double m)) as [D|D]; [|reflexivity]. assert (K := double_mono 0 m ltac:(lra)). rewrite double_0 in K. lra.
  Qed.
  Lemma w_near : Rabs (w ^ 2 - m ^ 2) <= 2.01 * u * m ^ 2.
  Proof.
    destruct (ratio_inv _ Hq) as [A _]. fold m in A. assert (U := u_pos). assert (T := u_tiny). assert (R := round_error m).
    assert (Et : eta <= 0.001 * u * Rabs m). { apply Rle_trans with (0.001 * u * bpow radix2 (-100)); [|apply Rmult_le_compat_l; lra]. unfold eta. change (-1075)%Z with (-53 + (-10 + (-100 + -912)))%Z. rewrite !bpow_plus. change (bpow radix2 (-53)) with u. 
      assert (B1 := bpow_gt_0 radix2 (-100)). assert (B2 : bpow radix2 (-912) <= bpow radix2 0) by (apply bpow_le; lia). change (bpow radix2 0) with 1 in B2. assert (B3 : bpow radix2 (-10) <= 0.001) by (change (bpow radix2 (-10)) with (/ 1024); lra). assert (B4 := bpow_gt_0 radix2 (-10)). assert (B5 := bpow_gt_0 radix2 (-912)).
      assert (bpow radix2 (-10) * (bpow radix2 (-100) * bpow radix2 (-912)) <= 0.001 * (bpow radix2 (-100) * 1)). { apply Rmult_le_compat; try lra; [apply Rmult_le_pos; lra|apply Rmult_le_compat_l; lra]. } apply Rle_trans with (u * (0.001 * (bpow radix2 (-100) * 1))); [apply Rmult_le_compat_l; lra|lra]. }
    unfold w. replace (Rabs (double m) ^ 2 - m ^ 2) with ((double m - m) * (double m - m + 2 * m)) by (cbn [pow]; rewrite Rmult_1_r, sq_abs; ring). rewrite Rabs_mult.
    assert (D : Rabs (double m - m) <= 1.001 * u * Rabs m) by lra. assert (P := Rabs_pos m).
    assert (D2 : Rabs (double m - m + 2 * m) <= 2.001 * Rabs m). { eapply Rle_trans; [apply Rabs_triang|]. rewrite (Rabs_mult 2), (Rabs_pos_eq 2) by lra. nra. }
    replace (m ^ 2) with (Rabs m * Rabs m) by (rewrite sq_abs; ring). apply Rle_trans with (1.001 * u * Rabs m * (2.001 * Rabs m)); [apply Rmult_le_compat; try apply Rabs_pos; assumption|]. assert (0 <= u * (Rabs m * Rabs m)) by (apply Rmult_le_pos; nra). lra.
  Qed.
  Let g := gamma_a double w px py pz.
  Let G := energy qm (px, py, pz).
  Lemma G_is : G = sqrt (m ^ 2 + px ^ 2 + py ^ 2 + pz ^ 2).
  Proof. unfold G, energy, norm2, vx, vy, vz. cbn [fst snd]. f_equal. fold m. ring. Qed.
  Lemma m_pos : 0 < m ^ 2.
  Proof. assert (H := ratio_ne _ Hq). assert (m <> 0) by (unfold m, Rdiv; rewrite Rmult_1_l; now apply Rinv_neq_0_compat). nra. Qed.
  Lemma G_positive : 0 < G.
  Proof. rewrite G_is. apply sqrt_lt_R0. assert (H := m_pos). nra. Qed.
  Lemma G_square : G * G = m ^ 2 + px ^ 2 + py ^ 2 + pz ^ 2.
  Proof. rewrite G_is. apply sqrt_sqrt. assert (H := m_pos). nra. Qed.
  Lemma g_near : 0 < g /\ approx 11.3 (G / g) 1.
  Proof.
    assert (WB := w_big). destruct (g_inv w px py pz WB) as [Pg Ag]. fold g in Pg, Ag. split; [exact Pg|]. set (A := w ^ 2 + px ^ 2 + py ^ 2 + pz ^ 2) in *. assert (PA := G_pos w px py pz WB). fold A in PA. assert (MP := m_pos).
    assert (U := u_pos). assert (T := u_tiny). assert (WN := w_near). assert (AA : 0 < A). { assert (0 <= px ^ 2) by nra. assert (0 <= py ^ 2) by nra. assert (0 <= pz ^ 2) by nra. assert (W0 := bpow_gt_0 radix2 (-100)). assert (0 < w ^ 2) by nra. unfold A. lra. }
    assert (S := sqrt_near (m ^ 2 + px ^ 2 + py ^ 2 + pz ^ 2) A ltac:(nra) AA). rewrite <- G_is in S.
    assert (MA : m ^ 2 <= 1.001 * A). { apply Rabs_le_inv in WN. assert (0 <= px ^ 2) by nra. assert (0 <= py ^ 2) by nra. assert (0 <= pz ^ 2) by nra. assert (0 <= w ^ 2) by nra. assert (2.01 * u * m ^ 2 <= 0.0001 * m ^ 2) by (apply Rmult_le_compat_r; lra). unfold A. lra. }
    assert (SA : Rabs (G - sqrt A) <= 2.02 * u * sqrt A).
    { eapply Rle_trans; [exact S|]. apply (Rmult_le_reg_r (sqrt A)); [exact PA|]. unfold Rdiv. rewrite Rmult_assoc, Rinv_l, Rmult_1_r by lra. rewrite Rmult_assoc, sqrt_sqrt by lra. replace (m ^ 2 + px ^ 2 + py ^ 2 + pz ^ 2 - A) with (- (w ^ 2 - m ^ 2)) by (unfold A; ring). rewrite Rabs_Ropp. assert (u * m ^ 2 <= u * (1.001 * A)) by (apply Rmult_le_compat_l; lra). assert (0 <= u * A) by (apply Rmult_le_pos; lra). lra. }
    assert (B : approx 2.02 (G / sqrt A) 1). { unfold approx. replace (G / sqrt A - 1) with ((G - sqrt A) / sqrt A) by (field; lra). unfold Rdiv. rewrite Rabs_mult, (Rabs_pos_eq (/ sqrt A)) by (left; now apply Rinv_0_lt_compat). apply (Rmult_le_reg_r (sqrt A)); [exact PA|]. rewrite Rmult_assoc, Rinv_l, Rmult_1_r by lra. exact SA. }
    replace (G / g) with (sqrt A / g * (G / sqrt A)) by (field; lra). replace 1 with (1 * 1) by ring. eapply ap_weak; [|apply (ap_mul 9.2 2.02 _ _ _ _ 1 1); [lra|lra|rewrite Rabs_R1; lra|rewrite Rabs_R1; lra|exact Ag|exact B]]. lra.
  Qed.
  Lemma unit_speed c : c ^ 2 <= px ^ 2 + py ^ 2 + pz ^ 2 -> Rabs (c / G) <= 1.
  Proof.
    intros H. assert (P := G_positive). assert (S := G_square). assert (MP := m_pos). unfold Rdiv. rewrite Rabs_mult, (Rabs_pos_eq (/ G)) by (left; now apply Rinv_0_lt_compat). apply (Rmult_le_reg_r G); [exact P|]. rewrite Rmult_assoc, Rinv_l, Rmult_1_r, Rmult_1_l by lra.
    apply Rabs_le. split; nra.
  Qed.
  Lemma quotient c : c ^ 2 <= px ^ 2 + py ^ 2 + pz ^ 2 -> approx 11.31 (c / g) (c / G).
  Proof.
    intros H. assert (V := unit_speed c H). destruct g_near as [P A]. assert (PG := G_positive). replace (c / g) with (c / G * (G / g)) by (field; lra). replace (c / G) with (c / G * 1) at 2 by ring.
    eapply ap_weak; [|apply (ap_mul 0 11.3 _ _ _ _ 1 1); [lra|lra|exact V|rewrite Rabs_R1; lra|apply ap_refl|exact A]]. lra.
  Qed.
  Lemma speed c : c ^ 2 <= px ^ 2 + py ^ 2 + pz ^ 2 -> approx 12.4 (double (c / g)) (c / G).
  Proof. intros H. rd 1; [now apply quotient|lra|now apply unit_speed|lra]. Qed.
End Energy.
Lemma gam_is qm px py pz : gam_f qm px py pz = gamma_a double (Rabs (double (1 / qm))) px py pz.
Proof. unfold gam_f, gamma_a, f2. now rewrite sq_abs. Qed.

(** ** Steps *)
Lemma step_scale d : ordinary_step d -> 0 < / d <= bpow radix2 900.
Proof.
  intros H. assert (P := step_pos _ H). destruct H as [A _]. split; [now apply Rinv_0_lt_compat|]. apply Rle_trans with (bpow radix2 100); [|apply bpow_le; lia]. change 100%Z with (- -100)%Z. rewrite bpow_opp. apply Rinv_le_contravar; [apply bpow_gt_0|exact A].
Qed.
Lemma half_step d : ordinary_step d -> approx 0.51 (double (d / 2) * / d) (1 / 2).
Proof.
  intros H. assert (P := step_pos _ H). rds (/ d) (1/2); [replace (d / 2 * / d) with (1 / 2) by (field; lra); apply ap_refl|now apply step_scale|lra|rewrite Rabs_pos_eq; lra|lra].
Qed.
Lemma shift_near d v V k e B : ordinary_step d -> 0 <= e <= 900 -> 0 <= B <= 10 -> Rabs V <= B -> approx e v V -> approx 0.51 (k * / d) (1 / 2) ->
  Rabs (double (k * v) - d / 2 * V) <= (e / 2 + 1.01 * B + 0.01) * u * d.
Proof.
  intros H He HB0 HB A Ak. assert (P := step_pos _ H). assert (U := u_pos).
  assert (M : approx (0.51 * B + e * (1/2) + / 1000) (k * / d * v) (1 / 2 * V)) by (apply (ap_mul 0.51 e _ _ _ _ (1/2) B); [lra|lra|rewrite Rabs_pos_eq; lra|exact HB|exact Ak|exact A]).
  assert (K : approx (0.51 * B + e * (1/2) + / 1000 + B / 2 + / 1000) (double (k * v) * / d) (1 / 2 * V)).
  { eapply (ap_round_s (/ d) _ _ _ (B / 2)); [now apply step_scale|lra| |]. - rewrite Rabs_mult, (Rabs_pos_eq (1/2)) by lra. lra. - replace (k * v * / d) with (k * / d * v) by ring. exact M. }
  unfold approx in K. replace (double (k * v) - d / 2 * V) with ((double (k * v) * / d - 1 / 2 * V) * d) by (field; lra). rewrite Rabs_mult, (Rabs_pos_eq d) by lra. apply Rmult_le_compat_r; [lra|]. eapply Rle_trans; [exact K|]. apply Rmult_le_compat_r; lra.
Qed.
(** adding a displacement *)
Lemma arrive x t X T e : is_double x -> is_double t -> x + T = X -> Rabs (t - T) <= e -> Rabs (double (x + t) - X) <= u * Rabs X + (1 + u) * e.
Proof.
  intros Hx Ht HX He. assert (S := sum_error x t Hx Ht). assert (U := u_pos). assert (B : Rabs (x + t) <= Rabs X + e). { rewrite <- HX. replace (x + t) with (x + T + (t - T)) by ring. eapply Rle_trans; [apply Rabs_triang|]. lra. }
  rewrite <- HX in *. replace (double (x + t) - (x + T)) with ((double (x + t) - (x + t)) + (t - T)) by ring. eapply Rle_trans; [apply Rabs_triang|]. assert (u * Rabs (x + t) <= u * (Rabs (x + T) + e)) by (apply Rmult_le_compat_l; lra). lra.
Qed.
(** ** The force *)
Lemma field_scale B : bpow radix2 (-510) <= B -> 0 < B /\ 0 < / B <= bpow radix2 900.
Proof.
  intros H. assert (K := bpow_gt_0 radix2 (-510)). split; [lra|]. split; [apply Rinv_0_lt_compat; lra|]. apply Rle_trans with (bpow radix2 510); [|apply bpow_le; lia]. change 510%Z with (- -510)%Z. rewrite bpow_opp. apply Rinv_le_contravar; lra.
Qed.
Lemma unit_field B b : 0 < B -> Rabs b <= B -> Rabs (b * / B) <= 1.
Proof. intros P H. rewrite Rabs_mult, (Rabs_pos_eq (/ B)) by (left; now apply Rinv_0_lt_compat). apply (Rmult_le_reg_r B); [exact P|]. rewrite Rmult_assoc, Rinv_l, Rmult_1_r, Rmult_1_l by lra. exact H. Qed.
Lemma abs1_mul a b : Rabs a <= 1 -> Rabs b <= 1 -> Rabs (a * b) <= 1.
Proof. intros A B. rewrite Rabs_mult. replace 1 with (1 * 1) by ring. apply Rmult_le_compat; try apply Rabs_pos; assumption. Qed.
Section Force.
  Variables (B e b1 b2 v1 v2 V1 V2 : R).
  Hypotheses (HB : bpow radix2 (-510) <= B) (He : Rabs e <= B) (H1 : Rabs b1 <= B) (H2 : Rabs b2 <= B) (A1 : approx 12.4 v1 V1) (A2 : approx 12.4 v2 V2) (B1 : Rabs V1 <= 1) (B2 : Rabs V2 <= 1).
  Let s := / B.
  Lemma times_field b v V : Rabs b <= B -> approx 12.4 v V -> Rabs V <= 1 -> approx 13.41 (double (v * b) * s) (V * (b * s)).
  Proof.
    intros Hb A Hv. destruct (field_scale B HB) as [P S]. assert (K := unit_field B b P Hb). rds s 1; [replace (v * b * s) with (v * (b * s)) by ring; apply (ap_mul 12.4 0 _ _ _ _ 1 1); [lra|lra|exact Hv|exact K|exact A|apply ap_refl]|exact S|lra|now apply abs1_mul|lra].
  Qed.
  Lemma back_scale x X k : approx k (x * s) (X * s) -> Rabs (x - X) <= k * u * B.
  Proof.
    intros K. destruct (field_scale B HB) as [P S]. unfold approx in K. replace (x - X) with ((x * s - X * s) * B) by (unfold s; field; lra). rewrite Rabs_mult, (Rabs_pos_eq B) by lra. apply Rmult_le_compat_r; lra.
  Qed.
  Lemma lorentz_near : Rabs (lorentz_f e v1 b1 v2 b2 - (e + V1 * b1 - V2 * b2)) <= 32 * u * B.
  Proof.
    destruct (field_scale B HB) as [P S]. fold s in S. assert (T1 := times_field b1 v1 V1 H1 A1 B1). assert (T2 := times_field b2 v2 V2 H2 A2 B2). assert (K0 := unit_field B e P He). assert (K1 := abs1_mul _ _ B1 (unit_field B b1 P H1)). assert (K2 := abs1_mul _ _ B2 (unit_field B b2 P H2)). fold s in K0, K1, K2. apply Rabs_le_inv in K0, K1, K2.
    apply back_scale. unfold lorentz_f. replace ((e + V1 * b1 - V2 * b2) * s) with (e * s + V1 * (b1 * s) - V2 * (b2 * s)) by ring.
    rds s 3; [rewrite Rmult_minus_distr_r; apply ap_sub; [|exact T2]; rds s 2; [rewrite Rmult_plus_distr_r; apply ap_add; [apply ap_refl|exact T1]|exact S|lra|apply Rabs_le; lra|apply Rle_refl]|exact S|lra|apply Rabs_le; lra|lra].
  Qed.
  Lemma lorentz2_near : Rabs (lorentz2_f e v1 b1 v2 b2 - (e + V1 * b1 - V2 * b2)) <= 32 * u * B.
  Proof.
    destruct (field_scale B HB) as [P S]. fold s in S. assert (T1 := times_field b1 v1 V1 H1 A1 B1). assert (T2 := times_field b2 v2 V2 H2 A2 B2). assert (K0 := unit_field B e P He). assert (K1 := abs1_mul _ _ B1 (unit_field B b1 P H1)). assert (K2 := abs1_mul _ _ B2 (unit_field B b2 P H2)). fold s in K0, K1, K2. apply Rabs_le_inv in K0, K1, K2.
    apply back_scale. unfold lorentz2_f. replace ((e + V1 * b1 - V2 * b2) * s) with (e * s + (V1 * (b1 * s) - V2 * (b2 * s))) by ring.
    rds s 3; [rewrite Rmult_plus_distr_r; apply ap_add; [apply ap_refl|]; rds s 2; [rewrite Rmult_minus_distr_r; apply ap_sub; [exact T1|exact T2]|exact S|lra|apply Rabs_le; lra|apply Rle_refl]|exact S|lra|apply Rabs_le; lra|lra].
  Qed.
End Force.
(** with the fields themselves known only to K roundings *)
Lemma force_fields M K e b1 b2 E C1 C2 V1 V2 f : 0 <= M -> 0 <= K -> Rabs V1 <= 1 -> Rabs V2 <= 1 -> Rabs (e - E) <= K * u * M -> Rabs (b1 - C1) <= K * u * M -> Rabs (b2 - C2) <= K * u * M ->
  Rabs (f - (e + V1 * b1 - V2 * b2)) <= 32 * u * (1.1 * M) -> Rabs (f - (E + V1 * C1 - V2 * C2)) <= (36 + 3 * K) * u * M.
Proof.
  intros HM HK A1 A2 He H1 H2 Hf. assert (U := u_pos). assert (UM : 0 <= u * M) by (apply Rmult_le_pos; lra). assert (KM : 0 <= K * u * M) by (rewrite Rmult_assoc; apply Rmult_le_pos; lra).
  assert (D1 : Rabs (V1 * (b1 - C1)) <= 1 * (K * u * M)) by (rewrite Rabs_mult; apply Rmult_le_compat; try apply Rabs_pos; assumption).
  assert (D2 : Rabs (V2 * (b2 - C2)) <= 1 * (K * u * M)) by (rewrite Rabs_mult; apply Rmult_le_compat; try apply Rabs_pos; assumption).
  replace (f - (E + V1 * C1 - V2 * C2)) with ((f - (e + V1 * b1 - V2 * b2)) + ((e - E) + (V1 * (b1 - C1) + - (V2 * (b2 - C2))))) by ring.
  eapply Rle_trans; [apply Rabs_triang|]. eapply Rle_trans; [apply Rplus_le_compat_l, Rabs_triang|]. eapply Rle_trans; [apply Rplus_le_compat_l, Rplus_le_compat_l, Rabs_triang|]. rewrite Rabs_Ropp. lra.
Qed.
Lemma force_size M E C1 C2 V1 V2 : 0 <= M -> Rabs V1 <= 1 -> Rabs V2 <= 1 -> Rabs E <= M -> Rabs C1 <= M -> Rabs C2 <= M -> Rabs (E + V1 * C1 - V2 * C2) <= 3 * M.
Proof.
  intros HM A1 A2 HE H1 H2. assert (D1 : Rabs (V1 * C1) <= 1 * M) by (rewrite Rabs_mult; apply Rmult_le_compat; try apply Rabs_pos; assumption). assert (D2 : Rabs (V2 * C2) <= 1 * M) by (rewrite Rabs_mult; apply Rmult_le_compat; try apply Rabs_pos; assumption).
  replace (E + V1 * C1 - V2 * C2) with (E + (V1 * C1 + - (V2 * C2))) by ring. eapply Rle_trans; [apply Rabs_triang|]. eapply Rle_trans; [apply Rplus_le_compat_l, Rabs_triang|]. rewrite Rabs_Ropp. lra.
Qed.
(** ** The momentum *)
Lemma eta_product d M : ordinary_step d -> bpow radix2 (-500) <= M -> eta <= 0.01 * u * (d * M).
Proof.
  intros H HM. destruct H as [A _]. assert (B1 := bpow_gt_0 radix2 (-100)). assert (B2 := bpow_gt_0 radix2 (-500)). assert (U := u_pos).
  assert (K : bpow radix2 (-600) <= d * M). { change (-600)%Z with (-100 + -500)%Z. rewrite bpow_plus. apply Rmult_le_compat; lra. }
  apply Rle_trans with (0.01 * u * bpow radix2 (-600)); [|apply Rmult_le_compat_l; lra]. unfold eta. change (-1075)%Z with (-53 + (-600 + -422))%Z. rewrite !bpow_plus. change (bpow radix2 (-53)) with u. assert (B3 := bpow_gt_0 radix2 (-600)).
  assert (bpow radix2 (-422) <= 0.01) by (apply Rle_trans with (bpow radix2 (-7)); [apply bpow_le; lia|change (bpow radix2 (-7)) with (/ 128); lra]).
  assert (bpow radix2 (-600) * bpow radix2 (-422) <= bpow radix2 (-600) * 0.01) by (apply Rmult_le_compat_l; lra). apply Rle_trans with (u * (bpow radix2 (-600) * 0.01)); [apply Rmult_le_compat_l; lra|lra].
Qed.
Section Kick.
  Variables (d M K p S s F f : R).
  Hypotheses (Hd : ordinary_step d) (HM : bpow radix2 (-500) <= M) (HK : 0 <= K) (HKu : K * u <= / 10) (Hp : is_double p).
  Hypotheses (HS : Rabs S <= d / 2) (Hs : Rabs (s - S) <= 1.1 * u * d) (HF : Rabs F <= 3 * M) (Hf : Rabs (f - F) <= (36 + 3 * K) * u * M).
  Let h := double (p + double (s * f)).
  Let H := p + S * F.
  Lemma kick_half : Rabs (h - H) <= u * Rabs H + (25 + 2 * K) * u * (d * M).
  Proof.
    assert (P := step_pos _ Hd). assert (U := u_pos). assert (T := u_tiny). assert (M0 : 0 < M) by (assert (B := bpow_gt_0 radix2 (-500)); lra). assert (DM : 0 < d * M) by (apply Rmult_lt_0_compat; lra). assert (Et := eta_product d M Hd HM).
    assert (UD : 0 <= u * (d * M)) by (apply Rmult_le_pos; lra). assert (KD : 0 <= K * (u * (d * M))) by (apply Rmult_le_pos; lra). assert (KU : K * u * (u * (d * M)) <= / 10 * (u * (d * M))) by (apply Rmult_le_compat_r; lra).
    assert (s1 : Rabs s <= 0.51 * d). { replace s with (S + (s - S)) by ring. eapply Rle_trans; [apply Rabs_triang|]. assert (1.1 * u * d <= 0.01 * d) by (apply Rmult_le_compat_r; lra). lra. }
    assert (P1 : Rabs ((s - S) * F) <= 1.1 * u * d * (3 * M)) by (rewrite Rabs_mult; apply Rmult_le_compat; try apply Rabs_pos; assumption).
    assert (P2 : Rabs (s * (f - F)) <= 0.51 * d * ((36 + 3 * K) * u * M)) by (rewrite Rabs_mult; apply Rmult_le_compat; try apply Rabs_pos; assumption).
    assert (D : Rabs (s * f - S * F) <= (21.7 + 1.53 * K) * (u * (d * M))). { replace (s * f - S * F) with ((s - S) * F + s * (f - F)) by ring. eapply Rle_trans; [apply Rabs_triang|]. lra. }
    assert (P3 : Rabs (S * F) <= d / 2 * (3 * M)) by (rewrite Rabs_mult; apply Rmult_le_compat; try apply Rabs_pos; assumption).
    assert (U2 : u * (d * M) <= 0.001 * (d * M)) by (apply Rmult_le_compat_r; lra). assert (KU2 : K * u * (d * M) <= / 10 * (d * M)) by (apply Rmult_le_compat_r; lra).
    assert (P4 : Rabs (s * f) <= 2 * (d * M)). { replace (s * f) with (S * F + (s * f - S * F)) by ring. eapply Rle_trans; [apply Rabs_triang|]. lra. }
    assert (R := round_error (s * f)). assert (P5 : u * Rabs (s * f) <= u * (2 * (d * M))) by (apply Rmult_le_compat_l; lra).
    assert (N : Rabs (double (s * f) - S * F) <= (23.8 + 1.53 * K) * (u * (d * M))). { replace (double (s * f) - S * F) with ((double (s * f) - s * f) + (s * f - S * F)) by ring. eapply Rle_trans; [apply Rabs_triang|]. lra. }
    assert (A := arrive p (double (s * f)) H (S * F) _ Hp (double_double _) eq_refl N). fold h in A. eapply Rle_trans; [exact A|]. assert (UU : u * (u * (d * M)) <= 0.001 * (u * (d * M))) by (apply Rmult_le_compat_r; lra). lra.
  Qed.
  Lemma kick_half_size : Rabs H <= Rabs p + 1.5 * (d * M).
  Proof.
    assert (P := step_pos _ Hd). assert (P3 : Rabs (S * F) <= d / 2 * (3 * M)) by (rewrite Rabs_mult; apply Rmult_le_compat; try apply Rabs_pos; assumption). unfold H. eapply Rle_trans; [apply Rabs_triang|]. lra.
  Qed.
  Lemma kick_full : Rabs (double (double (2 * h) - p) - (p + 2 * S * F)) <= (4 * Rabs p + (57 + 5 * K) * (d * M)) * u.
  Proof.
    assert (P := step_pos _ Hd). assert (U := u_pos). assert (T := u_tiny). assert (M0 : 0 < M) by (assert (B := bpow_gt_0 radix2 (-500)); lra). assert (DM : 0 < d * M) by (apply Rmult_lt_0_compat; lra). assert (UD : 0 <= u * (d * M)) by (apply Rmult_le_pos; lra). assert (KD : 0 <= K * (u * (d * M))) by (apply Rmult_le_pos; lra).
    assert (KH := kick_half). assert (SH := kick_half_size). rewrite double_twice by apply double_double. assert (Sm := sum_error (2 * h) (- p)). assert (I2 : is_double (2 * h)) by (apply double_twice, double_double). assert (Ip : is_double (- p)) by (unfold is_double; rewrite double_opp; f_equal; exact Hp). specialize (Sm I2 Ip). replace (2 * h + - p) with (2 * h - p) in Sm by ring.
    assert (UH : u * Rabs H <= u * (Rabs p + 1.5 * (d * M))) by (apply Rmult_le_compat_l; lra). assert (Pp := Rabs_pos p). assert (UP : 0 <= u * Rabs p) by (apply Rmult_le_pos; lra).
    assert (E : Rabs (2 * h - p - (p + 2 * S * F)) <= 2 * (u * Rabs p) + (53 + 4 * K) * (u * (d * M))). { replace (2 * h - p - (p + 2 * S * F)) with (2 * (h - H)) by (unfold H; ring). rewrite Rabs_mult, (Rabs_pos_eq 2) by lra. lra. }
    assert (P3 : Rabs (S * F) <= d / 2 * (3 * M)) by (rewrite Rabs_mult; apply Rmult_le_compat; try apply Rabs_pos; assumption).
    assert (B : Rabs (2 * h - p) <= Rabs p + 3 * (d * M) + (2 * (u * Rabs p) + (53 + 4 * K) * (u * (d * M)))). { replace (2 * h - p) with (p + (2 * (S * F) + (2 * h - p - (p + 2 * S * F)))) by ring. eapply Rle_trans; [apply Rabs_triang|]. assert (Q : Rabs (2 * (S * F) + (2 * h - p - (p + 2 * S * F))) <= 3 * (d * M) + (2 * (u * Rabs p) + (53 + 4 * K) * (u * (d * M)))). { eapply Rle_trans; [apply Rabs_triang|]. rewrite (Rabs_mult 2), (Rabs_pos_eq 2) by lra. lra. } lra. }
    assert (UB : u * Rabs (2 * h - p) <= u * (Rabs p + 3 * (d * M) + (2 * (u * Rabs p) + (53 + 4 * K) * (u * (d * M))))) by (apply Rmult_le_compat_l; lra).
    assert (UU : u * (u * (d * M)) <= 0.001 * (u * (d * M))) by (apply Rmult_le_compat_r; lra). assert (UUP : u * (u * Rabs p) <= 0.001 * (u * Rabs p)) by (apply Rmult_le_compat_r; lra). assert (KU : K * u * (u * (d * M)) <= / 10 * (u * (d * M))) by (apply Rmult_le_compat_r; lra).
    replace (double (2 * h - p) - (p + 2 * S * F)) with ((double (2 * h - p) - (2 * h - p)) + (2 * h - p - (p + 2 * S * F))) by ring. eapply Rle_trans; [apply Rabs_triang|].
    lra.
  Qed.
End Kick.

(** ** The velocity as a function of the momentum *)
Lemma energy_lip qm a b : qm <> 0 -> Rabs (energy qm a - energy qm b) <= Rabs (vx a - vx b) + Rabs (vy a - vy b) + Rabs (vz a - vz b).
Proof.
  intros Hq. assert (MP : 0 < (1 / qm) ^ 2) by (assert (1 / qm <> 0) by (unfold Rdiv; rewrite Rmult_1_l; now apply Rinv_neq_0_compat); nra).
  assert (Sq : forall v, 0 < energy qm v /\ energy qm v * energy qm v = (1 / qm) ^ 2 + norm2 v). { intros v. assert (0 <= norm2 v) by (unfold norm2; nra). split; [apply sqrt_lt_R0; lra|apply sqrt_sqrt; lra]. }
  destruct (Sq a) as [Pa Sa]. destruct (Sq b) as [Pb Sb]. set (ga := energy qm a) in *. set (gb := energy qm b) in *. unfold norm2 in *.
  assert (C : forall v c, 0 < energy qm v -> energy qm v * energy qm v = (1 / qm) ^ 2 + norm2 v -> c ^ 2 <= norm2 v -> Rabs c <= energy qm v). { intros v c P S H. apply Rabs_le. nra. }
  assert (Ab : forall c c', Rabs c <= ga -> Rabs c' <= gb -> Rabs ((c - c') * (c + c')) <= Rabs (c - c') * (ga + gb)). { intros c c' A B. rewrite Rabs_mult. apply Rmult_le_compat_l; [apply Rabs_pos|]. eapply Rle_trans; [apply Rabs_triang|]. lra. }
  assert (X := Ab (vx a) (vx b) (C a (vx a) Pa Sa ltac:(unfold norm2; nra)) (C b (vx b) Pb Sb ltac:(unfold norm2; nra))).
  assert (Y := Ab (vy a) (vy b) (C a (vy a) Pa Sa ltac:(unfold norm2; nra)) (C b (vy b) Pb Sb ltac:(unfold norm2; nra))).
  assert (Z := Ab (vz a) (vz b) (C a (vz a) Pa Sa ltac:(unfold norm2; nra)) (C b (vz b) Pb Sb ltac:(unfold norm2; nra))).
  assert (Pr : Rabs ((ga - gb) * (ga + gb)) <= (Rabs (vx a - vx b) + Rabs (vy a - vy b) + Rabs (vz a - vz b)) * (ga + gb)).
  { replace ((ga - gb) * (ga + gb)) with ((vx a - vx b) * (vx a + vx b) + ((vy a - vy b) * (vy a + vy b) + (vz a - vz b) * (vz a + vz b))) by (replace ((ga - gb) * (ga + gb)) with (ga * ga - gb * gb) by ring; rewrite Sa, Sb; ring).
    eapply Rle_trans; [apply Rabs_triang|]. eapply Rle_trans; [apply Rplus_le_compat_l, Rabs_triang|]. lra. }
  rewrite Rabs_mult, (Rabs_pos_eq (ga + gb)) in Pr by lra. apply (Rmult_le_reg_r (ga + gb)); [lra|exact Pr].
Qed.
Lemma speed_lip qm a b ca cb E : qm <> 0 -> ca ^ 2 <= norm2 a -> Rabs (ca - cb) <= E -> Rabs (vx a - vx b) + Rabs (vy a - vy b) + Rabs (vz a - vz b) <= 3 * E ->
  Rabs (ca / energy qm a - cb / energy qm b) <= 4 * E / energy qm b.
Proof.
  intros Hq Hc Hd HE. assert (L := energy_lip qm a b Hq). assert (MP : 0 < (1 / qm) ^ 2) by (assert (1 / qm <> 0) by (unfold Rdiv; rewrite Rmult_1_l; now apply Rinv_neq_0_compat); nra).
  assert (Sq : forall v, 0 < energy qm v /\ energy qm v * energy qm v = (1 / qm) ^ 2 + norm2 v). { intros v. assert (0 <= norm2 v) by (unfold norm2; nra). split; [apply sqrt_lt_R0; lra|apply sqrt_sqrt; lra]. }
  destruct (Sq a) as [Pa Sa]. destruct (Sq b) as [Pb _]. set (ga := energy qm a) in *. set (gb := energy qm b) in *.
  assert (V : Rabs (ca / ga) <= 1). { unfold Rdiv. rewrite Rabs_mult, (Rabs_pos_eq (/ ga)) by (left; now apply Rinv_0_lt_compat). apply (Rmult_le_reg_r ga); [exact Pa|]. rewrite Rmult_assoc, Rinv_l, Rmult_1_r, Rmult_1_l by lra. apply Rabs_le. nra. }
  replace (ca / ga - cb / gb) with (((ca - cb) + ca / ga * (gb - ga)) / gb) by (field; lra). unfold Rdiv at 1. rewrite Rabs_mult, (Rabs_pos_eq (/ gb)) by (left; now apply Rinv_0_lt_compat). apply Rmult_le_compat_r; [left; now apply Rinv_0_lt_compat|].
  eapply Rle_trans; [apply Rabs_triang|]. rewrite (Rabs_mult (ca / ga)), (Rabs_minus_sym gb ga). assert (Rabs (ca / ga) * Rabs (ga - gb) <= 1 * (3 * E)) by (apply Rmult_le_compat; try apply Rabs_pos; lra). lra.
Qed.
