(** Lemmas for C74: the deposition of the 3D plasma. *)
From Coq Require Import Reals ZArith List Bool Lra Lia Psatz FunctionalExtensionality.
From Flocq Require Import Core.
From Verif Require Import Float_Model Float_Proofs Beam2D_Model Beam2D_Spec Beam2D_Free Beam3D_Model Beam3D_Spec Shape_Model Shape_Spec Shape_Proofs Plasma3D_Model Rounded3D_Model RoundedBeam_Spec RoundedSum_Proofs RoundedWeight_Proofs RoundedDep_Model RoundedDep_Spec RoundedDep_Proofs.
Import ListNotations.
Open Scope R_scope.

Ltac rds s B := eapply ap_weak; cycle 1; [eapply (ap_round_s s _ _ _ B); cycle 3|].
(** ** The charge and the current of a particle *)
Section One.
  Variables (m px py pz : R).
  Hypothesis Hm : bpow radix2 (-100) <= m.
  Let A := m ^ 2 + px ^ 2 + py ^ 2 + pz ^ 2.
  Lemma A_big : bpow radix2 (-200) <= A.
  Proof.
    unfold A. assert (P := bpow_gt_0 radix2 (-100)). apply Rle_trans with (m ^ 2); [|nra]. change (-200)%Z with (-100 + -100)%Z. rewrite bpow_plus. cbn [pow]. rewrite Rmult_1_r. apply Rmult_le_compat; lra.
  Qed.
  Lemma A_scale : 0 < / A <= bpow radix2 900.
  Proof.
    assert (K := A_big). assert (P := bpow_gt_0 radix2 (-200)). split; [apply Rinv_0_lt_compat; lra|]. apply Rle_trans with (bpow radix2 200); [|apply bpow_le; lia].
    change 200%Z with (- -200)%Z. rewrite bpow_opp. apply Rinv_le_contravar; lra.
  Qed.
  Lemma part_ap x : x ^ 2 <= A -> approx 1.01 (f2 double x * / A) (x ^ 2 * / A) /\ 0 <= x ^ 2 * / A <= 1.
  Proof.
    intros H. assert (S := A_scale). assert (B : 0 <= x ^ 2 * / A <= 1). { split; [apply Rmult_le_pos; [nra|lra]|]. apply (Rmult_le_reg_r A); [assert (K := A_big); assert (P := bpow_gt_0 radix2 (-200)); lra|]. rewrite Rmult_assoc, Rinv_l; [lra|]. assert (K := A_big); assert (P := bpow_gt_0 radix2 (-200)); lra. }
    split; [|exact B]. unfold f2. rds (/ A) 1; [replace (x ^ 2) with (x * x) by ring; apply ap_refl|exact S|lra|apply Rabs_le; lra|lra].
  Qed.
  Lemma sums_ap : approx 8 (double (double (double (f2 double m + f2 double px) + f2 double py) + f2 double pz) * / A) 1.
  Proof.
    assert (S := A_scale). assert (AP : 0 < A) by (assert (K := A_big); assert (P := bpow_gt_0 radix2 (-200)); lra).
    destruct (part_ap m ltac:(unfold A; nra)) as [M M']. destruct (part_ap px ltac:(unfold A; nra)) as [X X']. destruct (part_ap py ltac:(unfold A; nra)) as [Y Y']. destruct (part_ap pz ltac:(unfold A; nra)) as [Z Z'].
    assert (E : m ^ 2 * / A + px ^ 2 * / A + py ^ 2 * / A + pz ^ 2 * / A = 1) by (rewrite <- !Rmult_plus_distr_r; apply Rinv_r; lra).
    set (a := m ^ 2 * / A) in *. set (b := px ^ 2 * / A) in *. set (c := py ^ 2 * / A) in *. set (d := pz ^ 2 * / A) in *. clearbody a b c d. rewrite <- E.
    rds (/ A) 1; [rewrite Rmult_plus_distr_r; apply ap_add; [|exact Z]; rds (/ A) 1; [rewrite Rmult_plus_distr_r; apply ap_add; [|exact Y]; rds (/ A) 1; [rewrite Rmult_plus_distr_r; apply ap_add; [exact M|exact X]|exact S|lra|apply Rabs_le; lra|apply Rle_refl]|exact S|lra|apply Rabs_le; lra|apply Rle_refl]|exact S|lra|apply Rabs_le; lra|lra].
  Qed.
  Lemma gamma_ap : approx 9.1 (gamma_a double m px py pz * / sqrt A) 1.
  Proof.
    assert (K := sums_ap). unfold gamma_a. set (s := double (double (double (f2 double m + f2 double px) + f2 double py) + f2 double pz)) in *. clearbody s.
    assert (AP : 0 < A) by (assert (Q := A_big); assert (P := bpow_gt_0 radix2 (-200)); lra). assert (SP := sqrt_lt_R0 A AP). assert (U := u_tiny). assert (UP := u_pos).
    assert (E : sqrt s * / sqrt A = sqrt (s * / A)). { rewrite sqrt_mult_alt; [|]. - now rewrite sqrt_inv. - unfold approx in K. apply Rabs_le_inv in K. assert (0 < s * / A) by lra. apply (Rmult_le_reg_r (/ A)); [now apply Rinv_0_lt_compat|]. lra. }
    unfold approx in K. apply Rabs_le_inv in K. set (t := s * / A) in *.
    assert (T : approx 8 (sqrt s * / sqrt A) 1).
    { rewrite E. unfold approx. assert (T0 : 0 <= t) by lra. assert (Q := sqrt_pos t). assert (QQ := sqrt_sqrt t T0). apply Rabs_le. set (w := sqrt t) in *. clearbody w. split; nra. }
    rds (/ sqrt A) 1; [exact T| |lra|rewrite Rabs_R1; lra|lra]. split; [now apply Rinv_0_lt_compat|].
    apply Rle_trans with (bpow radix2 100); [|apply bpow_le; lia]. change 100%Z with (- -100)%Z. rewrite bpow_opp. apply Rinv_le_contravar; [apply bpow_gt_0|].
    apply Rsqr_incr_0_var; [|apply sqrt_pos]. unfold Rsqr. rewrite sqrt_sqrt by lra. rewrite <- bpow_plus. exact A_big.
  Qed.
  Hypothesis HG : sqrt A <= bpow radix2 300.
  Let g := gamma_a double m px py pz.
  Let sg := pz / sqrt A.
  Lemma G_pos : 0 < sqrt A.
  Proof. apply sqrt_lt_R0. assert (Q := A_big); assert (P := bpow_gt_0 radix2 (-200)); lra. Qed.
  Lemma sg_range : Rabs sg <= 1.
  Proof.
    assert (P := G_pos). unfold sg, Rdiv. rewrite Rabs_mult, (Rabs_pos_eq (/ _)) by (left; now apply Rinv_0_lt_compat). apply (Rmult_le_reg_r (sqrt A)); [exact P|]. rewrite Rmult_assoc, Rinv_l, Rmult_1_l, Rmult_1_r by lra.
    rewrite <- sqrt_Rsqr_abs. apply sqrt_le_1_alt. unfold A, Rsqr. assert (0 <= m ^ 2) by nra. assert (0 <= px ^ 2) by nra. assert (0 <= py ^ 2) by nra. lra.
  Qed.
  Lemma g_inv : 0 < g /\ approx 9.2 (sqrt A / g) 1.
  Proof.
    assert (K := gamma_ap). fold g in K. assert (P := G_pos). assert (U := u_tiny). assert (UP := u_pos). unfold approx in *. apply Rabs_le_inv in K. set (r := g * / sqrt A) in *.
    assert (R0 : 0 < r) by lra. assert (E : g = r * sqrt A) by (unfold r; rewrite Rmult_assoc, Rinv_l by lra; ring). split; [rewrite E; nra|].
    replace (sqrt A / g) with (/ r) by (rewrite E; field; lra). assert (I := Rinv_r r ltac:(lra)). assert (I0 := Rinv_0_lt_compat r R0). set (i := / r) in *. clearbody i r.
    assert (I1 : i <= 1.001). { assert (i * 0.9999 <= i * r) by (apply Rmult_le_compat_l; lra). lra. }
    assert (E1 : i - 1 = i * (1 - r)) by lra. rewrite E1, Rabs_mult, (Rabs_pos_eq i) by lra. assert (Rabs (1 - r) <= 9.1 * u) by (apply Rabs_le; lra).
    apply Rle_trans with (1.001 * (9.1 * u)); [|lra]. apply Rmult_le_compat; try lra. apply Rabs_pos.
  Qed.
  Let s := double (pz / g).
  Let d := double (1 - s).
  Lemma s_ap : approx 10.3 s sg.
  Proof.
    destruct g_inv as [Pg K]. assert (P := G_pos). assert (R := sg_range). unfold s. replace (pz / g) with (sg * (sqrt A / g)) by (unfold sg; field; lra). 
    assert (M : approx (0 * 1 + 9.2 * 1 + / 1000) (sg * (sqrt A / g)) sg).
    { replace sg with (sg * 1) at 2 by ring. apply (ap_mul 0 9.2 sg sg _ 1 1 1); try lra; try assumption; try (rewrite Rabs_R1; lra); apply ap_refl. }
    rd 1; [exact M|lra|exact R|lra].
  Qed.
  Lemma d_ap : approx 12.5 d (1 - sg).
  Proof.
    assert (K := s_ap). assert (R := sg_range). apply Rabs_le_inv in R. unfold d. rd 2; [apply ap_sub; [apply ap_refl|exact K]|lra|apply Rabs_le; lra|lra].
  Qed.
  Hypothesis Hd : bpow radix2 (-40) <= 1 - sg.
  Variable q : R.
  Hypothesis Hq : bpow radix2 (-500) <= Rabs q.
  Let dr := 1 - sg.
  Let D := Rabs q / dr.
  Let dro := double (q / d).
  Let djz := double (pz * double (dro / g)).
  Lemma dr_pos : 0 < dr <= 2.
  Proof. assert (R := sg_range). apply Rabs_le_inv in R. assert (P := bpow_gt_0 radix2 (-40)). unfold dr. lra. Qed.
  Lemma d_near : 0.99 * dr <= d <= 1.01 * dr.
  Proof.
    assert (K := d_ap). unfold approx in K. apply Rabs_le_inv in K. fold dr in K. assert (U : 12.5 * u <= 0.01 * dr).
    { apply Rle_trans with (0.01 * bpow radix2 (-40)); [|unfold dr; lra]. change (-53)%Z with (-13 + -40)%Z. rewrite bpow_plus. assert (P := bpow_gt_0 radix2 (-40)). change (bpow radix2 (-13)) with (/ 8192). lra. }
    lra.
  Qed.
  Lemma D_big : bpow radix2 (-505) <= D.
  Proof.
    unfold D. destruct dr_pos as [A1 A2]. apply (Rmult_le_reg_r dr); [exact A1|]. unfold Rdiv. rewrite Rmult_assoc, Rinv_l, Rmult_1_r by lra. apply Rle_trans with (bpow radix2 (-505) * 2); [apply Rmult_le_compat_l; [apply bpow_ge_0|exact A2]|].
    change 2 with (bpow radix2 1). rewrite <- bpow_plus. eapply Rle_trans; [|exact Hq]. apply bpow_le. lia.
  Qed.
  Lemma D_pos : 0 < D. Proof. assert (K := D_big). assert (P := bpow_gt_0 radix2 (-505)). lra. Qed.
  Lemma D_scale : 0 < / D <= bpow radix2 510.
  Proof.
    assert (K := D_big). assert (P := D_pos). split; [now apply Rinv_0_lt_compat|]. apply Rle_trans with (bpow radix2 505); [|apply bpow_le; lia]. change 505%Z with (- -505)%Z. rewrite bpow_opp. apply Rinv_le_contravar; [apply bpow_gt_0|exact K].
  Qed.
  Lemma q_dr : Rabs q = D * dr. Proof. unfold D. destruct dr_pos. field. lra. Qed.
  Lemma q_d : Rabs (q / d) <= 1.02 * D.
  Proof.
    destruct dr_pos as [A1 A2]. assert (N := d_near). assert (P := D_pos). assert (d0 : 0 < d) by lra. unfold Rdiv. rewrite Rabs_mult, (Rabs_pos_eq (/ d)) by (left; now apply Rinv_0_lt_compat). rewrite q_dr. apply (Rmult_le_reg_r d); [exact d0|]. rewrite Rmult_assoc, Rinv_l by lra. nra.
  Qed.
  Lemma dro_near : Rabs (dro - q / d) <= 1.03 * u * D.
  Proof.
    assert (E := round_error (q / d)). fold dro in E. assert (K := q_d). assert (S := D_scale). assert (H := eta_small (/ D) ltac:(destruct S as [S1 S2]; split; [exact S1|eapply Rle_trans; [exact S2|]; apply bpow_le; lia])).
    assert (P := D_pos). assert (U := u_pos). assert (T : eta <= u * / 10000 * D). { apply (Rmult_le_reg_r (/ D)); [apply S|]. rewrite (Rmult_assoc _ D), Rinv_r by lra. lra. } assert (u * Rabs (q / d) <= u * (1.02 * D)) by (apply Rmult_le_compat_l; lra). nra.
  Qed.
  Lemma dro_size : Rabs dro <= 1.1 * D.
  Proof. assert (K := dro_near). assert (L := q_d). assert (T := Rabs_triang (q / d) (dro - q / d)). replace (q / d + (dro - q / d)) with dro in T by ring. assert (U := u_tiny). assert (P := D_pos). assert (1.03 * u * D <= 0.01 * D) by (apply Rmult_le_compat_r; lra). lra. Qed.
  (** the current along z is the charge times pz/gamma *)
  Lemma djz_near : Rabs (djz - dro * sg) <= 13 * u * D.
  Proof.
    destruct g_inv as [Pg K]. assert (P := G_pos). assert (PD := D_pos). assert (R := sg_range). assert (DS := dro_size). assert (SC := D_scale).
    assert (B : Rabs (dro / D) <= 1.1). { unfold Rdiv. rewrite Rabs_mult, (Rabs_pos_eq (/ D)) by lra. apply (Rmult_le_reg_r D); [exact PD|]. rewrite Rmult_assoc, Rinv_l by lra. lra. }
    assert (A1 : approx 11.3 (double (dro / g) * (sqrt A / D)) (dro / D)).
    { assert (M : approx (0 * 1 + 9.2 * 1.1 + / 1000) (dro / g * (sqrt A / D)) (dro / D)).
      { replace (dro / g * (sqrt A / D)) with (dro / D * (sqrt A / g)) by (field; lra). replace (dro / D) with (dro / D * 1) at 2 by ring. apply (ap_mul 0 9.2 (dro / D) (dro / D) _ 1 1.1 1); try lra; try assumption; try (rewrite Rabs_R1; lra); apply ap_refl. }
      rds (sqrt A / D) 1.1; [exact M| |lra|exact B|lra].
      split; [apply Rmult_lt_0_compat; [exact P|lra]|]. apply Rle_trans with (bpow radix2 300 * bpow radix2 510); [apply Rmult_le_compat; lra|]. rewrite <- bpow_plus. apply bpow_le. lia. }
    assert (B2 : Rabs (sg * (dro / D)) <= 1.1) by (rewrite Rabs_mult; assert (Q1 := Rabs_pos sg); assert (Q2 := Rabs_pos (dro / D)); nra).
    assert (A2 : approx 12.6 (djz * / D) (sg * (dro / D))).
    { unfold djz. assert (M : approx (0 * 1.1 + 11.3 * 1 + / 1000) (pz * double (dro / g) * / D) (sg * (dro / D))).
      { replace (pz * double (dro / g) * / D) with (sg * (double (dro / g) * (sqrt A / D))) by (unfold sg; field; lra). apply (ap_mul 0 11.3 sg sg _ _ 1 1.1); try lra; try assumption; apply ap_refl. }
      rds (/ D) 1.1; [exact M| |lra|exact B2|lra]. split; [lra|]. eapply Rle_trans; [apply SC|]. apply bpow_le. lia. }
    unfold approx in A2. replace (djz - dro * sg) with ((djz * / D - sg * (dro / D)) * D) by (field; lra). rewrite Rabs_mult, (Rabs_pos_eq D) by lra. apply Rmult_le_compat_r; [lra|]. assert (U := u_pos). lra.
  Qed.
  Lemma djz_size : Rabs djz <= 1.2 * D.
  Proof.
    assert (K := djz_near). assert (L := dro_size). assert (R := sg_range). assert (P := D_pos). assert (U := u_tiny). assert (T := Rabs_triang (dro * sg) (djz - dro * sg)). replace (dro * sg + (djz - dro * sg)) with djz in T by ring. rewrite Rabs_mult in T.
    assert (Q := Rabs_pos dro). assert (Q2 := Rabs_pos sg). assert (Rabs dro * Rabs sg <= Rabs dro * 1) by (apply Rmult_le_compat_l; lra). assert (13 * u * D <= 0.01 * D) by (apply Rmult_le_compat_r; lra). lra.
  Qed.
  Lemma charge_kept : Rabs (dro - djz - q) <= 30 * u * D.
  Proof.
    assert (J := djz_near). assert (N := dro_near). assert (DA := d_ap). fold dr in DA. assert (DN := d_near). destruct dr_pos as [A1 A2]. assert (P := D_pos). assert (U := u_pos). assert (d0 : 0 < d) by lra. assert (QD := q_d).
    replace (dro - djz - q) with (- (djz - dro * sg) + ((dro - q / d) * dr + (q / d) * (dr - d))) by (unfold dr; field; lra).
    eapply Rle_trans; [apply Rabs_triang|]. rewrite Rabs_Ropp. assert (T := Rabs_triang ((dro - q / d) * dr) (q / d * (dr - d))). rewrite !Rabs_mult, (Rabs_pos_eq dr) in T by lra.
    unfold approx in DA. rewrite Rabs_minus_sym in DA.
    assert (K1 : Rabs (dro - q / d) * dr <= (1.03 * u * D) * 2) by (apply Rmult_le_compat; try lra; apply Rabs_pos).
    assert (K2 : Rabs (q / d) * Rabs (dr - d) <= (1.02 * D) * (12.5 * u)) by (apply Rmult_le_compat; try lra; apply Rabs_pos). assert (0 <= u * D) by nra. lra.
  Qed.
End One.

(** ** The 25 contributions to one array *)
Definition share3p (h x_h y_h d : R) (k : Z * Z) : R :=
  double (d * double (double (double (weight4_f double (loc_f double x_h) (fst k) / h) * weight4_f double (loc_f double y_h) (snd k)) / h)).
Lemma h_scale h : ordinary_step h -> 0 < h <= bpow radix2 900 /\ 0 < h ^ 2 <= bpow radix2 300.
Proof.
  intros [A B]. assert (P := bpow_gt_0 radix2 (-100)). split; [split; [lra|]; eapply Rle_trans; [exact B|]; apply bpow_le; lia|]. split; [apply pow_lt; lra|].
  apply Rle_trans with (bpow radix2 100 * bpow radix2 100); [cbn [pow]; rewrite Rmult_1_r; apply Rmult_le_compat; lra|]. rewrite <- bpow_plus. apply bpow_le. lia.
Qed.
Lemma plasma_w_ap h x_h y_h k : ordinary_step h -> In k pairs ->
  approx 11.4 (double (double (double (weight4_f double (loc_f double x_h) (fst k) / h) * weight4_f double (loc_f double y_h) (snd k)) / h) * h ^ 2) (weight4 (loc_f double x_h) (fst k) * weight4 (loc_f double y_h) (snd k)).
Proof.
  intros Hh Hk. destruct (h_scale h Hh) as [S1 S2]. destruct k as [kx ky]. apply in_prod_iff in Hk. destruct Hk as [Hx Hy]. cbn [fst snd].
  assert (Ax := w4_le _ kx (loc_f_in x_h) Hx). assert (Ay := w4_le _ ky (loc_f_in y_h) Hy). assert (Ex := weight4_ap _ kx (loc_f_range x_h) Hx). assert (Ey := weight4_ap _ ky (loc_f_range y_h) Hy).
  set (X := weight4 (loc_f double x_h) kx) in *. set (Y := weight4 (loc_f double y_h) ky) in *. set (x := weight4_f double (loc_f double x_h) kx) in *. set (y := weight4_f double (loc_f double y_h) ky) in *. clearbody X Y x y.
  assert (B : Rabs (X * Y) <= 1) by (rewrite Rabs_mult; assert (P1 := Rabs_pos X); assert (P2 := Rabs_pos Y); nra).
  assert (A1 : approx 5.1 (double (x / h) * h) X) by (rds h 1; [replace (x / h * h) with x by (field; lra); exact Ex|exact S1|lra|exact Ax|lra]).
  assert (M : approx (5.1 * 1 + 4 * 1 + / 1000) (double (x / h) * y * h) (X * Y)) by (replace (double (x / h) * y * h) with (double (x / h) * h * y) by ring; apply ap_mul; try lra; assumption).
  assert (A2 : approx 10.2 (double (double (x / h) * y) * h) (X * Y)) by (rds h 1; [exact M|exact S1|lra|exact B|lra]).
  rds (h ^ 2) 1; [replace (double (double (x / h) * y) / h * h ^ 2) with (double (double (x / h) * y) * h) by (field; lra); exact A2|split; [lra|eapply Rle_trans; [apply S2|]; apply bpow_le; lia]|lra|exact B|lra].
Qed.
Lemma added_scale s t a vs t' a' : 0 < s -> added t a vs t' a' -> added (s * t) (s * a) (map (fun v => v * s) vs) (s * t') (s * a').
Proof.
  intros Hs [A B]. unfold added. rewrite map_length. assert (E1 : sumR (map (fun v => v * s) vs) = s * sumR vs). { clear. induction vs as [|v vs IH]; cbn; [ring|]. rewrite IH. ring. }
  assert (E2 : sum_abs (map (fun v => v * s) vs) = s * sum_abs vs). { unfold sum_abs. clear - Hs. induction vs as [|v vs IH]; cbn; [ring|]. rewrite IH, Rabs_mult, (Rabs_pos_eq s) by lra. ring. }
  rewrite E1, E2. split.
  - replace (s * t' - s * t - s * sumR vs) with (s * (t' - t - sumR vs)) by ring. rewrite Rabs_mult, (Rabs_pos_eq s) by lra. replace ((s * a + s * sum_abs vs) * ((1 + u) ^ length vs - 1)) with (s * ((a + sum_abs vs) * ((1 + u) ^ length vs - 1))) by ring. apply Rmult_le_compat_l; lra.
  - replace ((s * a + s * sum_abs vs) * (1 + u) ^ length vs) with (s * ((a + sum_abs vs) * (1 + u) ^ length vs)) by ring. apply Rmult_le_compat_l; lra.
Qed.
Lemma plasma_one_moved n h x_h y_h d D g : ordinary_step h -> bpow radix2 (-510) <= D -> Rabs d <= D -> doubles g -> on_cells n x_h -> on_cells n y_h ->
  let g' := deposit_one_f double (Z.of_nat n) h x_h y_h d g in
  doubles g' /\ moved 25 d D (h ^ 2 * gsum n g) (h ^ 2 * gsum_sizes n g) (h ^ 2 * gsum n g') (h ^ 2 * gsum_sizes n g').
Proof.
  intros Hh HD Hd Hg Hx Hy g'. destruct (h_scale h Hh) as [S1 S2].
  assert (E : flat g' = puts eqz (flat g) (map (fun k => ((cell (Z.of_nat n) x_h + fst k, cell (Z.of_nat n) y_h + snd k)%Z, share3p h x_h y_h d k)) pairs)).
  { unfold g', deposit_one_f. cbv zeta. rewrite (fold_pairs (fun g kx ky => add_cell_f double g (cell (Z.of_nat n) x_h + kx) (cell (Z.of_nat n) y_h + ky) (double (d * double (double (double (weight4_f double (loc_f double x_h) kx / h) * weight4_f double (loc_f double y_h) ky) / h))))).
    exact (flat_puts (fun k => (cell (Z.of_nat n) x_h + fst k)%Z) (fun k => (cell (Z.of_nat n) y_h + snd k)%Z) (share3p h x_h y_h d) pairs g). }
  destruct (puts_added eqz eqz_spec (cells n) (cells_nodup n) (map (fun k => ((cell (Z.of_nat n) x_h + fst k, cell (Z.of_nat n) y_h + snd k)%Z, share3p h x_h y_h d k)) pairs) (flat g)) as [Dd A].
  - intros [a b]. apply Hg.
  - intros c v Hin. apply in_map_iff in Hin. destruct Hin as (k & Ek & Hk). injection Ek as <- <-. destruct k as [kx ky]. apply in_prod_iff in Hk. destruct Hk as [Kx Ky]. split; [apply cells_in; [apply Hx|apply Hy]; assumption|apply double_double].
  - rewrite <- E in Dd, A. split; [intros a b; exact (Dd (a, b))|]. rewrite map_map in A. cbn [snd] in A. rewrite <- !gsum_cells, <- !sizes_cells in A. apply (added_scale (h ^ 2)) in A; [|lra].
    assert (Near : forall k, In k pairs -> Rabs (share3p h x_h y_h d k * h ^ 2 - d * (weight4 (loc_f double x_h) (fst k) * weight4 (loc_f double y_h) (snd k))) <= 13 * u * D).
    { intros k Hk. destruct (pair_ap x_h y_h k Hk) as [_ B]. eapply Rle_trans; [apply (times_charge_s (h ^ 2) D d 11.4 _ _ 1 S2 HD Hd); [lra|apply Rabs_le; lra|lra|apply plasma_w_ap; assumption]|]. assert (U := u_pos). assert (P := bpow_gt_0 radix2 (-510)). apply Rmult_le_compat_r; [lra|]. lra. }
    assert (T : sumR (map (fun k => d * (weight4 (loc_f double x_h) (fst k) * weight4 (loc_f double y_h) (snd k))) pairs) = d).
    { transitivity (d * (sum5 (weight4 (loc_f double x_h)) * sum5 (weight4 (loc_f double y_h)))); [|rewrite !w4_sum; ring]. rewrite <- pairs_sum. generalize pairs. induction l as [|k l IH]; cbn; [ring|]. rewrite IH. ring. }
    assert (T2 : sumR (map (fun k => Rabs (d * (weight4 (loc_f double x_h) (fst k) * weight4 (loc_f double y_h) (snd k)))) pairs) = Rabs d).
    { transitivity (Rabs d * (sum5 (weight4 (loc_f double x_h)) * sum5 (weight4 (loc_f double y_h)))); [|rewrite !w4_sum; ring]. rewrite <- pairs_sum.
      assert (G : forall l, incl l pairs -> sumR (map (fun k => Rabs (d * (weight4 (loc_f double x_h) (fst k) * weight4 (loc_f double y_h) (snd k)))) l) = Rabs d * sumR (map (fun k => weight4 (loc_f double x_h) (fst k) * weight4 (loc_f double y_h) (snd k)) l)).
      { induction l as [|k l IH]; intros Hl; cbn [map sumR]; [ring|]. rewrite IH by (intros z Hz; apply Hl; now right). destruct (pair_ap x_h y_h k (Hl k (or_introl eq_refl))) as [_ B]. rewrite Rabs_mult, (Rabs_pos_eq (weight4 _ _ * weight4 _ _)) by lra. ring. }
      apply G. intros z Hz; exact Hz. }
    assert (C := sum_close _ _ _ pairs Near). assert (C2 : sumR (map (fun k => Rabs (share3p h x_h y_h d k * h ^ 2)) pairs) <= Rabs d + INR (length pairs) * (13 * u * D)) by (eapply Rle_trans; [exact (sum_size _ _ _ pairs Near)|]; apply Rplus_le_compat_r, Req_le; exact T2). rewrite T in C. change (length pairs) with 25%nat in C, C2. replace (INR 25) with 25 in C, C2 by (cbn; lra).
    assert (U := u_pos). assert (UT := u_tiny). assert (P := bpow_gt_0 radix2 (-510)). assert (UD : 0 <= u * D <= 0.0001 * D) by nra. exists (map (fun v => v * h ^ 2) (map (share3p h x_h y_h d) pairs)). split; [rewrite !map_length; cbn; lia|]. split; [|split; [|exact A]].
    + rewrite map_map. lra.
    + unfold sum_abs. rewrite !map_map. lra.
Qed.
