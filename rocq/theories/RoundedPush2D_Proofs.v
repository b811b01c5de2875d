(** Lemmas for C78, 2D: the energy and the displacements as the 2D pusher computes them. *)
From Coq Require Import Reals ZArith List Bool Lra Lia Psatz.
From Flocq Require Import Core Mult_error.
From Verif Require Import Float_Model Float_Proofs Beam2D_Model Beam2D_Spec Beam2D_Free Beam3D_Model Beam3D_Spec Shape_Model Rounded3D_Model RoundedBeam_Spec RoundedBeam_Model BeamPush_Spec Props_RoundedBeam RoundedSum_Proofs RoundedWeight_Proofs RoundedDep_Model RoundedDep_Spec RoundedDep_Proofs RoundedPlasma_Proofs Props_RoundedDep RoundedCell_Proofs Props_RoundedCell RoundedField_Model RoundedField_Proofs Props_RoundedField4 RoundedPush_Model RoundedPush_Spec RoundedPush_Proofs Props_RoundedPush RoundedLight_Proofs Props_RoundedLight Props_RoundedLight2.
Import ListNotations.
Open Scope R_scope.

(** a square to a relative rounding and an underflow *)
Lemma sq_near x : Rabs (double (x * x) - x ^ 2) <= u * x ^ 2 + eta.
Proof. assert (R := round_error (x * x)). rewrite (Rabs_pos_eq (x * x)) in R by nra. replace (x ^ 2) with (x * x) by ring. exact R. Qed.
(** a sum of two computed non-negative numbers, each near its exact value up to k roundings *)
Lemma sum_near a b A B k e : is_double a -> is_double b -> 0 <= a -> 0 <= b -> 0 <= A -> 0 <= B -> 0 <= k <= 10 -> 0 <= e -> Rabs (a - A) <= k * u * A + e -> Rabs (b - B) <= k * u * B + e ->
  Rabs (double (a + b) - (A + B)) <= (k + 1.001) * u * (A + B) + 2.001 * e.
Proof.
  intros Da Db Pa Pb PA PB Hk He Ha Hb. assert (U := u_pos). assert (T := u_tiny). assert (R := sum_error a b Da Db). rewrite (Rabs_pos_eq (a + b)) in R by lra. apply Rabs_le_inv in Ha, Hb, R. assert (UA : 0 <= u * A) by (apply Rmult_le_pos; lra). assert (UB : 0 <= u * B) by (apply Rmult_le_pos; lra).
  assert (KA : k * (u * A) <= 10 * (u * A)) by (apply Rmult_le_compat_r; lra). assert (KB : k * (u * B) <= 10 * (u * B)) by (apply Rmult_le_compat_r; lra). assert (UUA : u * (u * A) <= / 1000000000000 * (u * A)) by (apply Rmult_le_compat_r; lra). assert (UUB : u * (u * B) <= / 1000000000000 * (u * B)) by (apply Rmult_le_compat_r; lra). assert (UE : u * e <= / 1000000000000 * e) by (apply Rmult_le_compat_r; lra).
  assert (S : u * (a + b) <= u * (A + B + 10 * (u * A) + 10 * (u * B) + 2 * e)) by (apply Rmult_le_compat_l; lra). apply Rabs_le. lra.
Qed.
Section Energy2.
  Variables (qm px py pz : R).
  Hypothesis Hq : ordinary_ratio qm.
  Let m := 1 / qm.
  Let w := Rabs (double m).
  Let A := w ^ 2 + px ^ 2 + py ^ 2 + pz ^ 2.
  Let g := gam2_f qm px py pz.
  Let G := energy qm (px, py, pz).
  Lemma gam2_near : 0 < g /\ approx 9.2 (sqrt A / g) 1.
  Proof.
    assert (U := u_pos). assert (T := u_tiny). assert (WB := w_big qm Hq). fold m in WB. fold w in WB. assert (W0 : 0 < bpow radix2 (-200)) by apply bpow_gt_0. assert (W1 := bpow_gt_0 radix2 (-100)).
    assert (W2 : bpow radix2 (-200) <= w ^ 2) by (change (-200)%Z with (-100 + -100)%Z; rewrite bpow_plus; cbn [pow]; rewrite Rmult_1_r; apply Rmult_le_compat; lra).
    assert (Et : 100 * eta <= / 1000 * u * w ^ 2). { apply Rle_trans with (bpow radix2 (-300)). { unfold eta. apply Rle_trans with (bpow radix2 7 * bpow radix2 (-1075)); [apply Rmult_le_compat_r; [apply bpow_ge_0|change (bpow radix2 7) with 128; lra]|rewrite <- bpow_plus; apply bpow_le; lia]. }
      apply Rle_trans with (/ 1000 * u * bpow radix2 (-200)); [|apply Rmult_le_compat_l; lra]. change (-300)%Z with (-10 + (-53 + (-37 + -200)))%Z. rewrite !bpow_plus. change (bpow radix2 (-53)) with u. rewrite <- !Rmult_assoc. apply Rmult_le_compat_r; [lra|]. assert (B10 : bpow radix2 (-10) <= / 1000) by (change (bpow radix2 (-10)) with (/ 1024); lra). assert (B37 : bpow radix2 (-37) <= 1) by (change 1 with (bpow radix2 0); apply bpow_le; lia). assert (B38 := bpow_gt_0 radix2 (-37)). assert (B11 := bpow_gt_0 radix2 (-10)).
      apply Rle_trans with (bpow radix2 (-10) * u * 1); [apply Rmult_le_compat_l; [apply Rmult_le_pos; lra|exact B37]|]. rewrite Rmult_1_r. apply Rmult_le_compat_r; lra. }
    assert (Pe := eta_pos). assert (Sx : 0 <= px ^ 2) by nra. assert (Sy : 0 <= py ^ 2) by nra. assert (Sz : 0 <= pz ^ 2) by nra.
    unfold g, gam2_f. fold m. assert (Nw := sq_near (double m)). replace (double m ^ 2) with (w ^ 2) in Nw by (unfold w; cbn [pow]; rewrite !Rmult_1_r; apply sq_abs). assert (Nx := sq_near px). assert (Ny := sq_near py). assert (Nz := sq_near pz). assert (Qw := double_sq (double m)). assert (Qx := double_sq px). assert (Qy := double_sq py). assert (Qz := double_sq pz).
    set (a := double (double m * double m)) in *. set (b := double (px * px)) in *. set (c := double (py * py)) in *. set (d := double (pz * pz)) in *. assert (Da : is_double a) by apply double_double. assert (Db : is_double b) by apply double_double. assert (Dc : is_double c) by apply double_double. assert (Dd : is_double d) by apply double_double.
    assert (N1 := sum_near b c (px ^ 2) (py ^ 2) 1 eta Db Dc Qx Qy Sx Sy ltac:(lra) ltac:(lra) ltac:(lra) ltac:(lra)). set (bc := double (b + c)) in *. assert (Qbc : 0 <= bc) by (apply double_pos; lra).
    assert (UZ : 0 <= u * pz ^ 2) by (apply Rmult_le_pos; lra). assert (UW : 0 <= u * w ^ 2) by (apply Rmult_le_pos; lra). assert (Uxy : 0 <= u * (px ^ 2 + py ^ 2)) by (apply Rmult_le_pos; lra).
    assert (N2 := sum_near bc d (px ^ 2 + py ^ 2) (pz ^ 2) 2.001 (2.001 * eta) (double_double _) Dd Qbc Qz ltac:(lra) Sz ltac:(lra) ltac:(lra) ltac:(lra) ltac:(eapply Rle_trans; [exact Nz|lra])). set (bcd := double (bc + d)) in *. assert (Qbcd : 0 <= bcd) by (apply double_pos; lra).
    assert (Ux : 0 <= u * (px ^ 2 + py ^ 2 + pz ^ 2)) by (apply Rmult_le_pos; lra).
    assert (N3 := sum_near a bcd (w ^ 2) (px ^ 2 + py ^ 2 + pz ^ 2) 3.002 (4.01 * eta) Da (double_double _) Qw Qbcd ltac:(lra) ltac:(lra) ltac:(lra) ltac:(lra) ltac:(eapply Rle_trans; [exact Nw|lra]) ltac:(eapply Rle_trans; [exact N2|lra])). set (s := double (a + bcd)) in *.
    replace (w ^ 2 + (px ^ 2 + py ^ 2 + pz ^ 2)) with A in N3 by (unfold A; ring). assert (A0 : 0 < A) by (unfold A; lra). assert (UA : 0 <= u * A) by (apply Rmult_le_pos; lra). assert (WA : u * w ^ 2 <= u * A) by (apply Rmult_le_compat_l; [lra|unfold A; lra]).
    assert (N4 : Rabs (s - A) <= 4.01 * u * A) by lra. assert (s0 : 0 <= s) by (apply double_pos; lra). assert (PA := sqrt_lt_R0 A A0). assert (Q := sqrt_near s A s0 A0).
    assert (Q2 : Rabs (sqrt s - sqrt A) <= 4.01 * u * sqrt A). { eapply Rle_trans; [exact Q|]. apply (Rmult_le_reg_r (sqrt A)); [exact PA|]. unfold Rdiv. rewrite Rmult_assoc, Rinv_l, Rmult_1_r by lra. rewrite (Rmult_assoc _ (sqrt A)), sqrt_sqrt by lra. exact N4. }
    assert (USA : 0 <= u * sqrt A) by (apply Rmult_le_pos; lra). assert (UUS : u * (u * sqrt A) <= / 1000000000000 * (u * sqrt A)) by (apply Rmult_le_compat_r; lra).
    assert (Re := round_error (sqrt s)). rewrite (Rabs_pos_eq (sqrt s)) in Re by apply sqrt_pos. apply Rabs_le_inv in Re, Q2.
    assert (ES : eta <= / 1000 * (u * sqrt A)). { apply Rle_trans with (/ 1000 * (u * w)). { assert (Ww : u * bpow radix2 (-100) <= u * w) by (apply Rmult_le_compat_l; lra). apply Rle_trans with (/ 1000 * (u * bpow radix2 (-100))); [|lra]. unfold eta. change (-1075)%Z with (-10 + (-53 + (-100 + -912)))%Z. rewrite !bpow_plus. change (bpow radix2 (-53)) with u. assert (B10 : bpow radix2 (-10) <= / 1000) by (change (bpow radix2 (-10)) with (/ 1024); lra). assert (B9 : bpow radix2 (-912) <= 1) by (change 1 with (bpow radix2 0); apply bpow_le; lia). assert (B99 := bpow_gt_0 radix2 (-912)). assert (B11 := bpow_gt_0 radix2 (-10)).
        assert (bpow radix2 (-100) * bpow radix2 (-912) <= bpow radix2 (-100) * 1) by (apply Rmult_le_compat_l; lra). apply Rmult_le_compat; try lra; [apply Rmult_le_pos; [lra|apply Rmult_le_pos; lra]|]. apply Rmult_le_compat_l; lra. }
      assert (w <= sqrt A). { rewrite <- (sqrt_square w) by lra. apply sqrt_le_1; [nra|lra|unfold A; nra]. } assert (u * w <= u * sqrt A) by (apply Rmult_le_compat_l; lra). lra. }
    assert (US : u * sqrt s <= u * (sqrt A + 4.01 * u * sqrt A)) by (apply Rmult_le_compat_l; lra). set (g' := double (sqrt s)) in *.
    assert (N5 : Rabs (g' - sqrt A) <= 5.02 * u * sqrt A) by (apply Rabs_le; lra). apply Rabs_le_inv in N5. assert (US1 : u * sqrt A <= / 1000000000000 * sqrt A) by (apply Rmult_le_compat_r; lra). assert (G0 : 0.999 * sqrt A <= g') by lra. split; [lra|].
    unfold approx. replace (sqrt A / g' - 1) with ((sqrt A - g') / g') by (field; lra). unfold Rdiv. rewrite Rabs_mult, (Rabs_pos_eq (/ g')) by (left; apply Rinv_0_lt_compat; lra). apply (Rmult_le_reg_r g'); [lra|]. rewrite Rmult_assoc, Rinv_l, Rmult_1_r by lra. assert (u * (0.999 * sqrt A) <= u * g') by (apply Rmult_le_compat_l; lra). apply Rabs_le. lra.
  Qed.
  Lemma gam2_energy : 0 < g /\ approx 11.3 (G / g) 1.
  Proof.
    assert (WB := w_big qm Hq). fold m in WB. fold w in WB. destruct gam2_near as [Pg Ag]. split; [exact Pg|]. assert (PA := G_pos w px py pz WB). fold A in PA. assert (MP := m_pos qm Hq). fold m in MP.
    assert (U := u_pos). assert (T := u_tiny). assert (WN := w_near qm Hq). fold m in WN. fold w in WN. assert (AA : 0 < A). { assert (0 <= px ^ 2) by nra. assert (0 <= py ^ 2) by nra. assert (0 <= pz ^ 2) by nra. assert (W0 := bpow_gt_0 radix2 (-100)). assert (0 < w ^ 2) by nra. unfold A. lra. }
    assert (S := sqrt_near (m ^ 2 + px ^ 2 + py ^ 2 + pz ^ 2) A ltac:(nra) AA). unfold m in S. rewrite <- (G_is qm px py pz) in S. fold m in S. fold G in S.
    assert (MA : m ^ 2 <= 1.001 * A). { apply Rabs_le_inv in WN. assert (0 <= px ^ 2) by nra. assert (0 <= py ^ 2) by nra. assert (0 <= pz ^ 2) by nra. assert (0 <= w ^ 2) by nra. assert (2.01 * u * m ^ 2 <= 0.0001 * m ^ 2) by (apply Rmult_le_compat_r; lra). unfold A. lra. }
    assert (SA : Rabs (G - sqrt A) <= 2.02 * u * sqrt A).
    { eapply Rle_trans; [exact S|]. apply (Rmult_le_reg_r (sqrt A)); [exact PA|]. unfold Rdiv. rewrite Rmult_assoc, Rinv_l, Rmult_1_r by lra. rewrite Rmult_assoc, sqrt_sqrt by lra. replace (m ^ 2 + px ^ 2 + py ^ 2 + pz ^ 2 - A) with (- (w ^ 2 - m ^ 2)) by (unfold A; ring). rewrite Rabs_Ropp. assert (u * m ^ 2 <= u * (1.001 * A)) by (apply Rmult_le_compat_l; lra). assert (0 <= u * A) by (apply Rmult_le_pos; lra). lra. }
    assert (B : approx 2.02 (G / sqrt A) 1). { unfold approx. replace (G / sqrt A - 1) with ((G - sqrt A) / sqrt A) by (field; lra). unfold Rdiv. rewrite Rabs_mult, (Rabs_pos_eq (/ sqrt A)) by (left; now apply Rinv_0_lt_compat). apply (Rmult_le_reg_r (sqrt A)); [exact PA|]. rewrite Rmult_assoc, Rinv_l, Rmult_1_r by lra. exact SA. }
    replace (G / g) with (sqrt A / g * (G / sqrt A)) by (field; lra). replace 1 with (1 * 1) by ring. eapply ap_weak; [|apply (ap_mul 9.2 2.02 _ _ _ _ 1 1); [lra|lra|rewrite Rabs_R1; lra|rewrite Rabs_R1; lra|exact Ag|exact B]]. lra.
  Qed.
  Lemma quotient2 c : c ^ 2 <= px ^ 2 + py ^ 2 + pz ^ 2 -> approx 11.31 (c / g) (c / G).
  Proof.
    intros H. assert (V := unit_speed qm px py pz Hq c H). fold G in V. destruct gam2_energy as [P A0]. assert (PG := G_positive qm px py pz Hq). fold G in PG. replace (c / g) with (c / G * (G / g)) by (field; lra). replace (c / G) with (c / G * 1) at 2 by ring.
    eapply ap_weak; [|apply (ap_mul 0 11.3 _ _ _ _ 1 1); [lra|lra|exact V|rewrite Rabs_R1; lra|apply ap_refl|exact A0]]. lra.
  Qed.
  Lemma speed2 c : c ^ 2 <= px ^ 2 + py ^ 2 + pz ^ 2 -> approx 12.4 (double (c / g)) (c / G).
  Proof. intros H. rd 1; [now apply quotient2|lra|exact (unit_speed qm px py pz Hq c H)|lra]. Qed.
End Energy2.
Lemma eta_energy d g : ordinary_step d -> bpow radix2 (-100) <= g -> eta / g <= / 10000 * u * d.
Proof.
  intros Hd Hg. assert (P := step_pos _ Hd). assert (U := u_pos). assert (T := u_tiny). assert (X := bpow_gt_0 radix2 (-100)). assert (G0 : 0 < g) by lra.
  apply (Rmult_le_reg_r g); [exact G0|]. unfold Rdiv. rewrite Rmult_assoc, Rinv_l, Rmult_1_r by lra. apply Rle_trans with (bpow radix2 (-300)); [unfold eta; apply bpow_le; lia|]. destruct Hd as [Hd _]. apply Rle_trans with (/ 10000 * u * bpow radix2 (-100) * bpow radix2 (-100)); [|apply Rmult_le_compat; try lra; [apply Rmult_le_pos; lra|apply Rmult_le_compat_l; [lra|exact Hd]]].
  replace (-300)%Z with (-100 + (-100 + -100))%Z by lia. rewrite !bpow_plus. replace (/ 10000 * u * bpow radix2 (-100) * bpow radix2 (-100)) with (/ 10000 * u * (bpow radix2 (-100) * bpow radix2 (-100))) by ring. apply Rmult_le_compat_r; [apply Rmult_le_pos; lra|]. replace u with (bpow radix2 (-53)) by reflexivity. assert (B47 : bpow radix2 (-47) <= / 10000) by (change (bpow radix2 (-47)) with (/ IZR (2 ^ 47)); apply Rinv_le_contravar; [lra|apply IZR_le; lia]). apply Rle_trans with (bpow radix2 (-47 + -53)); [exact (bpow_le radix2 (-100) (-47 + -53) ltac:(lia))|rewrite bpow_plus; apply Rmult_le_compat_r; [apply bpow_ge_0|exact B47]].
Qed.
(** the displacement of a momentum that is near H *)
Lemma drift2 d qm h H C : ordinary_step d -> ordinary_ratio qm -> 0 <= C -> is_double (vx h) -> is_double (vy h) -> is_double (vz h) -> (forall c, In c [vx; vy; vz] -> Rabs (c h - c H) <= u * Rabs (c H) + C * u) ->
  forall c, In c [vx; vy; vz] -> let t := double (double (d * c h) / gam2_f qm (vx h) (vy h) (vz h)) in
  Rabs (t - d * c (velocity qm H)) <= (17.4 + 4 * (C / energy qm H)) * (u * d) /\ Rabs t <= 1.1 * d.
Proof.
  intros Hd Hq HC D1 D2 D3 Hh c Hc t. assert (N := ratio_ne _ Hq). destruct (energy_pos qm H N) as [PG BG]. assert (U := u_pos). assert (T := u_tiny). assert (P := step_pos _ Hd). set (G := energy qm H) in *.
  destruct (gam2_least qm (vx h) (vy h) (vz h) Hq D1 D2 D3) as (G0 & Gx & Gy & Gz). assert (GB := gam2_big qm (vx h) (vy h) (vz h) Hq). set (g := gam2_f qm (vx h) (vy h) (vz h)) in *. assert (Gc : Rabs (c h) <= g) by (destruct Hc as [<-|[<-|[<-|[]]]]; assumption).
  assert (E : forall k, In k [vx; vy; vz] -> Rabs (k h - k H) <= u * G + C * u). { intros k Hk. eapply Rle_trans; [apply Hh, Hk|]. assert (u * Rabs (k H) <= u * G) by (apply Rmult_le_compat_l; [lra|now apply BG]). lra. }
  assert (L := speed_lip qm h H (c h) (c H) (u * G + C * u) N (norm_part h c Hc) (E c Hc) ltac:(assert (X := E vx ltac:(cbn; tauto)); assert (Y := E vy ltac:(cbn; tauto)); assert (Z := E vz ltac:(cbn; tauto)); lra)).
  assert (V : c (velocity qm H) = c H / energy qm H) by (unfold velocity, times, Rdiv; destruct Hc as [<-|[<-|[<-|[]]]]; cbn; ring). rewrite V. fold G in L |- *.
  replace (4 * (u * G + C * u) / G) with (4 * u + 4 * (C / G) * u) in L by (field; lra). assert (A := quotient2 qm (vx h) (vy h) (vz h) Hq (c h) (norm_part h c Hc)). rewrite <- (vec_is h) in A. fold g in A. unfold approx in A.
  set (Q := c h / g) in *. assert (Q1 : Rabs Q <= 1). { unfold Q, Rdiv. rewrite Rabs_mult, (Rabs_pos_eq (/ g)) by (left; now apply Rinv_0_lt_compat). apply (Rmult_le_reg_r g); [exact G0|]. rewrite Rmult_assoc, Rinv_l by lra. lra. }
  assert (EG := eta_energy d g Hd GB). assert (Et := eta_step _ Hd). assert (UD : 0 < u * d) by (apply Rmult_lt_0_compat; lra). assert (CG : 0 <= C / G) by (apply Rmult_le_pos; [exact HC|left; now apply Rinv_0_lt_compat]). assert (Pe := eta_pos).
  assert (QV : Rabs (Q - c H / G) <= (15.31 + 4 * (C / G)) * u). { replace (Q - c H / G) with ((Q - c h / energy qm h) + (c h / energy qm h - c H / G)) by ring. eapply Rle_trans; [apply Rabs_triang|]. lra. }
  assert (R1 := round_error (d * c h)). set (a := double (d * c h)) in *.
  assert (A1 : Rabs (a / g - d * Q) <= 1.0001 * (u * d)). { replace (a / g - d * Q) with ((a - d * c h) / g) by (unfold Q; field; lra). unfold Rdiv at 1. rewrite Rabs_mult, (Rabs_pos_eq (/ g)) by (left; now apply Rinv_0_lt_compat). apply Rle_trans with ((u * Rabs (d * c h) + eta) * / g); [apply Rmult_le_compat_r; [left; now apply Rinv_0_lt_compat|exact R1]|]. rewrite Rabs_mult, (Rabs_pos_eq d) by lra.
    replace ((u * (d * Rabs (c h)) + eta) * / g) with (u * d * Rabs Q + eta / g) by (unfold Q, Rdiv; rewrite Rabs_mult, (Rabs_pos_eq (/ g)) by (left; now apply Rinv_0_lt_compat); ring). assert (u * d * Rabs Q <= u * d * 1) by (apply Rmult_le_compat_l; lra). lra. }
  assert (DQ : Rabs (d * Q) <= d) by (rewrite Rabs_mult, (Rabs_pos_eq d) by lra; assert (d * Rabs Q <= d * 1) by (apply Rmult_le_compat_l; lra); lra).
  assert (UD1 : u * d <= / 1000000000000 * d) by (apply Rmult_le_compat_r; lra). assert (A2 : Rabs (a / g) <= 1.0001 * d) by (replace (a / g) with ((a / g - d * Q) + d * Q) by ring; eapply Rle_trans; [apply Rabs_triang|]; lra).
  assert (R2 := round_error (a / g)). fold t in R2. assert (UA : u * Rabs (a / g) <= u * (1.0001 * d)) by (apply Rmult_le_compat_l; lra). split.
  - replace (t - d * (c H / G)) with ((t - a / g) + (a / g - d * Q) + d * (Q - c H / G)) by ring. eapply Rle_trans; [apply Rabs_triang|]. eapply Rle_trans; [apply Rplus_le_compat_r; apply Rabs_triang|]. rewrite (Rabs_mult d), (Rabs_pos_eq d) by lra. assert (d * Rabs (Q - c H / G) <= d * ((15.31 + 4 * (C / G)) * u)) by (apply Rmult_le_compat_l; lra). lra.
  - replace t with ((t - a / g) + a / g) by ring. eapply Rle_trans; [apply Rabs_triang|]. lra.
Qed.
(** a half step of the momentum that is known exactly *)
Lemma drift2_exact d qm h : ordinary_step d -> ordinary_ratio qm -> is_double (vx h) -> is_double (vy h) -> is_double (vz h) ->
  forall c, In c [vx; vy; vz] -> let t := double (double (d * c h) / gam2_f qm (vx h) (vy h) (vz h)) in Rabs (t - d * c (velocity qm h)) <= 17.4 * (u * d) /\ Rabs t <= 1.1 * d.
Proof.
  intros Hd Hq D1 D2 D3 c Hc t. assert (U := u_pos). destruct (drift2 d qm h h 0 Hd Hq (Rle_refl 0) D1 D2 D3 ltac:(intros k _; rewrite Rminus_eq_0, Rabs_R0; assert (A := Rabs_pos (k h)); assert (0 <= u * Rabs (k h)) by (apply Rmult_le_pos; lra); lra) c Hc) as [A B]. fold t in A, B. split; [|exact B]. unfold Rdiv in A. rewrite Rmult_0_l, Rmult_0_r, Rplus_0_r in A. exact A.
Qed.
(** the place after the displacement; along z the length of the step is taken off afterwards *)
Lemma place_across x t X T e : is_double x -> is_double t -> x + T = X -> Rabs (t - T) <= e -> Rabs (double (x + t) - X) <= u * Rabs X + (1 + u) * e.
Proof. exact (arrive x t X T e). Qed.
Lemma place_along z t d V X e : is_double z -> is_double t -> is_double d -> 0 < d -> z + (V - d) = X -> Rabs (t - V) <= e -> Rabs V <= d -> Rabs (double (double (z + t) - d) - X) <= u * (2 * Rabs X + d) + 1.0001 * e + u * u * (Rabs X + d).
Proof.
  intros Dz Dt Dd P HX He HV. assert (U := u_pos). assert (T := u_tiny). assert (A := arrive z t (X + d) V e Dz Dt ltac:(lra) He). assert (E0 : 0 <= e) by (eapply Rle_trans; [apply Rabs_pos|exact He]).
  assert (S := sum_error (double (z + t)) (- d) (double_double _) (opp_double _ Dd)). replace (double (z + t) + - d) with (double (z + t) - d) in S by ring. set (a := double (z + t)) in *. assert (XD : Rabs (X + d) <= Rabs X + d) by (eapply Rle_trans; [apply Rabs_triang|]; rewrite (Rabs_pos_eq d); lra).
  assert (UX : u * Rabs (X + d) <= u * (Rabs X + d)) by (apply Rmult_le_compat_l; lra). assert (AD : Rabs (a - d - X) <= u * (Rabs X + d) + (1 + u) * e) by (replace (a - d - X) with (a - (X + d)) by ring; lra).
  assert (AB : Rabs (a - d) <= Rabs X + (u * (Rabs X + d) + (1 + u) * e)) by (replace (a - d) with (X + (a - d - X)) by ring; eapply Rle_trans; [apply Rabs_triang|]; lra). assert (UAB : u * Rabs (a - d) <= u * (Rabs X + (u * (Rabs X + d) + (1 + u) * e))) by (apply Rmult_le_compat_l; lra).
  replace (double (a - d) - X) with ((double (a - d) - (a - d)) + (a - d - X)) by ring. eapply Rle_trans; [apply Rabs_triang|]. assert (UE : u * e <= / 1000000000000 * e) by (apply Rmult_le_compat_r; lra). assert (UUE : u * (u * e) <= / 1000000000000 * (u * e)) by (apply Rmult_le_compat_r; [apply Rmult_le_pos|]; lra). assert (0 <= u * e) by (apply Rmult_le_pos; lra). lra.
Qed.
