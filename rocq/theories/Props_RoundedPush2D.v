(** Theorems C78, 2D: the substep of the axisymmetric beam pusher in binary64. *)
From Coq Require Import Reals ZArith List Bool Lra Lia Psatz.
From Flocq Require Import Core Mult_error.
From Verif Require Import Float_Model Float_Proofs Beam2D_Model Beam2D_Spec Beam2D_Free Beam3D_Model Beam3D_Spec Shape_Model Rounded3D_Model RoundedBeam_Spec RoundedBeam_Model BeamPush_Spec Props_RoundedBeam RoundedSum_Proofs RoundedWeight_Proofs RoundedDep_Model RoundedDep_Spec RoundedDep_Proofs RoundedPlasma_Proofs Props_RoundedDep RoundedCell_Proofs Props_RoundedCell RoundedField_Model RoundedField_Proofs Props_RoundedField4 RoundedPush_Model RoundedPush_Spec RoundedPush_Proofs Props_RoundedPush RoundedLight_Proofs Props_RoundedLight Props_RoundedLight2 RoundedPush2D_Proofs.
Import ListNotations.
Open Scope R_scope.

(** The coordinates and the momentum of a 2D particle are doubles. *)
Definition stored2 (p : part) : Prop := is_double (xi p) /\ is_double (rad p) /\ is_double (p_r p) /\ is_double (p_z p).
(** The momentum along the radius, across it (the angular momentum over the radius, rounded) and along z. *)
Definition momentum2_f (p : part) : vec := (p_r p, double (ang p / rad p), p_z p).

Theorem C78_2d_half_step : forall p d, ordinary_ratio (q_m p) -> ordinary_step d -> ordinary_step (d / 2) -> is_double d -> stored2 p ->
  let half := plus (place2 p) (shift (d / 2) (velocity (q_m p) (momentum2_f p))) in
  forall c, In c [vx; vy; vz] -> Rabs (c (half_position_f p d) - c half) <= (3 * Rabs (c half) + 10 * d) * rounding.
Proof.
  intros p d Hq Hd Hd2 Dd (Dz & Dr & Pr & Pz) half c Hc. change rounding with u. assert (U := u_pos). assert (T := u_tiny). assert (P := step_pos _ Hd). assert (P2 := step_pos _ Hd2). assert (UD : 0 < u * d) by (apply Rmult_lt_0_compat; lra). assert (UUD : u * (u * d) <= / 1000000000000 * (u * d)) by (apply Rmult_le_compat_r; lra).
  assert (Dr2 := drift2_exact (d / 2) (q_m p) (momentum2_f p) Hd2 Hq Pr (double_double _) Pz). unfold half_position_f, beam_to_vec_f. cbv zeta. rewrite (half_exact d Dd Hd).
  change (gam2_f (q_m p) (vx (p_r p, double (ang p / rad p), p_z p)) (vy (p_r p, double (ang p / rad p), p_z p)) (vz (p_r p, double (ang p / rad p), p_z p))) with (gam2_f (q_m p) (vx (momentum2_f p)) (vy (momentum2_f p)) (vz (momentum2_f p))). set (v := velocity (q_m p) (momentum2_f p)) in *. destruct (Dr2 c Hc) as [D1 D2]. set (g := gam2_f _ _ _ _) in *.
  assert (Ha := Rabs_pos (c half)). assert (UH : 0 <= u * Rabs (c half)) by (apply Rmult_le_pos; lra). destruct Hc as [<-|[<-|[<-|[]]]].
  - eapply Rle_trans; [apply (place_across (rad p) _ _ (d / 2 * vx v)); [exact Dr|apply double_double|unfold half, plus, shift, times, place2, plus, vx; cbn; fold v; ring|exact D1]|]. lra.
  - eapply Rle_trans; [apply (place_across 0 _ _ (d / 2 * vy v)); [apply double_0|apply double_double|unfold half, plus, shift, times, place2, plus, vy; cbn; fold v; ring|exact D1]|]. lra.
  - assert (V1 : Rabs (vz v) <= 1). { assert (K := unit_speed (q_m p) _ _ _ Hq (vz (momentum2_f p)) (norm_part (momentum2_f p) vz ltac:(cbn; tauto))). rewrite <- (vec_is (momentum2_f p)) in K. replace (vz v) with (vz (momentum2_f p) / energy (q_m p) (momentum2_f p)) by (unfold v, velocity, times, vz, Rdiv; cbn; ring). exact K. }
    assert (DV : Rabs (d / 2 * vz v) <= d / 2) by (rewrite Rabs_mult, (Rabs_pos_eq (d / 2)) by lra; assert (d / 2 * Rabs (vz v) <= d / 2 * 1) by (apply Rmult_le_compat_l; lra); lra).
    assert (UUH : u * (u * Rabs (vz half)) <= / 1000000000000 * (u * Rabs (vz half))) by (apply Rmult_le_compat_r; lra).
    assert (A := place_along (xi p) (double (double (d / 2 * vz (momentum2_f p)) / g)) (d / 2) (d / 2 * vz v) (vz half) (17.4 * (u * (d / 2))) Dz (double_double _) ltac:(unfold is_double; apply half_exact; assumption) P2 ltac:(unfold half, plus, shift, times, place2, plus, vz; cbn; fold v; lra) D1 DV).
    eapply Rle_trans; [exact A|]. lra.
Qed.

(** One substep in given fields.  The computed fields [e], [b] (the latter before the external field is added) are allowed
    to be K roundings of M away from the true [E], [B]. *)
Theorem C78_2d_substep_in_fields : forall cf p d s e b E B M K, ordinary_ratio (q_m p) -> sign_of (q_m p) s -> ordinary_step d -> is_double d -> stored2 p ->
  bpow radix2 (-500) <= M -> 0 <= K -> K * rounding <= / 20 ->
  (forall c, In c [vx; vy; vz] -> Rabs (c E) <= M /\ Rabs (c B) <= M /\ Rabs (c e - c E) <= K * rounding * M /\ Rabs (c (plus b (0, 0, magnetic_field cf)) - c B) <= K * rounding * M) ->
  let p0 := momentum2_f p in
  let p1 := plus p0 (times d (force s E B (velocity (q_m p) p0))) in
  let x1 := plus (place2 p) (shift d (velocity (q_m p) (mean p0 p1))) in
  let '(x, q) := substep_f cf p d (e, b) in
  forall c, In c [vx; vy; vz] ->
    Rabs (c q - c p1) <= (4 * Rabs (c p0) + (67 + 5 * K) * (d * M)) * rounding /\
    Rabs (c x - c x1) <= (3 * Rabs (c x1) + (22 + (128 + 9 * K) * (d * M / energy (q_m p) (mean p0 p1))) * d) * rounding.
Proof.
  intros cf p d s e b E B M K Hq Hs Hd Dd (Dz & Dr & Pr & Pz) HM HK HKu HF. change rounding with u in *. cbv zeta. unfold substep_f, beam_to_vec_f. cbv zeta. cbn [fst snd]. set (p0 := momentum2_f p). set (qm := q_m p) in *. set (V := velocity qm p0).
  destruct (sign_is _ _ Hs) as (Sg & S1 & Nq). rewrite Sg. assert (U := u_pos). assert (T := u_tiny). assert (Pd := step_pos _ Hd). assert (M0 : 0 < M) by (assert (B0 := bpow_gt_0 radix2 (-500)); lra).
  change (p_r p, double (ang p / rad p), p_z p) with p0. set (g := gam2_f qm (vx p0) (vy p0) (vz p0)).
  change (vx (double (vx p0 / g), double (vy p0 / g), double (vz p0 / g))) with (double (vx p0 / g)). change (vy (double (vx p0 / g), double (vy p0 / g), double (vz p0 / g))) with (double (vy p0 / g)). change (vz (double (vx p0 / g), double (vy p0 / g), double (vz p0 / g))) with (double (vz p0 / g)).
  assert (Sp : forall c, In c [vx; vy; vz] -> approx 12.4 (double (c p0 / g)) (c V) /\ Rabs (c V) <= 1).
  { intros c Hc. assert (N := norm_part p0 c Hc). assert (A := speed2 qm _ _ _ Hq (c p0) N). assert (B0 := unit_speed qm _ _ _ Hq (c p0) N). rewrite <- (vec_is p0) in *. assert (EV : c V = c p0 / energy qm p0) by (unfold V, velocity, times, Rdiv; destruct Hc as [<-|[<-|[<-|[]]]]; cbn; ring). rewrite EV. split; assumption. }
  destruct (Sp vx ltac:(cbn; tauto)) as [Ax Bx]. destruct (Sp vy ltac:(cbn; tauto)) as [Ay By]. destruct (Sp vz ltac:(cbn; tauto)) as [Az Bz].
  set (wx := double (vx p0 / g)) in *. set (wy := double (vy p0 / g)) in *. set (wz := double (vz p0 / g)) in *.
  set (sf := double (double (d / 2) * s)).
  assert (HS : Rabs (s * d / 2) <= d / 2) by (unfold Rdiv; rewrite !Rabs_mult, S1, (Rabs_pos_eq d), (Rabs_pos_eq (/ 2)) by lra; lra).
  assert (Hsf : Rabs (sf - s * d / 2) <= 1.1 * u * d).
  { assert (A := half_step d Hd). assert (A2 : Rabs (sf - s * d / 2) = Rabs (double (d / 2) - d / 2)).
    { unfold sf. assert (Cs : s = 1 \/ s = - 1) by (unfold Rabs in S1; destruct (Rcase_abs s); [right|left]; lra). destruct Cs as [-> | ->].
      - rewrite Rmult_1_r, double_double. f_equal. lra.
      - replace (double (d / 2) * -1) with (- double (d / 2)) by ring. rewrite double_opp, double_double. replace (- double (d / 2) - -1 * d / 2) with (- (double (d / 2) - d / 2)) by field. apply Rabs_Ropp. }
    rewrite A2. unfold approx in A. replace (double (d / 2) - d / 2) with ((double (d / 2) * / d - 1 / 2) * d) by (field; lra). rewrite Rabs_mult, (Rabs_pos_eq d) by lra. apply Rmult_le_compat_r; lra. }
  assert (KM : K * u * M <= / 20 * M) by (apply Rmult_le_compat_r; lra). assert (UM : 0 < u * M) by (apply Rmult_lt_0_compat; lra). assert (KUM : 0 <= K * u * M) by (rewrite Rmult_assoc; apply Rmult_le_pos; lra).
  pose (b' := (vx b, vy b, double (vz b + magnetic_field cf))). change (vx b, vy b, double (vz b + magnetic_field cf)) with b'.
  assert (HF' : forall c, In c [vx; vy; vz] -> Rabs (c E) <= M /\ Rabs (c B) <= M /\ Rabs (c e - c E) <= (K + 2) * u * M /\ Rabs (c b' - c B) <= (K + 2) * u * M).
  { intros c Hc. destruct (HF c Hc) as (F1 & F2 & F3 & F4). split; [exact F1|]. split; [exact F2|]. split; [lra|]. destruct Hc as [<-|[<-|[<-|[]]]]; unfold b'; [change (vx (plus b (0, 0, magnetic_field cf))) with (vx b + 0) in F4; rewrite Rplus_0_r in F4; change (vx (vx b, vy b, double (vz b + magnetic_field cf))) with (vx b); lra|change (vy (plus b (0, 0, magnetic_field cf))) with (vy b + 0) in F4; rewrite Rplus_0_r in F4; change (vy (vx b, vy b, double (vz b + magnetic_field cf))) with (vy b); lra|].
    change (vz (plus b (0, 0, magnetic_field cf))) with (vz b + magnetic_field cf) in F4. change (vz (vx b, vy b, double (vz b + magnetic_field cf))) with (double (vz b + magnetic_field cf)). set (y := vz b + magnetic_field cf) in *. assert (R := round_error y). assert (Y : Rabs y <= 1.1 * M) by (replace y with (vz B + (y - vz B)) by ring; eapply Rle_trans; [apply Rabs_triang|]; lra). assert (u * Rabs y <= u * (1.1 * M)) by (apply Rmult_le_compat_l; lra).
    assert (Ee : eta <= / 10 * (u * M)). { unfold eta. apply Rle_trans with (/ 10 * (u * bpow radix2 (-500))); [|assert (u * bpow radix2 (-500) <= u * M) by (apply Rmult_le_compat_l; lra); lra]. change u with (bpow radix2 (-53)). rewrite <- bpow_plus. apply Rle_trans with (bpow radix2 (-4) * bpow radix2 (-53 + -500)); [rewrite <- bpow_plus; apply bpow_le; lia|]. apply Rmult_le_compat_r; [apply bpow_ge_0|]. change (bpow radix2 (-4)) with (/ 16). lra. }
    replace (double y - vz B) with ((double y - y) + (y - vz B)) by ring. eapply Rle_trans; [apply Rabs_triang|]. lra. }
  clear HF. set (K' := K + 2) in *. assert (HK' : 0 <= K') by (unfold K'; lra). assert (HKu' : K' * u <= / 10) by (unfold K'; lra). assert (KM' : K' * u * M <= / 10 * M) by (apply Rmult_le_compat_r; lra).
  destruct (HF' vx ltac:(cbn; tauto)) as (Ex1 & Bx1 & Ex2 & Bx2). destruct (HF' vy ltac:(cbn; tauto)) as (Ey1 & By1 & Ey2 & By2). destruct (HF' vz ltac:(cbn; tauto)) as (Ez1 & Bz1 & Ez2 & Bz2).
  assert (HB : bpow radix2 (-510) <= 1.1 * M) by (apply Rle_trans with (bpow radix2 (-500)); [apply bpow_le; lia|lra]).
  assert (Sz : forall a A, Rabs A <= M -> Rabs (a - A) <= K' * u * M -> Rabs a <= 1.1 * M). { intros a A H1 H2. replace a with (A + (a - A)) by ring. eapply Rle_trans; [apply Rabs_triang|]. lra. }
  assert (Fo : forall e0 b1 b2 E0 C1 C2 v1 v2 V1 V2, Rabs E0 <= M -> Rabs C1 <= M -> Rabs C2 <= M -> Rabs (e0 - E0) <= K' * u * M -> Rabs (b1 - C1) <= K' * u * M -> Rabs (b2 - C2) <= K' * u * M -> approx 12.4 v1 V1 -> approx 12.4 v2 V2 -> Rabs V1 <= 1 -> Rabs V2 <= 1 ->
    Rabs (lorentz2_f e0 v1 b1 v2 b2 - (E0 + V1 * C1 - V2 * C2)) <= (36 + 3 * K') * u * M /\ Rabs (E0 + V1 * C1 - V2 * C2) <= 3 * M).
  { intros e0 b1 b2 E0 C1 C2 v1 v2 V1 V2 H1 H2 H3 H4 H5 H6 H7 H8 H9 H10. split; [|apply force_size; try assumption; lra]. apply (force_fields M K' e0 b1 b2); try assumption; [lra|]. apply lorentz2_near; try assumption; (eapply Sz; cycle 1; [eassumption|eassumption]). }
  destruct (Fo (vx e) (vz b') (vy b') (vx E) (vz B) (vy B) wy wz (vy V) (vz V)) as [Fx Gx]; try assumption. destruct (Fo (vy e) (vx b') (vz b') (vy E) (vx B) (vz B) wz wx (vz V) (vx V)) as [Fy Gy]; try assumption. destruct (Fo (vz e) (vy b') (vx b') (vz E) (vy B) (vx B) wx wy (vx V) (vy V)) as [Fz Gz]; try assumption.
  assert (Py : is_double (vy p0)) by apply double_double. change (is_double (vx p0)) in Pr. change (is_double (vz p0)) in Pz.
  assert (Kx := kick_half d M K' (vx p0) _ sf _ _ Hd HM HK' HKu' Pr HS Hsf Gx Fx). assert (Ky := kick_half d M K' (vy p0) _ sf _ _ Hd HM HK' HKu' Py HS Hsf Gy Fy). assert (Kz := kick_half d M K' (vz p0) _ sf _ _ Hd HM HK' HKu' Pz HS Hsf Gz Fz).
  assert (Lx := kick_full d M K' (vx p0) _ sf _ _ Hd HM HK' HKu' Pr HS Hsf Gx Fx). assert (Ly := kick_full d M K' (vy p0) _ sf _ _ Hd HM HK' HKu' Py HS Hsf Gy Fy). assert (Lz := kick_full d M K' (vz p0) _ sf _ _ Hd HM HK' HKu' Pz HS Hsf Gz Fz).
  set (fx0 := lorentz2_f _ _ _ _ _) in Kx, Lx |- *. set (fy0 := lorentz2_f (vy e) _ _ _ _) in Ky, Ly |- *. set (fz0 := lorentz2_f (vz e) _ _ _ _) in Kz, Lz |- *.
  set (hx := double (vx p0 + double (sf * fx0))) in *. set (hy := double (vy p0 + double (sf * fy0))) in *. set (hz := double (vz p0 + double (sf * fz0))) in *.
  set (p1 := plus p0 (times d (force s E B V))). set (H := mean p0 p1).
  assert (HE : H = (vx p0 + s * d / 2 * (vx E + vy V * vz B - vz V * vy B), vy p0 + s * d / 2 * (vy E + vz V * vx B - vx V * vz B), vz p0 + s * d / 2 * (vz E + vx V * vy B - vy V * vx B))).
  { unfold H, p1, mean, plus, times, force, plus, vcross, times, plus. unfold vx, vy, vz. cbn [fst snd]. f_equal; [f_equal|]; field. }
  assert (Hh : forall c, In c [vx; vy; vz] -> Rabs (c (hx, hy, hz) - c H) <= u * Rabs (c H) + (25 + 2 * K') * (d * M) * u).
  { rewrite HE. intros c [<-|[<-|[<-|[]]]]; cbn [vx vy vz fst snd]; [eapply Rle_trans; [exact Kx|lra]|eapply Rle_trans; [exact Ky|lra]|eapply Rle_trans; [exact Kz|lra]]. }
  assert (DM : 0 < d * M) by (apply Rmult_lt_0_compat; lra). assert (C0 : 0 <= (25 + 2 * K') * (d * M)) by (apply Rmult_le_pos; lra). assert (Dr2 := drift2 d qm (hx, hy, hz) H _ Hd Hq C0 (double_double _) (double_double _) (double_double _) Hh). cbn zeta in Dr2. change (vx (hx, hy, hz)) with hx in Dr2. change (vy (hx, hy, hz)) with hy in Dr2. change (vz (hx, hy, hz)) with hz in Dr2.
  set (g' := gam2_f qm hx hy hz) in *. destruct (energy_pos qm H Nq) as [PG _]. set (G := energy qm H) in *.
  set (L := 4 * ((25 + 2 * K') * (d * M) / G)) in *. assert (DG : 0 < d * M / G) by (apply Rdiv_lt_0_compat; lra). assert (LE : L = (100 + 8 * K') * (d * M / G)) by (unfold L; field; lra). assert (KG : 0 <= K * (d * M / G)) by (apply Rmult_le_pos; lra). assert (L0 : 0 <= L) by (rewrite LE; unfold K'; lra).
  assert (UD : 0 < u * d) by (apply Rmult_lt_0_compat; lra). assert (LUD : 0 <= L * (u * d)) by (apply Rmult_le_pos; lra). assert (Fin : (17.4 + L) * (u * d) <= (20 + (128 + 9 * K) * (d * M / G)) * (u * d) - 0.1 * L * (u * d) - 2 * (u * d)). { assert (0 <= (28 + K) * (d * M / G) * (u * d)) by (apply Rmult_le_pos; [apply Rmult_le_pos|]; lra). assert (0 <= K * (d * M / G) * (u * d)) by (apply Rmult_le_pos; lra). assert (0 <= d * M / G * (u * d)) by (apply Rmult_le_pos; lra). rewrite LE. unfold K'. nra. }
  assert (LU : 1.0001 * ((17.4 + L) * (u * d)) <= (20 + (128 + 9 * K) * (d * M / G)) * (u * d)) by lra. assert (U1 : (1 + u) * ((17.4 + L) * (u * d)) <= 1.0001 * ((17.4 + L) * (u * d))) by (apply Rmult_le_compat_r; [rewrite Rmult_plus_distr_r|]; lra).
  set (W := velocity qm H). set (x1 := plus (place2 p) (shift d W)). set (Q := (128 + 9 * K) * (d * M / G)) in *.
  assert (P1E : p1 = (vx p0 + 2 * (s * d / 2) * (vx E + vy V * vz B - vz V * vy B), vy p0 + 2 * (s * d / 2) * (vy E + vz V * vx B - vx V * vz B), vz p0 + 2 * (s * d / 2) * (vz E + vx V * vy B - vy V * vx B))).
  { unfold p1, plus, times, force, plus, vcross, times, plus. unfold vx, vy, vz. cbn [fst snd]. f_equal; [f_equal|]; field. }
  assert (Mm : forall a A B0, Rabs (a - B0) <= (4 * Rabs A + (57 + 5 * K') * (d * M)) * u -> Rabs (a - B0) <= (4 * Rabs A + (67 + 5 * K) * (d * M)) * u) by (intros a A B0 Hm; eapply Rle_trans; [exact Hm|]; unfold K'; right; ring).
  assert (D3 : forall c, In c [vx; vy; vz] -> Rabs (double (double (d * c (hx, hy, hz)) / g') - d * c W) <= (17.4 + L) * (u * d)) by (intros c Hc; apply Dr2, Hc).
  intros c Hc. assert (Ha := Rabs_pos (c x1)). assert (UH : 0 <= u * Rabs (c x1)) by (apply Rmult_le_pos; lra). destruct Hc as [<-|[<-|[<-|[]]]]; (split; [rewrite P1E; apply Mm; assumption|]).
  - eapply Rle_trans; [apply (place_across (rad p) _ _ (d * vx W) ((17.4 + L) * (u * d)) Dr (double_double _)); [unfold x1, plus, shift, times, place2, plus, vx; cbn; fold vx; ring|apply (D3 vx); cbn; tauto]|]. lra.
  - eapply Rle_trans; [apply (place_across 0 _ _ (d * vy W) ((17.4 + L) * (u * d)) double_0 (double_double _)); [unfold x1, plus, shift, times, place2, plus, vy; cbn; ring|apply (D3 vy); cbn; tauto]|]. lra.
  - assert (V1 : Rabs (vz W) <= 1). { assert (K0 := unit_speed qm _ _ _ Hq (vz H) (norm_part H vz ltac:(cbn; tauto))). rewrite <- (vec_is H) in K0. replace (vz W) with (vz H / energy qm H) by (unfold W, velocity, times, vz, Rdiv; cbn; ring). exact K0. }
    assert (DV : Rabs (d * vz W) <= d) by (rewrite Rabs_mult, (Rabs_pos_eq d) by lra; assert (d * Rabs (vz W) <= d * 1) by (apply Rmult_le_compat_l; lra); lra).
    assert (UUH : u * (u * Rabs (vz x1)) <= / 1000000000000 * (u * Rabs (vz x1))) by (apply Rmult_le_compat_r; lra). assert (UUD : u * (u * d) <= / 1000000000000 * (u * d)) by (apply Rmult_le_compat_r; lra).
    eapply Rle_trans; [apply (place_along (xi p) _ d (d * vz W) (vz x1) ((17.4 + L) * (u * d)) Dz (double_double _) Dd Pd); [unfold x1, plus, shift, times, place2, plus, vz; cbn; lra|apply (D3 vz); cbn; tauto|exact DV]|]. lra.
Qed.

