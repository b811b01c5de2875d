(** Theorems C78: one substep of a 3D beam particle in binary64. *)
From Coq Require Import Reals ZArith List Bool Lra Lia Psatz.
From Flocq Require Import Core.
From Verif Require Import Float_Model Float_Proofs Beam2D_Model Beam2D_Spec Beam2D_Free Beam3D_Model Beam3D_Spec Shape_Model Shape_Spec Shape_Proofs Rounded3D_Model RoundedBeam_Spec RoundedBeam_Model BeamPush_Spec Props_RoundedBeam RoundedSum_Proofs RoundedWeight_Proofs RoundedDep_Model RoundedDep_Spec RoundedDep_Proofs RoundedPlasma_Proofs Props_RoundedDep RoundedCell_Proofs Props_RoundedCell RoundedField_Model RoundedField_Proofs Props_RoundedField Props_RoundedField2 Props_RoundedField4 RoundedPush_Model RoundedPush_Spec RoundedPush_Proofs.
Import ListNotations.
Open Scope R_scope.

Lemma sign_is qm s : sign_of qm s -> Rsgn qm = s /\ Rabs s = 1 /\ qm <> 0.
Proof. unfold sign_of, Rsgn. intros [[A ->]|[A ->]]; [destruct (Rlt_dec 0 qm); [|lra]|destruct (Rlt_dec 0 qm); [lra|]; destruct (Rlt_dec qm 0); [|lra]]; (split; [reflexivity|]; split; [unfold Rabs; destruct (Rcase_abs _); lra|lra]). Qed.
Lemma norm_part v c : In c [vx; vy; vz] -> c v ^ 2 <= vx v ^ 2 + vy v ^ 2 + vz v ^ 2.
Proof. assert (0 <= vx v ^ 2) by nra. assert (0 <= vy v ^ 2) by nra. assert (0 <= vz v ^ 2) by nra. intros [<-|[<-|[<-|[]]]]; lra. Qed.
Lemma vec_is (v : vec) : v = (vx v, vy v, vz v). Proof. destruct v as [[a b] c]. reflexivity. Qed.
Lemma speed3 qm p c : ordinary_ratio qm -> In c [vx; vy; vz] -> approx 12.4 (double (c p / gam_f qm (vx p) (vy p) (vz p))) (c (velocity qm p)) /\ Rabs (c (velocity qm p)) <= 1.
Proof.
  intros Hq Hc. rewrite gam_is. assert (N := norm_part p c Hc). assert (A := speed qm _ _ _ Hq (c p) N). assert (B := unit_speed qm _ _ _ Hq (c p) N). rewrite <- (vec_is p) in *.
  assert (E : c (velocity qm p) = c p / energy qm p) by (unfold velocity, times, Rdiv; destruct Hc as [<-|[<-|[<-|[]]]]; cbn; ring). rewrite E. split; assumption.
Qed.

(** The place in the middle of the substep: the rounding of the result, and a few roundings of the substep's length. *)
Theorem C78_3d_half_step : forall p, ordinary_ratio (b_qm p) -> ordinary_step (b_dt p) -> stored3 p ->
  let half := plus (place3 p) (shift (b_dt p / 2) (velocity (b_qm p) (p_of p))) in
  let '(hx, hy, hz) := half3_f p in
  Rabs (hx - vx half) <= (Rabs (vx half) + 8 * b_dt p) * rounding /\ Rabs (hy - vy half) <= (Rabs (vy half) + 8 * b_dt p) * rounding /\ Rabs (hz - vz half) <= (Rabs (vz half) + 10 * b_dt p) * rounding.
Proof.
  intros p Hq Hd (Dx & Dy & Dz & _) half. unfold half3_f. assert (U := u_pos). assert (T := u_tiny). assert (P := step_pos _ Hd). assert (UD : 0 <= u * b_dt p) by (apply Rmult_le_pos; lra). change rounding with u.
  set (v := velocity (b_qm p) (p_of p)). set (d := b_dt p) in *. assert (Hk := half_step d Hd).
  destruct (speed3 (b_qm p) (p_of p) vx Hq ltac:(cbn; tauto)) as [Ax Bx]. destruct (speed3 (b_qm p) (p_of p) vy Hq ltac:(cbn; tauto)) as [Ay By]. destruct (speed3 (b_qm p) (p_of p) vz Hq ltac:(cbn; tauto)) as [Az Bz]. fold v in Ax, Bx, Ay, By, Az, Bz.
  change (vx (p_of p)) with (b_px p) in *. change (vy (p_of p)) with (b_py p) in *. change (vz (p_of p)) with (b_pz p) in *. set (g := gam_f _ _ _ _) in *.
  assert (UU : u * (u * d) <= 0.001 * (u * d)) by (apply Rmult_le_compat_r; lra).
  split; [|split].
  - assert (S := shift_near d _ _ _ 12.4 1 Hd ltac:(lra) ltac:(lra) Bx Ax Hk). assert (A := arrive (b_x p) _ (vx half) (d / 2 * vx v) _ Dx (double_double _) ltac:(unfold half, plus, shift, times, place3, vx; cbn; fold d; fold v; ring) S). eapply Rle_trans; [exact A|]. lra.
  - assert (S := shift_near d _ _ _ 12.4 1 Hd ltac:(lra) ltac:(lra) By Ay Hk). assert (A := arrive (b_y p) _ (vy half) (d / 2 * vy v) _ Dy (double_double _) ltac:(unfold half, plus, shift, times, place3, vy; cbn; fold d; fold v; ring) S). eapply Rle_trans; [exact A|]. lra.
  - assert (B1 : Rabs (vz v - 1) <= 2) by (apply Rabs_le_inv in Bz; apply Rabs_le; lra). assert (A1 : approx 14.41 (double (double (b_pz p / g) - 1)) (vz v - 1)). { rd 2; [replace 12.4 with (12.4 + 0) by lra; apply ap_sub; [exact Az|apply ap_refl]|lra|exact B1|lra]. }
    assert (S := shift_near d _ _ _ 14.41 2 Hd ltac:(lra) ltac:(lra) B1 A1 Hk). assert (A := arrive (b_xi p) _ (vz half) (d / 2 * (vz v - 1)) _ Dz (double_double _) ltac:(unfold half, plus, shift, times, place3, vz; cbn; fold d; fold v; lra) S). eapply Rle_trans; [exact A|]. lra.
Qed.

Lemma energy_pos qm p : qm <> 0 -> 0 < energy qm p /\ forall c, In c [vx; vy; vz] -> Rabs (c p) <= energy qm p.
Proof.
  intros Hq. assert (MP : 0 < (1 / qm) ^ 2) by (assert (1 / qm <> 0) by (unfold Rdiv; rewrite Rmult_1_l; now apply Rinv_neq_0_compat); nra).
  assert (N0 : 0 <= norm2 p) by (unfold norm2; nra). assert (P : 0 < energy qm p) by (apply sqrt_lt_R0; lra). assert (S : energy qm p * energy qm p = (1 / qm) ^ 2 + norm2 p) by (apply sqrt_sqrt; lra). split; [exact P|].
  intros c Hc. assert (N := norm_part p c Hc). unfold norm2 in S. apply Rabs_le. nra.
Qed.
(** the velocity of the rounded momentum *)
Lemma drift qm h H C : ordinary_ratio qm -> 0 <= C -> (forall c, In c [vx; vy; vz] -> Rabs (c h - c H) <= u * Rabs (c H) + C * u) ->
  forall c, In c [vx; vy; vz] -> let w := double (c h / gam_f qm (vx h) (vy h) (vz h)) in
  Rabs (w - c (velocity qm H)) <= (16.4 + 4 * (C / energy qm H)) * u /\ Rabs w <= 1.1.
Proof.
  intros Hq HC Hh c Hc w. assert (N := ratio_ne _ Hq). destruct (energy_pos qm H N) as [PG BG]. destruct (speed3 qm h c Hq Hc) as [A B]. fold w in A. assert (U := u_pos). assert (T := u_tiny). set (G := energy qm H) in *.
  assert (E : forall k, In k [vx; vy; vz] -> Rabs (k h - k H) <= u * G + C * u). { intros k Hk. eapply Rle_trans; [apply Hh, Hk|]. assert (u * Rabs (k H) <= u * G) by (apply Rmult_le_compat_l; [lra|now apply BG]). lra. }
  assert (L := speed_lip qm h H (c h) (c H) (u * G + C * u) N (norm_part h c Hc) (E c Hc) ltac:(assert (X := E vx ltac:(cbn; tauto)); assert (Y := E vy ltac:(cbn; tauto)); assert (Z := E vz ltac:(cbn; tauto)); lra)).
  assert (V : forall p, c (velocity qm p) = c p / energy qm p) by (intros p; unfold velocity, times, Rdiv; destruct Hc as [<-|[<-|[<-|[]]]]; cbn; ring). rewrite !V in *. fold G in L |- *.
  replace (4 * (u * G + C * u) / G) with (4 * u + 4 * (C / G) * u) in L by (field; lra). unfold approx in A. split.
  - replace (w - c H / G) with ((w - c h / energy qm h) + (c h / energy qm h - c H / G)) by ring. eapply Rle_trans; [apply Rabs_triang|]. lra.
  - replace w with ((w - c h / energy qm h) + c h / energy qm h) by ring. eapply Rle_trans; [apply Rabs_triang|]. lra.
Qed.
Lemma drift_place d w V L x X k : ordinary_step d -> is_double x -> x + d * V = X -> 0 <= L -> 0 <= k <= 3 -> Rabs (w - V) <= (18.6 + L) * u -> Rabs w <= k ->
  Rabs (double (x + double (d * w)) - X) <= (Rabs X + (19 + k + 1.1 * L) * d) * u.
Proof.
  intros Hd Hx HX HL Hk Hw Hs. assert (P := step_pos _ Hd). assert (U := u_pos). assert (T := u_tiny). assert (UD : 0 <= u * d) by (apply Rmult_le_pos; lra). assert (LD : 0 <= L * (u * d)) by (apply Rmult_le_pos; lra). assert (R := round_error (d * w)). assert (Et := eta_step _ Hd). rewrite Rabs_mult, (Rabs_pos_eq d) in R by lra.
  assert (u * (d * Rabs w) <= u * (d * k)) by (apply Rmult_le_compat_l; [lra|apply Rmult_le_compat_l; lra]).
  assert (D : Rabs (d * w - d * V) <= d * ((18.6 + L) * u)) by (rewrite <- Rmult_minus_distr_l, Rabs_mult, (Rabs_pos_eq d) by lra; apply Rmult_le_compat_l; lra).
  assert (N : Rabs (double (d * w) - d * V) <= (18.7 + k + L) * (u * d)). { replace (double (d * w) - d * V) with ((double (d * w) - d * w) + (d * w - d * V)) by ring. eapply Rle_trans; [apply Rabs_triang|]. lra. }
  assert (A := arrive x _ X (d * V) _ Hx (double_double _) HX N). eapply Rle_trans; [exact A|].
  assert (UU : u * (u * d) <= 0.001 * (u * d)) by (apply Rmult_le_compat_r; lra). assert (UL : u * (L * (u * d)) <= 0.001 * (L * (u * d))) by (apply Rmult_le_compat_r; lra). assert (Uk : k * (u * (u * d)) <= 3 * (0.001 * (u * d))) by (apply Rmult_le_compat; try lra; apply Rmult_le_pos; lra). lra.
Qed.

(** One substep in given fields: the exact substep of C56, to a few roundings.  The computed fields [e], [b] are allowed
    to be K roundings of M away from the true [E], [B]. *)
Theorem C78_3d_substep_in_fields : forall p s e b E B M K, ordinary_ratio (b_qm p) -> sign_of (b_qm p) s -> ordinary_step (b_dt p) -> stored3 p ->
  bpow radix2 (-500) <= M -> 0 <= K -> K * rounding <= / 10 ->
  (forall c, In c [vx; vy; vz] -> Rabs (c E) <= M /\ Rabs (c B) <= M /\ Rabs (c e - c E) <= K * rounding * M /\ Rabs (c b - c B) <= K * rounding * M) ->
  let d := b_dt p in let p0 := p_of p in
  let p1 := plus p0 (times d (force s E B (velocity (b_qm p) p0))) in
  let x1 := plus (place3 p) (shift d (velocity (b_qm p) (mean p0 p1))) in
  let '(q, x) := update_f p (e, b) in
  forall c, In c [vx; vy; vz] ->
    Rabs (c q - c p1) <= (4 * Rabs (c p0) + (57 + 5 * K) * (d * M)) * rounding /\
    Rabs (c x - c x1) <= (Rabs (c x1) + (22 + (110 + 9 * K) * (d * M / energy (b_qm p) (mean p0 p1))) * d) * rounding.
Proof.
  intros p s e b E B M K Hq Hs Hd (Dx & Dy & Dz & Px & Py & Pz) HM HK HKu HF. change rounding with u in *. cbv zeta. unfold update_f. set (d := b_dt p) in *. set (p0 := p_of p). set (qm := b_qm p) in *. set (V := velocity qm p0).
  destruct (sign_is _ _ Hs) as (Sg & S1 & Nq). rewrite Sg. assert (U := u_pos). assert (T := u_tiny). assert (Pd := step_pos _ Hd). assert (M0 : 0 < M) by (assert (B0 := bpow_gt_0 radix2 (-500)); lra).
  change (gam_f qm (b_px p) (b_py p) (b_pz p)) with (gam_f qm (vx p0) (vy p0) (vz p0)). set (g := gam_f _ _ _ _).
  change (vx (double (b_px p / g), double (b_py p / g), double (b_pz p / g))) with (double (vx p0 / g)). change (vy (double (b_px p / g), double (b_py p / g), double (b_pz p / g))) with (double (vy p0 / g)). change (vz (double (b_px p / g), double (b_py p / g), double (b_pz p / g))) with (double (vz p0 / g)).
  destruct (speed3 qm p0 vx Hq ltac:(cbn; tauto)) as [Ax Bx]. destruct (speed3 qm p0 vy Hq ltac:(cbn; tauto)) as [Ay By]. destruct (speed3 qm p0 vz Hq ltac:(cbn; tauto)) as [Az Bz]. fold V g in Ax, Bx, Ay, By, Az, Bz.
  set (wx := double (vx p0 / g)) in *. set (wy := double (vy p0 / g)) in *. set (wz := double (vz p0 / g)) in *.
  set (sf := double (double (s * d) / 2)).
  assert (HS : Rabs (s * d / 2) <= d / 2) by (unfold Rdiv; rewrite !Rabs_mult, S1, (Rabs_pos_eq d), (Rabs_pos_eq (/ 2)) by lra; lra).
  assert (Hsf : Rabs (sf - s * d / 2) <= 1.1 * u * d).
  { assert (A : approx 1.01 (double (s * d) * / d) s). { rds (/ d) 1; [replace (s * d * / d) with s by (field; lra); apply ap_refl|now apply step_scale|lra|lra|lra]. }
    assert (A2 : approx 1.02 (sf * / d) (s / 2)). { unfold sf. rds (/ d) (1/2); [replace (double (s * d) / 2 * / d) with (double (s * d) * / d / 2) by (field; lra); apply ap_div; [lra|exact A]|now apply step_scale|lra|unfold Rdiv; rewrite Rabs_mult, S1, Rabs_pos_eq; lra|lra]. }
    unfold approx in A2. replace (sf - s * d / 2) with ((sf * / d - s / 2) * d) by (field; lra). rewrite Rabs_mult, (Rabs_pos_eq d) by lra. apply Rmult_le_compat_r; lra. }
  destruct (HF vx ltac:(cbn; tauto)) as (Ex1 & Bx1 & Ex2 & Bx2). destruct (HF vy ltac:(cbn; tauto)) as (Ey1 & By1 & Ey2 & By2). destruct (HF vz ltac:(cbn; tauto)) as (Ez1 & Bz1 & Ez2 & Bz2).
  assert (HB : bpow radix2 (-510) <= 1.1 * M) by (apply Rle_trans with (bpow radix2 (-500)); [apply bpow_le; lia|lra]).
  assert (KM : K * u * M <= / 10 * M) by (apply Rmult_le_compat_r; lra).
  assert (Sz : forall a A, Rabs A <= M -> Rabs (a - A) <= K * u * M -> Rabs a <= 1.1 * M). { intros a A H1 H2. replace a with (A + (a - A)) by ring. eapply Rle_trans; [apply Rabs_triang|]. lra. }
  assert (Fo : forall e0 b1 b2 E0 C1 C2 v1 v2 V1 V2, Rabs E0 <= M -> Rabs C1 <= M -> Rabs C2 <= M -> Rabs (e0 - E0) <= K * u * M -> Rabs (b1 - C1) <= K * u * M -> Rabs (b2 - C2) <= K * u * M -> approx 12.4 v1 V1 -> approx 12.4 v2 V2 -> Rabs V1 <= 1 -> Rabs V2 <= 1 ->
    Rabs (lorentz_f e0 v1 b1 v2 b2 - (E0 + V1 * C1 - V2 * C2)) <= (36 + 3 * K) * u * M /\ Rabs (E0 + V1 * C1 - V2 * C2) <= 3 * M).
  { intros e0 b1 b2 E0 C1 C2 v1 v2 V1 V2 H1 H2 H3 H4 H5 H6 H7 H8 H9 H10. split; [|apply force_size; try assumption; lra]. apply (force_fields M K e0 b1 b2); try assumption; [lra|]. apply lorentz_near; try assumption; (eapply Sz; cycle 1; [eassumption|eassumption]). }
  destruct (Fo (vx e) (vz b) (vy b) (vx E) (vz B) (vy B) wy wz (vy V) (vz V)) as [Fx Gx]; try assumption. destruct (Fo (vy e) (vx b) (vz b) (vy E) (vx B) (vz B) wz wx (vz V) (vx V)) as [Fy Gy]; try assumption. destruct (Fo (vz e) (vy b) (vx b) (vz E) (vy B) (vx B) wx wy (vx V) (vy V)) as [Fz Gz]; try assumption.
  assert (Kx := kick_half d M K (b_px p) _ sf _ _ Hd HM HK HKu Px HS Hsf Gx Fx). assert (Ky := kick_half d M K (b_py p) _ sf _ _ Hd HM HK HKu Py HS Hsf Gy Fy). assert (Kz := kick_half d M K (b_pz p) _ sf _ _ Hd HM HK HKu Pz HS Hsf Gz Fz).
  assert (Lx := kick_full d M K (b_px p) _ sf _ _ Hd HM HK HKu Px HS Hsf Gx Fx). assert (Ly := kick_full d M K (b_py p) _ sf _ _ Hd HM HK HKu Py HS Hsf Gy Fy). assert (Lz := kick_full d M K (b_pz p) _ sf _ _ Hd HM HK HKu Pz HS Hsf Gz Fz).
  set (fx := lorentz_f _ _ _ _ _) in Kx, Lx |- *. set (fy := lorentz_f (vy e) _ _ _ _) in Ky, Ly |- *. set (fz := lorentz_f (vz e) _ _ _ _) in Kz, Lz |- *.
  set (hx := double (b_px p + double (sf * fx))) in *. set (hy := double (b_py p + double (sf * fy))) in *. set (hz := double (b_pz p + double (sf * fz))) in *.
  set (p1 := plus p0 (times d (force s E B V))). set (H := mean p0 p1).
  assert (HE : H = (b_px p + s * d / 2 * (vx E + vy V * vz B - vz V * vy B), b_py p + s * d / 2 * (vy E + vz V * vx B - vx V * vz B), b_pz p + s * d / 2 * (vz E + vx V * vy B - vy V * vx B))).
  { unfold H, p1, mean, plus, times, force, plus, vcross, p0, p_of, times, plus. cbn [vx vy vz fst snd]. f_equal; [f_equal|]; unfold vx, vy, vz; cbn [fst snd]; field. }
  assert (Hh : forall c, In c [vx; vy; vz] -> Rabs (c (hx, hy, hz) - c H) <= u * Rabs (c H) + (25 + 2 * K) * (d * M) * u).
  { rewrite HE. intros c [<-|[<-|[<-|[]]]]; cbn [vx vy vz fst snd]; [eapply Rle_trans; [exact Kx|lra]|eapply Rle_trans; [exact Ky|lra]|eapply Rle_trans; [exact Kz|lra]]. }
  assert (DM : 0 < d * M) by (apply Rmult_lt_0_compat; lra). assert (C0 : 0 <= (25 + 2 * K) * (d * M)) by (apply Rmult_le_pos; lra). assert (Dr := drift qm (hx, hy, hz) H _ Hq C0 Hh). cbn [vx vy vz fst snd] in Dr. change (vx (hx, hy, hz)) with hx in Dr. change (vy (hx, hy, hz)) with hy in Dr. change (vz (hx, hy, hz)) with hz in Dr.
  set (g' := gam_f qm hx hy hz) in *. destruct (energy_pos qm H Nq) as [PG _]. set (G := energy qm H) in *.
  set (L := 4 * ((25 + 2 * K) * (d * M) / G)) in *. assert (DG : 0 < d * M / G) by (apply Rdiv_lt_0_compat; lra). assert (LE : L = (100 + 8 * K) * (d * M / G)) by (unfold L; field; lra). assert (KG : 0 <= K * (d * M / G)) by (apply Rmult_le_pos; lra). assert (L0 : 0 <= L) by (rewrite LE; lra).
  assert (UD : 0 <= u * d) by (apply Rmult_le_pos; lra). assert (Fin : (19 + 3 + 1.1 * L) * d <= (22 + (110 + 9 * K) * (d * M / G)) * d) by (apply Rmult_le_compat_r; [lra|rewrite LE; lra]). assert (UL : 0 <= L * u) by (apply Rmult_le_pos; lra).
  assert (P1E : p1 = (b_px p + s * d * (vx E + vy V * vz B - vz V * vy B), b_py p + s * d * (vy E + vz V * vx B - vx V * vz B), b_pz p + s * d * (vz E + vx V * vy B - vy V * vx B))).
  { unfold p1, plus, times, force, plus, vcross, p0, p_of, times, plus. unfold vx, vy, vz. cbn [fst snd]. f_equal; [f_equal|]; ring. }
  set (W := velocity qm H) in *. set (x1 := plus (place3 p) (shift d W)).
  intros c [<-|[<-|[<-|[]]]]; (split; [|]).
  - assert (P1 : vx p1 = (b_px p + 2 * (s * d / 2) * (vx E + vy V * vz B - vz V * vy B))) by (rewrite P1E; unfold vx, vy, vz; cbn [fst snd]; field). rewrite <- P1 in Lx. exact Lx.
  - destruct (Dr vx ltac:(cbn; tauto)) as [D1 D2]. assert (A := drift_place d _ (vx W) L (b_x p) (vx x1) 3 Hd Dx ltac:(unfold x1, plus, shift, place3, times, vx; cbn; ring) L0 ltac:(lra) ltac:(eapply Rle_trans; [exact D1|lra]) ltac:(eapply Rle_trans; [exact D2|lra])). eapply Rle_trans; [exact A|]. apply Rmult_le_compat_r; lra.
  - assert (P1 : vy p1 = (b_py p + 2 * (s * d / 2) * (vy E + vz V * vx B - vx V * vz B))) by (rewrite P1E; unfold vx, vy, vz; cbn [fst snd]; field). rewrite <- P1 in Ly. exact Ly.
  - destruct (Dr vy ltac:(cbn; tauto)) as [D1 D2]. assert (A := drift_place d _ (vy W) L (b_y p) (vy x1) 3 Hd Dy ltac:(unfold x1, plus, shift, place3, times, vy; cbn; ring) L0 ltac:(lra) ltac:(eapply Rle_trans; [exact D1|lra]) ltac:(eapply Rle_trans; [exact D2|lra])). eapply Rle_trans; [exact A|]. apply Rmult_le_compat_r; lra.
  - assert (P1 : vz p1 = (b_pz p + 2 * (s * d / 2) * (vz E + vx V * vy B - vy V * vx B))) by (rewrite P1E; unfold vx, vy, vz; cbn [fst snd]; field). rewrite <- P1 in Lz. exact Lz.
  - destruct (Dr vz ltac:(cbn; tauto)) as [D1 D2]. change (vz (hx, hy, hz)) with hz in D1, D2. set (w := double (hz / g')) in *. assert (R := sum_error w (-1) (double_double _) ltac:(unfold is_double; replace (-1) with (- (1)) by lra; rewrite double_opp; f_equal; apply (double_bpow 0); lia)). replace (w + -1) with (w - 1) in R by ring.
    assert (B1 : Rabs (w - 1) <= 2.1) by (apply Rabs_le_inv in D2; apply Rabs_le; lra). assert (u * Rabs (w - 1) <= u * 2.1) by (apply Rmult_le_compat_l; lra).
    assert (D3 : Rabs (double (w - 1) - (vz W - 1)) <= (18.6 + L) * u). { replace (double (w - 1) - (vz W - 1)) with ((double (w - 1) - (w - 1)) + (w - vz W)) by ring. eapply Rle_trans; [apply Rabs_triang|]. lra. }
    assert (D4 : Rabs (double (w - 1)) <= 3). { replace (double (w - 1)) with ((double (w - 1) - (w - 1)) + (w - 1)) by ring. eapply Rle_trans; [apply Rabs_triang|]. lra. }
    assert (A := drift_place d _ (vz W - 1) L (b_xi p) (vz x1) 3 Hd Dz ltac:(unfold x1, plus, shift, place3, times, vz; cbn; ring) L0 ltac:(lra) D3 D4). eapply Rle_trans; [exact A|]. apply Rmult_le_compat_r; lra.
Qed.
