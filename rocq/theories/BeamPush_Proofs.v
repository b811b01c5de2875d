(** Lemmas for C56. *)
From Coq Require Import Reals ZArith List Bool Lia Lra.
From Verif Require Import Beam2D_Model Beam2D_Spec Beam2D_Proofs Beam2D_Push Beam2D_Free Beam2D_Dep Shape_Model Shape_Spec Shape_Proofs
  Beam3D_Model Beam3D_Spec Beam3D_Proofs Beam3D_Run Beam3D_Upd BeamPush_Spec.
From Verif Require Plasma3D_Model Plasma3D_Spec Plasma3D_Push.
Import ListNotations.
Open Scope R_scope.

Lemma vec_eq (a b : vec) : vx a = vx b -> vy a = vy b -> vz a = vz b -> a = b.
Proof. destruct a as [[a1 a2] a3], b as [[b1 b2] b3]. unfold vx, vy, vz. cbn. congruence. Qed.

Lemma sumR_two (g : nat -> R) n j : (S j < n)%nat -> (forall k, k <> j -> k <> S j -> g k = 0) ->
  sumR (map g (seq 0 n)) = g j + g (S j).
Proof.
  intros Hj Hz. assert (A : forall l s, (forall k, (s <= k < s + l)%nat -> g k = 0) -> sumR (map g (seq s l)) = 0).
  { induction l as [|l IH]; intros s H; cbn; auto. rewrite H by lia. rewrite IH; [ring|]. intros. apply H. lia. }
  assert (sumR_app : forall a b, sumR (a ++ b) = sumR a + sumR b) by (induction a; intros; cbn; [ring|rewrite IHa; ring]).
  replace n with (j + (2 + (n - j - 2)))%nat by lia. rewrite seq_app, map_app, sumR_app, seq_app, map_app, sumR_app.
  rewrite A by (intros; apply Hz; lia). rewrite (A (n - j - 2)%nat) by (intros; apply Hz; lia). cbn. ring.
Qed.

Lemma between_spec h d xe fu fl r x : 0 < h -> length fl = length fu -> 0 <= r -> r < h * INR (length fu - 1) ->
  interpolate fu fl (particle_weights r x xe h d) = between h d xe fu fl r x.
Proof.
  intros Hh Hl Hr Hn. unfold particle_weights, interpolate, between. set (j := floorR (r / h)).
  assert (J0 : (0 <= j)%Z) by (apply floorR_nonneg; apply Rmult_le_pos; auto; left; now apply Rinv_0_lt_compat).
  destruct (floorR_spec (r / h)) as [A B]. fold j in A, B.
  assert (J1 : (S (Z.to_nat j) < length fu)%nat).
  { assert (r / h < INR (length fu - 1)). { apply (Rmult_lt_reg_r h); auto. unfold Rdiv. rewrite Rmult_assoc, Rinv_l by lra. lra. }
    rewrite INR_IZR_INZ in H. assert (IZR j < IZR (Z.of_nat (length fu - 1))) by lra. apply lt_IZR in H0. lia. }
  rewrite (sumR_two _ _ (Z.to_nat j) J1).
  2:{ intros k K1 K2. rewrite <- (hat_cell r h k Hh Hr). fold j. destruct (Z.eqb_spec (Z.of_nat k) j); [lia|]. destruct (Z.eqb_spec (Z.of_nat k) (j + 1)); [lia|]. ring. }
  rewrite <- !(hat_cell r h _ Hh Hr). fold j. rewrite Nat2Z.inj_succ, Z2Nat.id by auto.
  replace (Z.succ j) with (j + 1)%Z by lia. rewrite !Z.eqb_refl. destruct (Z.eqb_spec j (j + 1)); [lia|]. destruct (Z.eqb_spec (j + 1) j); [lia|].
  unfold at_. replace (Z.to_nat (j + 1)) with (S (Z.to_nat j)) by lia.
  replace (- (xe - x) / d) with ((x - xe) / d) by (unfold Rdiv; ring). ring.
Qed.

Lemma fields2_spec c n xe fk1 fk x : 0 < r_step c -> nodes n fk1 -> nodes n fk -> 
  let r := sqrt (vx x ^ 2 + vy x ^ 2) in r < r_step c * INR (n - 1) ->
  let eb := particle_fields x fk1 fk xe (r_step c) (xi_step c) in
  fst eb = e_on c xe fk fk1 r (vz x) /\
  (vx (snd eb), vy (snd eb), vz (snd eb) + magnetic_field c) = b_on c xe fk fk1 r (vz x).
Proof.
  intros Hh (A1 & A2 & A3 & A4 & A5) (B1 & B2 & B3 & B4 & B5) r Hr. cbn zeta. unfold particle_fields. fold r.
  assert (H0 : 0 <= r) by apply sqrt_pos.
  rewrite !between_spec by (auto; congruence). unfold e_on, b_on, vx, vy, vz. cbn [fst snd]. auto.
Qed.

Lemma rsgn_sign q : q <> 0 -> sign_of q (Rsgn q).
Proof. intros H. unfold sign_of, Rsgn. destruct (Rlt_dec 0 q); [left; auto|]. destruct (Rlt_dec q 0); [right; auto|lra]. Qed.
Lemma sign_unique q s t : sign_of q s -> sign_of q t -> s = t.
Proof. unfold sign_of. intros [[]|[]] [[]|[]]; lra. Qed.

(** The explicit substep of the 2D pusher and of the 3D CPU pusher. *)
Lemma substep_explicit c p d eb s : q_m p <> 0 -> sign_of (q_m p) s ->
  let E := fst eb in let B := (vx (snd eb), vy (snd eb), vz (snd eb) + magnetic_field c) in
  let p0 := momentum2 p in
  let p1 := plus p0 (times d (force s E B (velocity (q_m p) p0))) in
  substep c p d eb = (plus (place2 p) (shift d (velocity (q_m p) (mean p0 p1))), p1).
Proof.
  intros Hq Hs. pose proof (sign_unique _ _ _ Hs (rsgn_sign _ Hq)) as ->. intros E B p0 p1.
  unfold substep, beam_to_vec. cbn [fst snd].
  fold (momentum2 p). fold p0. fold E. fold B.
  change (vsq p0) with (norm2 p0). fold (energy (q_m p) p0).
  set (ph := vadd p0 _).
  assert (Eh : ph = mean p0 p1).
  { unfold p1, ph, velocity. generalize (/ energy (q_m p) p0). generalize (Rsgn (q_m p)) p0 E B. clear. intros s [[p1 p2] p3] [[e1 e2] e3] [[b1 b2] b3] g.
    apply vec_eq; unfold mean, plus, times, force, vadd, vscale, cross, vcross, times, plus, vx, vy, vz; cbn [fst snd]; field. }
  rewrite <- Eh. change (vsq ph) with (norm2 ph). fold (energy (q_m p) ph).
  f_equal.
  - unfold plus, shift, velocity, times, place2, vadd, vscale, plus, vx, vy, vz. cbn [fst snd]. apply vec_eq; unfold vx, vy, vz; cbn [fst snd]; unfold Rdiv; ring.
  - rewrite Eh. apply vec_eq; unfold mean, times, plus, vx, vy, vz; cbn [fst snd]; field.
Qed.

Lemma update_cpu_explicit p E B s : b_qm p <> 0 -> sign_of (b_qm p) s ->
  let p0 := p_of p in let p1 := plus p0 (times (b_dt p) (force s E B (velocity (b_qm p) p0))) in
  update_cpu p (E, B) = (p1, plus (place3 p) (shift (b_dt p) (velocity (b_qm p) (mean p0 p1)))).
Proof.
  intros Hq Hs. pose proof (sign_unique _ _ _ Hs (rsgn_sign _ Hq)) as ->. intros p0 p1.
  assert (G : forall a b c, gam (b_qm p) a b c = energy (b_qm p) (a, b, c)).
  { intros. unfold gam, energy, norm2, vx, vy, vz. cbn [fst snd]. f_equal. ring. }
  unfold update_cpu. rewrite !G. change (b_px p, b_py p, b_pz p) with p0. set (g := energy (b_qm p) p0) in *.
  set (hx := b_px p + _). set (hy := b_py p + _). set (hz := b_pz p + _).
  assert (Eh : (hx, hy, hz) = mean p0 p1).
  { unfold p1, hx, hy, hz, velocity, Rdiv. fold g. unfold p0, p_of. generalize (/ g) (Rsgn (b_qm p)) (b_px p) (b_py p) (b_pz p) E B. clear.
    intros g s x1 x2 x3 [[e1 e2] e3] [[b1 b2] b3]. apply vec_eq; unfold mean, plus, times, force, vcross, times, plus, vx, vy, vz; cbn [fst snd]; field. }
  rewrite Eh. f_equal.
  - assert (hx = vx (mean p0 p1) /\ hy = vy (mean p0 p1) /\ hz = vz (mean p0 p1)) as (-> & -> & ->) by (rewrite <- Eh; auto).
    unfold p0, p_of. apply vec_eq; unfold mean, times, plus, vx, vy, vz; cbn [fst snd]; field.
  - rewrite <- Eh. unfold shift, velocity. set (g2 := energy _ (hx, hy, hz)). unfold plus, times, place3, vx, vy, vz. cbn [fst snd]. apply vec_eq; unfold vx, vy, vz; cbn [fst snd]; unfold Rdiv; ring.
Qed.

(** The 3D GPU pusher: implicit in the magnetic field. *)
Lemma update_gpu_implicit p E B s : b_qm p <> 0 -> sign_of (b_qm p) s ->
  let p0 := p_of p in let p1 := fst (update_gpu p (E, B)) in
  snd (update_gpu p (E, B)) = plus (place3 p) (plus (shift (b_dt p / 2) (velocity (b_qm p) p0)) (shift (b_dt p / 2) (velocity (b_qm p) p1))) /\
  exists g, 0 < g /\ p1 = plus p0 (times (b_dt p) (force s E B (times (/ g) (mean p0 p1)))) /\
    (energy (b_qm p) (mean p0 p1) ^ 2 - g ^ 2) * (g ^ 2 + (b_dt p / 2) ^ 2 * norm2 B) = (b_dt p / 2) ^ 2 * norm2 B * ((1 / b_qm p) ^ 2 - 1).
Proof.
  intros Hq Hs. pose proof (sign_unique _ _ _ Hs (rsgn_sign _ Hq)) as ->. intros p0 p1.
  assert (G : forall a b c, gam (b_qm p) a b c = energy (b_qm p) (a, b, c)).
  { intros. unfold gam, energy, norm2, vx, vy, vz. cbn [fst snd]. f_equal. ring. }
  assert (S2 : Rsgn (b_qm p) ^ 2 = 1) by (destruct (rsgn_sign _ Hq) as [[_ ->]|[_ ->]]; ring).
  unfold p1. unfold update_gpu. set (s := Rsgn (b_qm p)) in *. cbn zeta.
  set (k := s * b_dt p / 2). set (pm := (b_px p + _, _, _)). set (bb := (k * vx B, k * vy B, k * vz B)).
  set (g := hc_gamma (b_qm p) pm bb). set (r := hc_rotate pm _).
  set (q := (vx r + k * vx E, vy r + k * vy E, vz r + k * vz E)). cbn [fst snd].
  split.
  - unfold half3. rewrite !G. change (vx q, vy q, vz q) with q. change (b_px p, b_py p, b_pz p) with p0. cbn [fst snd].
    unfold shift, velocity. generalize (energy (b_qm p) q) (energy (b_qm p) p0). intros g1 g2.
    unfold p0, p_of, place3. clearbody q. destruct q as [[q1 q2] q3].
    apply vec_eq; unfold plus, times, plus, vx, vy, vz; cbn [fst snd]; unfold Rdiv; ring.
  - destruct (hc_gamma_sq (b_qm p) pm bb Hq) as [Pg _]. fold g in Pg. exists g. split; [exact Pg|].
    destruct (hc_rotate_implicit pm (vx bb / g, vy bb / g, vz bb / g)) as (I1 & I2 & I3). fold r in I1, I2, I3.
    assert (Ep : pm = plus p0 (times k E)) by reflexivity.
    assert (Er : q = plus r (times k E)) by reflexivity.
    assert (Em : mean p0 q = mean pm r).
    { rewrite Ep, Er. clearbody r p0. destruct r as [[r1 r2] r3], p0 as [[a1 a2] a3], E as [[e1 e2] e3].
      apply vec_eq; unfold mean, plus, times, plus, vx, vy, vz; cbn [fst snd]; field. }
    split.
    + rewrite Em. assert (Ek : forall t, b_dt p * (s * t) = 2 * k * t) by (intros; unfold k; field).
      rewrite Er. revert I1 I2 I3. rewrite Ep. unfold bb. clearbody g r p0 k. clear Em Er Ep. intros I1 I2 I3.
      destruct r as [[r1 r2] r3], p0 as [[a1 a2] a3], E as [[e1 e2] e3], B as [[b1 b2] b3].
      revert I1 I2 I3. unfold force. unfold mean, vcross, plus, times, plus, vx, vy, vz. cbn [fst snd]. rewrite ?Ek. intros I1 I2 I3.
      apply vec_eq; unfold vx, vy, vz; cbn [fst snd].
      * transitivity (a1 + k * e1 + (r1 - (a1 + k * e1)) + k * e1); [ring|]. rewrite I1. field. lra.
      * transitivity (a2 + k * e2 + (r2 - (a2 + k * e2)) + k * e2); [ring|]. rewrite I2. field. lra.
      * transitivity (a3 + k * e3 + (r3 - (a3 + k * e3)) + k * e3); [ring|]. rewrite I3. field. lra.
    + pose proof (hc_gamma_defect (b_qm p) pm bb Hq) as D. cbn zeta in D. unfold mid_gamma2 in D. fold g in D. fold r in D.
      assert (Nb : norm2 bb = (b_dt p / 2) ^ 2 * norm2 B).
      { unfold norm2, bb, vx, vy, vz. cbn [fst snd]. unfold k. transitivity (s ^ 2 * (b_dt p / 2) ^ 2 * (fst (fst B) ^ 2 + snd (fst B) ^ 2 + snd B ^ 2)); [field|rewrite S2; ring]. }
      rewrite Nb in D. rewrite Em. rewrite <- D. f_equal. f_equal.
      unfold energy. rewrite <- Rsqr_pow2, Rsqr_sqrt.
      2:{ unfold norm2. match goal with |- 0 <= ?a ^ 2 + (?b ^ 2 + ?c ^ 2 + ?d ^ 2) => pose proof (pow2_ge_0 a); pose proof (pow2_ge_0 b); pose proof (pow2_ge_0 c); pose proof (pow2_ge_0 d) end. lra. }
      f_equal. f_equal. unfold mean, times, plus. apply vec_eq; unfold vx, vy, vz; cbn [fst snd]; field.
Qed.

(** Fields gathered by the 3D mover. *)
Lemma interp3_mixed n c idx x y z F F1 : c_n c = Z.of_nat n -> inside (c_n c) (c_h c) x -> inside (c_n c) (c_h c) y ->
  interp3 c (IZR idx * - c_dxi c) x y z F F1 = mixed n (c_h c) (c_dxi c) (layer_xi c idx) F F1 x y z.
Proof.
  intros Hn Hx Hy. rewrite Hn in Hx, Hy. unfold mixed, grid_value.
  assert (Eg : forall G : grid, gsum n (fun a b => G a b * shape (Z.of_nat n) (c_h c) x y a b) =
    gather (Z.of_nat n) (x / c_h c + 0.5) (y / c_h c + 0.5) (fun a b w => G a b * w)).
  { intros G. transitivity (Plasma3D_Spec.interpolate n (c_h c) (fun a b => G (Z.of_nat a) (Z.of_nat b)) x y).
    - unfold Plasma3D_Spec.interpolate, gsum. apply sumZ_ext. intros a Ha. apply sumZ_ext. intros b Hb. now rewrite !Z2Nat.id by lia.
    - rewrite <- Plasma3D_Push.gather_interpolate by auto. unfold Plasma3D_Model.gather_at. rewrite !gather_val by (intros; ring).
      pose proof (inside_cell _ (c_h c) x Hx) as Ix. pose proof (inside_cell _ (c_h c) y Hy) as Iy.
      unfold places. cbn [fold_right]. rewrite !Z2Nat.id by (first [apply Ix|apply Iy]; cbn; auto 10). ring. }
  rewrite !Eg. unfold interp3. rewrite Hn. rewrite !gather_val by (intros; ring). unfold layer_xi.
  replace (IZR idx * - c_dxi c) with (- (IZR idx * c_dxi c)) by ring.
  unfold places. cbn [fold_right]. unfold weight1. ring.
Qed.
Lemma fields3_spec n c idx fk fk1 (v : vec) : c_n c = Z.of_nat n -> inside (c_n c) (c_h c) (vx v) -> inside (c_n c) (c_h c) (vy v) ->
  fields_at c idx v fk fk1 = (e_on3 n c idx fk fk1 (vx v) (vy v) (vz v), b_on3 n c idx fk fk1 (vx v) (vy v) (vz v)).
Proof. intros Hn Hx Hy. destruct v as [[x y] z]. unfold vx, vy, vz in *. cbn [fst snd] in *. unfold fields_at, e_on3, b_on3. cbn [fst snd]. now rewrite !(interp3_mixed n) by auto. Qed.
Lemma half3_place p : half3 p = plus (place3 p) (shift (b_dt p / 2) (velocity (b_qm p) (p_of p))).
Proof.
  assert (G : forall a b c, gam (b_qm p) a b c = energy (b_qm p) (a, b, c)).
  { intros. unfold gam, energy, norm2, vx, vy, vz. cbn [fst snd]. f_equal. ring. }
  unfold half3. rewrite G. unfold shift, velocity. change (b_px p, b_py p, b_pz p) with (p_of p). generalize (energy (b_qm p) (p_of p)). intros g.
  unfold p_of, place3, plus, times, vx, vy, vz. cbn [fst snd]. apply vec_eq; unfold vx, vy, vz; cbn [fst snd]; unfold Rdiv; ring.
Qed.
