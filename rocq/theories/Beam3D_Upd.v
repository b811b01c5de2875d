(** Momentum updates, field lookup and deposition totals of the 3D beam. *)
From Coq Require Import Reals ZArith List Bool Permutation Sorting.Sorted Lra Lia Psatz.
From Verif Require Import Beam2D_Model Beam2D_Spec Beam2D_Proofs Beam2D_Push Beam2D_Dep Shape_Model Shape_Spec Shape_Proofs Beam3D_Model Beam3D_Spec Beam3D_Proofs Beam3D_Run.
Import ListNotations.
Open Scope R_scope.

(** ** Gathering *)
Lemma interp3_affine c idx x y z fk fk1 a0 a1 a2 b0 b1 b2 : c_h c <> 0 ->
  (forall a b, fk a b = a0 + a1 * coord c a + a2 * coord c b) ->
  (forall a b, fk1 a b = b0 + b1 * coord c a + b2 * coord c b) ->
  let s := (layer_xi c idx - z) / c_dxi c in
  interp3 c (IZR idx * - c_dxi c) x y z fk fk1 =
  - s * (a0 + a1 * x + a2 * y) + (1 + s) * (b0 + b1 * x + b2 * y).
Proof.
  intros Hh Hk Hk1 s. unfold interp3.
  replace ((z - IZR idx * - c_dxi c) / c_dxi c) with (- s) by (unfold s, layer_xi; unfold Rdiv; ring).
  set (k0 := - s * a0 + (1 + s) * b0). set (k1 := (- s * a1 + (1 + s) * b1) * c_h c). set (k2 := (- s * a2 + (1 + s) * b2) * c_h c).
  transitivity (gather (c_n c) (x / c_h c + 0.5) (y / c_h c + 0.5)
     (fun a b w => w * (k0 + k1 * IZR (a - c_n c / 2) + k2 * IZR (b - c_n c / 2)))).
  - unfold gather, places. cbn [fold_left]. rewrite !Hk, !Hk1. unfold weight1, coord, k0, k1, k2. ring.
  - rewrite gather_linear. unfold k0, k1, k2. field. auto.
Qed.

Lemma interp3_const c idx x y z fk fk1 v : c_h c <> 0 -> (forall a b, fk a b = v) -> (forall a b, fk1 a b = v) ->
  interp3 c (IZR idx * - c_dxi c) x y z fk fk1 = v.
Proof.
  intros Hh H1 H2. rewrite (interp3_affine c idx x y z fk fk1 v 0 0 v 0 0 Hh); [ring|..]; intros; rewrite ?H1, ?H2; ring.
Qed.

(** the values the mover gathers are finite sums of grid values: zero fields give zero *)
Lemma interp3_zero c xik x y z fk fk1 : (forall a b, fk a b = 0) -> (forall a b, fk1 a b = 0) -> interp3 c xik x y z fk fk1 = 0.
Proof. intros H1 H2. unfold interp3. apply gather_zero. intros. rewrite H1, H2. ring. Qed.

Lemma fields_no_electric c idx h fk fk1 : no_electric fk -> no_electric fk1 -> fst (fields_at c idx h fk fk1) = (0, 0, 0).
Proof.
  intros H1 H2. unfold fields_at. cbn [fst]. rewrite !interp3_zero; [reflexivity|..]; intros a b; first [apply H1 | apply H2].
Qed.
Lemma fields_no_magnetic c idx h fk fk1 : no_magnetic fk -> no_magnetic fk1 -> snd (fields_at c idx h fk fk1) = (0, 0, 0).
Proof.
  intros H1 H2. unfold fields_at. cbn [snd]. rewrite !interp3_zero; [reflexivity|..]; intros a b; first [apply H1 | apply H2].
Qed.

(** ** Momentum *)
Lemma hc_rotate_norm pm t : norm2 (hc_rotate pm t) = norm2 pm.
Proof.
  destruct pm as [[x y] z], t as [[a b] c]. unfold hc_rotate, norm2. cbn [vx vy vz fst snd].
  field. pose proof (pow2_ge_0 a). pose proof (pow2_ge_0 b). pose proof (pow2_ge_0 c). nra.
Qed.
Lemma hc_rotate_implicit pm t : let r := hc_rotate pm t in
  let s := (vx pm + vx r, vy pm + vy r, vz pm + vz r) in
  vx r - vx pm = vx (vcross s t) /\ vy r - vy pm = vy (vcross s t) /\ vz r - vz pm = vz (vcross s t).
Proof.
  destruct pm as [[x y] z], t as [[a b] c]. unfold hc_rotate, vcross. cbn [vx vy vz fst snd].
  assert (1 + a * a + b * b + c * c <> 0) by (pose proof (Rle_0_sqr a); pose proof (Rle_0_sqr b); pose proof (Rle_0_sqr c); unfold Rsqr in *; lra).
  repeat split; field; auto.
Qed.
(** midpoint of the rotation *)
Lemma hc_rotate_mid pm t : let r := hc_rotate pm t in
  norm2 ((vx pm + vx r) / 2, (vy pm + vy r) / 2, (vz pm + vz r) / 2) = (norm2 pm + dot t pm ^ 2) / (1 + norm2 t).
Proof.
  destruct pm as [[x y] z], t as [[a b] c]. unfold hc_rotate, norm2, dot. cbn [vx vy vz fst snd].
  assert (1 + a * a + b * b + c * c <> 0) by (pose proof (Rle_0_sqr a); pose proof (Rle_0_sqr b); pose proof (Rle_0_sqr c); unfold Rsqr in *; lra).
  field. intros E. apply H. rewrite <- E. ring.
Qed.

Lemma advance_gpu_energy c idx fk fk1 p : no_electric fk -> no_electric fk1 ->
  norm2 (p_of (advance GPU c idx fk fk1 p)) = norm2 (p_of p).
Proof.
  intros H1 H2. unfold advance. pose proof (fields_no_electric c idx (half3 p) fk fk1 H1 H2) as E.
  destruct (fields_at c idx (half3 p) fk fk1) as [e b]. cbn [fst] in E. subst e. cbn [update]. unfold update_gpu.
  cbn [vx vy vz fst snd]. replace (Rsgn (b_qm p) * b_dt p / 2 * 0) with 0 by ring. rewrite !Rplus_0_r.
  set (r := hc_rotate _ _). unfold p_of at 1. cbn [b_px b_py b_pz].
  replace (norm2 (vx r, vy r, vz r)) with (norm2 r) by reflexivity. apply hc_rotate_norm.
Qed.

Lemma advance_cpu_energy c idx fk fk1 p : no_electric fk -> no_electric fk1 -> b_qm p <> 0 ->
  let b := snd (fields_at c idx (half3 p) fk fk1) in
  let v := (b_px p / gam3 p, b_py p / gam3 p, b_pz p / gam3 p) in
  norm2 (p_of (advance CPU c idx fk fk1 p)) = norm2 (p_of p) + (b_dt p) ^ 2 * norm2 (vcross v b).
Proof.
  intros H1 H2 Hq. unfold advance. pose proof (fields_no_electric c idx (half3 p) fk fk1 H1 H2) as E.
  destruct (fields_at c idx (half3 p) fk fk1) as [e b]. cbn [fst] in E. subst e. cbn [update snd]. unfold update_cpu, p_of, norm2, vcross.
  cbn [vx vy vz fst snd b_px b_py b_pz].
  change (gam (b_qm p) (b_px p) (b_py p) (b_pz p)) with (gam3 p).
  assert (G : gam3 p <> 0).
  { pose proof (gam_gt (b_qm p) (b_px p) (b_py p) (b_pz p) Hq) as G. pose proof (Rabs_pos (b_pz p)). change (gam (b_qm p) (b_px p) (b_py p) (b_pz p)) with (gam3 p) in G. lra. }
  assert (S : Rsgn (b_qm p) ^ 2 = 1).
  { unfold Rsgn. destruct (Rlt_dec _ _); [ring|]. destruct (Rlt_dec _ _); [ring|lra]. }
  set (s := Rsgn (b_qm p)) in *. clearbody s.
  transitivity (b_px p ^ 2 + b_py p ^ 2 + b_pz p ^ 2 + s ^ 2 * b_dt p ^ 2 *
    ((b_py p / gam3 p * snd b - b_pz p / gam3 p * snd (fst b)) ^ 2 + (b_pz p / gam3 p * fst (fst b) - b_px p / gam3 p * snd b) ^ 2 +
      (b_px p / gam3 p * snd (fst b) - b_py p / gam3 p * fst (fst b)) ^ 2)).
  - unfold vx, vy, vz. field. auto.
  - rewrite S. unfold vx, vy, vz. ring.
Qed.

(** uniform electric field *)
Lemma advance_uniform u c idx fk fk1 p e : c_h c <> 0 -> no_magnetic fk -> no_magnetic fk1 ->
  (forall a b, Ex fk a b = vx e /\ Ey fk a b = vy e /\ Ez fk a b = vz e) ->
  (forall a b, Ex fk1 a b = vx e /\ Ey fk1 a b = vy e /\ Ez fk1 a b = vz e) ->
  let q := advance u c idx fk fk1 p in let s := Rsgn (b_qm p) in
  b_px q = b_px p + s * b_dt p * vx e /\ b_py q = b_py p + s * b_dt p * vy e /\ b_pz q = b_pz p + s * b_dt p * vz e.
Proof.
  intros Hh M1 M2 E1 E2 q s. unfold q, advance. pose proof (fields_no_magnetic c idx (half3 p) fk fk1 M1 M2) as Eb.
  assert (Ee : fst (fields_at c idx (half3 p) fk fk1) = e).
  { unfold fields_at. cbn [fst]. destruct e as [[ex ey] ez]. cbn [vx vy vz fst snd] in *.
    rewrite (interp3_const c idx _ _ _ (Ex fk) (Ex fk1) ex Hh), (interp3_const c idx _ _ _ (Ey fk) (Ey fk1) ey Hh),
      (interp3_const c idx _ _ _ (Ez fk) (Ez fk1) ez Hh); auto; intros a b; try apply E1; apply E2. }
  destruct (fields_at c idx (half3 p) fk fk1) as [e' b']. cbn [fst snd] in *. subst e' b'.
  destruct u; cbn [update].
  - unfold update_cpu. cbn [vx vy vz fst snd b_px b_py b_pz]. fold s. repeat split; unfold vx, vy, vz; cbn [fst snd]; unfold Rdiv; lra.
  - unfold update_gpu. fold s. cbn [b_px b_py b_pz].
    assert (Z : vx (0, 0, 0) = 0 /\ vy (0, 0, 0) = 0 /\ vz (0, 0, 0) = 0) by auto. destruct Z as (-> & -> & ->).
    replace (s * b_dt p / 2 * 0) with 0 by ring. set (G := hc_gamma _ _ _). 
    change (vx (0,0,0)) with 0. change (vy (0,0,0)) with 0. change (vz (0,0,0)) with 0.
    replace (0 / G) with 0 by (unfold Rdiv; ring). rewrite hc_rotate_zero. cbn [vx vy vz fst snd]. repeat split; unfold vx, vy, vz; lra.
Qed.

(** ** The Higuera-Cary factor *)
Lemma hc_gamma_sq qm pm b : qm <> 0 ->
  let g2 := gam qm (vx pm) (vy pm) (vz pm) ^ 2 in
  0 < hc_gamma qm pm b /\
  (hc_gamma qm pm b ^ 2) ^ 2 = (g2 - norm2 b) * hc_gamma qm pm b ^ 2 + norm2 b + dot b pm ^ 2.
Proof.
  intros Hq g2. unfold hc_gamma.
  set (g := gam qm (vx pm) (vy pm) (vz pm)) in *. replace (g * g) with g2 by (unfold g2; ring).
  replace (vx b * vx b + vy b * vy b + vz b * vz b) with (norm2 b) by (unfold norm2; ring).
  replace (4 * (vx b * vx pm + vy b * vy pm + vz b * vz pm) * (vx b * vx pm + vy b * vy pm + vz b * vz pm)) with (4 * dot b pm ^ 2) by (unfold dot; ring).
  set (X := g2 - norm2 b).
  assert (Hb : 0 <= norm2 b) by (unfold norm2; pose proof (pow2_ge_0 (vx b)); pose proof (pow2_ge_0 (vy b)); pose proof (pow2_ge_0 (vz b)); lra).
  assert (Hd : 0 <= dot b pm ^ 2) by apply pow2_ge_0.
  assert (Hg : 0 < g2).
  { unfold g2. apply pow2_gt_0. unfold g. pose proof (gam_gt qm (vx pm) (vy pm) (vz pm) Hq). pose proof (Rabs_pos (vz pm)). lra. }
  set (Y := X * X + 4 * norm2 b + 4 * dot b pm ^ 2).
  assert (HY : 0 <= Y) by (unfold Y; nra).
  assert (HS : 0 < X + sqrt Y).
  { destruct (Rlt_dec 0 X) as [H|H]; [pose proof (sqrt_pos Y); lra|].
    assert (Hn : 0 < norm2 b) by (unfold X in H; lra).
    assert (sqrt (X * X) < sqrt Y). { apply sqrt_lt_1; unfold Y; nra. }
    replace (X * X) with ((- X) * (- X)) in H0 by ring. rewrite sqrt_square in H0 by lra. lra. }
  replace (X * X + 4 * norm2 b + 4 * dot b pm * dot b pm) with Y by (unfold Y; ring).
  assert (E : sqrt ((X + sqrt Y) / 2) ^ 2 = (X + sqrt Y) / 2).
  { rewrite <- Rsqr_pow2. apply Rsqr_sqrt. lra. }
  split; [apply sqrt_lt_R0; lra|]. rewrite E.
  pose proof (sqrt_sqrt Y HY) as E2. replace (((X + sqrt Y) / 2) ^ 2) with ((X * X + 2 * X * sqrt Y + sqrt Y * sqrt Y) / 4) by field.
  rewrite E2. unfold Y. field.
Qed.

Definition mid_gamma2 (qm : R) (pm b : vec) : R :=
  let g := hc_gamma qm pm b in
  let r := hc_rotate pm (vx b / g, vy b / g, vz b / g) in
  (1 / qm) ^ 2 + norm2 ((vx pm + vx r) / 2, (vy pm + vy r) / 2, (vz pm + vz r) / 2).

(** how far the factor used is from the one of the midpoint *)
Lemma hc_gamma_defect qm pm b : qm <> 0 ->
  (mid_gamma2 qm pm b - hc_gamma qm pm b ^ 2) * (hc_gamma qm pm b ^ 2 + norm2 b) = norm2 b * ((1 / qm) ^ 2 - 1).
Proof.
  intros Hq. unfold mid_gamma2. rewrite hc_rotate_mid. destruct (hc_gamma_sq qm pm b Hq) as [Hp He].
  set (G := hc_gamma qm pm b) in *. 
  assert (N : norm2 (vx b / G, vy b / G, vz b / G) = norm2 b / G ^ 2) by (unfold norm2; cbn [vx vy vz fst snd]; unfold vx, vy, vz; field; lra).
  assert (D : dot (vx b / G, vy b / G, vz b / G) pm = dot b pm / G) by (unfold dot; cbn [vx vy vz fst snd]; unfold vx, vy, vz; field; lra).
  rewrite N, D.
  assert (Hb : 0 <= norm2 b) by (unfold norm2; pose proof (pow2_ge_0 (vx b)); pose proof (pow2_ge_0 (vy b)); pose proof (pow2_ge_0 (vz b)); lra).
  assert (Eg : gam qm (vx pm) (vy pm) (vz pm) ^ 2 = (1 / qm) ^ 2 + norm2 pm).
  { unfold gam. rewrite <- Rsqr_pow2, Rsqr_sqrt; [unfold norm2; ring|].
    pose proof (pow2_ge_0 (1 / qm)). pose proof (pow2_ge_0 (vx pm)). pose proof (pow2_ge_0 (vy pm)). pose proof (pow2_ge_0 (vz pm)). lra. }
  rewrite Eg in He. assert (0 < G ^ 2) by (apply pow2_gt_0; lra).
  transitivity ((1 / qm) ^ 2 * (G ^ 2 + norm2 b) + (norm2 pm * G ^ 2 + dot b pm ^ 2) - G ^ 2 * (G ^ 2 + norm2 b)).
  - field. repeat split; nra.
  - nra.
Qed.

(** ** Deposition totals *)
Lemma layouts_charge N h dxi : 0 < h -> forall ls rho_l i rs e, layouts (Z.of_nat N) h dxi rho_l ls i = (rs, e) ->
  (forall l p, In l ls -> In p l -> on_grid3 (Z.of_nat N) h p) ->
  h ^ 2 * sumR (map (gsum N) rs) + gsum N e = gsum N rho_l + total_charge3 (concat ls).
Proof.
  intros Hh. induction ls as [|l ls IH]; intros rho_l i rs e E Hg.
  - cbn in E. injection E as <- <-. cbn. unfold total_charge3. cbn. lra.
  - cbn [layouts] in E. destruct (layout3 _ _ _ _ _ _) as [rho next] eqn:E1. destruct (layouts _ _ _ next ls (i + 1)) as [r e'] eqn:E2.
    injection E as <- <-. specialize (IH _ _ _ _ E2 (fun l' p H1 H2 => Hg l' p (or_intror H1) H2)).
    pose proof (layout3_charge N h dxi rho_l l i rho next Hh E1 (fun p Hp => Hg l p (or_introl eq_refl) Hp)) as C.
    cbn [map sumR concat]. unfold total_charge3 in *. rewrite map_app.
    assert (A : forall a b, sumR (a ++ b) = sumR a + sumR b) by (induction a as [|x a IHa]; intros b; cbn; [lra|rewrite IHa; lra]).
    rewrite A. lra.
Qed.

(** ** Range of the lookup *)
Lemma lookup3_in_range c x y : 0 < c_h c -> c_h c <= 0.4 -> (50 <= c_n c)%Z ->
  x ^ 2 + y ^ 2 < lost_radius c ^ 2 -> inside (c_n c) (c_h c) x /\ inside (c_n c) (c_h c) y.
Proof.
  intros Hh Hh2 Hn Hr. set (N := IZR (c_n c)). assert (HN : 50 <= N) by (apply IZR_le in Hn; exact Hn).
  assert (L : 0 < lost_radius c <= c_h c * (N / 2 - 2.5)).
  { unfold lost_radius. fold N. split.
    - apply Rlt_le_trans with (0.9 * (c_h c * N / 2)); [nra|apply Rmax_l].
    - apply Rmax_lub; nra. }
  assert (B : forall z, z ^ 2 <= x ^ 2 + y ^ 2 -> - (N / 2 - 2.5) < z / c_h c < N / 2 - 2.5).
  { intros z Hz. assert (Rabs z < c_h c * (N / 2 - 2.5)).
    { apply Rlt_le_trans with (lost_radius c); [|apply L]. rewrite <- (Rabs_pos_eq (lost_radius c)) by lra.
      apply Rsqr_lt_abs_0. rewrite !Rsqr_pow2. lra. }
    apply Rabs_def2 in H. split.
    - apply Rmult_lt_reg_r with (c_h c); auto. unfold Rdiv at 2. rewrite Rmult_assoc, Rinv_l by lra. lra.
    - apply Rmult_lt_reg_r with (c_h c); auto. unfold Rdiv at 1. rewrite Rmult_assoc, Rinv_l by lra. lra. }
  assert (D : N / 2 - 1/2 <= IZR (c_n c / 2) <= N / 2).
  { pose proof (Z.div_mod (c_n c) 2 ltac:(lia)) as E. pose proof (Z.mod_pos_bound (c_n c) 2 ltac:(lia)).
    assert (E' : N = 2 * IZR (c_n c / 2) + IZR (c_n c mod 2)) by (unfold N; rewrite <- mult_IZR, <- plus_IZR; f_equal; exact E).
    assert (0 <= IZR (c_n c mod 2) <= 1) by (split; apply IZR_le; lia). lra. }
  pose proof (pow2_ge_0 x). pose proof (pow2_ge_0 y).
  specialize (B x ltac:(lra)) as Bx. specialize (B y ltac:(lra)) as By.
  unfold inside. rewrite !minus_IZR. fold N. repeat split; lra.
Qed.
