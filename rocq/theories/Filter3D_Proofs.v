(** Lemmas for C40 (noise filter) and C42 (dual plasma approach). *)
From Coq Require Import Reals ZArith List Bool Lra Lia Psatz.
From Verif Require Import Beam2D_Model Beam2D_Spec Beam2D_Free Plasma2D_Model Plasma2D_Ode Plasma2D_Dens Shape_Model Shape_Spec Shape_Proofs
  Plasma3D_Model Plasma3D_Spec Plasma3D_Move Spectral Plasma3D_Quiet.
Import ListNotations.
Open Scope R_scope.

(** ** Sums *)
Definition sum2 (K : nat) (a : arr2) : R := sumN K (fun i => sumN K (fun j => a i j)).
Lemma sum2_ext K a b : (forall i j, (i < K)%nat -> (j < K)%nat -> a i j = b i j) -> sum2 K a = sum2 K b.
Proof. intros H. apply sumN_ext. intros i Hi. apply sumN_ext. intros j Hj. auto. Qed.
Lemma sum2_plus K a b : sum2 K (fun i j => a i j + b i j) = sum2 K a + sum2 K b.
Proof. unfold sum2. rewrite <- sumN_plus. apply sumN_ext. intros. apply sumN_plus. Qed.
Lemma sum2_scal K c a : sum2 K (fun i j => c * a i j) = c * sum2 K a.
Proof. unfold sum2. rewrite <- sumN_scal. apply sumN_ext. intros. apply sumN_scal. Qed.
Lemma sum2_null K a : grid_null K a -> sum2 K a = 0.
Proof. intros H. unfold sum2. apply sumN_zero. intros i Hi. apply sumN_zero. intros j Hj. auto. Qed.
Lemma sum2_swap K a : sum2 K a = sum2 K (fun i j => a j i).
Proof. unfold sum2. apply sumN_swap. Qed.

(** ** The restoring force only moves momentum between neighbours *)
Lemma spread_sum K w : sumN K (spread1 K w) = 0.
Proof.
  destruct K as [|[|m]]; [reflexivity|unfold spread1; cbn; ring|]. set (K := S (S m)).
  set (T := sumN m (fun i => w (S i))).
  assert (A : sumN K (fun i => if ((1 <=? i) && (i <? K - 1))%nat then w i else 0) = T).
  { unfold K. rewrite sumN_shift, sumN_S. cbn [Nat.leb andb]. replace (S m <? S (S m) - 1)%nat with false by (symmetry; apply Nat.ltb_ge; lia).
    cbn [andb]. rewrite Rplus_0_l, Rplus_0_r. apply sumN_ext. intros i Hi. replace (S i <? S (S m) - 1)%nat with true by (symmetry; apply Nat.ltb_lt; lia). reflexivity. }
  assert (B : sumN K (fun i => if ((2 <=? i) && (i <? K))%nat then w (i - 1)%nat else 0) = T).
  { unfold K. rewrite sumN_shift, sumN_shift. cbn [Nat.leb andb]. rewrite !Rplus_0_l. apply sumN_ext. intros i Hi.
    replace (S (S i) <? S (S m))%nat with true by (symmetry; apply Nat.ltb_lt; lia). f_equal. }
  assert (C : sumN K (fun i => if (i <? K - 2)%nat then w (i + 1)%nat else 0) = T).
  { unfold K. rewrite !sumN_S. replace (S m <? S (S m) - 2)%nat with false by (symmetry; apply Nat.ltb_ge; lia).
    replace (m <? S (S m) - 2)%nat with false by (symmetry; apply Nat.ltb_ge; lia). rewrite !Rplus_0_r. apply sumN_ext. intros i Hi.
    replace (i <? S (S m) - 2)%nat with true by (symmetry; apply Nat.ltb_lt; lia). f_equal. lia. }
  rewrite (sumN_ext K _ (fun i => / 2 * (if ((1 <=? i) && (i <? K - 1))%nat then w i else 0) + (- / 4 * (if ((2 <=? i) && (i <? K))%nat then w (i - 1)%nat else 0)
     + - / 4 * (if (i <? K - 2)%nat then w (i + 1)%nat else 0)))).
  - rewrite !sumN_plus, !sumN_scal, A, B, C. field.
  - intros i _. unfold spread1. destruct (_ && _)%bool, (_ && _)%bool, (i <? K - 2)%nat; field.
Qed.
Lemma change_sum K X coef damp dmax c cp cx cy :
  sum2 K (momentum_change K X coef damp dmax c cp cx cy) = - (X * damp * sum2 K (fun i j => d_limit dmax (cx i j) (cy i j) * (c i j - cp i j))).
Proof.
  unfold momentum_change. set (w := fun i j => X * (- coef * c i j * d_limit dmax (cx i j) (cy i j))).
  rewrite (sum2_ext K _ (fun i j => (ax0 (spread1 K) w i j + ax1 (spread1 K) w i j) + - (X * damp) * (d_limit dmax (cx i j) (cy i j) * (c i j - cp i j)))) by (intros; ring).
  rewrite sum2_plus, sum2_plus, sum2_scal.
  assert (A : sum2 K (ax1 (spread1 K) w) = 0) by (unfold sum2, ax1; apply sumN_zero; intros; apply spread_sum).
  assert (B : sum2 K (ax0 (spread1 K) w) = 0) by (rewrite sum2_swap; unfold sum2, ax0; apply sumN_zero; intros; apply spread_sum).
  rewrite A, B. ring.
Qed.

(** ** Bounds *)
Lemma d_limit_range dmax cx cy : 0 < dmax -> 0 <= d_limit dmax cx cy <= 1.
Proof.
  intros H. unfold d_limit. assert (0 < dmax ^ 2) by (apply pow_lt; auto). destruct (Rlt_dec _ _) as [L|L]; [|lra].
  assert (0 <= (cx * cx + cy * cy) / dmax ^ 2) by (apply Rmult_le_pos; [nra|apply Rlt_le, Rinv_0_lt_compat; auto]).
  assert ((cx * cx + cy * cy) / dmax ^ 2 < 1) by (apply (Rmult_lt_reg_r (dmax ^ 2)); auto; unfold Rdiv; rewrite Rmult_assoc, Rinv_l by lra; lra). lra.
Qed.
Lemma d_limit_far dmax cx cy : 0 < dmax -> dmax <= sqrt (cx ^ 2 + cy ^ 2) -> d_limit dmax cx cy = 0.
Proof.
  intros H L. unfold d_limit. destruct (Rlt_dec _ _) as [A|A]; [|reflexivity]. exfalso.
  assert (B : dmax ^ 2 <= cx ^ 2 + cy ^ 2). { assert (0 <= cx ^ 2 + cy ^ 2) by nra. rewrite <- (pow2_sqrt (cx ^ 2 + cy ^ 2)) by auto. apply pow_incr; lra. } nra.
Qed.
Lemma d_limit_near dmax cx cy : d_limit dmax cx cy <> 0 -> cx * cx + cy * cy < dmax ^ 2.
Proof. unfold d_limit. destruct (Rlt_dec _ _) as [A|A]; [auto|now intros []]. Qed.
Lemma force_bound dmax cx cy : 0 < dmax -> Rabs (cx * d_limit dmax cx cy) <= dmax /\ Rabs (cy * d_limit dmax cx cy) <= dmax.
Proof.
  intros H. pose proof (d_limit_range dmax cx cy H) as R. destruct (Req_dec (d_limit dmax cx cy) 0) as [->|N]; [rewrite !Rmult_0_r, Rabs_R0; lra|].
  apply d_limit_near in N. assert (A : Rabs cx <= dmax). { apply Rsqr_incr_0_var; [|lra]. rewrite <- Rsqr_abs. unfold Rsqr. nra. }
  assert (B : Rabs cy <= dmax). { apply Rsqr_incr_0_var; [|lra]. rewrite <- Rsqr_abs. unfold Rsqr. nra. }
  rewrite !Rabs_mult, (Rabs_right (d_limit dmax cx cy)) by lra. pose proof (Rabs_pos cx). pose proof (Rabs_pos cy). split; nra.
Qed.
Lemma spread_bound K w M i : 0 <= M -> (forall k, Rabs (w k) <= M) -> Rabs (spread1 K w i) <= M.
Proof.
  intros HM H. unfold spread1. assert (A := H i). assert (B := H (i - 1)%nat). assert (C := H (i + 1)%nat). assert (RL : forall x y, Rabs x <= y -> - y <= x <= y) by (clear; intros x y Hx; revert Hx; unfold Rabs; destruct (Rcase_abs x); lra). apply RL in A, B, C.
  apply Rabs_le. destruct (_ && _)%bool, (_ && _)%bool, (i <? K - 2)%nat; lra.
Qed.
Lemma change_bound K X coef dmax c cp cx cy i j : 0 <= X -> 0 <= coef -> 0 < dmax -> (forall i j, c i j = cx i j) \/ (forall i j, c i j = cy i j) ->
  Rabs (momentum_change K X coef 0 dmax c cp cx cy i j) <= 2 * (X * coef * dmax).
Proof.
  intros HX Hc Hd Hcc. unfold momentum_change. set (w := fun i j => X * (- coef * c i j * d_limit dmax (cx i j) (cy i j))).
  assert (W : forall i j, Rabs (w i j) <= X * coef * dmax).
  { intros a b. unfold w. replace (X * (- coef * c a b * d_limit dmax (cx a b) (cy a b))) with (- (X * coef) * (c a b * d_limit dmax (cx a b) (cy a b))) by ring.
    destruct (force_bound dmax (cx a b) (cy a b) Hd) as [B1 B2]. rewrite Rabs_mult, Rabs_Ropp, (Rabs_right (X * coef)) by nra.
    apply Rmult_le_compat_l; [nra|]. destruct Hcc as [E|E]; rewrite E; auto. }
  assert (0 <= X * coef * dmax) by (apply Rmult_le_pos; [nra|lra]).
  assert (A := spread_bound K (fun k => w k j) _ i H (fun k => W k j)). assert (B := spread_bound K (fun k => w i k) _ j H (fun k => W i k)).
  unfold ax0, ax1. fold w. replace (X * 0 * _ * _) with 0 by ring. rewrite Rminus_0_r. eapply Rle_trans; [apply Rabs_triang|]. cbv beta in *. lra.
Qed.

(** ** The Gaussian average *)
Lemma cos_sum_period K k phi : (0 < k < K)%nat -> sumN K (fun i => cos (2 * PI * INR k / INR K * INR i + phi)) = 0.
Proof.
  intros Hk. set (t := 2 * PI * INR k / INR K). assert (HK : 0 < INR K) by (apply lt_0_INR; lia). assert (Hk' : 0 < INR k < INR K) by (split; [apply lt_0_INR|apply lt_INR]; lia).
  pose proof PI_RGT_0 as HP.
  assert (S : 0 < sin (t / 2)).
  { apply sin_gt_0; unfold t; replace (2 * PI * INR k / INR K / 2) with (PI * (INR k / INR K)) by (field; lra).
    - apply Rmult_lt_0_compat; [lra|]. apply Rdiv_lt_0_compat; lra.
    - rewrite <- (Rmult_1_r PI) at 2. apply Rmult_lt_compat_l; [lra|]. apply (Rmult_lt_reg_r (INR K)); [lra|]. unfold Rdiv. rewrite Rmult_assoc, Rinv_l by lra. lra. }
  assert (T : forall n, 2 * sin (t / 2) * sumN n (fun i => cos (t * INR i + phi)) = sin (t * (INR n - 1 / 2) + phi) - sin (t * (- 1 / 2) + phi)).
  { induction n as [|n IH]; [cbn [sumN INR]; replace (t * (0 - 1 / 2)) with (t * (- 1 / 2)) by field; ring|]. rewrite sumN_S, Rmult_plus_distr_l, IH, S_INR.
    replace (t * (INR n + 1 - 1 / 2) + phi) with ((t * INR n + phi) + t / 2) by field. replace (t * (INR n - 1 / 2) + phi) with ((t * INR n + phi) - t / 2) by field.
    rewrite (sin_plus _ (t / 2)), (sin_minus _ (t / 2)). ring. }
  specialize (T K). replace (t * (INR K - 1 / 2) + phi) with ((t * (- 1 / 2) + phi) + 2 * INR k * PI) in T by (unfold t; field; lra).
  rewrite sin_period in T. assert (E : 2 * sin (t / 2) * sumN K (fun i => cos (t * INR i + phi)) = 0) by lra.
  apply Rmult_integral in E. destruct E; lra.
Qed.
Lemma cos_sum_full K k phi : (k < K)%nat -> sumN K (fun i => cos (2 * PI * (INR k * INR i) / INR K + phi)) = if (k =? 0)%nat then INR K * cos phi else 0.
Proof.
  intros Hk. assert (HK : 0 < INR K) by (apply lt_0_INR; lia). destruct (Nat.eqb_spec k 0) as [->|].
  - rewrite (sumN_ext K _ (fun _ => cos phi)); [apply sumN_const|]. intros i _. f_equal. cbn [INR]. field. lra.
  - rewrite <- (cos_sum_period K k phi) by lia. apply sumN_ext. intros i _. f_equal. field. lra.
Qed.
Lemma gauss_ext K sigma a b : (forall i j, (i < K)%nat -> (j < K)%nat -> a i j = b i j) -> forall i j, gauss_average K sigma a i j = gauss_average K sigma b i j.
Proof.
  intros H i j. unfold gauss_average. f_equal. apply sumN_ext. intros k _. apply sumN_ext. intros l _. f_equal. apply sumN_ext. intros i' Hi. apply sumN_ext. intros j' Hj.
  now rewrite H.
Qed.
Lemma gauss_null K sigma a : grid_null K a -> grid_null K (gauss_average K sigma a).
Proof.
  intros H i j _ _. unfold gauss_average. rewrite sumN_zero; [unfold Rdiv; ring|]. intros k _. apply sumN_zero. intros l _. rewrite sumN_zero; [ring|].
  intros i' Hi. apply sumN_zero. intros j' Hj. rewrite H by auto. ring.
Qed.
Lemma weight00 K sigma : (0 < K)%nat -> gauss_weight K sigma 0 0 = 1.
Proof.
  intros H. unfold gauss_weight, signed_freq. replace (2 * 0 <? K + 1)%nat with true by (symmetry; apply Nat.ltb_lt; lia).
  cbn [INR]. replace (- 2 * PI ^ 2 * sigma ^ 2 * (0 ^ 2 + 0 ^ 2) / INR K ^ 2) with 0 by (unfold Rdiv; ring). apply exp_0.
Qed.
Lemma sum2_cos K k l a b : (k < K)%nat -> (l < K)%nat ->
  sum2 K (fun i j => cos (2 * PI * (INR k * (INR i - a) + INR l * (INR j - b)) / INR K)) = if ((k =? 0) && (l =? 0))%nat then INR K ^ 2 else 0.
Proof.
  intros Hk Hl. assert (HK : 0 < INR K) by (apply lt_0_INR; lia). unfold sum2.
  rewrite (sumN_ext K _ (fun i => if (l =? 0)%nat then INR K * cos (2 * PI * (INR k * INR i) / INR K + 2 * PI * (- INR k * a) / INR K) else 0)).
  - destruct (Nat.eqb_spec l 0) as [->|]; [|rewrite andb_false_r; apply sumN_zero; auto]. rewrite andb_true_r, sumN_scal, (cos_sum_full K k _ Hk).
    destruct (Nat.eqb_spec k 0) as [->|]; [|ring]. cbn [INR]. replace (2 * PI * (- 0 * a) / INR K) with 0 by (field; lra). rewrite cos_0. ring.
  - intros i _. rewrite (sumN_ext K _ (fun j => cos (2 * PI * (INR l * INR j) / INR K + 2 * PI * (INR k * (INR i - a) - INR l * b) / INR K)))
      by (intros j _; f_equal; field; lra).
    rewrite (cos_sum_full K l _ Hl). destruct (Nat.eqb_spec l 0) as [->|]; [|reflexivity]. f_equal. f_equal. cbn [INR]. field. lra.
Qed.
Lemma sumN_delta0 K f : (0 < K)%nat -> (forall k, (0 < k < K)%nat -> f k = 0) -> sumN K f = f 0%nat.
Proof. intros HK H. destruct K as [|K]; [lia|]. rewrite sumN_shift, sumN_zero; [ring|]. intros i Hi. apply H. lia. Qed.
(** the average keeps the sum *)
Lemma gauss_sum K sigma a : (0 < K)%nat -> sum2 K (gauss_average K sigma a) = sum2 K a.
Proof.
  intros HK. assert (HK' : 0 < INR K) by (apply lt_0_INR; lia).
  set (A := fun i j k l i' j' => a i' j' * cos (2 * PI * (INR k * (INR i - INR i') + INR l * (INR j - INR j')) / INR K)).
  assert (E : sum2 K (gauss_average K sigma a) =
    / INR K ^ 2 * sum2 K (fun k l => gauss_weight K sigma k l * sum2 K (fun i' j' => a i' j' * sum2 K (fun i j => cos (2 * PI * (INR k * (INR i - INR i') + INR l * (INR j - INR j')) / INR K))))).
  { unfold gauss_average. rewrite (sum2_ext K _ (fun i j => / INR K ^ 2 * sum2 K (fun k l => gauss_weight K sigma k l * sum2 K (fun i' j' => A i j k l i' j')))) by (intros; unfold sum2, A, Rdiv; ring).
    rewrite sum2_scal. f_equal.
    assert (SW : forall F : nat -> nat -> nat -> nat -> R, sum2 K (fun i j => sum2 K (fun k l => F i j k l)) = sum2 K (fun k l => sum2 K (fun i j => F i j k l))).
    { intros F. unfold sum2. 
      rewrite (sumN_ext K _ (fun i => sumN K (fun k => sumN K (fun j => sumN K (fun l => F i j k l))))) by (intros; apply sumN_swap).
      rewrite sumN_swap. apply sumN_ext. intros k _.
      rewrite (sumN_ext K _ (fun i => sumN K (fun l => sumN K (fun j => F i j k l)))) by (intros; apply sumN_swap).
      apply sumN_swap. }
    rewrite SW. apply sum2_ext. intros k l _ _. rewrite sum2_scal. f_equal. rewrite SW. apply sum2_ext. intros i' j' _ _. unfold A. apply sum2_scal. }
  rewrite E. clear E A.
  rewrite (sum2_ext K _ (fun k l => if ((k =? 0) && (l =? 0))%nat then INR K ^ 2 * sum2 K a else 0)).
  - unfold sum2 at 1. rewrite (sumN_delta0 K); auto.
    + rewrite (sumN_delta0 K); auto; [cbn [Nat.eqb andb]; field; lra|]. intros l Hl. cbn [Nat.eqb andb]. destruct (Nat.eqb_spec l 0); [lia|reflexivity].
    + intros k Hk. apply sumN_zero. intros l _. destruct (Nat.eqb_spec k 0); [lia|reflexivity].
  - intros k l Hk Hl. rewrite (sum2_ext K _ (fun i' j' => (if ((k =? 0) && (l =? 0))%nat then INR K ^ 2 else 0) * a i' j')) by (intros; rewrite sum2_cos by auto; ring).
    rewrite sum2_scal. destruct (Nat.eqb_spec k 0) as [->|]; [destruct (Nat.eqb_spec l 0) as [->|]|]; cbn [andb]; [rewrite weight00 by auto; ring|ring|ring].
Qed.

(** ** A linear displacement is no inhomogeneity *)
Lemma inhom1_linear K d c0 c1 j : (3 <= K)%nat -> (forall k, (k < K)%nat -> d k = c0 + c1 * INR k) -> (j < K)%nat -> inhomogeneity1 K d j = 0.
Proof.
  intros HK H Hj. unfold inhomogeneity1. destruct (Nat.eqb_spec j 0) as [->|].
  - destruct (_ && _)%bool; [|reflexivity]. rewrite !H by lia. cbn [INR]. ring.
  - destruct (Nat.eqb_spec j (K - 1)).
    + destruct (_ && _)%bool; [|reflexivity]. rewrite !H by lia. rewrite !minus_INR by lia. cbn [INR]. ring.
    + destruct (_ && _)%bool; [|reflexivity]. rewrite !H by lia. rewrite minus_INR, plus_INR by lia. cbn [INR]. field.
Qed.
Lemma inhom_linear K a c0 c1 c2 : (3 <= K)%nat -> (forall i j, (i < K)%nat -> (j < K)%nat -> a i j = c0 + c1 * INR i + c2 * INR j) -> grid_null K (inhomogeneity K a).
Proof.
  intros HK H i j Hi Hj. unfold inhomogeneity, ax1, ax0.
  rewrite (inhom1_linear K (fun j => a i j) (c0 + c1 * INR i) c2 j) by (auto; intros; rewrite H by auto; ring).
  rewrite (inhom1_linear K (fun i => a i j) (c0 + c2 * INR j) c1 i) by (auto; intros; rewrite H by auto; ring). field.
Qed.

(** ** C42: the coarse neighbours of a fine particle *)
Section Coarse.
  Variables (n : nat) (g : nat -> R) (step : R).
  Hypothesis Hn : (0 < n)%nat. Hypothesis Hstep : 0 < step. Hypothesis Hg : forall k, g k = g 0%nat + INR k * step.
  Let below x k := if Rlt_dec (g k) x then true else false.
  Lemma g_lt a b : (a < b)%nat -> g a < g b.
  Proof. intros H. rewrite (Hg a), (Hg b). apply lt_INR in H. nra. Qed.
  Lemma filter_prefix x m : forall k0, (forall k, (k0 <= k < k0 + m)%nat -> g k < x) -> filter (below x) (seq k0 m) = seq k0 m.
  Proof.
    induction m as [|m IH]; intros k0 H; [reflexivity|]. cbn [seq filter]. unfold below at 1. destruct (Rlt_dec (g k0) x) as [_|N]; [f_equal; apply IH; intros; apply H; lia|].
    exfalso. apply N, H. lia.
  Qed.
  Lemma filter_none x m : forall k0, (forall k, (k0 <= k < k0 + m)%nat -> x <= g k) -> filter (below x) (seq k0 m) = [].
  Proof.
    induction m as [|m IH]; intros k0 H; [reflexivity|]. cbn [seq filter]. unfold below at 1. destruct (Rlt_dec (g k0) x) as [A|_]; [exfalso; pose proof (H k0); specialize (H0 ltac:(lia)); lra|].
    apply IH. intros. apply H. lia.
  Qed.
  Lemma searchsorted_spec x : exists s, searchsorted n g x = s /\ (s <= n)%nat /\ (forall k, (k < s)%nat -> g k < x) /\ (forall k, (s <= k < n)%nat -> x <= g k).
  Proof.
    assert (S : forall m, exists s, (s <= m)%nat /\ (forall k, (k < s)%nat -> g k < x) /\ (forall k, (s <= k < m)%nat -> x <= g k)).
    { induction m as [|m (s & A & B & C)]; [exists 0%nat; repeat split; intros; lia|].
      destruct (Nat.eq_dec s m) as [->|D].
      - destruct (Rlt_dec (g m) x) as [E|E]; [exists (S m)|exists m]; repeat split; try lia; intros k Hk.
        + destruct (Nat.eq_dec k m) as [->|]; [exact E|apply B; lia].
        + now apply B.
        + replace k with m by lia. lra.
      - exists s. repeat split; [lia|exact B|]. intros k Hk. destruct (Nat.eq_dec k m) as [->|]; [|apply C; lia]. apply Rle_trans with (g s); [apply C; lia|]. apply Rlt_le, g_lt. lia. }
    destruct (S n) as (s & A & B & C). exists s. split; [|auto]. unfold searchsorted. fold (below x).
    replace n with (s + (n - s))%nat by lia. rewrite seq_app, filter_app, app_length. rewrite filter_prefix by (intros; apply B; lia).
    rewrite filter_none by (intros; apply C; lia). rewrite seq_length. cbn [length]. lia.
  Qed.
  Lemma influence_spec x : let '(pv, nx, wp, wn) := influence n g step x in
    (pv < n)%nat /\ (nx < n)%nat /\ 0 <= wp /\ 0 <= wn /\ wp + wn = 1 /\ wp * g pv + wn * g nx = Rmax (g 0%nat) (Rmin x (g (n - 1)%nat)).
  Proof.
    destruct (searchsorted_spec x) as (s & E & A & B & C). unfold influence. rewrite E. cbv beta zeta.
    destruct (Nat.eq_dec s 0) as [->|S0].
    - assert (N0 : Z.to_nat (Z.min (Z.max (Z.of_nat 0) 0) (Z.of_nat n - 1)) = 0%nat) by lia. assert (P0 : Z.to_nat (Z.min (Z.max (Z.of_nat 0 - 1) 0) (Z.of_nat n - 1)) = 0%nat) by lia.
      rewrite N0, P0. change (0 =? 0)%nat with true. cbv iota beta. assert (L : x <= g 0%nat) by (apply C; lia). assert (L' : g 0%nat <= g (n - 1)%nat) by (rewrite (Hg (n - 1)); pose proof (pos_INR (n - 1)); nra).
      rewrite Rmin_left, Rmax_left by lra. destruct (0 =? n - 1)%nat; repeat split; try lia; try lra.
    - destruct (Nat.eq_dec s n) as [->|S1].
      + assert (N0 : Z.to_nat (Z.min (Z.max (Z.of_nat n) 0) (Z.of_nat n - 1)) = (n - 1)%nat) by lia. assert (P0 : Z.to_nat (Z.min (Z.max (Z.of_nat n - 1) 0) (Z.of_nat n - 1)) = (n - 1)%nat) by lia.
        rewrite N0, P0. rewrite Nat.eqb_refl. assert (L : g (n - 1)%nat < x) by (apply B; lia). assert (L' : g 0%nat <= g (n - 1)%nat) by (rewrite (Hg (n - 1)); pose proof (pos_INR (n - 1)); nra).
        rewrite Rmin_right, Rmax_right by lra. destruct (n - 1 =? 0)%nat; repeat split; try lia; try lra.
      + assert (N0 : Z.to_nat (Z.min (Z.max (Z.of_nat s) 0) (Z.of_nat n - 1)) = s) by lia. assert (P0 : Z.to_nat (Z.min (Z.max (Z.of_nat s - 1) 0) (Z.of_nat n - 1)) = (s - 1)%nat) by lia.
        rewrite N0, P0. destruct (Nat.eqb_spec s 0); [lia|]. destruct (Nat.eqb_spec (s - 1) (n - 1)); [lia|].
        assert (L1 : g (s - 1)%nat < x) by (apply B; lia). assert (L2 : x <= g s) by (apply C; lia).
        assert (G : g s = g (s - 1)%nat + step) by (rewrite (Hg s), (Hg (s - 1)), minus_INR by lia; cbn [INR]; ring).
        assert (L3 : g 0%nat <= g (s - 1)%nat) by (rewrite (Hg (s - 1)); pose proof (pos_INR (s - 1)); nra).
        assert (L4 : g s <= g (n - 1)%nat) by (rewrite (Hg s), (Hg (n - 1)); assert (INR s <= INR (n - 1)) by (apply le_INR; lia); nra).
        rewrite Rmin_left, Rmax_right by lra. repeat split; try lia.
        * apply Rmult_le_pos; [lra|apply Rlt_le, Rinv_0_lt_compat; lra].
        * apply Rmult_le_pos; [lra|apply Rlt_le, Rinv_0_lt_compat; lra].
        * rewrite G. field. lra.
        * rewrite G. field. lra.
  Qed.
End Coarse.
Lemma coarse_grid_linear steps h c k : coarse_grid steps h c k = coarse_grid steps h c 0 + INR k * (h * IZR c).
Proof. unfold coarse_grid. cbn [INR]. ring. Qed.
Lemma mix_affine a b v c0 c1 c2 g : 
  let '(pi, ni, wpi, wni) := a in let '(pj, nj, wpj, wnj) := b in
  wpi + wni = 1 -> wpj + wnj = 1 -> (forall i j, In i [pi; ni] -> In j [pj; nj] -> v i j = c0 + c1 * g i + c2 * g j) ->
  mix a b v = c0 + c1 * (wpi * g pi + wni * g ni) + c2 * (wpj * g pj + wnj * g nj).
Proof.
  destruct a as [[[pi ni] wpi] wni]. destruct b as [[[pj nj] wpj] wnj]. intros A B H. unfold mix.
  rewrite !H by (cbn; auto). replace wni with (1 - wpi) by lra. replace wnj with (1 - wpj) by lra. ring.
Qed.
