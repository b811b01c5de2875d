(** Theorem C78, 2D, continued: one pass of the loop of the 2D beam pusher, with its own fields and tests. *)
From Coq Require Import Reals ZArith List Bool Lra Lia Psatz.
From Flocq Require Import Core.
From Verif Require Import Float_Model Float_Proofs Beam2D_Model Beam2D_Spec Beam2D_Free Beam3D_Model Beam3D_Spec Shape_Model Rounded3D_Model RoundedBeam_Spec RoundedBeam_Model BeamPush_Spec BeamPush_Proofs Props_RoundedBeam RoundedSum_Proofs RoundedWeight_Proofs RoundedDep_Model RoundedDep_Spec RoundedDep_Proofs RoundedPlasma_Proofs Props_RoundedDep RoundedCell_Proofs Props_RoundedCell Props_RoundedCell2 Props_RoundedDep2 RoundedField_Model RoundedField_Proofs Props_RoundedField4 RoundedPush_Model RoundedPush_Spec RoundedPush_Proofs Props_RoundedPush Props_RoundedPush2 RoundedLight_Proofs Props_RoundedPush2D.
Import ListNotations.
Open Scope R_scope.

(** ** Sums of hats *)
Lemma hat_value_size n h r f M : 0 < h -> 0 <= r <= (INR n - 2) * h -> 0 <= M -> (forall k, (k < n)%nat -> Rabs (f k) <= M) -> Rabs (hat_value n h r f) <= M.
Proof.
  intros P Hr HM Hf. assert (Rn : 0 <= r / h) by (apply Rmult_le_pos; [lra|left; now apply Rinv_0_lt_compat]). unfold hat_value. set (jr := floorR (r / h)). assert (Fr := floorR_spec (r / h)). fold jr in Fr. assert (Jr : (0 <= jr)%Z) by (apply floorR_nonneg; exact Rn).
  assert (Rl : r / h <= INR n - 2) by (apply (Rmult_le_reg_r h); [exact P|]; unfold Rdiv; rewrite Rmult_assoc, Rinv_l by lra; lra). assert (Jn : (jr + 1 < Z.of_nat n)%Z) by (apply lt_IZR; rewrite plus_IZR, <- INR_IZR_INZ; lra).
  rewrite (sumR_two _ n (Z.to_nat jr)); [|lia|].
  - rewrite S_INR, INR_IZR_INZ, Z2Nat.id by exact Jr. set (p := r / h) in *. replace (hat (p - IZR jr)) with (1 - (p - IZR jr)) by (unfold hat, Rmax, Rabs; repeat destruct (Rle_dec _ _); repeat destruct (Rcase_abs _); lra).
    replace (hat (p - (IZR jr + 1))) with (p - IZR jr) by (unfold hat, Rmax, Rabs; repeat destruct (Rle_dec _ _); repeat destruct (Rcase_abs _); lra). assert (F1 := Hf (Z.to_nat jr) ltac:(lia)). assert (F2 := Hf (Datatypes.S (Z.to_nat jr)) ltac:(lia)).
    eapply Rle_trans; [apply Rabs_triang|]. rewrite !Rabs_mult, (Rabs_pos_eq (1 - (p - IZR jr))), (Rabs_pos_eq (p - IZR jr)) by lra. assert (Q01 : 0 <= p - IZR jr <= 1) by lra. set (q := p - IZR jr) in *. clearbody q.
    assert ((1 - q) * Rabs (f (Z.to_nat jr)) <= (1 - q) * M) by (apply Rmult_le_compat_l; lra). assert (q * Rabs (f (Datatypes.S (Z.to_nat jr))) <= q * M) by (apply Rmult_le_compat_l; lra). lra.
  - intros k K1 K2. assert (O : forall q, Rabs q >= 1 -> hat q = 0) by (intros q Hq; unfold hat; apply Rmax_left; lra). rewrite O; [ring|]. rewrite INR_IZR_INZ. destruct (Z_le_gt_dec (Z.of_nat k) jr) as [L|L].
    + assert (Lk : (Z.of_nat k <= jr - 1)%Z) by lia. apply IZR_le in Lk. rewrite minus_IZR in Lk. rewrite Rabs_pos_eq by lra. lra.
    + assert (Lk : (jr + 2 <= Z.of_nat k)%Z) by lia. apply IZR_le in Lk. rewrite plus_IZR in Lk. rewrite Rabs_left by lra. lra.
Qed.
Lemma hat_value_minus n h r f g : hat_value n h r f - hat_value n h r g = hat_value n h r (fun k => f k - g k).
Proof. unfold hat_value. induction (seq 0 n) as [|k l IH]; cbn [map sumR]; [ring|]. rewrite <- IH. ring. Qed.
(** the field between two layers at nearby places *)
Lemma between_lip n h dxi z0 F G r z r' z' M e ez : 0 < h -> 0 < dxi -> length F = n -> 0 <= r <= (INR n - 2) * h -> 0 <= r' <= (INR n - 2) * h -> 0 <= M ->
  (forall k, (k < n)%nat -> Rabs (nth k F 0) <= M /\ Rabs (nth k G 0) <= M) -> Rabs (r / h - r' / h) <= e -> e <= 1 -> Rabs ((z - z0) / dxi - (z' - z0) / dxi) <= ez -> - (0.3) <= (z' - z0) / dxi <= 1.8 ->
  Rabs (between h dxi z0 F G r z - between h dxi z0 F G r' z') <= (19 * e + 2 * ez) * M /\ Rabs (between h dxi z0 F G r' z') <= 2.6 * M.
Proof.
  intros P Pd LF Hr Hr' HM HB Dr He Dz R. set (s := (z - z0) / dxi) in *. set (t := (z' - z0) / dxi) in *. set (H := fun k => s * nth k F 0 + (1 - s) * nth k G 0). set (J := fun k => t * nth k F 0 + (1 - t) * nth k G 0).
  replace (between h dxi z0 F G r z) with (hat_value n h r H) by (unfold between, hat_value; rewrite LF; reflexivity). replace (between h dxi z0 F G r' z') with (hat_value n h r' J) by (unfold between, hat_value; rewrite LF; reflexivity).
  assert (BJ : forall k, (k < n)%nat -> Rabs (J k) <= 2.6 * M).
  { intros k Hk. destruct (HB k Hk) as [B1 B2]. unfold J. eapply Rle_trans; [apply Rabs_triang|]. rewrite !Rabs_mult. assert (A0 : Rabs t + Rabs (1 - t) <= 2.6) by (unfold Rabs; repeat destruct (Rcase_abs _); lra).
    assert (Rabs t * Rabs (nth k F 0) <= Rabs t * M) by (apply Rmult_le_compat_l; [apply Rabs_pos|exact B1]). assert (Rabs (1 - t) * Rabs (nth k G 0) <= Rabs (1 - t) * M) by (apply Rmult_le_compat_l; [apply Rabs_pos|exact B2]).
    apply Rle_trans with ((Rabs t + Rabs (1 - t)) * M); [lra|]. apply Rmult_le_compat_r; lra. }
  assert (BD : forall k, (k < n)%nat -> Rabs (H k - J k) <= ez * (2 * M)).
  { intros k Hk. destruct (HB k Hk) as [B1 B2]. unfold H, J. replace (s * nth k F 0 + (1 - s) * nth k G 0 - (t * nth k F 0 + (1 - t) * nth k G 0)) with ((s - t) * (nth k F 0 - nth k G 0)) by ring. rewrite Rabs_mult. apply Rmult_le_compat; try apply Rabs_pos; [exact Dz|]. unfold Rminus. eapply Rle_trans; [apply Rabs_triang|]. rewrite Rabs_Ropp. lra. }
  assert (E0 : 0 <= ez) by (eapply Rle_trans; [apply Rabs_pos|exact Dz]). assert (Z1 := hat_value_size n h r _ (ez * (2 * M)) P Hr ltac:(apply Rmult_le_pos; lra) BD). rewrite <- hat_value_minus in Z1.
  assert (L := hat_value_lip n h r r' J (2.6 * M) e ltac:(lra) BJ Dr He). assert (e0 : 0 <= e) by (eapply Rle_trans; [apply Rabs_pos|exact Dr]). assert (0 <= e * M) by (apply Rmult_le_pos; lra).
  split; [|apply hat_value_size; [exact P|exact Hr'|lra|exact BJ]].
  replace (hat_value n h r H - hat_value n h r' J) with ((hat_value n h r H - hat_value n h r J) + (hat_value n h r J - hat_value n h r' J)) by ring. eapply Rle_trans; [apply Rabs_triang|]. lra.
Qed.
(** the distance from the axis of nearby places *)
Lemma radius_lip x y x' y' : Rabs (sqrt (x ^ 2 + y ^ 2) - sqrt (x' ^ 2 + y' ^ 2)) <= Rabs (x - x') + Rabs (y - y').
Proof.
  assert (Tri : forall a b c e, sqrt ((a + c) ^ 2 + (b + e) ^ 2) <= sqrt (a ^ 2 + b ^ 2) + (Rabs c + Rabs e)).
  { intros a b c e. set (r := sqrt (a ^ 2 + b ^ 2)). assert (Q : 0 <= a ^ 2 + b ^ 2) by nra. assert (R0 : 0 <= r) by apply sqrt_pos. assert (Rr : r * r = a ^ 2 + b ^ 2) by now apply sqrt_sqrt. assert (Pc := Rabs_pos c). assert (Pe := Rabs_pos e).
    assert (Aa : Rabs a <= r) by (apply Rsqr_incr_0_var; [rewrite <- Rsqr_abs; unfold Rsqr; nra|exact R0]). assert (Ab : Rabs b <= r) by (apply Rsqr_incr_0_var; [rewrite <- Rsqr_abs; unfold Rsqr; nra|exact R0]).
    rewrite <- (sqrt_square (r + (Rabs c + Rabs e))) by lra. apply sqrt_le_1; [apply Rplus_le_le_0_compat; apply pow2_ge_0|apply Rmult_le_pos; lra|].
    assert (a * c <= r * Rabs c). { eapply Rle_trans; [apply Rle_abs|]. rewrite Rabs_mult. apply Rmult_le_compat_r; assumption. } assert (b * e <= r * Rabs e). { eapply Rle_trans; [apply Rle_abs|]. rewrite Rabs_mult. apply Rmult_le_compat_r; assumption. }
    assert (C2 : Rabs c * Rabs c = c * c) by (rewrite <- Rabs_mult, Rabs_pos_eq; nra). assert (E2 : Rabs e * Rabs e = e * e) by (rewrite <- Rabs_mult, Rabs_pos_eq; nra). assert (0 <= Rabs c * Rabs e) by now apply Rmult_le_pos. nra. }
  assert (A := Tri x y (x' - x) (y' - y)). assert (B := Tri x' y' (x - x') (y - y')). replace (x + (x' - x)) with x' in A by ring. replace (y + (y' - y)) with y' in A by ring. replace (x' + (x - x')) with x in B by ring. replace (y' + (y - y')) with y in B by ring.
  rewrite (Rabs_minus_sym x' x), (Rabs_minus_sym y' y) in A. apply Rabs_le. lra.
Qed.
Lemma part_radius x y : Rabs x <= sqrt (x ^ 2 + y ^ 2) /\ Rabs y <= sqrt (x ^ 2 + y ^ 2).
Proof. assert (R0 := sqrt_pos (x ^ 2 + y ^ 2)). assert (Rr : sqrt (x ^ 2 + y ^ 2) * sqrt (x ^ 2 + y ^ 2) = x ^ 2 + y ^ 2) by (apply sqrt_sqrt; nra). split; apply Rsqr_incr_0_var; try exact R0; rewrite <- Rsqr_abs; unfold Rsqr; nra. Qed.

(** ** A particle that is not lost is off the edge of the grid *)
Lemma not_lost2 n c x : (40 <= Z.of_nat n <= 2 ^ 46)%Z -> ordinary_step (r_step c) -> r_step c <= 0.3 -> 0 <= max_radius c <= INR n * r_step c -> is_lost2_f x (lost_boundary_f c) = false -> sqrt (vx x ^ 2 + vy x ^ 2) <= (INR n - 3) * r_step c.
Proof.
  intros HN Hh H3 [R0 R1] H. assert (U := u_pos). assert (T := u_tiny). assert (P := step_pos _ Hh). set (h := r_step c) in *. set (N := INR n) in *. set (m := max_radius c) in *. assert (N1 : 40 <= N) by (unfold N; rewrite INR_IZR_INZ; apply IZR_le; lia).
  assert (Nu : N * u <= / 100). { assert (K : N <= IZR (2 ^ 46)) by (unfold N; rewrite INR_IZR_INZ; apply IZR_le; lia). assert (V := u_small). replace (IZR (2 ^ 53)) with (128 * IZR (2 ^ 46)) in V by (rewrite <- mult_IZR; reflexivity). nra. }
  assert (Et := eta_step _ Hh). fold h in Et. assert (UH : 0 < u * h) by (apply Rmult_lt_0_compat; lra). assert (UH2 : u * h <= / 1000000000000 * h) by (apply Rmult_le_compat_r; lra). assert (HNn : 40 * h <= N * h) by (apply Rmult_le_compat_r; lra). assert (NH : N * u * h <= / 100 * h) by (apply Rmult_le_compat_r; lra).
  assert (UM : u * m <= u * (N * h)) by (apply Rmult_le_compat_l; lra). assert (Eu := eta_u).
  assert (Lb : 0 <= lost_boundary_f c <= (N - 3.05) * h).
  { unfold lost_boundary_f. fold m. assert (Q3 := round_error 0.9). rewrite (Rabs_pos_eq 0.9) in Q3 by lra. set (k := double 0.9) in *. apply Rabs_le_inv in Q3. assert (KM : 0 <= k * m <= (0.9 + u) * m) by (split; [apply Rmult_le_pos; lra|apply Rmult_le_compat_r; lra]).
    assert (Q4 := round_error (k * m)). rewrite (Rabs_pos_eq (k * m)) in Q4 by lra. apply Rabs_le_inv in Q4. assert (KM2 : k * m <= m) by (assert ((0.9 + u) * m <= 1 * m) by (apply Rmult_le_compat_r; lra); lra). assert (UK : u * (k * m) <= u * m) by (apply Rmult_le_compat_l; lra).
    assert (C0 : 0 <= double (k * m)) by (rewrite <- double_0; apply double_mono; lra). assert (C1 : double (k * m) <= (N - 3.05) * h) by lra. split; [eapply Rle_trans; [exact C0|apply Rmax_l]|]. apply Rmax_lub; [exact C1|].
    destruct (Rle_dec m 1) as [L|L]; [apply Rle_trans with 0; [rewrite <- double_0; apply double_mono; lra|lra]|]. assert (Q5 := round_error (m - 1)). rewrite (Rabs_pos_eq (m - 1)) in Q5 by lra. apply Rabs_le_inv in Q5. assert (u * (m - 1) <= u * m) by (apply Rmult_le_compat_l; lra). lra. }
  set (l := lost_boundary_f c) in *. unfold is_lost2_f in H. destruct (Rle_dec _ _) as [|Lt]; [discriminate H|]. apply Rnot_le_lt in Lt. clear H. set (a := vx x) in *. set (b := vy x) in *. clearbody a b l.
  destruct (Rle_lt_dec (sqrt (a ^ 2 + b ^ 2)) ((N - 3) * h)) as [|G]; [assumption|exfalso]. set (r0 := (N - 3) * h) in *. assert (P0 : 37 * h <= r0) by (unfold r0; apply Rmult_le_compat_r; lra).
  assert (RR : r0 * r0 <= a * a + b * b). { assert (Ss : sqrt (a ^ 2 + b ^ 2) * sqrt (a ^ 2 + b ^ 2) = a ^ 2 + b ^ 2) by (apply sqrt_sqrt; nra). assert (r0 * r0 <= sqrt (a ^ 2 + b ^ 2) * sqrt (a ^ 2 + b ^ 2)) by (apply Rmult_le_compat; lra). lra. }
  assert (E1 := round_error (a * a)). assert (E2 := round_error (b * b)). rewrite (Rabs_pos_eq (a * a)) in E1 by nra. rewrite (Rabs_pos_eq (b * b)) in E2 by nra. apply Rabs_le_inv in E1, E2. assert (D1 : 0 <= double (a * a)) by (rewrite <- double_0; apply double_mono; nra). assert (D2 : 0 <= double (b * b)) by (rewrite <- double_0; apply double_mono; nra).
  set (da := double (a * a)) in *. set (db := double (b * b)) in *. assert (E3 := round_error (da + db)). rewrite (Rabs_pos_eq (da + db)) in E3 by lra. apply Rabs_le_inv in E3. assert (E4 := round_error (l * l)). rewrite (Rabs_pos_eq (l * l)) in E4 by nra. apply Rabs_le_inv in E4.
  set (t := a * a + b * b) in *. set (w := da + db) in *. assert (W : (1 - u) * t - 2 * eta <= w) by (unfold w, t; lra). assert (W2 : (1 - u) * ((1 - u) * t - 2 * eta) <= (1 - u) * w) by (apply Rmult_le_compat_l; lra). assert (T0 : 0 <= u * u * t) by (apply Rmult_le_pos; [nra|unfold t; nra]). assert (Et0 : 0 < eta) by apply bpow_gt_0. assert (Ue : 0 <= u * eta) by (apply Rmult_le_pos; lra).
  assert (Lo : (1 - 2 * u) * t - 3 * eta <= double w) by lra. assert (Lo2 : (1 - 2 * u) * (r0 * r0) <= (1 - 2 * u) * t) by (apply Rmult_le_compat_l; lra).
  assert (Lr : l <= r0 - 0.05 * h) by (unfold r0; lra).
  assert (LL : l * l <= (r0 - 0.05 * h) * (r0 - 0.05 * h)) by (apply Rmult_le_compat; lra).
  assert (LU : u * (l * l) <= u * (r0 * r0)) by (apply Rmult_le_compat_l; [lra|apply Rmult_le_compat; lra]). assert (UR : u * (r0 * r0) <= / 100 * (r0 * h)). { replace (u * (r0 * r0)) with ((u * r0) * r0) by ring. replace (/ 100 * (r0 * h)) with ((/ 100 * h) * r0) by ring. apply Rmult_le_compat_r; [lra|]. unfold r0. assert (u * (N - 3) * h <= / 100 * h) by (apply Rmult_le_compat_r; lra). lra. }
  assert (Eh : eta <= / 10000 * (r0 * h)). { assert (37 * h * h <= r0 * h) by (apply Rmult_le_compat_r; lra). assert (eta <= bpow radix2 (-20) * (h * h)); [|change (bpow radix2 (-20)) with (/ 1048576) in *; lra]. destruct Hh as [Hh _]. apply Rle_trans with (bpow radix2 (-20) * (bpow radix2 (-100) * bpow radix2 (-100))); [rewrite <- !bpow_plus; unfold eta; apply bpow_le; lia|apply Rmult_le_compat_l; [apply bpow_ge_0|]; apply Rmult_le_compat; try apply bpow_ge_0; assumption]. }
  assert (RH : 37 * h * h <= r0 * h) by (apply Rmult_le_compat_r; lra). nra.
Qed.

(** ** The fields at the middle of the substep *)
Definition slack2 (n : nat) (c : pcfg) (i : Z) (d : R) : R := 210 * INR n + 22 * IZR i + 130 + 420 * (d / r_step c) + 25 * (d / xi_step c).
Section Full.
  Variables (n : nat) (c : pcfg) (i : Z) (fl fu : fields) (p : part) (d M : R).
  Hypotheses (HN : (Z.of_nat n <= 2 ^ 46)%Z) (Hi : (0 <= i < 2 ^ 49)%Z) (Hh : ordinary_step (r_step c)) (Hx : ordinary_step (xi_step c)) (Hd : ordinary_step d) (Hd2 : ordinary_step (d / 2)) (Dd : is_double d).
  Hypotheses (Hq : ordinary_ratio (q_m p)) (St : stored2 p) (HM : bpow radix2 (-500) <= M) (Nl : nodes n fl) (Nu : nodes n fu) (HB0 : Rabs (magnetic_field c) <= M).
  Hypothesis HF : forall k f, (k < n)%nat -> In f [E_r; E_f; E_z; B_f; B_z] -> Rabs (nth k (f fl) 0) <= M /\ Rabs (nth k (f fu) 0) <= M.
  Let K := slack2 n c i d.
  Hypothesis HK : K * u <= / 10.
  Let half := plus (place2 p) (shift (d / 2) (velocity (q_m p) (momentum2_f p))).
  Let hf := half_position_f p d.
  Hypotheses (Or : sqrt (vx hf ^ 2 + vy hf ^ 2) <= (INR n - 3) * r_step c) (Oz : RoundedDep_Spec.in_layer (xi_step c) i (vz hf)).
  Let z0 := - (IZR (i + 1) * xi_step c).
  Let rad_half := sqrt (vx half ^ 2 + vy half ^ 2).
  Let E := e_on c z0 fu fl rad_half (vz half).
  Let B := b_on c z0 fu fl rad_half (vz half).
  Lemma slack2_parts : 0 < d / r_step c /\ 0 < d / xi_step c /\ 0 <= INR n /\ 0 <= IZR i /\ INR n * u <= / 2000 /\ IZR i * u <= / 100 /\ d / r_step c * u <= / 4000 /\ d / xi_step c * u <= / 250.
  Proof.
    assert (P1 := step_pos _ Hh). assert (P2 := step_pos _ Hx). assert (P3 := step_pos _ Hd). assert (A := Rdiv_lt_0_compat _ _ P3 P1). assert (A2 := Rdiv_lt_0_compat _ _ P3 P2). assert (N0 := pos_INR n). assert (I0 : 0 <= IZR i) by (apply IZR_le; lia). assert (U := u_pos).
    unfold K, slack2 in HK. assert (B1 : 0 <= INR n * u) by (apply Rmult_le_pos; lra). assert (B2 : 0 <= IZR i * u) by (apply Rmult_le_pos; lra). assert (B3 : 0 <= d / r_step c * u) by (apply Rmult_le_pos; lra). assert (B4 : 0 <= d / xi_step c * u) by (apply Rmult_le_pos; lra). repeat split; lra.
  Qed.
  Lemma scaled_near2 h x X t k : 0 < h -> 0 <= t -> 0 <= k <= 20 -> Rabs (x - X) <= (6 * Rabs X + k * t) * u -> Rabs (x / h - X / h) <= (6.001 * Rabs (x / h) + (k + 0.001) * (t / h)) * u.
  Proof.
    intros P Ht Hk H. assert (U := u_pos). assert (T := u_tiny). assert (I := Rinv_0_lt_compat h P). assert (D0 : 0 <= t / h) by (apply Rmult_le_pos; lra).
    assert (A : Rabs (x / h - X / h) <= (6 * Rabs (X / h) + k * (t / h)) * u).
    { replace (x / h - X / h) with ((x - X) * / h) by (field; lra). rewrite Rabs_mult, (Rabs_pos_eq (/ h)) by lra. replace (X / h) with (X * / h) by reflexivity. rewrite (Rabs_mult X), (Rabs_pos_eq (/ h)) by lra.
      apply Rle_trans with ((6 * Rabs X + k * t) * u * / h); [apply Rmult_le_compat_r; lra|]. unfold Rdiv. lra. }
    set (a := x / h) in *. set (b := X / h) in *. set (D := t / h) in *. assert (Bb : Rabs b <= Rabs a + (6 * Rabs b + k * D) * u). { replace b with (a + - (a - b)) at 1 by ring. eapply Rle_trans; [apply Rabs_triang|]. rewrite Rabs_Ropp. lra. }
    assert (Pa := Rabs_pos a). assert (Pb := Rabs_pos b). assert (CD : 0 <= k * D <= 20 * D) by (split; [apply Rmult_le_pos; lra|apply Rmult_le_compat_r; lra]). assert (Q : Rabs b * u <= Rabs b * 0.0000001) by (apply Rmult_le_compat_l; lra). assert (Q2 : k * D * u <= 20 * D * 0.0000001) by (apply Rmult_le_compat; lra).
    eapply Rle_trans; [exact A|]. apply Rmult_le_compat_r; lra.
  Qed.
  Lemma radius_side : 0 <= rad_half <= (INR n - 2) * r_step c /\ Rabs (sqrt (vx hf ^ 2 + vy hf ^ 2) / r_step c - rad_half / r_step c) <= (6.1 * INR n + 21 * (d / r_step c)) * u.
  Proof.
    destruct slack2_parts as (D1 & D2 & N0 & I0 & Nuu & Iu & D1u & D2u). assert (P := step_pos _ Hh). assert (Pd := step_pos _ Hd). assert (U := u_pos). assert (T := u_tiny). assert (C := C78_2d_half_step p d Hq Hd Hd2 Dd St). cbv zeta in C. fold half in C. fold hf in C. change rounding with u in C.
    assert (Cx := C vx ltac:(cbn; tauto)). assert (Cy := C vy ltac:(cbn; tauto)). destruct (part_radius (vx half) (vy half)) as [Q1 Q2]. fold rad_half in Q1, Q2. assert (L := radius_lip (vx hf) (vy hf) (vx half) (vy half)). fold rad_half in L. assert (R0 : 0 <= rad_half) by apply sqrt_pos. set (r := sqrt (vx hf ^ 2 + vy hf ^ 2)) in *. assert (r0 : 0 <= r) by apply sqrt_pos.
    assert (UR : u * Rabs (vx half) <= u * rad_half) by (apply Rmult_le_compat_l; lra). assert (UR2 : u * Rabs (vy half) <= u * rad_half) by (apply Rmult_le_compat_l; lra). assert (A : Rabs (r - rad_half) <= (6 * Rabs rad_half + 20 * d) * u) by (rewrite (Rabs_pos_eq rad_half) by exact R0; lra).
    assert (S := scaled_near2 (r_step c) r rad_half d 20 P ltac:(lra) ltac:(lra) A). assert (Rh : 0 <= r / r_step c <= INR n - 3). { split; [apply Rmult_le_pos; [exact r0|left; now apply Rinv_0_lt_compat]|]. apply (Rmult_le_reg_r (r_step c)); [exact P|]. unfold Rdiv. rewrite Rmult_assoc, Rinv_l by lra. lra. } rewrite (Rabs_pos_eq (r / r_step c)) in S by lra.
    assert (S2 : Rabs (r / r_step c - rad_half / r_step c) <= (6.1 * INR n + 21 * (d / r_step c)) * u) by (eapply Rle_trans; [exact S|]; apply Rmult_le_compat_r; lra). split; [|exact S2]. split; [exact R0|].
    apply (Rmult_le_reg_r (/ r_step c)); [now apply Rinv_0_lt_compat|]. rewrite Rmult_assoc, Rinv_r, Rmult_1_r by lra. change (rad_half * / r_step c) with (rad_half / r_step c). apply Rabs_le_inv in S2. lra.
  Qed.
  Lemma along_side : - (0.3) <= (vz half - z0) / xi_step c <= 1.8 /\ Rabs ((vz hf - z0) / xi_step c - (vz half - z0) / xi_step c) <= (9.7 * (IZR i + 1) + 11 * (d / xi_step c)) * u.
  Proof.
    destruct slack2_parts as (D1 & D2 & N0 & I0 & Nuu & Iu & D1u & D2u). assert (P := step_pos _ Hx). assert (Pd := step_pos _ Hd). assert (U := u_pos). assert (T := u_tiny). assert (C := C78_2d_half_step p d Hq Hd Hd2 Dd St). cbv zeta in C. fold half in C. fold hf in C. change rounding with u in C. assert (Cz := C vz ltac:(cbn; tauto)).
    assert (Zn := zf_near (xi_step c) i (vz hf) Hx Hi Oz). assert (X := xi_frac (xi_step c) i (vz hf) Hx Hi Oz). change (double (- double (double (IZR (i + 1) * - xi_step c) - vz hf) / xi_step c)) with (zf (xi_step c) i (vz hf)) in X. fold z0 in Zn.
    assert (S0 : - (0.1) <= (vz hf - z0) / xi_step c <= 1.6) by (apply Rabs_le_inv in Zn; lra).
    assert (A : Rabs (vz hf - vz half) <= (6 * Rabs (vz half) + 10 * d) * u). { eapply Rle_trans; [exact Cz|]. apply Rmult_le_compat_r; [lra|]. assert (Q := Rabs_pos (vz half)). lra. }
    assert (S := scaled_near2 (xi_step c) (vz hf) (vz half) d 10 P ltac:(lra) ltac:(lra) A).
    assert (Zs : Rabs (vz hf / xi_step c) <= IZR i + 1.6). { replace (vz hf / xi_step c) with ((vz hf - z0) / xi_step c - (IZR i + 1)) by (unfold z0; rewrite plus_IZR; field; lra). apply Rabs_le. lra. }
    assert (Ez : Rabs ((vz hf - z0) / xi_step c - (vz half - z0) / xi_step c) <= (9.7 * (IZR i + 1) + 11 * (d / xi_step c)) * u).
    { replace ((vz hf - z0) / xi_step c - (vz half - z0) / xi_step c) with (vz hf / xi_step c - vz half / xi_step c) by (field; lra). eapply Rle_trans; [exact S|]. apply Rmult_le_compat_r; [lra|]. lra. }
    split; [|exact Ez]. apply Rabs_le_inv in Ez. lra.
  Qed.
  Lemma fields_near2 : let '(e, b) := particle_fields_f hf fl fu (border (xi_step c) (i + 1)) (r_step c) (xi_step c) in
    forall k, In k [vx; vy; vz] -> Rabs (k E) <= 4 * M /\ Rabs (k B) <= 4 * M /\ Rabs (k e - k E) <= K / 4 * u * (4 * M) /\ Rabs (k (plus b (0, 0, magnetic_field c)) - k B) <= K / 4 * u * (4 * M).
  Proof.
    destruct slack2_parts as (D1 & D2 & N0 & I0 & Nuu & Iu & D1u & D2u). assert (M0 : 0 < M) by (assert (B0 := bpow_gt_0 radix2 (-500)); lra). assert (U := u_pos). assert (T := u_tiny). assert (P := step_pos _ Hh). assert (Px := step_pos _ Hx). destruct radius_side as [R1 R2]. destruct along_side as [A1 A2].
    set (r := sqrt (vx hf ^ 2 + vy hf ^ 2)) in *. assert (r0 : 0 <= r) by apply sqrt_pos. set (er := (6.1 * INR n + 21 * (d / r_step c)) * u) in *. set (ez := (9.7 * (IZR i + 1) + 11 * (d / xi_step c)) * u) in *. assert (He : er <= 1) by (unfold er; lra). assert (UM : 0 < u * M) by (apply Rmult_lt_0_compat; lra).
    assert (C := C76_2d_beam_field n (r_step c) (xi_step c) i (vx hf) (vy hf) (vz hf) fl fu M Hh Hx HN Hi Oz Or HM Nl Nu HF). rewrite <- (vec_is hf) in C. destruct (particle_fields_f _ _ _ _ _ _) as [[[e1 e2] e3] [[b1 b2] b3]]. cbv zeta in C. change rounding with u in C. fold r z0 in C.
    assert (Main : forall f v sg, In f [E_r; E_f; E_z; B_f; B_z] -> length (f fu) = n -> Rabs sg = 1 -> Rabs (v - sg * between (r_step c) (xi_step c) z0 (f fu) (f fl) r (vz hf)) <= (84 * INR n + 2 * IZR i + 100) * u * M ->
      let m := between (r_step c) (xi_step c) z0 (f fu) (f fl) rad_half (vz half) in Rabs (sg * m) <= 3 * M /\ Rabs (v - sg * m) <= K / 4 * u * (4 * M)).
    { intros f v sg Hf Hl Hsg Hv m. destruct (between_lip n (r_step c) (xi_step c) z0 (f fu) (f fl) r (vz hf) rad_half (vz half) M er ez P Px Hl ltac:(lra) R1 ltac:(lra) ltac:(intros k Hk; destruct (HF k f Hk Hf); tauto) R2 He A2 A1) as [L1 L2]. fold m in L1, L2. split; [rewrite Rabs_mult, Hsg; lra|].
      set (m' := between _ _ _ _ _ r (vz hf)) in *. replace (v - sg * m) with ((v - sg * m') + sg * (m' - m)) by ring. eapply Rle_trans; [apply Rabs_triang|]. rewrite Rabs_mult, Hsg. unfold K, slack2. apply Rle_trans with ((84 * INR n + 2 * IZR i + 100) * u * M + (19 * er + 2 * ez) * M); [lra|]. unfold er, ez.
      replace ((84 * INR n + 2 * IZR i + 100) * u * M + (19 * ((6.1 * INR n + 21 * (d / r_step c)) * u) + 2 * ((9.7 * (IZR i + 1) + 11 * (d / xi_step c)) * u)) * M) with ((84 * INR n + 2 * IZR i + 100 + 19 * (6.1 * INR n + 21 * (d / r_step c)) + 2 * (9.7 * (IZR i + 1) + 11 * (d / xi_step c))) * (u * M)) by lra.
      replace ((210 * INR n + 22 * IZR i + 130 + 420 * (d / r_step c) + 25 * (d / xi_step c)) / 4 * u * (4 * M)) with ((210 * INR n + 22 * IZR i + 130 + 420 * (d / r_step c) + 25 * (d / xi_step c)) * (u * M)) by lra. apply Rmult_le_compat_r; lra. }
    destruct Nu as (K1 & K2 & K3 & K4 & K5). assert (S1 : Rabs 1 = 1) by apply Rabs_R1. assert (S2 : Rabs (-1) = 1) by (rewrite Rabs_left; lra).
    destruct C as (C1 & C2 & C3 & C4 & C5 & C6). destruct (Main E_r e1 1 ltac:(cbn; tauto) K1 S1 C1) as [Q1 Q1']. destruct (Main E_f e2 1 ltac:(cbn; tauto) K2 S1 C2) as [Q2 Q2']. destruct (Main E_z e3 1 ltac:(cbn; tauto) K3 S1 C3) as [Q3 Q3']. destruct (Main E_f b1 (-1) ltac:(cbn; tauto) K2 S2 C4) as [Q4 Q4']. destruct (Main B_f b2 1 ltac:(cbn; tauto) K4 S1 C5) as [Q5 Q5']. destruct (Main B_z b3 1 ltac:(cbn; tauto) K5 S1 C6) as [Q6 Q6']. clear Main C1 C2 C3 C4 C5 C6 HF.
    rewrite ?Rmult_1_l in *. replace (-1 * between (r_step c) (xi_step c) z0 (E_f fu) (E_f fl) rad_half (vz half)) with (- between (r_step c) (xi_step c) z0 (E_f fu) (E_f fl) rad_half (vz half)) in * by ring.
    intros k [<-|[<-|[<-|[]]]].
    - change (vx E) with (between (r_step c) (xi_step c) z0 (E_r fu) (E_r fl) rad_half (vz half)). change (vx B) with (- between (r_step c) (xi_step c) z0 (E_f fu) (E_f fl) rad_half (vz half)). change (vx (e1, e2, e3)) with e1. change (vx (plus (b1, b2, b3) (0, 0, magnetic_field c))) with (b1 + 0). rewrite Rplus_0_r. repeat split; try assumption; lra.
    - change (vy E) with (between (r_step c) (xi_step c) z0 (E_f fu) (E_f fl) rad_half (vz half)). change (vy B) with (between (r_step c) (xi_step c) z0 (B_f fu) (B_f fl) rad_half (vz half)). change (vy (e1, e2, e3)) with e2. change (vy (plus (b1, b2, b3) (0, 0, magnetic_field c))) with (b2 + 0). rewrite Rplus_0_r. repeat split; try assumption; lra.
    - change (vz E) with (between (r_step c) (xi_step c) z0 (E_z fu) (E_z fl) rad_half (vz half)). change (vz B) with (between (r_step c) (xi_step c) z0 (B_z fu) (B_z fl) rad_half (vz half) + magnetic_field c). change (vz (e1, e2, e3)) with e3. change (vz (plus (b1, b2, b3) (0, 0, magnetic_field c))) with (b3 + magnetic_field c). repeat split; try assumption; try lra.
      + eapply Rle_trans; [apply Rabs_triang|]. lra.
      + match goal with |- Rabs (?a + ?w - (?m + ?w)) <= _ => replace (a + w - (m + w)) with (a - m) by ring end. assumption.
  Qed.
End Full.

(** ** Back to the distance from the axis and the momentum along it *)
Lemma tiny_u R0 : bpow radix2 (-300) <= R0 -> bpow radix2 (-400) <= / 1000 * (u * R0) /\ 10 * eta <= / 1000 * (u * R0).
Proof.
  intros H. assert (A : bpow radix2 (-10) * (u * bpow radix2 (-300)) <= / 1000 * (u * R0)). { apply Rmult_le_compat; [apply bpow_ge_0|apply Rmult_le_pos; [left; apply u_pos|apply bpow_ge_0]|change (bpow radix2 (-10)) with (/ 1024); lra|apply Rmult_le_compat_l; [left; apply u_pos|exact H]]. }
  assert (E : bpow radix2 (-10) * (u * bpow radix2 (-300)) = bpow radix2 (-363)) by (change u with (bpow radix2 (-53)); rewrite <- !bpow_plus; reflexivity). rewrite E in A. split; [eapply Rle_trans; [|exact A]; apply bpow_le; lia|].
  eapply Rle_trans; [|exact A]. apply Rle_trans with (bpow radix2 4 * eta); [apply Rmult_le_compat_r; [apply bpow_ge_0|change (bpow radix2 4) with 16; lra]|unfold eta; rewrite <- bpow_plus; apply bpow_le; lia].
Qed.
Lemma radial_near x y v w : let R0 := sqrt (x ^ 2 + y ^ 2) in bpow radix2 (-300) <= R0 ->
  Rabs (double (double (double (x * v) + double (y * w)) / radius_f x y) - (x * v + y * w) / R0) <= 8 * u * (Rabs v + Rabs w) + bpow radix2 (-700).
Proof.
  intros R0 HR. assert (U := u_pos). assert (T := u_tiny). assert (B0 := bpow_gt_0 radix2 (-300)). destruct (tiny_u R0 HR) as [T1 T2]. assert (Rn := radius_near x y). cbv zeta in Rn. fold R0 in Rn. destruct (part_radius x y) as [Px Py]. fold R0 in Px, Py. set (r := radius_f x y) in *. clearbody r.
  assert (UR : 0 < u * R0) by (apply Rmult_lt_0_compat; lra). assert (UR2 : u * R0 <= / 1000000000000 * R0) by (apply Rmult_le_compat_r; lra). assert (Rn' : Rabs (r - R0) <= 4.01 * (u * R0)) by lra. apply Rabs_le_inv in Rn'. assert (Rp : 0.999 * R0 <= r) by lra.
  set (S := Rabs v + Rabs w). assert (S0 : 0 <= S) by (unfold S; assert (A := Rabs_pos v); assert (A' := Rabs_pos w); lra). assert (RS : 0 <= R0 * S) by (apply Rmult_le_pos; lra).
  assert (Xv : Rabs (x * v) <= R0 * Rabs v) by (rewrite Rabs_mult; apply Rmult_le_compat_r; [apply Rabs_pos|exact Px]). assert (Yw : Rabs (y * w) <= R0 * Rabs w) by (rewrite Rabs_mult; apply Rmult_le_compat_r; [apply Rabs_pos|exact Py]).
  assert (E1 := round_error (x * v)). assert (E2 := round_error (y * w)). set (a := double (x * v)) in *. set (b := double (y * w)) in *. assert (UX : u * Rabs (x * v) <= u * (R0 * Rabs v)) by (apply Rmult_le_compat_l; lra). assert (UY : u * Rabs (y * w) <= u * (R0 * Rabs w)) by (apply Rmult_le_compat_l; lra).
  assert (Et0 : 0 < eta) by apply bpow_gt_0. set (D := x * v + y * w). assert (HD : Rabs D <= R0 * S) by (unfold D, S; eapply Rle_trans; [apply Rabs_triang|]; lra).
  assert (Eab : Rabs (a + b - D) <= u * (R0 * S) + 2 * eta). { replace (a + b - D) with ((a - x * v) + (b - y * w)) by (unfold D; ring). eapply Rle_trans; [apply Rabs_triang|]. unfold S. lra. }
  assert (E3 := round_error (a + b)). assert (Sab : Rabs (a + b) <= 1.001 * (R0 * S) + 2 * eta). { replace (a + b) with (D + (a + b - D)) by ring. eapply Rle_trans; [apply Rabs_triang|]. assert (u * (R0 * S) <= / 1000000000000 * (R0 * S)) by (apply Rmult_le_compat_r; lra). lra. }
  assert (U3 : u * Rabs (a + b) <= u * (1.001 * (R0 * S) + 2 * eta)) by (apply Rmult_le_compat_l; lra). assert (Ue : u * eta <= / 1000000000000 * eta) by (apply Rmult_le_compat_r; lra). set (N := double (a + b)) in *.
  assert (EN : Rabs (N - D) <= 2.002 * (u * (R0 * S)) + 4 * eta). { replace (N - D) with ((N - (a + b)) + (a + b - D)) by ring. eapply Rle_trans; [apply Rabs_triang|]. assert (0 <= u * (R0 * S)) by (apply Rmult_le_pos; lra). lra. }
  assert (r0 : 0 < r) by lra. assert (Ir : / r <= 1.0011 * / R0). { apply Rmult_le_reg_l with r; [exact r0|]. rewrite Rinv_r by lra. apply Rmult_le_reg_r with R0; [lra|]. replace (r * (1.0011 * / R0) * R0) with (1.0011 * r) by (field; lra). lra. } assert (I0 := Rinv_0_lt_compat r r0). assert (IR : 0 < / R0) by (apply Rinv_0_lt_compat; lra).
  assert (EQ : Rabs (N / r - D / R0) <= 6.1 * (u * S) + 5 * (eta * / R0)).
  { replace (N / r - D / R0) with ((N - D) * / r + D * (R0 - r) * / r * / R0) by (field; lra). eapply Rle_trans; [apply Rabs_triang|]. rewrite !Rabs_mult, (Rabs_pos_eq (/ r)), (Rabs_pos_eq (/ R0)) by lra.
    assert (A1 : Rabs (N - D) * / r <= (2.002 * (u * (R0 * S)) + 4 * eta) * (1.0011 * / R0)) by (apply Rmult_le_compat; try apply Rabs_pos; try assumption; lra). replace ((2.002 * (u * (R0 * S)) + 4 * eta) * (1.0011 * / R0)) with (2.002 * 1.0011 * (u * S) * (R0 * / R0) + 4 * 1.0011 * (eta * / R0)) in A1 by ring. rewrite Rinv_r in A1 by lra.
    assert (A2 : Rabs D * Rabs (R0 - r) <= (R0 * S) * (4.01 * (u * R0))) by (apply Rmult_le_compat; try apply Rabs_pos; [exact HD|apply Rabs_le; lra]). assert (A3 : Rabs D * Rabs (R0 - r) * / r <= (R0 * S) * (4.01 * (u * R0)) * (1.0011 * / R0)) by (apply Rmult_le_compat; [apply Rmult_le_pos; apply Rabs_pos|lra|exact A2|exact Ir]).
    assert (A4 : Rabs D * Rabs (R0 - r) * / r * / R0 <= (R0 * S) * (4.01 * (u * R0)) * (1.0011 * / R0) * / R0) by (apply Rmult_le_compat_r; lra). replace ((R0 * S) * (4.01 * (u * R0)) * (1.0011 * / R0) * / R0) with (4.01 * 1.0011 * (u * S)) in A4 by (field; lra).
    assert (0 <= u * S) by (apply Rmult_le_pos; lra). assert (0 <= eta * / R0) by (apply Rmult_le_pos; lra). lra. }
  assert (DR : Rabs (D / R0) <= S). { unfold Rdiv. rewrite Rabs_mult, (Rabs_pos_eq (/ R0)) by lra. apply Rmult_le_reg_r with R0; [lra|]. rewrite Rmult_assoc, Rinv_l by lra. lra. }
  assert (EtR : 20 * (eta * / R0) + 2 * eta <= bpow radix2 (-700)).
  { assert (H1 : / R0 <= bpow radix2 300). { rewrite <- (Rinv_inv (bpow radix2 300)). rewrite <- bpow_opp. apply Rinv_le_contravar; [apply bpow_gt_0|exact HR]. } assert (H2 : eta * / R0 <= bpow radix2 (-775)) by (apply Rle_trans with (eta * bpow radix2 300); [apply Rmult_le_compat_l; lra|unfold eta; rewrite <- bpow_plus; apply bpow_le; lia]).
    assert (H3 : eta <= bpow radix2 (-775)) by (apply bpow_le; lia). apply Rle_trans with (bpow radix2 5 * bpow radix2 (-775)); [change (bpow radix2 5) with 32; assert (0 < bpow radix2 (-775)) by apply bpow_gt_0; lra|rewrite <- bpow_plus; apply bpow_le; lia]. }
  assert (E5 := round_error (N / r)). assert (US : 0 <= u * S) by (apply Rmult_le_pos; lra). assert (UUS : u * (u * S) <= / 1000000000000 * (u * S)) by (apply Rmult_le_compat_r; lra). assert (ER : 0 <= eta * / R0) by (apply Rmult_le_pos; lra). assert (UER : u * (eta * / R0) <= / 1000000000000 * (eta * / R0)) by (apply Rmult_le_compat_r; lra).
  assert (Sz : Rabs (N / r) <= S + (6.1 * (u * S) + 5 * (eta * / R0))). { replace (N / r) with (D / R0 + (N / r - D / R0)) by ring. eapply Rle_trans; [apply Rabs_triang|]. lra. } assert (U5 : u * Rabs (N / r) <= u * (S + (6.1 * (u * S) + 5 * (eta * / R0)))) by (apply Rmult_le_compat_l; lra).
  replace (double (N / r) - D / R0) with ((double (N / r) - N / r) + (N / r - D / R0)) by ring. eapply Rle_trans; [apply Rabs_triang|]. lra.
Qed.
Lemma angular_near x y v w : Rabs (double (double (x * w) - double (y * v)) - (x * w - y * v)) <= 3 * u * (Rabs (x * w) + Rabs (y * v)) + bpow radix2 (-1000).
Proof.
  assert (U := u_pos). assert (T := u_tiny). assert (E1 := round_error (x * w)). assert (E2 := round_error (y * v)). set (a := x * w) in *. set (b := y * v) in *. set (da := double a) in *. set (db := double b) in *. assert (E3 := round_error (da - db)). assert (Pa := Rabs_pos a). assert (Pb := Rabs_pos b). assert (Et0 : 0 < eta) by apply bpow_gt_0.
  assert (Ua : u * Rabs a <= / 1000000000000 * Rabs a) by (apply Rmult_le_compat_r; lra). assert (Ub : u * Rabs b <= / 1000000000000 * Rabs b) by (apply Rmult_le_compat_r; lra). assert (Ue : u * eta <= / 1000000000000 * eta) by (apply Rmult_le_compat_r; lra).
  assert (D : Rabs (da - db - (a - b)) <= u * (Rabs a + Rabs b) + 2 * eta). { replace (da - db - (a - b)) with ((da - a) + - (db - b)) by ring. eapply Rle_trans; [apply Rabs_triang|]. rewrite Rabs_Ropp. lra. }
  assert (Sz : Rabs (da - db) <= 1.001 * (Rabs a + Rabs b) + 2 * eta). { replace (da - db) with ((a + - b) + (da - db - (a - b))) by ring. eapply Rle_trans; [apply Rabs_triang|]. assert (A := Rabs_triang a (- b)). rewrite Rabs_Ropp in A. lra. }
  assert (U3 : u * Rabs (da - db) <= u * (1.001 * (Rabs a + Rabs b) + 2 * eta)) by (apply Rmult_le_compat_l; lra). assert (0 <= u * (Rabs a + Rabs b)) by (apply Rmult_le_pos; lra).
  assert (E4 : 8 * eta <= bpow radix2 (-1000)) by (change 8 with (bpow radix2 3); unfold eta; rewrite <- bpow_plus; apply bpow_le; lia).
  replace (double (da - db) - (a - b)) with ((double (da - db) - (da - db)) + (da - db - (a - b))) by ring. eapply Rle_trans; [apply Rabs_triang|]. lra.
Qed.

(** One completed pass of the loop.  The particle that the program computes is, up to the roundings of the last conversion, the
    particle at a place [x] with a momentum [v] (both along the old radius, across it and along z), and these are those of
    the exact substep (C56) with the exact fields at the exact middle of the substep, up to K roundings. *)
Theorem C78_2d_substep : forall n c i fl fu p d s M,
  (40 <= Z.of_nat n <= 2 ^ 46)%Z -> (0 <= i < 2 ^ 49)%Z -> ordinary_step (r_step c) -> r_step c <= 0.3 -> 0 <= max_radius c <= INR n * r_step c -> ordinary_step (xi_step c) ->
  ordinary_step d -> ordinary_step (d / 2) -> is_double d -> ordinary_ratio (q_m p) -> sign_of (q_m p) s -> stored2 p ->
  bpow radix2 (-500) <= M -> Rabs (magnetic_field c) <= M -> nodes n fl -> nodes n fu ->
  (forall k f, (k < n)%nat -> In f [E_r; E_f; E_z; B_f; B_z] -> Rabs (nth k (f fl) 0) <= M /\ Rabs (nth k (f fu) 0) <= M) ->
  let K := 210 * INR n + 22 * IZR i + 130 + 420 * (d / r_step c) + 25 * (d / xi_step c) in K * rounding <= / 10 ->
  vz (half_position_f p d) <= border (xi_step c) i ->
  let q := push_particle_f c fl fu (i + 1) (mkB p d 1 false) in
  rem q = 0%nat -> lost q = false ->
  let qm := q_m p in let p0 := momentum2_f p in
  let half := plus (place2 p) (shift (d / 2) (velocity qm p0)) in
  let z0 := - (IZR (i + 1) * xi_step c) in
  let E := e_on c z0 fu fl (sqrt (vx half ^ 2 + vy half ^ 2)) (vz half) in
  let B := b_on c z0 fu fl (sqrt (vx half ^ 2 + vy half ^ 2)) (vz half) in
  let p1 := plus p0 (times d (force s E B (velocity qm p0))) in
  let x1 := plus (place2 p) (shift d (velocity qm (mean p0 p1))) in
  exists x v,
  (forall k, In k [vx; vy; vz] ->
    Rabs (k v - k p1) <= (4 * Rabs (k p0) + (268 + 5 * K) * (d * M)) * rounding /\
    Rabs (k x - k x1) <= (3 * Rabs (k x1) + (22 + (512 + 9 * K) * (d * M / energy qm (mean p0 p1))) * d) * rounding) /\
  (let r := sqrt (vx x ^ 2 + vy x ^ 2) in
   xi (pt q) = vz x /\ p_z (pt q) = vz v /\ Rabs (rad (pt q) - r) <= 4 * rounding * r + bpow radix2 (-400) /\
   (bpow radix2 (-300) <= r -> Rabs (p_r (pt q) - (vx x * vx v + vy x * vy v) / r) <= 8 * rounding * (Rabs (vx v) + Rabs (vy v)) + bpow radix2 (-700)) /\
   (magnetic_field c = 0 -> ang (pt q) = ang p) /\
   (magnetic_field c <> 0 -> Rabs (ang (pt q) - (vx x * vy v - vy x * vx v)) <= 3 * rounding * (Rabs (vx x * vy v) + Rabs (vy x * vx v)) + bpow radix2 (-1000))) /\
  dt q = d /\ q_m (pt q) = q_m p /\ q_norm (pt q) = q_norm p /\ pid (pt q) = pid p /\ stored2 (pt q).
Proof.
  intros n c i fl fu p d s M HN Hi Hh H3 Hm Hx Hd Hd2 Dd Hq Hs St HM HB0 Nl Nu HF K HK Hz q Rq Lq qm p0 half z0 E B p1 x1. change rounding with u in *.
  unfold q in Rq, Lq |- *. unfold push_particle_f in *. cbn [rem push_loop_f pt dt] in *. unfold beam_to_vec_f in *. set (hf := half_position_f p d) in *.
  destruct (in_layer2_f hf _) eqn:IL; cbn [negb] in *; [|discriminate Rq]. destruct (is_lost2_f hf _) eqn:NT; [discriminate Lq|].
  assert (Or := not_lost2 n c hf HN Hh H3 Hm NT). assert (Eb : double (IZR (i + 1) * - xi_step c) = border (xi_step c) (i + 1)) by (unfold border; f_equal; ring). rewrite Eb in *.
  assert (Oz : RoundedDep_Spec.in_layer (xi_step c) i (vz hf)). { split; [|exact Hz]. unfold in_layer2_f in IL. destruct (Rle_dec _ _) as [G|]; [exact G|discriminate IL]. }
  assert (Fn := fields_near2 n c i fl fu p d M ltac:(lia) Hi Hh Hx Hd Hd2 Dd Hq St HM Nl Nu HB0 HF HK Or Oz). fold hf in Fn. fold p0 in Fn. fold qm in Fn. fold half in Fn. fold z0 in Fn. fold E in Fn. fold B in Fn. change (slack2 n c i d) with K in Fn. set (fe := particle_fields_f hf fl fu (border (xi_step c) (i + 1)) (r_step c) (xi_step c)) in *. clearbody fe. destruct fe as [e b].
  assert (K0 : 0 <= K). { assert (P1 := step_pos _ Hh). assert (P2 := step_pos _ Hx). assert (P3 := step_pos _ Hd). assert (A := Rdiv_lt_0_compat _ _ P3 P1). assert (A2 := Rdiv_lt_0_compat _ _ P3 P2). assert (N0 := pos_INR n). assert (I0 : 0 <= IZR i) by (apply IZR_le; lia). unfold K. lra. }
  assert (M0 : 0 < M) by (assert (B0 := bpow_gt_0 radix2 (-500)); lra). assert (U := u_pos). assert (Ku : K / 4 * u <= / 20) by (assert (0 <= K * u) by (apply Rmult_le_pos; lra); lra).
  assert (S := C78_2d_substep_in_fields c p d s e b E B (4 * M) (K / 4) Hq Hs Hd Dd St ltac:(lra) ltac:(lra) Ku Fn). cbv zeta in S. change rounding with u in S.
  assert (Do : let '(x, a) := substep_f c p d (e, b) in is_double (vz x) /\ is_double (vz a)) by (unfold substep_f, beam_to_vec_f; split; apply double_double).
  destruct (substep_f c p d (e, b)) as [x v] eqn:Hu. destruct (is_lost2_f x _) eqn:NT2; [discriminate Lq|]. clear Rq Lq. exists x, v. destruct Do as [O1 O2]. split; [|split].
  - intros k Hk. destruct (S k Hk) as [S1 S2]. fold p0 qm in S1, S2. fold p1 in S1, S2. fold x1 in S2. split.
    + eapply Rle_trans; [exact S1|]. apply Rmult_le_compat_r; [lra|]. apply Rplus_le_compat_l. right. field.
    + eapply Rle_trans; [exact S2|]. apply Rmult_le_compat_r; [lra|]. apply Rplus_le_compat_l. apply Rmult_le_compat_r; [assert (P3 := step_pos _ Hd); left; exact P3|]. unfold Rdiv. right. ring_simplify. lra.
  - cbv zeta. unfold vec_to_beam_f. cbn [pt xi rad p_z p_r ang]. split; [reflexivity|]. split; [reflexivity|]. split; [exact (radius_near (vx x) (vy x))|]. split; [exact (radial_near (vx x) (vy x) (vx v) (vy v))|]. split.
    + intros Z. destruct (Req_EM_T _ 0); [reflexivity|contradiction].
    + intros Z. destruct (Req_EM_T _ 0); [contradiction|]. apply angular_near.
  - unfold vec_to_beam_f. cbn [pt dt q_m q_norm pid]. repeat split; try assumption; cbn; apply double_double.
Qed.
Print Assumptions C78_2d_substep.
