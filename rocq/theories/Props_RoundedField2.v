(** Theorems C76: the field that a particle of the 3D beam feels, in binary64. *)
From Coq Require Import Reals ZArith List Bool Lra Lia Psatz FunctionalExtensionality.
From Flocq Require Import Core.
From Verif Require Import Float_Model Float_Proofs Beam2D_Model Beam2D_Spec Beam2D_Free Beam3D_Model Beam3D_Spec Shape_Model Shape_Spec Shape_Proofs Rounded3D_Model RoundedBeam_Spec RoundedBeam_Model BeamPush_Spec Props_RoundedBeam RoundedSum_Proofs RoundedWeight_Proofs RoundedDep_Model RoundedDep_Spec RoundedDep_Proofs Props_RoundedDep RoundedCell_Proofs Props_RoundedCell RoundedField_Model RoundedField_Proofs Props_RoundedField.
Import ListNotations.
Open Scope R_scope.

(** The depth of xi below the front of the layer, in steps, as a negative number. *)
Definition depth (dxi : R) (i : Z) (z : R) : R := (z - - (IZR i * dxi)) / dxi.

Lemma depth_is dxi i z : depth_f dxi i z = - xi_loc_f dxi i z.
Proof.
  unfold depth_f, xi_loc_f. replace (- dxi * IZR i) with (IZR i * - dxi) by ring. rewrite <- double_opp. f_equal. unfold Rdiv. rewrite Ropp_mult_distr_l. f_equal. rewrite <- double_opp. f_equal. ring.
Qed.
Lemma depth_near dxi i z : ordinary_step dxi -> (0 <= i < 2 ^ 49)%Z -> in_layer dxi i z -> Rabs (depth_f dxi i z - depth dxi i z) <= (IZR i + 3) * u /\ - (3/2) <= depth_f dxi i z <= 0.
Proof.
  intros H Hi L. rewrite depth_is. assert (A := xi_loc_near dxi i z H Hi L). assert (B := xi_loc_range dxi i z H Hi L). assert (P := step_pos _ H). split; [|lra].
  replace (- xi_loc_f dxi i z - depth dxi i z) with (- (xi_loc_f dxi i z - (- dxi * IZR i - z) / dxi)) by (unfold depth; field; lra). rewrite Rabs_Ropp. exact A.
Qed.
Lemma field_size N h F x y M : ordinary_step h -> (Z.of_nat N <= 2 ^ 46)%Z -> off_edge 4 (Z.of_nat N) h x -> off_edge 4 (Z.of_nat N) h y -> 0 <= M -> (forall a b, (0 <= a < Z.of_nat N)%Z -> (0 <= b < Z.of_nat N)%Z -> Rabs (F a b) <= M) ->
  Rabs (grid_value N h F x y) <= M.
Proof.
  intros Hh HN Hx Hy HM HF. unfold grid_value. assert (K := gsum_close N (fun a b => F a b * shape (Z.of_nat N) h x y a b) (fun _ _ => 0) (fun a b => M * shape (Z.of_nat N) h x y a b)).
  rewrite gsum_scal, shape_sum, Rmult_1_r in K by (apply axis_inside; assumption). replace (gsum N (fun _ _ => 0)) with 0 in K by (unfold gsum; rewrite (sumZ_ext N _ (fun _ => 0)) by (intros; apply sumZ_0); symmetry; apply sumZ_0). rewrite Rminus_0_r in K. apply K.
  intros a b Ha Hb. rewrite Rminus_0_r, Rabs_mult. unfold shape. rewrite (Rabs_pos_eq (spline4 _ * spline4 _)) by (apply Rmult_le_pos; apply spline_range). apply Rmult_le_compat_r; [apply Rmult_le_pos; apply spline_range|now apply HF].
Qed.

(** The field on a beam particle between layers i and i + 1 is the spline interpolation of the two layers' fields, with the
    program's longitudinal weights d and 1 - d, d being the (negative) depth under the front of the layer. *)
Theorem C76_3d_beam_field : forall N h dxi i x y z F G M, ordinary_step h -> ordinary_step dxi -> (Z.of_nat N <= 2 ^ 46)%Z -> (0 <= i < 2 ^ 49)%Z ->
  off_edge 4 (Z.of_nat N) h x -> off_edge 4 (Z.of_nat N) h y -> in_layer dxi i z -> bpow radix2 (-500) <= M ->
  (forall a b, (0 <= a < Z.of_nat N)%Z -> (0 <= b < Z.of_nat N)%Z -> Rabs (F a b) <= M /\ Rabs (G a b) <= M) ->
  Rabs (interp3_f (Z.of_nat N) h dxi i x y z F G - mixed N h dxi (- (IZR i * dxi)) F G x y z) <= (56 * INR N + 2 * IZR i + 2000) * rounding * M.
Proof.
  intros N h dxi i x y z F G M Hh Hd HN Hi Hx Hy Hz HM HFG. set (d := depth dxi i z). change (mixed N h dxi (- (IZR i * dxi)) F G x y z) with (d * grid_value N h F x y + (1 - d) * grid_value N h G x y). assert (M0 : 0 <= M) by (assert (K := bpow_gt_0 radix2 (-500)); lra). assert (U := u_pos). assert (T := u_tiny). assert (UM : 0 <= u * M) by (apply Rmult_le_pos; lra).
  destruct (depth_near dxi i z Hd Hi Hz) as [Dn Dr]. fold d in Dn. set (l := depth_f dxi i z) in *.
  set (H := fun a b => F a b * l + G a b * (1 - l)).
  assert (HH : forall a b, (0 <= a < Z.of_nat N)%Z -> (0 <= b < Z.of_nat N)%Z -> Rabs (H a b) <= 4 * M).
  { intros a b Ha Hb. destruct (HFG a b Ha Hb) as [A B]. unfold H. eapply Rle_trans; [apply Rabs_triang|]. rewrite !Rabs_mult. assert (L1 : Rabs l <= 3/2) by (apply Rabs_le; lra). assert (L2 : Rabs (1 - l) <= 5/2) by (apply Rabs_le; lra).
    assert (Rabs (F a b) * Rabs l <= M * (3/2)) by (apply Rmult_le_compat; try apply Rabs_pos; assumption). assert (Rabs (G a b) * Rabs (1 - l) <= M * (5/2)) by (apply Rmult_le_compat; try apply Rabs_pos; assumption). lra. }
  set (C := cell_at N h x y). set (W := weight_at h x y). set (w := rounded_weight_at h x y).
  set (v := fun k => double (double (F (fst (C k)) (snd (C k)) * double (w k * l)) + double (G (fst (C k)) (snd (C k)) * double (w k * double (1 - l))))). set (V := fun k => H (fst (C k)) (snd (C k)) * W k).
  assert (E : interp3_f (Z.of_nat N) h dxi i x y z F G = fold_left (fun s k => double (s + v k)) pairs 0).
  { unfold interp3_f. cbv zeta. rewrite (fold_pairs (fun s kx ky => double (s + double (double (F (cell (Z.of_nat N) (x_h_f h x) + kx)%Z (cell (Z.of_nat N) (x_h_f h y) + ky)%Z * double (double (weight4_f double (loc_f double (x_h_f h x)) kx * weight4_f double (loc_f double (x_h_f h y)) ky) * weight1_f l 0)) +
      double (G (cell (Z.of_nat N) (x_h_f h x) + kx)%Z (cell (Z.of_nat N) (x_h_f h y) + ky)%Z * double (double (weight4_f double (loc_f double (x_h_f h x)) kx * weight4_f double (loc_f double (x_h_f h y)) ky) * weight1_f l 1))))) places places). reflexivity. }
  assert (Al : approx 2.6 (double (1 - l)) (1 - l)) by (rd 2.5; [apply ap_refl|lra|apply Rabs_le; lra|lra]).
  assert (One : 0 < 1 <= bpow radix2 300) by (split; [lra|]; change 1 with (bpow radix2 0); apply bpow_le; lia). assert (HM' : bpow radix2 (-510) <= M) by (eapply Rle_trans; [|exact HM]; apply bpow_le; lia).
  assert (Near : forall k, In k pairs -> Rabs (v k - V k) <= 14 * u * (4 * M)).
  { intros k Hk. destruct (pair_ap (x_h_f h x) (x_h_f h y) k Hk) as [Ap [B0 B1]]. destruct (cell_at_in N h x y Hh HN Hx Hy k Hk) as [A B]. destruct (HFG _ _ A B) as [FM GM]. fold (w k) in Ap. change (approx 9.1 (w k) (W k)) in Ap. change (0 <= W k) in B0. change (W k <= 1) in B1.
    assert (A0 : approx 15.3 (double (w k * l)) (W k * l)).
    { rd 1.5; [apply (ap_mul 9.1 0 _ _ _ _ 1 1.5); [lra|lra|apply Rabs_le; lra|apply Rabs_le; lra|exact Ap|apply ap_refl]|lra|rewrite Rabs_mult; replace 1.5 with (1 * 1.5) by lra; apply Rmult_le_compat; try apply Rabs_pos; apply Rabs_le; lra|lra]. }
    assert (A1 : approx 28 (double (w k * double (1 - l))) (W k * (1 - l))).
    { rd 2.5; [apply (ap_mul 9.1 2.6 _ _ _ _ 1 2.5); [lra|lra|apply Rabs_le; lra|apply Rabs_le; lra|exact Ap|exact Al]|lra|rewrite Rabs_mult; replace 2.5 with (1 * 2.5) by lra; apply Rmult_le_compat; try apply Rabs_pos; apply Rabs_le; lra|lra]. }
    assert (S0 := times_charge_s 1 M (F (fst (C k)) (snd (C k))) 15.3 _ (W k * l) 1.5 One HM' FM ltac:(lra) ltac:(rewrite Rabs_mult; replace 1.5 with (1 * 1.5) by lra; apply Rmult_le_compat; try apply Rabs_pos; apply Rabs_le; lra) ltac:(lra) ltac:(rewrite Rmult_1_r; exact A0)).
    assert (S1 := times_charge_s 1 M (G (fst (C k)) (snd (C k))) 28 _ (W k * (1 - l)) 2.5 One HM' GM ltac:(lra) ltac:(rewrite Rabs_mult; replace 2.5 with (1 * 2.5) by lra; apply Rmult_le_compat; try apply Rabs_pos; apply Rabs_le; lra) ltac:(lra) ltac:(rewrite Rmult_1_r; exact A1)).
    rewrite !Rmult_1_r in S0, S1. unfold v, V. assert (HB := HH _ _ A B). fold (C k) in HB. set (p0 := double (F _ _ * double (w k * l))) in *. set (p1 := double (G _ _ * double (w k * double (1 - l)))) in *.
    assert (Sm := sum_error p0 p1 (double_double _) (double_double _)). set (f := F (fst (C k)) (snd (C k))) in *. set (g := G (fst (C k)) (snd (C k))) in *. change (H (fst (C k)) (snd (C k))) with (f * l + g * (1 - l)) in *.
    assert (Pp : Rabs (p0 + p1 - (f * l + g * (1 - l)) * W k) <= 47.4 * u * M). { replace (p0 + p1 - (f * l + g * (1 - l)) * W k) with ((p0 - f * (W k * l)) + (p1 - g * (W k * (1 - l)))) by ring. eapply Rle_trans; [apply Rabs_triang|]. lra. }
    assert (Q : Rabs ((f * l + g * (1 - l)) * W k) <= 4 * M * 1) by (rewrite Rabs_mult; apply Rmult_le_compat; try apply Rabs_pos; [exact HB|apply Rabs_le; lra]).
    assert (Q2 : Rabs (p0 + p1) <= 5 * M). { replace (p0 + p1) with ((p0 + p1 - (f * l + g * (1 - l)) * W k) + (f * l + g * (1 - l)) * W k) by ring. eapply Rle_trans; [apply Rabs_triang|]. assert (47.4 * u * M <= 1 * M) by (apply Rmult_le_compat_r; lra). lra. }
    assert (Q3 : u * Rabs (p0 + p1) <= u * (5 * M)) by (apply Rmult_le_compat_l; lra).
    replace (double (p0 + p1) - (f * l + g * (1 - l)) * W k) with ((double (p0 + p1) - (p0 + p1)) + (p0 + p1 - (f * l + g * (1 - l)) * W k)) by ring. eapply Rle_trans; [apply Rabs_triang|]. lra. }
  assert (M4 : 0 <= 4 * M) by lra.
  assert (Cl := fold_close v V pairs 14 (4 * M) 1 ltac:(cbn; lia) ltac:(lra) M4 (fun k _ => double_double _) Near (sizes_at N h x y Hh HN Hx Hy H (4 * M) M4 HH) ltac:(lra)).
  assert (D := place_error N h x y Hh HN Hx Hy H (4 * M) M4 HH). rewrite <- E in Cl. change (length pairs) with 25%nat in Cl. replace (INR 25) with 25 in Cl by (cbn; lra).
  assert (Sp : gsum N (fun a b => H a b * shape (Z.of_nat N) h x y a b) = l * grid_value N h F x y + (1 - l) * grid_value N h G x y).
  { unfold grid_value. rewrite <- !gsum_scal, <- gsum_plus. apply gsum_ext. intros. unfold H. ring. }
  rewrite Sp in D. change (fun k => H (fst (cell_at N h x y k)) (snd (cell_at N h x y k)) * weight_at h x y k) with V in D. change rounding with u.
  assert (IF := field_size N h F x y M Hh HN Hx Hy M0 (fun a b A B => proj1 (HFG a b A B))). assert (IG := field_size N h G x y M Hh HN Hx Hy M0 (fun a b A B => proj2 (HFG a b A B))).
  set (f := grid_value N h F x y) in *. set (g := grid_value N h G x y) in *. set (r := interp3_f _ _ _ _ _ _ _ _ _) in *. set (s := sumR (map V pairs)) in *.
  assert (Fg : Rabs (f - g) <= 2 * M). { replace (f - g) with (f + - g) by ring. eapply Rle_trans; [apply Rabs_triang|]. rewrite Rabs_Ropp. lra. }
  assert (Lo : Rabs ((l - d) * (f - g)) <= (IZR i + 3) * u * (2 * M)) by (rewrite Rabs_mult; apply Rmult_le_compat; try apply Rabs_pos; assumption).
  replace (r - (d * f + (1 - d) * g)) with ((r - s) + ((s - (l * f + (1 - l) * g)) + (l - d) * (f - g))) by ring. eapply Rle_trans; [apply Rabs_triang|]. eapply Rle_trans; [apply Rplus_le_compat_l, Rabs_triang|]. unfold axis_e in D. lra.
Qed.

(** The same for the six components which the mover asks for together. *)
Theorem C76_3d_beam_fields : forall N h dxi i x y z fk fk1 M, ordinary_step h -> ordinary_step dxi -> (Z.of_nat N <= 2 ^ 46)%Z -> (0 <= i < 2 ^ 49)%Z ->
  off_edge 4 (Z.of_nat N) h x -> off_edge 4 (Z.of_nat N) h y -> in_layer dxi i z -> bpow radix2 (-500) <= M ->
  (forall a b f, (0 <= a < Z.of_nat N)%Z -> (0 <= b < Z.of_nat N)%Z -> In f [Ex; Ey; Ez; Bx; By; Bz] -> Rabs (f fk a b) <= M /\ Rabs (f fk1 a b) <= M) ->
  let '((ex, ey, ez), (bx, b_y, bz)) := fields_at_f (Z.of_nat N) h dxi i (x, y, z) fk fk1 in
  let near v f := Rabs (v - mixed N h dxi (- (IZR i * dxi)) (f fk) (f fk1) x y z) <= (56 * INR N + 2 * IZR i + 2000) * rounding * M in
  near ex Ex /\ near ey Ey /\ near ez Ez /\ near bx Bx /\ near b_y By /\ near bz Bz.
Proof.
  intros N h dxi i x y z fk fk1 M Hh Hd HN Hi Hx Hy Hz HM HF. unfold fields_at_f. cbv zeta.
  assert (Main : forall f, In f [Ex; Ey; Ez; Bx; By; Bz] -> Rabs (interp3_f (Z.of_nat N) h dxi i x y z (f fk) (f fk1) - mixed N h dxi (- (IZR i * dxi)) (f fk) (f fk1) x y z) <= (56 * INR N + 2 * IZR i + 2000) * rounding * M).
  { intros f Hf. apply C76_3d_beam_field; try assumption. intros a b Ha Hb. now apply HF. }
  repeat split; apply Main; cbn; tauto.
Qed.
(** In the middle of the first layer the two weights are -1/2 and 3/2 (see C21). *)
Definition case_fields3 (v : R) : fields3 := let g k := fun a b : Z => case_spike (k * v) (Z.to_nat a) (Z.to_nat b) in mkF3 (g 1) (g 2) (g 3) (g 4) (g 5) (g 0).
Example C76_3d_beam_case : let '((ex, ey, ez), (bx, b_y, bz)) := fields_at_f 11 (1/2) (1/2) 0 (0, 0, - (1/4)) (case_fields3 2) (case_fields3 1) in
  let near v k := Rabs (v - k * (1/2) * (115/192) ^ 2) <= 30000 * rounding in near ex 1 /\ near ey 2 /\ near ez 3 /\ near bx 4 /\ near b_y 5 /\ near bz 0.
Proof.
  assert (B0 : border (1/2) 0 = 0) by (rewrite case_border by lia; lra). assert (B1 : border (1/2) 1 = - (1/2)) by (rewrite case_border by lia; lra).
  assert (K := C76_3d_beam_fields 11 (1/2) (1/2) 0 0 0 (- (1/4)) (case_fields3 2) (case_fields3 1) 10 case_step case_step ltac:(cbn; lia) ltac:(lia) case_off case_off ltac:(unfold in_layer; cbn [Z.add]; rewrite B0, B1; lra)
    ltac:(rewrite <- (Rabs_pos_eq 10) by lra; apply case_ordinary; rewrite Rabs_pos_eq; lra)).
  assert (HF : forall a b f, (0 <= a < Z.of_nat 11)%Z -> (0 <= b < Z.of_nat 11)%Z -> In f [Ex; Ey; Ez; Bx; By; Bz] -> Rabs (f (case_fields3 2) a b) <= 10 /\ Rabs (f (case_fields3 1) a b) <= 10).
  { intros a b f _ _ Hf. repeat (destruct Hf as [<-|Hf]; [cbn [case_fields3 Ex Ey Ez Bx By Bz]; split; (eapply Rle_trans; [apply case_spike_size|rewrite Rabs_pos_eq; lra])|]). destruct Hf. }
  specialize (K HF). change (Z.of_nat 11) with 11%Z in K. destruct (fields_at_f _ _ _ _ _ _ _) as [[[ex ey] ez] [[bx b_y] bz]]. cbv zeta in *. destruct K as (K1 & K2 & K3 & K4 & K5 & K6).
  assert (Mx : forall k, mixed 11 (1/2) (1/2) (- (0 * (1/2))) (fun a b => case_spike (k * 2) (Z.to_nat a) (Z.to_nat b)) (fun a b => case_spike (k * 1) (Z.to_nat a) (Z.to_nat b)) 0 0 (- (1/4)) = k * (1/2) * (115/192) ^ 2).
  { intros k. unfold mixed, grid_value. change (Z.of_nat 11) with 11%Z. rewrite !case_value. replace ((- (1/4) - - (0 * (1/2))) / (1/2)) with (- (1/2)) by field. field. }
  cbn [case_fields3 Ex Ey Ez Bx By Bz] in *. rewrite Mx in K1, K2, K3, K4, K5, K6. replace (INR 11) with 11 in * by (cbn; lra). assert (U := u_pos). rewrite rounding_u in *.
  repeat split; (eapply Rle_trans; [eassumption|lra]).
Qed.
Print Assumptions C76_3d_beam_fields.
