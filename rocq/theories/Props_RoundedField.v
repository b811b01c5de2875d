(** Theorems C76: the fields that particles of the 3D code feel, in binary64. *)
From Coq Require Import Reals ZArith List Bool Lra Lia Psatz FunctionalExtensionality.
From Flocq Require Import Core.
From Verif Require Import Float_Model Float_Proofs Beam2D_Model Beam2D_Spec Beam2D_Free Beam3D_Model Beam3D_Spec Shape_Model Shape_Spec Shape_Proofs Plasma3D_Model Plasma3D_Spec Rounded3D_Model RoundedBeam_Spec RoundedBeam_Model Props_RoundedBeam RoundedSum_Proofs RoundedWeight_Proofs RoundedDep_Model RoundedDep_Spec RoundedDep_Proofs Props_RoundedDep RoundedCell_Proofs Props_RoundedCell RoundedField_Proofs.
Import ListNotations.
Open Scope R_scope.

Lemma x_h_is h x : double (double (x / h) + half double) = x_h_f h x.
Proof. rewrite half_is. unfold x_h_f. f_equal. lra. Qed.
(** ** One axis *)
Section Axis.
  Variables (N : nat) (h x : R).
  Hypotheses (Hh : ordinary_step h) (HN : (Z.of_nat N <= 2 ^ 46)%Z) (He : off_edge 4 (Z.of_nat N) h x).
  Let X := x_h_f h x.
  Definition axis_w (a : Z) : R := ext (weight4 (loc_f double (x_h_f h x))) (a - cell (Z.of_nat N) (x_h_f h x)).
  Definition axis_s (a : Z) : R := spline4 (IZR (a - Z.of_nat N / 2) - x / h).
  Definition axis_e : R := (INR N + 2.8) * u.
  Lemma axis_u : INR N * u <= / 100 /\ 0 <= axis_e <= / 10.
  Proof.
    assert (U := u_pos). assert (T := u_tiny). assert (N0 := pos_INR N). assert (K : INR N <= IZR (2 ^ 46)) by (rewrite INR_IZR_INZ; now apply IZR_le). assert (V := u_small). replace (IZR (2 ^ 53)) with (128 * IZR (2 ^ 46)) in V by (rewrite <- mult_IZR; reflexivity).
    assert (A : INR N * u <= / 100) by nra. split; [exact A|]. unfold axis_e. split; [apply Rmult_le_pos; lra|lra].
  Qed.
  Lemma axis_cells : forall k, In k places -> (0 <= cell (Z.of_nat N) X + k < Z.of_nat N)%Z.
  Proof. apply off_edge_cells; [exact Hh|lia|exact He]. Qed.
  Lemma axis_half : 0 < h /\ Rabs (x / h) <= IZR (Z.of_nat N / 2) - 4 /\ IZR (Z.of_nat N / 2) <= INR N / 2 /\ IZR (Z.of_nat N / 2) <= IZR (Z.of_nat N - Z.of_nat N / 2).
  Proof.
    assert (P := step_pos _ Hh). split; [exact P|]. split.
    - unfold Rdiv. rewrite Rabs_mult, (Rabs_pos_eq (/ h)) by (left; now apply Rinv_0_lt_compat). apply (Rmult_le_reg_r h); [exact P|]. rewrite Rmult_assoc, Rinv_l, Rmult_1_r by lra. exact He.
    - assert (K := Z.mul_div_le (Z.of_nat N) 2 ltac:(lia)). split; [|apply IZR_le; lia]. rewrite INR_IZR_INZ. apply IZR_le in K. rewrite mult_IZR in K. lra.
  Qed.
  Lemma axis_near_x : Rabs (X - (x / h + 1/2)) <= (INR N + 0.7) * u.
  Proof.
    destruct axis_half as (P & A & B & _). destruct axis_u as [C _]. apply x_h_near; [exact P| |apply pos_INR|lra]. unfold off_edge in He. eapply Rle_trans; [exact He|]. apply Rmult_le_compat_r; lra.
  Qed.
  Lemma axis_near a : Rabs (axis_w a - axis_s a) <= axis_e.
  Proof.
    assert (A := axis_near_x). destruct axis_u as [_ [_ C]]. unfold axis_e in *. assert (U := u_pos). assert (T := ext_near (Z.of_nat N) X a (x / h) _ A ltac:(lra)). unfold axis_w, axis_s. fold X. lra.
  Qed.
  Lemma axis_inside : inside (Z.of_nat N) h x.
  Proof. destruct axis_half as (_ & A & _ & B). apply Rabs_le_inv in A. unfold inside. replace (Z.of_nat N - 1 - Z.of_nat N / 2)%Z with (Z.of_nat N - Z.of_nat N / 2 - 1)%Z by lia. rewrite (minus_IZR _ 1). lra. Qed.
  Lemma axis_sums : sumZ N axis_w = 1 /\ sumZ N axis_s = 1.
  Proof. split; [apply ext_sum, axis_cells|apply spline_sum, axis_inside]. Qed.
  Lemma axis_pos a : 0 <= axis_w a /\ 0 <= axis_s a.
  Proof. split; [|apply spline_range]. unfold axis_w, ext. destruct (near5 _) eqn:E; [|lra]. apply near5_in in E. apply w4_pos; [apply loc_f_in|exact E]. Qed.
  Lemma axis_out a : (a <= cell (Z.of_nat N) X - 4 \/ cell (Z.of_nat N) X + 4 <= a)%Z -> axis_w a = 0 /\ axis_s a = 0.
  Proof.
    intros Ha. split.
    - unfold axis_w. fold X. unfold ext. destruct (near5 _) eqn:E; [|reflexivity]. apply near5_in in E. cbn in E. lia.
    - unfold axis_s. apply spline_out. assert (A := axis_near_x). destruct axis_u as [B [_ C]]. assert (U := u_pos). assert (T := u_tiny). apply Rabs_le_inv in A. assert (F := floorR_spec X). unfold cell in Ha. rewrite minus_IZR.
      destruct Ha as [Ha|Ha]; apply IZR_le in Ha; rewrite ?minus_IZR, ?plus_IZR in Ha; [rewrite Rabs_left by lra|rewrite Rabs_pos_eq by lra]; lra.
  Qed.
End Axis.

(** the 25 exact weights at the computed place *)
Definition weight_at (h x y : R) (k : Z * Z) : R := weight4 (loc_f double (x_h_f h x)) (fst k) * weight4 (loc_f double (x_h_f h y)) (snd k).
Definition cell_at (N : nat) (h x y : R) (k : Z * Z) : Z * Z := (cell (Z.of_nat N) (x_h_f h x) + fst k, cell (Z.of_nat N) (x_h_f h y) + snd k)%Z.
Definition rounded_weight_at (h x y : R) (k : Z * Z) : R := double (weight4_f double (loc_f double (x_h_f h x)) (fst k) * weight4_f double (loc_f double (x_h_f h y)) (snd k)).

Section Gather3.
  Variables (N : nat) (h x y : R).
  Hypotheses (Hh : ordinary_step h) (HN : (Z.of_nat N <= 2 ^ 46)%Z) (Hx : off_edge 4 (Z.of_nat N) h x) (Hy : off_edge 4 (Z.of_nat N) h y).
  Lemma cell_at_in k : In k pairs -> let c := cell_at N h x y k in (0 <= fst c < Z.of_nat N)%Z /\ (0 <= snd c < Z.of_nat N)%Z.
  Proof. intros Hk. destruct k as [kx ky]. apply in_prod_iff in Hk. destruct Hk as [Kx Ky]. cbn. split; [apply (axis_cells N h x Hh HN Hx _ Kx)|apply (axis_cells N h y Hh HN Hy _ Ky)]. Qed.
  (** from the computed place to the true one *)
  Lemma place_error (F : grid) M : 0 <= M -> (forall a b, (0 <= a < Z.of_nat N)%Z -> (0 <= b < Z.of_nat N)%Z -> Rabs (F a b) <= M) ->
    Rabs (sumR (map (fun k => F (fst (cell_at N h x y k)) (snd (cell_at N h x y k)) * weight_at h x y k) pairs) - gsum N (fun a b => F a b * shape (Z.of_nat N) h x y a b)) <= 14 * axis_e N * M.
  Proof.
    intros HM HF. destruct (axis_u N HN) as [_ [E0 _]].
    assert (S := pairs_gsum N _ _ (weight4 (loc_f double (x_h_f h x))) (weight4 (loc_f double (x_h_f h y))) F (axis_cells N h x Hh HN Hx) (axis_cells N h y Hh HN Hy)).
    unfold cell_at, weight_at. cbn [fst snd]. rewrite S. 
    exact (window_close N M (axis_e N) _ _ (axis_w N h x) (axis_w N h y) (axis_s N h x) (axis_s N h y) F HM E0 HF (fun b => proj1 (axis_pos N h y b)) (fun a => proj2 (axis_pos N h x a)) (proj1 (axis_sums N h y Hh HN Hy)) (proj2 (axis_sums N h x Hh HN Hx))
      (axis_near N h x Hh HN Hx) (axis_near N h y Hh HN Hy) (axis_out N h x Hh HN Hx) (axis_out N h y Hh HN Hy)).
  Qed.
  Lemma weight_at_sum : sumR (map (weight_at h x y) pairs) = 1 /\ forall k, In k pairs -> 0 <= weight_at h x y k <= 1.
  Proof.
    split; [unfold weight_at; rewrite (pairs_sum (weight4 (loc_f double (x_h_f h x))) (weight4 (loc_f double (x_h_f h y)))), !w4_sum; ring|]. intros k Hk. exact (proj2 (pair_ap (x_h_f h x) (x_h_f h y) k Hk)).
  Qed.
  Lemma sizes_at (F : grid) M : 0 <= M -> (forall a b, (0 <= a < Z.of_nat N)%Z -> (0 <= b < Z.of_nat N)%Z -> Rabs (F a b) <= M) ->
    sumR (map (fun k => Rabs (F (fst (cell_at N h x y k)) (snd (cell_at N h x y k)) * weight_at h x y k)) pairs) <= 1 * M.
  Proof.
    intros HM HF. destruct weight_at_sum as [S P]. rewrite <- S. assert (I : incl pairs pairs) by (intros k; auto). revert I. generalize pairs at 1 3 4. induction l as [|k l IH]; intros I; cbn [map sumR]; [lra|].
    assert (K := IH (fun z Hz => I z (or_intror Hz))). assert (Ik := I k (or_introl eq_refl)). destruct (cell_at_in k Ik) as [A B]. assert (W := P k Ik). rewrite Rabs_mult, (Rabs_pos_eq (weight_at h x y k)) by lra.
    assert (Rabs (F (fst (cell_at N h x y k)) (snd (cell_at N h x y k))) * weight_at h x y k <= M * weight_at h x y k) by (apply Rmult_le_compat_r; [lra|now apply HF]). lra.
  Qed.
End Gather3.

(** The field that a 3D plasma particle feels is the spline interpolation of the grid, to a relative error (of the
    largest value on the grid) of a few units in the last place per cell of the grid. *)
Theorem C76_3d_plasma_field : forall N h x y F M, ordinary_step h -> (Z.of_nat N <= 2 ^ 46)%Z -> off_edge 4 (Z.of_nat N) h x -> off_edge 4 (Z.of_nat N) h y ->
  bpow radix2 (-500) <= M -> (forall i j, (i < N)%nat -> (j < N)%nat -> Rabs (F i j) <= M) ->
  Rabs (gather_at_f double (Z.of_nat N) h x y F - interpolate N h F x y) <= (14 * INR N + 350) * rounding * M.
Proof.
  intros N h x y F M Hh HN Hx Hy HM HF. set (G := fun a b => F (Z.to_nat a) (Z.to_nat b)).
  assert (HG : forall a b, (0 <= a < Z.of_nat N)%Z -> (0 <= b < Z.of_nat N)%Z -> Rabs (G a b) <= M) by (intros a b Ha Hb; apply HF; lia).
  assert (M0 : 0 <= M) by (assert (K := bpow_gt_0 radix2 (-500)); lra).
  set (v := fun k => double (G (fst (cell_at N h x y k)) (snd (cell_at N h x y k)) * rounded_weight_at h x y k)). set (V := fun k => G (fst (cell_at N h x y k)) (snd (cell_at N h x y k)) * weight_at h x y k).
  assert (E : gather_at_f double (Z.of_nat N) h x y F = fold_left (fun s k => double (s + v k)) pairs 0).
  { unfold gather_at_f. cbv zeta. rewrite !x_h_is. rewrite (fold_pairs (fun s kx ky => double (s + double (F (Z.to_nat (cell (Z.of_nat N) (x_h_f h x) + kx)) (Z.to_nat (cell (Z.of_nat N) (x_h_f h y) + ky)) * double (weight4_f double (loc_f double (x_h_f h x)) kx * weight4_f double (loc_f double (x_h_f h y)) ky)))) places places). reflexivity. }
  assert (Near : forall k, In k pairs -> Rabs (v k - V k) <= 10.11 * u * M).
  { intros k Hk. destruct (pair_ap (x_h_f h x) (x_h_f h y) k Hk) as [Ap [B0 B1]]. destruct (cell_at_in N h x y Hh HN Hx Hy k Hk) as [A B].
    assert (T := times_charge_s 1 M (G (fst (cell_at N h x y k)) (snd (cell_at N h x y k))) 9.1 (rounded_weight_at h x y k) (weight_at h x y k) 1 ltac:(split; [lra|]; change 1 with (bpow radix2 0); apply bpow_le; lia)
      ltac:(eapply Rle_trans; [|exact HM]; apply bpow_le; lia) (HG _ _ A B) ltac:(lra) ltac:(unfold weight_at; apply Rabs_le; lra) ltac:(lra) ltac:(rewrite Rmult_1_r; exact Ap)). rewrite Rmult_1_r in T. unfold v, V. eapply Rle_trans; [exact T|]. assert (0 <= u * M) by (apply Rmult_le_pos; [left; apply u_pos|exact M0]). lra. }
  assert (C := fold_close v V pairs 10.11 M 1 ltac:(cbn; lia) ltac:(lra) M0 (fun k _ => double_double _) Near (sizes_at N h x y Hh HN Hx Hy G M M0 HG) ltac:(lra)).
  assert (D := place_error N h x y Hh HN Hx Hy G M M0 HG). rewrite <- E in C. change (length pairs) with 25%nat in C. replace (INR 25) with 25 in C by (cbn; lra).
  change (interpolate N h F x y) with (gsum N (fun a b => G a b * shape (Z.of_nat N) h x y a b)). change rounding with u.
  set (g := gather_at_f _ _ _ _ _ _) in *. fold V in D. set (s := sumR (map V pairs)) in *. set (t := gsum N _) in *. replace (g - t) with ((g - s) + (s - t)) by ring. eapply Rle_trans; [apply Rabs_triang|]. unfold axis_e in D.
  assert (0 <= u * M) by (apply Rmult_le_pos; [left; apply u_pos|exact M0]). lra.
Qed.

(** A field on one node only, the centre of the grid, seen from there. *)
Definition case_spike (v : R) : nat -> nat -> R := fun a b => if (a =? 5)%nat && (b =? 5)%nat then v else 0.
Lemma case_value v : gsum 11 (fun a b => case_spike v (Z.to_nat a) (Z.to_nat b) * shape 11 (1/2) 0 0 a b) = v * (115/192) ^ 2.
Proof.
  assert (S : spline4 (0 - 0 / (1 / 2)) = 115 / 192). { replace (0 - 0 / (1/2)) with 0 by lra. rewrite <- (Rminus_0_r 0) at 1. rewrite <- (w4_spline 0 0 ltac:(lra) ltac:(cbn; auto)). cbn. lra. }
  unfold gsum. transitivity (sumZ 11 (fun a => if (a =? 5)%Z then v * (115/192) ^ 2 else 0)); [|rewrite sumZ_delta; reflexivity]. apply sumZ_ext. intros a Ha. destruct (Z.eqb_spec a 5) as [->|N].
  - transitivity (sumZ 11 (fun b => if (b =? 5)%Z then v * (115/192) ^ 2 else 0)); [|rewrite sumZ_delta; reflexivity]. apply sumZ_ext. intros b Hb. destruct (Z.eqb_spec b 5) as [->|N].
    + unfold case_spike, shape. change ((Z.to_nat 5 =? 5)%nat) with true. cbn [andb]. change (11 / 2)%Z with 5%Z. change (IZR (5 - 5)) with 0. rewrite S. ring.
    + unfold case_spike. destruct (Nat.eqb_spec (Z.to_nat b) 5) as [E|E]; [lia|]. rewrite andb_false_r. ring.
  - transitivity (sumZ 11 (fun _ => 0)); [|apply sumZ_0]. apply sumZ_ext. intros b Hb. unfold case_spike. destruct (Nat.eqb_spec (Z.to_nat a) 5) as [E|E]; [lia|]. cbn [andb]. ring.
Qed.
Lemma case_off : off_edge 4 11 (1/2) 0.
Proof. unfold off_edge. change (11 / 2)%Z with 5%Z. rewrite Rabs_R0. lra. Qed.
Lemma case_spike_size v a b : Rabs (case_spike v a b) <= Rabs v.
Proof. unfold case_spike. destruct (_ && _); [lra|rewrite Rabs_R0; apply Rabs_pos]. Qed.
Example C76_3d_plasma_case : Rabs (gather_at_f double 11 (1/2) 0 0 (case_spike 4) - 4 * (115/192) ^ 2) <= 3000 * rounding.
Proof.
  rewrite <- case_value. eapply Rle_trans; [apply (C76_3d_plasma_field 11 (1/2) 0 0 (case_spike 4) 4 case_step); [cbn; lia|exact case_off|exact case_off| |]|].
  - rewrite <- (Rabs_pos_eq 4) by lra. apply case_ordinary. rewrite Rabs_pos_eq; lra.
  - intros a b _ _. eapply Rle_trans; [apply case_spike_size|]. rewrite Rabs_pos_eq; lra.
  - replace (INR 11) with 11 by (cbn; lra). assert (U := u_pos). rewrite rounding_u. lra.
Qed.
Print Assumptions C76_3d_plasma_field.
