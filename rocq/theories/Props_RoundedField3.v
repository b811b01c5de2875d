(** Theorems C76: the field that a particle of the 2D plasma feels, in binary64. *)
From Coq Require Import Reals ZArith List Bool Lra Lia Psatz FunctionalExtensionality.
From Flocq Require Import Core.
From Verif Require Import Float_Model Float_Proofs Beam2D_Model Beam2D_Spec Beam2D_Free Plasma2D_Model Plasma2D_Spec Plasma2D_Push_Spec Plasma2D_Push Plasma2D_Ode Shape_Model Shape_Spec Shape_Proofs Mirror3D_Proofs RoundedCell_Proofs Rounded3D_Model Rounded2D_Model RoundedBeam_Spec RoundedSum_Proofs RoundedWeight_Proofs RoundedDep_Model RoundedDep_Spec RoundedDep_Proofs Props_RoundedDep Props_RoundedPlasma2 Props_RoundedCell Props_RoundedCell4 RoundedField_Proofs.
Import ListNotations.
Open Scope R_scope.

Lemma sum3_close p1 p2 p3 P1 P2 P3 e M : 0 <= e <= 1000 -> 0 <= M -> is_double p1 -> is_double p2 -> is_double p3 -> Rabs (p1 - P1) <= e * u * M -> Rabs (p2 - P2) <= e * u * M -> Rabs (p3 - P3) <= e * u * M ->
  Rabs P1 <= M -> Rabs P2 <= M -> Rabs P3 <= M -> Rabs (double (double (p1 + p2) + p3) - (P1 + P2 + P3)) <= (3 * e + 6) * u * M.
Proof.
  intros He HM D1 D2 D3 E1 E2 E3 B1 B2 B3. assert (U := u_pos). assert (T := u_tiny). assert (UM : 0 <= u * M) by (apply Rmult_le_pos; lra). assert (EM : e * u * M <= 0.001 * M) by (apply Rmult_le_compat_r; [exact HM|]; nra).
  assert (S1 := sum_error p1 p2 D1 D2). assert (S2 := sum_error (double (p1 + p2)) p3 (double_double _) D3).
  assert (A1 : Rabs (p1 + p2 - (P1 + P2)) <= 2 * (e * u * M)) by (replace (p1 + p2 - (P1 + P2)) with ((p1 - P1) + (p2 - P2)) by ring; eapply Rle_trans; [apply Rabs_triang|]; lra).
  assert (A2 : Rabs (p1 + p2) <= 2.01 * M) by (replace (p1 + p2) with ((p1 + p2 - (P1 + P2)) + (P1 + P2)) by ring; eapply Rle_trans; [apply Rabs_triang|]; assert (K := Rabs_triang P1 P2); lra).
  assert (A3 : u * Rabs (p1 + p2) <= u * (2.01 * M)) by (apply Rmult_le_compat_l; lra). set (s := double (p1 + p2)) in *.
  assert (A4 : Rabs (s + p3 - (P1 + P2 + P3)) <= 3 * (e * u * M) + 2.01 * (u * M)) by (replace (s + p3 - (P1 + P2 + P3)) with ((s - (p1 + p2)) + ((p1 + p2 - (P1 + P2)) + (p3 - P3))) by ring; eapply Rle_trans; [apply Rabs_triang|]; eapply Rle_trans; [apply Rplus_le_compat_l, Rabs_triang|]; lra).
  assert (A5 : Rabs (s + p3) <= 3.5 * M) by (replace (s + p3) with ((s + p3 - (P1 + P2 + P3)) + (P1 + P2 + P3)) by ring; eapply Rle_trans; [apply Rabs_triang|]; assert (K := Rabs_triang (P1 + P2) P3); assert (K2 := Rabs_triang P1 P2); assert (u * M <= 0.001 * M) by (apply Rmult_le_compat_r; lra); lra).
  assert (A6 : u * Rabs (s + p3) <= u * (3.5 * M)) by (apply Rmult_le_compat_l; lra).
  replace (double (s + p3) - (P1 + P2 + P3)) with ((double (s + p3) - (s + p3)) + (s + p3 - (P1 + P2 + P3))) by ring. eapply Rle_trans; [apply Rabs_triang|]. lra.
Qed.

(** ** The exact interpolation is continuous in the place *)
Lemma interp_lip n sg h r r' F M E : (1 <= n)%nat -> Rabs sg <= 1 -> 0 <= M -> (forall i, (i < n)%nat -> Rabs (F i) <= M) -> Rabs (r / h - r' / h) <= E -> E <= 1 ->
  Rabs (interpolated n sg h r F - interpolated n sg h r' F) <= 21 * E * M.
Proof.
  intros Hn Hsg HM HF HE HE1. unfold interpolated. set (a := r / h) in *. set (b := r' / h) in *. clearbody a b.
  assert (E0 : 0 <= E) by (eapply Rle_trans; [apply Rabs_pos|exact HE]).
  assert (FL := floorR_spec a). set (c := floorR a) in *. apply Rabs_le_inv in HE as HE'.
  pose (D := fun z : Z => Rabs (spline2 (a - IZR z) - spline2 (b - IZR z))).
  assert (D1 : forall z, D z <= E). { intros z. unfold D. eapply Rle_trans; [apply spline2_lip|]; replace (a - IZR z - (b - IZR z)) with (a - b) by ring; lra. }
  assert (D0 : forall z, (z <= c - 4 \/ c + 4 <= z)%Z -> D z = 0).
  { intros z Hz. unfold D. rewrite !spline2_out; [replace (0 - 0) with 0 by ring; apply Rabs_R0| |]; destruct Hz as [Hz|Hz]; apply IZR_le in Hz; rewrite ?minus_IZR, ?plus_IZR in Hz; first [rewrite Rabs_pos_eq by lra; lra|rewrite Rabs_left by lra; lra]. }
  assert (S1 := sumZ_seven n c D E E0 (fun z _ => D1 z) (fun z _ => D0 z)).
  assert (S2 := sumZ_seven n (- c) (fun z => D (- z)%Z) E E0 (fun z _ => D1 _) (fun z _ H => D0 (- z)%Z ltac:(lia))).
  assert (S3 := sumZ_seven n (2 * Z.of_nat (n - 1) - c) (fun z => D (2 * Z.of_nat (n - 1) - z)%Z) E E0 (fun z _ => D1 _) (fun z _ H => D0 (2 * Z.of_nat (n - 1) - z)%Z ltac:(lia))).
  assert (G : forall i, (i < n)%nat -> Rabs (node_share n sg a i * F i - node_share n sg b i * F i) <= M * (D (Z.of_nat i) + (D (- Z.of_nat i)%Z + D (2 * Z.of_nat (n - 1) - Z.of_nat i)%Z))).
  { intros i Hi. rewrite <- Rmult_minus_distr_r, Rabs_mult, Rmult_comm. apply Rmult_le_compat; try apply Rabs_pos; [now apply HF|]. unfold node_share, D. rewrite opp_IZR, minus_IZR, mult_IZR, <- !INR_IZR_INZ.
    set (x1 := spline2 (a - INR i)). set (y1 := spline2 (b - INR i)). replace (a - - INR i) with (a + INR i) by ring. replace (b - - INR i) with (b + INR i) by ring. set (x2 := spline2 (a + INR i)). set (y2 := spline2 (b + INR i)).
    set (x3 := spline2 (a - (2 * INR (n - 1) - INR i))). set (y3 := spline2 (b - (2 * INR (n - 1) - INR i))).
    assert (K2 : Rabs ((if (i =? 0)%nat then 0 else sg * x2) - (if (i =? 0)%nat then 0 else sg * y2)) <= Rabs (x2 - y2)).
    { destruct (i =? 0)%nat; [replace (0 - 0) with 0 by ring; rewrite Rabs_R0; apply Rabs_pos|]. rewrite <- Rmult_minus_distr_l, Rabs_mult. assert (K := Rabs_pos (x2 - y2)). nra. }
    assert (K3 : Rabs ((if (i =? n - 1)%nat then 0 else x3) - (if (i =? n - 1)%nat then 0 else y3)) <= Rabs (x3 - y3)) by (destruct (i =? n - 1)%nat; [replace (0 - 0) with 0 by ring; rewrite Rabs_R0; apply Rabs_pos|lra]).
    match goal with |- Rabs (x1 + ?p + ?q - (y1 + ?s + ?t)) <= _ => replace (x1 + p + q - (y1 + s + t)) with ((x1 - y1) + ((p - s) + (q - t))) by ring end. eapply Rle_trans; [apply Rabs_triang|]. eapply Rle_trans; [apply Rplus_le_compat_l, Rabs_triang|]. lra. }
  assert (Z1 : forall f g b0 m, (m <= n)%nat -> (forall i, (i < n)%nat -> Rabs (f i - g i) <= b0 i) -> Rabs (sumN m f - sumN m g) <= sumN m b0).
  { intros f g b0 m Hm H. induction m as [|m IH]; cbn [sumN]; [replace (0 - 0) with 0 by ring; rewrite Rabs_R0; lra|]. replace (sumN m f + f m - (sumN m g + g m)) with ((sumN m f - sumN m g) + (f m - g m)) by ring. eapply Rle_trans; [apply Rabs_triang|]. assert (K := H m ltac:(lia)). assert (K2 := IH ltac:(lia)). lra. }
  eapply Rle_trans; [apply (Z1 _ _ _ n (le_n n) G)|]. rewrite sumN_scal, !sumN_plus. rewrite !sumZ_N in S1, S2, S3. replace (21 * E * M) with (M * (7 * E + (7 * E + 7 * E))) by ring. apply Rmult_le_compat_l; lra.
Qed.

(** ** The formula at a cell, in exact arithmetic, as program text *)
Definition left_node (n : nat) (sg : R) (g : nat -> R) (c : Z) : R := if (c =? 0)%Z then sg * g 1%nat else g (Z.to_nat c - 1)%nat.
Definition right_node (n : nat) (g : nat -> R) (c : Z) : R := g (if (c =? Z.of_nat n - 1)%Z then (Z.to_nat c - 1)%nat else (Z.to_nat c + 1)%nat).
Definition three_nodes (n : nat) (sg : R) (g : nat -> R) (c : Z) (x : R) : R := wt x (-1) * left_node n sg g c + wt x 0 * g (Z.to_nat c) + wt x 1 * right_node n g c.
Section Nodes2.
  Variables (n : nat) (h r : R).
  Hypotheses (Hh : ordinary_step h) (Hn : (3 <= n)%nat) (HN : (Z.of_nat n <= 2 ^ 46 - 2)%Z) (Hr : 0 <= r <= (INR n - 1) * h).
  Let c := cell2_f double h r.
  Let x := double (double (r / h) - IZR c).
  Lemma cell_ok : (0 <= c <= Z.of_nat n - 1)%Z /\ Rabs x <= 1/2 + (2 * INR n + 6) * u /\ Rabs (x + IZR c - r / h) <= (INR n + 3) * u /\ (c = 0%Z -> 0 <= x) /\ INR n * u <= / 100.
  Proof.
    assert (P := step_pos _ Hh). assert (R2 : 0 <= r <= (INR (n + 2) - 3) * h) by (rewrite plus_INR; cbn [INR]; replace (INR n + (1 + 1) - 3) with (INR n - 1) by ring; exact Hr).
    destruct (place_in_cell (n + 2) h r Hh ltac:(lia) R2) as [A _]. destruct (place_close (n + 2) h r Hh ltac:(lia) R2) as [B C]. fold c in A, B, C. fold x in B, C. rewrite plus_INR in B, C. cbn [INR] in B, C.
    split; [lia|]. split; [eapply Rle_trans; [exact B|]; lra|]. split; [eapply Rle_trans; [exact C|]; lra|]. split.
    - intros Ec. unfold x. rewrite Ec, Rminus_0_r. apply (double_ge_int _ 0); [lia|]. apply (double_ge_int _ 0); [lia|]. apply Rmult_le_pos; [apply Hr|left; now apply Rinv_0_lt_compat].
    - assert (K : INR n <= IZR (2 ^ 46)) by (rewrite INR_IZR_INZ; apply IZR_le; lia). assert (V := u_small). replace (IZR (2 ^ 53)) with (128 * IZR (2 ^ 46)) in V by (rewrite <- mult_IZR; reflexivity). assert (U := u_pos). nra.
  Qed.
  Lemma nodes_bound sg g M : Rabs sg <= 1 -> 0 <= M -> (forall i, (i < n)%nat -> Rabs (g i) <= M) -> Rabs (left_node n sg g c) <= M /\ Rabs (g (Z.to_nat c)) <= M /\ Rabs (right_node n g c) <= M.
  Proof.
    intros Hs HM Hg. destruct cell_ok as ([C0 C1] & _). split; [|split].
    - unfold left_node. destruct (Z.eqb_spec c 0); [|apply Hg; lia]. rewrite Rabs_mult. assert (K := Hg 1%nat ltac:(lia)). assert (K2 := Rabs_pos (g 1%nat)). assert (K3 := Rabs_pos sg). nra.
    - apply Hg. lia.
    - unfold right_node. apply Hg. destruct (Z.eqb_spec c (Z.of_nat n - 1)); lia.
  Qed.
  (** the exact formula at the computed place, against the interpolation at the true one *)
  Lemma nodes_place sg g M : Rabs sg <= 1 -> 0 <= M -> (forall i, (i < n)%nat -> Rabs (g i) <= M) ->
    Rabs (three_nodes n sg g c x - interpolated n sg h r g) <= (72 * INR n + 242) * u * M.
  Proof.
    intros Hs HM Hg. destruct cell_ok as ([C0 C1] & X & Y & Z0 & Nu). assert (P := step_pos _ Hh). assert (U := u_pos). assert (T := u_tiny). assert (N0 := pos_INR n). assert (UM : 0 <= u * M) by (apply Rmult_le_pos; lra).
    set (d := (2 * INR n + 7) * u). assert (Hd : 0 <= d <= 0.03) by (unfold d; split; [apply Rmult_le_pos; lra|lra]). apply Rabs_le_inv in X.
    set (x' := Rmax (- (1/2)) (Rmin (1/2 - u) x)). assert (X1 : - (1/2) <= x' < 1/2) by (unfold x', Rmax, Rmin; repeat destruct (Rle_dec _ _); lra).
    assert (Dv : d = (2 * INR n + 7) * u) by reflexivity. clearbody d.
    assert (X2 : Rabs (x - x') <= d) by (unfold x', Rmax, Rmin; repeat destruct (Rle_dec _ _); apply Rabs_le; lra).
    assert (X3 : c = 0%Z -> 0 <= x') by (intros E; specialize (Z0 E); unfold x', Rmax, Rmin; repeat destruct (Rle_dec _ _); lra).
    set (r' := (IZR c + x') * h). assert (Q : r' / h = IZR c + x') by (unfold r'; field; lra).
    assert (R' : 0 <= r'). { unfold r'. apply Rmult_le_pos; [|lra]. destruct (Z.eq_dec c 0) as [E|E]; [specialize (X3 E); rewrite E; lra|]. assert (1 <= IZR c) by (apply IZR_le; lia). lra. }
    assert (I' : r' / h < INR n - 1/2). { rewrite Q. apply IZR_le in C1. rewrite minus_IZR, <- INR_IZR_INZ in C1. lra. }
    assert (Ec : c = cell2 h r'). { unfold cell2. rewrite Q. symmetry. assert (F := floorR_spec (IZR c + x' + 0.5)). set (k := floorR _) in *. assert (A : (k < c + 1)%Z) by (apply lt_IZR; rewrite plus_IZR; lra). assert (B : (c < k + 1)%Z) by (apply lt_IZR; rewrite plus_IZR; lra). lia. }
    assert (S := interp_shares n c h r' sg g P ltac:(lia) R' I' Ec). cbv zeta in S. rewrite Q in S. replace (IZR c + x' - IZR c) with x' in S by ring.
    assert (S' : interpolated n sg h r' g = three_nodes n sg g c x'). { rewrite S. unfold three_nodes, left_node, right_node. cbn [wt]. lra. } clear S.
    assert (L := interp_lip n sg h r' r g M (d + (INR n + 3) * u) ltac:(lia) Hs HM Hg).
    assert (L1 : Rabs (r' / h - r / h) <= d + (INR n + 3) * u). { rewrite Q. replace (IZR c + x' - r / h) with (- (x - x') + (x + IZR c - r / h)) by ring. eapply Rle_trans; [apply Rabs_triang|]. rewrite Rabs_Ropp. lra. }
    specialize (L L1 ltac:(lra)). rewrite S' in L. destruct (nodes_bound sg g M Hs HM Hg) as (G1 & G2 & G3).
    assert (W : forall k, In k thr -> Rabs (wt x k - wt x' k) <= 1.5 * d). { intros k Hk. eapply Rle_trans; [apply wt_lip; [apply Rabs_le; lra|apply Rabs_le; lra|exact Hk]|]. lra. }
    assert (A : Rabs (three_nodes n sg g c x - three_nodes n sg g c x') <= 4.5 * d * M).
    { unfold three_nodes. set (l := left_node n sg g c) in *. set (m := g (Z.to_nat c)) in *. set (q := right_node n g c) in *.
      replace (wt x (-1) * l + wt x 0 * m + wt x 1 * q - (wt x' (-1) * l + wt x' 0 * m + wt x' 1 * q)) with ((wt x (-1) - wt x' (-1)) * l + ((wt x 0 - wt x' 0) * m + (wt x 1 - wt x' 1) * q)) by ring.
      assert (K : forall a b, Rabs a <= 1.5 * d -> Rabs b <= M -> Rabs (a * b) <= 1.5 * d * M) by (intros a b Ha Hb; rewrite Rabs_mult; apply Rmult_le_compat; try apply Rabs_pos; assumption).
      assert (K1 := K _ l (W (-1)%Z ltac:(cbn; auto)) G1). assert (K2 := K _ m (W 0%Z ltac:(cbn; auto)) G2). assert (K3 := K _ q (W 1%Z ltac:(cbn; auto)) G3). eapply Rle_trans; [apply Rabs_triang|]. eapply Rle_trans; [apply Rplus_le_compat_l, Rabs_triang|]. lra. }
    replace (three_nodes n sg g c x - interpolated n sg h r g) with ((three_nodes n sg g c x - three_nodes n sg g c x') + (three_nodes n sg g c x' - interpolated n sg h r g)) by ring. eapply Rle_trans; [apply Rabs_triang|]. rewrite Dv in A, L. lra.
  Qed.
End Nodes2.

(** ** The three weights as computed *)
Lemma weights2_ap x : Rabs x <= 3/4 -> approx 4 (double (double (x - 0.5) * double (0.5 * double (x - 0.5)))) (wt x (-1)) /\ approx 4 (double (0.75 - f2 double x)) (wt x 0) /\ approx 4 (double (double (x + 0.5) * double (0.5 * double (x + 0.5)))) (wt x 1).
Proof.
  intros Hx. apply Rabs_le_inv in Hx.
  assert (Side : forall y, Rabs y <= 5/4 -> approx 4 (double (double y * double (0.5 * double y))) (y ^ 2 / 2)).
  { intros y Hy. assert (Y := Hy). apply Rabs_le_inv in Y. assert (A : approx 1.26 (double y) y) by (rd 1.25; [apply ap_refl|lra|lra|lra]).
    assert (B : approx 1.27 (double (0.5 * double y)) (0.5 * y)). { rd 0.625; [apply (ap_mul 0 1.26 _ _ _ _ 0.5 1.25); [lra|lra|rewrite Rabs_pos_eq; lra|lra|apply ap_refl|exact A]|lra|rewrite Rabs_mult, (Rabs_pos_eq 0.5) by lra; lra|lra]. }
    replace (y ^ 2 / 2) with (y * (0.5 * y)) by lra. rd 0.79; [apply (ap_mul 1.26 1.27 _ _ _ _ 1.25 0.625); [lra|lra|lra|rewrite Rabs_mult, (Rabs_pos_eq 0.5) by lra; lra|exact A|exact B]|lra|apply Rabs_le; nra|lra]. }
  split; [|split].
  - cbn [wt]. replace (x - 1/2) with (x - 0.5) by lra. apply Side. apply Rabs_le. lra.
  - cbn [wt]. unfold f2. replace (3/4 - x ^ 2) with (0.75 - x * x) by lra. assert (X2 : 0 <= x * x <= 9/16) by nra.
    assert (A : approx 0.58 (double (x * x)) (x * x)) by (rd 0.5625; [apply ap_refl|lra|apply Rabs_le; lra|lra]). assert (B : approx 0.58 (0.75 - double (x * x)) (0.75 - x * x)) by (unfold approx in *; replace (0.75 - double (x * x) - (0.75 - x * x)) with (- (double (x * x) - x * x)) by ring; rewrite Rabs_Ropp; exact A). rd 0.75; [exact B|lra|apply Rabs_le; lra|lra].
  - cbn [wt]. replace (x + 1/2) with (x + 0.5) by lra. apply Side. apply Rabs_le. lra.
Qed.

(** The field that a 2D plasma particle feels (declustering aside) is the quadratic-spline interpolation of the nodes, mirrored
    at the axis and at the last node, to a relative error (of the largest value on the grid) of a few units in the last
    place per node. *)
Theorem C76_2d_plasma_field : forall n h r f M, ordinary_step h -> (3 <= n)%nat -> (Z.of_nat n <= 2 ^ 46 - 2)%Z -> 0 <= r <= (INR n - 1) * h -> bpow radix2 (-500) <= M ->
  (forall i, (i < n)%nat -> Rabs (f_er f i) <= M /\ Rabs (f_ef f i) <= M /\ Rabs (f_ez f i) <= M /\ Rabs (f_bf f i) <= M /\ Rabs (f_bz f i) <= M) ->
  let c := cell2_f double h r in let '(er, ef, ez, bf, bz) := interpolate2_f double n c (double (double (r / h) - IZR c)) f in
  let near v sg F := Rabs (v - interpolated n sg h r F) <= (72 * INR n + 300) * rounding * M in
  near er (-1) (f_er f) /\ near ef (-1) (f_ef f) /\ near ez 1 (f_ez f) /\ near bf (-1) (f_bf f) /\ near bz 1 (f_bz f).
Proof.
  intros n h r f M Hh Hn HN Hr HM Hf c. set (x := double (double (r / h) - IZR c)). assert (M0 : 0 <= M) by (assert (K := bpow_gt_0 radix2 (-500)); lra). assert (U := u_pos). assert (T := u_tiny). assert (UM : 0 <= u * M) by (apply Rmult_le_pos; lra).
  destruct (cell_ok n h r Hh Hn HN Hr) as ([C0 C1] & X & _ & _ & Nu). fold c in C0, C1, X. fold x in X. assert (N0 := pos_INR n). assert (X34 : Rabs x <= 3/4) by lra.
  destruct (weights2_ap x X34) as (W1 & W2 & W3). unfold interpolate2_f. destruct (Z.leb_spec (Z.of_nat n) c) as [L|_]; [lia|].
  set (a1 := double (double (x - 0.5) * double (0.5 * double (x - 0.5)))) in *. set (a2 := double (0.75 - f2 double x)) in *. set (a3 := double (double (x + 0.5) * double (0.5 * double (x + 0.5)))) in *.
  assert (Wb : forall k, In k thr -> 0 <= wt x k <= 1) by (intros k Hk; apply (wt_ap x k X34 Hk)). assert (Wm := Wb (-1)%Z ltac:(cbn; auto)). assert (Wc := Wb 0%Z ltac:(cbn; auto)). assert (Wp := Wb 1%Z ltac:(cbn; auto)).
  assert (One : 0 < 1 <= bpow radix2 300) by (split; [lra|]; change 1 with (bpow radix2 0); apply bpow_le; lia). assert (HM' : bpow radix2 (-510) <= M) by (eapply Rle_trans; [|exact HM]; apply bpow_le; lia).
  assert (Tm : forall e a w g, 0 <= e <= 100 -> approx e a w -> Rabs w <= 1 -> Rabs g <= M -> Rabs (double (a * g) - w * g) <= (e + 1.01) * u * M /\ Rabs (w * g) <= M).
  { intros e a w g He Ha Hw Hg. assert (K := times_charge_s 1 M g e a w 1 One HM' Hg ltac:(lra) Hw ltac:(lra) ltac:(rewrite Rmult_1_r; exact Ha)). rewrite Rmult_1_r in K. rewrite (Rmult_comm a g), (Rmult_comm w g). split; [eapply Rle_trans; [exact K|]; lra|].
    rewrite Rabs_mult. apply Rle_trans with (M * 1); [apply Rmult_le_compat; try apply Rabs_pos; assumption|lra]. }
  assert (Sum : forall sg g, Rabs sg <= 1 -> (forall i, (i < n)%nat -> Rabs (g i) <= M) -> Rabs (double (double (double (a1 * left_node n sg g c) + double (a2 * g (Z.to_nat c))) + double (a3 * right_node n g c)) - three_nodes n sg g c x) <= 40 * u * M).
  { intros sg g Hs Hg. destruct (nodes_bound n h r Hh Hn HN Hr sg g M Hs M0 Hg) as (G1 & G2 & G3). fold c in G1, G2, G3. destruct (Tm 4 a1 _ _ ltac:(lra) W1 ltac:(apply Rabs_le; lra) G1) as [E1 B1]. destruct (Tm 4 a2 _ _ ltac:(lra) W2 ltac:(apply Rabs_le; lra) G2) as [E2 B2]. destruct (Tm 4 a3 _ _ ltac:(lra) W3 ltac:(apply Rabs_le; lra) G3) as [E3 B3].
    eapply Rle_trans; [apply (sum3_close _ _ _ _ _ _ (4 + 1.01) M); try assumption; try apply double_double; lra|]. lra. }
  assert (Fin : forall v sg g, Rabs sg <= 1 -> (forall i, (i < n)%nat -> Rabs (g i) <= M) -> Rabs (v - three_nodes n sg g c x) <= 40 * u * M -> Rabs (v - interpolated n sg h r g) <= (72 * INR n + 300) * rounding * M).
  { intros v sg g Hs Hg Hv. assert (K := nodes_place n h r Hh Hn HN Hr sg g M Hs M0 Hg). fold c in K. fold x in K. change rounding with u. replace (v - interpolated n sg h r g) with ((v - three_nodes n sg g c x) + (three_nodes n sg g c x - interpolated n sg h r g)) by ring. eapply Rle_trans; [apply Rabs_triang|]. lra. }
  assert (S1 : Rabs 1 <= 1) by (rewrite Rabs_pos_eq; lra). assert (Sm : Rabs (-1) <= 1) by (rewrite Rabs_left; lra).
  (* longitudinal components *)
  assert (Sym : forall g, (forall i, (i < n)%nat -> Rabs (g i) <= M) -> let jm0 := (Z.to_nat c - 1)%nat in let jp := if (c =? Z.of_nat n - 1)%Z then jm0 else (Z.to_nat c + 1)%nat in let jm := if (c =? Z.of_nat n - 1)%Z then jm0 else if (c =? 0)%Z then jp else jm0 in
    Rabs (double (double (double (a1 * g jm) + double (a2 * g (Z.to_nat c))) + double (a3 * g jp)) - interpolated n 1 h r g) <= (72 * INR n + 300) * rounding * M).
  { intros g Hg jm0 jp jm. apply Fin; auto. assert (K := Sum 1 g S1 Hg). replace (left_node n 1 g c) with (g jm) in K; [exact K|]. unfold left_node, jm, jp, jm0. destruct (Z.eqb_spec c (Z.of_nat n - 1)) as [E|E], (Z.eqb_spec c 0) as [F|F]; try lia; try reflexivity. rewrite Rmult_1_l. f_equal. lia. }
  (* transverse components *)
  assert (Asym : forall g, (forall i, (i < n)%nat -> Rabs (g i) <= M) -> let jm0 := (Z.to_nat c - 1)%nat in let jp := if (c =? Z.of_nat n - 1)%Z then jm0 else (Z.to_nat c + 1)%nat in let jm := if (c =? Z.of_nat n - 1)%Z then jm0 else if (c =? 0)%Z then jp else jm0 in
    Rabs ((if (c =? 0)%Z then double (double (double (a3 - a1) * g jm) + double (a2 * g (Z.to_nat c))) else double (double (double (a1 * g jm) + double (a2 * g (Z.to_nat c))) + double (a3 * g jp))) - interpolated n (-1) h r g) <= (72 * INR n + 300) * rounding * M).
  { intros g Hg jm0 jp jm. apply Fin; auto. destruct (Z.eqb_spec c 0) as [F|F].
    - assert (J : jm = 1%nat) by (unfold jm, jp, jm0; destruct (Z.eqb_spec c (Z.of_nat n - 1)); try lia; destruct (Z.eqb_spec c 0); lia). rewrite J.
      assert (A : approx 10 (double (a3 - a1)) (wt x 1 - wt x (-1))).
      { assert (B : approx 8 (a3 - a1) (wt x 1 - wt x (-1))). { unfold approx in *. replace (a3 - a1 - (wt x 1 - wt x (-1))) with ((a3 - wt x 1) + - (a1 - wt x (-1))) by ring. eapply Rle_trans; [apply Rabs_triang|]. rewrite Rabs_Ropp. lra. }
        rd 1; [exact B|lra|apply Rabs_le; lra|lra]. }
      destruct (Tm 10 _ _ (g 1%nat) ltac:(lra) A ltac:(apply Rabs_le; lra) (Hg 1%nat ltac:(lia))) as [E1 B1]. destruct (Tm 4 a2 _ (g (Z.to_nat c)) ltac:(lra) W2 ltac:(apply Rabs_le; lra) (Hg (Z.to_nat c) ltac:(lia))) as [E2 B2].
      assert (K := sum3_close (double (double (a3 - a1) * g 1%nat)) (double (a2 * g (Z.to_nat c))) 0 _ _ 0 11.01 M ltac:(lra) M0 (double_double _) (double_double _) double_0 ltac:(eapply Rle_trans; [exact E1|]; lra) ltac:(eapply Rle_trans; [exact E2|]; lra) ltac:(replace (0 - 0) with 0 by ring; rewrite Rabs_R0; lra) B1 B2 ltac:(rewrite Rabs_R0; lra)).
      rewrite Rplus_0_r, double_double in K. unfold three_nodes. replace (left_node n (-1) g c) with (- g 1%nat) by (unfold left_node; destruct (Z.eqb_spec c 0); [ring|lia]).
      replace (right_node n g c) with (g 1%nat) by (unfold right_node; destruct (Z.eqb_spec c (Z.of_nat n - 1)); [lia|]; f_equal; lia).
      replace (wt x (-1) * - g 1%nat + wt x 0 * g (Z.to_nat c) + wt x 1 * g 1%nat) with ((wt x 1 - wt x (-1)) * g 1%nat + wt x 0 * g (Z.to_nat c) + 0) by ring. lra.
    - assert (K := Sum (-1) g Sm Hg). replace (left_node n (-1) g c) with (g jm) in K; [exact K|]. unfold left_node, jm, jp, jm0. destruct (Z.eqb_spec c (Z.of_nat n - 1)) as [E|E], (Z.eqb_spec c 0) as [G|G]; try lia; reflexivity. }
  assert (H1 : forall i, (i < n)%nat -> Rabs (f_er f i) <= M) by (intros; apply Hf; assumption). assert (H2 : forall i, (i < n)%nat -> Rabs (f_ef f i) <= M) by (intros; apply Hf; assumption). assert (H3 : forall i, (i < n)%nat -> Rabs (f_ez f i) <= M) by (intros; apply Hf; assumption).
  assert (H4 : forall i, (i < n)%nat -> Rabs (f_bf f i) <= M) by (intros; apply Hf; assumption). assert (H5 : forall i, (i < n)%nat -> Rabs (f_bz f i) <= M) by (intros; apply Hf; assumption).
  exact (conj (Asym _ H1) (conj (Asym _ H2) (conj (Sym _ H3) (conj (Asym _ H4) (Sym _ H5))))).
Qed.

(** A quarter of a cell from the axis, in fields that grow with the node number. *)
Example C76_2d_plasma_case : let g := fun i => 4 * INR i in
  let c := cell2_f double (1/2) (1/8) in let '(er, ef, ez, bf, bz) := interpolate2_f double 6 c (double (double (1/8 / (1/2)) - IZR c)) (mkF2 g g g g g) in
  let near v e := Rabs (v - e) <= 15000 * rounding in near er 1 /\ near ef 1 /\ near ez (5/4) /\ near bf 1 /\ near bz (5/4).
Proof.
  cbv zeta. set (g := fun i => 4 * INR i). assert (Hg : forall i, (i < 6)%nat -> Rabs (g i) <= 20). { intros i Hi. unfold g. assert (K := pos_INR i). assert (INR i <= 5) by (replace 5 with (INR 5) by (cbn; lra); apply le_INR; lia). rewrite Rabs_pos_eq; lra. }
  assert (K := C76_2d_plasma_field 6 (1/2) (1/8) (mkF2 g g g g g) 20 case_step ltac:(lia) ltac:(cbn; lia) ltac:(cbn; lra) ltac:(rewrite <- (Rabs_pos_eq 20) by lra; apply case_ordinary; rewrite Rabs_pos_eq; lra)
    ltac:(intros i Hi; cbn [f_er f_ef f_ez f_bf f_bz]; assert (G := Hg i Hi); auto)). cbv zeta in K. destruct (interpolate2_f _ _ _ _ _) as [[[[er ef] ez] bf] bz]. destruct K as (K1 & K2 & K3 & K4 & K5). cbn [f_er f_ef f_ez f_bf f_bz] in *.
  assert (C : 0%Z = cell2 (1/2) (1/8)). { unfold cell2. assert (F := floorR_spec (1/8 / (1/2) + 0.5)). set (k := floorR _) in *. replace (1/8 / (1/2)) with (1/4) in F by field. assert (- 1 < IZR k < 1) by lra. assert (-1 < k < 1)%Z by (split; apply lt_IZR; lra). lia. }
  assert (V : forall sg, interpolated 6 sg (1/2) (1/8) g = (9 + sg) / 8). { intros sg. rewrite (interp_shares 6 0 (1/2) (1/8) sg g ltac:(lra) ltac:(lia) ltac:(lra) ltac:(cbn; lra) C). cbn [Z.eqb Z.sub Z.of_nat Z.to_nat Nat.sub Nat.add]. replace (1/8 / (1/2)) with (1/4) by field. unfold g. cbn. lra. }
  rewrite V in K1, K2, K3, K4, K5. replace (INR 6) with 6 in * by (cbn; lra). assert (U := u_pos). rewrite rounding_u in *.
  repeat split; (match goal with |- Rabs (?v - _) <= _ => match goal with H : Rabs (v - _) <= _ |- _ => apply Rabs_le; apply Rabs_le_inv in H; lra end end).
Qed.
Print Assumptions C76_2d_plasma_field.
