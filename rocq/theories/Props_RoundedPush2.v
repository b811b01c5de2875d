(** Theorems C78, continued: one pass of the loop of the 3D beam mover, with its own fields and tests. *)
From Coq Require Import Reals ZArith List Bool Lra Lia Psatz.
From Flocq Require Import Core.
From Verif Require Import Float_Model Float_Proofs Beam2D_Model Beam2D_Spec Beam2D_Free Beam3D_Model Beam3D_Spec Shape_Model Shape_Spec Shape_Proofs Rounded3D_Model RoundedBeam_Spec RoundedBeam_Model BeamPush_Spec Props_RoundedBeam RoundedSum_Proofs RoundedWeight_Proofs RoundedDep_Model RoundedDep_Spec RoundedDep_Proofs RoundedPlasma_Proofs Props_RoundedDep RoundedCell_Proofs Props_RoundedCell RoundedField_Model RoundedField_Proofs Props_RoundedField Props_RoundedField2 Props_RoundedField4 RoundedPush_Model RoundedPush_Spec RoundedPush_Proofs Props_RoundedPush RoundedLight_Proofs Props_RoundedLight.
Import ListNotations.
Open Scope R_scope.

(** ** Fields at nearby places *)
Lemma inside_3 N h x : 0 < h -> Rabs (x / h) <= IZR (Z.of_nat N / 2) - 3 -> inside (Z.of_nat N) h x.
Proof.
  intros P H. apply Rabs_le_inv in H. assert (K : IZR (Z.of_nat N / 2) <= IZR (Z.of_nat N - Z.of_nat N / 2)) by (apply IZR_le; assert (Q := Z.mul_div_le (Z.of_nat N) 2 ltac:(lia)); lia).
  unfold inside. replace (Z.of_nat N - 1 - Z.of_nat N / 2)%Z with (Z.of_nat N - Z.of_nat N / 2 - 1)%Z by lia. rewrite (minus_IZR _ 1). lra.
Qed.
Lemma grid_value_lip N h F x y x' y' M e : inside (Z.of_nat N) h x' -> inside (Z.of_nat N) h y -> 0 <= M -> (forall a b, (0 <= a < Z.of_nat N)%Z -> (0 <= b < Z.of_nat N)%Z -> Rabs (F a b) <= M) ->
  Rabs (x / h - x' / h) <= e -> Rabs (y / h - y' / h) <= e -> e <= 1/2 -> Rabs (grid_value N h F x y - grid_value N h F x' y') <= 14 * e * M.
Proof.
  intros Ix Iy HM HF Dx Dy He. assert (E0 : 0 <= e) by (eapply Rle_trans; [apply Rabs_pos|exact Dx]). set (m := (Z.of_nat N / 2)%Z). pose (cx := (floorR (x / h + 1/2) + m)%Z). pose (cy := (floorR (y / h + 1/2) + m)%Z).
  assert (Lip : forall z z', Rabs (z / h - z' / h) <= e -> forall a, Rabs (spline4 (IZR (a - m) - z / h) - spline4 (IZR (a - m) - z' / h)) <= e).
  { intros z z' D a. eapply Rle_trans; [apply spline_lip|]; replace (IZR (a - m) - z / h - (IZR (a - m) - z' / h)) with (- (z / h - z' / h)) by ring; rewrite Rabs_Ropp; lra. }
  assert (Out : forall z z', Rabs (z / h - z' / h) <= e -> forall a, (a <= floorR (z / h + 1/2) + m - 4 \/ floorR (z / h + 1/2) + m + 4 <= a)%Z -> spline4 (IZR (a - m) - z / h) = 0 /\ spline4 (IZR (a - m) - z' / h) = 0).
  { intros z z' D a Ha. assert (Fl := floorR_spec (z / h + 1/2)). apply Rabs_le_inv in D. rewrite minus_IZR. destruct Ha as [Ha|Ha]; apply IZR_le in Ha; rewrite ?minus_IZR, ?plus_IZR in Ha; split; apply spline_out; (rewrite Rabs_left by lra; lra) || (rewrite Rabs_pos_eq by lra; lra). }
  exact (window_close N M e cx cy (fun a => spline4 (IZR (a - m) - x / h)) (fun b => spline4 (IZR (b - m) - y / h)) (fun a => spline4 (IZR (a - m) - x' / h)) (fun b => spline4 (IZR (b - m) - y' / h)) F HM E0 HF
    (fun b => proj1 (spline_range _)) (fun a => proj1 (spline_range _)) (spline_sum N h y Iy) (spline_sum N h x' Ix) (Lip x x' Dx) (Lip y y' Dy) (Out x x' Dx) (Out y y' Dy)).
Qed.
Lemma grid_value_size N h F x y M : inside (Z.of_nat N) h x -> inside (Z.of_nat N) h y -> 0 <= M -> (forall a b, (0 <= a < Z.of_nat N)%Z -> (0 <= b < Z.of_nat N)%Z -> Rabs (F a b) <= M) -> Rabs (grid_value N h F x y) <= M.
Proof.
  intros Ix Iy HM HF. unfold grid_value. assert (K := gsum_close N (fun a b => F a b * shape (Z.of_nat N) h x y a b) (fun _ _ => 0) (fun a b => M * shape (Z.of_nat N) h x y a b)).
  rewrite gsum_scal, shape_sum, Rmult_1_r in K by assumption. replace (gsum N (fun _ _ => 0)) with 0 in K by (unfold gsum; rewrite (sumZ_ext N _ (fun _ => 0)) by (intros; apply sumZ_0); symmetry; apply sumZ_0). rewrite Rminus_0_r in K. apply K.
  intros a b Ha Hb. rewrite Rminus_0_r, Rabs_mult. unfold shape. rewrite (Rabs_pos_eq (spline4 _ * spline4 _)) by (apply Rmult_le_pos; apply spline_range). apply Rmult_le_compat_r; [apply Rmult_le_pos; apply spline_range|now apply HF].
Qed.
(** the mixture of two layers at nearby places *)
Lemma mixed_lip N h dxi k F G x y z x' y' z' M e ez : 0 < dxi -> inside (Z.of_nat N) h x -> inside (Z.of_nat N) h x' -> inside (Z.of_nat N) h y -> inside (Z.of_nat N) h y' -> 0 <= M ->
  (forall a b, (0 <= a < Z.of_nat N)%Z -> (0 <= b < Z.of_nat N)%Z -> Rabs (F a b) <= M /\ Rabs (G a b) <= M) ->
  Rabs (x / h - x' / h) <= e -> Rabs (y / h - y' / h) <= e -> e <= 1/2 -> Rabs ((z - k) / dxi - (z' - k) / dxi) <= ez -> - 1.6 <= (z' - k) / dxi <= 0.1 ->
  Rabs (mixed N h dxi k F G x y z - mixed N h dxi k F G x' y' z') <= (60 * e + 2 * ez) * M /\ Rabs (mixed N h dxi k F G x' y' z') <= 4.2 * M.
Proof.
  intros P Ix Ix' Iy Iy' HM HFG Dx Dy He Dz R. unfold mixed. set (s := (z - k) / dxi) in *. set (t := (z' - k) / dxi) in *.
  assert (LF := grid_value_lip N h F x y x' y' M e Ix' Iy HM (fun a b A B => proj1 (HFG a b A B)) Dx Dy He). assert (LG := grid_value_lip N h G x y x' y' M e Ix' Iy HM (fun a b A B => proj2 (HFG a b A B)) Dx Dy He).
  assert (SF := grid_value_size N h F x y M Ix Iy HM (fun a b A B => proj1 (HFG a b A B))). assert (SG := grid_value_size N h G x y M Ix Iy HM (fun a b A B => proj2 (HFG a b A B))).
  assert (SF' := grid_value_size N h F x' y' M Ix' Iy' HM (fun a b A B => proj1 (HFG a b A B))). assert (SG' := grid_value_size N h G x' y' M Ix' Iy' HM (fun a b A B => proj2 (HFG a b A B))).
  set (f := grid_value N h F x y) in *. set (g := grid_value N h G x y) in *. set (f' := grid_value N h F x' y') in *. set (g' := grid_value N h G x' y') in *. clearbody f g f' g' s t.
  assert (T1 : Rabs t <= 1.6) by (apply Rabs_le; lra). assert (T2 : Rabs (1 - t) <= 2.6) by (apply Rabs_le; lra). assert (E0 : 0 <= e) by (eapply Rle_trans; [apply Rabs_pos|exact Dx]). assert (EM : 0 <= e * M) by (apply Rmult_le_pos; lra).
  assert (FG : Rabs (f - g) <= 2 * M). { replace (f - g) with (f + - g) by ring. eapply Rle_trans; [apply Rabs_triang|]. rewrite Rabs_Ropp. lra. }
  assert (Q1 : Rabs ((s - t) * (f - g)) <= ez * (2 * M)) by (rewrite Rabs_mult; apply Rmult_le_compat; try apply Rabs_pos; assumption).
  assert (Q2 : Rabs (t * (f - f')) <= 1.6 * (14 * e * M)) by (rewrite Rabs_mult; apply Rmult_le_compat; try apply Rabs_pos; assumption).
  assert (Q3 : Rabs ((1 - t) * (g - g')) <= 2.6 * (14 * e * M)) by (rewrite Rabs_mult; apply Rmult_le_compat; try apply Rabs_pos; assumption).
  assert (Q4 : Rabs (t * f') <= 1.6 * M) by (rewrite Rabs_mult; apply Rmult_le_compat; try apply Rabs_pos; assumption). assert (Q5 : Rabs ((1 - t) * g') <= 2.6 * M) by (rewrite Rabs_mult; apply Rmult_le_compat; try apply Rabs_pos; assumption).
  split; [|eapply Rle_trans; [apply Rabs_triang|]; lra].
  replace (s * f + (1 - s) * g - (t * f' + (1 - t) * g')) with ((s - t) * (f - g) + (t * (f - f') + (1 - t) * (g - g'))) by ring. eapply Rle_trans; [apply Rabs_triang|]. eapply Rle_trans; [apply Rplus_le_compat_l, Rabs_triang|]. lra.
Qed.

(** ** The exact middle of the substep is near the computed one *)
Lemma scaled_near h x X d c : 0 < h -> 0 <= d -> 0 <= c <= 10 -> Rabs (x - X) <= (Rabs X + c * d) * u -> Rabs (X / h) <= 1.001 * Rabs (x / h) + 0.001 * (d / h) /\ Rabs (x / h - X / h) <= (1.001 * Rabs (x / h) + (c + 0.001) * (d / h)) * u.
Proof.
  intros P Hd Hc H. assert (U := u_pos). assert (T := u_tiny). assert (I := Rinv_0_lt_compat h P). assert (D0 : 0 <= d / h) by (apply Rmult_le_pos; lra).
  assert (A : Rabs (x / h - X / h) <= (Rabs (X / h) + c * (d / h)) * u).
  { replace (x / h - X / h) with ((x - X) * / h) by (field; lra). rewrite Rabs_mult, (Rabs_pos_eq (/ h)) by lra. replace (X / h) with (X * / h) by reflexivity. rewrite (Rabs_mult X), (Rabs_pos_eq (/ h)) by lra.
    apply Rle_trans with ((Rabs X + c * d) * u * / h); [apply Rmult_le_compat_r; lra|]. unfold Rdiv. lra. }
  set (a := x / h) in *. set (b := X / h) in *. set (D := d / h) in *. assert (Bb : Rabs b <= Rabs a + (Rabs b + c * D) * u). { replace b with (a + - (a - b)) at 1 by ring. eapply Rle_trans; [apply Rabs_triang|]. rewrite Rabs_Ropp. lra. }
  assert (Pa := Rabs_pos a). assert (Pb := Rabs_pos b). assert (CD : 0 <= c * D <= 10 * D) by (split; [apply Rmult_le_pos; lra|apply Rmult_le_compat_r; lra]). assert (Q : Rabs b * u <= Rabs b * 0.0000001) by (apply Rmult_le_compat_l; lra). assert (Q2 : c * D * u <= 10 * D * 0.0000001) by (apply Rmult_le_compat; lra).
  assert (B1 : Rabs b <= 1.001 * Rabs a + 0.001 * D) by lra. split; [exact B1|]. eapply Rle_trans; [exact A|]. apply Rmult_le_compat_r; lra.
Qed.
Definition slack3 (n : nat) (c : cfg3) (idx : Z) (d : R) : R := 90 * INR n + 5 * IZR idx + 2100 + 600 * (d / c_h c) + 25 * (d / c_dxi c).
Section Full.
  Variables (n : nat) (c : cfg3) (idx : Z) (fk fk1 : fields3) (p : part3) (s M : R).
  Hypotheses (Hn : c_n c = Z.of_nat n) (HN : (Z.of_nat n <= 2 ^ 46)%Z) (Hi : (0 <= idx < 2 ^ 49)%Z) (Hh : ordinary_step (c_h c)) (Hx : ordinary_step (c_dxi c)) (Hd : ordinary_step (b_dt p)).
  Hypotheses (Hq : ordinary_ratio (b_qm p)) (Hs : sign_of (b_qm p) s) (St : stored3 p) (HM : bpow radix2 (-500) <= M).
  Hypothesis HF : forall a b f, (0 <= a < Z.of_nat n)%Z -> (0 <= b < Z.of_nat n)%Z -> In f [Ex; Ey; Ez; Bx; By; Bz] -> Rabs (f fk a b) <= M /\ Rabs (f fk1 a b) <= M.
  Let d := b_dt p.
  Let K := slack3 n c idx d.
  Hypothesis HK : K * u <= / 10.
  Let half := plus (place3 p) (shift (d / 2) (velocity (b_qm p) (p_of p))).
  Variables hx hy hz : R.
  Hypotheses (Hhalf : half3_f p = (hx, hy, hz)) (Ox : off_edge 4 (Z.of_nat n) (c_h c) hx) (Oy : off_edge 4 (Z.of_nat n) (c_h c) hy) (Oz : RoundedDep_Spec.in_layer (c_dxi c) idx hz).
  Let E := e_on3 n c idx fk fk1 (vx half) (vy half) (vz half).
  Let B := b_on3 n c idx fk fk1 (vx half) (vy half) (vz half).
  Lemma slack_parts : 0 < d / c_h c /\ 0 < d / c_dxi c /\ 0 <= INR n /\ 0 <= IZR idx /\ INR n * u <= / 900 /\ IZR idx * u <= / 50 /\ d / c_h c * u <= / 6000 /\ d / c_dxi c * u <= / 250.
  Proof.
    assert (P1 := step_pos _ Hh). assert (P2 := step_pos _ Hx). assert (P3 := step_pos _ Hd). fold d in P3. assert (A := Rdiv_lt_0_compat _ _ P3 P1). assert (A2 := Rdiv_lt_0_compat _ _ P3 P2). assert (N0 := pos_INR n). assert (I0 : 0 <= IZR idx) by (apply IZR_le; lia). assert (U := u_pos).
    unfold K, slack3 in HK. assert (B1 : 0 <= INR n * u) by (apply Rmult_le_pos; lra). assert (B2 : 0 <= IZR idx * u) by (apply Rmult_le_pos; lra). assert (B3 : 0 <= d / c_h c * u) by (apply Rmult_le_pos; lra). assert (B4 : 0 <= d / c_dxi c * u) by (apply Rmult_le_pos; lra). repeat split; lra.
  Qed.
  Lemma side x X : off_edge 4 (Z.of_nat n) (c_h c) x -> Rabs (x - X) <= (Rabs X + 8 * d) * u -> inside (Z.of_nat n) (c_h c) x /\ inside (Z.of_nat n) (c_h c) X /\ Rabs (x / c_h c - X / c_h c) <= (0.51 * INR n + 9 * (d / c_h c)) * u.
  Proof.
    intros O H. destruct slack_parts as (D1 & D2 & N0 & I0 & Nu & Iu & D1u & D2u). destruct (axis_half n (c_h c) x Hh O) as (P & A & A2 & _). assert (Pd := step_pos _ Hd). fold d in Pd. destruct (scaled_near (c_h c) x X d 8 P ltac:(lra) ltac:(lra) H) as [S1 S2]. assert (U := u_pos). assert (T := u_tiny).
    assert (E2 : Rabs (x / c_h c - X / c_h c) <= (0.51 * INR n + 9 * (d / c_h c)) * u) by (eapply Rle_trans; [exact S2|]; apply Rmult_le_compat_r; lra).
    split; [now apply axis_inside|]. split; [|exact E2]. apply inside_3; [exact P|]. replace (X / c_h c) with (x / c_h c + - (x / c_h c - X / c_h c)) by ring. eapply Rle_trans; [apply Rabs_triang|]. rewrite Rabs_Ropp. lra.
  Qed.
  Lemma half_near : Rabs (hx - vx half) <= (Rabs (vx half) + 8 * d) * u /\ Rabs (hy - vy half) <= (Rabs (vy half) + 8 * d) * u /\ Rabs (hz - vz half) <= (Rabs (vz half) + 10 * d) * u.
  Proof. assert (H := C78_3d_half_step p Hq Hd St). cbv zeta in H. rewrite Hhalf in H. exact H. Qed.
  Lemma back_side : - 1.6 <= (vz half - - (IZR idx * c_dxi c)) / c_dxi c <= 0.1 /\ Rabs ((hz - - (IZR idx * c_dxi c)) / c_dxi c - (vz half - - (IZR idx * c_dxi c)) / c_dxi c) <= (1.02 * (IZR idx + 1) + 11 * (d / c_dxi c)) * u.
  Proof.
    destruct slack_parts as (D1 & D2 & N0 & I0 & Nu & Iu & D1u & D2u). assert (P := step_pos _ Hx). assert (Pd := step_pos _ Hd). fold d in Pd. destruct half_near as (_ & _ & Hz). assert (U := u_pos). assert (T := u_tiny).
    destruct (scaled_near (c_dxi c) hz (vz half) d 10 P ltac:(lra) ltac:(lra) Hz) as [S1 S2]. destruct (depth_near (c_dxi c) idx hz Hx Hi Oz) as [Dn Dr]. unfold depth in Dn.
    assert (F := ordinary_fine _ Hx). assert (Bn := border_near (c_dxi c) (idx + 1) F ltac:(lia)). assert (Bn0 := border_near (c_dxi c) idx F ltac:(lia)). rewrite !border2_border in Bn. rewrite !border2_border in Bn0. destruct Oz as [O1 O2].
    assert (Zs : Rabs (hz / c_dxi c) <= 1.01 * (IZR idx + 1)).
    { unfold Rdiv. rewrite Rabs_mult, (Rabs_pos_eq (/ c_dxi c)) by (left; now apply Rinv_0_lt_compat). apply (Rmult_le_reg_r (c_dxi c)); [exact P|]. rewrite Rmult_assoc, Rinv_l, Rmult_1_r by lra. rewrite plus_IZR in Bn. assert (Pi : 0 <= IZR idx * c_dxi c * (1 - u)) by (apply Rmult_le_pos; [apply Rmult_le_pos; lra|lra]). assert (Q : 0 <= (IZR idx + 1) * c_dxi c) by (apply Rmult_le_pos; lra). assert (Q2 : (IZR idx + 1) * c_dxi c * u <= (IZR idx + 1) * c_dxi c * 0.01) by (apply Rmult_le_compat_l; lra). rewrite Rabs_left1 by lra. lra. }
    assert (Ez : Rabs ((hz - - (IZR idx * c_dxi c)) / c_dxi c - (vz half - - (IZR idx * c_dxi c)) / c_dxi c) <= (1.02 * (IZR idx + 1) + 11 * (d / c_dxi c)) * u).
    { replace ((hz - - (IZR idx * c_dxi c)) / c_dxi c - (vz half - - (IZR idx * c_dxi c)) / c_dxi c) with (hz / c_dxi c - vz half / c_dxi c) by (field; lra). eapply Rle_trans; [exact S2|]. apply Rmult_le_compat_r; lra. }
    split; [|exact Ez]. apply Rabs_le_inv in Ez, Dn. lra.
  Qed.
  Lemma fields_near : let '(e, b) := fields_at_f (c_n c) (c_h c) (c_dxi c) idx (hx, hy, hz) fk fk1 in
    forall k, In k [vx; vy; vz] -> Rabs (k E) <= 5 * M /\ Rabs (k B) <= 5 * M /\ Rabs (k e - k E) <= K / 5 * u * (5 * M) /\ Rabs (k b - k B) <= K / 5 * u * (5 * M).
  Proof.
    destruct slack_parts as (D1 & D2 & N0 & I0 & Nu & Iu & D1u & D2u). assert (M0 : 0 < M) by (assert (B0 := bpow_gt_0 radix2 (-500)); lra). assert (U := u_pos). assert (T := u_tiny). assert (P := step_pos _ Hx). destruct half_near as (Nx & Ny & _). destruct back_side as [R Zn].
    destruct (side hx (vx half) Ox Nx) as (X1 & X2 & X3). destruct (side hy (vy half) Oy Ny) as (Y1 & Y2 & Y3). set (ex := (0.51 * INR n + 9 * (d / c_h c)) * u) in *. set (ez := (1.02 * (IZR idx + 1) + 11 * (d / c_dxi c)) * u) in *.
    assert (He : ex <= 1/2) by (unfold ex; lra). assert (UM : 0 < u * M) by (apply Rmult_lt_0_compat; lra).
    assert (C := C76_3d_beam_fields n (c_h c) (c_dxi c) idx hx hy hz fk fk1 M Hh Hx HN Hi Ox Oy Oz HM HF). rewrite Hn. destruct (fields_at_f _ _ _ _ _ _ _) as [[[e1 e2] e3] [[b1 b2] b3]]. cbv zeta in C. change rounding with u in C.
    assert (Main : forall f v, In f [Ex; Ey; Ez; Bx; By; Bz] -> Rabs (v - mixed n (c_h c) (c_dxi c) (- (IZR idx * c_dxi c)) (f fk) (f fk1) hx hy hz) <= (56 * INR n + 2 * IZR idx + 2000) * u * M ->
      let m := mixed n (c_h c) (c_dxi c) (- (IZR idx * c_dxi c)) (f fk) (f fk1) (vx half) (vy half) (vz half) in Rabs m <= 5 * M /\ Rabs (v - m) <= K / 5 * u * (5 * M)).
    { intros f v Hf Hv m. destruct (mixed_lip n (c_h c) (c_dxi c) (- (IZR idx * c_dxi c)) (f fk) (f fk1) hx hy hz (vx half) (vy half) (vz half) M ex ez P X1 X2 Y1 Y2 ltac:(lra) (fun a b A A' => HF a b f A A' Hf) X3 Y3 He Zn R) as [L1 L2]. fold m in L1, L2. split; [lra|].
      set (m' := mixed _ _ _ _ _ _ hx hy hz) in *. replace (v - m) with ((v - m') + (m' - m)) by ring. eapply Rle_trans; [apply Rabs_triang|]. unfold K, slack3. apply Rle_trans with ((56 * INR n + 2 * IZR idx + 2000) * u * M + (60 * ex + 2 * ez) * M); [lra|]. unfold ex, ez.
      replace ((56 * INR n + 2 * IZR idx + 2000) * u * M + (60 * ((0.51 * INR n + 9 * (d / c_h c)) * u) + 2 * ((1.02 * (IZR idx + 1) + 11 * (d / c_dxi c)) * u)) * M) with ((56 * INR n + 2 * IZR idx + 2000 + 60 * (0.51 * INR n + 9 * (d / c_h c)) + 2 * (1.02 * (IZR idx + 1) + 11 * (d / c_dxi c))) * (u * M)) by lra.
      replace ((90 * INR n + 5 * IZR idx + 2100 + 600 * (d / c_h c) + 25 * (d / c_dxi c)) / 5 * u * (5 * M)) with ((90 * INR n + 5 * IZR idx + 2100 + 600 * (d / c_h c) + 25 * (d / c_dxi c)) * (u * M)) by lra. apply Rmult_le_compat_r; lra. }
    destruct C as (C1 & C2 & C3 & C4 & C5 & C6). assert (A1 := Main Ex e1 ltac:(cbn; tauto) C1). assert (A2 := Main Ey e2 ltac:(cbn; tauto) C2). assert (A3 := Main Ez e3 ltac:(cbn; tauto) C3). assert (A4 := Main Bx b1 ltac:(cbn; tauto) C4). assert (A5 := Main By b2 ltac:(cbn; tauto) C5). assert (A6 := Main Bz b3 ltac:(cbn; tauto) C6). cbv zeta in *.
    intros k [<-|[<-|[<-|[]]]]; (split; [tauto|split; [tauto|split; tauto]]).
  Qed.
End Full.

(** ** A particle that is not lost is off the edge of the grid *)
Lemma lost_radius_near n c : c_n c = Z.of_nat n -> (100 <= Z.of_nat n <= 2 ^ 46)%Z -> ordinary_step (c_h c) -> c_h c <= 0.2 -> 0 <= lost_radius_f c <= (INR n / 2 - 4.6) * c_h c.
Proof.
  intros Hn HN Hh H2. assert (U := u_pos). assert (T := u_tiny). assert (P := step_pos _ Hh). unfold lost_radius_f. rewrite Hn, <- INR_IZR_INZ. set (h := c_h c) in *. set (N := INR n). assert (N1 : 100 <= N) by (unfold N; rewrite INR_IZR_INZ; apply IZR_le; lia).
  assert (Nu : N * u <= / 100). { assert (K : N <= IZR (2 ^ 46)) by (unfold N; rewrite INR_IZR_INZ; apply IZR_le; lia). assert (V := u_small). replace (IZR (2 ^ 53)) with (128 * IZR (2 ^ 46)) in V by (rewrite <- mult_IZR; reflexivity). nra. }
  assert (Et := eta_step _ Hh). fold h in Et. assert (UH : 0 < u * h) by (apply Rmult_lt_0_compat; lra). assert (UH2 : u * h <= / 1000000000000 * h) by (apply Rmult_le_compat_r; lra). assert (HNn : 100 * h <= h * N) by (rewrite Rmult_comm; apply Rmult_le_compat_l; lra). assert (NH : N * u * h <= / 100 * h) by (apply Rmult_le_compat_r; lra).
  assert (R1 := round_error (h * N)). rewrite (Rabs_pos_eq (h * N)) in R1 by lra. set (a := double (h * N)) in *. apply Rabs_le_inv in R1.
  assert (R2 := round_error (a / 2)). assert (A0 : 0 <= a) by lra. rewrite (Rabs_pos_eq (a / 2)) in R2 by lra. set (m := double (a / 2)) in *. apply Rabs_le_inv in R2.
  assert (UA : u * (a / 2) <= u * (h * N)) by (apply Rmult_le_compat_l; lra). assert (M0 : h * N / 2 - 0.02 * h <= m <= h * N / 2 + 0.02 * h) by lra.
  assert (R3 := round_error 0.9). rewrite (Rabs_pos_eq 0.9) in R3 by lra. set (k := double 0.9) in *. apply Rabs_le_inv in R3. assert (Eu := eta_u).
  assert (R4 := round_error (k * m)). assert (KM : 0 <= k * m <= (0.9 + u) * m) by (split; [apply Rmult_le_pos; lra|apply Rmult_le_compat_r; lra]). rewrite (Rabs_pos_eq (k * m)) in R4 by lra. apply Rabs_le_inv in R4.
  assert (KM2 : k * m <= m) by (assert ((0.9 + u) * m <= 1 * m) by (apply Rmult_le_compat_r; lra); lra). assert (UM : u * m <= u * (h * N)) by (apply Rmult_le_compat_l; lra). assert (UK : u * (k * m) <= u * (h * N)) by (apply Rmult_le_compat_l; lra).
  assert (C1 : double (k * m) <= (N / 2 - 4.6) * h) by lra.
  assert (C0 : 0 <= double (k * m)) by (rewrite <- double_0; apply double_mono; lra).
  assert (C2 : double (m - 1) <= (N / 2 - 4.6) * h).
  { destruct (Rle_dec m 1) as [L|L]; [apply Rle_trans with 0; [rewrite <- double_0; apply double_mono; lra|lra]|]. assert (R5 := round_error (m - 1)). rewrite (Rabs_pos_eq (m - 1)) in R5 by lra. apply Rabs_le_inv in R5. assert (u * (m - 1) <= u * m) by (apply Rmult_le_compat_l; lra). lra. }
  split; [eapply Rle_trans; [exact C0|apply Rmax_l]|]. apply Rmax_lub; assumption.
Qed.
Lemma not_lost n c x y : c_n c = Z.of_nat n -> (100 <= Z.of_nat n <= 2 ^ 46)%Z -> ordinary_step (c_h c) -> c_h c <= 0.2 -> is_lost3_f x y (lost_radius_f c) = false -> off_edge 4 (Z.of_nat n) (c_h c) x /\ off_edge 4 (Z.of_nat n) (c_h c) y.
Proof.
  intros Hn HN Hh H2 H. destruct (lost_radius_near n c Hn HN Hh H2) as [L0 L1]. set (l := lost_radius_f c) in *. unfold is_lost3_f in H. destruct (Rle_dec _ _) as [|Lt]; [discriminate H|]. apply Rnot_le_lt in Lt. clear H.
  assert (U := u_pos). assert (T := u_tiny). assert (P := step_pos _ Hh). set (h := c_h c) in *. assert (N1 : 100 <= INR n) by (rewrite INR_IZR_INZ; apply IZR_le; lia).
  assert (Nu : INR n * u <= / 100). { assert (K : INR n <= IZR (2 ^ 46)) by (rewrite INR_IZR_INZ; apply IZR_le; lia). assert (V := u_small). replace (IZR (2 ^ 53)) with (128 * IZR (2 ^ 46)) in V by (rewrite <- mult_IZR; reflexivity). nra. }
  set (R := (INR n / 2 - 4.5) * h). assert (Hlr : l <= R - 0.1 * h) by (unfold R; lra). assert (RP : 45 * h <= R) by (unfold R; apply Rmult_le_compat_r; lra).
  assert (Half : R <= (IZR (Z.of_nat n / 2) - 4) * h). { unfold R. apply Rmult_le_compat_r; [lra|]. assert (Q := Z.mod_pos_bound (Z.of_nat n) 2 ltac:(lia)). assert (Q2 := Z.div_mod (Z.of_nat n) 2 ltac:(lia)). assert (Q3 : (Z.of_nat n <= 2 * (Z.of_nat n / 2) + 1)%Z) by lia. apply IZR_le in Q3. rewrite plus_IZR, mult_IZR, <- INR_IZR_INZ in Q3. lra. }
  assert (Key : forall a b t, double (double (a * a) + double (b * b)) = t -> t < double (l * l) -> Rabs a <= R).
  { intros a b t <- Ht. destruct (Rle_lt_dec (Rabs a) R) as [|G]; [assumption|exfalso]. apply (Rlt_not_le _ _ Ht). apply Rle_trans with (double (double (a * a))).
    - rewrite double_double. apply double_mono. assert (Ra : 0 <= R) by lra. assert (R * R <= a * a) by (rewrite <- (sq_abs a); apply Rmult_le_compat; lra). assert (l * l <= R * R) by (apply Rmult_le_compat; lra). lra.
    - apply double_mono. assert (0 <= double (b * b)) by (rewrite <- double_0; apply double_mono; nra). lra. }
  split; unfold off_edge; (eapply Rle_trans; [|exact Half]); [eapply Key; [reflexivity|exact Lt]|]. eapply (Key y x); [reflexivity|]. rewrite Rplus_comm. exact Lt.
Qed.

(** One completed pass of the loop: the particle that the program computes is that of the exact substep (C56) with the
    exact fields at the exact middle of the substep, up to roundings.  The slack says how many: it grows with the number
    of cells, the number of the layer, and the length of the substep in cells and in layers. *)
Theorem C78_3d_substep : forall n c idx fk fk1 p q s M,
  c_n c = Z.of_nat n -> (100 <= Z.of_nat n <= 2 ^ 46)%Z -> (0 <= idx < 2 ^ 49)%Z -> ordinary_step (c_h c) -> c_h c <= 0.2 -> ordinary_step (c_dxi c) ->
  ordinary_step (b_dt p) -> ordinary_ratio (b_qm p) -> sign_of (b_qm p) s -> stored3 p -> bpow radix2 (-500) <= M ->
  (forall a b f, (0 <= a < Z.of_nat n)%Z -> (0 <= b < Z.of_nat n)%Z -> In f [Ex; Ey; Ez; Bx; By; Bz] -> Rabs (f fk a b) <= M /\ Rabs (f fk1 a b) <= M) ->
  let qm := b_qm p in let d := b_dt p in let p0 := p_of p in
  let K := 90 * INR n + 5 * IZR idx + 2100 + 600 * (d / c_h c) + 25 * (d / c_dxi c) in K * rounding <= / 10 ->
  is_double d -> b_xi p <= border (c_dxi c) idx ->
  loop3_f c idx fk fk1 1 p = (q, false, false) ->
  let half := plus (place3 p) (shift (d / 2) (velocity qm p0)) in
  let E := e_on3 n c idx fk fk1 (vx half) (vy half) (vz half) in let B := b_on3 n c idx fk fk1 (vx half) (vy half) (vz half) in
  let p1 := plus p0 (times d (force s E B (velocity qm p0))) in
  let x1 := plus (place3 p) (shift d (velocity qm (mean p0 p1))) in
  (forall k, In k [vx; vy; vz] ->
    Rabs (k (p_of q) - k p1) <= (4 * Rabs (k p0) + (285 + 5 * K) * (d * M)) * rounding /\
    Rabs (k (place3 q) - k x1) <= (Rabs (k x1) + (22 + (550 + 9 * K) * (d * M / energy qm (mean p0 p1))) * d) * rounding) /\
  b_rem q = 0%nat /\ b_dt q = b_dt p /\ b_qm q = b_qm p /\ b_q q = b_q p /\ b_id q = b_id p /\ stored3 q.
Proof.
  intros n c idx fk fk1 p q s M Hn HN Hi Hh H2 Hx Hd Hq Hs St HM HF qm d p0 K HK Dd Hf HL half E B p1 x1. change rounding with u in *.
  cbn [loop3_f] in HL. assert (Hz : snd (half3_f p) <= border (c_dxi c) idx). { destruct (C79_3d_speed_limit p (0, 0, 0, (0, 0, 0)) Hq Dd ltac:(left; exact (step_pos _ Hd)) St) as [_ W]. destruct (half3_f p) as [[hx hy] hz]. unfold within in W. cbn [snd]. lra. }
  destruct (half3_f p) as [[hx hy] hz] eqn:Hhalf. cbn [snd] in Hz. destruct (not_in_layer_f _ _) eqn:NL; [discriminate HL|]. destruct (is_lost3_f hx hy _) eqn:NT; [discriminate HL|].
  destruct (not_lost n c hx hy Hn HN Hh H2 NT) as [Ox Oy]. assert (Oz : RoundedDep_Spec.in_layer (c_dxi c) idx hz). { split; [|exact Hz]. unfold not_in_layer_f in NL. destruct (Rlt_dec _ _) as [|G]; [discriminate NL|]. unfold border. replace (- (IZR (idx + 1) * c_dxi c)) with (IZR (idx + 1) * - c_dxi c) by ring. lra. }
  assert (Fn := fields_near n c idx fk fk1 p M Hn ltac:(lia) Hi Hh Hx Hd Hq St HM HF HK hx hy hz Hhalf Ox Oy Oz). destruct (fields_at_f _ _ _ _ _ _ _) as [e b] eqn:Hfe.
  assert (K0 : 0 <= K). { assert (P1 := step_pos _ Hh). assert (P2 := step_pos _ Hx). assert (P3 := step_pos _ Hd). fold d in P3. assert (A := Rdiv_lt_0_compat _ _ P3 P1). assert (A2 := Rdiv_lt_0_compat _ _ P3 P2). assert (N0 := pos_INR n). assert (I0 : 0 <= IZR idx) by (apply IZR_le; lia). unfold K. lra. }
  assert (M0 : 0 < M) by (assert (B0 := bpow_gt_0 radix2 (-500)); lra). assert (U := u_pos). assert (Ku : K / 5 * u <= / 10) by (assert (0 <= K * u) by (apply Rmult_le_pos; lra); lra).
  assert (S := C78_3d_substep_in_fields p s e b E B (5 * M) (K / 5) Hq Hs Hd St ltac:(lra) ltac:(lra) Ku Fn). cbv zeta in S. change rounding with u in S.
  assert (Do : let '(a, x) := update_f p (e, b) in (is_double (vx a) /\ is_double (vy a) /\ is_double (vz a)) /\ is_double (vx x) /\ is_double (vy x) /\ is_double (vz x)) by (unfold update_f; repeat split; apply double_double).
  destruct (update_f p (e, b)) as [a x] eqn:Hu. destruct (is_lost3_f (vx x) (vy x) _) eqn:NT2; [discriminate HL|]. injection HL as <-. destruct Do as ((O1 & O2 & O3) & O4 & O5 & O6). split.
  - intros k Hk. destruct (S k Hk) as [S1 S2]. assert (Va : forall v : vec, In k [vx; vy; vz] -> k (vx v, vy v, vz v) = k v) by (intros v [<-|[<-|[<-|[]]]]; reflexivity).
    change (p_of (with_state p (vx x) (vy x) (vz x) (vx a) (vy a) (vz a) (b_id p) 0)) with (vx a, vy a, vz a). change (place3 (with_state p (vx x) (vy x) (vz x) (vx a) (vy a) (vz a) (b_id p) 0)) with (vx x, vy x, vz x). rewrite !Va by assumption. fold d in S1, S2. fold p0 qm in S1, S2. fold p1 in S1, S2. fold x1 in S2. split.
    + eapply Rle_trans; [exact S1|]. apply Rmult_le_compat_r; lra.
    + eapply Rle_trans; [exact S2|]. apply Rmult_le_compat_r; [lra|]. apply Rplus_le_compat_l. apply Rmult_le_compat_r; [assert (P3 := step_pos _ Hd); left; exact P3|]. unfold Rdiv. lra.
  - cbn [with_state b_rem b_dt b_qm b_q b_id]. unfold stored3. cbn. tauto.
Qed.
Print Assumptions C78_3d_substep.
