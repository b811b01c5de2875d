(** Lemmas for C32: the 3D field solvers in two dimensions. *)
From Coq Require Import Reals ZArith List Bool Lra Lia Psatz.
From Verif Require Import Plasma2D_Model Plasma2D_Ode Plasma2D_Dens Plasma3D_Model Plasma3D_Spec Spectral.
Import ListNotations.
Open Scope R_scope.

(** ** Transforms as kernels *)
Definition ker (n : nat) (A : nat -> nat -> R) (f : arr) (i : nat) : R := sumN n (fun k => A i k * f k).
Definition T2 n A m B (F : arr2) : arr2 := fun i j => ker m B (fun l => ker n A (fun k => F k l) i) j.
Lemma ker_ext n A f g i : (forall k, (k < n)%nat -> f k = g k) -> ker n A f i = ker n A g i.
Proof. intros H. apply sumN_ext. intros k Hk. now rewrite H. Qed.
Lemma ker_scal n A c f i : ker n A (fun k => c * f k) i = c * ker n A f i.
Proof. unfold ker. rewrite <- sumN_scal. apply sumN_ext. intros. ring. Qed.
Lemma ker_plus n A f g i : ker n A (fun k => f k + g k) i = ker n A f i + ker n A g i.
Proof. unfold ker. rewrite <- sumN_plus. apply sumN_ext. intros. ring. Qed.
Lemma ker_swap n A m B (F : arr2) i j :
  ker m B (fun l => ker n A (fun k => F k l) i) j = ker n A (fun k => ker m B (fun l => F k l) j) i.
Proof.
  unfold ker. rewrite (sumN_ext m _ (fun l => sumN n (fun k => B j l * (A i k * F k l)))) by (intros; now rewrite sumN_scal).
  rewrite sumN_swap. apply sumN_ext. intros k Hk. rewrite <- sumN_scal. apply sumN_ext. intros. ring.
Qed.
Lemma T2_ext n A m B F G i j : (forall k l, (k < n)%nat -> (l < m)%nat -> F k l = G k l) -> T2 n A m B F i j = T2 n A m B G i j.
Proof. intros H. unfold T2. apply ker_ext. intros l Hl. apply ker_ext. intros k Hk. auto. Qed.
Lemma T2_scal n A m B c F i j : T2 n A m B (fun k l => c * F k l) i j = c * T2 n A m B F i j.
Proof. unfold T2. rewrite <- ker_scal. apply ker_ext. intros. now rewrite ker_scal. Qed.
Lemma T2_plus n A m B F G i j : T2 n A m B (fun k l => F k l + G k l) i j = T2 n A m B F i j + T2 n A m B G i j.
Proof. unfold T2. rewrite <- ker_plus. apply ker_ext. intros. now rewrite ker_plus. Qed.
Lemma T2_inv n A m B cA cB F i j : (i < n)%nat -> (j < m)%nat ->
  (forall f i, (i < n)%nat -> ker n A (ker n A f) i = cA * f i) -> (forall f j, (j < m)%nat -> ker m B (ker m B f) j = cB * f j) ->
  T2 n A m B (T2 n A m B F) i j = cA * cB * F i j.
Proof.
  intros Hi Hj HA HB. unfold T2 at 1.
  rewrite (ker_ext m B _ (ker m B (fun l => cA * F i l))).
  - rewrite HB by auto. ring.
  - intros l Hl. unfold T2. rewrite <- ker_swap. apply ker_ext. intros l' Hl'. apply (HA (fun k' => F k' l')). auto.
Qed.

(** ** Second differences, one axis at a time *)
Lemma minus_d2_ext h L u v i : (forall k, u k = v k) -> minus_d2 h L u i = minus_d2 h L v i.
Proof. intros H. unfold minus_d2. now rewrite !H. Qed.
Lemma T2_laplacian h L n A m B (eA eB : arr) F i j :
  (forall f, minus_d2 h L (ker n A f) i = ker n A (fun k => eA k * f k) i) ->
  (forall f, minus_d2 h L (ker m B f) j = ker m B (fun k => eB k * f k) j) ->
  minus_laplacian h L (T2 n A m B F) i j = T2 n A m B (fun k l => (eA k + eB l) * F k l) i j.
Proof.
  intros HA HB. unfold minus_laplacian.
  rewrite (minus_d2_ext _ _ (fun i => T2 n A m B F i j) (ker n A (fun k => ker m B (fun l => F k l) j))) by (intros; unfold T2; now rewrite ker_swap).
  rewrite HA. unfold T2 at 1. change (fun j0 => ker m B (fun l => ker n A (fun k => F k l) i) j0) with (ker m B (fun l => ker n A (fun k => F k l) i)).
  rewrite HB. rewrite (ker_ext n A _ (fun k => ker m B (fun l => eA k * F k l) j)) by (intros; now rewrite ker_scal).
  rewrite <- ker_swap. rewrite <- ker_plus. unfold T2. apply ker_ext. intros l Hl. rewrite <- ker_scal, <- ker_plus. apply ker_ext. intros. ring.
Qed.

(** ** The kernels used *)
Definition Ksin L : nat -> nat -> R := fun i k => 2 * sin (PI * INR (k + 1) * INR i / INR L).
Definition Kcos L : nat -> nat -> R := fun j k => wt L k * cos (PI * INR k * INR j / INR L).
Lemma ksin_sines L f i : ker (L - 1) (Ksin L) f i = sines L f i.
Proof. unfold ker, Ksin, sines. rewrite <- sumN_scal. apply sumN_ext. intros. ring. Qed.
Lemma kcos_cosines L f i : ker (L + 1) (Kcos L) f i = cosines L f i.
Proof. unfold ker, Kcos, cosines. apply sumN_ext. intros. ring. Qed.
Definition Kdst L : nat -> nat -> R := fun i k => Ksin L (i + 1) k.
Lemma kdst_dst L f i : (1 <= L)%nat -> ker (L - 1) (Kdst L) f i = dst_1 (L - 1) f i.
Proof. intros. rewrite dst_sines by auto. apply ksin_sines. Qed.
Lemma kcos_dct L f i : (1 <= L)%nat -> ker (L + 1) (Kcos L) f i = dct_1 (L + 1) f i.
Proof. intros. rewrite dct_cosines by auto. apply kcos_cosines. Qed.
Lemma kdst_inv L f i : (2 <= L)%nat -> (i < L - 1)%nat -> ker (L - 1) (Kdst L) (ker (L - 1) (Kdst L) f) i = 2 * INR L * f i.
Proof.
  intros HL Hi. rewrite (ker_ext _ _ _ (dst_1 (L - 1) f)) by (intros; apply kdst_dst; lia). rewrite kdst_dst by lia. now apply dst_inv.
Qed.
Lemma kcos_inv L f i : (1 <= L)%nat -> (i < L + 1)%nat -> ker (L + 1) (Kcos L) (ker (L + 1) (Kcos L) f) i = 2 * INR L * f i.
Proof.
  intros HL Hi. rewrite (ker_ext _ _ _ (dct_1 (L + 1) f)) by (intros; apply kcos_dct; lia). rewrite kcos_dct by lia. apply dct_inv; lia.
Qed.
Lemma ksin_d2 L h f i : h <> 0 -> (1 <= i <= L - 1)%nat -> minus_d2 h L (ker (L - 1) (Ksin L) f) i = ker (L - 1) (Ksin L) (fun k => eig h L (k + 1) * f k) i.
Proof. intros. rewrite ksin_sines, (minus_d2_ext _ _ _ (sines L f)) by (intros; apply ksin_sines). now apply sines_d2. Qed.
Lemma kcos_d2 L h f i : h <> 0 -> (1 <= L)%nat -> (i <= L)%nat -> minus_d2 h L (ker (L + 1) (Kcos L) f) i = ker (L + 1) (Kcos L) (fun k => eig h L k * f k) i.
Proof. intros. rewrite kcos_cosines, (minus_d2_ext _ _ _ (cosines L f)) by (intros; apply kcos_cosines). now apply cosines_d2. Qed.
Lemma ksin_end L f : (1 <= L)%nat -> ker (L - 1) (Ksin L) f 0 = 0 /\ ker (L - 1) (Ksin L) f L = 0.
Proof. intros. rewrite !ksin_sines. now apply sines_end. Qed.

(** transforms of the model as T2 *)
Lemma dst2d_T2 L a i j : (1 <= L)%nat -> dst2d (L - 1) a i j = T2 (L - 1) (Kdst L) (L - 1) (Kdst L) a i j.
Proof.
  intros HL. unfold dst2d, ax0, ax1, T2. rewrite <- kdst_dst by auto. apply ker_ext. intros. now rewrite <- kdst_dst.
Qed.
Lemma dct2d_T2 L a i j : (1 <= L)%nat -> dct2d (L + 1) a i j = T2 (L + 1) (Kcos L) (L + 1) (Kcos L) a i j.
Proof.
  intros HL. unfold dct2d, ax0, ax1, T2. rewrite <- kcos_dct by auto. apply ker_ext. intros. now rewrite <- kcos_dct.
Qed.
Lemma mix2d_T2 L a i j : (1 <= L)%nat -> mix2d (L - 1) (L + 1) a i j = T2 (L - 1) (Kdst L) (L + 1) (Kcos L) a i j.
Proof.
  intros HL. unfold mix2d, ax0, ax1, T2. rewrite <- kcos_dct by auto. apply ker_ext. intros. now rewrite <- kdst_dst.
Qed.
Lemma dst2d_inv L a i j : (2 <= L)%nat -> (i < L - 1)%nat -> (j < L - 1)%nat -> dst2d (L - 1) (dst2d (L - 1) a) i j = (2 * INR L) ^ 2 * a i j.
Proof.
  intros HL Hi Hj. rewrite dst2d_T2 by lia. rewrite (T2_ext _ _ _ _ _ (T2 (L - 1) (Kdst L) (L - 1) (Kdst L) a)) by (intros; apply dst2d_T2; lia).
  rewrite (T2_inv _ _ _ _ (2 * INR L) (2 * INR L)); auto; [ring| |]; intros; apply kdst_inv; auto.
Qed.
Lemma dct2d_inv L a i j : (1 <= L)%nat -> (i <= L)%nat -> (j <= L)%nat -> dct2d (L + 1) (dct2d (L + 1) a) i j = (2 * INR L) ^ 2 * a i j.
Proof.
  intros HL Hi Hj. rewrite dct2d_T2 by lia. rewrite (T2_ext _ _ _ _ _ (T2 (L + 1) (Kcos L) (L + 1) (Kcos L) a)) by (intros; apply dct2d_T2; lia).
  rewrite (T2_inv _ _ _ _ (2 * INR L) (2 * INR L)); try lia; [ring| |]; intros; apply kcos_inv; auto.
Qed.
Lemma mix2d_inv L a i j : (2 <= L)%nat -> (i < L - 1)%nat -> (j <= L)%nat -> mix2d (L - 1) (L + 1) (mix2d (L - 1) (L + 1) a) i j = (2 * INR L) ^ 2 * a i j.
Proof.
  intros HL Hi Hj. rewrite mix2d_T2 by lia. rewrite (T2_ext _ _ _ _ _ (T2 (L - 1) (Kdst L) (L + 1) (Kcos L) a)) by (intros; apply mix2d_T2; lia).
  rewrite (T2_inv _ _ _ _ (2 * INR L) (2 * INR L)); try lia; [ring| |]; intros; [apply kdst_inv|apply kcos_inv]; auto; lia.
Qed.

(** ** Positive eigenvalues *)
Lemma eig_pos h L k : h <> 0 -> (1 <= k <= L)%nat -> 0 < eig h L k.
Proof.
  intros Hh Hk. unfold eig. assert (0 < h ^ 2) by (rewrite <- Rsqr_pow2; apply Rsqr_pos_lt; auto).
  assert (1 <= INR k <= INR L) by (split; [apply INR_pos'; lia|apply le_INR; lia]). pose proof PI_RGT_0.
  apply Rmult_lt_0_compat; [apply Rdiv_lt_0_compat; lra|]. apply pow_lt. apply sin_gt_0.
  - apply Rdiv_lt_0_compat; nra.
  - apply (Rmult_lt_reg_r (2 * INR L)); [lra|]. replace (INR k * PI / (2 * INR L) * (2 * INR L)) with (INR k * PI) by (field; lra). nra.
Qed.
Lemma eig_nonneg h L k : h <> 0 -> 0 <= eig h L k.
Proof.
  intros Hh. unfold eig. assert (0 < h ^ 2) by (rewrite <- Rsqr_pow2; apply Rsqr_pos_lt; auto). apply Rmult_le_pos; [|apply pow2_ge_0].
  apply Rlt_le, Rdiv_lt_0_compat; lra.
Qed.

(** ** Solvers.  N = L + 1 nodes. *)
Section Solve.
  Variables (L : nat) (h : R).
  Hypothesis HL : (2 <= L)%nat.
  Hypothesis Hh : h <> 0.
  Lemma Lr : 2 * INR L <> 0. Proof. pose proof (INR_pos' L). assert (1 <= INR L) by (apply H; lia). lra. Qed.
  Lemma lam_eig k : lam (L + 1) h k = eig h L k.
  Proof. unfold lam, eig. now replace (L + 1 - 1)%nat with L by lia. Qed.

  (** Dirichlet *)
  Definition dirichlet_solve (rhs : arr2) : arr2 :=
    pad (L + 1) (dst2d (L - 1) (times (dst2d (L - 1) rhs) (dirichlet_matrix (L + 1) h))).
  Lemma pad_sines F i j : (i <= L)%nat -> (j <= L)%nat -> pad (L + 1) (dst2d (L - 1) F) i j = T2 (L - 1) (Ksin L) (L - 1) (Ksin L) F i j.
  Proof.
    intros Hi Hj. unfold pad. replace (L + 1 - 1)%nat with L by lia.
    assert (Z : forall j', (j' = 0 \/ j' = L)%nat -> forall f, ker (L - 1) (Ksin L) f j' = 0).
    { intros j' [->| ->] f; now apply ksin_end; lia. }
    destruct (Nat.eqb_spec i 0) as [E|N1]; cbn [orb]; [unfold T2; rewrite (ker_ext _ _ _ (fun _ => 0 * 0)), ker_scal by (intros; rewrite Z by auto; ring); ring|].
    destruct (Nat.eqb_spec i L) as [E|N2]; cbn [orb]; [unfold T2; rewrite (ker_ext _ _ _ (fun _ => 0 * 0)), ker_scal by (intros; rewrite Z by auto; ring); ring|].
    destruct (Nat.eqb_spec j 0) as [E|N3]; cbn [orb]; [unfold T2; rewrite Z by auto; reflexivity|].
    destruct (Nat.eqb_spec j L) as [E|N4]; cbn [orb]; [unfold T2; rewrite Z by auto; reflexivity|].
    rewrite dst2d_T2 by lia. unfold T2, Kdst, ker. replace (i - 1 + 1)%nat with i by lia. replace (j - 1 + 1)%nat with j by lia. reflexivity.
  Qed.
  Lemma laplacian_ext u v i j : (i <= L)%nat -> (j <= L)%nat -> (forall a b, (a <= L)%nat -> (b <= L)%nat -> u a b = v a b) ->
    minus_laplacian h L u i j = minus_laplacian h L v i j.
  Proof.
    intros Hi Hj E. unfold minus_laplacian, minus_d2, above, below. 
    assert (B : forall k, (k <= L)%nat -> (match k with O => 1%nat | S k' => k' end <= L)%nat) by (intros [|k]; lia).
    assert (A : forall k, (k <= L)%nat -> ((if (k =? L)%nat then (L - 1)%nat else (k + 1)%nat) <= L)%nat) by (intros k Hk; destruct (Nat.eqb_spec k L); lia).
    rewrite !E by auto. reflexivity.
  Qed.
  Lemma dirichlet_ok rhs i j : interior L i -> interior L j -> minus_laplacian h L (dirichlet_solve rhs) i j = rhs (i - 1)%nat (j - 1)%nat.
  Proof.
    intros Hi Hj. unfold interior in *. set (F := times (dst2d (L - 1) rhs) (dirichlet_matrix (L + 1) h)).
    rewrite (laplacian_ext _ (T2 (L - 1) (Ksin L) (L - 1) (Ksin L) F)) by (try lia; intros; now apply pad_sines).
    rewrite (T2_laplacian h L _ _ _ _ (fun k => eig h L (k + 1)) (fun k => eig h L (k + 1))) by (intros; apply ksin_d2; auto).
    rewrite (T2_ext _ _ _ _ _ (fun k l => / (2 * INR L) ^ 2 * dst2d (L - 1) rhs k l)).
    - rewrite T2_scal. transitivity (/ (2 * INR L) ^ 2 * dst2d (L - 1) (dst2d (L - 1) rhs) (i - 1)%nat (j - 1)%nat).
      + f_equal. rewrite dst2d_T2 by lia. unfold T2, ker, Kdst. replace (i - 1 + 1)%nat with i by lia. replace (j - 1 + 1)%nat with j by lia. reflexivity.
      + rewrite dst2d_inv by lia. field. pose proof Lr. lra.
    - intros k l Hk Hl. unfold F, times, dirichlet_matrix. rewrite !lam_eig. replace (L + 1 - 1)%nat with L by lia.
      pose proof (eig_pos h L (k + 1) Hh) as A. pose proof (eig_pos h L (l + 1) Hh) as B. 
      assert (0 < eig h L (k + 1)) by (apply A; lia). assert (0 < eig h L (l + 1)) by (apply B; lia). pose proof Lr. field. split; lra.
  Qed.
  Lemma dirichlet_edge rhs i j : (i = 0 \/ i = L \/ j = 0 \/ j = L)%nat -> dirichlet_solve rhs i j = 0.
  Proof.
    intros H. unfold dirichlet_solve, pad. replace (L + 1 - 1)%nat with L by lia.
    destruct (Nat.eqb_spec i 0), (Nat.eqb_spec i L), (Nat.eqb_spec j 0), (Nat.eqb_spec j L); cbn [orb]; auto; lia.
  Qed.

  (** Mixed: zero at the ends of the first index, mirrored in the second *)
  Variable coeff : R.
  Hypothesis Hc : 0 <= coeff.
  Lemma pad_rows_sines F i j : (i <= L)%nat -> (j <= L)%nat -> pad_rows (L + 1) (mix2d (L - 1) (L + 1) F) i j = T2 (L - 1) (Ksin L) (L + 1) (Kcos L) F i j.
  Proof.
    intros Hi Hj. unfold pad_rows. replace (L + 1 - 1)%nat with L by lia.
    assert (Z : forall j', (j' = 0 \/ j' = L)%nat -> forall f, ker (L - 1) (Ksin L) f j' = 0).
    { intros j' [->| ->] f; now apply ksin_end; lia. }
    destruct (Nat.eqb_spec i 0) as [E|N1]; cbn [orb]; [unfold T2; rewrite (ker_ext _ _ _ (fun _ => 0 * 0)), ker_scal by (intros; rewrite Z by auto; ring); ring|].
    destruct (Nat.eqb_spec i L) as [E|N2]; cbn [orb]; [unfold T2; rewrite (ker_ext _ _ _ (fun _ => 0 * 0)), ker_scal by (intros; rewrite Z by auto; ring); ring|].
    rewrite mix2d_T2 by lia. unfold T2, Kdst, ker. replace (i - 1 + 1)%nat with i by lia. reflexivity.
  Qed.
  Lemma mixed_ok rhs i j : interior L i -> (j <= L)%nat ->
    minus_laplacian h L (solve_mixed (L + 1) h coeff rhs) i j + coeff * solve_mixed (L + 1) h coeff rhs i j = rhs i j.
  Proof.
    intros Hi Hj. unfold interior in *. unfold solve_mixed. replace (L + 1 - 2)%nat with (L - 1)%nat by lia.
    set (G := mix2d (L - 1) (L + 1) (inner_rows rhs)). set (F := times (mixed_matrix (L + 1) h coeff) G).
    rewrite (laplacian_ext _ (T2 (L - 1) (Ksin L) (L + 1) (Kcos L) F)) by (try lia; intros; now apply pad_rows_sines).
    rewrite pad_rows_sines by lia.
    rewrite (T2_laplacian h L _ _ _ _ (fun k => eig h L (k + 1)) (fun k => eig h L k)) by (intros; (apply ksin_d2 || apply kcos_d2); auto; lia).
    rewrite <- T2_scal, <- T2_plus.
    rewrite (T2_ext _ _ _ _ _ (fun k l => / (2 * INR L) ^ 2 * G k l)).
    - rewrite T2_scal. transitivity (/ (2 * INR L) ^ 2 * mix2d (L - 1) (L + 1) G (i - 1)%nat j).
      + f_equal. rewrite mix2d_T2 by lia. unfold T2, ker, Kdst. replace (i - 1 + 1)%nat with i by lia. reflexivity.
      + unfold G. rewrite mix2d_inv by lia. unfold inner_rows. replace (i - 1 + 1)%nat with i by lia. field. pose proof Lr. lra.
    - intros k l Hk Hl. unfold F, times, mixed_matrix. rewrite !lam_eig. replace (L + 1 - 1)%nat with L by lia.
      assert (0 < eig h L (k + 1)) by (apply eig_pos; auto; lia). assert (0 <= eig h L l) by (apply eig_nonneg; auto). pose proof Lr. field. split; lra.
  Qed.
  Lemma mixed_edge rhs i j : (i = 0 \/ i = L)%nat -> solve_mixed (L + 1) h coeff rhs i j = 0.
  Proof.
    intros H. unfold solve_mixed, pad_rows. replace (L + 1 - 1)%nat with L by lia.
    destruct (Nat.eqb_spec i 0), (Nat.eqb_spec i L); cbn [orb]; auto; lia.
  Qed.

  (** Neumann *)
  Definition neumann_solve (rhs : arr2) : arr2 := dct2d (L + 1) (times (dct2d (L + 1) rhs) (neumann_matrix (L + 1) h)).
  (** mean over the grid with weights 1, 1/2 on the edges, 1/4 in the corners *)
  Definition wmean (a : arr2) : R := sumN (L + 1) (fun i => sumN (L + 1) (fun j => wt L i * wt L j * a i j)) / (2 * INR L) ^ 2.
  Lemma dct00 a : dct2d (L + 1) a 0%nat 0%nat = (2 * INR L) ^ 2 * wmean a.
  Proof.
    rewrite dct2d_T2 by lia. unfold wmean, T2, ker. unfold Rdiv. rewrite (Rmult_comm (sumN _ _)), <- Rmult_assoc, Rinv_r, Rmult_1_l by (apply pow_nonzero; exact Lr).
    rewrite sumN_swap.
    apply sumN_ext. intros k Hk. rewrite <- sumN_scal. apply sumN_ext. intros l Hl. unfold Kcos. cbn [INR]. unfold Rdiv. rewrite !Rmult_0_r, !Rmult_0_l, cos_0. ring.
  Qed.
  Lemma neumann_ok rhs i j : (i <= L)%nat -> (j <= L)%nat -> minus_laplacian h L (neumann_solve rhs) i j = rhs i j - wmean rhs.
  Proof.
    intros Hi Hj. unfold neumann_solve. set (G := dct2d (L + 1) rhs). set (F := times G (neumann_matrix (L + 1) h)).
    rewrite (laplacian_ext _ (T2 (L + 1) (Kcos L) (L + 1) (Kcos L) F)) by (try lia; intros; apply dct2d_T2; lia).
    rewrite (T2_laplacian h L _ _ _ _ (fun k => eig h L k) (fun k => eig h L k)) by (intros; apply kcos_d2; auto; lia).
    rewrite (T2_ext _ _ _ _ _ (fun k l => / (2 * INR L) ^ 2 * G k l + - / (2 * INR L) ^ 2 * (if (k =? 0)%nat && (l =? 0)%nat then G 0%nat 0%nat else 0))).
    - rewrite T2_plus, !T2_scal. rewrite <- dct2d_T2 by lia. unfold G at 1. rewrite dct2d_inv by lia.
      replace (T2 (L + 1) (Kcos L) (L + 1) (Kcos L) (fun k l => if (k =? 0)%nat && (l =? 0)%nat then G 0%nat 0%nat else 0) i j) with (G 0%nat 0%nat).
      + unfold G. rewrite dct00. field. pose proof Lr. lra.
      + unfold T2, ker. assert (K0 : forall j, Kcos L j 0 = 1).
        { intros. unfold Kcos, wt. cbn [INR Nat.eqb orb]. unfold Rdiv. rewrite Rmult_0_r, !Rmult_0_l, cos_0. ring. }
        rewrite (sumN_delta _ 0).
        * rewrite K0, (sumN_delta _ 0); [rewrite K0; cbn; ring|lia|]. intros k Hk Nk. destruct (Nat.eqb_spec k 0); [lia|]. cbn [andb]. ring.
        * lia.
        * intros l Hl Nl. rewrite sumN_zero; [ring|]. intros k Hk. destruct (Nat.eqb_spec l 0); [lia|]. rewrite andb_false_r. ring.
    - intros k l Hk Hl. unfold F, times, neumann_matrix. rewrite !lam_eig. replace (L + 1 - 1)%nat with L by lia. pose proof Lr.
      destruct (Nat.eqb_spec k 0) as [->|Nk], (Nat.eqb_spec l 0) as [->|Nl]; cbn [andb].
      + assert (E0 : eig h L 0 = 0). { unfold eig. cbn [INR]. unfold Rdiv. rewrite !Rmult_0_l, sin_0. ring. } rewrite E0. field. lra.
      + assert (0 <= eig h L 0) by (apply eig_nonneg; auto). assert (0 < eig h L l) by (apply eig_pos; auto; lia). field. split; lra.
      + assert (0 < eig h L k) by (apply eig_pos; auto; lia). assert (0 <= eig h L 0) by (apply eig_nonneg; auto). field. split; lra.
      + assert (0 < eig h L k) by (apply eig_pos; auto; lia). assert (0 < eig h L l) by (apply eig_pos; auto; lia). field. split; lra.
  Qed.
End Solve.
