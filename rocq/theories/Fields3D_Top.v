(** Lemmas for C32: the fields computed by compute_fields. *)
From Coq Require Import Reals ZArith List Bool Lra Lia Psatz.
From Verif Require Import Beam2D_Model Beam2D_Spec Plasma2D_Model Plasma2D_Ode Plasma2D_Dens Shape_Model Shape_Spec Shape_Proofs Plasma3D_Model Plasma3D_Spec Plasma3D_Move Spectral Fields3D_Proofs Fields3D_Unique.
Import ListNotations.
Open Scope R_scope.

Lemma laplacian_transpose h L u i j : minus_laplacian h L (transpose u) i j = minus_laplacian h L u j i.
Proof. unfold minus_laplacian, transpose. apply Rplus_comm. Qed.

Section Top.
  Variables (L : nat) (h X coeff : R).
  Hypothesis HL : (2 <= L)%nat.
  Hypothesis Hh : h <> 0.
  Lemma Ez_solve c : calculate_Ez (L + 1) h c = dirichlet_solve L h (fun i j => - ((s_jx c (i + 2)%nat (j + 1)%nat - s_jx c i (j + 1)%nat)
                           + (s_jy c (i + 1)%nat (j + 2)%nat - s_jy c (i + 1)%nat j)) / (h * 2)).
  Proof. unfold calculate_Ez, dirichlet_solve. now replace (L + 1 - 2)%nat with (L - 1)%nat by lia. Qed.
  Lemma Phi_solve c : calculate_Phi (L + 1) h c = dirichlet_solve L h (inner (fun i j => s_ro c i j - s_jz c i j)).
  Proof. unfold calculate_Phi, dirichlet_solve. now replace (L + 1 - 2)%nat with (L - 1)%nat by lia. Qed.
  Lemma Ez_rhs c i j : interior L i -> interior L j ->
    - ((s_jx c (i - 1 + 2)%nat (j - 1 + 1)%nat - s_jx c (i - 1)%nat (j - 1 + 1)%nat)
       + (s_jy c (i - 1 + 1)%nat (j - 1 + 2)%nat - s_jy c (i - 1 + 1)%nat (j - 1)%nat)) / (h * 2) = - (cdx h (s_jx c) i j + cdy h (s_jy c) i j).
  Proof.
    unfold interior, cdx, cdy. intros Hi Hj. replace (i - 1 + 2)%nat with (i + 1)%nat by lia. replace (j - 1 + 2)%nat with (j + 1)%nat by lia.
    replace (i - 1 + 1)%nat with i by lia. replace (j - 1 + 1)%nat with j by lia. field. auto.
  Qed.
  Lemma inner_d (F : arr2) i j : (i <= L)%nat -> (j <= L)%nat -> on_inner (L + 1) F i j / (h * 2) = inner_only L (fun i j => F i j / (2 * h)) i j.
  Proof.
    intros Hi Hj. unfold on_inner, inner_only. replace (L + 1 - 1)%nat with L by lia.
    destruct (Nat.leb_spec 1 i), (Nat.leb_spec i (L - 1)), (Nat.leb_spec 1 j), (Nat.leb_spec j (L - 1)), (Nat.eqb_spec i 0), (Nat.eqb_spec i L), (Nat.eqb_spec j 0), (Nat.eqb_spec j L);
      cbn [andb orb]; try lia; field; auto.
  Qed.
  Lemma ddx_inner a i j : (i <= L)%nat -> (j <= L)%nat -> d_dx (L + 1) h a i j = inner_only L (cdx h a) i j.
  Proof. intros. unfold d_dx. rewrite inner_d by auto. reflexivity. Qed.
  Lemma ddy_inner a i j : (i <= L)%nat -> (j <= L)%nat -> d_dy (L + 1) h a i j = inner_only L (cdy h a) i j.
  Proof. intros. unfold d_dy. rewrite inner_d by auto. reflexivity. Qed.

  Hypothesis Hc : 0 <= coeff.
  Variables (f : fields3) (rbf rbp : arr2) (cf cp : curs).
  Definition ro_h : arr2 := fun i j => (s_ro cf i j + rbf i j + s_ro cp i j + rbp i j) / 2.
  Definition jz_h : arr2 := fun i j => (s_jz cf i j + rbf i j + s_jz cp i j + rbp i j) / 2.
  Notation tr := (calculate_Ex_Ey_Bx_By (L + 1) h X coeff f rbf rbp cf cp).
  Lemma tr_fields : exists ex ey bx b_y, tr = (ex, ey, bx, b_y) /\
    (forall i j, (i <= L)%nat -> interior L j -> minus_laplacian h L ex i j + coeff * ex i j =
       - (inner_only L (cdx h ro_h) i j - (s_jx cp i j - s_jx cf i j) / X) + coeff * Ex f i j) /\
    (forall i j, interior L i -> (j <= L)%nat -> minus_laplacian h L ey i j + coeff * ey i j =
       - (inner_only L (cdy h ro_h) i j - (s_jy cp i j - s_jy cf i j) / X) + coeff * Ey f i j) /\
    (forall i j, interior L i -> (j <= L)%nat -> minus_laplacian h L bx i j + coeff * bx i j =
       inner_only L (cdy h jz_h) i j - (s_jy cp i j - s_jy cf i j) / X + coeff * Bx f i j) /\
    (forall i j, (i <= L)%nat -> interior L j -> minus_laplacian h L b_y i j + coeff * b_y i j =
       - (inner_only L (cdx h jz_h) i j - (s_jx cp i j - s_jx cf i j) / X) + coeff * By f i j) /\
    (forall i, ex i 0%nat = 0 /\ ex i L = 0 /\ b_y i 0%nat = 0 /\ b_y i L = 0 /\ ey 0%nat i = 0 /\ ey L i = 0 /\ bx 0%nat i = 0 /\ bx L i = 0).
  Proof.
    unfold calculate_Ex_Ey_Bx_By. fold ro_h jz_h. eexists _, _, _, _. split; [reflexivity|].
    split; [|split; [|split; [|split]]].
    - intros i j Hi Hj. rewrite laplacian_transpose. unfold transpose at 2. rewrite mixed_ok by auto. unfold transpose. unfold interior in Hj. rewrite ddx_inner by lia. ring.
    - intros i j Hi Hj. rewrite mixed_ok by auto. unfold interior in Hi. rewrite ddy_inner by lia. ring.
    - intros i j Hi Hj. rewrite mixed_ok by auto. unfold interior in Hi. rewrite ddy_inner by lia. ring.
    - intros i j Hi Hj. rewrite laplacian_transpose. unfold transpose at 2. rewrite mixed_ok by auto. unfold transpose. unfold interior in Hj. rewrite ddx_inner by lia. ring.
    - intros i. unfold transpose. rewrite !mixed_edge by auto. auto 10.
  Qed.
End Top.

(** ** Bz *)
Section BzS.
  Variables (L : nat) (h : R).
  Hypothesis HL : (2 <= L)%nat.
  Hypothesis Hh : h <> 0.
  Lemma Bz_rhs c i j : (i <= L)%nat -> (j <= L)%nat ->
    - (pad (L + 1) (fun i j => s_jx c (i + 1)%nat (j + 2)%nat - s_jx c (i + 1)%nat j) i j - pad (L + 1) (fun i j => s_jy c (i + 2)%nat (j + 1)%nat - s_jy c i (j + 1)%nat) i j) / (h * 2)
    = curl_j h L (s_jx c) (s_jy c) i j.
  Proof.
    intros Hi Hj. unfold pad, curl_j, inner_only, cdx, cdy. replace (L + 1 - 1)%nat with L by lia.
    destruct (Nat.leb_spec 1 i), (Nat.leb_spec i (L - 1)), (Nat.leb_spec 1 j), (Nat.leb_spec j (L - 1)), (Nat.eqb_spec i 0), (Nat.eqb_spec i L), (Nat.eqb_spec j 0), (Nat.eqb_spec j L);
      cbn [andb orb]; try lia; try (field; auto).
    replace (i - 1 + 2)%nat with (i + 1)%nat by lia. replace (j - 1 + 2)%nat with (j + 1)%nat by lia.
    replace (i - 1 + 1)%nat with i by lia. replace (j - 1 + 1)%nat with j by lia. field. auto.
  Qed.
  Lemma trapezoid_mean_ext a b : (forall i j, (i <= L)%nat -> (j <= L)%nat -> a i j = b i j) -> trapezoid_mean L a = trapezoid_mean L b.
  Proof. intros H. unfold trapezoid_mean. f_equal. apply sumN_ext. intros i Hi. apply sumN_ext. intros j Hj. rewrite H by lia. reflexivity. Qed.
  Lemma laplacian_shift u c i j : minus_laplacian h L (fun a b => u a b - c) i j = minus_laplacian h L u i j.
  Proof. unfold minus_laplacian, minus_d2. field. auto. Qed.
  Lemma Bz_ok c i j : (i <= L)%nat -> (j <= L)%nat ->
    minus_laplacian h L (calculate_Bz (L + 1) h c) i j = curl_j h L (s_jx c) (s_jy c) i j - trapezoid_mean L (curl_j h L (s_jx c) (s_jy c)).
  Proof.
    intros Hi Hj. unfold calculate_Bz. rewrite laplacian_shift.
    match goal with |- minus_laplacian _ _ (dct2d _ (times (dct2d _ ?r) _)) _ _ = ?rhs => change (minus_laplacian h L (neumann_solve L h r) i j = rhs) end.
    rewrite (neumann_ok L h HL Hh) by auto.
    cbn beta. rewrite Bz_rhs by auto. f_equal. apply trapezoid_mean_ext. intros. now apply Bz_rhs.
  Qed.
  Lemma Bz_mean c : sumN (L + 1) (fun i => sumN (L + 1) (fun j => calculate_Bz (L + 1) h c i j)) = 0.
  Proof.
    unfold calculate_Bz. set (u := dct2d _ _). unfold mean2.
    set (S := sumN (L + 1) (fun i => sumN (L + 1) (fun j => u i j))). set (m := S / _).
    rewrite (sumN_ext _ _ (fun i => sumN (L + 1) (fun j => u i j) + (- m) * sumN (L + 1) (fun _ => 1))).
    - rewrite sumN_plus, sumN_scal. fold S.
      assert (E : forall n c, sumN n (fun _ => c) = INR n * c) by (intros n c0; induction n as [|n IH]; [cbn; ring|rewrite sumN_S, IH, S_INR; ring]).
      rewrite !E. unfold m. assert (INR (L + 1) <> 0) by (apply not_0_INR; lia). field. auto.
    - intros i Hi. rewrite <- sumN_scal, <- sumN_plus. apply sumN_ext. intros. ring.
  Qed.
  Lemma Bz_unique c u : (forall i j, (i <= L)%nat -> (j <= L)%nat ->
      minus_laplacian h L u i j = curl_j h L (s_jx c) (s_jy c) i j - trapezoid_mean L (curl_j h L (s_jx c) (s_jy c))) ->
    sumN (L + 1) (fun i => sumN (L + 1) (fun j => u i j)) = 0 ->
    forall i j, (i <= L)%nat -> (j <= L)%nat -> u i j = calculate_Bz (L + 1) h c i j.
  Proof.
    intros Hu Hs i j Hi Hj. set (b := calculate_Bz (L + 1) h c).
    destruct (neumann_constant L h HL Hh (fun i j => u i j - b i j)) as [k Hk].
    - intros a d Ha Hd. transitivity (minus_laplacian h L u a d - minus_laplacian h L b a d); [unfold minus_laplacian, minus_d2; field; auto|].
      rewrite Hu by auto. unfold b. rewrite Bz_ok by auto. ring.
    - assert (E : sumN (L + 1) (fun i => sumN (L + 1) (fun j => u i j - b i j)) = 0).
      { rewrite (sumN_ext _ _ (fun i => sumN (L + 1) (fun j => u i j) + -1 * sumN (L + 1) (fun j => b i j))).
        - rewrite sumN_plus, sumN_scal, Hs. unfold b. rewrite Bz_mean. ring.
        - intros a Ha. rewrite <- sumN_scal, <- sumN_plus. apply sumN_ext. intros. ring. }
      rewrite (sumN_ext _ _ (fun i => sumN (L + 1) (fun j => k))) in E by (intros; apply sumN_ext; intros; apply Hk; lia).
      assert (C : forall n c, sumN n (fun _ => c) = INR n * c) by (intros n c0; induction n as [|n IH]; [cbn; ring|rewrite sumN_S, IH, S_INR; ring]).
      rewrite !C in E. assert (N : INR (L + 1) <> 0) by (apply not_0_INR; lia). assert (k = 0).
      { apply Rmult_integral in E. destruct E as [E|E]; [lra|]. apply Rmult_integral in E. destruct E; [lra|auto]. }
      pose proof (Hk i j Hi Hj). cbn beta in *. lra.
  Qed.
  (** the source has no mean when nothing flows in the two outer rings *)
  Lemma tele2 (g : nat -> R) n : sumN n (fun k => g (k + 2)%nat - g k) = g (n + 1)%nat + g n - g 1%nat - g 0%nat.
  Proof. induction n as [|n IH]; [cbn; ring|]. rewrite sumN_S, IH. replace (S n + 1)%nat with (n + 2)%nat by lia. replace (S n) with (n + 1)%nat by lia. ring. Qed.
  Lemma inner_sum_d (g : arr) : g 0%nat = 0 -> g 1%nat = 0 -> g (L - 1)%nat = 0 -> g L = 0 -> sumN (L - 1) (fun k => g (k + 1 + 1)%nat - g (k + 1 - 1)%nat) = 0.
  Proof.
    intros A B C D. rewrite (sumN_ext _ _ (fun k => g (k + 2)%nat - g k)).
    - rewrite tele2. replace (L - 1 + 1)%nat with L by lia. lra.
    - intros k Hk. f_equal; f_equal; lia.
  Qed.
  Lemma trapezoid_inner F : (forall i j, (i = 0 \/ i = L \/ j = 0 \/ j = L)%nat -> F i j = 0) ->
    trapezoid_mean L F = 4 * sumN (L - 1) (fun i => sumN (L - 1) (fun j => F (i + 1)%nat (j + 1)%nat)) / (2 * INR L) ^ 2.
  Proof.
    intros H. unfold trapezoid_mean. f_equal.
    rewrite (sumN_ext _ _ (fun i => wt L i * (sumN (L + 1) (fun j => wt L j * F i j)))).
    - rewrite wt_sum by lia.
      rewrite (sumN_zero (L + 1) (fun j => wt L j * F 0%nat j)) by (intros; rewrite H by auto; ring).
      rewrite (sumN_zero (L + 1) (fun j => wt L j * F L j)) by (intros; rewrite H by auto; ring).
      rewrite (sumN_ext (L - 1) _ (fun i => 2 * sumN (L - 1) (fun j => F (i + 1)%nat (j + 1)%nat))).
      + rewrite sumN_scal. ring.
      + intros i Hi. rewrite wt_sum by lia. rewrite !(H (i + 1)%nat) by auto. ring.
    - intros i Hi. rewrite <- sumN_scal. apply sumN_ext. intros. unfold end_weight, wt. ring.
  Qed.
  Lemma curl_mean (jx jy : arr2) : (forall i j, (i <= L)%nat -> (j <= L)%nat -> (i <= 1 \/ L - 1 <= i \/ j <= 1 \/ L - 1 <= j)%nat -> jx i j = 0 /\ jy i j = 0) ->
    trapezoid_mean L (curl_j h L jx jy) = 0.
  Proof.
    intros H. rewrite trapezoid_inner.
    - replace (sumN (L - 1) (fun i => sumN (L - 1) (fun j => curl_j h L jx jy (i + 1)%nat (j + 1)%nat))) with 0; [unfold Rdiv; ring|]. symmetry.
      rewrite (sumN_ext _ _ (fun i => - / (2 * h) * sumN (L - 1) (fun j => jx (i + 1)%nat (j + 1 + 1)%nat - jx (i + 1)%nat (j + 1 - 1)%nat)
         + / (2 * h) * sumN (L - 1) (fun j => jy (i + 1 + 1)%nat (j + 1)%nat - jy (i + 1 - 1)%nat (j + 1)%nat))).
      + rewrite sumN_plus, !sumN_scal.
        rewrite (sumN_zero (L - 1) (fun i => sumN (L - 1) (fun j => jx (i + 1)%nat (j + 1 + 1)%nat - jx (i + 1)%nat (j + 1 - 1)%nat))).
        2:{ intros i Hi. apply (inner_sum_d (fun j => jx (i + 1)%nat j)); apply H; lia. }
        rewrite sumN_swap.
        rewrite (sumN_zero (L - 1) (fun j => sumN (L - 1) (fun i => jy (i + 1 + 1)%nat (j + 1)%nat - jy (i + 1 - 1)%nat (j + 1)%nat))).
        2:{ intros j Hj. apply (inner_sum_d (fun i => jy i (j + 1)%nat)); apply H; lia. }
        ring.
      + intros i Hi. rewrite <- !sumN_scal, <- sumN_plus. apply sumN_ext. intros j Hj. unfold curl_j, inner_only.
        destruct (Nat.leb_spec 1 (i + 1)), (Nat.leb_spec (i + 1) (L - 1)), (Nat.leb_spec 1 (j + 1)), (Nat.leb_spec (j + 1) (L - 1)); cbn [andb]; try lia.
        unfold cdx, cdy, Rdiv. ring.
    - intros i j Hij. unfold curl_j, inner_only.
      destruct (Nat.leb_spec 1 i), (Nat.leb_spec i (L - 1)), (Nat.leb_spec 1 j), (Nat.leb_spec j (L - 1)); cbn [andb]; try lia; auto.
  Qed.
End BzS.

(** ** The outer rings are empty *)
Lemma ring_empty N h pad p r a : 0 < h -> Nat.odd N = true -> (IZR r + 3 <= IZR pad) -> Rabs p < wall N h pad -> (0 <= r)%Z ->
  (0 <= a < Z.of_nat N)%Z -> (a <= r \/ Z.of_nat N - 1 - r <= a)%Z -> spline4 (IZR (a - Z.of_nat N / 2) - p / h) = 0.
Proof.
  intros Hh Ho Hp Hx Hr Ha Hor. apply spline_out. apply Nat.odd_spec in Ho. destruct Ho as [k ->]. unfold wall in Hx.
  replace (Z.of_nat (2 * k + 1) / 2)%Z with (Z.of_nat k) by (rewrite Nat2Z.inj_add, Nat2Z.inj_mul; apply (Z.div_unique _ 2 _ 1); lia).
  rewrite minus_IZR, <- INR_IZR_INZ. rewrite plus_INR, mult_INR in Hx. cbn [INR] in Hx. set (K := INR k) in *.
  assert (E : p = p / h * h) by (field; lra). set (u := p / h) in *. apply Rabs_def2 in Hx. rewrite E in Hx.
  assert (A : - (K + 1 / 2 - IZR pad) < u < K + 1 / 2 - IZR pad) by (split; apply (Rmult_lt_reg_r h); nra).
  destruct Hor as [Hor|Hor]; apply IZR_le in Hor.
  - rewrite Rabs_left by lra. lra.
  - rewrite !minus_IZR, <- INR_IZR_INZ, plus_INR, mult_INR in Hor. cbn [INR] in Hor. fold K in Hor. rewrite Rabs_right by lra. lra.
Qed.
