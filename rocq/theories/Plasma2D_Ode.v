(** Lemmas for C22-C24: the radial solver, the cumulative integrals and the 2D fields. *)
From Coq Require Import Reals ZArith List Bool Lra Lia Psatz.
From Verif Require Import Plasma2D_Model Plasma2D_Spec.
Import ListNotations.
Open Scope R_scope.

Lemma INR_pos' i : (1 <= i)%nat -> 1 <= INR i.
Proof. intros H. apply (le_INR 1) in H. exact H. Qed.

(** ** Sweep *)
Section Tri.
  Variables (f k : arr) (h : R).
  Hypothesis Hk : forall i, 0 <= k i.
  Notation al i := (fst (sweep f k h i)).
  Notation be i := (snd (sweep f k h i)).
  Lemma sweep_S i : sweep f k h (S i) =
    ((1 + 0.5 / INR (S i)) * (1 / (2 + k (S i) * h ^ 2 + 1 / INR (S i) ^ 2 - (1 - 0.5 / INR (S i)) * al i)),
     ((1 - 0.5 / INR (S i)) * be i - h ^ 2 * f (S i)) * (1 / (2 + k (S i) * h ^ 2 + 1 / INR (S i) ^ 2 - (1 - 0.5 / INR (S i)) * al i))).
  Proof. cbn [sweep]. destruct (sweep f k h i). reflexivity. Qed.
  Lemma denom_pos i a : 0 <= a <= 1 -> (1 <= i)%nat ->
    1 + 0.5 / INR i < 2 + k i * h ^ 2 + 1 / INR i ^ 2 - (1 - 0.5 / INR i) * a /\ 0 < 1 + 0.5 / INR i.
  Proof.
    intros Ha Hi. pose proof (INR_pos' i Hi) as H1. assert (Hr : 0 < / INR i) by (apply Rinv_0_lt_compat; lra).
    assert (Hr1 : / INR i <= 1) by (rewrite <- Rinv_1; apply Rinv_le_contravar; lra).
    pose proof (Hk i) as Hki. assert (0 <= k i * h ^ 2) by (apply Rmult_le_pos; [auto|apply pow2_ge_0]).
    assert (E : 1 / INR i ^ 2 = / INR i * / INR i) by (field; lra). rewrite E. unfold Rdiv.
    set (v := / INR i) in *. split; [|lra]. nra.
  Qed.
  Lemma al_range i : 0 <= al i <= 1.
  Proof.
    induction i as [|i IH]; [cbn; lra|]. rewrite sweep_S. cbn [fst].
    destruct (denom_pos (S i) _ IH) as [A B]; [lia|].
    set (D := 2 + _ + _ - _) in *. set (N := 1 + _ / _) in *.
    assert (0 < / D) by (apply Rinv_0_lt_compat; lra). unfold Rdiv. rewrite Rmult_1_l. split; [apply Rmult_le_pos; lra|].
    apply (Rmult_le_reg_r D); [lra|]. rewrite Rmult_assoc, Rinv_l by lra. lra.
  Qed.
  (** one inner equation, in the code's coefficients *)
  Definition inner_eq (y : arr) i :=
    (1 + 0.5 / INR i) * y (S i) - (2 + k i * h ^ 2 + 1 / INR i ^ 2) * y i + (1 - 0.5 / INR i) * y (i - 1)%nat = h ^ 2 * f i.

  Lemma relation_gives_eq y i : (1 <= i)%nat -> y (i - 1)%nat = be (i - 1) + y i * al (i - 1) ->
    (inner_eq y i <-> y i = be i + y (S i) * al i).
  Proof.
    intros Hi Hp. destruct i as [|i]; [lia|]. replace (S i - 1)%nat with i in * by lia. unfold inner_eq.
    replace (S i - 1)%nat with i by lia. rewrite Hp, sweep_S. cbn [fst snd].
    destruct (denom_pos (S i) _ (al_range i)) as [A B]; [lia|].
    set (N := 1 + _) in *. set (M := 1 - _) in *. set (K := 2 + _ + _) in *. set (D := K - M * al i) in *.
    assert (HD : D <> 0) by lra. set (F := h ^ 2 * f (S i)). split; intros E.
    - apply (Rmult_eq_reg_r D); [|exact HD]. transitivity (M * be i - F + y (S (S i)) * N); [|field; auto].
      unfold D. lra.
    - transitivity (N * y (S (S i)) - D * y (S i) + M * be i); [unfold D; ring|].
      rewrite E. field. exact HD.
  Qed.

  Lemma back_step b0 b1 nr i : (i < nr)%nat ->
    back_from f k h b0 b1 nr (nr - i) = be i + back_from f k h b0 b1 nr (nr - S i) * al i.
  Proof.
    intros Hi. replace (nr - i)%nat with (S (nr - S i)) by lia. cbn [back_from].
    replace (nr - S (nr - S i))%nat with i by lia. now destruct (sweep f k h i).
  Qed.
  Variables (n : nat) (b0 b1 : R).
  Hypothesis Hn : (2 <= n)%nat.
  Hypothesis Hb : b1 - b0 * al (n - 2) <> 0.
  Notation y := (tridiagonal_solve n f k h (b0, b1)).
  Lemma y_step i : (i < n - 1)%nat -> y i = be i + y (S i) * al i.
  Proof. intros Hi. unfold tridiagonal_solve. cbn [fst snd]. now apply back_step. Qed.
  Lemma y_0 : y 0%nat = 0.
  Proof. rewrite y_step by lia. cbn. lra. Qed.
  Lemma y_inner i : (1 <= i <= n - 2)%nat -> inner_eq y i.
  Proof.
    intros Hi. apply relation_gives_eq; [lia| |apply y_step; lia].
    replace i with (S (i - 1)) at 3 by lia. apply y_step. lia.
  Qed.
  Lemma y_last : y (n - 1)%nat * (b1 - b0 * al (n - 2)) = b0 * be (n - 2) - h * f (n - 1)%nat.
  Proof.
    unfold tridiagonal_solve. cbn [fst snd]. replace (n - 1 - (n - 1))%nat with 0%nat by lia. cbn [back_from].
    replace (n - 1 - 1)%nat with (n - 2)%nat by lia. revert Hb. destruct (sweep f k h (n - 2)). cbn [fst snd]. intros Hb. field. exact Hb.
  Qed.
  Lemma y_bound : b0 * y (n - 2)%nat - b1 * y (n - 1)%nat = h * f (n - 1)%nat.
  Proof.
    rewrite (y_step (n - 2)) by lia. replace (S (n - 2)) with (n - 1)%nat by lia. pose proof y_last as E. lra.
  Qed.
  (** any solution is this one *)
  Lemma y_unique z : z 0%nat = 0 -> (forall i, (1 <= i <= n - 2)%nat -> inner_eq z i) ->
    b0 * z (n - 2)%nat - b1 * z (n - 1)%nat = h * f (n - 1)%nat -> forall i, (i < n)%nat -> z i = y i.
  Proof.
    intros Z0 Zi Zb.
    assert (S1 : forall i, (i < n - 1)%nat -> z i = be i + z (S i) * al i).
    { induction i as [|i IH]; intros Hi; [cbn; lra|]. apply relation_gives_eq; [lia| |apply Zi; lia].
      replace (S i - 1)%nat with i by lia. apply IH. lia. }
    assert (L : z (n - 1)%nat = y (n - 1)%nat).
    { apply (Rmult_eq_reg_r (b1 - b0 * al (n - 2))); [|exact Hb]. rewrite y_last.
      rewrite (S1 (n - 2)%nat) in Zb by lia. replace (S (n - 2)) with (n - 1)%nat in Zb by lia. lra. }
    assert (G : forall d, (d < n)%nat -> z (n - 1 - d)%nat = y (n - 1 - d)%nat).
    { induction d as [|d IH]; intros Hd; [replace (n - 1 - 0)%nat with (n - 1)%nat by lia; exact L|].
      rewrite (S1 (n - 1 - S d)%nat), (y_step (n - 1 - S d)) by lia.
      replace (S (n - 1 - S d)) with (n - 1 - d)%nat by lia. rewrite IH by lia. reflexivity. }
    intros i Hi. replace i with (n - 1 - (n - 1 - i))%nat by lia. apply G. lia.
  Qed.
End Tri.

(** the code's coefficients are the central differences *)
Lemma inner_eq_radial f k h y i : 0 < h -> (1 <= i)%nat ->
  (inner_eq f k h y i <->
   (y (i + 1)%nat - 2 * y i + y (i - 1)%nat) / h ^ 2 + (y (i + 1)%nat - y (i - 1)%nat) / (2 * h) / (INR i * h)
    - y i / (INR i * h) ^ 2 - k i * y i = f i).
Proof.
  intros Hh Hi. pose proof (INR_pos' i Hi) as H1. unfold inner_eq. replace (i + 1)%nat with (S i) by lia.
  set (L := (_ - 2 * _ + _) / _ + _ - _ - _).
  assert (E : L * h ^ 2 = (1 + 0.5 / INR i) * y (S i) - (2 + k i * h ^ 2 + 1 / INR i ^ 2) * y i + (1 - 0.5 / INR i) * y (i - 1)%nat)
    by (unfold L; replace 0.5 with (/ 2) by lra; field; split; lra).
  assert (h ^ 2 <> 0) by (apply pow_nonzero; lra).
  split; intros G.
  - apply (Rmult_eq_reg_r (h ^ 2)); [|auto]. rewrite E, G. ring.
  - rewrite <- E, G. ring.
Qed.

Lemma neumann_denom f k h n : (forall i, 0 <= k i) -> (2 <= n)%nat ->
  let nr := INR (n - 1) in - nr / (nr - 1 / 2) - - (nr - 1) / (nr - 1 / 2) * fst (sweep f k h (n - 2)) <> 0.
Proof.
  intros Hk Hn nr. pose proof (al_range f k h Hk (n - 2)) as A. assert (1 <= nr) by (apply INR_pos'; lia).
  set (a := fst _) in *.
  replace (- nr / (nr - 1 / 2) - - (nr - 1) / (nr - 1 / 2) * a) with ((- nr + (nr - 1) * a) / (nr - 1 / 2)) by (field; lra).
  unfold Rdiv. apply Rmult_integral_contrapositive_currified; [nra|]. apply Rinv_neq_0_compat. lra.
Qed.

Lemma tri_neumann f k h n : 0 < h -> (forall i, 0 <= k i) -> (2 <= n)%nat ->
  let y := tridiagonal_solve_neumann_like n f k h in
  radial_equation n h k f y /\ y 0%nat = 0 /\ last_cell_divergence n h y = f (n - 1)%nat.
Proof.
  intros Hh Hk Hn y. pose proof (neumann_denom f k h n Hk Hn) as Hb.
  split; [|split].
  - intros i Hi. apply inner_eq_radial; [auto|lia|]. apply y_inner; auto.
  - apply y_0; auto.
  - pose proof (y_bound f k h n _ _ Hn Hb) as E. fold y in E. unfold last_cell_divergence.
    change (tridiagonal_solve n f k h _) with y in E.
    pose proof (INR_pos' (n - 1)) as H1. assert (I : INR (n - 2) = INR (n - 1) - 1).
    { replace (n - 1)%nat with (S (n - 2)) by lia. rewrite S_INR. lra. }
    rewrite I. set (N := INR (n - 1)) in *. assert (1 <= N) by (apply H1; lia).
    apply (Rmult_eq_reg_l h); [|lra]. rewrite <- E. assert (0 < (N - 1) * h + N * h) by nra. field. repeat split; lra.
Qed.
Lemma tri_neumann_unique f k h n z : 0 < h -> (forall i, 0 <= k i) -> (2 <= n)%nat ->
  radial_equation n h k f z -> z 0%nat = 0 -> last_cell_divergence n h z = f (n - 1)%nat ->
  forall i, (i < n)%nat -> z i = tridiagonal_solve_neumann_like n f k h i.
Proof.
  intros Hh Hk Hn Hr H0 Hl. apply y_unique; auto.
  - now apply neumann_denom.
  - intros i Hi. apply inner_eq_radial; [auto|lia|]. now apply Hr.
  - pose proof (INR_pos' (n - 1)) as H1. assert (I : INR (n - 2) = INR (n - 1) - 1).
    { replace (n - 1)%nat with (S (n - 2)) by lia. rewrite S_INR. lra. }
    rewrite <- Hl. unfold last_cell_divergence. rewrite I. set (N := INR (n - 1)) in *. assert (1 <= N) by (apply H1; lia).
    assert (0 < (N - 1) * h + N * h) by nra. field. repeat split; lra.
Qed.
Lemma tri_dirichlet f k h n : 0 < h -> (forall i, 0 <= k i) -> (2 <= n)%nat ->
  let y := tridiagonal_solve_dirichlet n f k h in
  radial_equation n h k f y /\ y 0%nat = 0 /\ y (n - 1)%nat = h * f (n - 1)%nat.
Proof.
  intros Hh Hk Hn y. assert (Hb : -1 - 0 * fst (sweep f k h (n - 2)) <> 0) by lra.
  split; [|split].
  - intros i Hi. apply inner_eq_radial; [auto|lia|]. apply y_inner; auto.
  - apply y_0; auto.
  - pose proof (y_bound f k h n _ _ Hn Hb) as E. change (tridiagonal_solve n f k h _) with y in E. lra.
Qed.
Lemma tri_dirichlet_unique f k h n z : 0 < h -> (forall i, 0 <= k i) -> (2 <= n)%nat ->
  radial_equation n h k f z -> z 0%nat = 0 -> z (n - 1)%nat = h * f (n - 1)%nat ->
  forall i, (i < n)%nat -> z i = tridiagonal_solve_dirichlet n f k h i.
Proof.
  intros Hh Hk Hn Hr H0 Hl. apply y_unique; auto; try lra.
  intros i Hi. apply inner_eq_radial; [auto|lia|]. now apply Hr.
Qed.

(** ** Cumulative integrals *)
Lemma fwd_step y h i : cumtrapz_fwd y h (i + 1) - cumtrapz_fwd y h i = trapezoid y h i.
Proof. replace (i + 1)%nat with (S i) by lia. cbn [cumtrapz_fwd]. unfold trapezoid. replace (i + 1)%nat with (S i) by lia. field. Qed.
Lemma bwd_last n y h : cumtrapz_bwd n y h (n - 1)%nat = 0.
Proof. unfold cumtrapz_bwd. now replace (n - 1 - (n - 1))%nat with 0%nat by lia. Qed.
Lemma bwd_step n y h i : (i + 1 < n)%nat -> cumtrapz_bwd n y h (i + 1)%nat - cumtrapz_bwd n y h i = trapezoid y h i.
Proof.
  intros Hi. unfold cumtrapz_bwd. replace (n - 1 - i)%nat with (S (n - 1 - (i + 1))) by lia. cbn [cumtrapz_bwd_from].
  replace (n - 2 - (n - 1 - (i + 1)))%nat with i by lia. unfold trapezoid. replace (i + 1)%nat with (S i) by lia. field.
Qed.
Lemma sumN_S n f : sumN (S n) f = sumN n f + f n.
Proof. reflexivity. Qed.
Lemma sumN_ext n f g : (forall i, (i < n)%nat -> f i = g i) -> sumN n f = sumN n g.
Proof. induction n as [|n IH]; intros H; [reflexivity|]. cbn. rewrite IH, H; auto. Qed.
Lemma sumN_plus n f g : sumN n (fun i => f i + g i) = sumN n f + sumN n g.
Proof. induction n as [|n IH]; cbn; [lra|rewrite IH; lra]. Qed.
Lemma sumN_scal n c f : sumN n (fun i => c * f i) = c * sumN n f.
Proof. induction n as [|n IH]; cbn; [lra|rewrite IH; lra]. Qed.
Lemma sumN_zero n f : (forall i, (i < n)%nat -> f i = 0) -> sumN n f = 0.
Proof. induction n as [|n IH]; intros H; [reflexivity|]. cbn. rewrite IH, H; auto. lra. Qed.
Lemma fwd_closed y h i : cumtrapz_fwd y h i = sumN i (trapezoid y h).
Proof. induction i as [|i IH]; [reflexivity|]. rewrite sumN_S, <- IH. pose proof (fwd_step y h i) as E. replace (i + 1)%nat with (S i) in E by lia. lra. Qed.
Lemma bwd_closed n y h i : (i < n)%nat -> cumtrapz_bwd n y h i = - sumN (n - 1 - i) (fun j => trapezoid y h (i + j)).
Proof.
  intros Hi. remember (n - 1 - i)%nat as d eqn:E. revert i Hi E. induction d as [|d IH]; intros i Hi E.
  - replace i with (n - 1)%nat by lia. rewrite bwd_last. cbn. lra.
  - pose proof (bwd_step n y h i ltac:(lia)) as B. rewrite (IH (i + 1)%nat) in B by lia.
    assert (G : sumN (S d) (fun j => trapezoid y h (i + j)) = trapezoid y h i + sumN d (fun j => trapezoid y h (i + 1 + j))).
    { clear. induction d as [|d IH]; [cbn; rewrite Nat.add_0_r; lra|]. rewrite sumN_S, IH, sumN_S.
      replace (i + S d)%nat with (i + 1 + d)%nat by lia. lra. }
    rewrite G. lra.
Qed.
Lemma fwd_affine y h i a b : (forall j, y j = a + b * (INR j * h)) -> cumtrapz_fwd y h i = a * (INR i * h) + b * (INR i * h) ^ 2 / 2.
Proof.
  intros Hy. induction i as [|i IH]; [cbn; lra|]. cbn [cumtrapz_fwd]. rewrite IH, !Hy, S_INR. field.
Qed.
Lemma bwd_affine n y h i a b : (i < n)%nat -> (forall j, y j = a + b * (INR j * h)) ->
  let R := INR (n - 1) * h in let r := INR i * h in
  cumtrapz_bwd n y h i = - (a * (R - r) + b * (R ^ 2 - r ^ 2) / 2).
Proof.
  intros Hi Hy R r. subst R r. remember (n - 1 - i)%nat as d eqn:E. revert i Hi E. induction d as [|d IH]; intros i Hi E.
  - replace i with (n - 1)%nat by lia. rewrite bwd_last. lra.
  - pose proof (bwd_step n y h i ltac:(lia)) as B. rewrite (IH (i + 1)%nat) in B by lia. unfold trapezoid in B. rewrite !Hy in B.
    replace (i + 1)%nat with (S i) in B by lia. rewrite S_INR in B. lra.
Qed.

(** ** Fields *)
Lemma prev_factor_ge1 rho jr jf jz i : 1 <= prev_factor rho jr jf jz i.
Proof. unfold prev_factor. destruct (Rlt_dec (if Rlt_dec _ _ then _ else _) 0); lra. Qed.

Lemma ez_facts n j h : compute_e_z n j h (n - 1)%nat = 0 /\
  (forall i, (i + 1 < n)%nat -> (compute_e_z n j h (i + 1)%nat - compute_e_z n j h i) / h = (j i + j (i + 1)%nat) / 2 \/ h = 0).
Proof.
  split; [apply bwd_last|]. intros i Hi. destruct (Req_dec h 0); [auto|left]. unfold compute_e_z. rewrite bwd_step by auto.
  unfold trapezoid. field. auto.
Qed.
Lemma bphi_axis n rho jz er h : er 0%nat = 0 -> compute_b_phi n rho jz er h 0%nat = 0.
Proof. intros E. unfold compute_b_phi. cbn. lra. Qed.
Lemma bphi_step n rho jz er h i : h <> 0 ->
  let g := fun i => INR i * h * (er i - compute_b_phi n rho jz er h i) in
  (g (i + 1)%nat - g i) / h = (INR i * h * (rho i - jz i) + INR (i + 1) * h * (rho (i + 1)%nat - jz (i + 1)%nat)) / 2.
Proof.
  intros Hh g. assert (G : forall i, g i = h * cumtrapz_fwd (fun i => INR i * (rho i - jz i)) h i).
  { intros j. unfold g, compute_b_phi. destruct (Nat.eqb_spec j 0) as [->|Hj]; [cbn; lra|].
    pose proof (INR_pos' j ltac:(lia)). field. lra. }
  rewrite !G. pose proof (fwd_step (fun i => INR i * (rho i - jz i)) h i) as E. unfold trapezoid in E.
  unfold Rdiv. rewrite <- Rmult_minus_distr_l, E. field. auto.
Qed.
Lemma bz_step n j h i : (i + 1 < n)%nat -> compute_b_z n j h (i + 1)%nat - compute_b_z n j h i = - trapezoid j h i.
Proof.
  intros Hi. unfold compute_b_z. pose proof (bwd_step n (fun i => - j i) h i Hi) as E. unfold trapezoid in *. lra.
Qed.
Lemma odd_sum n : sumN n (fun i => 2 * INR i + 1) = INR n ^ 2.
Proof. induction n as [|n IH]; [cbn; lra|]. rewrite sumN_S, IH, S_INR. ring. Qed.
Lemma bz_flux n j h : (2 <= n)%nat -> sumN (n - 1) (fun i => (2 * INR i + 1) * compute_b_z n j h i) = 0.
Proof.
  intros Hn. unfold compute_b_z. set (b := cumtrapz_bwd n (fun i => - j i) h). set (F := sumN n _).
  assert (E : F = sumN (n - 1) (fun i => (2 * INR i + 1) * b i)).
  { unfold F. replace n with (S (n - 1)) at 1 by lia. rewrite sumN_S. unfold b. rewrite bwd_last. lra. }
  rewrite (sumN_ext _ _ (fun i => (2 * INR i + 1) * b i + - (F / INR (n - 1) ^ 2) * (2 * INR i + 1))) by (intros; ring).
  rewrite sumN_plus, sumN_scal, odd_sum, <- E. pose proof (INR_pos' (n - 1) ltac:(lia)). field. lra.
Qed.
