(** Lemmas for C32: the discrete problems have one solution, and the code's fields are it. *)
From Coq Require Import Reals ZArith List Bool Lra Lia Psatz.
From Verif Require Import Plasma2D_Model Plasma2D_Ode Plasma2D_Dens Plasma3D_Model Plasma3D_Spec Spectral Fields3D_Proofs.
Import ListNotations.
Open Scope R_scope.

(** summation by parts *)
Lemma sbp (u v : arr) n : sumN n (fun k => v (k + 1)%nat * (2 * u (k + 1)%nat - u (k + 2)%nat - u k)) =
  sumN (n + 1) (fun k => (v (k + 1)%nat - v k) * (u (k + 1)%nat - u k)) - v (n + 1)%nat * (u (n + 1)%nat - u n) + v 0%nat * (u 1%nat - u 0%nat).
Proof.
  induction n as [|n IH]; [cbn; ring|]. rewrite sumN_S, IH. replace (S n + 1)%nat with (S (n + 1)) by lia. rewrite sumN_S.
  replace (n + 1 + 1)%nat with (n + 2)%nat by lia. replace (S (n + 1)) with (n + 2)%nat by lia. replace (S n) with (n + 1)%nat by lia. ring.
Qed.
Lemma T2_swap n A m B F i j : T2 n A m B F i j = ker n A (fun k => ker m B (fun l => F k l) j) i.
Proof. unfold T2. apply ker_swap. Qed.
Section U.
  Variables (L : nat) (h : R).
  Hypothesis HL : (2 <= L)%nat.
  Hypothesis Hh : h <> 0.
  Lemma d2_inner u k : (k < L - 1)%nat -> minus_d2 h L u (k + 1) = (2 * u (k + 1)%nat - u (k + 2)%nat - u k) / h ^ 2.
  Proof.
    intros Hk. unfold minus_d2, above. destruct (Nat.eqb_spec (k + 1) L); [lia|]. replace (below (k + 1)) with k by (destruct k; cbn; lia).
    now replace (k + 1 + 1)%nat with (k + 2)%nat by lia.
  Qed.
  Lemma sym_dirichlet u v : u 0%nat = 0 -> u L = 0 -> v 0%nat = 0 -> v L = 0 ->
    sumN (L - 1) (fun k => v (k + 1)%nat * minus_d2 h L u (k + 1)) = sumN (L - 1) (fun k => u (k + 1)%nat * minus_d2 h L v (k + 1)).
  Proof.
    intros U0 UL V0 VL.
    assert (G : forall u v, v 0%nat = 0 -> v L = 0 -> sumN (L - 1) (fun k => v (k + 1)%nat * minus_d2 h L u (k + 1)) =
       / h ^ 2 * sumN L (fun k => (v (k + 1)%nat - v k) * (u (k + 1)%nat - u k))).
    { clear u v U0 UL V0 VL. intros u v V0 VL.
      rewrite (sumN_ext _ _ (fun k => / h ^ 2 * (v (k + 1)%nat * (2 * u (k + 1)%nat - u (k + 2)%nat - u k)))).
      - rewrite sumN_scal, sbp. replace (L - 1 + 1)%nat with L by lia. rewrite V0, VL. ring.
      - intros k Hk. rewrite d2_inner by auto. unfold Rdiv. ring. }
    rewrite !G by auto. f_equal. apply sumN_ext. intros. ring.
  Qed.
  Lemma sym_mirror u v :
    sumN (L + 1) (fun k => wt L k * (v k * minus_d2 h L u k)) = sumN (L + 1) (fun k => wt L k * (u k * minus_d2 h L v k)).
  Proof.
    assert (G : forall u v, sumN (L + 1) (fun k => wt L k * (v k * minus_d2 h L u k)) =
       2 / h ^ 2 * sumN L (fun k => (v (k + 1)%nat - v k) * (u (k + 1)%nat - u k))).
    { clear u v. intros u v. rewrite (wt_sum L ltac:(lia) (fun k => v k * minus_d2 h L u k)).
      rewrite (sumN_ext (L - 1) _ (fun k => / h ^ 2 * (v (k + 1)%nat * (2 * u (k + 1)%nat - u (k + 2)%nat - u k)))).
      - rewrite sumN_scal, sbp. replace (L - 1 + 1)%nat with L by lia. unfold minus_d2, above. rewrite Nat.eqb_refl.
        destruct (Nat.eqb_spec 0 L); [lia|]. replace (below L) with (L - 1)%nat by (destruct L; cbn; lia). cbn [below Nat.add]. field. auto.
      - intros k Hk. rewrite d2_inner by auto. unfold Rdiv. ring. }
    rewrite !G by auto. f_equal. apply sumN_ext. intros. ring.
  Qed.
  Lemma kdst_of_d2 u i : u 0%nat = 0 -> u L = 0 -> (i < L - 1)%nat ->
    ker (L - 1) (Kdst L) (fun k => minus_d2 h L u (k + 1)) i = eig h L (i + 1) * ker (L - 1) (Kdst L) (fun k => u (k + 1)%nat) i.
  Proof.
    intros U0 UL Hi. set (v := fun n => 2 * sin (PI * INR n * INR (i + 1) / INR L)).
    assert (V0 : v 0%nat = 0) by (unfold v; cbn [INR]; unfold Rdiv; rewrite Rmult_0_r, !Rmult_0_l, sin_0; ring).
    assert (VL : v L = 0). { unfold v. replace (PI * INR L * INR (i + 1) / INR L) with (INR (i + 1) * PI) by (field; apply L_ne; lia). rewrite sin_npi. ring. }
    transitivity (sumN (L - 1) (fun k => v (k + 1)%nat * minus_d2 h L u (k + 1))); [reflexivity|]. rewrite sym_dirichlet by auto.
    unfold ker. rewrite <- sumN_scal. apply sumN_ext. intros k Hk. rewrite d2_inner by auto.
    unfold v, Kdst, Ksin, eig. set (a := PI * INR (i + 1) / INR L). assert (HN : INR L <> 0) by (apply L_ne; lia).
    assert (E : forall n, PI * INR n * INR (i + 1) / INR L = a * INR n) by (intros; unfold a; field; auto). rewrite !E.
    replace (INR (i + 1) * PI / (2 * INR L)) with (a / 2) by (unfold a; field; auto).
    pose proof (sin_d2 a (k + 1) ltac:(lia)) as D. replace (k + 1 + 1)%nat with (k + 2)%nat in D by lia. replace (k + 1 - 1)%nat with k in D by lia.
    replace (2 * (2 * sin (a * INR (k + 1))) - 2 * sin (a * INR (k + 2)) - 2 * sin (a * INR k)) with
      (2 * (4 * sin (a / 2) ^ 2 * sin (a * INR (k + 1)))) by (rewrite <- D; ring). field. auto.
  Qed.
  Lemma kcos_of_d2 u i : (i <= L)%nat ->
    ker (L + 1) (Kcos L) (fun k => minus_d2 h L u k) i = eig h L i * ker (L + 1) (Kcos L) u i.
  Proof.
    intros Hi. set (v := fun n => cos (PI * INR n * INR i / INR L)).
    transitivity (sumN (L + 1) (fun k => wt L k * (v k * minus_d2 h L u k))); [unfold ker, Kcos, v; apply sumN_ext; intros; ring|]. rewrite sym_mirror by auto.
    unfold ker. rewrite <- sumN_scal. apply sumN_ext. intros k Hk. unfold Kcos.
    pose proof (cos_d2 L i k ltac:(lia) ltac:(lia)) as D. cbn zeta in D.
    assert (E : forall n, v n = cos (PI * INR i * INR n / INR L)) by (intros; unfold v; f_equal; unfold Rdiv; ring).
    unfold minus_d2. rewrite !E, D. replace (PI * INR k * INR i / INR L) with (PI * INR i * INR k / INR L) by (unfold Rdiv; ring). unfold eig. field. 
    auto.
  Qed.

  Lemma dirichlet_transform u i j : (forall a, u a 0%nat = 0 /\ u a L = 0 /\ u 0%nat a = 0 /\ u L a = 0) -> (i < L - 1)%nat -> (j < L - 1)%nat ->
    dst2d (L - 1) (fun k l => minus_laplacian h L u (k + 1) (l + 1)) i j = (eig h L (i + 1) + eig h L (j + 1)) * dst2d (L - 1) (inner u) i j.
  Proof.
    intros Hu Hi Hj. rewrite !dst2d_T2 by lia. unfold minus_laplacian.
    rewrite (T2_plus _ _ _ _ (fun k l => minus_d2 h L (fun i0 => u i0 (l + 1)%nat) (k + 1)) (fun k l => minus_d2 h L (fun j0 => u (k + 1)%nat j0) (l + 1))).
    rewrite Rmult_plus_distr_r. f_equal.
    - unfold T2. rewrite <- ker_scal. apply ker_ext. intros l Hl. rewrite (kdst_of_d2 (fun i0 => u i0 (l + 1)%nat)); auto; apply Hu.
    - rewrite !T2_swap. rewrite <- ker_scal. apply ker_ext. intros k Hk. rewrite (kdst_of_d2 (fun j0 => u (k + 1)%nat j0)); auto; apply Hu.
  Qed.
  Lemma dirichlet_unique u rhs : (forall a, u a 0%nat = 0 /\ u a L = 0 /\ u 0%nat a = 0 /\ u L a = 0) ->
    (forall i j, interior L i -> interior L j -> minus_laplacian h L u i j = rhs (i - 1)%nat (j - 1)%nat) ->
    forall i j, (i <= L)%nat -> (j <= L)%nat -> u i j = dirichlet_solve L h rhs i j.
  Proof.
    intros Hu Hr i j Hi Hj.
    destruct (Nat.eq_dec i 0) as [->|N1]; [rewrite dirichlet_edge by auto; apply (Hu j)|].
    destruct (Nat.eq_dec j 0) as [->|N2]; [rewrite dirichlet_edge by auto; apply (Hu i)|].
    destruct (Nat.eq_dec i L) as [->|N3]; [rewrite dirichlet_edge by auto; apply (Hu j)|].
    destruct (Nat.eq_dec j L) as [->|N4]; [rewrite dirichlet_edge by auto; apply (Hu i)|].
    assert (E : forall k l, (k < L - 1)%nat -> (l < L - 1)%nat -> dst2d (L - 1) rhs k l * dirichlet_matrix (L + 1) h k l = / (2 * INR L) ^ 2 * dst2d (L - 1) (inner u) k l).
    { intros k l Hk Hl. replace (dst2d (L - 1) rhs k l) with ((eig h L (k + 1) + eig h L (l + 1)) * dst2d (L - 1) (inner u) k l).
      - unfold dirichlet_matrix. rewrite !lam_eig by auto. replace (L + 1 - 1)%nat with L by lia.
        assert (0 < eig h L (k + 1)) by (apply eig_pos; auto; lia). assert (0 < eig h L (l + 1)) by (apply eig_pos; auto; lia). pose proof (Lr L HL). field. split; lra.
      - rewrite <- dirichlet_transform by auto. rewrite !dst2d_T2 by lia. apply T2_ext. intros a b Ha Hb. rewrite Hr by (unfold interior; lia).
        f_equal; lia. }
    unfold dirichlet_solve, pad. replace (L + 1 - 1)%nat with L by lia.
    destruct (Nat.eqb_spec i 0), (Nat.eqb_spec i L), (Nat.eqb_spec j 0), (Nat.eqb_spec j L); cbn [orb]; try lia.
    rewrite dst2d_T2 by lia. rewrite (T2_ext _ _ _ _ _ (fun k l => / (2 * INR L) ^ 2 * dst2d (L - 1) (inner u) k l)) by (intros; apply E; auto).
    rewrite T2_scal, <- dst2d_T2, dst2d_inv by lia. unfold inner. replace (i - 1 + 1)%nat with i by lia. replace (j - 1 + 1)%nat with j by lia. field.
    pose proof (Lr L HL). lra.
  Qed.

  Variable coeff : R.
  Hypothesis Hc : 0 <= coeff.
  Lemma mixed_unique u rhs : (forall a, (a <= L)%nat -> u 0%nat a = 0 /\ u L a = 0) ->
    (forall i j, interior L i -> (j <= L)%nat -> minus_laplacian h L u i j + coeff * u i j = rhs i j) ->
    forall i j, (i <= L)%nat -> (j <= L)%nat -> u i j = solve_mixed (L + 1) h coeff rhs i j.
  Proof.
    intros Hu Hr i j Hi Hj.
    destruct (Nat.eq_dec i 0) as [->|N1]; [rewrite mixed_edge by auto; apply (Hu j); auto|].
    destruct (Nat.eq_dec i L) as [->|N3]; [rewrite mixed_edge by auto; apply (Hu j); auto|].
    assert (E : forall k l, (k < L - 1)%nat -> (l < L + 1)%nat -> mixed_matrix (L + 1) h coeff k l * mix2d (L - 1) (L + 1) (inner_rows rhs) k l = / (2 * INR L) ^ 2 * mix2d (L - 1) (L + 1) (inner_rows u) k l).
    { intros k l Hk Hl. replace (mix2d (L - 1) (L + 1) (inner_rows rhs) k l) with ((eig h L (k + 1) + eig h L l + coeff) * mix2d (L - 1) (L + 1) (inner_rows u) k l).
      - unfold mixed_matrix. rewrite !lam_eig by auto. replace (L + 1 - 1)%nat with L by lia.
        assert (0 < eig h L (k + 1)) by (apply eig_pos; auto; lia). assert (0 <= eig h L l) by (apply eig_nonneg; auto). pose proof (Lr L HL). field. split; lra.
      - rewrite !mix2d_T2 by lia.
        rewrite (T2_ext _ _ _ _ (inner_rows rhs) (fun k l => (minus_d2 h L (fun i0 => u i0 l) (k + 1) + minus_d2 h L (fun j0 => u (k + 1)%nat j0) l) + coeff * u (k + 1)%nat l)).
        + rewrite T2_plus, T2_plus, T2_scal. rewrite !Rmult_plus_distr_r. apply (f_equal2 Rplus); [apply (f_equal2 Rplus)|reflexivity].
          * unfold T2. rewrite <- ker_scal. apply ker_ext. intros l' Hl'. rewrite (kdst_of_d2 (fun i0 => u i0 l')); auto; apply Hu; lia.
          * rewrite !T2_swap. rewrite <- ker_scal. apply ker_ext. intros k' Hk'. rewrite <- (kcos_of_d2 (fun j0 => u (k' + 1)%nat j0)) by lia. reflexivity.
        + intros a b Ha Hb. unfold inner_rows. rewrite <- Hr by (unfold interior; lia). reflexivity. }
    unfold solve_mixed, pad_rows. replace (L + 1 - 1)%nat with L by lia. replace (L + 1 - 2)%nat with (L - 1)%nat by lia.
    destruct (Nat.eqb_spec i 0), (Nat.eqb_spec i L); cbn [orb]; try lia.
    rewrite mix2d_T2 by lia. rewrite (T2_ext _ _ _ _ _ (fun k l => / (2 * INR L) ^ 2 * mix2d (L - 1) (L + 1) (inner_rows u) k l)) by (intros; apply E; auto).
    rewrite T2_scal, <- mix2d_T2, mix2d_inv by lia. unfold inner_rows. replace (i - 1 + 1)%nat with i by lia. field.
    pose proof (Lr L HL). lra.
  Qed.

  (** zero Laplacian with mirrored edges: a constant *)
  Lemma neumann_constant u : (forall i j, (i <= L)%nat -> (j <= L)%nat -> minus_laplacian h L u i j = 0) ->
    exists c, forall i j, (i <= L)%nat -> (j <= L)%nat -> u i j = c.
  Proof.
    intros Hr.
    assert (E : forall k l, (k < L + 1)%nat -> (l < L + 1)%nat -> dct2d (L + 1) u k l = if (k =? 0)%nat && (l =? 0)%nat then dct2d (L + 1) u 0%nat 0%nat else 0).
    { intros k l Hk Hl. assert (Z : (eig h L k + eig h L l) * dct2d (L + 1) u k l = 0).
      { transitivity (dct2d (L + 1) (fun k l => minus_laplacian h L u k l) k l).
        - rewrite !dct2d_T2 by lia. unfold minus_laplacian.
          rewrite (T2_plus _ _ _ _ (fun k l => minus_d2 h L (fun i0 => u i0 l) k) (fun k l => minus_d2 h L (fun j0 => u k j0) l)).
          rewrite Rmult_plus_distr_r. f_equal.
          + unfold T2. rewrite <- ker_scal. apply ker_ext. intros l' Hl'. rewrite (kcos_of_d2 (fun i0 => u i0 l')) by lia. reflexivity.
          + rewrite !T2_swap. rewrite <- ker_scal. apply ker_ext. intros k' Hk'. rewrite <- (kcos_of_d2 (fun j0 => u k' j0)) by lia. reflexivity.
        - rewrite dct2d_T2 by lia. rewrite (T2_ext _ _ _ _ _ (fun _ _ => 0 * 0)) by (intros; rewrite Hr by lia; ring). rewrite T2_scal. ring. }
      destruct (Nat.eqb_spec k 0) as [->|Nk], (Nat.eqb_spec l 0) as [->|Nl]; cbn [andb]; auto;
        apply Rmult_integral in Z; destruct Z as [Z|Z]; auto; exfalso.
      + assert (0 <= eig h L 0) by (apply eig_nonneg; auto). assert (0 < eig h L l) by (apply eig_pos; auto; lia). lra.
      + assert (0 <= eig h L 0) by (apply eig_nonneg; auto). assert (0 < eig h L k) by (apply eig_pos; auto; lia). lra.
      + assert (0 < eig h L l) by (apply eig_pos; auto; lia). assert (0 < eig h L k) by (apply eig_pos; auto; lia). lra. }
    exists (dct2d (L + 1) u 0%nat 0%nat / (2 * INR L) ^ 2). intros i j Hi Hj. pose proof (Lr L HL) as HN.
    apply (Rmult_eq_reg_l ((2 * INR L) ^ 2)); [|apply pow_nonzero; auto]. rewrite <- dct2d_inv by lia. rewrite dct2d_T2 by lia.
    rewrite (T2_ext _ _ _ _ _ _ i j E). unfold T2, ker.
    assert (K0 : forall j, Kcos L j 0 = 1).
    { intros. unfold Kcos, wt. cbn [INR Nat.eqb orb]. unfold Rdiv. rewrite Rmult_0_r, !Rmult_0_l, cos_0. ring. }
    rewrite (sumN_delta _ 0).
    - rewrite K0, (sumN_delta _ 0); [rewrite K0; cbn [Nat.eqb andb]; field; lra|lia|]. intros k Hk Nk. destruct (Nat.eqb_spec k 0); [lia|]. cbn [andb]. ring.
    - lia.
    - intros l Hl Nl. rewrite sumN_zero; [ring|]. intros k Hk. destruct (Nat.eqb_spec l 0); [lia|]. rewrite andb_false_r. ring.
  Qed.
End U.
