(** With exact arithmetic (no rounding) and the documented transforms, Rounded3D_Model is Plasma3D_Model. *)
From Coq Require Import Reals ZArith List Bool Lra Lia FunctionalExtensionality.
From Verif Require Import Beam2D_Model Plasma2D_Model Shape_Model Plasma3D_Model Plasma3D_Spec Rounded3D_Model.
Import ListNotations.
Open Scope R_scope.

Definition exact (x : R) : R := x.
Definition exact_transforms (N : nat) (average : arr2 -> arr2) : transforms := mkTr (dst2d (N - 2)) (dct2d N) (mix2d (N - 2) N) average.
Definition exact_matrices (N : nat) (h coeff : R) : matrices := mkMx (dirichlet_matrix N h) (mixed_matrix N h coeff) (neumann_matrix N h).

Lemma weight4_exact x k : weight4_f exact x k = weight4 x k.
Proof.
  unfold weight4_f, weight4, f4, f3, f2, half, exact. destruct k as [|[p|p|]|[p|p|]]; try destruct p; try reflexivity; try (unfold Rdiv; cbn [pow]; ring).
Qed.
Lemma half_exact : half exact = 0.5. Proof. unfold half, exact. lra. Qed.
Lemma loc_exact x : loc_f exact x = loc x.
Proof. unfold loc_f, loc. rewrite half_exact. reflexivity. Qed.
Lemma fold_ext {A B} (f g : A -> B -> A) l a : (forall a b, f a b = g a b) -> fold_left f l a = fold_left g l a.
Proof. intros H. revert a. induction l as [|b l IH]; intros a; [reflexivity|]. cbn [fold_left]. rewrite H. apply IH. Qed.
Lemma deposit_exact n h xh yh d g : deposit_one_f exact n h xh yh d g = deposit_one n h xh yh (fun w => d * w) g.
Proof.
  unfold deposit_one_f, deposit_one. apply fold_ext. intros g1 kx. apply fold_ext. intros g2 ky. rewrite !weight4_exact, !loc_exact. reflexivity.
Qed.
Lemma gather_exact n h x y f : gather_at_f exact n h x y f = gather_at n h x y f.
Proof.
  unfold gather_at_f, gather_at, gather. rewrite half_exact. apply fold_ext. intros g1 kx. apply fold_ext. intros g2 ky. rewrite !weight4_exact, !loc_exact. reflexivity.
Qed.
Lemma gamma_a_exact m a b c : gamma_a exact m a b c = gamma3 m a b c.
Proof. unfold gamma_a, gamma3, f2, exact. f_equal. ring. Qed.
Lemma gamma_b_exact m a b c : gamma_b exact m a b c = gamma3 m a b c.
Proof. unfold gamma_b, gamma3, f2, exact. f_equal. ring. Qed.
Lemma deposit_plasma_exact n h l : deposit_plasma_f exact n h l = deposit_plasma n h l.
Proof.
  unfold deposit_plasma_f, deposit_plasma. apply fold_ext. intros o p. unfold deposit_plasma_one_f, deposit_plasma_one.
  destruct (Req_EM_T (t_q p) 0); [reflexivity|]. rewrite gamma_a_exact, half_exact, !deposit_exact. reflexivity.
Qed.
Lemma rhoj_exact n h im ps : compute_rhoj3_f exact n h im ps = compute_rhoj3 n h im ps.
Proof. unfold compute_rhoj3_f, compute_rhoj3. rewrite deposit_plasma_exact. destruct im; [reflexivity|]. now rewrite deposit_plasma_exact. Qed.
Lemma force_exact m q X e p : force3_f exact m q X e p = force3 m q X e p.
Proof. destruct e as [[[[[? ?] ?] ?] ?] ?], p as [[? ?] ?]. unfold force3_f, force3. rewrite gamma_b_exact. reflexivity. Qed.
Lemma smart_exact n h b X f prev full : move_smart1_f exact n h b X f prev full = move_smart1 n h b X f prev full.
Proof.
  unfold move_smart1_f, move_smart1. destruct (Req_EM_T (t_q full) 0); [reflexivity|].
  change (reflect1_f exact) with reflect1. change (half_kick_f exact) with half_kick. unfold exact at 1 2 3 4 5 6.
  destruct (reflect1 b _) as [x fx]. destruct (reflect1 b _) as [y fy]. unfold fields_at3_f. rewrite !gather_exact. fold (fields_at3 n h x y f). rewrite !force_exact.
  unfold finish3_f, finish3. destruct (half_kick _ _) as [[a c] d]. destruct (force3 _ _ _ _ _) as [[a' c'] d']. rewrite gamma_b_exact. reflexivity.
Qed.
Lemma free_exact X p : move_free1_f exact X p = move_free1 X p.
Proof. unfold move_free1_f, move_free1. destruct (Req_EM_T (t_m p) 0); [reflexivity|]. rewrite gamma_b_exact. reflexivity. Qed.
Lemma sum_exact n f : sum_f exact n f = sumN n f.
Proof. induction n as [|n IH]; [reflexivity|]. cbn [sum_f sumN]. rewrite IH. reflexivity. Qed.
Lemma mean_exact N a : mean2_f exact N a = mean2 N a.
Proof. unfold mean2_f, mean2. rewrite sum_exact. unfold exact at 1. reflexivity. Qed.
Lemma fields_exact N h X coeff av f fp rb rbp cp cf :
  compute_fields3_f exact (exact_transforms N av) (exact_matrices N h coeff) N h X coeff f fp rb rbp cp cf = compute_fields3 N h X coeff f fp rb rbp cp cf.
Proof.
  unfold compute_fields3_f, compute_fields3.
  assert (B : calculate_Bz_f exact (exact_transforms N av) (exact_matrices N h coeff) N h (sum_sorts_f exact cf) = calculate_Bz N h (sum_sorts cf)).
  { unfold calculate_Bz_f, calculate_Bz. apply functional_extensionality. intros i. apply functional_extensionality. intros j. rewrite mean_exact. reflexivity. }
  rewrite B. reflexivity.
Qed.
Lemma inhom_exact K a : inhomogeneity_f exact K a = inhomogeneity K a.
Proof. reflexivity. Qed.
Lemma limit_exact dm x y : d_limit_f exact dm x y = d_limit dm x y.
Proof.
  unfold d_limit_f, d_limit. replace (f2 exact dm) with (dm ^ 2) by (unfold f2, exact; ring). reflexivity.
Qed.
Lemma kicked_exact K X coef damp dm c cp cx cy p i j : kicked_f exact K X coef damp dm c cp cx cy p i j = p + momentum_change K X coef damp dm c cp cx cy i j.
Proof.
  unfold kicked_f, momentum_change, ax0, ax1, spread1. rewrite !limit_exact. unfold exact.
  destruct ((1 <=? i)%nat && (i <? K - 1)%nat), ((2 <=? i)%nat && (i <? K)%nat), (i <? K - 2)%nat,
    ((1 <=? j)%nat && (j <? K - 1)%nat), ((2 <=? j)%nat && (j <? K)%nat), (j <? K - 2)%nat; unfold Rdiv; ring.
Qed.
Lemma filter_exact N av K X coef damp dm a prev : noise_filter_f exact (exact_transforms N av) K X coef damp dm a prev = noise_filter av K X coef damp dm a prev.
Proof.
  apply functional_extensionality. intros i. apply functional_extensionality. intros j. unfold noise_filter_f, noise_filter. rewrite !kicked_exact. reflexivity.
Qed.
Lemma step_exact av s rf rp st :
  step_dxi3_f exact (exact_transforms (u_n s) av) (exact_matrices (u_n s) (u_h s) (u_coeff s)) s rf rp st = step_dxi3 av s rf rp st.
Proof.
  destruct st as [[pp fp] cp]. unfold step_dxi3_f, step_dxi3.
  assert (M : forall f a b, move_smart_f exact s f a b = move_smart s f a b).
  { intros. unfold move_smart_f, move_smart. f_equal; [|destruct (u_ions s); [reflexivity|]];
      apply functional_extensionality; intros i; apply functional_extensionality; intros j; apply smart_exact. }
  assert (F : forall a, move_free_f exact s a = move_free s a).
  { intros. unfold move_free_f, move_free, map_sorts. f_equal; [|destruct (u_ions s); [reflexivity|]];
      apply functional_extensionality; intros i; apply functional_extensionality; intros j; apply free_exact. }
  assert (J := rhoj_exact (Z.of_nat (u_n s)) (u_h s) (u_ions s)).
  assert (C := fun f c => fields_exact (u_n s) (u_h s) (u_xi s) (u_coeff s) av f fp rf rp cp c).
  rewrite (F pp), (M fp pp (move_free s pp)). set (p1 := move_smart s fp pp (move_free s pp)).
  rewrite (J p1), (C fp (compute_rhoj3 (Z.of_nat (u_n s)) (u_h s) (u_ions s) p1)).
  set (fh1 := snd (compute_fields3 _ _ _ _ _ _ _ _ _ (compute_rhoj3 _ _ _ p1))). rewrite (M fh1 pp p1). set (p2 := move_smart s fh1 pp p1).
  rewrite (J p2), (C fh1 (compute_rhoj3 (Z.of_nat (u_n s)) (u_h s) (u_ions s) p2)).
  destruct (compute_fields3 _ _ _ _ _ _ _ _ _ (compute_rhoj3 _ _ _ p2)) as [ff fh2]. rewrite (M fh2 pp p2). set (p3 := move_smart s fh2 pp p2).
  rewrite (filter_exact (u_n s) av (K_ p3) (u_xi s) (u_force s) (u_damp s) (u_limit s) (el p3) (el pp)). now rewrite J.
Qed.
Lemma run_exact av s beams st :
  run3_f exact (exact_transforms (u_n s) av) (exact_matrices (u_n s) (u_h s) (u_coeff s)) s beams st = run3 av s beams st.
Proof. revert st. induction beams as [|[rf rp] l IH]; intros st; [reflexivity|]. cbn [run3_f run3]. rewrite step_exact. apply IH. Qed.
