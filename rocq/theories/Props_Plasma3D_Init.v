(** Theorems C40 (noise filter), C42 (dual plasma approach), C47 (quiet plasma), C48 (initial
    density). *)
From Coq Require Import Reals ZArith List Bool Lra Lia Psatz.
From Verif Require Import Beam2D_Model Beam2D_Spec Beam2D_Free Plasma2D_Model Plasma2D_Ode Plasma2D_Dens Shape_Model Shape_Spec Shape_Proofs
  Plasma3D_Model Plasma3D_Spec Plasma3D_Move Plasma3D_Push Spectral Fields3D_Proofs Plasma3D_Quiet Filter3D_Proofs.
Import ListNotations.
Open Scope R_scope.

(** ** C40 *)
(** The filter changes nothing but the transverse momenta and the remembered chaotic displacement. *)
Theorem C40_touches_only_transverse_momentum : forall average K X coef damp dmax a prev i j,
  let p := a i j in let p' := noise_filter average K X coef damp dmax a prev i j in
  t_x0 p' = t_x0 p /\ t_y0 p' = t_y0 p /\ t_dx p' = t_dx p /\ t_dy p' = t_dy p /\ t_pz p' = t_pz p /\ t_q p' = t_q p /\ t_m p' = t_m p.
Proof. intros. repeat split. Qed.
Print Assumptions C40_touches_only_transverse_momentum.

Lemma fade_limit d cx cy : 0 < d -> d_limit d cx cy = fade d cx cy.
Proof.
  intros H. unfold d_limit, fade. assert (D : 0 < d ^ 2) by (apply pow_lt; auto). replace (cx ^ 2 + cy ^ 2) with (cx * cx + cy * cy) by ring.
  set (r := cx * cx + cy * cy). destruct (Rlt_dec r (d ^ 2)) as [L|L].
  - rewrite Rmax_right; [reflexivity|]. assert (r / d ^ 2 < 1) by (apply (Rmult_lt_reg_r (d ^ 2)); auto; unfold Rdiv; rewrite Rmult_assoc, Rinv_l by lra; lra). lra.
  - rewrite Rmax_left; [reflexivity|]. assert (1 <= r / d ^ 2) by (apply (Rmult_le_reg_r (d ^ 2)); auto; unfold Rdiv; rewrite Rmult_assoc, Rinv_l by lra; lra). lra.
Qed.
(** The strength of the filter is between 0 and 1. *)
Theorem C40_strength : forall d cx cy, 0 < d -> 0 <= fade d cx cy <= 1 /\ (d <= sqrt (cx ^ 2 + cy ^ 2) -> fade d cx cy = 0) /\ fade d 0 0 = 1.
Proof.
  intros d cx cy H. rewrite <- !fade_limit by auto. split; [now apply d_limit_range|]. split; [now apply d_limit_far|].
  unfold d_limit. assert (0 < d ^ 2) by (apply pow_lt; auto). destruct (Rlt_dec _ _); [field|]; lra.
Qed.
Print Assumptions C40_strength.

(** The restoring force only moves momentum between particles: the total transverse momentum changes
    by the damping part alone. *)
Theorem C40_total_momentum : forall average K X coef damp dmax a prev, 0 < dmax ->
  let b := noise_filter average K X coef damp dmax a prev in
  array_sum K (fun i j => t_px (b i j)) = array_sum K (fun i j => t_px (a i j))
    - X * damp * array_sum K (fun i j => fade dmax (t_cx (b i j)) (t_cy (b i j)) * (t_cx (b i j) - t_cx (prev i j))) /\
  array_sum K (fun i j => t_py (b i j)) = array_sum K (fun i j => t_py (a i j))
    - X * damp * array_sum K (fun i j => fade dmax (t_cx (b i j)) (t_cy (b i j)) * (t_cy (b i j) - t_cy (prev i j))).
Proof.
  intros av K X coef damp dmax a prev Hd b. assert (E : forall u, array_sum K u = sum2 K u) by reflexivity. rewrite !E.
  unfold b, noise_filter. cbn [t_px t_py t_cx t_cy]. rewrite !sum2_plus, !change_sum.
  split; (rewrite (sum2_ext K _ (fun i j => _) ltac:(intros; rewrite fade_limit by auto; reflexivity)) || idtac);
  unfold Rminus; f_equal; f_equal; f_equal; apply sum2_ext; intros; rewrite fade_limit by auto; reflexivity.
Qed.
Print Assumptions C40_total_momentum.
(** With the shipped settings the damping is off (the code reads 'damping-declustering', the default
    is stored as 'declustering-damping'), and the total is conserved. *)
Theorem C40_momentum_conserved : forall average K X coef dmax a prev, 0 < dmax ->
  let b := noise_filter average K X coef 0 dmax a prev in
  array_sum K (fun i j => t_px (b i j)) = array_sum K (fun i j => t_px (a i j)) /\
  array_sum K (fun i j => t_py (b i j)) = array_sum K (fun i j => t_py (a i j)).
Proof. intros av K X coef dmax a prev Hd b. destruct (C40_total_momentum av K X coef 0 dmax a prev Hd) as [A B]. fold b in A, B. rewrite A, B. split; ring. Qed.
Print Assumptions C40_momentum_conserved.
Definition still (c : R) : nat -> nat -> pt3 := fun _ _ => mkT 0 0 0 0 0 0 0 (-1) 1 c 0.
Definition gone : nat -> nat -> pt3 := fun _ _ => mkT 0 0 0 0 0 0 0 0 1 1 0.
Lemma filter_still K a prev X damp sigma i j : (i < K)%nat -> (j < K)%nat -> (forall i j, t_dx (a i j) = 0 /\ t_dy (a i j) = 0 /\ t_px (a i j) = 0) -> (forall i j, t_cx (prev i j) = 1) ->
  t_px (noise_filter (gauss_average K sigma) K X 0 damp 1 a prev i j) = X * damp.
Proof.
  intros Hi Hj H Hp. unfold noise_filter. cbn [t_px].
  set (dx := inhomogeneity K (fun i j => t_dx (a i j))). set (dy := inhomogeneity K (fun i j => t_dy (a i j))).
  assert (DX : grid_null K dx) by (apply inhom_null; intros x y _ _; apply H). assert (DY : grid_null K dy) by (apply inhom_null; intros x y _ _; apply H).
  destruct (H i j) as (_ & _ & ->). unfold momentum_change. cbv beta zeta. unfold ax0, ax1, spread1. rewrite (DX i j), (gauss_null K sigma dx DX i j), (DY i j), (gauss_null K sigma dy DY i j), Hp by auto.
  rewrite (fade_limit 1 (0 - 0) (0 - 0)) by lra. replace (fade 1 (0 - 0) (0 - 0)) with 1 by (unfold fade; rewrite Rmax_right; [field|]; lra).
  destruct (_ && _)%bool, (_ && _)%bool, (_ && _)%bool, (_ && _)%bool, (i <? K - 2)%nat, (j <? K - 2)%nat; field.
Qed.
(** With damping switched on it is not. *)
Theorem C40_momentum_conserved_with_damping_refuted :
  ~ (forall K sigma X coef damp dmax a prev, 0 < dmax -> 0 < X -> 0 <= damp ->
     let b := noise_filter (gauss_average K sigma) K X coef damp dmax a prev in
     array_sum K (fun i j => t_px (b i j)) = array_sum K (fun i j => t_px (a i j))).
Proof.
  intros H. specialize (H 3%nat 3 1 0 1 1 (still 0) (still 1) ltac:(lra) ltac:(lra) ltac:(lra)). cbn zeta in H. unfold array_sum in H.
  rewrite (sumN_ext 3 _ (fun _ => 3)) in H.
  - rewrite sumN_const in H. rewrite (sumN_ext 3 _ (fun _ => 0)) in H by (intros; now apply sumN_zero). rewrite sumN_const in H. cbn [INR] in H. lra.
  - intros i Hi. rewrite (sumN_ext 3 _ (fun _ => 1)); [rewrite sumN_const; cbn [INR]; lra|]. intros j Hj. rewrite filter_still; auto; try lra; intros; repeat split; reflexivity.
Qed.
Print Assumptions C40_momentum_conserved_with_damping_refuted.
(** Nor is an electron that was absorbed by the wall left alone. *)
Theorem C40_absorbed_left_alone_refuted :
  ~ (forall K sigma X coef damp dmax a prev i j, 0 < dmax -> 0 < X -> 0 <= damp -> (i < K)%nat -> (j < K)%nat -> absorbed (a i j) -> a i j = prev i j ->
     absorbed (noise_filter (gauss_average K sigma) K X coef damp dmax a prev i j)).
Proof.
  intros H. specialize (H 3%nat 3 1 0 1 1 gone gone 1%nat 1%nat ltac:(lra) ltac:(lra) ltac:(lra) ltac:(lia) ltac:(lia)).
  assert (A : absorbed (gone 1%nat 1%nat)) by (repeat split; reflexivity). specialize (H A eq_refl). destruct H as (_ & _ & P & _).
  rewrite filter_still in P; auto; try lra; intros; repeat split; reflexivity.
Qed.
Print Assumptions C40_absorbed_left_alone_refuted.

(** Without damping no particle's transverse momentum changes by more than 2 * step * force * limit in
    each direction. *)
Theorem C40_bounded : forall average K X coef dmax a prev i j, 0 <= X -> 0 <= coef -> 0 < dmax ->
  let b := noise_filter average K X coef 0 dmax a prev in
  Rabs (t_px (b i j) - t_px (a i j)) <= 2 * (X * coef * dmax) /\ Rabs (t_py (b i j) - t_py (a i j)) <= 2 * (X * coef * dmax).
Proof.
  intros av K X coef dmax a prev i j HX Hc Hd b. unfold b, noise_filter. cbn [t_px t_py]. unfold Rminus. rewrite !Rplus_assoc, !(Rplus_comm (momentum_change _ _ _ _ _ _ _ _ _ _ _)), <- !Rplus_assoc, !Rplus_opp_r, !Rplus_0_l.
  split; apply change_bound; auto.
Qed.
Print Assumptions C40_bounded.

(** A displacement that is linear in the particle number (translation, rotation, stretching) is left
    alone: without damping the momenta do not change and no chaotic displacement is recorded. *)
Theorem C40_linear_displacement_untouched : forall sigma K X coef dmax a prev x0 x1 x2 y0 y1 y2 i j, (3 <= K)%nat ->
  (forall i j, (i < K)%nat -> (j < K)%nat -> t_dx (a i j) = x0 + x1 * INR i + x2 * INR j /\ t_dy (a i j) = y0 + y1 * INR i + y2 * INR j) ->
  (i < K)%nat -> (j < K)%nat ->
  let b := noise_filter (gauss_average K sigma) K X coef 0 dmax a prev i j in
  t_px b = t_px (a i j) /\ t_py b = t_py (a i j) /\ t_cx b = 0 /\ t_cy b = 0.
Proof.
  intros sigma K X coef dmax a prev x0 x1 x2 y0 y1 y2 i j HK H Hi Hj b. unfold b, noise_filter. cbn [t_px t_py t_cx t_cy].
  set (dx := inhomogeneity K (fun i j => t_dx (a i j))). set (dy := inhomogeneity K (fun i j => t_dy (a i j))).
  assert (DX : grid_null K dx) by (apply (inhom_linear K _ x0 x1 x2); auto; intros; now apply H).
  assert (DY : grid_null K dy) by (apply (inhom_linear K _ y0 y1 y2); auto; intros; now apply H).
  assert (CX : grid_null K (fun i j => dx i j - gauss_average K sigma dx i j)) by (intros u v Hu Hv; rewrite DX, (gauss_null K sigma dx DX) by auto; ring).
  assert (CY : grid_null K (fun i j => dy i j - gauss_average K sigma dy i j)) by (intros u v Hu Hv; rewrite DY, (gauss_null K sigma dy DY) by auto; ring).
  assert (Z : forall c cp cx cy, grid_null K c -> momentum_change K X coef 0 dmax c cp cx cy i j = 0).
  { intros c cp cx cy Hc. replace (momentum_change K X coef 0 dmax c cp cx cy i j) with (momentum_change K X coef 0 dmax c c cx cy i j) by (unfold momentum_change; ring).
    now apply change_null. }
  rewrite !Z by auto. rewrite (CX i j), (CY i j) by auto. repeat split; ring.
Qed.
Print Assumptions C40_linear_displacement_untouched.
(** The chaotic displacements recorded by a layer add up to zero. *)
Theorem C40_chaotic_part_has_no_mean : forall sigma K X coef damp dmax a prev, (0 < K)%nat ->
  let b := noise_filter (gauss_average K sigma) K X coef damp dmax a prev in
  let dx := inhomogeneity K (fun i j => t_dx (a i j)) in let dy := inhomogeneity K (fun i j => t_dy (a i j)) in
  array_sum K (fun i j => t_cx (b i j)) = 0 /\ array_sum K (fun i j => t_cy (b i j)) = 0.
Proof.
  intros sigma K X coef damp dmax a prev HK b dx dy. unfold b, noise_filter. cbn [t_cx t_cy]. fold dx dy.
  assert (E : forall u, array_sum K (fun i j => u i j - gauss_average K sigma u i j) = 0).
  { intros u. change (array_sum K) with (sum2 K). rewrite (sum2_ext K _ (fun i j => u i j + (-1) * gauss_average K sigma u i j)) by (intros; ring).
    rewrite sum2_plus, sum2_scal, gauss_sum by auto. ring. }
  split; apply E.
Qed.
Print Assumptions C40_chaotic_part_has_no_mean.
(** A case in which the filter does act: one displaced electron among nine. *)
Example C40_acts : exists a prev : nat -> nat -> pt3, t_px (noise_filter (gauss_average 3 3) 3 1 0 1 1 a prev 1 1) <> t_px (a 1%nat 1%nat).
Proof. exists (still 0), (still 1). rewrite filter_still by (auto; intros; repeat split; reflexivity). cbn. lra. Qed.

(** ** C42 *)
(** A fine particle's two coarse neighbours in one direction exist, their weights are nonnegative and
    add up to one, and the weighted mean of their initial coordinates is the fine particle's initial
    coordinate, or the end of the coarse grid if it lies beyond. *)
Theorem C42_weights : forall steps h c f k, 0 < h -> (0 < c)%Z -> (1 <= steps / (c * 2))%Z ->
  let g := coarse_grid steps h c in let n := coarse_size steps c in let x := plasma_grid steps h f k in
  let '(pv, nx, wp, wn) := influence n g (h * IZR c) x in
  (pv < n)%nat /\ (nx < n)%nat /\ 0 <= wp /\ 0 <= wn /\ wp + wn = 1 /\ wp * g pv + wn * g nx = clamp (g 0%nat) (g (n - 1)%nat) x.
Proof.
  intros steps h c f k Hh Hc Hs g n x. apply influence_spec.
  - unfold n, coarse_size. lia.
  - apply Rmult_lt_0_compat; [lra|]. now apply IZR_lt.
  - intros. apply coarse_grid_linear.
Qed.
Print Assumptions C42_weights.
(** When the coarse particles' displacements are linear in their initial coordinates, the fine
    particle's displacement is the same linear function at its own initial coordinates (inside the coarse
    grid); in particular a common displacement of all coarse particles is that of all fine ones. *)
Theorem C42_linear_displacement : forall steps h c f cp x0 x1 x2 i j, 0 < h -> (0 < c)%Z -> (1 <= steps / (c * 2))%Z ->
  let g := coarse_grid steps h c in let n := coarse_size steps c in
  (forall a b, (a < n)%nat -> (b < n)%nat -> t_dx (cp a b) = x0 + x1 * g a + x2 * g b) ->
  t_dx (coarse_to_fine steps h c f cp i j)
  = x0 + x1 * clamp (g 0%nat) (g (n - 1)%nat) (plasma_grid steps h f i) + x2 * clamp (g 0%nat) (g (n - 1)%nat) (plasma_grid steps h f j).
Proof.
  intros steps h c f cp x0 x1 x2 i j Hh Hc Hs g n H. unfold coarse_to_fine. cbn [t_dx]. fold g n.
  pose proof (C42_weights steps h c f i Hh Hc Hs) as A. pose proof (C42_weights steps h c f j Hh Hc Hs) as B. cbv zeta in A, B. fold g n in A, B.
  pose proof (mix_affine (influence n g (h * IZR c) (plasma_grid steps h f i)) (influence n g (h * IZR c) (plasma_grid steps h f j)) (fun a b => t_dx (cp a b)) x0 x1 x2 g) as M.
  destruct (influence n g (h * IZR c) (plasma_grid steps h f i)) as [[[pi ni] wpi] wni]. destruct (influence n g (h * IZR c) (plasma_grid steps h f j)) as [[[pj nj] wpj] wnj].
  destruct A as (A1 & A2 & _ & _ & A3 & A4). destruct B as (B1 & B2 & _ & _ & B3 & B4). rewrite M; auto.
  - rewrite A4, B4. reflexivity.
  - intros a b Ha Hb. apply H; [destruct Ha as [<-|[<-|[]]]|destruct Hb as [<-|[<-|[]]]]; auto.
Qed.
Print Assumptions C42_linear_displacement.
Corollary C42_common_displacement : forall steps h c f cp d i j, 0 < h -> (0 < c)%Z -> (1 <= steps / (c * 2))%Z ->
  (forall a b, (a < coarse_size steps c)%nat -> (b < coarse_size steps c)%nat -> t_dx (cp a b) = d) -> t_dx (coarse_to_fine steps h c f cp i j) = d.
Proof.
  intros steps h c f cp d i j Hh Hc Hs H. rewrite (C42_linear_displacement steps h c f cp d 0 0 i j) by (auto; intros; rewrite H by auto; ring). ring.
Qed.
(** The fine plasma of the initial coarse plasma is the one that would be created without the dual
    approach: same places, charges and masses, at rest (so by C48 also the same density). *)
Theorem C42_initial_plasma : forall steps h c f i j, 0 < h -> (0 < c)%Z -> (0 < f)%nat -> (1 <= steps / (c * 2))%Z ->
  coarse_to_fine steps h c f (init_coarse steps h c) i j = init_electrons3 steps h f (fun _ _ => 1) i j.
Proof.
  intros steps h c f i j Hh Hc Hf Hs. unfold coarse_to_fine, init_electrons3.
  pose proof (C42_weights steps h c f i Hh Hc Hs) as A. pose proof (C42_weights steps h c f j Hh Hc Hs) as B. cbv zeta in A, B.
  destruct (influence _ _ _ (plasma_grid steps h f i)) as [[[pi ni] wpi] wni]. destruct (influence _ _ _ (plasma_grid steps h f j)) as [[[pj nj] wpj] wnj].
  destruct A as (_ & _ & _ & _ & A3 & _). destruct B as (_ & _ & _ & _ & B3 & _). unfold mix, init_coarse. cbn [t_dx t_dy t_px t_py t_pz t_q t_m].
  replace wni with (1 - wpi) by lra. replace wnj with (1 - wpj) by lra.
  assert (0 < INR f) by (apply lt_0_INR; lia). assert (0 < IZR c) by now apply IZR_lt. f_equal; field; lra.
Qed.
Print Assumptions C42_initial_plasma.
(** But the fine plasma does not carry the coarse plasma's total charge. *)
Theorem C42_total_of_coarse_refuted :
  ~ (forall steps h c f, 0 < h -> (0 < c)%Z -> (0 < f)%nat -> (1 <= steps / (c * 2))%Z ->
     array_sum (grid_size steps f) (fun i j => t_q (coarse_to_fine steps h c f (init_coarse steps h c) i j))
     = array_sum (coarse_size steps c) (fun i j => t_q (init_coarse steps h c i j))).
Proof.
  intros H. specialize (H 4%Z 1 1%Z 2%nat ltac:(lra) ltac:(lia) ltac:(lia)). assert (D : (1 <= 4 / (1 * 2))%Z) by (vm_compute; discriminate). specialize (H D).
  unfold array_sum in H. rewrite (sumN_ext (grid_size 4 2) _ (fun _ => -2)) in H.
  - rewrite sumN_const in H. replace (grid_size 4 2) with 8%nat in H by reflexivity. rewrite (sumN_ext (coarse_size 4 1) _ (fun _ => -3)) in H.
    + rewrite sumN_const in H. replace (coarse_size 4 1) with 3%nat in H by reflexivity. cbn [INR] in H. lra.
    + intros i _. replace (coarse_size 4 1) with 3%nat by reflexivity. unfold init_coarse. cbn [t_q]. rewrite sumN_const. cbn [INR]. ring.
  - intros i _. rewrite (sumN_ext (grid_size 4 2) _ (fun _ => - / 4)).
    + rewrite sumN_const. replace (grid_size 4 2) with 8%nat by reflexivity. cbn [INR]. field.
    + intros j _. rewrite C42_initial_plasma by (auto; lra || lia). unfold init_electrons3. cbn [t_q INR]. field.
Qed.
Print Assumptions C42_total_of_coarse_refuted.
(** fineness 2, coarseness 2, a window of 20 cells: the hypotheses hold *)
Example C42_case : t_q (coarse_to_fine 20 (1 / 10) 2 2 (init_coarse 20 (1 / 10) 2) 3 4) = - (1 / 400).
Proof. rewrite C42_initial_plasma; [unfold init_electrons3; cbn [t_q INR]; field|lra|lia|lia|vm_compute; discriminate]. Qed.

(** ** C47.  Without a beam the plasma stays exactly as it was created, whatever the number of layers
    and the density profile, with and without mobile ions and noise filter: no particle moves and all
    fields, charge densities and currents stay zero. *)
Theorem C47_quiet_plasma : forall N h pp bp f coef mobile ion_mass sigma s beams,
  0 < h -> (0 < f)%nat -> (0 <= Z.of_nat N - 2 * pp)%Z -> (bp <= pp)%Z ->
  let st := fst (init_plasma3 N h pp f coef mobile ion_mass) in let K := K_ (fst (fst st)) in
  u_n s = N -> u_h s = h -> u_b s = wall N h bp -> u_ions s = snd (init_plasma3 N h pp f coef mobile ion_mass) ->
  Forall (fun b => (forall i j, fst b i j = 0) /\ (forall i j, snd b i j = 0)) beams ->
  let '(ps, flds, cur) := run3 (gauss_average K sigma) s beams st in
  K_ ps = K /\
  (forall i j, (i < K)%nat -> (j < K)%nat -> el ps i j = el (fst (fst st)) i j /\ io ps i j = io (fst (fst st)) i j) /\
  (forall i j, Ex flds i j = 0 /\ Ey flds i j = 0 /\ Ez flds i j = 0 /\ Bx flds i j = 0 /\ By flds i j = 0 /\ Bz flds i j = 0 /\ Phi flds i j = 0) /\
  (forall i j, total3 c_ro cur i j = 0 /\ total3 c_jx cur i j = 0 /\ total3 c_jy cur i j = 0 /\ total3 c_jz cur i j = 0).
Proof.
  intros N h pp bp f coef mobile im sigma s beams Hh Hf Hs Hb st K E1 E2 E3 E4 HB.
  assert (EK : K = grid_size (Z.of_nat N - 2 * pp) f) by apply init_K.
  pose proof (quiet_plasma N h pp bp f coef mobile im Hh Hf Hs Hb (gauss_average K sigma) s beams) as Q.
  rewrite <- EK in Q. specialize (Q (fun a Ha => gauss_null K sigma a Ha) E1 E2 E3 E4 HB). fold st in Q.
  destruct (run3 _ s beams st) as [[ps flds] cur]. destruct Q as ([Q1 Q2] & (F1 & F2 & F3 & F4 & F5 & F6 & F7) & (C1 & C2 & C3 & C4)). cbn [fst snd] in *.
  split; [exact Q1|]. split; [exact Q2|]. split; [intros i j; repeat split; auto|]. intros i j. repeat split; [apply C1|apply C2|apply C3|apply C4].
Qed.
Print Assumptions C47_quiet_plasma.
(** The default paddings, mobile ions, noise filter on, five layers. *)
Example C47_case : let st := fst (init_plasma3 101 (1 / 10) 15 2 (fun _ _ => 1) true 1836) in
  let s := mkS3 101 (1 / 10) (1 / 100) (wall 101 (1 / 10) 10) 1 Mobile3 true (3 / 10) (1 / 10) (1 / 1000) in
  t_px (el (fst (fst (run3 (gauss_average 140 3) s (repeat (zeros2, zeros2) 5) st))) 7 9) = 0.
Proof.
  intros st s. assert (E : K_ (fst (fst st)) = 140%nat) by (unfold st; rewrite init_K; reflexivity).
  pose proof (C47_quiet_plasma 101 (1 / 10) 15 10 2 (fun _ _ => 1) true 1836 3 s (repeat (zeros2, zeros2) 5)) as H. cbv zeta in H. fold st in H. rewrite E in H.
  specialize (H ltac:(lra) ltac:(lia) ltac:(lia) ltac:(lia) eq_refl eq_refl eq_refl eq_refl).
  assert (B : Forall (fun b : arr2 * arr2 => (forall i j, fst b i j = 0) /\ (forall i j, snd b i j = 0)) (repeat (zeros2, zeros2) 5)) by (repeat constructor). specialize (H B).
  destruct (run3 _ s _ st) as [[ps flds] cur]. destruct H as (_ & H & _). cbn [fst]. destruct (H 7%nat 9%nat ltac:(lia) ltac:(lia)) as [-> _]. reflexivity.
Qed.

(** ** C48.  The electron density of the created plasma: in every cell at least three cells away from
    the edge of the plasma, and around which the profile has the constant value c on all particles within
    two and a half cells, it is exactly -c (in units of the base density).  c = 1 for a uniform plasma. *)
Theorem C48_initial_density : forall N h steps f coef c (a b : Z), 0 < h -> (0 < f)%nat ->
  (Z.abs (a - Z.of_nat N / 2) <= steps / 2 - 3)%Z -> (Z.abs (b - Z.of_nat N / 2) <= steps / 2 - 3)%Z ->
  (forall x y, Rabs (x / h - IZR (a - Z.of_nat N / 2)) < 5 / 2 -> Rabs (y / h - IZR (b - Z.of_nat N / 2)) < 5 / 2 -> coef x y = c) ->
  c_ro (deposit_plasma (Z.of_nat N) h (ravel (grid_size steps f) (init_electrons3 steps h f coef))) a b = - c.
Proof. exact initial_density. Qed.
Print Assumptions C48_initial_density.
(** The charge of the created ions, mobile or background, cancels that of the electrons in every cell,
    and there is no current. *)
Theorem C48_neutral : forall N h pp f coef mobile ion_mass i j, 0 < h ->
  let '(st, im) := init_plasma3 N h pp f coef mobile ion_mass in
  let cur := compute_rhoj3 (Z.of_nat N) h im (fst (fst st)) in
  total3 c_ro cur i j = 0 /\ total3 c_jx cur i j = 0 /\ total3 c_jy cur i j = 0 /\ total3 c_jz cur i j = 0.
Proof.
  intros N h pp f coef mobile im i j Hh. pose proof (init_curs N h pp f coef mobile im Hh) as H. 
  destruct (init_plasma3 N h pp f coef mobile im) as [st ii]. destruct H as (A & B & C & D). repeat split; [apply A|apply B|apply C|apply D].
Qed.
Print Assumptions C48_neutral.
(** Electrons have charge-to-mass ratio -1 whatever the density profile, mobile ions 1 / ion-mass; all start at rest,
    each ion on its electron. *)
Theorem C48_charge_to_mass : forall N h pp f coef ion_mass a b,
  let '(st, _) := init_plasma3 N h pp f coef true ion_mass in
  let e := el (fst (fst st)) a b in let i := io (fst (fst st)) a b in
  t_q e = - t_m e /\ t_m i = ion_mass * t_q i /\ t_q i = - t_q e /\ t_x0 i = t_x0 e /\ t_y0 i = t_y0 e /\
  t_px e = 0 /\ t_py e = 0 /\ t_pz e = 0 /\ t_px i = 0 /\ t_py i = 0 /\ t_pz i = 0.
Proof.
  intros. unfold init_plasma3, init_electrons3. cbn. repeat split; try ring; unfold Rdiv; ring.
Qed.
Print Assumptions C48_charge_to_mass.
(** Off the centre of the default grid with two particles per cell side; and a cell of a plasma of
    density 1/2. *)
Example C48_case : c_ro (deposit_plasma 101 (1 / 10) (ravel (grid_size 71 2) (init_electrons3 71 (1 / 10) 2 (fun _ _ => 1)))) 70%Z 40%Z = -1.
Proof. apply (C48_initial_density 101 (1 / 10) 71 2 (fun _ _ => 1) 1 70%Z 40%Z); [lra|lia|vm_compute; discriminate|vm_compute; discriminate|reflexivity]. Qed.
Example C48_case_odd : c_ro (deposit_plasma 101 (1 / 10) (ravel (grid_size 71 3) (init_electrons3 71 (1 / 10) 3 (fun _ _ => 1 / 2)))) 50%Z 50%Z = - (1 / 2).
Proof. apply (C48_initial_density 101 (1 / 10) 71 3 (fun _ _ => 1 / 2) (1 / 2) 50%Z 50%Z); [lra|lia|vm_compute; discriminate|vm_compute; discriminate|reflexivity]. Qed.
