(** Lemmas for C58: the 3D plasma solver commutes with exchanging the axes. *)
From Coq Require Import Reals ZArith List Bool Lra Lia FunctionalExtensionality.
From Verif Require Import Beam2D_Model Plasma2D_Model Plasma2D_Ode Shape_Model Shape_Spec Shape_Proofs Plasma3D_Model Plasma3D_Spec Plasma3D_Move Plasma3D_Quiet Spectral Beam2D_Spec.
From Verif Require Import Sym3D_Spec.
Import ListNotations.
Open Scope R_scope.

Ltac fext := repeat (apply functional_extensionality; intro).
Lemma orb_swap a b c d : a || b || c || d = c || d || a || b.
Proof. destruct a, b, c, d; reflexivity. Qed.

(** ** Fields *)
Definition neg2 (a : arr2) : arr2 := fun i j => - a i j.
Section Axes.
  Variable t : arr -> arr.
  Variable m : nat.
  Variable c : nat -> nat -> R.
  Variable ix : nat -> nat.
  Hypothesis lin : forall x k, t x k = sumN m (fun n => c k n * x (ix n)).
  Lemma ax_comm a : ax1 t (ax0 t a) = ax0 t (ax1 t a).
  Proof.
    fext. unfold ax1, ax0. rewrite !lin. rewrite (sumN_ext m _ (fun n => sumN m (fun k => c x0 n * (c x k * a (ix k) (ix n))))).
    2:{ intros. rewrite lin, <- sumN_scal. reflexivity. }
    rewrite sumN_swap. apply sumN_ext. intros. rewrite lin, <- sumN_scal. apply sumN_ext. intros. ring.
  Qed.
  Lemma ax_swap a : ax1 t (ax0 t (swap_arr a)) = swap_arr (ax1 t (ax0 t a)).
  Proof. rewrite (ax_comm a). reflexivity. Qed.
  Lemma lin_opp x k : t (fun k => - x k) k = - t x k.
  Proof. rewrite !lin. replace (- sumN m _) with (-1 * sumN m (fun n => c k n * x (ix n))) by ring. rewrite <- sumN_scal. apply sumN_ext. intros. ring. Qed.
  Lemma ax0_neg a : ax0 t (neg2 a) = neg2 (ax0 t a).
  Proof. fext. apply lin_opp. Qed.
  Lemma ax1_neg a : ax1 t (neg2 a) = neg2 (ax1 t a).
  Proof. fext. apply lin_opp. Qed.
End Axes.
Definition same_ix (n : nat) : nat := n.
Lemma dst_lin M x k : dst_1 M x k = sumN M (fun n => 2 * sin (PI * INR (k + 1) * INR (n + 1) / INR (M + 1)) * x (same_ix n)).
Proof. unfold dst_1, same_ix. rewrite <- sumN_scal. apply sumN_ext. intros. ring. Qed.
Definition dct_ix (N n : nat) : nat := if (n <? N - 2)%nat then (n + 1)%nat else if (n =? N - 2)%nat then 0%nat else (N - 1)%nat.
Definition dct_c (N k n : nat) : R :=
  if (n <? N - 2)%nat then 2 * cos (PI * INR k * INR (n + 1) / INR (N - 1)) else if (n =? N - 2)%nat then 1 else (-1) ^ k.
Lemma dct_lin N x k : dct_1 N x k = sumN (S (S (N - 2))) (fun n => dct_c N k n * x (dct_ix N n)).
Proof.
  rewrite !sumN_S. unfold dct_1.
  assert (E : sumN (N - 2) (fun n => dct_c N k n * x (dct_ix N n)) = 2 * sumN (N - 2) (fun n => x (n + 1)%nat * cos (PI * INR k * INR (n + 1) / INR (N - 1)))).
  { rewrite <- sumN_scal. apply sumN_ext. intros i Hi. unfold dct_c, dct_ix. destruct (Nat.ltb_spec i (N - 2)); [ring|lia]. }
  rewrite E. unfold dct_c, dct_ix. rewrite Nat.ltb_irrefl, Nat.eqb_refl.
  replace (S (N - 2) <? N - 2)%nat with false by (symmetry; apply Nat.ltb_ge; lia).
  replace (S (N - 2) =? N - 2)%nat with false by (symmetry; apply Nat.eqb_neq; lia). ring.
Qed.
Lemma dst2d_swap M a : dst2d M (swap_arr a) = swap_arr (dst2d M a).
Proof. unfold dst2d. apply (ax_swap _ _ _ _ (dst_lin M)). Qed.
Lemma dct2d_swap N a : dct2d N (swap_arr a) = swap_arr (dct2d N a).
Proof. unfold dct2d. apply (ax_swap _ _ _ _ (dct_lin N)). Qed.
Lemma swap_axial_neg a : swap_axial a = neg2 (swap_arr a).
Proof. reflexivity. Qed.
Lemma dct2d_neg N a : dct2d N (neg2 a) = neg2 (dct2d N a).
Proof. unfold dct2d. now rewrite (ax0_neg _ _ _ _ (dct_lin N)), (ax1_neg _ _ _ _ (dct_lin N)). Qed.
Lemma mix2d_neg M N a : mix2d M N (neg2 a) = neg2 (mix2d M N a).
Proof. unfold mix2d. now rewrite (ax0_neg _ _ _ _ (dst_lin M)), (ax1_neg _ _ _ _ (dct_lin N)). Qed.

Lemma dirichlet_sym N h : swap_arr (dirichlet_matrix N h) = dirichlet_matrix N h.
Proof. fext. unfold swap_arr, dirichlet_matrix. now rewrite Rplus_comm. Qed.
Lemma neumann_sym N h : swap_arr (neumann_matrix N h) = neumann_matrix N h.
Proof. fext. unfold swap_arr, neumann_matrix. now rewrite Rplus_comm, andb_comm. Qed.
Lemma pad_swap N a : pad N (swap_arr a) = swap_arr (pad N a).
Proof. fext. unfold pad, swap_arr. now rewrite orb_swap. Qed.
Lemma times_swap a b : times (swap_arr a) (swap_arr b) = swap_arr (times a b).
Proof. reflexivity. Qed.
Lemma inner_swap a : inner (swap_arr a) = swap_arr (inner a).
Proof. reflexivity. Qed.

Definition swap_curs (c : curs) : curs := mkCs (swap_arr (s_ro c)) (swap_arr (s_jy c)) (swap_arr (s_jx c)) (swap_arr (s_jz c)).
Lemma sum_sorts_swap c : sum_sorts (swap_cur c) = swap_curs (sum_sorts c).
Proof. reflexivity. Qed.
Lemma Ez_swap N h c : calculate_Ez N h (swap_curs c) = swap_arr (calculate_Ez N h c).
Proof.
  unfold calculate_Ez. rewrite <- pad_swap, <- dst2d_swap. do 2 f_equal. rewrite <- times_swap, <- dst2d_swap, dirichlet_sym. do 2 f_equal.
  fext. unfold swap_curs, swap_arr. cbn [s_jx s_jy]. unfold Rdiv. f_equal. ring.
Qed.
Lemma Phi_swap N h c : calculate_Phi N h (swap_curs c) = swap_arr (calculate_Phi N h c).
Proof.
  unfold calculate_Phi. rewrite <- pad_swap, <- dst2d_swap. do 2 f_equal. rewrite <- times_swap, <- dst2d_swap, dirichlet_sym. reflexivity.
Qed.
Lemma mean2_axial N a : mean2 N (swap_axial a) = - mean2 N a.
Proof.
  unfold mean2, swap_axial. rewrite sumN_swap. replace (- (sumN N (fun i => sumN N (fun j => a i j)) / (INR N * INR N))) with ((-1 * sumN N (fun i => sumN N (fun j => a i j))) / (INR N * INR N)) by (unfold Rdiv; ring).
  f_equal. rewrite <- sumN_scal. apply sumN_ext. intros. rewrite <- sumN_scal. apply sumN_ext. intros. ring.
Qed.
Lemma times_neg a b : times (neg2 a) b = neg2 (times a b).
Proof. fext. unfold times, neg2. ring. Qed.
Lemma times_neg_r a b : times b (neg2 a) = neg2 (times b a).
Proof. fext. unfold times, neg2. ring. Qed.
Definition bz_rhs (N : nat) (h : R) (c : curs) : arr2 := fun i j =>
  - (pad N (fun i j => s_jx c (i + 1)%nat (j + 2)%nat - s_jx c (i + 1)%nat j) i j
     - pad N (fun i j => s_jy c (i + 2)%nat (j + 1)%nat - s_jy c i (j + 1)%nat) i j) / (h * 2).
Lemma bz_rhs_swap N h c : bz_rhs N h (swap_curs c) = neg2 (swap_arr (bz_rhs N h c)).
Proof.
  fext. unfold bz_rhs, neg2, swap_arr, swap_curs. cbn [s_jx s_jy]. unfold swap_arr, pad. rewrite (orb_swap (x =? 0)%nat).
  destruct ((x0 =? 0)%nat || (x0 =? N - 1)%nat || (x =? 0)%nat || (x =? N - 1)%nat); unfold Rdiv; ring.
Qed.
Definition bz_of (N : nat) (h : R) (rhs : arr2) : arr2 := dct2d N (times (dct2d N rhs) (neumann_matrix N h)).
Lemma bz_of_swap N h a : bz_of N h (neg2 (swap_arr a)) = swap_axial (bz_of N h a).
Proof.
  unfold bz_of. rewrite dct2d_neg, times_neg, dct2d_neg, dct2d_swap. rewrite <- (neumann_sym N h) at 1. now rewrite times_swap, dct2d_swap.
Qed.
Lemma Bz_unfold N h c : calculate_Bz N h c = fun i j => bz_of N h (bz_rhs N h c) i j - mean2 N (bz_of N h (bz_rhs N h c)).
Proof. reflexivity. Qed.
Lemma Bz_swap N h c : calculate_Bz N h (swap_curs c) = swap_axial (calculate_Bz N h c).
Proof.
  rewrite !Bz_unfold, bz_rhs_swap, bz_of_swap, mean2_axial. fext. unfold swap_axial. ring.
Qed.
Lemma ddx_swap N h a : d_dx N h (swap_arr a) = swap_arr (d_dy N h a).
Proof. fext. unfold d_dx, d_dy, swap_arr, on_inner. now rewrite orb_swap. Qed.
Lemma ddy_swap N h a : d_dy N h (swap_arr a) = swap_arr (d_dx N h a).
Proof. fext. unfold d_dx, d_dy, swap_arr, on_inner. now rewrite orb_swap. Qed.
Lemma pad_rows_neg N a : pad_rows N (neg2 a) = neg2 (pad_rows N a).
Proof. fext. unfold pad_rows, neg2. destruct (_ || _); ring. Qed.
Lemma solve_mixed_neg N h c a : solve_mixed N h c (neg2 a) = neg2 (solve_mixed N h c a).
Proof. unfold solve_mixed. change (inner_rows (neg2 a)) with (neg2 (inner_rows a)). now rewrite mix2d_neg, times_neg_r, mix2d_neg, pad_rows_neg. Qed.
Lemma solve_mixed_ext N h c a b : (forall i j, a i j = b i j) -> solve_mixed N h c a = solve_mixed N h c b.
Proof. intros H. f_equal. fext. apply H. Qed.
Lemma quad_eq {A B C D} (a a' : A) (b b' : B) (c c' : C) (d d' : D) : a = a' -> b = b' -> c = c' -> d = d' -> (a, b, c, d) = (a', b', c', d').
Proof. now intros -> -> -> ->. Qed.
Lemma transverse_swap N h X k f rb rp cf cp :
  let '(ex, ey, bx, b_y) := calculate_Ex_Ey_Bx_By N h X k f rb rp cf cp in
  calculate_Ex_Ey_Bx_By N h X k (swap_fields f) (swap_arr rb) (swap_arr rp) (swap_curs cf) (swap_curs cp) =
  (swap_arr ey, swap_arr ex, swap_axial b_y, swap_axial bx).
Proof.
  unfold calculate_Ex_Ey_Bx_By. cbn zeta. unfold swap_fields, swap_curs. cbn [s_ro s_jx s_jy s_jz Ex Ey Bx By].
  set (ro := fun i j => (s_ro cf i j + _ + _ + _) / 2). set (jz := fun i j => (s_jz cf i j + _ + _ + _) / 2).
  change (fun i j => (swap_arr (s_ro cf) i j + swap_arr rb i j + swap_arr (s_ro cp) i j + swap_arr rp i j) / 2) with (swap_arr ro).
  change (fun i j => (swap_arr (s_jz cf) i j + swap_arr rb i j + swap_arr (s_jz cp) i j + swap_arr rp i j) / 2) with (swap_arr jz).
  rewrite !ddx_swap, !ddy_swap. apply quad_eq.
  - change (transpose (solve_mixed N h k ?a)) with (swap_arr (solve_mixed N h k a)). reflexivity.
  - reflexivity.
  - unfold swap_axial at 2. unfold transpose at 1. change (fun i j => - solve_mixed N h k ?a i j) with (neg2 (solve_mixed N h k a)). rewrite <- solve_mixed_neg.
    apply solve_mixed_ext. intros. unfold neg2, transpose, swap_arr, swap_axial. ring.
  - transitivity (transpose (neg2 (solve_mixed N h k (fun i j => d_dy N h jz i j - (s_jy cp i j - s_jy cf i j) / X + k * Bx f i j)))); [|reflexivity].
    f_equal. rewrite <- solve_mixed_neg. apply solve_mixed_ext. intros. unfold neg2, transpose, swap_arr, swap_axial. ring.
Qed.
Lemma fields_swap N h X k f fp rb rp cp cf :
  compute_fields3 N h X k (swap_fields f) (swap_fields fp) (swap_arr rb) (swap_arr rp) (swap_cur cp) (swap_cur cf) =
  let '(full, half) := compute_fields3 N h X k f fp rb rp cp cf in (swap_fields full, swap_fields half).
Proof.
  unfold compute_fields3. cbn zeta. rewrite !sum_sorts_swap. pose proof (transverse_swap N h X k f rb rp (sum_sorts cf) (sum_sorts cp)) as T.
  destruct (calculate_Ex_Ey_Bx_By N h X k f rb rp (sum_sorts cf) (sum_sorts cp)) as [[[ex ey] bx] b_y]. rewrite T.
  rewrite Ez_swap, Bz_swap, Phi_swap. unfold swap_fields. cbn [Ex Ey Ez Bx By Bz Phi].
  f_equal; f_equal; fext; unfold swap_axial, swap_arr; unfold Rdiv; ring.
Qed.

(** ** Particles *)
Lemma gather_swap n h x y f : gather_at n h y x (swap_arr f) = gather_at n h x y f.
Proof.
  unfold gather_at. rewrite !gather_val by (intros; ring). unfold swap_arr, places. cbn [fold_right]. ring.
Qed.
Lemma gather_axial n h x y f : gather_at n h y x (swap_axial f) = - gather_at n h x y f.
Proof.
  unfold gather_at. rewrite !gather_val by (intros; ring). unfold swap_axial, places. cbn [fold_right]. ring.
Qed.
Lemma gamma3_swap m px py pz : gamma3 m py px pz = gamma3 m px py pz.
Proof. unfold gamma3. f_equal. ring. Qed.
Definition swap_v (p : R * R * R) : R * R * R := let '(x, y, z) := p in (y, x, z).
Definition swap_eb (e : R * R * R * R * R * R) : R * R * R * R * R * R :=
  let '(ex, ey, ez, bx, b_y, bz) := e in (ey, ex, ez, - b_y, - bx, - bz).
Lemma fields_at_swap n h x y f : fields_at3 n h y x (swap_fields f) = swap_eb (fields_at3 n h x y f).
Proof. unfold fields_at3, swap_fields, swap_eb. cbn [Ex Ey Ez Bx By Bz]. now rewrite !gather_swap, !gather_axial. Qed.
Lemma force_swap m q X e p : force3 m q X (swap_eb e) (swap_v p) = swap_v (force3 m q X e p).
Proof.
  destruct e as [[[[[ex ey] ez] bx] b_y] bz], p as [[px py] pz]. unfold force3, swap_eb, swap_v. rewrite gamma3_swap.
  set (g := gamma3 m px py pz). f_equal; [f_equal|]; f_equal; ring.
Qed.
Lemma half_kick_swap o d : half_kick (swap_v o) (swap_v d) = swap_v (half_kick o d).
Proof. destruct o as [[? ?] ?], d as [[? ?] ?]. reflexivity. Qed.
Lemma finish_swap b X prev full pm d : finish3 b X (swap_pt prev) (swap_pt full) (swap_v pm) (swap_v d) = swap_pt (finish3 b X prev full pm d).
Proof.
  destruct pm as [[px py] pz], d as [[dx dy] dz]. unfold finish3, swap_v. cbn [swap_pt t_x0 t_y0 t_dx t_dy t_px t_py t_pz t_q t_m t_cx t_cy].
  rewrite gamma3_swap. set (g := gamma3 (t_m full) px py pz).
  rewrite (orb_comm (snd (reflect1 b (t_y0 prev + (t_dy prev + py / (g - pz) * X))))).
  rewrite (orb_comm ((if Rle_dec b (t_y0 prev + _) then _ else _) || _)).
  destruct (_ || _ || (_ || _)); reflexivity.
Qed.
Lemma smart_swap n h b X f prev full : move_smart1 n h b X (swap_fields f) (swap_pt prev) (swap_pt full) = swap_pt (move_smart1 n h b X f prev full).
Proof.
  unfold move_smart1. cbn [swap_pt t_x0 t_y0 t_dx t_dy t_px t_py t_pz t_q t_m]. destruct (Req_EM_T (t_q full) 0); [reflexivity|].
  destruct (reflect1 b (t_x0 prev + _)) as [x fx]. destruct (reflect1 b (t_y0 prev + _)) as [y fy]. rewrite fields_at_swap, (orb_comm fy fx).
  change (t_py prev, t_px prev, t_pz prev) with (swap_v (t_px prev, t_py prev, t_pz prev)).
  replace (if (fx || fy)%bool then (0, 0, 0) else swap_v (t_px prev, t_py prev, t_pz prev)) with (swap_v (if (fx || fy)%bool then (0, 0, 0) else (t_px prev, t_py prev, t_pz prev))) by (destruct (fx || fy); reflexivity).
  now rewrite force_swap, half_kick_swap, force_swap, half_kick_swap, finish_swap.
Qed.
Lemma free_swap X p : move_free1 X (swap_pt p) = swap_pt (move_free1 X p).
Proof. unfold move_free1. cbn [swap_pt t_m t_px t_py t_pz]. rewrite gamma3_swap. destruct (Req_EM_T (t_m p) 0); reflexivity. Qed.
Lemma move_free_swap s ps : move_free (swap_solver s) (swap_parts ps) = swap_parts (move_free s ps).
Proof.
  unfold move_free, map_sorts, swap_parts, swap_solver. cbn [u_ions u_xi K_ el io]. f_equal; [fext; apply free_swap|].
  destruct (u_ions s); cbn [swap_ions]; [reflexivity|fext; apply free_swap].
Qed.
Lemma move_smart_swap s f pp ps : move_smart (swap_solver s) (swap_fields f) (swap_parts pp) (swap_parts ps) = swap_parts (move_smart s f pp ps).
Proof.
  unfold move_smart, swap_parts, swap_solver. cbn [u_n u_h u_b u_ions u_xi K_ el io]. f_equal; [fext; apply smart_swap|].
  destruct (u_ions s); cbn [swap_ions]; [reflexivity|fext; apply smart_swap].
Qed.
(** ** Deposition *)
Lemma shape_swap n h x y a b : shape n h y x b a = shape n h x y a b.
Proof. unfold shape. apply Rmult_comm. Qed.
Lemma energy_swap p : energy3 (swap_pt p) = energy3 p.
Proof. unfold energy3, swap_pt. cbn. f_equal. ring. Qed.
Lemma cell_sum_swap n h f g K (e : nat -> nat -> pt3) a b : (forall p, f (swap_pt p) = g p) ->
  cell_sum n h f (ravel K (fun i j => swap_pt (e j i))) a b = cell_sum n h g (ravel K e) b a.
Proof.
  intros H. unfold cell_sum. rewrite !sumR_ravel, sumN_swap. apply sumN_ext. intros i _. apply sumN_ext. intros j _. rewrite H.
  replace (shape n h (at_x (swap_pt (e i j))) (at_y (swap_pt (e i j))) a b) with (shape n h (at_x (e i j)) (at_y (e i j)) b a) by (rewrite <- shape_swap; reflexivity).
  reflexivity.
Qed.
Lemma dens_ext (d e : dens3) : (forall a b, c_ro d a b = c_ro e a b /\ c_jx d a b = c_jx e a b /\ c_jy d a b = c_jy e a b /\ c_jz d a b = c_jz e a b) -> d = e.
Proof. intros H. destruct d, e. cbn in H. f_equal; fext; apply H. Qed.
Lemma deposit_swap n h K e : h <> 0 -> deposit_plasma n h (ravel K (fun i j => swap_pt (e j i))) = swap_dens (deposit_plasma n h (ravel K e)).
Proof.
  intros Hh. apply dens_ext. intros a b. destruct (deposit_plasma_val n h (ravel K (fun i j => swap_pt (e j i))) a b Hh) as (A & B & C & D).
  destruct (deposit_plasma_val n h (ravel K e) b a Hh) as (A' & B' & C' & D').
  unfold swap_dens, swap_grid. cbn [c_ro c_jx c_jy c_jz]. rewrite A, B, C, D, A', B', C', D'.
  repeat split; apply cell_sum_swap; intros p; unfold rho_of, vx_of, vy_of, vz_of; rewrite energy_swap; reflexivity.
Qed.
Lemma rhoj_swap n h im ps : h <> 0 -> compute_rhoj3 n h (swap_ions im) (swap_parts ps) = swap_cur (compute_rhoj3 n h im ps).
Proof.
  intros Hh. unfold compute_rhoj3, swap_cur. cbn [r_e r_i swap_parts K_ el io]. f_equal; [apply deposit_swap; auto|].
  destruct im; cbn [swap_ions]; [reflexivity|apply deposit_swap; auto].
Qed.
(** ** Noise filter *)
Lemma inhom_swap K a : inhomogeneity K (swap_arr a) = swap_arr (inhomogeneity K a).
Proof. fext. unfold inhomogeneity, swap_arr. rewrite Rplus_comm. reflexivity. Qed.
Lemma limit_swap dmax x y : d_limit dmax y x = d_limit dmax x y.
Proof. unfold d_limit. now rewrite Rplus_comm. Qed.
Lemma change_swap K X coef damp dmax c cp cx cy :
  momentum_change K X coef damp dmax (swap_arr c) (swap_arr cp) (swap_arr cy) (swap_arr cx) = swap_arr (momentum_change K X coef damp dmax c cp cx cy).
Proof.
  fext. unfold momentum_change, swap_arr. cbn zeta. rewrite limit_swap. rewrite (Rplus_comm (ax0 _ _ _ _)).
  f_equal. f_equal.
  - unfold ax1, ax0. f_equal. fext. now rewrite limit_swap.
  - unfold ax1, ax0. f_equal. fext. now rewrite limit_swap.
Qed.
Lemma gauss_swap K sigma a : gauss_average K sigma (swap_arr a) = swap_arr (gauss_average K sigma a).
Proof.
  fext. unfold gauss_average, swap_arr. f_equal. rewrite sumN_swap. apply sumN_ext. intros k _. apply sumN_ext. intros l _. f_equal.
  - unfold gauss_weight. now rewrite (Rplus_comm (signed_freq K l ^ 2)).
  - rewrite sumN_swap. apply sumN_ext. intros i _. apply sumN_ext. intros j _. now rewrite (Rplus_comm (INR l * _)).
Qed.
Section Step.
  Variable average : arr2 -> arr2.
  Hypothesis av : forall a, average (swap_arr a) = swap_arr (average a).
  Lemma filter_swap K X coef damp dmax a prev :
    noise_filter average K X coef damp dmax (fun i j => swap_pt (a j i)) (fun i j => swap_pt (prev j i)) =
    fun i j => swap_pt (noise_filter average K X coef damp dmax a prev j i).
  Proof.
    unfold noise_filter. cbn zeta.
    change (fun i j => t_dx (swap_pt (a j i))) with (swap_arr (fun i j => t_dy (a i j))).
    change (fun i j => t_dy (swap_pt (a j i))) with (swap_arr (fun i j => t_dx (a i j))).
    change (fun i j => t_cx (swap_pt (prev j i))) with (swap_arr (fun i j => t_cy (prev i j))).
    change (fun i j => t_cy (swap_pt (prev j i))) with (swap_arr (fun i j => t_cx (prev i j))).
    rewrite !inhom_swap, !av. set (dx := inhomogeneity K (fun i j => t_dx (a i j))). set (dy := inhomogeneity K (fun i j => t_dy (a i j))).
    change (fun i j => swap_arr dy i j - swap_arr (average dy) i j) with (swap_arr (fun i j => dy i j - average dy i j)).
    change (fun i j => swap_arr dx i j - swap_arr (average dx) i j) with (swap_arr (fun i j => dx i j - average dx i j)).
    set (cx := fun i j => dx i j - average dx i j). set (cy := fun i j => dy i j - average dy i j).
    fext. rewrite change_swap. replace (momentum_change K X coef damp dmax (swap_arr cx) (swap_arr (fun i j => t_cx (prev i j))) (swap_arr cy) (swap_arr cx)) with
      (swap_arr (momentum_change K X coef damp dmax cx (fun i j => t_cx (prev i j)) cx cy)) by (symmetry; apply change_swap).
    reflexivity.
  Qed.
  Lemma step_swap s rb rp st : u_h s <> 0 ->
    step_dxi3 average (swap_solver s) (swap_arr rb) (swap_arr rp) (swap_state st) = swap_state (step_dxi3 average s rb rp st).
  Proof.
    intros Hh. destruct st as [[pp fp] cp]. unfold step_dxi3, swap_state. cbn zeta.
    change (u_n (swap_solver s)) with (u_n s). change (u_h (swap_solver s)) with (u_h s). change (u_ions (swap_solver s)) with (swap_ions (u_ions s)).
    change (u_xi (swap_solver s)) with (u_xi s). change (u_coeff (swap_solver s)) with (u_coeff s). change (u_decl (swap_solver s)) with (u_decl s).
    change (u_force (swap_solver s)) with (u_force s). change (u_damp (swap_solver s)) with (u_damp s). change (u_limit (swap_solver s)) with (u_limit s).
    rewrite move_free_swap, move_smart_swap. set (p1 := move_smart s fp pp (move_free s pp)).
    rewrite rhoj_swap by auto. set (c1 := compute_rhoj3 _ _ _ p1). rewrite fields_swap.
    destruct (compute_fields3 (u_n s) (u_h s) (u_xi s) (u_coeff s) fp fp rb rp cp c1) as [ff1 fh1]. cbn [snd].
    rewrite move_smart_swap. set (p2 := move_smart s fh1 pp p1). rewrite rhoj_swap by auto. set (c2 := compute_rhoj3 _ _ _ p2).
    rewrite fields_swap. destruct (compute_fields3 (u_n s) (u_h s) (u_xi s) (u_coeff s) fh1 fp rb rp cp c2) as [ff fh2].
    rewrite move_smart_swap. set (p3 := move_smart s fh2 pp p2).
    destruct (u_decl s); [|now rewrite rhoj_swap by auto].
    assert (E : mkP3 (K_ (swap_parts p3)) (noise_filter average (K_ (swap_parts p3)) (u_xi s) (u_force s) (u_damp s) (u_limit s) (el (swap_parts p3)) (el (swap_parts pp))) (io (swap_parts p3))
      = swap_parts (mkP3 (K_ p3) (noise_filter average (K_ p3) (u_xi s) (u_force s) (u_damp s) (u_limit s) (el p3) (el pp)) (io p3))).
    { clearbody p3. unfold swap_parts. cbn [K_ el io]. f_equal. apply filter_swap. }
    rewrite E. now rewrite rhoj_swap by auto.
  Qed.
End Step.
