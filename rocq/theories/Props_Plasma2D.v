(** Theorems C22-C29: the 2D plasma solver. *)
From Coq Require Import Reals ZArith List Bool Lra Lia Psatz.
From Verif Require Import Beam2D_Model Beam2D_Spec Beam2D_Ex Plasma2D_Model Plasma2D_Spec Plasma2D_Ode Plasma2D_Dep Plasma2D_Move Plasma2D_Init Plasma2D_Dens Plasma2D_Ex.
Import ListNotations.
Open Scope R_scope.

(** ** C22.  The sweep returns the only solution of the discrete radial equation that vanishes on the
    axis and meets the condition at the wall. *)
Theorem C22_neumann_solves : forall f k h n, 0 < h -> (forall i, 0 <= k i) -> (2 <= n)%nat ->
  let y := tridiagonal_solve_neumann_like n f k h in
  radial_equation n h k f y /\ y 0%nat = 0 /\ last_cell_divergence n h y = f (n - 1)%nat.
Proof. exact tri_neumann. Qed.
Print Assumptions C22_neumann_solves.
Theorem C22_neumann_unique : forall f k h n z, 0 < h -> (forall i, 0 <= k i) -> (2 <= n)%nat ->
  radial_equation n h k f z -> z 0%nat = 0 -> last_cell_divergence n h z = f (n - 1)%nat ->
  forall i, (i < n)%nat -> z i = tridiagonal_solve_neumann_like n f k h i.
Proof. exact tri_neumann_unique. Qed.
Print Assumptions C22_neumann_unique.
Theorem C22_dirichlet_solves : forall f k h n, 0 < h -> (forall i, 0 <= k i) -> (2 <= n)%nat ->
  let y := tridiagonal_solve_dirichlet n f k h in
  radial_equation n h k f y /\ y 0%nat = 0 /\ y (n - 1)%nat = h * f (n - 1)%nat.
Proof. exact tri_dirichlet. Qed.
Print Assumptions C22_dirichlet_solves.
Theorem C22_dirichlet_unique : forall f k h n z, 0 < h -> (forall i, 0 <= k i) -> (2 <= n)%nat ->
  radial_equation n h k f z -> z 0%nat = 0 -> z (n - 1)%nat = h * f (n - 1)%nat ->
  forall i, (i < n)%nat -> z i = tridiagonal_solve_dirichlet n f k h i.
Proof. exact tri_dirichlet_unique. Qed.
Print Assumptions C22_dirichlet_unique.
(** The equation has other solutions when the boundary condition is dropped: y = r solves it with
    k = 0 and f = 0 at every inner node, and is not 0. *)
Example C22_nonvacuous : radial_equation 5 1 (fun _ => 0) (fun _ => 0) (fun i => INR i).
Proof.
  intros i Hi. cbn zeta. rewrite plus_INR, minus_INR by lia. cbn [INR]. pose proof (INR_pos' i ltac:(lia)). field. lra.
Qed.

(** ** C23 *)
Theorem C23_forward : forall y h i,
  cumtrapz_fwd y h 0 = 0 /\ cumtrapz_fwd y h (i + 1) - cumtrapz_fwd y h i = trapezoid y h i /\
  cumtrapz_fwd y h i = sumN i (trapezoid y h).
Proof. intros. split; [reflexivity|]. split; [apply fwd_step|apply fwd_closed]. Qed.
Print Assumptions C23_forward.
Theorem C23_backward : forall n y h,
  cumtrapz_bwd n y h (n - 1)%nat = 0 /\
  (forall i, (i + 1 < n)%nat -> cumtrapz_bwd n y h (i + 1)%nat - cumtrapz_bwd n y h i = trapezoid y h i) /\
  (forall i, (i < n)%nat -> cumtrapz_bwd n y h i = - sumN (n - 1 - i) (fun j => trapezoid y h (i + j))).
Proof. intros. split; [apply bwd_last|]. split; [apply bwd_step|apply bwd_closed]. Qed.
Print Assumptions C23_backward.
(** the two modes agree up to the total integral *)
Theorem C23_modes_differ_by_the_total : forall n y h i, (i < n)%nat ->
  cumtrapz_bwd n y h i = cumtrapz_fwd y h i - cumtrapz_fwd y h (n - 1).
Proof.
  intros n y h i Hi.
  assert (G : forall k, (k < n)%nat -> cumtrapz_bwd n y h (n - 1 - k)%nat = cumtrapz_fwd y h (n - 1 - k) - cumtrapz_fwd y h (n - 1)).
  { induction k as [|k IH]; intros Hk.
    - replace (n - 1 - 0)%nat with (n - 1)%nat by lia. rewrite bwd_last. lra.
    - pose proof (bwd_step n y h (n - 1 - S k) ltac:(lia)) as A. pose proof (fwd_step y h (n - 1 - S k)) as B.
      replace (n - 1 - S k + 1)%nat with (n - 1 - k)%nat in * by lia. rewrite IH in A by lia. lra. }
  specialize (G (n - 1 - i)%nat ltac:(lia)). now replace (n - 1 - (n - 1 - i))%nat with i in G by lia.
Qed.
Print Assumptions C23_modes_differ_by_the_total.
Theorem C23_linear : forall a b y z h i,
  cumtrapz_fwd (fun j => a * y j + b * z j) h i = a * cumtrapz_fwd y h i + b * cumtrapz_fwd z h i.
Proof. induction i as [|i IH]; cbn [cumtrapz_fwd]; [lra|]. rewrite IH. field. Qed.
Print Assumptions C23_linear.
(** exact on affine functions *)
Theorem C23_forward_exact_on_affine : forall y h i a b, (forall j, y j = a + b * (INR j * h)) ->
  cumtrapz_fwd y h i = a * (INR i * h) + b * (INR i * h) ^ 2 / 2.
Proof. exact fwd_affine. Qed.
Print Assumptions C23_forward_exact_on_affine.
Theorem C23_backward_exact_on_affine : forall n y h i a b, (i < n)%nat -> (forall j, y j = a + b * (INR j * h)) ->
  let R := INR (n - 1) * h in let r := INR i * h in
  cumtrapz_bwd n y h i = - (a * (R - r) + b * (R ^ 2 - r ^ 2) / 2).
Proof. exact bwd_affine. Qed.
Print Assumptions C23_backward_exact_on_affine.
Example C23_nonvacuous : cumtrapz_fwd (fun j => INR j) 1 3 = 9 / 2.
Proof. rewrite (fwd_affine _ 1 3 0 1); [cbn; lra|]. intros; lra. Qed.

(** ** C24.  The fields of one xi-step.  [fn] is the guess of the new fields, [f] the fields of the
    previous layer, [cp] and [cn] the currents of the previous and the new layer. *)
Section C24.
  Variables (n : nat) (h X : R) (fn f : fields2) (rb : arr) (cp cn : currents2).
  Hypotheses (Hn : (2 <= n)%nat) (Hh : 0 < h).
  Let new := fst (compute_fields n h fn f rb cp cn X).
  Let factor := prev_factor (d_rho (row_e cn)) (d_jr (row_e cn)) (d_jf (row_e cn)) (d_jz (row_e cn)).
  Let rho := fun i => d_rho (row_e cn) i + d_rho (row_i cn) i + rb i.
  Let jr := fun i => d_jr (row_e cn) i + d_jr (row_i cn) i.
  Let jf := fun i => d_jf (row_e cn) i + d_jf (row_i cn) i.
  Let jz := fun i => d_jz (row_e cn) i + d_jz (row_i cn) i.
  Let jr_prev := fun i => d_jr (row_e cp) i + d_jr (row_i cp) i.
  Let jf_prev := fun i => d_jf (row_e cp) i + d_jf (row_i cp) i.

  Lemma c24_er : f_er new 0%nat = 0 /\ last_cell_divergence n h (f_er new) = (rho (n - 2)%nat + rho (n - 1)%nat) / 2 /\
    radial_equation n h factor (fun i => (jr i - jr_prev i) / X - factor i * ((f_er fn i + f_er f i) / 2)
       + (rho (i + 1)%nat - rho (i - 1)%nat) / (2 * h)) (f_er new).
  Proof.
    assert (Hk : forall i, 0 <= factor i) by (intros i; apply Rle_trans with 1; [lra|apply prev_factor_ge1]).
    pose proof (tri_neumann (fun i => if (i =? 0)%nat then 0
      else if (i =? n - 1)%nat then (rho (n - 2)%nat + rho (n - 1)%nat) / 2
      else (jr i - jr_prev i) / X - factor i * ((f_er fn i + f_er f i) / 2) + (rho (S i) - rho (i - 1)%nat) / 2 / h) factor h n Hh
      Hk Hn) as (A & B & C).
    cbn zeta in A, B, C. split; [exact B|]. split.
    - replace (n - 1 =? 0)%nat with false in C by (symmetry; apply Nat.eqb_neq; lia). rewrite Nat.eqb_refl in C. exact C.
    - intros i Hi. specialize (A i Hi). cbn beta zeta in A |- *. rewrite (Nat.add_1_r i) in *. unfold new.
      replace (i =? 0)%nat with false in A by (symmetry; apply Nat.eqb_neq; lia). replace (i =? n - 1)%nat with false in A by (symmetry; apply Nat.eqb_neq; lia).
      etransitivity; [exact A|]. f_equal. assert (Q : forall a, a / 2 / h = a / (2 * h)) by (intros; field; lra). apply Q.
  Qed.
  Lemma c24_ef : f_ef new 0%nat = 0 /\ f_ef new (n - 1)%nat = 0 /\
    radial_equation n h (fun _ => 1) (fun i => (jf i - jf_prev i) / X - (f_ef fn i + f_ef f i) / 2) (f_ef new).
  Proof.
    pose proof (tri_dirichlet (fun i => if (i =? 0)%nat then 0 else if (i =? n - 1)%nat then 0
      else (jf i - jf_prev i) / X - 1 * ((f_ef fn i + f_ef f i) / 2)) (fun _ => 1) h n Hh (fun _ => ltac:(lra)) Hn) as (A & B & C).
    cbn zeta in A, B, C. split; [exact B|]. split.
    - replace (n - 1 =? 0)%nat with false in C by (symmetry; apply Nat.eqb_neq; lia). rewrite Nat.eqb_refl in C. etransitivity; [exact C|]. ring.
    - intros i Hi. specialize (A i Hi). cbn beta zeta in A |- *. unfold new.
      replace (i =? 0)%nat with false in A by (symmetry; apply Nat.eqb_neq; lia). replace (i =? n - 1)%nat with false in A by (symmetry; apply Nat.eqb_neq; lia).
      etransitivity; [exact A|]. now rewrite Rmult_1_l.
  Qed.
  Lemma c24_ez : f_ez new (n - 1)%nat = 0 /\
    forall i, (i + 1 < n)%nat -> (f_ez new (i + 1)%nat - f_ez new i) / h = (jr i + jr (i + 1)%nat) / 2.
  Proof.
    destruct (ez_facts n (total cn d_jr) h) as [A B]. split; [exact A|]. intros i Hi. destruct (B i Hi) as [E|E]; [exact E|lra].
  Qed.
  Lemma c24_bf : f_bf new 0%nat = 0 /\
    forall i, let g := fun i => INR i * h * (f_er new i - f_bf new i) in
      let s := fun i => INR i * h * (rho i - rb i - jz i) in
      (g (i + 1)%nat - g i) / h = (s i + s (i + 1)%nat) / 2.
  Proof.
    split; [apply bphi_axis; apply c24_er|]. intros i g s.
    pose proof (bphi_step n (total cn d_rho) (total cn d_jz) (f_er new) h i ltac:(lra)) as E. cbn zeta in E.
    etransitivity; [exact E|]. unfold s, rho, jz, total. field.
  Qed.
  Lemma c24_bz : (forall i, (i + 1 < n)%nat -> (f_bz new (i + 1)%nat - f_bz new i) / h = - (jf i + jf (i + 1)%nat) / 2) /\
    sumN (n - 1) (fun i => PI * ((INR (i + 1) * h) ^ 2 - (INR i * h) ^ 2) * f_bz new i) = 0.
  Proof.
    split.
    - intros i Hi. pose proof (bz_step n (total cn d_jf) h i Hi) as E. unfold trapezoid in E.
      replace (f_bz new (i + 1)%nat - f_bz new i) with (- (h * (total cn d_jf i + total cn d_jf (i + 1)%nat) / 2)) by (rewrite <- E; reflexivity). unfold jf, total. field. lra.
    - rewrite (sumN_ext _ _ (fun i => PI * h ^ 2 * ((2 * INR i + 1) * f_bz new i))).
      + rewrite sumN_scal. pose proof (bz_flux n (total cn d_jf) h Hn) as E. etransitivity; [apply f_equal; exact E|ring].
      + intros i _. rewrite plus_INR. cbn [INR]. ring.
  Qed.
  Lemma c24_avg : let a := snd (compute_fields n h fn f rb cp cn X) in forall i,
    f_er a i = (f_er new i + f_er f i) / 2 /\ f_ef a i = (f_ef new i + f_ef f i) / 2 /\ f_ez a i = (f_ez new i + f_ez f i) / 2 /\
    f_bf a i = (f_bf new i + f_bf f i) / 2 /\ f_bz a i = (f_bz new i + f_bz f i) / 2.
  Proof. intros a i. auto. Qed.
End C24.

(** E_r: zero on the axis, Gauss' law in the last cell, and at every inner node
    (d_r^2 + d_r/r - 1/r^2 - k) E = dj_r/dxi - k E_prev + drho/dr with the current factor k >= 1. *)
Theorem C24_radial_electric_field : forall n h X fn f rb cp cn, (2 <= n)%nat -> 0 < h ->
  let new := fst (compute_fields n h fn f rb cp cn X) in
  let k := prev_factor (d_rho (row_e cn)) (d_jr (row_e cn)) (d_jf (row_e cn)) (d_jz (row_e cn)) in
  let rho := fun i => d_rho (row_e cn) i + d_rho (row_i cn) i + rb i in
  let jr := fun c i => d_jr (row_e c) i + d_jr (row_i c) i in
  (forall i, 1 <= k i) /\
  f_er new 0%nat = 0 /\ last_cell_divergence n h (f_er new) = (rho (n - 2)%nat + rho (n - 1)%nat) / 2 /\
  radial_equation n h k (fun i => (jr cn i - jr cp i) / X - k i * ((f_er fn i + f_er f i) / 2)
       + (rho (i + 1)%nat - rho (i - 1)%nat) / (2 * h)) (f_er new).
Proof. intros. split; [intros i; apply prev_factor_ge1|]. now apply c24_er. Qed.
Print Assumptions C24_radial_electric_field.
Theorem C24_azimuthal_electric_field : forall n h X fn f rb cp cn, (2 <= n)%nat -> 0 < h ->
  let new := fst (compute_fields n h fn f rb cp cn X) in
  let jf := fun c i => d_jf (row_e c) i + d_jf (row_i c) i in
  f_ef new 0%nat = 0 /\ f_ef new (n - 1)%nat = 0 /\
  radial_equation n h (fun _ => 1) (fun i => (jf cn i - jf cp i) / X - (f_ef fn i + f_ef f i) / 2) (f_ef new).
Proof. intros. now apply c24_ef. Qed.
Print Assumptions C24_azimuthal_electric_field.
Theorem C24_longitudinal_electric_field : forall n h X fn f rb cp cn, (2 <= n)%nat -> 0 < h ->
  let new := fst (compute_fields n h fn f rb cp cn X) in
  let jr := fun i => d_jr (row_e cn) i + d_jr (row_i cn) i in
  f_ez new (n - 1)%nat = 0 /\ (forall i, (i + 1 < n)%nat -> (f_ez new (i + 1)%nat - f_ez new i) / h = (jr i + jr (i + 1)%nat) / 2).
Proof. intros. apply (c24_ez n h X fn f rb cp cn); auto. Qed.
Print Assumptions C24_longitudinal_electric_field.
Theorem C24_azimuthal_magnetic_field : forall n h X fn f rb cp cn, (2 <= n)%nat -> 0 < h ->
  let new := fst (compute_fields n h fn f rb cp cn X) in
  let g := fun i => INR i * h * (f_er new i - f_bf new i) in
  let s := fun i => INR i * h * (d_rho (row_e cn) i + d_rho (row_i cn) i - (d_jz (row_e cn) i + d_jz (row_i cn) i)) in
  f_bf new 0%nat = 0 /\ (forall i, (g (i + 1)%nat - g i) / h = (s i + s (i + 1)%nat) / 2).
Proof.
  intros n h X fn f rb cp cn Hn Hh new g s. destruct (c24_bf n h X fn f rb cp cn Hn Hh) as [A B]. split; [exact A|].
  intros i. etransitivity; [apply (B i)|]. unfold s. field.
Qed.
Print Assumptions C24_azimuthal_magnetic_field.
(** dB_z/dr = - j_phi and no flux through the window (sum over the rings between nodes) *)
Theorem C24_longitudinal_magnetic_field : forall n h X fn f rb cp cn, (2 <= n)%nat -> 0 < h ->
  let new := fst (compute_fields n h fn f rb cp cn X) in
  let jf := fun i => d_jf (row_e cn) i + d_jf (row_i cn) i in
  (forall i, (i + 1 < n)%nat -> (f_bz new (i + 1)%nat - f_bz new i) / h = - (jf i + jf (i + 1)%nat) / 2) /\
  sumN (n - 1) (fun i => PI * ((INR (i + 1) * h) ^ 2 - (INR i * h) ^ 2) * f_bz new i) = 0.
Proof. intros. now apply c24_bz. Qed.
Print Assumptions C24_longitudinal_magnetic_field.
Theorem C24_second_result_is_the_average : forall n h X fn f rb cp cn,
  let new := fst (compute_fields n h fn f rb cp cn X) in let a := snd (compute_fields n h fn f rb cp cn X) in forall i,
    f_er a i = (f_er new i + f_er f i) / 2 /\ f_ef a i = (f_ef new i + f_ef f i) / 2 /\ f_ez a i = (f_ez new i + f_ez f i) / 2 /\
    f_bf a i = (f_bf new i + f_bf f i) / 2 /\ f_bz a i = (f_bz new i + f_bz f i) / 2.
Proof. intros. apply c24_avg. Qed.
Print Assumptions C24_second_result_is_the_average.
(** a current that gives a non-zero field *)
Example C24_nonvacuous : let d := mkD zeros (fun _ => 1) zeros zeros in
  f_ez (fst (compute_fields 3 1 zero_fields zero_fields zeros (mkJ zero_dens zero_dens) (mkJ d zero_dens) 1)) 1%nat = -1.
Proof. cbn. unfold total, zeros. cbn. unfold zeros. lra. Qed.

(** ** C25 *)
(** Every node gets what the quadratic cloud of every particle and of its two mirror images gives it. *)
Theorem C25_every_node : forall h ppc n l i, 0 < h -> (2 <= n)%nat -> (forall p, In p l -> inside2 h n p) -> (i < n)%nat ->
  let v := cell_volume h ppc n in let d := per_volume v (deposit2 h n l) in
  v i * d_rho d i = sumR (map (fun p => qs_charge p * node_share n 1 (r_ p / h) i) l) /\
  v i * d_jz d i = (if (i =? n - 1)%nat then 0 else sumR (map (fun p => qs_jz p * node_share n 1 (r_ p / h) i) l)) /\
  v i * d_jr d i = (if (i =? 0)%nat || (i =? n - 1)%nat then 0 else sumR (map (fun p => q_ p * pr_ p / (gm_of p - pz_ p) * node_share n (-1) (r_ p / h) i) l)) /\
  v i * d_jf d i = (if (i =? 0)%nat || (i =? n - 1)%nat then 0 else sumR (map (fun p => q_ p * pf_ p / (gm_of p - pz_ p) * node_share n (-1) (r_ p / h) i) l)).
Proof. exact rhoj_nodes. Qed.
Print Assumptions C25_every_node.
(** the shares of one particle are nonnegative and add up to 1 *)
Theorem C25_shares_sum_to_one : forall h n p, 0 < h -> (2 <= n)%nat -> inside2 h n p ->
  sumN n (node_share n 1 (r_ p / h)) = 1 /\ (forall i, 0 <= node_share n 1 (r_ p / h) i).
Proof.
  intros h n p Hh Hn Hi. split; [now apply share_total|]. intros i. unfold node_share.
  assert (S : forall t, 0 <= spline2 t).
  { intros t. unfold spline2. destruct (Rle_dec (Rabs t) (1 / 2)) as [L|].
    - assert (t ^ 2 <= (1 / 2) ^ 2) by (rewrite <- (pow2_abs t); apply pow_incr; split; [apply Rabs_pos|auto]). lra.
    - destruct (Rle_dec _ _); [|lra]. pose proof (pow2_ge_0 (3 / 2 - Rabs t)). lra. }
  pose proof (S (r_ p / h - INR i)). pose proof (S (r_ p / h + INR i)). pose proof (S (r_ p / h - (2 * INR (n - 1) - INR i))).
  destruct (i =? 0)%nat, (i =? n - 1)%nat; lra.
Qed.
Print Assumptions C25_shares_sum_to_one.
Theorem C25_total_charge : forall h ppc n l, 0 < h -> (2 <= n)%nat -> (forall p, In p l -> inside2 h n p) ->
  let v := cell_volume h ppc n in grid_total n v (d_rho (per_volume v (deposit2 h n l))) = total_of qs_charge l.
Proof. exact rhoj_total. Qed.
Print Assumptions C25_total_charge.
(** rho - j_z adds up to the charge, whatever the momenta, when no cloud reaches the wall node (there j_z
    is overwritten by 0) *)
Theorem C25_total_charge_minus_current : forall h ppc n l, 0 < h -> (2 <= n)%nat ->
  (forall p, In p l -> 0 <= r_ p /\ r_ p / h < INR n - 5 / 2 /\ m_ p <> 0) ->
  let v := cell_volume h ppc n in let d := per_volume v (deposit2 h n l) in
  grid_total n v (fun i => d_rho d i - d_jz d i) = total_of q_ l.
Proof. exact rhoj_total_minus. Qed.
Print Assumptions C25_total_charge_minus_current.
(** nothing is written past the end of the arrays *)
Theorem C25_stays_in_the_arrays : forall h n l i, 0 < h -> (2 <= n)%nat -> (forall p, In p l -> inside2 h n p) -> (n <= i)%nat ->
  let d := deposit2 h n l in d_rho d i = 0 /\ d_jr d i = 0 /\ d_jf d i = 0 /\ d_jz d i = 0.
Proof. exact rhoj_outside. Qed.
Print Assumptions C25_stays_in_the_arrays.
(** but the condition "in the cell of a node" can fail for the initial plasma itself: a window of 2.6
    cells has 3 nodes and its outermost particle writes at index 3. *)
Theorem C25_initial_plasma_stays_in_the_arrays_refuted :
  ~ (forall w h ppc, 0 < h -> h <= w -> (1 <= ppc)%nat -> let n := S (Z.to_nat (floorR (w / h))) in
      forall p, In p (init_electrons w h ppc (fun _ => 1) 0) -> forall i, (n <= i)%nat -> d_rho (deposit2 h n [p]) i = 0).
Proof.
  intros H. destruct overrun as (p & Hp & Hne). specialize (H 2.6 1 10%nat ltac:(lra) ltac:(lra) ltac:(lia)).
  assert (F : floorR (2.6 / 1) = 2%Z) by (apply floor_unique; lra). rewrite F in H. cbn zeta in H. apply Hne. apply (H p Hp). cbn. lia.
Qed.
Print Assumptions C25_initial_plasma_stays_in_the_arrays_refuted.
Theorem C25_initial_plasma_stays_when_narrow : forall w h ppc coef lim, 0 < h -> h <= w -> (1 <= ppc)%nat -> w / h - IZR (floorR (w / h)) < 1 / 2 ->
  forall p, In p (init_electrons w h ppc coef lim) -> inside2 h (S (Z.to_nat (floorR (w / h)))) p.
Proof. intros. eapply electron_inside; eauto. Qed.
Print Assumptions C25_initial_plasma_stays_when_narrow.
Definition ex_p : pl2 := mkPl 1.2 0.3 0.1 0.2 (-1) 1 0.
Example C25_nonvacuous : inside2 1 5 ex_p /\ 0 <= r_ ex_p /\ r_ ex_p / 1 < INR 5 - 5 / 2 /\ m_ ex_p <> 0.
Proof. unfold inside2, ex_p. cbn. lra. Qed.

(** ** C26 *)
Theorem C26_stays_in_the_window : forall c f amp X p, 0 < g_rmax c ->
  let p' := fst (move_one2 c f amp X p) in
  0 <= r_ p' <= g_rmax c /\ m_ p' = m_ p /\
  (q_ p' = q_ p \/ (r_ p' = g_rmax c / 2 /\ pr_ p' = 0 /\ pf_ p' = 0 /\ pz_ p' = 0 /\ q_ p' = 0)).
Proof. intros c f amp X p H. exact (move_one2_cases c f amp X p H). Qed.
Print Assumptions C26_stays_in_the_window.
(** A removed particle is never moved again. *)
Theorem C26_removed_particles_stay : forall fuel step h X p, 0 < X -> q_ p = 0 -> sub_loop fuel step h X p 0 X = Some p.
Proof.
  intros fuel step h X p HX Hq. destruct fuel; cbn [sub_loop]; (destruct (Rle_dec 0 (0.99999 * X)); [|lra]; destruct (Req_EM_T (q_ p) 0); [reflexivity|lra]).
Qed.
Print Assumptions C26_removed_particles_stay.
(** Without fields a particle that stays inside moves along a straight line: its new radius, radial
    momentum and angular momentum are those of the point (r + p_r dl, p_f dl). *)
Theorem C26_free_particle_moves_straight : forall c f X p, (2 <= g_n c)%nat -> 0 < g_h c ->
  (forall i, (i < g_n c)%nat -> f_er f i = 0 /\ f_ef f i = 0 /\ f_ez f i = 0 /\ f_bf f i = 0) -> (forall i, (i < g_n c)%nat -> f_bz f i = 0) ->
  0 < X -> m_ p <> 0 -> 0 <= r_ p <= g_rmax c ->
  let dl := X / (gm_of p - pz_ p) in
  let x := r_ p + pr_ p * dl in let y := pf_ p * dl in let rn := sqrt (x ^ 2 + y ^ 2) in
  r_ p + pr_ p * dl / 2 <= g_rmax c -> - (g_rmax c) <= r_ p + pr_ p * dl / 2 -> rn <= g_rmax c ->
  let p' := fst (move_one2 c f (fun _ => 0) X p) in
  r_ p' = rn /\ pz_ p' = pz_ p /\ q_ p' = q_ p /\ m_ p' = m_ p /\
  (0 < rn -> pr_ p' * rn = pr_ p * x + pf_ p * y /\ pf_ p' * rn = r_ p * pf_ p).
Proof. intros c f X p H1 H2 H3 H4 H5 H6 H7. exact (free_step c f X p (conj H1 H2) H3 H4 H5 H6 H7). Qed.
Print Assumptions C26_free_particle_moves_straight.
(** The same for a whole layer, any number of substeps and corrections: no particle is lost or created,
    none leaves the window, masses stay and charges stay or become 0. *)
Theorem C26_layer_keeps_particles : forall fuel s rb st st', 0 < g_rmax (v_c s) -> 0 < v_xi s -> step_dxi2 fuel s rb st = Some st' ->
  let keeps := fun p p' => (0 <= r_ p <= g_rmax (v_c s) -> 0 <= r_ p' <= g_rmax (v_c s)) /\ m_ p' = m_ p /\ (q_ p' = q_ p \/ q_ p' = 0) in
  Forall2 keeps (electrons (parts st)) (electrons (parts st')) /\ Forall2 keeps (ion_list (parts st)) (ion_list (parts st')).
Proof. intros fuel s rb st st' H1 H2 H3. exact (step_dxi2_kept fuel s rb st st' H1 H2 H3). Qed.
Print Assumptions C26_layer_keeps_particles.
Example C26_nonvacuous : let c := mkC2 5 1 4 0 in (2 <= g_n c)%nat /\ 0 < g_h c /\ 0 < g_rmax c /\ m_ ex_p <> 0 /\ 0 <= r_ ex_p <= g_rmax c.
Proof. cbn. repeat split; try lra; lia. Qed.

(** ** C27.  One particle: the loop always ends; the accepted substeps are X/2^k, each moved the
    particle less than a cell or was at most X/10^4, and they add up to exactly X unless the particle
    was removed. *)
Theorem C27_substeps_cover_the_step : forall fuel step h X p p', 0 < X -> sub_loop fuel step h X p 0 X = Some p' ->
  exists ds, Steps step h X p ds p' /\ Forall (fun d => exists k, (k <= 14)%nat /\ d = X / 2 ^ k) ds /\
    (q_ p' = 0 \/ sumR ds = X) /\ sumR ds <= X.
Proof.
  intros fuel step h X p p' HX E. rewrite (sub_loop_start step h X p fuel HX) in E.
  destruct (sub_loop_ok step h X HX fuel p 0 0 p' ltac:(lia) ltac:(cbn; lia) E) as (ds & A & B & C & D).
  replace (INR 0 * (X / 2 ^ 0)) with 0 in * by (cbn; lra). exists ds. repeat split; auto; [destruct C; [now left|right; lra]|lra].
Qed.
Print Assumptions C27_substeps_cover_the_step.
Theorem C27_terminates : forall fuel step h X p, 0 < X -> (14 + 2 ^ 14 <= fuel)%nat -> exists p', sub_loop fuel step h X p 0 X = Some p'.
Proof.
  intros fuel step h X p HX Hf. rewrite (sub_loop_start step h X p fuel HX). apply sub_loop_fuel; auto; try lia.
Qed.
Print Assumptions C27_terminates.
(** and so for every particle of a layer *)
Theorem C27_every_particle : forall fuel c f amp X l l', 0 < g_rmax c -> 0 < X -> move_list fuel c f amp X l = Some l' ->
  Forall2 (fun p p' => exists ds, Steps (move_one2 c (add_bz c f) amp) (g_h c) X p ds p' /\
     Forall (fun d => exists k, (k <= 14)%nat /\ d = X / 2 ^ k) ds /\ (q_ p' = 0 \/ sumR ds = X)) l l'.
Proof.
  intros fuel c f amp X l l' H1 H2 H3. eapply F2_impl; [|exact (move_list_ok fuel c f amp X l l' H1 H2 H3)]. intros p p' (_ & H). exact H.
Qed.
Print Assumptions C27_every_particle.
Example C27_nonvacuous : exists p', sub_loop (14 + 2 ^ 14) (move_one2 (mkC2 5 1 4 0) zero_fields (fun _ => 0)) 1 0.01 ex_p 0 0.01 = Some p'.
Proof. apply C27_terminates; [lra|apply le_n]. Qed.

(** ** C28.  Whatever the test for too much moved charge answers and whatever a substep computes: the
    substeps are X/10^k with k at most the depth, in order, and add up to exactly X; the loop ends. *)
Lemma good0 : good (fun _ => 0%Z) 0. Proof. intros k Hk. lia. Qed.
Lemma left0 D : left D (fun _ => 0%Z) 0 = (10 ^ Z.of_nat D)%Z.
Proof. unfold left. rewrite Nat.sub_0_r. cbn. lia. Qed.
Theorem C28_substeps_cover_the_step : forall St need adv D X fuel (s s' : St),
  step_loop St need adv D fuel 0 (fun _ => 0%Z) X s = Some s' ->
  exists ds, Advances need adv (X / 10 ^ D) s ds s' /\ Forall (fun x => exists k, (k <= D)%nat /\ x = X / 10 ^ k) ds /\ sumR ds = X.
Proof.
  intros St need adv D X fuel s s' E.
  destruct (step_loop_ok St need adv D X fuel 0 (fun _ => 0%Z) X s s' ltac:(lia) good0 ltac:(cbn; lra) E) as (ds & A & B & C).
  exists ds. split; [exact A|]. split; [exact B|]. rewrite C, left0. unfold fin. rewrite <- pow_IZR. field. apply pow_nonzero. lra.
Qed.
Print Assumptions C28_substeps_cover_the_step.
Theorem C28_terminates : forall St need adv D X fuel (s : St),
  (forall x s, need x s <> None) -> (forall x s, adv x s <> None) -> (10 ^ D * (D + 1) + D <= fuel)%nat ->
  exists s', step_loop St need adv D fuel 0 (fun _ => 0%Z) X s = Some s'.
Proof.
  intros St need adv D X fuel s Hn Ha Hf. apply (step_loop_fuel St need adv D X Hn Ha fuel 0 (fun _ => 0%Z) X s ltac:(lia) good0 ltac:(cbn; lra)).
  rewrite left0, Nat.sub_0_r. apply Nat2Z.inj_le in Hf. rewrite Nat2Z.inj_add, Nat2Z.inj_mul, Nat2Z.inj_pow in Hf. exact Hf.
Qed.
Print Assumptions C28_terminates.
(** The 2D plasma: every layer ends, and is advanced by exactly the xi-step. *)
Theorem C28_plasma_layer : forall fuel s rb st st', step_dxi2 fuel s rb st = Some st' ->
  exists ds, Advances (need2 fuel s) (adv2 fuel s rb) (v_xi s / 10 ^ v_depth s) st ds st' /\
    Forall (fun x => exists k, (k <= v_depth s)%nat /\ x = v_xi s / 10 ^ k) ds /\ sumR ds = v_xi s.
Proof. exact step_dxi2_substeps. Qed.
Print Assumptions C28_plasma_layer.
Theorem C28_plasma_layer_terminates : forall fuel s rb st, (14 + 2 ^ 14 <= fuel)%nat -> (10 ^ v_depth s * (v_depth s + 1) + v_depth s <= fuel)%nat ->
  0 < v_xi s -> v_path_lim s = 0 -> exists st', step_dxi2 fuel s rb st = Some st'.
Proof. intros fuel s rb st H1 H2. exact (step_dxi2_total fuel s rb st H1 H2). Qed.
Print Assumptions C28_plasma_layer_terminates.
(** With trapped-path-limit set, the first layer raises (solver.py:51 asks the dict of particles for q). *)
Theorem C28_any_configuration_terminates_refuted :
  ~ (forall s rb st, 0 < v_xi s -> exists fuel st', step_dxi2 fuel s rb st = Some st').
Proof.
  intros H. destruct (H (mkS2 (mkC2 5 1 4 0) 2 Mobile 0.01 0.1 3 10 false 2) zeros (mkP2 [] [], zero_fields, mkJ zero_dens zero_dens) ltac:(cbn; lra)) as (fuel & st' & E).
  unfold step_dxi2 in E. cbn [v_path_lim] in E. destruct (Req_EM_T 10 0); [lra|discriminate].
Qed.
Print Assumptions C28_any_configuration_terminates_refuted.
(** an oracle that refuses every step longer than X/10: ten substeps *)
Example C28_nonvacuous : exists s', step_loop nat (fun x _ => Some (if Rlt_dec 0.1 x then true else false)) (fun _ n => Some (S n)) 1 21 0 (fun _ => 0%Z) 1 0%nat = Some s'.
Proof. apply C28_terminates; try discriminate. cbn. lia. Qed.

(** ** C29 *)
(** Particle k of N sits at (k + 1/2) w/N, at rest, with the charge of the ring around it: minus the
    density coefficient times the area between k w/N and (k+1) w/N. *)
Theorem C29_particles_fill_the_window : forall w h ppc coef lim p, 0 < h -> h <= w -> (1 <= ppc)%nat ->
  let np := (Z.to_nat (floorR (w / h)) * ppc)%nat in
  In p (init_electrons w h ppc coef lim) -> exists k, (k < np)%nat /\
    let a := INR k * (w / INR np) in let b := INR (k + 1) * (w / INR np) in
    r_ p = (a + b) / 2 /\ q_ p = - (PI * (b ^ 2 - a ^ 2) * coef (r_ p)) /\ m_ p = - q_ p /\ pr_ p = 0 /\ pf_ p = 0 /\ pz_ p = 0.
Proof.
  intros w h ppc coef lim p Hh Hw Hp np Hin. unfold init_electrons, place_particles in Hin. fold np in Hin. apply filter_In in Hin. destruct Hin as [Hin _].
  rewrite map_map in Hin. apply in_map_iff in Hin. destruct Hin as (k & <- & Hk). apply in_seq in Hk. exists k. split; [lia|]. cbn zeta.
  assert (Hnp : (0 < np)%nat) by lia. apply lt_0_INR in Hnp. cbn [r_ q_ m_ pr_ pf_ pz_]. rewrite plus_INR. cbn [INR].
  replace 0.5 with (/ 2) by lra. repeat split.
  - field. lra.
  - replace (PI * (((INR k + 1) * (w / INR np)) ^ 2 - (INR k * (w / INR np)) ^ 2)) with (2 * PI * (w / INR np) * ((INR k + / 2) * (w / INR np))) by (field; lra). ring.
  - ring.
Qed.
Print Assumptions C29_particles_fill_the_window.
(** and all of them are there when the coefficient does not vanish *)
Theorem C29_every_ring_has_a_particle : forall w h ppc coef lim k, 0 < h -> h <= w -> (1 <= ppc)%nat ->
  let np := (Z.to_nat (floorR (w / h)) * ppc)%nat in
  (k < np)%nat -> coef ((INR k + / 2) * (w / INR np)) <> 0 -> exists p, In p (init_electrons w h ppc coef lim) /\ r_ p = (INR k + / 2) * (w / INR np).
Proof.
  intros w h ppc coef lim k Hh Hw Hp np Hk Hc.
  assert (Hw0 : 0 < w) by lra. assert (Hnp : (0 < np)%nat) by lia. apply lt_0_INR in Hnp. pose proof PI_RGT_0. pose proof (pos_INR k).
  assert (Hd : 0 < w / INR np) by (apply Rdiv_lt_0_compat; auto).
  set (dr := w / INR np) in *. set (r := (INR k + 0.5) * dr). assert (Hr : r = (INR k + / 2) * dr) by (unfold r; lra). assert (0 < r) by (unfold r; nra).
  exists (mkPl r 0 0 0 (- (2 * PI * dr * r) * coef r) (2 * PI * dr * r * coef r) (if Rlt_dec 0 lim then lim else 0)). split; [|exact Hr].
  unfold init_electrons, place_particles. fold np. fold dr. apply filter_In. split.
  - rewrite map_map. apply in_map_iff. exists k. split; [reflexivity|]. apply in_seq. lia.
  - cbn [q_]. rewrite <- Hr in Hc. destruct (Req_EM_T _ 0) as [E|]; [|reflexivity]. exfalso. clearbody r. clearbody dr.
    apply Rmult_integral in E. destruct E as [E|E]; [|auto]. assert (0 < 2 * PI * dr * r) by (apply Rmult_lt_0_compat; [apply Rmult_lt_0_compat; [lra|auto]|auto]). lra.
Qed.
Print Assumptions C29_every_ring_has_a_particle.
(** mobile ions: one per electron, in the same place, opposite charge, at rest *)
Theorem C29_mobile_ions_pair_up : forall w h ppc coef lim mass,
  let ps := parts (fst (init_mobile w h ppc coef lim mass)) in
  Forall2 (fun e i => r_ i = r_ e /\ q_ i = - q_ e /\ m_ i = mass * q_ i /\ pr_ i = 0 /\ pf_ i = 0 /\ pz_ i = 0) (electrons ps) (ion_list ps).
Proof.
  intros. unfold ps, init_mobile. cbn [fst parts electrons ion_list]. induction (init_electrons w h ppc coef lim); cbn [map]; constructor; auto. cbn. auto 10.
Qed.
Print Assumptions C29_mobile_ions_pair_up.
(** Neutral at every node, for every profile, both with fixed and with mobile ions; and no currents. *)
Theorem C29_neutral : forall w h ppc coef lim, 0 < h -> h <= w -> (1 <= ppc)%nat -> w / h - IZR (floorR (w / h)) < 1 / 2 ->
  let n := S (Z.to_nat (floorR (w / h))) in
  let no_charge := fun c => forall i, (i < n)%nat -> d_rho (row_e c) i + d_rho (row_i c) i = 0 /\ d_jr (row_e c) i = 0 /\ d_jr (row_i c) i = 0 /\
     d_jf (row_e c) i = 0 /\ d_jf (row_i c) i = 0 /\ d_jz (row_e c) i = 0 /\ d_jz (row_i c) i = 0 in
  (let '(st, im) := init_background w h ppc coef lim in no_charge (compute_rhoj h ppc n im (parts st)) /\ no_charge (snd st)) /\
  (forall mass, mass <> 0 -> let '(st, im) := init_mobile w h ppc coef lim mass in no_charge (compute_rhoj h ppc n im (parts st)) /\ no_charge (snd st)).
Proof.
  intros w h ppc coef lim H1 H2 H3 H4 n nc. split.
  - pose proof (neutral_background w h ppc coef lim H1 H2 H3 H4 n eq_refl) as A. destruct (init_background w h ppc coef lim) as [st im]. exact A.
  - intros mass Hm. pose proof (neutral_mobile w h ppc coef lim H1 H2 H3 H4 n mass eq_refl Hm) as A. destruct (init_mobile w h ppc coef lim mass) as [st im]. exact A.
Qed.
Print Assumptions C29_neutral.
(** Without a beam and without declustering the initial plasma never moves: any number of layers, any
    substepping depth and number of corrections. *)
Theorem C29_plasma_without_beam_stays : forall w h ppc coef bz xi sens depth corr rb k fuel,
  0 < h -> h <= w -> (1 <= ppc)%nat -> w / h - IZR (floorR (w / h)) < 1 / 2 -> 0 < xi -> 0 <= sens -> (1 <= fuel)%nat ->
  let n := S (Z.to_nat (floorR (w / h))) in (forall i, (i < n)%nat -> rb i = 0) ->
  let '(st, im) := init_background w h ppc coef 0 in
  exists st', run_layers (step_dxi2 fuel (solver_of w h ppc im bz xi sens depth corr false) rb) k st = Some st' /\ unchanged n st st'.
Proof.
  intros w h ppc coef bz xi sens depth corr rb k fuel H1 H2 H3 H4 H5 H6 H7 n Hb.
  pose proof (calm_background w h ppc coef bz xi sens depth corr false H1 H2 H3 H4) as C. destruct (init_background w h ppc coef 0) as [st im].
  apply (run_calm fuel (solver_of w h ppc im bz xi sens depth corr false)); auto.
  split; [|exact H1]. cbn [solver_of v_c g_n].
  assert (1 <= floorR (w / h))%Z; [|lia]. destruct (Beam2D_Free.floorR_spec (w / h)) as [_ F]. apply Z.lt_succ_r, lt_IZR. unfold Z.succ. rewrite plus_IZR.
  assert (1 <= w / h) by (apply (Rmult_le_reg_r h); [auto|]; unfold Rdiv; rewrite Rmult_assoc, Rinv_l by lra; lra). lra.
Qed.
Print Assumptions C29_plasma_without_beam_stays.
Theorem C29_mobile_plasma_without_beam_stays : forall w h ppc coef mass bz xi sens depth corr rb k fuel,
  0 < h -> h <= w -> (1 <= ppc)%nat -> w / h - IZR (floorR (w / h)) < 1 / 2 -> mass <> 0 -> 0 < xi -> 0 <= sens -> (1 <= fuel)%nat ->
  let n := S (Z.to_nat (floorR (w / h))) in (forall i, (i < n)%nat -> rb i = 0) ->
  let '(st, im) := init_mobile w h ppc coef 0 mass in
  exists st', run_layers (step_dxi2 fuel (solver_of w h ppc im bz xi sens depth corr false) rb) k st = Some st' /\ unchanged n st st'.
Proof.
  intros w h ppc coef mass bz xi sens depth corr rb k fuel H1 H2 H3 H4 Hm H5 H6 H7 n Hb.
  pose proof (calm_mobile w h ppc coef mass bz xi sens depth corr false H1 H2 H3 H4 Hm) as C. destruct (init_mobile w h ppc coef 0 mass) as [st im].
  apply (run_calm fuel (solver_of w h ppc im bz xi sens depth corr false)); auto.
  split; [|exact H1]. cbn [solver_of v_c g_n].
  assert (1 <= floorR (w / h))%Z; [|lia]. destruct (Beam2D_Free.floorR_spec (w / h)) as [_ F]. apply Z.lt_succ_r, lt_IZR. unfold Z.succ. rewrite plus_IZR.
  assert (1 <= w / h) by (apply (Rmult_le_reg_r h); [auto|]; unfold Rdiv; rewrite Rmult_assoc, Rinv_l by lra; lra). lra.
Qed.
Print Assumptions C29_mobile_plasma_without_beam_stays.
(** The density of a uniform plasma is exactly 1 away from the wall: at every inner node whatever the
    number of particles per cell, and at the two nodes next to the axis when it is even. *)
Theorem C29_uniform_density_inside : forall h M P lim, 0 < h -> (1 <= M)%nat -> (1 <= P)%nat -> forall j, (2 <= j)%nat -> (j + 3 <= S M)%nat ->
  d_rho (per_volume (cell_volume h P (S M)) (deposit2 h (S M) (init_electrons (INR M * h) h P (fun _ => 1) lim))) j = -1.
Proof. exact uniform_inner. Qed.
Print Assumptions C29_uniform_density_inside.
Theorem C29_uniform_density_on_the_axis : forall h M Q lim, 0 < h -> (3 <= M)%nat -> (1 <= Q)%nat -> forall j, (j <= 1)%nat ->
  d_rho (per_volume (cell_volume h (2 * Q) (S M)) (deposit2 h (S M) (init_electrons (INR M * h) h (2 * Q) (fun _ => 1) lim))) j = -1.
Proof. exact uniform_axis. Qed.
Print Assumptions C29_uniform_density_on_the_axis.
(** not at the wall, *)
Theorem C29_uniform_density_everywhere_refuted :
  ~ (forall h M P, 0 < h -> (3 <= M)%nat -> (1 <= P)%nat -> forall j, (j <= M)%nat ->
      d_rho (per_volume (cell_volume h P (S M)) (deposit2 h (S M) (init_electrons (INR M * h) h P (fun _ => 1) 0))) j = -1).
Proof. intros H. pose proof wall_density as W. rewrite (H 1 3%nat 2%nat ltac:(lra) ltac:(lia) ltac:(lia) 3%nat ltac:(lia)) in W. lra. Qed.
Print Assumptions C29_uniform_density_everywhere_refuted.
(** and not on the axis with one particle per cell. *)
Theorem C29_uniform_density_on_the_axis_odd_refuted :
  ~ (forall h M P, 0 < h -> (3 <= M)%nat -> (1 <= P)%nat -> forall j, (j <= 1)%nat ->
      d_rho (per_volume (cell_volume h P (S M)) (deposit2 h (S M) (init_electrons (INR M * h) h P (fun _ => 1) 0))) j = -1).
Proof. intros H. destruct dens_ne0 as (W & _). rewrite (H 1 3%nat 1%nat ltac:(lra) ltac:(lia) ltac:(lia) 0%nat ltac:(lia)) in W. lra. Qed.
Print Assumptions C29_uniform_density_on_the_axis_odd_refuted.
(** With declustering switched on the initial plasma moves in the first step although it is neutral and
    there are no fields. *)
Theorem C29_declustering_leaves_the_initial_plasma_alone_refuted :
  ~ (forall c cur X p, 0 < X -> cur = snd (fst (init_background (INR 3 * 1) 1 1 (fun _ => 1) 0)) -> c = mkC2 4 1 3 0 ->
       In p (init_electrons (INR 3 * 1) 1 1 (fun _ => 1) 0) -> pr_ (fst (move_one2 c zero_fields (noise_amplitude 4 cur true) X p)) = 0).
Proof.
  intros H. destruct declustering_moves as (p & Hp & Hne). apply Hne. apply H; auto. lra.
Qed.
Print Assumptions C29_declustering_leaves_the_initial_plasma_alone_refuted.
Example C29_nonvacuous : (3.2 : R) / 1 - IZR (floorR (3.2 / 1)) < 1 / 2.
Proof. assert (F : floorR (3.2 / 1) = 3%Z) by (apply floor_unique; lra). rewrite F. lra. Qed.
