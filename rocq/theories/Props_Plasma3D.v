(** Theorems C30-C32: the 3D plasma mover, deposition and field solvers. *)
From Coq Require Import Reals ZArith List Bool Lra Lia Psatz.
From Verif Require Import Beam2D_Model Beam2D_Spec Beam2D_Free Plasma2D_Model Plasma2D_Ode Shape_Model Shape_Spec Shape_Proofs
  Plasma3D_Model Plasma3D_Spec Plasma3D_Move Plasma3D_Push Spectral Fields3D_Proofs Fields3D_Unique Fields3D_Top.
Import ListNotations.
Open Scope R_scope.

(** C30.  One layer, whatever the fields, beams and noise filter: each electron keeps its charge and
    ends strictly inside the wall, or has lost its charge; nothing else about it changes but offset
    and momentum. *)
Theorem C30_charged_electrons_inside : forall average s rf rp st i j,
  let p := el (fst (fst st)) i j in let p' := el (fst (fst (step_dxi3 average s rf rp st))) i j in
  same_particle p p' /\ (t_q p' = 0 \/ (t_q p' = t_q p /\ within (u_b s) p')).
Proof.
  intros av s rf rp [[pp fp] cp] i j. cbn [fst]. destruct (step_parts av s rf rp pp fp cp) as (f1 & f2 & f3 & H).
  destruct (H i j) as (_ & _ & (mx & my & cx & cy & E) & _). clear H. cbn zeta in E. rewrite E. clear E.
  set (l := layer1 _ _ _ _ f1 f2 f3 (el pp i j)).
  assert (S := layer1_same (Z.of_nat (u_n s)) (u_h s) (u_b s) (u_xi s) f1 f2 f3 (el pp i j)). fold l in S.
  assert (C := layer1_charge (Z.of_nat (u_n s)) (u_h s) (u_b s) (u_xi s) f1 f2 f3 (el pp i j)). cbn zeta in C. fold l in C.
  assert (D : t_q l = 0 \/ (t_q l = t_q (el pp i j) /\ within (u_b s) l)).
  { destruct C as [[A B]|[[A [B D]]|[A B]]]; [left; rewrite B, free_q; auto|right; auto|left; apply B]. }
  destruct (u_decl s); cbn; [split; [exact S|exact D]|split; [exact S|exact D]].
Qed.
Print Assumptions C30_charged_electrons_inside.
Theorem C30_charged_ions_inside : forall average s rf rp st i j, u_ions s = Mobile3 ->
  let p := io (fst (fst st)) i j in let p' := io (fst (fst (step_dxi3 average s rf rp st))) i j in
  same_particle p p' /\ (t_q p' = 0 \/ (t_q p' = t_q p /\ within (u_b s) p')).
Proof.
  intros av s rf rp [[pp fp] cp] i j Hm. cbn [fst]. destruct (step_parts av s rf rp pp fp cp) as (f1 & f2 & f3 & H).
  destruct (H i j) as (_ & _ & _ & E). clear H. cbn zeta in E. rewrite Hm in E. rewrite E. clear E.
  set (l := layer1 _ _ _ _ f1 f2 f3 (io pp i j)).
  assert (S := layer1_same (Z.of_nat (u_n s)) (u_h s) (u_b s) (u_xi s) f1 f2 f3 (io pp i j)). fold l in S.
  assert (C := layer1_charge (Z.of_nat (u_n s)) (u_h s) (u_b s) (u_xi s) f1 f2 f3 (io pp i j)). cbn zeta in C. fold l in C.
  cbn zeta. split; [exact S|]. destruct C as [[A B]|[[A [B D]]|[A B]]]; [left; rewrite B, free_q; auto|right; auto|left; apply B].
Qed.
Print Assumptions C30_charged_ions_inside.

(** Without the noise filter, an electron that has lost its charge in a layer is at rest at its
    initial place, and is left alone in every later layer. *)
Theorem C30_absorbed_in_the_layer : forall average s rf rp st i j, u_decl s = false ->
  let p := el (fst (fst st)) i j in let p' := el (fst (fst (step_dxi3 average s rf rp st))) i j in
  t_q p <> 0 -> t_q p' = 0 -> absorbed p'.
Proof.
  intros av s rf rp [[pp fp] cp] i j Hd. cbn [fst]. destruct (step_parts av s rf rp pp fp cp) as (f1 & f2 & f3 & H).
  destruct (H i j) as (_ & E & _). clear H. cbn zeta in E. rewrite (E Hd). clear E. intros Hq Hq'.
  destruct (layer1_charge (Z.of_nat (u_n s)) (u_h s) (u_b s) (u_xi s) f1 f2 f3 (el pp i j)) as [[A B]|[[A [B D]]|[A B]]]; [tauto|congruence|auto].
Qed.
Print Assumptions C30_absorbed_in_the_layer.
Theorem C30_absorbed_forever : forall average s beams st i j, u_decl s = false ->
  absorbed (el (fst (fst st)) i j) -> el (fst (fst (run3 average s beams st))) i j = el (fst (fst st)) i j.
Proof.
  intros av s beams. induction beams as [|[rf rp] beams IH]; intros st i j Hd Ha; cbn [run3]; [reflexivity|].
  assert (E : el (fst (fst (step_dxi3 av s rf rp st))) i j = el (fst (fst st)) i j).
  { destruct st as [[pp fp] cp]. cbn [fst] in *. destruct (step_parts av s rf rp pp fp cp) as (f1 & f2 & f3 & H).
    destruct (H i j) as (_ & E & _). cbn zeta in E. rewrite (E Hd). unfold absorbed in Ha. 
    destruct (layer1_charge (Z.of_nat (u_n s)) (u_h s) (u_b s) (u_xi s) f1 f2 f3 (el pp i j)) as [[A B]|[[A _]|[A _]]]; try tauto.
    rewrite B. apply free_absorbed; tauto. }
  rewrite IH; auto. now rewrite E.
Qed.
Print Assumptions C30_absorbed_forever.
(** After any number of layers (at least one): charge is the initial one or none, and the charged
    ones are inside. *)
Theorem C30_run_inside : forall average s beams st i j, beams <> [] ->
  let p := el (fst (fst st)) i j in let p' := el (fst (fst (run3 average s beams st))) i j in
  same_particle p p' /\ (t_q p' = 0 \/ (t_q p' = t_q p /\ within (u_b s) p')).
Proof.
  intros av s beams. induction beams as [|[rf rp] beams IH]; intros st i j Hn; [tauto|]. cbn [run3].
  destruct (C30_charged_electrons_inside av s rf rp st i j) as [S1 Q1]. cbn zeta in S1, Q1. destruct beams as [|b beams]; [cbn [run3]; auto|].
  specialize (IH (step_dxi3 av s rf rp st) i j ltac:(discriminate)). cbn zeta in IH. destruct IH as [S2 Q2]. cbn zeta.
  split; [eapply same_trans; eauto|]. destruct Q2 as [Q2|[Q2 W]]; [auto|]. destruct Q1 as [Q1|[Q1 _]]; [left; congruence|right; split; [congruence|auto]].
Qed.
Print Assumptions C30_run_inside.

(** How one move goes: when the middle of the step is inside the wall, the particle makes one
    midpoint step of dp/dxi = q (E + v x B)/(1 - vz), dx/dxi = vx/(1 - vz) in the fields
    interpolated at the middle. *)
Theorem C30_midpoint_motion : forall n h b X f prev full,
  let mx := t_x0 prev + (t_dx prev + t_dx full) / 2 in let my := t_y0 prev + (t_dy prev + t_dy full) / 2 in
  let EB := field_at n h f mx my in
  let '(dx, dy, (px, py, pz)) := midpoint_step (t_m full) (t_q full) X (fst EB) (snd EB) (t_dx prev) (t_dy prev) (mom prev) in
  t_q full <> 0 -> t_m full <> 0 -> Rabs mx <= b -> Rabs my <= b -> inside (Z.of_nat n) h mx -> inside (Z.of_nat n) h my ->
  Rabs (t_x0 prev + dx) < b -> Rabs (t_y0 prev + dy) < b ->
  let p := move_smart1 (Z.of_nat n) h b X f prev full in
  t_dx p = dx /\ t_dy p = dy /\ t_px p = px /\ t_py p = py /\ t_pz p = pz /\ t_q p = t_q full /\ same_particle full p.
Proof.
  intros n h b X f prev full mx my EB. destruct (midpoint_step _ _ _ _ _ _ _ _) as [[dx dy] [[px py] pz]] eqn:E.
  intros Hq Hm Hx Hy Ix Iy Ax Ay.
  assert (A := smart_inside n h b X f prev full Hq Hm Hx Hy Ix Iy). fold mx my EB in A. rewrite E in A. cbn [fst snd] in A. rewrite A by auto.
  unfold pushed, same_particle. cbn. auto 10.
Qed.
Print Assumptions C30_midpoint_motion.
(** A step ending beyond the wall: mirrored at the wall (once per side), with all momentum lost; if
    the mirror image is not inside either, the particle is absorbed. *)
Theorem C30_wall_mirrors_and_stops : forall n h b X f prev full, 0 < b ->
  let mx := t_x0 prev + (t_dx prev + t_dx full) / 2 in let my := t_y0 prev + (t_dy prev + t_dy full) / 2 in
  let EB := field_at n h f mx my in
  let '(dx, dy, _) := midpoint_step (t_m full) (t_q full) X (fst EB) (snd EB) (t_dx prev) (t_dy prev) (mom prev) in
  t_q full <> 0 -> t_m full <> 0 -> Rabs mx <= b -> Rabs my <= b -> inside (Z.of_nat n) h mx -> inside (Z.of_nat n) h my ->
  t_x0 full = t_x0 prev -> t_y0 full = t_y0 prev ->
  Rabs (t_y0 prev + dy) < b -> b < Rabs (t_x0 prev + dx) ->
  let p := move_smart1 (Z.of_nat n) h b X f prev full in
  (b < t_x0 prev + dx < 3 * b -> at_x p = 2 * b - (t_x0 prev + dx) /\ at_y p = t_y0 prev + dy /\ mom p = (0, 0, 0) /\ t_q p = t_q full) /\
  (- (3 * b) < t_x0 prev + dx < - b -> at_x p = - (2 * b) - (t_x0 prev + dx) /\ at_y p = t_y0 prev + dy /\ mom p = (0, 0, 0) /\ t_q p = t_q full) /\
  (t_x0 prev + dx = 3 * b \/ 5 * b <= t_x0 prev + dx \/ t_x0 prev + dx <= - (3 * b) -> absorbed p).
Proof.
  intros n h b X f prev full Hb mx my EB. destruct (midpoint_step _ _ _ _ _ _ _ _) as [[dx dy] [[px py] pz]] eqn:E.
  intros Hq Hm Hx Hy Ix Iy Sx Sy Ay Ax.
  assert (A := smart_mirror n h b X f prev full Hq Hm Hx Hy Ix Iy Hb). fold mx my EB in A. rewrite E in A. cbn [fst snd] in A. cbn zeta. rewrite A by auto. clear A.
  rewrite (no_reflect b (t_y0 prev + dy)) by lra. cbn [fst]. rewrite reflect1_val by auto. set (x := t_x0 prev + dx) in *.
  assert (Ab : absorbed (mkT (t_x0 full) (t_y0 full) 0 0 0 0 0 0 (t_m full) (t_cx full) (t_cy full))) by (unfold absorbed; cbn; auto 10).
  assert (Pu : forall z, within b (pushed full (z - t_x0 prev) (t_y0 prev + dy - t_y0 prev) (0, 0, 0)) -> 
     at_x (pushed full (z - t_x0 prev) (t_y0 prev + dy - t_y0 prev) (0, 0, 0)) = z /\ at_y (pushed full (z - t_x0 prev) (t_y0 prev + dy - t_y0 prev) (0, 0, 0)) = t_y0 prev + dy).
  { intros z _. unfold at_x, at_y, pushed. cbn. rewrite Sx, Sy. split; ring. }
  assert (Wi : forall z, Rabs z < b -> within b (pushed full (z - t_x0 prev) (t_y0 prev + dy - t_y0 prev) (0, 0, 0))).
  { intros z Hz. unfold within, at_x, at_y, pushed. cbn. rewrite Sx, Sy. replace (t_x0 prev + (z - t_x0 prev)) with z by ring.
    replace (t_y0 prev + (t_y0 prev + dy - t_y0 prev)) with (t_y0 prev + dy) by ring. auto. }
  split; [|split]; intros Hc.
  - destruct (Rle_dec (- b) x); [|lra]. destruct (Rle_dec x b); [lra|]. destruct (Rle_dec x (3 * b)); [|lra]. cbn [fst].
    assert (Z : Rabs (2 * b - x) < b) by (apply Rabs_def1; lra). destruct (Rlt_dec (Rabs (2 * b - x)) b); [|tauto]. destruct (Rlt_dec (Rabs (t_y0 prev + dy)) b); [|tauto].
    destruct (Pu _ (Wi _ Z)) as [P1 P2]. rewrite P1, P2. auto.
  - destruct (Rle_dec (- b) x); [lra|]. cbn [fst].
    assert (Z : Rabs (-2 * b - x) < b) by (apply Rabs_def1; lra). destruct (Rlt_dec (Rabs (-2 * b - x)) b); [|tauto]. destruct (Rlt_dec (Rabs (t_y0 prev + dy)) b); [|tauto].
    destruct (Pu _ (Wi _ Z)) as [P1 P2]. rewrite P1, P2. split; [ring|auto].
  - match goal with |- context [Rlt_dec (Rabs ?z) b] => assert (Z : b <= Rabs z) end.
    { destruct Hc as [Hc|[Hc|Hc]].
      - destruct (Rle_dec (- b) x); [|lra]. destruct (Rle_dec x b); [lra|]. destruct (Rle_dec x (3 * b)); [|lra]. cbn [fst]. rewrite Rabs_left; lra.
      - destruct (Rle_dec (- b) x); [|lra]. destruct (Rle_dec x b); [lra|]. destruct (Rle_dec x (3 * b)); [lra|]. cbn [fst]. rewrite Rabs_right; lra.
      - destruct (Rle_dec (- b) x); [lra|]. cbn [fst]. rewrite Rabs_right; lra. }
    match goal with |- context [Rlt_dec (Rabs ?z) b] => destruct (Rlt_dec (Rabs z) b); [lra|exact Ab] end.
Qed.
Print Assumptions C30_wall_mirrors_and_stops.
(** The wall is not symmetric: a middle point between 3 and 5 half-widths out is brought back inside
    on the right, but not on the left, so fields are read outside the plasma region there. *)
Theorem C30_midpoint_always_brought_back_refuted :
  ~ (forall b x, 0 < b -> Rabs x <= 5 * b -> Rabs (fst (reflect1 b x)) <= b).
Proof.
  intros H. specialize (H 1 (-4) ltac:(lra)). rewrite reflect1_val in H by lra. destruct (Rle_dec (- (1)) (-4)); [lra|]. cbn [fst] in H.
  rewrite (Rabs_left (-4)) in H by lra. rewrite Rabs_right in H by lra. lra.
Qed.
Print Assumptions C30_midpoint_always_brought_back_refuted.
(** Exactly the middle points between 3 half-widths on the left and 5 on the right are brought back. *)
Theorem C30_midpoint_brought_back_iff : forall b x, 0 < b -> (Rabs (fst (reflect1 b x)) <= b <-> - (3 * b) <= x <= 5 * b).
Proof.
  intros b x Hb. split.
  - intros H. assert (- b <= fst (reflect1 b x) <= b) by (unfold Rabs in H; destruct (Rcase_abs _); lra).
    rewrite reflect1_val in * by lra. repeat destruct (Rle_dec _ _); cbn [fst] in *; lra.
  - intros Hx. apply Rabs_le. pose proof (reflect1_range b x Hb). lra.
Qed.
Print Assumptions C30_midpoint_brought_back_iff.

(** C31.  The weights. *)
Theorem C31_weights : forall x, - (1 / 2) <= x <= 1 / 2 ->
  (forall k, In k places -> 0 <= weight4 x k /\ weight4 x k = spline4 (IZR k - x)) /\
  weight4 x (-2) + weight4 x (-1) + weight4 x 0 + weight4 x 1 + weight4 x 2 = 1 /\
  -2 * weight4 x (-2) + -1 * weight4 x (-1) + 0 * weight4 x 0 + 1 * weight4 x 1 + 2 * weight4 x 2 = x.
Proof.
  intros x Hx. split; [intros k Hk; split; [now apply w4_pos|now apply w4_spline]|].
  pose proof (w4_sum x) as A. pose proof (w4_moment1 x) as B. unfold sum5 in *. split; lra.
Qed.
Print Assumptions C31_weights.
(** Density and currents in a cell: the sum over particles of q/(1 - vz) (times the velocity), spread
    by the spline and divided by the cell area. *)
Theorem C31_cell_values : forall n h l a b, h <> 0 -> let o := deposit_plasma n h l in
  c_ro o a b = cell_sum n h rho_of l a b /\ c_jx o a b = cell_sum n h (fun p => rho_of p * vx_of p) l a b /\
  c_jy o a b = cell_sum n h (fun p => rho_of p * vy_of p) l a b /\ c_jz o a b = cell_sum n h (fun p => rho_of p * vz_of p) l a b.
Proof. exact deposit_plasma_val. Qed.
Print Assumptions C31_cell_values.
Theorem C31_total_charge : forall n h l, h <> 0 -> (forall p, In p l -> t_m p <> 0) ->
  (forall p, In p l -> t_q p <> 0 -> inside (Z.of_nat n) h (at_x p) /\ inside (Z.of_nat n) h (at_y p)) ->
  let o := deposit_plasma (Z.of_nat n) h l in
  h ^ 2 * gsum n (fun a b => c_ro o a b - c_jz o a b) = sumR (map t_q l).
Proof. exact deposit_total. Qed.
Print Assumptions C31_total_charge.
(** After any layer: the returned currents contain exactly the charge of the returned electrons. *)
Theorem C31_layer_charge : forall average s pad rf rp st, 0 < u_h s -> Nat.odd (u_n s) = true -> (3 <= pad)%Z -> u_b s = wall (u_n s) (u_h s) pad ->
  (forall i j, t_m (el (fst (fst st)) i j) <> 0) ->
  let '(ps, _, c) := step_dxi3 average s rf rp st in
  u_h s ^ 2 * gsum (u_n s) (fun a b => c_ro (r_e c) a b - c_jz (r_e c) a b) = sumR (map t_q (ravel (K_ ps) (el ps))).
Proof.
  intros av s pad rf rp st Hh Ho Hp Hb Hm.
  assert (G : forall i j, let p' := el (fst (fst (step_dxi3 av s rf rp st))) i j in t_m p' <> 0 /\ (t_q p' <> 0 -> within (u_b s) p')).
  { intros i j. destruct (C30_charged_electrons_inside av s rf rp st i j) as [[_ [_ S]] Q]. cbn zeta in *. rewrite S. split; [apply Hm|tauto]. }
  assert (C : snd (step_dxi3 av s rf rp st) = compute_rhoj3 (Z.of_nat (u_n s)) (u_h s) (u_ions s) (fst (fst (step_dxi3 av s rf rp st)))).
  { destruct st as [[pp fp] cp]. unfold step_dxi3. destruct (compute_fields3 _ _ _ _ _ _ _ _ _ (compute_rhoj3 _ _ _ (move_smart s _ pp (move_smart _ _ _ _)))). reflexivity. }
  destruct (step_dxi3 av s rf rp st) as [[ps ff] c]. cbn [fst snd] in *. rewrite C. unfold compute_rhoj3. cbn [r_e].
  apply deposit_total; [lra| |].
  - intros p Hin. apply ravel_In in Hin. destruct Hin as (i & j & _ & _ & ->). apply G.
  - intros p Hin Hq. apply ravel_In in Hin. destruct Hin as (i & j & _ & _ & ->). apply (within_inside (u_n s) (u_h s) pad); auto; [lia|]. rewrite <- Hb. now apply G.
Qed.
Print Assumptions C31_layer_charge.
(** Every index touched is inside the arrays. *)
Theorem C31_indices_inside : forall average s pad rf rp st i j kx ky, 0 < u_h s -> Nat.odd (u_n s) = true -> (3 <= pad)%Z -> u_b s = wall (u_n s) (u_h s) pad ->
  let p := el (fst (fst (step_dxi3 average s rf rp st))) i j in t_q p <> 0 -> In kx places -> In ky places ->
  (0 <= cell (Z.of_nat (u_n s)) ((t_x0 p + t_dx p) / u_h s + 0.5) + kx < Z.of_nat (u_n s))%Z /\
  (0 <= cell (Z.of_nat (u_n s)) ((t_y0 p + t_dy p) / u_h s + 0.5) + ky < Z.of_nat (u_n s))%Z.
Proof.
  intros av s pad rf rp st i j kx ky Hh Ho Hp Hb p Hq Hkx Hky.
  destruct (C30_charged_electrons_inside av s rf rp st i j) as [_ Q]. cbn zeta in Q. fold p in Q. destruct Q as [Q|[_ W]]; [tauto|].
  rewrite Hb in W. destruct (within_inside (u_n s) (u_h s) pad p Hh Ho ltac:(lia) W) as [A B].
  split; [apply (inside_cell _ _ _ A); auto|apply (inside_cell _ _ _ B); auto].
Qed.
Print Assumptions C31_indices_inside.
(** Interpolation is exact for constant and linear fields. *)
Theorem C31_interpolation_linear : forall n h x y c0 c1 c2, inside (Z.of_nat n) h x -> inside (Z.of_nat n) h y ->
  gather_at (Z.of_nat n) h x y (fun i j => c0 + c1 * (INR i - IZR (Z.of_nat n / 2)) + c2 * (INR j - IZR (Z.of_nat n / 2))) = c0 + c1 * (x / h) + c2 * (y / h).
Proof. intros. rewrite gather_interpolate by auto. now apply interpolate_linear. Qed.
Print Assumptions C31_interpolation_linear.
(** Deposition and interpolation use the same shape: the force of the field a particle makes is the
    one on the particle (n x n grid sums against the same spline). *)
Theorem C31_interpolation_is_spline_sum : forall n h x y F, inside (Z.of_nat n) h x -> inside (Z.of_nat n) h y ->
  gather_at (Z.of_nat n) h x y F = gsum n (fun a b => F (Z.to_nat a) (Z.to_nat b) * shape (Z.of_nat n) h x y a b).
Proof. exact gather_interpolate. Qed.
Print Assumptions C31_interpolation_is_spline_sum.

(** C32.  Nodes 0..L in both directions.  Ez: minus the discrete Laplacian is minus the divergence of
    the current inside, 0 on the perimeter; and nothing else solves that. *)
Theorem C32_Ez : forall L h X coeff f fprev rbf rbp cprev cfull, (2 <= L)%nat -> h <> 0 ->
  let E := Ez (fst (compute_fields3 (L + 1) h X coeff f fprev rbf rbp cprev cfull)) in
  let solves := fun u : arr2 => (forall a, u a 0%nat = 0 /\ u a L = 0 /\ u 0%nat a = 0 /\ u L a = 0) /\
    forall i j, interior L i -> interior L j ->
      minus_laplacian h L u i j = - (cdx h (total3 c_jx cfull) i j + cdy h (total3 c_jy cfull) i j) in
  solves E /\ forall u, solves u -> forall i j, (i <= L)%nat -> (j <= L)%nat -> u i j = E i j.
Proof.
  intros L h X coeff f fprev rbf rbp cprev cfull HL Hh E solves. subst E solves.
  change (Ez (fst (compute_fields3 (L + 1) h X coeff f fprev rbf rbp cprev cfull))) with (calculate_Ez (L + 1) h (sum_sorts cfull)).
  rewrite Ez_solve by auto. cbn zeta beta. split; [split|].
  - intros a. rewrite !dirichlet_edge by auto. auto.
  - intros i j Hi Hj. rewrite dirichlet_ok by auto. rewrite Ez_rhs with (L := L) by auto. reflexivity.
  - intros u [U0 U1]. apply dirichlet_unique; auto. intros i j Hi Hj. rewrite U1 by auto. rewrite Ez_rhs with (L := L) by auto. reflexivity.
Qed.
Print Assumptions C32_Ez.
Theorem C32_Phi : forall L h X coeff f fprev rbf rbp cprev cfull, (2 <= L)%nat -> h <> 0 ->
  let P := Phi (fst (compute_fields3 (L + 1) h X coeff f fprev rbf rbp cprev cfull)) in
  let solves := fun u : arr2 => (forall a, u a 0%nat = 0 /\ u a L = 0 /\ u 0%nat a = 0 /\ u L a = 0) /\
    forall i j, interior L i -> interior L j -> minus_laplacian h L u i j = total3 c_ro cfull i j - total3 c_jz cfull i j in
  solves P /\ forall u, solves u -> forall i j, (i <= L)%nat -> (j <= L)%nat -> u i j = P i j.
Proof.
  intros L h X coeff f fprev rbf rbp cprev cfull HL Hh P solves. subst P solves.
  change (Phi (fst (compute_fields3 (L + 1) h X coeff f fprev rbf rbp cprev cfull))) with (calculate_Phi (L + 1) h (sum_sorts cfull)).
  rewrite Phi_solve by auto.
  assert (R : forall i j, interior L i -> interior L j -> inner (fun i j => s_ro (sum_sorts cfull) i j - s_jz (sum_sorts cfull) i j) (i - 1)%nat (j - 1)%nat =
     total3 c_ro cfull i j - total3 c_jz cfull i j).
  { unfold interior. intros i j Hi Hj. unfold inner. replace (i - 1 + 1)%nat with i by lia. replace (j - 1 + 1)%nat with j by lia. reflexivity. }
  cbn zeta beta. split; [split|].
  - intros a. rewrite !dirichlet_edge by auto. auto.
  - intros i j Hi Hj. rewrite dirichlet_ok by auto. now apply R.
  - intros u [U0 U1]. apply dirichlet_unique; auto. intros i j Hi Hj. rewrite U1 by auto. now rewrite R.
Qed.
Print Assumptions C32_Phi.
(** Bz: mirrored edges, zero sum, source = curl of the current less its mean. *)
Theorem C32_Bz : forall L h X coeff f fprev rbf rbp cprev cfull, (2 <= L)%nat -> h <> 0 ->
  let B := Bz (fst (compute_fields3 (L + 1) h X coeff f fprev rbf rbp cprev cfull)) in
  let curl := curl_j h L (total3 c_jx cfull) (total3 c_jy cfull) in
  let solves := fun u : arr2 => sumN (L + 1) (fun i => sumN (L + 1) (fun j => u i j)) = 0 /\
    forall i j, (i <= L)%nat -> (j <= L)%nat -> minus_laplacian h L u i j = curl i j - trapezoid_mean L curl in
  solves B /\ forall u, solves u -> forall i j, (i <= L)%nat -> (j <= L)%nat -> u i j = B i j.
Proof.
  intros L h X coeff f fprev rbf rbp cprev cfull HL Hh B curl solves. subst B solves.
  change (Bz (fst (compute_fields3 (L + 1) h X coeff f fprev rbf rbp cprev cfull))) with (calculate_Bz (L + 1) h (sum_sorts cfull)).
  cbn zeta beta. split; [split|].
  - apply Bz_mean; auto.
  - intros i j Hi Hj. rewrite Bz_ok by auto. reflexivity.
  - intros u [U0 U1]. apply Bz_unique; auto.
Qed.
Print Assumptions C32_Bz.
(** The mean of the curl is zero when no current flows in the two outer rings... *)
Theorem C32_Bz_source_mean_free : forall L h jx jy, (2 <= L)%nat -> h <> 0 ->
  (forall i j, (i <= L)%nat -> (j <= L)%nat -> (i <= 1 \/ L - 1 <= i \/ j <= 1 \/ L - 1 <= j)%nat -> jx i j = 0 /\ jy i j = 0) ->
  trapezoid_mean L (curl_j h L jx jy) = 0.
Proof. intros. now apply curl_mean. Qed.
Print Assumptions C32_Bz_source_mean_free.
(** ... and with the wall at least 4 cells from the window edge none does. *)
Theorem C32_outer_rings_empty : forall N h pad l (a b : nat), 0 < h -> Nat.odd N = true -> (4 <= pad)%Z ->
  (forall p, In p l -> t_q p = 0 \/ within (wall N h pad) p) -> (a < N)%nat -> (b < N)%nat ->
  (a <= 1 \/ N - 2 <= a \/ b <= 1 \/ N - 2 <= b)%nat ->
  let o := deposit_plasma (Z.of_nat N) h l in
  let z := fun g : grid => g (Z.of_nat a) (Z.of_nat b) = 0 in z (c_ro o) /\ z (c_jx o) /\ z (c_jy o) /\ z (c_jz o).
Proof.
  intros N h pad l a b Hh Ho Hp Hl Ha Hb Hab o z. subst z. cbn beta.
  destruct (deposit_plasma_val (Z.of_nat N) h l (Z.of_nat a) (Z.of_nat b) ltac:(lra)) as (A & B & C & D). fold o in A, B, C, D. rewrite A, B, C, D.
  assert (Z : forall f, (forall p, t_q p = 0 -> f p = 0) -> cell_sum (Z.of_nat N) h f l (Z.of_nat a) (Z.of_nat b) = 0).
  { intros f F0. unfold cell_sum. rewrite (sumR_map_ext _ (fun _ => 0 * 0)), sumR_map_scal; [ring|]. intros p Hin. destruct (Hl p Hin) as [Q|[W1 W2]].
    - rewrite F0 by auto. unfold Rdiv. ring.
    - unfold shape. assert (P4 : IZR 1 + 3 <= IZR pad) by (apply IZR_le in Hp; lra).
      assert (Z0 : spline4 (IZR (Z.of_nat a - Z.of_nat N / 2) - at_x p / h) = 0 \/ spline4 (IZR (Z.of_nat b - Z.of_nat N / 2) - at_y p / h) = 0).
      { destruct (le_lt_dec a 1); [left; apply (ring_empty N h pad _ 1); auto; lia|]. destruct (le_lt_dec (N - 2) a); [left; apply (ring_empty N h pad _ 1); auto; lia|].
        right. apply (ring_empty N h pad _ 1); auto; lia. }
      destruct Z0 as [Z0|Z0]; rewrite Z0; unfold Rdiv; ring. }
  assert (R0 : forall p, t_q p = 0 -> rho_of p = 0) by (intros p Hq; unfold rho_of; rewrite Hq; unfold Rdiv; ring).
  split; [apply Z; auto|]. split; [|split]; apply Z; intros p Hq; rewrite R0 by auto; ring.
Qed.
Print Assumptions C32_outer_rings_empty.

(** Transverse fields at the half step: E and B solve -Lap F + c F = source + c F_guess, with F = 0 on
    two opposite edges and mirrored at the other two. *)
Theorem C32_transverse : forall L h X coeff f fprev rbf rbp cprev cfull, (2 <= L)%nat -> h <> 0 -> 0 <= coeff ->
  let F := snd (compute_fields3 (L + 1) h X coeff f fprev rbf rbp cprev cfull) in
  let ro := fun i j => (total3 c_ro cfull i j + rbf i j + total3 c_ro cprev i j + rbp i j) / 2 in
  let jz := fun i j => (total3 c_jz cfull i j + rbf i j + total3 c_jz cprev i j + rbp i j) / 2 in
  let jx' := fun i j => (total3 c_jx cprev i j - total3 c_jx cfull i j) / X in
  let jy' := fun i j => (total3 c_jy cprev i j - total3 c_jy cfull i j) / X in
  (forall i j, (i <= L)%nat -> interior L j -> minus_laplacian h L (Ex F) i j + coeff * Ex F i j = - (inner_only L (cdx h ro) i j - jx' i j) + coeff * Ex f i j) /\
  (forall i j, interior L i -> (j <= L)%nat -> minus_laplacian h L (Ey F) i j + coeff * Ey F i j = - (inner_only L (cdy h ro) i j - jy' i j) + coeff * Ey f i j) /\
  (forall i j, interior L i -> (j <= L)%nat -> minus_laplacian h L (Bx F) i j + coeff * Bx F i j = inner_only L (cdy h jz) i j - jy' i j + coeff * Bx f i j) /\
  (forall i j, (i <= L)%nat -> interior L j -> minus_laplacian h L (By F) i j + coeff * By F i j = - (inner_only L (cdx h jz) i j - jx' i j) + coeff * By f i j) /\
  (forall a, Ex F a 0%nat = 0 /\ Ex F a L = 0 /\ By F a 0%nat = 0 /\ By F a L = 0 /\ Ey F 0%nat a = 0 /\ Ey F L a = 0 /\ Bx F 0%nat a = 0 /\ Bx F L a = 0).
Proof.
  intros L h X coeff f fprev rbf rbp cprev cfull HL Hh Hc F ro jz jx' jy'.
  destruct (tr_fields L h X coeff HL Hh Hc f rbf rbp (sum_sorts cfull) (sum_sorts cprev)) as (ex & ey & bx & b_y & E & H).
  assert (EF : Ex F = ex /\ Ey F = ey /\ Bx F = bx /\ By F = b_y) by (subst F; unfold compute_fields3; rewrite E; cbn [snd Ex Ey Bx By]; auto).
  destruct EF as (-> & -> & -> & ->). exact H.
Qed.
Print Assumptions C32_transverse.
(** When the guess was right the coefficient drops out: Poisson's equation. *)
Theorem C32_transverse_converged : forall L h X coeff f fprev rbf rbp cprev cfull, (2 <= L)%nat -> h <> 0 -> 0 <= coeff ->
  let F := snd (compute_fields3 (L + 1) h X coeff f fprev rbf rbp cprev cfull) in
  let ro := fun i j => (total3 c_ro cfull i j + rbf i j + total3 c_ro cprev i j + rbp i j) / 2 in
  let jx' := fun i j => (total3 c_jx cprev i j - total3 c_jx cfull i j) / X in
  (forall i j, (i <= L)%nat -> (j <= L)%nat -> Ex f i j = Ex F i j) ->
  forall i j, (i <= L)%nat -> interior L j -> minus_laplacian h L (Ex F) i j = - (inner_only L (cdx h ro) i j - jx' i j).
Proof.
  intros L h X coeff f fprev rbf rbp cprev cfull HL Hh Hc F ro jx' Heq i j Hi Hj.
  destruct (C32_transverse L h X coeff f fprev rbf rbp cprev cfull HL Hh Hc) as (A & _). cbn zeta in A. specialize (A i j Hi Hj).
  fold F in A. rewrite Heq in A by (unfold interior in *; lia). fold ro jx' in A. 
  match type of A with ?l + ?c = ?r + ?c => assert (l = r) by lra end. exact H.
Qed.
Print Assumptions C32_transverse_converged.
(** The transverse solve has only that solution (stated for Ey; the others are its transposes). *)
Theorem C32_transverse_unique : forall L h coeff rhs u, (2 <= L)%nat -> h <> 0 -> 0 <= coeff ->
  (forall a, (a <= L)%nat -> u 0%nat a = 0 /\ u L a = 0) ->
  (forall i j, interior L i -> (j <= L)%nat -> minus_laplacian h L u i j + coeff * u i j = rhs i j) ->
  forall i j, (i <= L)%nat -> (j <= L)%nat -> u i j = solve_mixed (L + 1) h coeff rhs i j.
Proof. intros L h coeff rhs u HL Hh Hc. now apply mixed_unique. Qed.
Print Assumptions C32_transverse_unique.
(** Half step fields are the averages of the two layers. *)
Theorem C32_half_is_average : forall L h X coeff f fprev rbf rbp cprev cfull i j,
  let '(full, half) := compute_fields3 (L + 1) h X coeff f fprev rbf rbp cprev cfull in
  let avg := fun F : fields3 -> arr2 => F half i j = (F full i j + F fprev i j) / 2 in
  avg Ex /\ avg Ey /\ avg Ez /\ avg Bx /\ avg By /\ avg Bz.
Proof.
  intros. unfold compute_fields3. destruct (calculate_Ex_Ey_Bx_By _ _ _ _ _ _ _ _ _) as [[[ex ey] bx] b_y]. cbn [Ex Ey Ez Bx By Bz].
  repeat split; lra.
Qed.
Print Assumptions C32_half_is_average.
(** The transforms the solver is built on are their own inverses up to the factor in the matrices. *)
Theorem C32_transforms_invert : forall L a i j, (2 <= L)%nat ->
  ((i < L - 1)%nat -> (j < L - 1)%nat -> dst2d (L - 1) (dst2d (L - 1) a) i j = (2 * INR L) ^ 2 * a i j) /\
  ((i <= L)%nat -> (j <= L)%nat -> dct2d (L + 1) (dct2d (L + 1) a) i j = (2 * INR L) ^ 2 * a i j) /\
  ((i < L - 1)%nat -> (j <= L)%nat -> mix2d (L - 1) (L + 1) (mix2d (L - 1) (L + 1) a) i j = (2 * INR L) ^ 2 * a i j).
Proof.
  intros L a i j HL. split; [|split]; intros; [apply dst2d_inv|apply dct2d_inv|apply mix2d_inv]; auto; lia.
Qed.
Print Assumptions C32_transforms_invert.

(** The hypotheses are met: a 21-node grid, wall 5 cells in, a charged particle off centre. *)
Example C30_C31_nonvacuous : let p := mkT 1 2 0.25 0 0.5 0 0.1 (-1) 1 0 0 in
  Nat.odd 21 = true /\ (3 <= 5)%Z /\ 0 < wall 21 1 5 /\ within (wall 21 1 5) p /\ t_q p <> 0 /\ t_m p <> 0 /\
  inside (Z.of_nat 21) 1 (at_x p) /\ inside (Z.of_nat 21) 1 (at_y p).
Proof.
  intros p. assert (W : wall 21 1 5 = 5.5). { unfold wall. rewrite INR_IZR_INZ. change (Z.of_nat 21) with 21%Z. lra. }
  assert (Wi : within (wall 21 1 5) p) by (rewrite W; unfold within, at_x, at_y, p; cbn; split; rewrite Rabs_right; lra).
  split; [reflexivity|]. split; [lia|]. split; [lra|]. split; [exact Wi|]. split; [cbn; lra|]. split; [cbn; lra|].
  apply (within_inside 21 1 5 p); auto; lra || lia || reflexivity.
Qed.
(** A nonzero solution: the field of a unit charge in the middle node of a 3 x 3 grid. *)
Example C32_nonvacuous : exists u : arr2, (forall a, u a 0%nat = 0 /\ u a 2%nat = 0 /\ u 0%nat a = 0 /\ u 2%nat a = 0) /\
  (forall i j, interior 2 i -> interior 2 j -> minus_laplacian 1 2 u i j = 4) /\ u 1%nat 1%nat = 1.
Proof.
  exists (fun i j => if ((i =? 1) && (j =? 1))%nat then 1 else 0). split; [|split; [|reflexivity]].
  - intros a. destruct (a =? 1)%nat; cbn; auto.
  - unfold interior. intros i j Hi Hj. assert (i = 1%nat) by lia. assert (j = 1%nat) by lia. subst. unfold minus_laplacian, minus_d2. cbn. field.
Qed.
