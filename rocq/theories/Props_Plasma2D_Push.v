(** C26: how a 2D plasma particle moves in given fields (Plasma2D_Push_Spec says what the words mean). *)
From Coq Require Import Reals ZArith List Bool Lra Lia Psatz.
From Verif Require Import Beam2D_Model Beam2D_Spec Plasma2D_Model Plasma2D_Spec Plasma2D_Dep Plasma2D_Move Plasma2D_Push_Spec Plasma2D_Push.
Open Scope R_scope.

(** The fields on a particle at radius r inside the grid: spline interpolation with the same shares as the
    deposition (C25), plus the declustering field in the radial component. *)
Theorem C26_fields_on_the_particle : forall c f amp r, 0 < g_h c -> (2 <= g_n c)%nat -> 0 <= r -> r / g_h c < INR (g_n c) - 1 / 2 ->
  let I := fun sg F => interpolated (g_n c) sg (g_h c) r F in
  exists decl, fields_at c f amp r = (I (-1) (f_er f) + decl, I (-1) (f_ef f), I 1 (f_ez f), I (-1) (f_bf f), I 1 (f_bz f)) /\
    ((forall i, amp i = 0) -> decl = 0).
Proof.
  intros c f amp r H1 H2 H3 H4 I. eexists. split; [exact (fields_interpolated c f amp r H1 H2 H3 H4)|].
  intros Z. unfold noise_at. destruct (_ <=? _)%Z; auto. destruct (_ =? _)%Z; auto. destruct (Req_EM_T _ 0) as [|N]; auto. now rewrite Z in N.
Qed.
Print Assumptions C26_fields_on_the_particle.
(** The declustering field is the solution of  E' + E/r_node = amp * cos(pi x)  with period of two cells. *)
Theorem C26_declustering_field : forall n amp c h x, (0 < c < Z.of_nat n)%Z ->
  derivable_pt_lim (fun t => noise_at n amp c t h) x (amp (Z.to_nat c) * h * cos (PI * x) - noise_at n amp c x h / IZR c) /\
  noise_at n amp c (x + 2) h = noise_at n amp c x h.
Proof.
  intros n amp c h x Hc. split; [now apply noise_divergence|]. unfold noise_at.
  destruct (_ <=? _)%Z; auto. destruct (_ =? _)%Z; auto. destruct (Req_EM_T _ 0); auto.
  replace (PI * (x + 2)) with (PI * x + 2 * PI) by ring. rewrite sin_plus, cos_plus, sin_2PI, cos_2PI, !Rmult_1_r, !Rmult_0_r, Rplus_0_r, Rminus_0_r. reflexivity.
Qed.
Print Assumptions C26_declustering_field.

(** One step.  The middle radius is predicted from the starting momentum and mirrored; a particle whose
    middle radius is beyond the wall starts from rest there.  The momentum gain is the Lorentz impulse over
    X/(1 - v_z), evaluated at the middle momentum and middle radius (B_r = -E_phi in the quasi-static
    approximation); the displacement uses the mean momentum of the step.  If the end point is inside the
    wall, its radius and the momentum components along its radius and azimuth are the result; if it is
    beyond, the particle is put at the mirror image, at rest (or removed if that is behind the axis). *)
Theorem C26_time_centred_push : forall c f X p rh p0 E B, 0 < g_rmax c -> 0 < g_h c -> (2 <= g_n c)%nat -> g_rmax c / g_h c < INR (g_n c) - 1 / 2 ->
  0 < m_ p ->
  let rp := r_ p + pr_ p * (X / (gm_of p - pz_ p)) / 2 in
  mirrored (g_rmax c) rp rh -> 0 <= rh <= g_rmax c ->
  (rp <= g_rmax c -> p0 = V (pr_ p) (pf_ p) (pz_ p)) -> (g_rmax c < rp -> p0 = V 0 0 0) ->
  let I := fun sg F => interpolated (g_n c) sg (g_h c) rh F in
  E = V (I (-1) (f_er f)) (I (-1) (f_ef f)) (I 1 (f_ez f)) -> B = V (- I (-1) (f_ef f)) (I (-1) (f_bf f)) (I 1 (f_bz f)) ->
  let d := gain (q_ p) (m_ p) X E B p0 in
  let h := middle (q_ p) (m_ p) X E B p0 in
  let dt := X / (energy (m_ p) h - vz h) in
  let x := r_ p + (vx p0 + vx d / 2) * dt in let y := (vy p0 + vy d / 2) * dt in
  let rn := sqrt (x ^ 2 + y ^ 2) in
  let p' := fst (move_one2 c f (fun _ => 0) X p) in
  (rn <= g_rmax c ->
     r_ p' = rn /\ q_ p' = q_ p /\ m_ p' = m_ p /\ age_ p' = age_ p - delay (m_ p) X h /\ pz_ p' = vz p0 + vz d /\
     (0 < rn -> pr_ p' * rn = (vx p0 + vx d) * x + (vy p0 + vy d) * y /\ pf_ p' * rn = (vy p0 + vy d) * x - (vx p0 + vx d) * y)) /\
  (g_rmax c < rn -> pr_ p' = 0 /\ pf_ p' = 0 /\ pz_ p' = 0 /\
     (rn <= 2 * g_rmax c -> r_ p' = 2 * g_rmax c - rn /\ q_ p' = q_ p) /\ (2 * g_rmax c < rn -> q_ p' = 0)).
Proof.
  intros c f X p rh p0 E B HR Hh Hn Hg Hm rp Mi Hrh Hp1 Hp2 I EE EB d h dt x y rn p'.
  assert (Hin : rh / g_h c < INR (g_n c) - 1 / 2).
  { apply Rle_lt_trans with (g_rmax c / g_h c); [|exact Hg]. apply Rmult_le_compat_r; [apply Rlt_le, Rinv_0_lt_compat, Hh|lra]. }
  destruct (C26_fields_on_the_particle c f (fun _ => 0) rh Hh Hn (proj1 Hrh) Hin) as (decl & EF & D0).
  rewrite (D0 (fun _ => eq_refl)), Rplus_0_r in EF. clear D0 decl.
  change (fun sg F => interpolated (g_n c) sg (g_h c) rh F) with I in EF. cbv beta in EF.
  assert (Hm0 : m_ p <> 0) by lra. pose proof (gm_gt p Hm0) as G.
  destruct (fold_beyond (g_rmax c) rp HR) as [F Bq].
  assert (Er : fold_r (g_rmax c) rp = rh) by (destruct F as [[? ->]|[[? ->]|[? ->]]], Mi as [[? ->]|[[? ->]|[? ->]]]; lra).
  subst p'. unfold move_one2. change (sq4 (m_ p) (pr_ p) (pf_ p) (pz_ p)) with (gm_of p).
  destruct (Req_EM_T (gm_of p) (pz_ p)) as [X0|_]; [lra|]. fold rp. rewrite Er.
  rewrite (proj2 (outside_iff (g_rmax c) rh) Hrh). rewrite EF.
  pose proof (push_ok c p (I (-1) (f_er f)) (I (-1) (f_ef f)) (I 1 (f_ez f)) (I (-1) (f_bf f)) (I 1 (f_bz f)) rp X p0 HR Hm0) as P.
  cbv zeta in P. rewrite <- EE, <- EB in P. fold d h in P. fold dt in P. fold x y in P. fold rn in P. destruct P as (P1 & P2 & _).
  destruct (beyond (g_rmax c) rp) eqn:Eb.
  - rewrite (Hp2 (proj1 Bq eq_refl)) in *. cbn [vx vy vz] in P1, P2 |- *.
    assert (Em : energy (m_ p) (V 0 0 0) = m_ p).
    { unfold energy. cbn [vx vy vz]. replace (m_ p ^ 2 + 0 ^ 2 + 0 ^ 2 + 0 ^ 2) with (m_ p ^ 2) by ring. apply sqrt_pow2. lra. }
    rewrite Em, Rminus_0_r in P1, P2. split; [exact P1|exact P2].
  - assert (L : rp <= g_rmax c).
    { apply Rnot_lt_le. intros L. apply Bq in L. congruence. }
    rewrite (Hp1 L) in *. cbn [vx vy vz] in P1, P2 |- *.
    change (energy (m_ p) (V (pr_ p) (pf_ p) (pz_ p))) with (gm_of p) in P1, P2. split; [exact P1|exact P2].
Qed.
Print Assumptions C26_time_centred_push.
Example C26_time_centred_push_ex : let c := mkC2 5 1 4 0 in let p := mkPl 2 (1 / 2) 0 0 (-1) 1 0 in
  0 < g_rmax c /\ 0 < g_h c /\ (2 <= g_n c)%nat /\ g_rmax c / g_h c < INR (g_n c) - 1 / 2 /\ 0 < m_ p /\
  mirrored (g_rmax c) (r_ p + pr_ p * (1 / (gm_of p - pz_ p)) / 2) (r_ p + pr_ p * (1 / (gm_of p - pz_ p)) / 2).
Proof.
  cbn. repeat split; try lra; try lia. left. split; [|reflexivity]. unfold gm_of. cbn.
  assert (1 <= sqrt (1 * (1 * 1) + 1 / 2 * (1 / 2 * 1) + 0 * (0 * 1) + 0 * (0 * 1))).
  { rewrite <- sqrt_1 at 1. apply sqrt_le_1; lra. }
  set (s := sqrt _) in *. assert (0 < 1 / (s - 0) <= 1).
  { split; [apply Rdiv_lt_0_compat; lra|]. apply (Rmult_le_reg_r (s - 0)); [lra|]. field_simplify; lra. }
  lra.
Qed.

(** A particle whose middle radius cannot be mirrored into the window is removed. *)
Theorem C26_too_fast_is_removed : forall c f amp X p, 0 < g_rmax c -> m_ p <> 0 ->
  let rp := r_ p + pr_ p * (X / (gm_of p - pz_ p)) / 2 in
  rp < - g_rmax c \/ 2 * g_rmax c < rp ->
  let p' := fst (move_one2 c f amp X p) in q_ p' = 0 /\ pr_ p' = 0 /\ pf_ p' = 0 /\ pz_ p' = 0 /\ r_ p' = g_rmax c / 2.
Proof.
  intros c f amp X p HR Hm rp H p'. subst p'. unfold move_one2. pose proof (gm_gt p Hm) as G.
  change (sq4 (m_ p) (pr_ p) (pf_ p) (pz_ p)) with (gm_of p).
  destruct (Req_EM_T (gm_of p) (pz_ p)) as [X0|_]; [lra|]. fold rp.
  destruct (fold_beyond (g_rmax c) rp HR) as [F Bq].
  assert (O : outside (g_rmax c) (fold_r (g_rmax c) rp) = true).
  { destruct (outside (g_rmax c) (fold_r (g_rmax c) rp)) eqn:Eo; [reflexivity|]. apply outside_iff in Eo. destruct F as [[? Ef]|[[? Ef]|[? Ef]]]; lra. }
  rewrite O. destruct (beyond (g_rmax c) rp); cbn; auto.
Qed.
Print Assumptions C26_too_fast_is_removed.

(** C27: the path tested by the substep loop bounds the radial displacement, so accepted substeps above the
    minimum size move a particle by less than one cell. *)
Theorem C27_path_bounds_the_motion : forall c f amp X p, 0 < g_rmax c -> 0 <= r_ p <= g_rmax c ->
  q_ (fst (move_one2 c f amp X p)) <> 0 -> Rabs (r_ (fst (move_one2 c f amp X p)) - r_ p) <= snd (move_one2 c f amp X p).
Proof. exact move_path. Qed.
Print Assumptions C27_path_bounds_the_motion.
