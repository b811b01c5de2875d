(** Field-free motion and range of the field lookup (C15). *)
From Coq Require Import Reals ZArith List Bool Lia Lra Permutation.
From Verif Require Import Beam2D_Model Beam2D_Spec Beam2D_Proofs Beam2D_Push.
Import ListNotations.
Open Scope R_scope.

Lemma fields_free x fk1 fk xe h d : no_field fk1 -> no_field fk ->
  particle_fields x fk1 fk xe h d = ((0, 0, 0), (0, 0, 0)).
Proof.
  intros H1 H0. unfold particle_fields.
  destruct (particle_weights _ _ _ _ _) as [[[[j a00] a01] a10] a11]. unfold interpolate, at_.
  rewrite !(H1 (E_r fk1)), !(H1 (E_f fk1)), !(H1 (E_z fk1)), !(H1 (B_f fk1)), !(H1 (B_z fk1)),
    !(H0 (E_r fk)), !(H0 (E_f fk)), !(H0 (E_z fk)), !(H0 (B_f fk)), !(H0 (B_z fk)) by (simpl; tauto).
  f_equal; f_equal; try ring; f_equal; ring.
Qed.

Lemma substep_free c p d : magnetic_field c = 0 ->
  substep c p d ((0, 0, 0), (0, 0, 0)) =
  ((rad p + d / gamma_m p * p_r p, d / gamma_m p * (ang p / rad p), xi p + d / gamma_m p * p_z p - d),
   (p_r p, ang p / rad p, p_z p)).
Proof.
  intros HB. unfold substep, beam_to_vec. cbv zeta beta iota. rewrite HB.
  unfold vadd, vscale, cross, vsq, vx, vy, vz. cbn [fst snd].
  rewrite !Rplus_0_r, !Rmult_0_r, !Rminus_0_r, !Rplus_0_r, !Rmult_0_r, !Rplus_0_r, !Rplus_0_l.
  unfold gamma_m. f_equal. f_equal; [f_equal|]; ring.
Qed.

Definition R2 (p : part) (t : R) : R := line_x p t ^ 2 + line_y p t ^ 2.
Definition D2 (p : part) (t : R) : R := line_x p t * p_r p + line_y p t * (ang p / rad p).

(** One rotation of the local frame: the new radial and azimuthal momenta keep the transverse
    momentum, and the line continues. *)
Lemma rotate X Y a b r1 M : r1 ^ 2 = X ^ 2 + Y ^ 2 -> r1 <> 0 -> M = X * b - Y * a ->
  ((X * a + Y * b) / r1) ^ 2 + (M / r1) ^ 2 = a ^ 2 + b ^ 2.
Proof.
  intros Hr Hn ->. replace (((X * a + Y * b) / r1) ^ 2 + ((X * b - Y * a) / r1) ^ 2)
    with (((X ^ 2 + Y ^ 2) * (a ^ 2 + b ^ 2)) / r1 ^ 2) by (field; auto).
  rewrite Hr. field. rewrite <- Hr. now apply pow_nonzero.
Qed.

Lemma gamma_m_pos p : q_m p <> 0 -> 0 < gamma_m p.
Proof.
  intros Hq. unfold gamma_m. apply sqrt_lt_R0.
  assert (0 < (1 / q_m p) ^ 2).
  { apply pow2_gt_0. unfold Rdiv. rewrite Rmult_1_l. now apply Rinv_neq_0_compat. }
  pose proof (pow2_ge_0 (p_r p)). pose proof (pow2_ge_0 (ang p / rad p)). pose proof (pow2_ge_0 (p_z p)). lra.
Qed.

Lemma free_line c fk1 fk xe n b b' : substeps c fk1 fk xe n b b' ->
  no_field fk1 -> no_field fk -> magnetic_field c = 0 -> q_m (pt b) <> 0 -> 0 < rad (pt b) ->
  (forall k, (k <= n)%nat -> 0 < R2 (pt b) (INR k * dt b)) ->
  let p := pt b in let p' := pt b' in let t := INR n * dt b in
  rad p' ^ 2 = R2 p t /\ 0 < rad p' /\ rad p' * p_r p' = D2 p t /\ p_z p' = p_z p /\ ang p' = ang p /\
  xi p' = xi p + t * (p_z p / gamma_m p - 1) /\ q_m p' = q_m p /\
  p_r p' ^ 2 + (ang p' / rad p') ^ 2 = p_r p ^ 2 + (ang p / rad p) ^ 2.
Proof.
  intros H F1 F0 HB. induction H as [b|n b b' x1 p1 xh H0 H1 H2 H3 H4 H5 IH]; intros Hq Hr Hax p p' t.
  - unfold p, p', t, R2, D2, line_x, line_y. simpl INR. rewrite !Rmult_0_l, !Rplus_0_r.
    repeat split; auto; try ring.
  - rewrite fields_free in H3 by auto. rewrite substep_free in H3 by auto.
    pose proof (gamma_m_pos (pt b) Hq) as Hg. fold p in Hg, Hr, Hq |- *.
    assert (Ex : x1 = (line_x p (dt b), line_y p (dt b), xi p + dt b / gamma_m p * p_z p - dt b)).
    { injection H3 as <- _. unfold line_x, line_y. fold p. f_equal. f_equal; field; repeat split; lra. }
    assert (Ep : p1 = (p_r p, ang p / rad p, p_z p)) by (injection H3 as _ <-; reflexivity).
    subst x1 p1. clear H3.
    set (b1 := vec_to_beam c b _ _ _ _) in *.
    assert (Hp1 : 0 < line_x p (dt b) ^ 2 + line_y p (dt b) ^ 2).
    { specialize (Hax 1%nat ltac:(lia)). simpl INR in Hax. rewrite Rmult_1_l in Hax. exact Hax. }
    set (X := line_x p (dt b)) in *. set (Y := line_y p (dt b)) in *.
    assert (Er : rad (pt b1) = sqrt (X ^ 2 + Y ^ 2)) by reflexivity.
    assert (Er2 : rad (pt b1) ^ 2 = X ^ 2 + Y ^ 2) by (rewrite Er; apply pow2_sqrt; lra).
    assert (Hr1 : 0 < rad (pt b1)) by (rewrite Er; now apply sqrt_lt_R0).
    assert (Epr : p_r (pt b1) = (X * p_r p + Y * (ang p / rad p)) / rad (pt b1)) by reflexivity.
    assert (Ea : ang (pt b1) = ang p).
    { unfold b1, vec_to_beam. cbn [pt ang]. destruct (Req_EM_T (magnetic_field c) 0); [reflexivity|contradiction]. }
    assert (Ez : p_z (pt b1) = p_z p) by reflexivity.
    assert (Em : q_m (pt b1) = q_m p) by reflexivity.
    assert (Edt : dt b1 = dt b) by reflexivity.
    assert (Exi : xi (pt b1) = xi p + dt b / gamma_m p * p_z p - dt b) by reflexivity.
    assert (EM : ang p = X * (ang p / rad p) - Y * p_r p).
    { unfold X, Y, line_x, line_y. field; repeat split; lra. }
    assert (ES : p_r (pt b1) ^ 2 + (ang (pt b1) / rad (pt b1)) ^ 2 = p_r p ^ 2 + (ang p / rad p) ^ 2).
    { rewrite Epr, Ea. apply rotate; auto. lra. }
    assert (EG : gamma_m (pt b1) = gamma_m p) by (unfold gamma_m; rewrite ES, Em, Ez; reflexivity).
    assert (EXp : rad (pt b1) * p_r (pt b1) = X * p_r p + Y * (ang p / rad p)) by (rewrite Epr; field; lra).
    (* the line seen from the new frame *)
    assert (ER : forall s, R2 (pt b1) s = R2 p (dt b + s)).
    { intros s. unfold R2 at 1. unfold line_x, line_y. rewrite EG, Ea.
      transitivity (rad (pt b1) ^ 2 + 2 * (s / gamma_m p) * (rad (pt b1) * p_r (pt b1)) +
         (s / gamma_m p) ^ 2 * (p_r (pt b1) ^ 2 + (ang p / rad (pt b1)) ^ 2)); [field; repeat split; lra|].
      rewrite <- Ea at 1. rewrite ES, EXp, Er2. unfold R2, X, Y, line_x, line_y. field; repeat split; lra. }
    assert (ED : forall s, D2 (pt b1) s = D2 p (dt b + s)).
    { intros s. unfold D2 at 1. unfold line_x, line_y. rewrite EG, Ea.
      transitivity (rad (pt b1) * p_r (pt b1) +
         (s / gamma_m p) * (p_r (pt b1) ^ 2 + (ang p / rad (pt b1)) ^ 2)); [field; repeat split; lra|].
      rewrite <- Ea at 1. rewrite ES, EXp. unfold D2, X, Y, line_x, line_y. field; repeat split; lra. }
    assert (Et : t = dt b + INR n * dt b) by (unfold t; rewrite S_INR; ring).
    destruct IH as (A1 & A2 & A3 & A4 & A5 & A6 & A7 & A8); auto.
    { intros k Hk. rewrite ER, Edt. replace (dt b + INR k * dt b) with (INR (S k) * dt b) by (rewrite S_INR; ring).
      apply Hax. lia. }
    fold b1 in A1, A3. cbv zeta in *. rewrite Edt in *.
    rewrite ER in A1. rewrite ED in A3. rewrite <- Et in A1, A3.
    split; [exact A1|]. split; [exact A2|]. split; [exact A3|].
    split; [unfold p'; rewrite A4; exact Ez|]. split; [unfold p'; rewrite A5; exact Ea|].
    split; [unfold p'; rewrite A6, Exi, Ez, EG, Et; field; lra|].
    split; [unfold p'; rewrite A7; exact Em|]. unfold p'. rewrite A8. exact ES.
Qed.

(** ** The field arrays are never read outside their range. *)
Lemma floorR_spec x : IZR (floorR x) <= x < IZR (floorR x) + 1.
Proof. unfold floorR. rewrite minus_IZR. destruct (archimed x). lra. Qed.
Lemma floorR_nonneg x : 0 <= x -> (0 <= floorR x)%Z.
Proof.
  intros H. destruct (floorR_spec x) as [_ H1]. apply Z.lt_succ_r. apply lt_IZR.
  rewrite succ_IZR. simpl. lra.
Qed.

(** grid_steps = int(window_width / transverse_step) + 1 cells, beam_calculate.py:371 *)
Lemma lookup_in_range c r : 0 < r_step c -> r_step c <= 1 -> r_step c <= 0.1 * max_radius c ->
  0 <= r -> r < lost_boundary c ->
  let j := floorR (r / r_step c) in
  (0 <= j)%Z /\ (j + 1 < floorR (max_radius c / r_step c) + 1)%Z.
Proof.
  intros Hh H1 H2 Hr Hl j.
  assert (Hle : lost_boundary c <= max_radius c - r_step c).
  { unfold lost_boundary. apply Rmax_lub; lra. }
  split.
  - apply floorR_nonneg. apply Rmult_le_pos; auto. left. now apply Rinv_0_lt_compat.
  - cut (j < floorR (max_radius c / r_step c))%Z; [lia|].
    destruct (floorR_spec (r / r_step c)) as [A _]. destruct (floorR_spec (max_radius c / r_step c)) as [_ B].
    fold j in A. apply lt_IZR.
    assert (r / r_step c < max_radius c / r_step c - 1).
    { replace (max_radius c / r_step c - 1) with ((max_radius c - r_step c) / r_step c) by (field; lra).
      unfold Rdiv. apply Rmult_lt_compat_r; [now apply Rinv_0_lt_compat|lra]. }
    lra.
Qed.
