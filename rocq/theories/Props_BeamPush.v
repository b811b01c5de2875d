(** Theorems C56: how beam particles are pushed in given fields. *)
From Coq Require Import Reals ZArith List Bool Lia Lra.
From Verif Require Import Beam2D_Model Beam2D_Spec Beam2D_Proofs Beam2D_Push Beam2D_Ex Shape_Model Shape_Spec Shape_Proofs Beam3D_Model Beam3D_Spec Beam3D_Proofs
  Beam3D_Run Beam3D_Upd Beam3D_Ex BeamPush_Spec BeamPush_Proofs.
Import ListNotations.
Open Scope R_scope.

(** C56, 2D.  One substep of a particle of momentum p0 (radial, azimuthal, longitudinal): the fields
    are taken at the place reached after half a substep at the old velocity, the momentum changes by
    the Lorentz force at the old velocity, the particle moves with the velocity of the mean momentum. *)
Theorem C56_2d_substep : forall c n fk1 fk xe b b' s,
  0 < r_step c -> nodes n fk1 -> nodes n fk -> 0 <= lost_boundary c -> lost_boundary c <= r_step c * INR (n - 1) ->
  q_m (pt b) <> 0 -> sign_of (q_m (pt b)) s -> substeps c fk1 fk xe 1 b b' ->
  let qm := q_m (pt b) in let d := dt b in let p0 := momentum2 (pt b) in
  let half := plus (place2 (pt b)) (shift (d / 2) (velocity qm p0)) in
  let r := sqrt (vx half ^ 2 + vy half ^ 2) in
  let E := e_on c xe fk fk1 r (vz half) in let B := b_on c xe fk fk1 r (vz half) in
  let p1 := plus p0 (times d (force s E B (velocity qm p0))) in
  let x1 := plus (place2 (pt b)) (shift d (velocity qm (mean p0 p1))) in
  0 <= rad (pt b') /\ rad (pt b') ^ 2 = vx x1 ^ 2 + vy x1 ^ 2 /\ xi (pt b') = vz x1 /\
  p_z (pt b') = vz p1 /\
  (rad (pt b') <> 0 -> rad (pt b') * p_r (pt b') = vx x1 * vx p1 + vy x1 * vy p1) /\
  (magnetic_field c <> 0 -> ang (pt b') = vx x1 * vy p1 - vy x1 * vx p1) /\
  (magnetic_field c = 0 -> ang (pt b') = ang (pt b)) /\
  rem b = S (rem b') /\ dt b' = dt b /\ ident b' = ident b.
Proof.
  intros c n fk1 fk xe b b' s Hh N1 N2 Hl0 Hl Hq Hs H qm d p0 half r E B p1 x1.
  inversion H as [|n0 b0 b0' y1 q1 xh Hr Hx Hw Hsub Hw1 Hrest]; subst. inversion Hrest; subst. clear Hrest H.
  assert (Eh : xh = half).
  { unfold xh, half, half_position, beam_to_vec. change (vsq (p_r (pt b), ang (pt b) / rad (pt b), p_z (pt b))) with (norm2 p0).
    change (p_r (pt b), ang (pt b) / rad (pt b), p_z (pt b)) with p0. fold qm. fold (energy qm p0). fold d.
    unfold shift, velocity. generalize (energy qm p0) p0 d. intros g [[a1 a2] a3] t.
    apply vec_eq; unfold place2, vadd, vscale, plus, times, plus, vx, vy, vz; cbn [fst snd]; unfold Rdiv; ring. }
  fold xh in Hsub. rewrite Eh in Hsub, Hw, Hx. clear Eh xh.
  assert (Hr' : r < r_step c * INR (n - 1)).
  { apply Rlt_le_trans with (lost_boundary c); auto. unfold r. rewrite <- (sqrt_pow2 (lost_boundary c)) by auto. apply sqrt_lt_1_alt.
    split; auto. pose proof (pow2_ge_0 (vx half)). pose proof (pow2_ge_0 (vy half)). lra. }
  destruct (fields2_spec c n xe fk1 fk half Hh N1 N2 Hr') as [FE FB]. fold r in FE, FB. fold E in FE. fold B in FB.
  pose proof (substep_explicit c (pt b) (dt b) (particle_fields half fk1 fk xe (r_step c) (xi_step c)) s Hq Hs) as S1. cbn zeta in S1.
  rewrite FE, FB in S1. change (momentum2 (pt b)) with p0 in S1. fold qm in S1. fold d in S1. fold p1 in S1. fold x1 in S1.
  change (dt b) with d in Hsub. rewrite S1 in Hsub. injection Hsub as <- <-.
  set (P := vx x1 ^ 2 + vy x1 ^ 2) in *. assert (HP : 0 <= P) by (unfold P; pose proof (pow2_ge_0 (vx x1)); pose proof (pow2_ge_0 (vy x1)); lra).
  unfold vec_to_beam. cbn [pt rad xi p_z p_r ang rem dt]. fold P.
  split; [apply sqrt_pos|]. split; [rewrite <- Rsqr_pow2; now apply Rsqr_sqrt|].
  split; [reflexivity|]. split; [reflexivity|].
  split; [intros Hz; field; auto|].
  split; [intros Hm; destruct (Req_EM_T (magnetic_field c) 0); [contradiction|reflexivity]|].
  split; [intros Hm; destruct (Req_EM_T (magnetic_field c) 0); [reflexivity|contradiction]|].
  split; [lia|]. split; reflexivity.
Qed.
Print Assumptions C56_2d_substep.

(** Without an external magnetic field the angular momentum never changes, whatever the fields. *)
Theorem C56_2d_angular_momentum : forall h c n b b', history h c n b b' -> magnetic_field c = 0 -> ang (pt b') = ang (pt b).
Proof.
  intros h c n b b' H Hm.
  assert (K : forall fk1 fk xe m a a', substeps c fk1 fk xe m a a' -> ang (pt a') = ang (pt a)).
  { induction 1 as [|m a a' x1 p1 xh K0 K1 K2 K3 K4 K5 IH]; auto. rewrite IH. unfold vec_to_beam. cbn [pt ang].
    destruct (Req_EM_T (magnetic_field c) 0); [reflexivity|contradiction]. }
  induction H as [|n m b b1 b2 b3 fk1 fk xe H IH P Q L S]; auto. rewrite (K _ _ _ _ _ _ S), <- IH.
  unfold prepare in P. destruct (Req_EM_T (dt b1) 0); [|congruence]. destruct (Req_EM_T (sub_energy c) 0); [injection P as <-; reflexivity|].
  destruct (halve_loop _ _ _); [|discriminate]. injection P as <-. reflexivity.
Qed.
Print Assumptions C56_2d_angular_momentum.

(** C56, 3D on the CPU: the same step, with the fields of the two layers mixed as in C21. *)
Theorem C56_3d_cpu_substep : forall c n idx fk fk1 p q s,
  c_n c = Z.of_nat n -> 0 < c_h c -> c_h c <= 0.4 -> (50 <= c_n c)%Z ->
  b_qm p <> 0 -> sign_of (b_qm p) s -> substeps3 CPU c idx fk fk1 1 p q ->
  let qm := b_qm p in let d := b_dt p in let p0 := p_of p in
  let half := plus (place3 p) (shift (d / 2) (velocity qm p0)) in
  let E := e_on3 n c idx fk fk1 (vx half) (vy half) (vz half) in let B := b_on3 n c idx fk fk1 (vx half) (vy half) (vz half) in
  let p1 := plus p0 (times d (force s E B (velocity qm p0))) in
  p_of q = p1 /\ place3 q = plus (place3 p) (shift d (velocity qm (mean p0 p1))) /\
  b_rem p = S (b_rem q) /\ b_dt q = b_dt p /\ b_qm q = b_qm p /\ b_q q = b_q p /\ b_id q = b_id p.
Proof.
  intros c n idx fk fk1 p q s Hn Hh Hh4 Hn50 Hq Hs H qm d p0 half E B p1.
  inversion H as [|n0 p0' q0 Hr Hx Hw Hw1 Hrest]; subst. inversion Hrest; subst. clear Hrest H.
  pose proof (half3_place p) as Eh. fold qm in Eh. fold d in Eh. fold p0 in Eh. fold half in Eh.
  rewrite Eh in Hw. destruct (lookup3_in_range c (vx half) (vy half) Hh Hh4 Hn50 Hw) as [Ix Iy].
  unfold advance. rewrite Eh. rewrite (fields3_spec n) by (auto; rewrite Hn in *; auto). fold E B.
  unfold update. rewrite (update_cpu_explicit p E B s Hq Hs). cbn [p_of place3 b_px b_py b_pz b_x b_y b_xi b_rem b_dt b_qm b_q b_id].
  fold p0 qm d. fold p1. unfold p_of, place3. cbn [b_px b_py b_pz b_x b_y b_xi b_rem b_dt b_qm b_q b_id].
  split; [now apply vec_eq|]. split; [now apply vec_eq|]. split; [lia|]. auto.
Qed.
Print Assumptions C56_3d_cpu_substep.

(** C56, 3D on the GPU: momentum changes by the force at the mean momentum divided by a factor g, the
    particle moves half a substep with the old and half with the new velocity.  The factor is the
    energy of the mean momentum exactly when |q/m| = 1 or there is no magnetic field. *)
Theorem C56_3d_gpu_substep : forall c n idx fk fk1 p q s,
  c_n c = Z.of_nat n -> 0 < c_h c -> c_h c <= 0.4 -> (50 <= c_n c)%Z ->
  b_qm p <> 0 -> sign_of (b_qm p) s -> substeps3 GPU c idx fk fk1 1 p q ->
  let qm := b_qm p in let d := b_dt p in let p0 := p_of p in
  let half := plus (place3 p) (shift (d / 2) (velocity qm p0)) in
  let E := e_on3 n c idx fk fk1 (vx half) (vy half) (vz half) in let B := b_on3 n c idx fk fk1 (vx half) (vy half) (vz half) in
  let p1 := p_of q in
  (exists g, 0 < g /\ p1 = plus p0 (times d (force s E B (times (/ g) (mean p0 p1)))) /\
     (energy qm (mean p0 p1) ^ 2 - g ^ 2) * (g ^ 2 + (d / 2) ^ 2 * norm2 B) = (d / 2) ^ 2 * norm2 B * ((1 / qm) ^ 2 - 1)) /\
  (qm ^ 2 = 1 \/ norm2 B = 0 -> p1 = plus p0 (times d (force s E B (velocity qm (mean p0 p1))))) /\
  place3 q = plus (place3 p) (plus (shift (d / 2) (velocity qm p0)) (shift (d / 2) (velocity qm p1))) /\
  b_rem p = S (b_rem q) /\ b_dt q = b_dt p /\ b_qm q = b_qm p /\ b_q q = b_q p /\ b_id q = b_id p.
Proof.
  intros c n idx fk fk1 p q s Hn Hh Hh4 Hn50 Hq Hs H qm d p0 half E B p1.
  inversion H as [|n0 p0' q0 Hr Hx Hw Hw1 Hrest]; subst. inversion Hrest; subst. clear Hrest H.
  pose proof (half3_place p) as Eh. fold qm in Eh. fold d in Eh. fold p0 in Eh. fold half in Eh.
  rewrite Eh in Hw. destruct (lookup3_in_range c (vx half) (vy half) Hh Hh4 Hn50 Hw) as [Ix Iy].
  assert (F : fields_at c idx (half3 p) fk fk1 = (E, B)) by (rewrite Eh; rewrite (fields3_spec n) by (auto; rewrite Hn in *; auto); reflexivity).
  destruct (update_gpu_implicit p E B s Hq Hs) as [X (g & G0 & G1 & G2)].
  assert (P1 : p1 = fst (update_gpu p (E, B))).
  { unfold p1, advance. rewrite F. unfold update. destruct (update_gpu p (E, B)) as [u v]. unfold p_of. cbn [b_px b_py b_pz fst]. now apply vec_eq. }
  assert (X1 : place3 (advance GPU c idx fk fk1 p) = snd (update_gpu p (E, B))).
  { unfold advance. rewrite F. unfold update. destruct (update_gpu p (E, B)) as [u v]. unfold place3. cbn [b_x b_y b_xi snd]. now apply vec_eq. }
  rewrite <- P1 in G1, G2, X. fold p0 in G1, G2, X. fold qm in G1, G2, X. fold d in G1, G2, X.
  split; [exists g; auto|]. split.
  - intros Hg. assert (Eg : energy qm (mean p0 p1) = g).
    { assert (Z0 : (d / 2) ^ 2 * norm2 B * ((1 / qm) ^ 2 - 1) = 0).
      { destruct Hg as [Hg|Hg]; [|rewrite Hg; ring]. replace ((1 / qm) ^ 2) with (1 / qm ^ 2) by (field; auto). rewrite Hg. field. }
      rewrite Z0 in G2. assert (0 < g ^ 2 + (d / 2) ^ 2 * norm2 B).
      { assert (0 < g ^ 2) by (apply pow2_gt_0; lra). assert (0 <= norm2 B) by (unfold norm2; pose proof (pow2_ge_0 (vx B)); pose proof (pow2_ge_0 (vy B)); pose proof (pow2_ge_0 (vz B)); lra).
        pose proof (pow2_ge_0 (d / 2)). pose proof (Rmult_le_pos _ _ H1 H0). lra. }
      apply Rmult_integral in G2. destruct G2 as [G2|G2]; [|lra].
      assert (0 <= energy qm (mean p0 p1)) by apply sqrt_pos. apply Rsqr_inj; auto; [lra|]. unfold Rsqr. lra. }
    unfold velocity. rewrite Eg. exact G1.
  - split; [rewrite X1; exact X|]. unfold advance. destruct (update _ _ _). cbn [b_rem b_dt b_qm b_q b_id]. split; [lia|]. auto.
Qed.
Print Assumptions C56_3d_gpu_substep.

(** The hypotheses are met by a particle accelerated by a uniform longitudinal field. *)
Example C56_2d_nonvacuous : 0 < r_step late_cfg /\ nodes 6 late_fields /\ 0 <= lost_boundary late_cfg <= r_step late_cfg * INR (6 - 1) /\
  sign_of (q_m (pt late_mid)) 1 /\ substeps late_cfg late_fields late_fields (-2) 1 late_mid late_out /\ p_z (pt late_out) = 8.
Proof.
  split; [cbn; lra|]. split; [repeat split|]. split; [rewrite late_boundary; cbn; lra|]. split; [left; cbn; lra|]. split; [|reflexivity].
  destruct (push_run late_cfg late_fields late_fields (-2) late_mid eq_refl) as (n & S & N & _).
  { rewrite late_push2. reflexivity. }
  rewrite late_push2 in S, N. cbn in N. replace 1%nat with n by lia. exact S.
Qed.
Definition uniform_Ez : fields3 := mkF3 zero_grid zero_grid (fun _ _ => 1) zero_grid zero_grid zero_grid.
Definition wide_cfg : cfg3 := mkC3 64 0.25 1 1 1.
Definition at_rest : part3 := mk3 (-0.1) 0 0 0 0 0 1 1 7%Z 0.5 1.
Example C56_3d_nonvacuous : forall u, exists q, substeps3 u wide_cfg 0 uniform_Ez uniform_Ez 1 at_rest q /\ b_pz q = 0.5.
Proof.
  intros u. exists (advance u wide_cfg 0 uniform_Ez uniform_Ez at_rest).
  assert (L : lost_radius wide_cfg = 7.2) by (unfold lost_radius, wide_cfg; cbn [c_h c_n]; rewrite Rmax_left; lra).
  assert (G : gam 1 0 0 0 = 1) by (unfold gam; replace ((1 / 1) ^ 2 + 0 ^ 2 + 0 ^ 2 + 0 ^ 2) with 1 by field; apply sqrt_1).
  assert (H : half3 at_rest = (0, 0, -0.35)).
  { unfold half3, at_rest. cbn [b_qm b_px b_py b_pz b_x b_y b_xi b_dt]. rewrite G. f_equal; [f_equal|]; lra. }
  assert (F : fields_at wide_cfg 0 (half3 at_rest) uniform_Ez uniform_Ez = ((0, 0, 1), (0, 0, 0))).
  { unfold fields_at. cbn [Ex Ey Ez Bx By Bz uniform_Ez]. rewrite !(interp3_zero _ _ _ _ _ zero_grid zero_grid) by (intros; reflexivity). rewrite (interp3_const _ _ _ _ _ _ _ 1) by (cbn; auto; lra). reflexivity. }
  assert (Q : b_x (advance u wide_cfg 0 uniform_Ez uniform_Ez at_rest) = 0 /\ b_y (advance u wide_cfg 0 uniform_Ez uniform_Ez at_rest) = 0).
  { unfold advance. rewrite F. destruct u; unfold update.
    - unfold update_cpu, at_rest. cbn [b_qm b_px b_py b_pz b_x b_y b_xi b_dt vx vy vz fst snd]. rewrite G. unfold vx, vy, vz. cbn [fst snd].
      replace (0 + Rsgn 1 * 0.5 / 2 * (0 + 0 / 1 * 0 - 0 / 1 * 0)) with 0 by lra. split; lra.
    - destruct (update_gpu_implicit at_rest (0, 0, 1) (0, 0, 0) 1 ltac:(cbn; lra) ltac:(left; cbn; lra)) as [X (g & _ & P & _)].
      destruct (update_gpu at_rest _) as [[[p1 p2] p3] [[x1 x2] x3]]. cbn [fst snd] in P, X. cbn [b_x b_y vx vy fst snd].
      assert (P1 : p1 = 0 /\ p2 = 0).
      { unfold force, vcross, p_of, at_rest in P. unfold plus, times, mean, plus, times, vx, vy, vz in P. cbn [fst snd b_px b_py b_pz b_dt] in P. injection P as P1 P2 _. split; lra. }
      destruct P1 as [-> ->]. unfold velocity in X. revert X. generalize (/ energy (b_qm at_rest) (p_of at_rest)) (/ energy (b_qm at_rest) (0, 0, p3)). intros g1 g2 X.
      unfold shift, plus, times, place3, p_of, at_rest, plus, times, vx, vy, vz in X. cbn [fst snd b_px b_py b_pz b_x b_y b_xi b_dt] in X. injection X as X1 X2 _. split; lra. }
  split.
  - constructor; [cbn; lia|rewrite H; cbn; lra|rewrite H, L; cbn [fst snd]; lra|destruct Q as [-> ->]; rewrite L; lra|constructor].
  - destruct (advance_uniform u wide_cfg 0 uniform_Ez uniform_Ez at_rest (0, 0, 1) ltac:(cbn; lra)) as (_ & _ & ->); try (intros a b; cbn; auto).
    unfold Rsgn, at_rest, vz. cbn [b_qm b_pz b_dt snd]. destruct (Rlt_dec 0 1); lra.
Qed.
