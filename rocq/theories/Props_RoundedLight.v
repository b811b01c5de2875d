(** Theorems C79: in binary64 no beam particle of the 3D program moves forward in the window, or sideways by more than
    the length of the substep; in the 2D program a particle can move forward, by a rounding. *)
From Coq Require Import Reals ZArith List Bool Lra Lia Psatz.
From Flocq Require Import Core.
From Verif Require Import Float_Model Float_Proofs Beam2D_Model Beam3D_Model Shape_Model RoundedBeam_Spec Props_RoundedBeam RoundedSum_Proofs RoundedDep_Model RoundedDep_Spec Props_RoundedDep RoundedField_Model RoundedPush_Model RoundedPush_Spec RoundedPush_Proofs RoundedLight_Proofs.
Import ListNotations.
Open Scope R_scope.

Lemma opp_double a : is_double a -> is_double (- a). Proof. unfold is_double. intros H. now rewrite double_opp, H. Qed.
(** a place after a computed displacement *)
Lemma goes x d w : is_double d -> 0 <= d -> -1 <= w <= 1 -> double (x - d) <= double (x + double (d * w)) <= double (x + d).
Proof.
  intros Dd Pd H. assert (L : - d <= d * w <= d) by nra. assert (A : - d <= double (d * w)) by (apply double_ge; [now apply opp_double|lra]). assert (B : double (d * w) <= d) by (apply double_le; [assumption|lra]). split; apply double_mono; lra.
Qed.
Lemma falls x d v : is_double x -> is_double d -> 0 <= d -> -1 <= v <= 1 -> double (x - 2 * d) <= double (x + double (d * double (v - 1))) <= x.
Proof.
  intros Dx Dd Pd H. assert (A : -2 <= double (v - 1)). { apply double_ge; [replace (-2) with (- (2)) by lra; apply opp_double; apply (double_pow 1); lia|lra]. } assert (B : double (v - 1) <= 0) by (apply double_le; [apply double_0|lra]).
  assert (L : - (2 * d) <= d * double (v - 1) <= 0) by nra. assert (C : - (2 * d) <= double (d * double (v - 1))) by (apply double_ge; [apply opp_double, double_twice, Dd|lra]). assert (E : double (d * double (v - 1)) <= 0) by (apply double_le; [apply double_0|lra]).
  split; [apply double_mono; lra|]. apply double_le; [exact Dx|lra].
Qed.
(** the limits of one displacement of length [d] *)
Definition within (d x y z x' y' z' : R) : Prop := double (x - d) <= x' <= double (x + d) /\ double (y - d) <= y' <= double (y + d) /\ double (z - 2 * d) <= z' <= z.

(** Whatever the fields are, one substep moves the particle sideways by at most its length, and backward by at most twice
    its length; never forward.  No rounding can break this. *)
Theorem C79_3d_speed_limit : forall p eb, ordinary_ratio (b_qm p) -> is_double (b_dt p) -> 0 <= b_dt p -> stored3 p ->
  (let '(_, x) := update_f p eb in within (b_dt p) (b_x p) (b_y p) (b_xi p) (vx x) (vy x) (vz x)) /\
  (let '(hx, hy, hz) := half3_f p in within (double (b_dt p / 2)) (b_x p) (b_y p) (b_xi p) hx hy hz).
Proof.
  intros p [e b] Hq Dd Pd (Dx & Dy & Dz & Px & Py & Pz). split.
  - unfold update_f. cbv zeta. set (hx := double (b_px p + _)). set (hy := double (b_py p + _)). set (hz := double (b_pz p + _)). destruct (gam_least (b_qm p) hx hy hz Hq (double_double _) (double_double _) (double_double _)) as (G & Gx & Gy & Gz). unfold within, vx, vy, vz. cbn [fst snd].
    split; [|split]; [apply goes|apply goes|apply falls]; try assumption; now apply speed_limit.
  - unfold half3_f. destruct (gam_least (b_qm p) _ _ _ Hq Px Py Pz) as (G & Gx & Gy & Gz). assert (Ph : 0 <= double (b_dt p / 2)) by (apply double_pos; lra). split; [|split]; [apply goes|apply goes|apply falls]; try assumption; try apply double_double; now apply speed_limit.
Qed.

(** So after all the substeps in a layer the particle is not ahead of where it was. *)
Lemma loop_never_forward c idx fk fk1 : forall n p, ordinary_ratio (b_qm p) -> is_double (b_dt p) -> 0 <= b_dt p -> stored3 p ->
  let '(q, _, _) := loop3_f c idx fk fk1 n p in b_xi q <= b_xi p /\ stored3 q.
Proof.
  induction n as [|n IH]; intros p Hq Dd Pd St; [cbn; split; [lra|exact St]|]. cbn [loop3_f]. assert (L := fun eb => C79_3d_speed_limit p eb Hq Dd Pd St).
  assert (Hd : let '(hx, hy, hz) := half3_f p in is_double hx /\ is_double hy /\ is_double hz) by (unfold half3_f; repeat split; apply double_double).
  destruct (half3_f p) as [[hx hy] hz] eqn:Hh. destruct (not_in_layer_f _ _); [split; [lra|exact St]|]. assert (St' := St). destruct St' as (D1 & D2 & D3 & D4 & D5 & D6). destruct Hd as (E1 & E2 & E3). destruct (is_lost3_f hx hy _). { cbn. split; [destruct (L (0, 0, 0, (0, 0, 0))) as [_ W]; unfold within in W; lra|unfold stored3; cbn; tauto]. }
  set (eb := fields_at_f _ _ _ _ _ _ _). destruct (L eb) as [W _].
  assert (Do : let '(a, x) := update_f p eb in (is_double (vx a) /\ is_double (vy a) /\ is_double (vz a)) /\ is_double (vx x) /\ is_double (vy x) /\ is_double (vz x)) by (destruct eb; unfold update_f; repeat split; apply double_double).
  destruct (update_f p eb) as [a x]. destruct Do as ((O1 & O2 & O3) & O4 & O5 & O6). destruct (is_lost3_f _ _ _). { cbn. split; [unfold within in W; lra|unfold stored3; cbn; tauto]. }
  specialize (IH (with_state p (vx x) (vy x) (vz x) (vx a) (vy a) (vz a) (b_id p) n) Hq Dd Pd ltac:(unfold stored3; cbn; tauto)). destruct (loop3_f c idx fk fk1 n _) as [[q l] f]. cbn [with_state b_xi] in IH. unfold within in W. destruct IH as [I1 I2]. split; [lra|exact I2].
Qed.
Theorem C79_3d_never_forward : forall c idx fk fk1 p, ordinary_ratio (b_qm p) -> is_double (b_dt p) -> 0 <= b_dt p -> stored3 p ->
  let '(q, _) := move_one3_f c idx fk fk1 p in b_xi q <= b_xi p /\ stored3 q.
Proof. intros c idx fk fk1 p Hq Dd Pd St. unfold move_one3_f. assert (L := loop_never_forward c idx fk fk1 (b_rem p) p Hq Dd Pd St). destruct (loop3_f _ _ _ _ _ _) as [[q l] f]. exact L. Qed.
