(** What C26 says about the motion of a 2D plasma particle in given fields, in Cartesian components
    (radial direction of the starting point, azimuthal direction there, z). *)
From Coq Require Import Reals.
From Verif Require Import Plasma2D_Model Plasma2D_Spec.
Open Scope R_scope.

Record vec := V { vx : R; vy : R; vz : R }.
Definition vadd (a b : vec) : vec := V (vx a + vx b) (vy a + vy b) (vz a + vz b).
Definition vscale (k : R) (a : vec) : vec := V (k * vx a) (k * vy a) (k * vz a).
Definition cross (a b : vec) : vec :=
  V (vy a * vz b - vz a * vy b) (vz a * vx b - vx a * vz b) (vx a * vy b - vy a * vx b).
Definition energy (m : R) (p : vec) : R := sqrt (m ^ 2 + vx p ^ 2 + vy p ^ 2 + vz p ^ 2).
Definition velocity (m : R) (p : vec) : vec := vscale (/ energy m p) p.
(** Time a particle of momentum p takes to fall behind by X: X / (1 - v_z). *)
Definition delay (m X : R) (p : vec) : R := X / (1 - vz (velocity m p)).
Definition lorentz (q : R) (E B v : vec) : vec := vscale q (vadd E (cross v B)).
(** Momentum gained over X at momentum p. *)
Definition impulse (q m X : R) (E B : vec) (p : vec) : vec := vscale (delay m X p) (lorentz q E B (velocity m p)).
(** The step of the code: the impulse at the predicted middle momentum. *)
Definition middle (q m X : R) (E B : vec) (p : vec) : vec := vadd p (vscale (1 / 2) (impulse q m X E B p)).
Definition gain (q m X : R) (E B : vec) (p : vec) : vec := impulse q m X E B (middle q m X E B p).

(** Field at radius r: quadratic-spline interpolation of the nodes, the axis being a mirror which
    changes the sign of radial and azimuthal components (sg = -1) and not of longitudinal ones (sg = 1),
    the last node an even mirror. *)
Definition interpolated (n : nat) (sg h r : R) (F : nat -> R) : R := sumN n (fun i => node_share n sg (r / h) i * F i).
(** Position of a point of the axis beyond the axis or the wall. *)
Definition mirrored (R0 r r' : R) : Prop := (0 <= r <= R0 /\ r' = r) \/ (r < 0 /\ r' = - r) \/ (R0 < r /\ r' = 2 * R0 - r).
