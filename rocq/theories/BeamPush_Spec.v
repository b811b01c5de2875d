(** Specification vocabulary for C56: one substep of a beam particle in given fields. *)
From Coq Require Import Reals ZArith List.
From Verif Require Import Beam2D_Model Beam2D_Spec Shape_Model Shape_Spec Beam3D_Model Beam3D_Spec.
Import ListNotations.
Open Scope R_scope.

(** A particle of charge-to-mass ratio qm has "mass" 1/|qm|
    and the sign of qm as its charge. *)
Definition sign_of (x s : R) : Prop := (0 < x /\ s = 1) \/ (x < 0 /\ s = -1).
Definition plus (a b : vec) : vec := (vx a + vx b, vy a + vy b, vz a + vz b).
Definition times (k : R) (a : vec) : vec := (k * vx a, k * vy a, k * vz a).
Definition energy (qm : R) (p : vec) : R := sqrt ((1 / qm) ^ 2 + norm2 p).
Definition velocity (qm : R) (p : vec) : vec := times (/ energy qm p) p.
(** Force on a unit charge of sign s. *)
Definition force (s : R) (E B v : vec) : vec := times s (plus E (vcross v B)).
(** Displacement in (x, y, xi) during t at velocity v: the window moves with speed 1. *)
Definition shift (t : R) (v : vec) : vec := plus (times t v) (0, 0, - t).
Definition mean (a b : vec) : vec := times (1 / 2) (plus a b).

(** Field between two layers of the 2D window (upper one [fu] at xi_low + dxi, lower one [fl] at
    xi_low) at radius r: linear in xi and in r. *)
Definition between (h dxi xi_low : R) (fu fl : list R) (r x : R) : R :=
  let s := (x - xi_low) / dxi in
  sumR (map (fun j => hat (r / h - INR j) * (s * nth j fu 0 + (1 - s) * nth j fl 0)) (seq 0 (length fu))).
(** All five 2D field arrays have n nodes. *)
Definition nodes (n : nat) (f : fields) : Prop :=
  length (E_r f) = n /\ length (E_f f) = n /\ length (E_z f) = n /\ length (B_f f) = n /\ length (B_z f) = n.
(** Electric and magnetic field on a 2D beam particle at (r, xi); B_r = - E_phi, and the external
    longitudinal field is added. *)
Definition e_on (c : pcfg) (xi_low : R) (fu fl : fields) (r x : R) : vec :=
  let i := fun f => between (r_step c) (xi_step c) xi_low (f fu) (f fl) r x in (i E_r, i E_f, i E_z).
Definition b_on (c : pcfg) (xi_low : R) (fu fl : fields) (r x : R) : vec :=
  let i := fun f => between (r_step c) (xi_step c) xi_low (f fu) (f fl) r x in (- i E_f, i B_f, i B_z + magnetic_field c).
(** Momentum and position of a 2D particle, along its own radius, across it, and along z. *)
Definition momentum2 (p : part) : vec := (p_r p, ang p / rad p, p_z p).
Definition place2 (p : part) : vec := (rad p, 0, xi p).

(** Value at (x, y) of a field given at the nodes of one 3D layer. *)
Definition grid_value (n : nat) (h : R) (F : grid) (x y : R) : R := gsum n (fun a b => F a b * shape (Z.of_nat n) h x y a b).
(** Field on a 3D beam particle at (x, y, z): the code's mixture of the two layers (see C21). *)
Definition mixed (n : nat) (h dxi xi_k : R) (F F1 : grid) (x y z : R) : R :=
  let s := (z - xi_k) / dxi in s * grid_value n h F x y + (1 - s) * grid_value n h F1 x y.
Definition e_on3 (n : nat) (c : cfg3) (idx : Z) (f f1 : fields3) (x y z : R) : vec :=
  let i := fun g => mixed n (c_h c) (c_dxi c) (layer_xi c idx) (g f) (g f1) x y z in (i Ex, i Ey, i Ez).
Definition b_on3 (n : nat) (c : cfg3) (idx : Z) (f f1 : fields3) (x y z : R) : vec :=
  let i := fun g => mixed n (c_h c) (c_dxi c) (layer_xi c idx) (g f) (g f1) x y z in (i Bx, i By, i Bz).
Definition place3 (p : part3) : vec := (b_x p, b_y p, b_xi p).
