(** What the 3D plasma theorems (C30-C32, C40, C42, C47, C48) say, independently of how the code
    computes it. *)
From Coq Require Import Reals ZArith List Bool.
From Verif Require Import Beam2D_Spec Plasma2D_Model Shape_Model Shape_Spec Plasma3D_Model.
Import ListNotations.
Open Scope R_scope.

(** Where a particle is. *)
Definition at_x (p : pt3) : R := t_x0 p + t_dx p.
Definition at_y (p : pt3) : R := t_y0 p + t_dy p.
Definition within (b : R) (p : pt3) : Prop := Rabs (at_x p) < b /\ Rabs (at_y p) < b.
(** At its initial place, without momentum and without charge. *)
Definition absorbed (p : pt3) : Prop :=
  t_dx p = 0 /\ t_dy p = 0 /\ t_px p = 0 /\ t_py p = 0 /\ t_pz p = 0 /\ t_q p = 0.
(** The same particle: what never changes. *)
Definition same_particle (p p' : pt3) : Prop := t_x0 p' = t_x0 p /\ t_y0 p' = t_y0 p /\ t_m p' = t_m p.

(** Several layers in a row; each is given the beam density of that layer and of the previous one. *)
Fixpoint run3 (average : arr2 -> arr2) (s : solver3) (beams : list (arr2 * arr2)) (st : state3) : state3 :=
  match beams with [] => st | (full, prev) :: r => run3 average s r (step_dxi3 average s full prev st) end.

(** Charge and current of a particle in the quasistatic frame: q/(1 - vz) and its flux. *)
Definition energy3 (p : pt3) : R := sqrt (t_m p ^ 2 + t_px p ^ 2 + t_py p ^ 2 + t_pz p ^ 2).
Definition rho_of (p : pt3) : R := t_q p / (1 - t_pz p / energy3 p).
Definition vx_of (p : pt3) : R := t_px p / energy3 p.
Definition vy_of (p : pt3) : R := t_py p / energy3 p.
Definition vz_of (p : pt3) : R := t_pz p / energy3 p.
(** All particles' contribution [f] to cell (a, b) of an n x n grid with step h. *)
Definition cell_sum (n : Z) (h : R) (f : pt3 -> R) (l : list pt3) (a b : Z) : R :=
  sumR (map (fun p => f p * shape n h (at_x p) (at_y p) a b / h ^ 2) l).

(** ** C32.  Finite differences on a grid of nodes 0..L in both directions. *)
(** the neighbours of node j when the field is mirrored at both ends *)
Definition below (j : nat) : nat := match j with O => 1%nat | S k => k end.
Definition above (L j : nat) : nat := if (j =? L)%nat then (L - 1)%nat else (j + 1)%nat.
(** minus the second difference in the first / second index, with mirrored ends *)
Definition minus_d2 (h : R) (L : nat) (u : nat -> R) (i : nat) : R := (2 * u i - u (above L i) - u (below i)) / h ^ 2.
Definition minus_laplacian (h : R) (L : nat) (u : arr2) (i j : nat) : R :=
  minus_d2 h L (fun i => u i j) i + minus_d2 h L (fun j => u i j) j.
(** central differences *)
Definition cdx (h : R) (u : arr2) (i j : nat) : R := (u (i + 1)%nat j - u (i - 1)%nat j) / (2 * h).
Definition cdy (h : R) (u : arr2) (i j : nat) : R := (u i (j + 1)%nat - u i (j - 1)%nat) / (2 * h).
Definition interior (L i : nat) : Prop := (1 <= i <= L - 1)%nat.
(** a central difference where it fits in the grid, 0 on the perimeter *)
Definition inner_only (L : nat) (u : arr2) (i j : nat) : R :=
  if ((1 <=? i) && (i <=? L - 1) && (1 <=? j) && (j <=? L - 1))%nat then u i j else 0.
(** the two species together *)
Definition total3 (f : dens3 -> grid) (c : cur3) : arr2 := fun i j => f (r_e c) (Z.of_nat i) (Z.of_nat j) + f (r_i c) (Z.of_nat i) (Z.of_nat j).
(** average over nodes 0..L in both directions by the trapezoid rule *)
Definition end_weight (L i : nat) : R := if (i =? 0)%nat || (i =? L)%nat then 1 else 2.
Definition trapezoid_mean (L : nat) (a : arr2) : R :=
  sumN (L + 1) (fun i => sumN (L + 1) (fun j => end_weight L i * end_weight L j * a i j)) / (2 * INR L) ^ 2.
(** the curl of the transverse current, with the sign used for Bz *)
Definition curl_j (h : R) (L : nat) (jx jy : arr2) : arr2 := inner_only L (fun i j => - (cdy h jx i j - cdx h jy i j)).

(** ** C30.  The equation of motion in the co-moving variable: dp/dxi = q (E + v x B) / (1 - vz),
    dr/dxi = v / (1 - vz). *)
Definition v3 := (R * R * R)%type.
Definition cross (u v : v3) : v3 :=
  let '(ux, uy, uz) := u in let '(vx, vy, vz) := v in (uy * vz - uz * vy, uz * vx - ux * vz, ux * vy - uy * vx).
Definition add3 (u v : v3) : v3 := let '(ux, uy, uz) := u in let '(vx, vy, vz) := v in (ux + vx, uy + vy, uz + vz).
Definition scale3 (c : R) (u : v3) : v3 := let '(ux, uy, uz) := u in (c * ux, c * uy, c * uz).
Definition speed (m : R) (p : v3) : v3 := let '(px, py, pz) := p in scale3 (/ sqrt (m ^ 2 + px ^ 2 + py ^ 2 + pz ^ 2)) p.
Definition third (u : v3) : R := snd u.
Definition rate_p (m q : R) (E B p : v3) : v3 := scale3 (q / (1 - third (speed m p))) (add3 E (cross (speed m p) B)).
Definition rate_x (m : R) (p : v3) : R := fst (fst (speed m p)) / (1 - third (speed m p)).
Definition rate_y (m : R) (p : v3) : R := snd (fst (speed m p)) / (1 - third (speed m p)).
Definition mom (p : pt3) : v3 := (t_px p, t_py p, t_pz p).
(** value of a grid field at (x, y): the quartic spline interpolation *)
Definition interpolate (n : nat) (h : R) (F : arr2) (x y : R) : R :=
  gsum n (fun a b => F (Z.to_nat a) (Z.to_nat b) * shape (Z.of_nat n) h x y a b).
(** Second-order (midpoint) step of the equation of motion in given fields: new offsets and momentum. *)
Definition midpoint_step (m q X : R) (E B : v3) (dx dy : R) (p : v3) : R * R * v3 :=
  let p1 := add3 p (scale3 (X / 2) (rate_p m q E B p)) in
  let d := scale3 X (rate_p m q E B p1) in
  let pm := add3 p (scale3 (1 / 2) d) in
  (dx + X * rate_x m pm, dy + X * rate_y m pm, add3 p d).
Definition field_at (n : nat) (h : R) (f : fields3) (x y : R) : v3 * v3 :=
  let I := fun F => interpolate n h F x y in ((I (Ex f), I (Ey f), I (Ez f)), (I (Bx f), I (By f), I (Bz f))).

(** ** C40.  How strongly the filter acts on a particle with chaotic displacement (cx, cy): fully at 0,
    not at all from the distance [d] on. *)
Definition fade (d cx cy : R) : R := Rmax 0 (1 - (cx ^ 2 + cy ^ 2) / d ^ 2).
(** Sum over a K x K array. *)
Definition array_sum (K : nat) (a : arr2) : R := sumN K (fun i => sumN K (fun j => a i j)).
(** ** C42.  The point of [lo, hi] nearest to x. *)
Definition clamp (lo hi x : R) : R := Rmax lo (Rmin x hi).
