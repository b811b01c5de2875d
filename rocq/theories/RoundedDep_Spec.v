(** Notions for C74. *)
From Coq Require Import Reals ZArith List Bool.
From Flocq Require Import Core.
From Verif Require Import Float_Model Beam2D_Model Beam2D_Spec Beam3D_Model Shape_Model Shape_Spec Plasma3D_Model Plasma2D_Model RoundedBeam_Spec.
Import ListNotations.
Open Scope R_scope.

(** Half a unit in the last place of 1: 1.1e-16. *)
Definition rounding : R := bpow radix2 (-53).
(** Half of the smallest positive double: 2.5e-324. *)
Definition underflow : R := bpow radix2 (-1075).
(** Charges that do not underflow. *)
Definition ordinary (q : R) : Prop := q = 0 \/ bpow radix2 (-500) <= Rabs q.
(** Steps that are neither absurdly small nor absurdly large. *)
Definition ordinary_step (h : R) : Prop := bpow radix2 (-100) <= h <= bpow radix2 100.
(** The square of h to one unit in the last place. *)
Definition near_square (h h2 : R) : Prop := Rabs (h2 - h ^ 2) <= 2 * rounding * h ^ 2.
(** In its layer, as the program computes the borders. *)
Definition in_layer (dxi : R) (i : Z) (x : R) : Prop := border dxi (i + 1) <= x <= border dxi i.
(** At least [k] cells from the edges of a grid of [n] by [n] cells around the origin. *)
Definition off_edge (k n : Z) (h x : R) : Prop := Rabs x <= (IZR (n / 2) - IZR k) * h.
Definition sum_sizes (l : list R) : R := sumR (map Rabs l).
Definition gsum_sizes (N : nat) (g : grid) : R := gsum N (fun a b => Rabs (g a b)).
(** What each layer of a list satisfies, numbered from [i]. *)
Fixpoint each_layer {A} (P : Z -> A -> Prop) (i : Z) (ls : list (list A)) : Prop :=
  match ls with [] => True | l :: t => (forall p, In p l -> P i p) /\ each_layer P (i + 1) t end.

(** The charge that a plasma particle shows to the wave: its own, times gamma / (gamma - pz). *)
Definition energy3 (p : pt3) : R := sqrt (t_m p ^ 2 + t_px p ^ 2 + t_py p ^ 2 + t_pz p ^ 2).
Definition load3 (p : pt3) : R := Rabs (t_q p) / (1 - t_pz p / energy3 p).
(** A plasma particle with ordinary numbers, not as fast as the beam, in the grid; or a lost one. *)
Definition regular3 (n : Z) (h : R) (p : pt3) : Prop :=
  t_q p = 0 \/
  (bpow radix2 (-500) <= Rabs (t_q p) /\ bpow radix2 (-100) <= t_m p /\ energy3 p <= bpow radix2 300 /\ bpow radix2 (-40) <= 1 - t_pz p / energy3 p /\
   off_edge 5 n h (t_x0 p + t_dx p) /\ off_edge 5 n h (t_y0 p + t_dy p)).
(** A 2D plasma particle with ordinary numbers, not as fast as the beam, whose cloud does not reach the wall node. *)
Definition energy2 (p : pl2) : R := sqrt (m_ p ^ 2 + pr_ p ^ 2 + pf_ p ^ 2 + pz_ p ^ 2).
Definition load2 (p : pl2) : R := Rabs (q_ p) / (1 - pz_ p / energy2 p).
Definition regular2 (n : nat) (h : R) (p : pl2) : Prop :=
  ordinary (q_ p) /\ bpow radix2 (-100) <= m_ p /\ energy2 p <= bpow radix2 300 /\ bpow radix2 (-40) <= 1 - pz_ p / energy2 p /\ 0 <= r_ p <= (INR n - 3) * h.
