(** What the cylindrical profiles should be: a list of equal rings between two radii, and the density in a ring. *)
From Coq Require Import Reals List.
Import ListNotations.
Open Scope R_scope.

(** The total of a list. *)
Definition total (l : list R) : R := fold_right Rplus 0 l.
(** [l] holds the middle radii of [n] rings of equal width that fill the band from [a] to [b]. *)
Definition middles_of_rings (a b : R) (n : nat) (l : list R) : Prop :=
  length l = n /\ forall k, (k < n)%nat -> let inner := a + (b - a) * INR k / INR n in let outer := a + (b - a) * INR (S k) / INR n in
    nth k l 0 = (inner + outer) / 2.
(** The area of the ring number [k]. *)
Definition ring_area (a b : R) (n k : nat) : R :=
  PI * (a + (b - a) * INR (S k) / INR n) ^ 2 - PI * (a + (b - a) * INR k / INR n) ^ 2.
(** The densities the profiles stand for. *)
Definition gaussian_density (sigma r : R) : R := exp (- (r / sigma) ^ 2 / 2).
(** [d] up to [w2], 1 from [w] on, linear between. *)
Definition is_ramp (w2 w d : R) (f : R -> R) : Prop :=
  (forall r, r <= w2 -> f r = d) /\ (forall r, w <= r -> f r = 1) /\ (forall r, w2 <= r <= w -> (w - w2) * (f r - d) = (r - w2) * (1 - d)).
