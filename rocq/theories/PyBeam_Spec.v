(** Specification vocabulary for C80 and C81: what a generated beam should be, and what quantiles are. *)
From Coq Require Import Reals List Sorted.
From Verif Require Import PyBeam_Model.
Import ListNotations.
Open Scope R_scope.

(** ppf is the quantile function of cdf *)
Definition quantile_of (cdf ppf : R -> R) : Prop := forall p x, 0 < p < 1 -> (ppf p <= x <-> p <= cdf x).
(** cdf is a probability *)
Definition probability (cdf : R -> R) : Prop := (forall x, 0 <= cdf x <= 1) /\ forall x y, x <= y -> cdf x <= cdf y.
(** how many values of a list lie above a and not above b *)
Definition number_in (a b : R) (l : list R) : nat := length (filter (fun v => if Rlt_dec a v then (if Rle_dec v b then true else false) else false) l).
(** the columns of the table *)
Definition row_xi (w : row) : R := match w with Row2 xi _ _ _ _ _ _ _ | Row3 xi _ _ _ _ _ _ _ _ => xi end.
Definition row_qm (w : row) : R := match w with Row2 _ _ _ _ _ qm _ _ | Row3 _ _ _ _ _ _ qm _ _ => qm end.
Definition row_q (w : row) : R := match w with Row2 _ _ _ _ _ _ q _ | Row3 _ _ _ _ _ _ _ q _ => q end.
Definition row_id (w : row) : nat := match w with Row2 _ _ _ _ _ _ _ id | Row3 _ _ _ _ _ _ _ _ id => id end.
Definition row_pz (w : row) : R := match w with Row2 _ _ pz _ _ _ _ _ | Row3 _ _ _ pz _ _ _ _ _ => pz end.
(** largest first *)
Definition decreasing (l : list R) : Prop := StronglySorted (fun x y => y <= x) l.
(** a distribution that returns as many values as it is asked for *)
Definition full (d : distr) : Prop := forall N, length (draw d N) = N.
(** a row of a 2D beam holds the radius, the radial momentum and the angular momentum (up to its sign) of a particle at
    (x, y) with the momentum (px, py) across the beam *)
Definition turned (x y px py : R) (w : row) : Prop :=
  match w with
  | Row2 _ r _ pr M _ _ _ => r = sqrt (x ^ 2 + y ^ 2) /\ r * pr = x * px + y * py /\ M = Rabs (x * py - y * px) /\ pr ^ 2 + (M / r) ^ 2 = px ^ 2 + py ^ 2
  | Row3 _ _ _ _ _ _ _ _ _ => False
  end.
(** the simulation window *)
Definition in_window (window_length x : R) : bool := if Rle_dec (- window_length) x then (if Rle_dec x 0 then true else false) else false.
(** the columns of a 3D beam *)
Definition col3 (f : R -> R -> R -> R -> R -> R -> R) (w : row) : R := match w with Row3 xi x y pz px py _ _ _ => f xi x y pz px py | Row2 _ _ _ _ _ _ _ _ => 0 end.
(** the share of the values not above x when probabilities from p1 to p2 are used *)
Definition share (cdf : R -> R) (p1 p2 x : R) : R := Rmax 0 (Rmin 1 ((cdf x - p1) / (p2 - p1))).
(** a standardised distribution that is nowhere denser than the normal one at its centre *)
Definition not_denser (cdf : R -> R) : Prop := forall a b, a <= b -> cdf b - cdf a <= (b - a) / sqrt (2 * PI).
(** smallest first *)
Definition increasing_list (l : list R) : Prop := StronglySorted Rle l.
