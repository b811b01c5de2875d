(** What the 2D plasma theorems (C22-C29) say, independently of how the code computes it. *)
From Coq Require Import Reals ZArith List Bool.
From Verif Require Import Beam2D_Spec Plasma2D_Model.
Import ListNotations.
Open Scope R_scope.

(** C22.  y'' + y'/r - y/r^2 - k y = f on the grid r_i = i h, by central differences, at every inner
    node of a grid of [n] nodes. *)
Definition radial_equation (n : nat) (h : R) (k f y : nat -> R) : Prop :=
  forall i, (1 <= i <= n - 2)%nat ->
    let r := INR i * h in
    (y (i + 1)%nat - 2 * y i + y (i - 1)%nat) / h ^ 2 + (y (i + 1)%nat - y (i - 1)%nat) / (2 * h) / r
    - y i / r ^ 2 - k i * y i = f i.
(** (r y)' / r at the middle of the last cell *)
Definition last_cell_divergence (n : nat) (h : R) (y : nat -> R) : R :=
  let a := INR (n - 2) * h in let b := INR (n - 1) * h in
  (b * y (n - 1)%nat - a * y (n - 2)%nat) / h / ((a + b) / 2).

(** C23.  The trapezoid rule on one cell. *)
Definition trapezoid (y : nat -> R) (h : R) (i : nat) : R := h * (y i + y (i + 1)%nat) / 2.

(** C25.  What a particle carries: charge in the QSA weighting, and its four components. *)
Definition gm_of (p : pl2) : R := sqrt (m_ p ^ 2 + pr_ p ^ 2 + pf_ p ^ 2 + pz_ p ^ 2).
Definition qs_charge (p : pl2) : R := q_ p * gm_of p / (gm_of p - pz_ p).
Definition qs_jz (p : pl2) : R := q_ p * pz_ p / (gm_of p - pz_ p).
Definition total_of (f : pl2 -> R) (l : list pl2) : R := sumR (map f l).
(** Sum over the grid of what one cell contains. *)
Definition grid_total (n : nat) (v a : nat -> R) : R := sumN n (fun i => v i * a i).

(** The quadratic spline (triangular cloud integrated over a cell): B2(t) for |t| <= 3/2. *)
Definition spline2 (t : R) : R :=
  if Rle_dec (Rabs t) (1 / 2) then 3 / 4 - t ^ 2
  else if Rle_dec (Rabs t) (3 / 2) then (3 / 2 - Rabs t) ^ 2 / 2 else 0.

(** C27.  [Steps step h X p ds p']: p' is reached from p by accepted steps of lengths ds, in order;
    a step is accepted when the path is below h or the step is at most X/10000. *)
Inductive Steps (step : R -> pl2 -> pl2 * R) (h X : R) : pl2 -> list R -> pl2 -> Prop :=
| St_nil p : Steps step h X p [] p
| St_cons p d ds p' : q_ p <> 0 -> snd (step d p) < h \/ d <= 0.0001 * X ->
    Steps step h X (fst (step d p)) ds p' -> Steps step h X p (d :: ds) p'.

(** C28.  The same for a state of the plasma layer: every accepted substep calls [adv], and is either
    fine enough or the finest allowed. *)
Inductive Advances {St} (need : R -> St -> option bool) (adv : R -> St -> option St) (finest : R) : St -> list R -> St -> Prop :=
| Ad_nil s : Advances need adv finest s [] s
| Ad_cons s d ds s1 s' : need d s = Some false \/ d = finest -> adv d s = Some s1 ->
    Advances need adv finest s1 ds s' -> Advances need adv finest s (d :: ds) s'.

(** C25.  The share of node i from a particle at normalised radius rho: its own cloud, its mirror
    image behind the axis (node -i, with sign [sg]) and its mirror image behind the wall node n-1. *)
Definition node_share (n : nat) (sg rho : R) (i : nat) : R :=
  spline2 (rho - INR i)
  + (if (i =? 0)%nat then 0 else sg * spline2 (rho + INR i))
  + (if (i =? n - 1)%nat then 0 else spline2 (rho - (2 * INR (n - 1) - INR i))).
(** The particle is inside the grid of n nodes: it belongs to the cell of one of the nodes. *)
Definition inside2 (h : R) (n : nat) (p : pl2) : Prop := 0 <= r_ p /\ r_ p / h < INR n - 1 / 2.

(** k layers in a row *)
Fixpoint run_layers {St} (step : St -> option St) (k : nat) (st : St) : option St :=
  match k with O => Some st | S k' => match step st with Some st' => run_layers step k' st' | None => None end end.
