(** Specification vocabulary for the 3D deposition and interpolation: the quartic B-spline by
    truncated powers, and sums over a grid. *)
From Coq Require Import Reals ZArith List.
From Verif Require Import Shape_Model.
Import ListNotations.
Open Scope R_scope.

Definition tpow (x : R) : R := if Rle_dec 0 x then x ^ 4 else 0.
(** Cardinal quartic B-spline with support [-5/2, 5/2]:
    S(u) = 1/4! sum_k (-1)^k binom(5,k) (u + 5/2 - k)_+^4. *)
Definition spline4 (u : R) : R :=
  (tpow (u + 5/2) - 5 * tpow (u + 3/2) + 10 * tpow (u + 1/2)
   - 10 * tpow (u - 1/2) + 5 * tpow (u - 3/2) - tpow (u - 5/2)) / 24.

Fixpoint sumZ (n : nat) (f : Z -> R) : R :=
  match n with O => 0 | S n' => sumZ n' f + f (Z.of_nat n') end.
(** Sum over an n x n array. *)
Definition gsum (n : nat) (g : grid) : R := sumZ n (fun a => sumZ n (fun b => g a b)).

(** The shape of a particle at transverse position (x, y), seen from cell (a, b) of a grid with
    [n] cells of size [h] whose cell n/2 is at the origin. *)
Definition shape (n : Z) (h x y : R) (a b : Z) : R :=
  spline4 (IZR (a - n / 2) - x / h) * spline4 (IZR (b - n / 2) - y / h).
(** All 25 cells touched by the particle are inside the array. *)
Definition inside (n : Z) (h x : R) : Prop :=
  - IZR (n / 2) + 3 / 2 <= x / h /\ x / h < IZR (n - 1 - n / 2) - 3 / 2.
