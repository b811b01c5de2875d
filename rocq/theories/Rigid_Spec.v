(** What the rigid-beam theorems (C61) say. *)
From Coq Require Import Reals ZArith List Bool.
From Verif Require Import Plasma3D_Model Coupling_Spec.
Import ListNotations.
Open Scope R_scope.

(** The node number a of n lies at (a - n/2) h. *)
Definition node_at (n : nat) (h : R) (a : nat) : R := (INR a - INR (n / 2)) * h.
(** The density the user asked for in layer k, first index along x as in every other array. *)
Definition asked_density (f : R -> R -> R -> R) (n : nat) (h dxi : R) (k : nat) : arr2 := fun a b =>
  f (- (INR k * dxi)) (node_at n h a) (node_at n h b).
(** The plasma behind the layers first, ..., last that carry these densities. *)
Definition wake_of {Pl} (plasma : Pl -> arr2 -> arr2 -> Pl) (density : nat -> arr2) (first last : nat) (pl : Pl) : Pl :=
  wake plasma pl zeros2 (map density (seq first (last + 1 - first))).
