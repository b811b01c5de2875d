(** Model of the rigid-beam mode: lcode/beam3d/beam_calculator.py:148-183 (RigidBeamCalculator),
    lcode/beam3d/beam_io.py:84-107 (RigidBeamSource, RigidBeamDrain), lcode/simulation.py:195-226.

    Simplifications: floats are exact reals; an array is a function of its two indices.  The
    distribution function gets whole coordinate arrays; it is modelled as acting element by element,
    as a numpy expression in them does. *)
From Coq Require Import Reals ZArith List Bool.
From Verif Require Import Plasma3D_Model.
Import ListNotations.
Open Scope R_scope.

Section Rigid.
  (** beam_charge_distribution_function(xp, xi, x, y) at one node *)
  Variable f : R -> R -> R -> R.
  (** beam_calculator.py:155-159: grid, and the two arrays of meshgrid(grid, grid) in its default
      'xy' indexing: x_grid[i, j] = grid[j], y_grid[i, j] = grid[i] *)
  Definition rigid_grid (n : nat) (h : R) (k : nat) : R := (INR k - INR (n / 2)) * h.
  Definition x_grid (n : nat) (h : R) : arr2 := fun i j => rigid_grid n h j.
  Definition y_grid (n : nat) (h : R) : arr2 := fun i j => rigid_grid n h i.
  (** beam_calculator.py:165-169 with beam_io.py:93-94: the density of plasma layer [idx] *)
  Definition rigid_layout (n : nat) (h dxi : R) (idx : nat) : arr2 := fun i j =>
    f (- INR idx * dxi) (x_grid n h i j) (y_grid n h i j).
  (** push_solver.py:216-262 in this mode: move_beam_layer, the drain and the beam layers are dummies
      (beam_calculator.py:171-183); create_next_layer returns a copy of the density.  The plasma
      solver is a parameter. *)
  Variable Pl : Type.
  Variable plasma : Pl -> arr2 -> arr2 -> Pl.
  Definition rigid_iter (n : nat) (h dxi : R) (xi_i : nat) (s : Pl * arr2) : Pl * arr2 :=
    let '(pl, ro_prev) := s in
    let ro := rigid_layout n h dxi xi_i in
    (plasma pl ro ro_prev, ro).
  Fixpoint rigid_loop (n : nat) (h dxi : R) (count xi_i : nat) (s : Pl * arr2) : Pl * arr2 :=
    match count with O => s | S c => rigid_loop n h dxi c (S xi_i) (rigid_iter n h dxi xi_i s) end.
  (** push_solver.py:223-230: the loop from the first layer to xi_steps, previous density zero *)
  Definition rigid_step_dt (n : nat) (h dxi : R) (first xi_steps : nat) (pl : Pl) : Pl :=
    fst (rigid_loop n h dxi (xi_steps + 1 - first) first (pl, zeros2)).
End Rigid.

(** simulation.py:195-209: how many time steps step(N_steps) makes; [limit_steps] is
    int(time_limit / time_step) *)
Definition n_steps (rigid : bool) (N_steps : option nat) (limit_steps : nat) : nat :=
  if rigid then 1%nat else match N_steps with None => limit_steps | Some N => N end.
