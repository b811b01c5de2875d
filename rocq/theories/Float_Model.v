(** The places where the code turns floating-point numbers into counts, in binary64 arithmetic: every
    operation is the exact one followed by rounding to nearest even (Flocq).  Values are the real numbers
    the doubles stand for; overflow, nan and inf are left out (the theorems bound the sizes). *)
From Coq Require Import Reals ZArith.
From Flocq Require Import Core.
Open Scope R_scope.

(** A real number rounded to the nearest double; also what float() makes of a decimal number (config.py:60-64). *)
Definition double (x : R) : R := round radix2 (FLT_exp (-1074) 53) ZnearestE x.
(** Python's int() and round() of a float. *)
Definition py_int (x : R) : Z := Ztrunc x.
Definition py_round (x : R) : Z := ZnearestE x.

(** int(a / b): the number of time steps (simulation.py:200), the number of layers in 2D (push_solver.py:40),
    the number of radial cells in 2D (push_solver.py:38, beam_calculate.py:371, plasma/initialization.py:10, 25,
    plasma/rhoj.py:98). *)
Definition whole_parts (a b : R) : Z := py_int (double (a / b)).
(** round(a / b): the number of layers in 3D (push_solver.py:206). *)
Definition nearest_parts (a b : R) : Z := py_round (double (a / b)).
(** The estimate of the number of cells across the window in 3D: the width is doubled first
    (config.py:190, 205). *)
Definition estimate_3d (width step : R) : Z := whole_parts (double (2 * width)) step.
(** The width stored for n cells (config.py:215), and the half width written to runas.py (config.py:140). *)
Definition stored_width (n : Z) (step : R) : R := double (IZR n * step).
Definition written_width (w : R) : R := double (w / 2).

(** simulation.py:244, 264: the time of the j-th step a rank makes. *)
Fixpoint clock (dt : R) (size rank j : nat) : R :=
  match j with
  | O => double (dt * IZR (Z.of_nat (rank + 1)))
  | S j' => double (clock dt size rank j' + double (dt * IZR (Z.of_nat size)))
  end.
(** push_solver.py:131, 265: the position of a layer, -xi_step * xi_i. *)
Definition layer_xi (dxi : R) (i : nat) : R := double (- dxi * IZR (Z.of_nat i)).
