(** The stored coordinates of an X_Y slice: diagnostics/slice.py:318-320. np.vstack of two rows raises (None) when they have
    different lengths. The ranges are those of Diag_Model.mk_slicer_xy. *)
From Coq Require Import Reals ZArith List.
From Verif Require Import Diag_Model.
Import ListNotations.
(** slice.py:320, np.vstack of two rows *)
Definition vstack2 (x y : list R) : option (list (list R)) := if Nat.eqb (length x) (length y) then Some [x; y] else None.
(** slice.py:318-320 *)
Definition xy_grid (steps : Z) (h : R) (s : slicer) : option (list (list R)) :=
  vstack2 (slice_grid steps h (s_a s) (s_b s)) (slice_grid steps h (s_c s) (s_d s)).
