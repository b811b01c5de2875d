(** Model of the 3D shape functions and of the 5x5 deposition / interpolation loops shared by the
    beam and the plasma: lcode/beam3d/weights.py:9-64, lcode/plasma3d/weights.py:12-67, the
    interpolation loops of lcode/beam3d/move.py:66-93 and lcode/plasma3d/move.py:86-106.

    Simplifications: floats are exact reals; a 2D array is a function of two integer indices, and
    that every index used lies inside the array is a separate theorem (C31_indices_inside). *)
From Coq Require Import Reals ZArith List.
From Verif Require Import Beam2D_Model.
Import ListNotations.
Open Scope R_scope.

(** A 2D array indexed [ix, iy]. *)
Definition grid := Z -> Z -> R.
Definition zero_grid : grid := fun _ _ => 0.
(** out[ix, iy] += v *)
Definition add_cell (g : grid) (ix iy : Z) (v : R) : grid :=
  fun a b => if (a =? ix)%Z then if (b =? iy)%Z then g a b + v else g a b else g a b.

(** beam3d/weights.py:10-14 *)
Definition weight1 (x : R) (place : Z) : R :=
  match place with 0%Z => x | 1%Z => 1 - x | _ => 0 end.

(** beam3d/weights.py:18-36 = plasma3d/weights.py:13-32 (the GPU kernels are the same formulas;
    any other [place] gives None in Python, 0 on the GPU and here; it is never used). *)
Definition weight4 (x : R) (place : Z) : R :=
  match place with
  | (-2)%Z => (1 / 2 - x) ^ 4 / 24
  | (-1)%Z => 19 / 96 - 11 / 24 * x + x ^ 2 / 4 + x ^ 3 / 6 - x ^ 4 / 6
  | 0%Z => 115 / 192 - x ^ 2 * 5 / 8 + x ^ 4 / 4
  | 1%Z => 19 / 96 + 11 / 24 * x + x ^ 2 / 4 - x ^ 3 / 6 - x ^ 4 / 6
  | 2%Z => (1 / 2 + x) ^ 4 / 24
  | _ => 0
  end.

(** range(-2, 3) *)
Definition places : list Z := [-2; -1; 0; 1; 2]%Z.

(** beam3d/weights.py:50-53: offset in the cell and cell index along one axis *)
Definition loc (x_h : R) : R := x_h - IZR (floorR x_h) - 0.5.
Definition cell (grid_steps : Z) (x_h : R) : Z := (floorR x_h + grid_steps / 2)%Z.

(** The double loop: weights.py:55-64 (beam), 54-67 (plasma).  One output array at a time (the
    arrays are distinct); [f w] is the value added for the weight [w] = weight4 * weight4 (divided
    by grid_step_size twice in the plasma: [norm]). *)
Definition deposit_one (grid_steps : Z) (norm : R) (x_h y_h : R) (f : R -> R) (out : grid) : grid :=
  fold_left (fun g kx =>
    let wx := weight4 (loc x_h) kx / norm in
    fold_left (fun g ky =>
      let w := wx * weight4 (loc y_h) ky / norm in
      add_cell g (cell grid_steps x_h + kx) (cell grid_steps y_h + ky) (f w)) places g) places out.

(** beam3d/move.py:74-93, plasma3d/move.py:93-106: value gathered from the 25 cells; [val a b w] is
    what cell (a, b) with weight w contributes. *)
Definition gather (grid_steps : Z) (x_h y_h : R) (val : Z -> Z -> R -> R) : R :=
  fold_left (fun s kx =>
    let wx := weight4 (loc x_h) kx in
    fold_left (fun s ky =>
      let w := wx * weight4 (loc y_h) ky in
      s + val (cell grid_steps x_h + kx)%Z (cell grid_steps y_h + ky)%Z w) places s) places 0.
