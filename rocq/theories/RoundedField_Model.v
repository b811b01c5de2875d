(** Model of the field lookups of the beam movers in binary64 arithmetic: every operation is rounded.
    lcode/beam3d/move.py:66-93 (CPU) and lcode/beam/weights.py:49-69.  The weights are those of RoundedDep_Model and
    Rounded3D_Model.  Indices are exact.  Overflow, nan and inf are not modelled. *)
From Coq Require Import Reals ZArith List.
From Verif Require Import Float_Model Beam2D_Model Shape_Model Beam3D_Model Rounded3D_Model RoundedDep_Model.
Import ListNotations.
Open Scope R_scope.

(** beam3d/move.py:71: (xi_halfstep - xi_k) / xi_step_size with xi_k of line 41 *)
Definition depth_f (dxi : R) (idx : Z) (z : R) : R := double (double (z - double (IZR idx * - dxi)) / dxi).
(** beam3d/move.py:67-93, one component: [fk] is the field of layer [idx], [fk1] that of layer [idx + 1] *)
Definition interp3_f (n : Z) (h dxi : R) (idx : Z) (x y z : R) (fk fk1 : grid) : R :=
  let x_h := x_h_f h x in let y_h := x_h_f h y in let xi_loc := depth_f dxi idx z in
  fold_left (fun s kx =>
    let wx := weight4_f double (loc_f double x_h) kx in
    fold_left (fun s ky =>
      let w := double (wx * weight4_f double (loc_f double y_h) ky) in
      let w0 := double (w * weight1_f xi_loc 0) in let w1 := double (w * weight1_f xi_loc 1) in
      let a := (cell n x_h + kx)%Z in let b := (cell n y_h + ky)%Z in
      double (s + double (double (fk a b * w0) + double (fk1 a b * w1)))) places s) places 0.
Definition fields_at_f (n : Z) (h dxi : R) (idx : Z) (p : R * R * R) (fk fk1 : fields3) : vec * vec :=
  let '(x, y, z) := p in let i := fun f => interp3_f n h dxi idx x y z (f fk) (f fk1) in
  ((i Ex, i Ey, i Ez), (i Bx, i By, i Bz)).

(** beam/weights.py:49-53 *)
Definition interpolate_f (v0 v1 : list R) (w : Z * R * R * R * R) : R :=
  let '(j, a00, a01, a10, a11) := w in
  double (double (double (double (a00 * at_ v0 j) + double (a01 * at_ v0 (j + 1))) + double (a10 * at_ v1 j)) + double (a11 * at_ v1 (j + 1))).
(** beam/weights.py:59: the distance from the axis *)
Definition radius_f (x y : R) : R := double (sqrt (double (double (x * x) + double (y * y)))).
(** beam/weights.py:57-71; [fk1] are the fields at xi_i (the lower layer), [fk] those at xi_i - 1 *)
Definition particle_fields_f (x : vec) (fk1 fk : fields) (xi_k_1 r_step xi_step : R) : vec * vec :=
  let r := radius_f (vx x) (vy x) in
  let w := particle_weights_f r (vz x) xi_k_1 r_step xi_step in
  let e_x := interpolate_f (E_r fk) (E_r fk1) w in
  let e_y := interpolate_f (E_f fk) (E_f fk1) w in
  let e_z := interpolate_f (E_z fk) (E_z fk1) w in
  let b_y := interpolate_f (B_f fk) (B_f fk1) w in
  let b_z := interpolate_f (B_z fk) (B_z fk1) w in
  ((e_x, e_y, e_z), (- e_y, b_y, b_z)).
