(** Model of the two distributions of beam_generator/beam_profiles.py that have no caller in the package: RejectSamplDistr
    (9-26) and the longitudinal branch of SmoothDistr (29-47).  [None] is a raised exception; floats are exact reals. *)
From Coq Require Import Reals ZArith List Bool.
From Verif Require Import Float_Model Beam2D_Model PyBeam_Model.
Import ListNotations.
Open Scope R_scope.

(** ** SmoothDistr *)
(** Python's a // b on numbers *)
Definition floor_div (a b : R) : Z := floorR (a / b).
(** beam_profiles.py:37-38 *)
Definition whole_steps (v step : R) : R := IZR (floor_div v step) * step.
(** beam_profiles.py:33-41, 47: [cdf], [ppf] are those of the scipy distribution with its arguments; N need not be whole;
    a step or a density of 0 raises in the code and is left out here (the theorems exclude both).  int of a non-negative
    whole float. *)
Definition smooth_xi (cdf ppf : R -> R) (vmin vmax xi_max step N : R) : list R :=
  let p0l := cdf (xi_max - step / 2) in
  let p0r := cdf (xi_max + step / 2) in
  let dp := (p0r - p0l) / N in
  let p1 := cdf (whole_steps vmin step) in
  let p2 := cdf (whole_steps vmax step) in
  let N' := Z.to_nat (floor_div (Rabs (p2 - p1)) dp) in
  map ppf (inner_points p1 p2 N').

(** ** RejectSamplDistr *)
(** np.random.uniform(a, b, size): [u] are the numbers of the generator, between 0 and 1 *)
Definition uniform (a b : R) (u : nat -> R) (size : nat) : list R := map (fun i => a + (b - a) * u i) (seq 0 size).
(** beam_profiles.py:10-15 *)
Definition generate (pdf : R -> R) (xmax vmin vmax : R) (u w : nat -> R) (size : nat) : list R :=
  let x := uniform vmin vmax u size in
  let y := uniform 0 (pdf xmax) w size in
  map fst (filter (fun c => if Rle_dec (snd c) (pdf (fst c)) then true else false) (combine x y)).
(** beam_profiles.py:17-22: [u0], [w0] are the numbers drawn when the distribution is made, [u], [w] those drawn for the values *)
Definition reject_sample (pdf : R -> R) (xmax vmin vmax : R) (u0 w0 u w : nat -> R) (N : R) : option (list R) :=
  let N0 := Z.to_nat 10000 in
  let ratio := INR (length (generate pdf xmax vmin vmax u0 w0 N0)) / INR N0 in
  if Req_EM_T ratio 0 then None
  else Some (firstn (Z.to_nat (py_int N)) (generate pdf xmax vmin vmax u w (2 * Z.to_nat (py_int (N / ratio))))).
