(** The deposition of the beams once more, with every floating-point operation rounded to a double:
    lcode/beam/weights.py, beam/beam_calculate.py:381-413, lcode/beam3d/weights.py, beam3d/beam_calculator.py:82-93 (CPU).

    The operations are in the order of the source.  Numbers are the real values of doubles; overflow, nan and inf are left out.
    h ** 2 is C's pow: its result [h2] is a parameter that the theorems assume accurate to one unit in the last place.
    The depositions of the plasmas are Rounded2D_Model.deposit_particle_f and Rounded3D_Model.deposit_plasma_one_f with
    rnd = double. *)
From Coq Require Import Reals ZArith List Bool.
From Verif Require Import Float_Model Beam2D_Model Beam3D_Model Shape_Model Rounded3D_Model.
Import ListNotations.
Open Scope R_scope.

(** ** 3D *)
(** beam3d/weights.py:10-14 *)
Definition weight1_f (x : R) (place : Z) : R := match place with 0%Z => x | 1%Z => double (1 - x) | _ => 0 end.
(** beam3d/weights.py:50-64, one output array: [place] 0 is out_ro0, 1 is out_ro1 *)
Definition deposit_beam_one_f (n : Z) (x_h y_h xi_loc q : R) (place : Z) (out : grid) : grid :=
  fold_left (fun g kx =>
    let wx := weight4_f double (loc_f double x_h) kx in
    fold_left (fun g ky =>
      let w := double (wx * weight4_f double (loc_f double y_h) ky) in
      add_cell_f double g (cell n x_h + kx) (cell n y_h + ky) (double (q * double (w * weight1_f xi_loc place)))) places g) places out.
(** beam3d/weights.py:152-163 *)
Definition xi_loc_f (dxi : R) (idx : Z) (xi : R) : R := double (double (double (- dxi * IZR idx) - xi) / dxi).
Definition x_h_f (h x : R) : R := double (double (x / h) + 0.5).
Definition deposit3_f (n : Z) (h dxi : R) (idx : Z) (l : list part3) (out : grid * grid) : grid * grid :=
  fold_left (fun o p =>
    let xi_loc := xi_loc_f dxi idx (b_xi p) in
    let x_h := x_h_f h (b_x p) in let y_h := x_h_f h (b_y p) in
    (deposit_beam_one_f n x_h y_h xi_loc (b_q p) 0 (fst o), deposit_beam_one_f n x_h y_h xi_loc (b_q p) 1 (snd o))) l out.
(** beam3d/beam_calculator.py:82-93 *)
Definition layout3_f (n : Z) (h h2 dxi : R) (rho_layout : grid) (l : list part3) (idx : Z) : grid * grid :=
  let '(r0, r1) := match l with [] => (rho_layout, zero_grid) | _ => deposit3_f n h dxi idx l (rho_layout, zero_grid) end in
  ((fun a b => double (r0 a b / h2)), r1).
(** push_solver.py:238-252: one layer after another *)
Fixpoint layouts3_f (n : Z) (h h2 dxi : R) (rho_l : grid) (ls : list (list part3)) (i : Z) : list grid * grid :=
  match ls with
  | [] => ([], rho_l)
  | l :: t => let '(rho, next) := layout3_f n h h2 dxi rho_l l i in
              let '(r, e) := layouts3_f n h h2 dxi next t (i + 1) in (rho :: r, e)
  end.

(** ** 2D *)
(** beam/weights.py:11-23 *)
Definition particle_weights_f (r x xi_end r_step xi_step : R) : Z * R * R * R * R :=
  let j := floorR (double (r / r_step)) in
  let dxi := double (- double (xi_end - x) / xi_step) in
  let dr := double (double (r / r_step) - IZR j) in
  let a0_xi := dxi in let a1_xi := double (1 - dxi) in
  let a0_r := double (1 - dr) in let a1_r := dr in
  (j, double (a0_xi * a0_r), double (a0_xi * a1_r), double (a1_xi * a0_r), double (a1_xi * a1_r)).
(** beam/weights.py:5-8 *)
Fixpoint add_nat_f (out : list R) (i : nat) (v : R) : option (list R) :=
  match out, i with
  | [], _ => None
  | x :: t, O => Some (double (x + v) :: t)
  | x :: t, S i' => option_map (cons x) (add_nat_f t i' v)
  end.
Fixpoint add_at_f (out : list R) (ivs : list (Z * R)) : option (list R) :=
  match ivs with
  | [] => Some out
  | (i, v) :: t => if (i <? 0)%Z then None else bind (add_nat_f out (Z.to_nat i) v) (fun o => add_at_f o t)
  end.
(** beam/weights.py:26-45: first the weights of all particles, then four passes *)
Definition deposit_f (l : list bpart) (out0 out1 : list R) (xi_end r_step xi_step : R) : option (list R * list R) :=
  let ws := map (fun b => (q_norm (pt b), particle_weights_f (rad (pt b)) (xi (pt b)) xi_end r_step xi_step)) l in
  bind (add_at_f out0 (map (fun w => let '(v, (j, a00, a01, a10, a11)) := w in (j, double (a00 * v))) ws)) (fun o0 =>
  bind (add_at_f o0 (map (fun w => let '(v, (j, a00, a01, a10, a11)) := w in ((j + 1)%Z, double (a01 * v))) ws)) (fun o0' =>
  bind (add_at_f out1 (map (fun w => let '(v, (j, a00, a01, a10, a11)) := w in (j, double (a10 * v))) ws)) (fun o1 =>
  bind (add_at_f o1 (map (fun w => let '(v, (j, a00, a01, a10, a11)) := w in ((j + 1)%Z, double (a11 * v))) ws)) (fun o1' =>
  Some (o0', o1'))))).
(** beam/beam_calculate.py:409-412 *)
Definition scale_cell_f (h2 : R) (j : nat) (x : R) : R :=
  match j with O => double (double (x / h2) * 6) | _ => double (double (x / h2) / INR j) end.
Fixpoint scale_from_f (h2 : R) (j : nat) (l : list R) : list R :=
  match l with [] => [] | x :: t => scale_cell_f h2 j x :: scale_from_f h2 (S j) t end.
(** beam/beam_calculate.py:381-413 *)
Definition layout2_f (r_step h2 xi_step : R) (rho_layout : list R) (l : list bpart) (xi_i : Z) : option (list R * list R) :=
  let next := map (fun _ => 0) rho_layout in
  let xi_end := double (IZR (xi_i + 1) * (- xi_step)) in
  bind (deposit_f l rho_layout next xi_end r_step xi_step) (fun o => Some (scale_from_f h2 0 (fst o), snd o)).
(** push_solver.py:93-118: one layer after another *)
Fixpoint layouts2_f (r_step h2 xi_step : R) (rho_l : list R) (ls : list (list bpart)) (i : Z) : option (list (list R) * list R) :=
  match ls with
  | [] => Some ([], rho_l)
  | l :: t => bind (layout2_f r_step h2 xi_step rho_l l i) (fun o =>
              bind (layouts2_f r_step h2 xi_step (snd o) t (i + 1)) (fun r => Some (fst o :: fst r, snd r)))
  end.
