(** One substep of the beam particles in binary64 arithmetic: lcode/beam3d/move.py:40-127 (CPU) and
    lcode/beam/beam_calculate.py:53-95, 184-256.

    Every operation is rounded, in the order of the source (numba compiles both without fastmath, so nothing is
    reordered or fused).  A square ** 2 is one rounded multiplication (numba expands integer powers).  Numbers are the real
    values of doubles; overflow, nan and inf are left out.  np.sum over the three components adds from the left.  The GPU
    kernel (move.py:133-270), whose compiler may fuse multiplications and additions, is not modelled here. *)
From Coq Require Import Reals ZArith List Bool.
From Verif Require Import Float_Model Beam2D_Model Shape_Model Beam3D_Model Rounded3D_Model RoundedDep_Model RoundedField_Model.
Import ListNotations.
Open Scope R_scope.

(** ** 3D *)
(** beam3d/move.py:47-48, 106-107 *)
Definition gam_f (qm px py pz : R) : R :=
  double (sqrt (double (double (double (double (double (1 / qm) * double (1 / qm)) + double (px * px)) + double (py * py)) + double (pz * pz)))).
(** beam3d/move.py:47-52 *)
Definition half3_f (p : part3) : R * R * R :=
  let g := gam_f (b_qm p) (b_px p) (b_py p) (b_pz p) in
  (double (b_x p + double (double (b_dt p / 2) * double (b_px p / g))),
   double (b_y p + double (double (b_dt p / 2) * double (b_py p / g))),
   double (b_xi p + double (double (b_dt p / 2) * double (double (b_pz p / g) - 1)))).
(** beam3d/move.py:98-103: one component of E + v x B *)
Definition lorentz_f (e v1 b1 v2 b2 : R) : R := double (double (e + double (v1 * b1)) - double (v2 * b2)).
(** beam3d/move.py:95-116: new momentum and position *)
Definition update_f (p : part3) (eb : vec * vec) : vec * vec :=
  let '(e, b) := eb in
  let g := gam_f (b_qm p) (b_px p) (b_py p) (b_pz p) in
  let v := (double (b_px p / g), double (b_py p / g), double (b_pz p / g)) in
  let s := double (double (Rsgn (b_qm p) * b_dt p) / 2) in
  let hx := double (b_px p + double (s * lorentz_f (vx e) (vy v) (vz b) (vz v) (vy b))) in
  let hy := double (b_py p + double (s * lorentz_f (vy e) (vz v) (vx b) (vx v) (vz b))) in
  let hz := double (b_pz p + double (s * lorentz_f (vz e) (vx v) (vy b) (vy v) (vx b))) in
  let g' := gam_f (b_qm p) hx hy hz in
  ((double (double (2 * hx) - b_px p), double (double (2 * hy) - b_py p), double (double (2 * hz) - b_pz p)),
   (double (b_x p + double (b_dt p * double (hx / g'))), double (b_y p + double (b_dt p * double (hy / g'))),
    double (b_xi p + double (b_dt p * double (double (hz / g') - 1))))).
(** beam3d/move.py:14-20 *)
Definition not_in_layer_f (x xi_k_1 : R) : bool := if Rlt_dec x xi_k_1 then true else false.
Definition is_lost3_f (x y r_max : R) : bool := if Rle_dec (double (r_max * r_max)) (double (double (x * x) + double (y * y))) then true else false.
(** beam3d/move.py:283-284 *)
Definition lost_radius_f (c : cfg3) : R :=
  let max_radius := double (double (c_h c * IZR (c_n c)) / 2) in Rmax (double (double 0.9 * max_radius)) (double (max_radius - 1)).
(** beam3d/move.py:44-121: the while loop for one particle; result: particle, lost, fell *)
Fixpoint loop3_f (c : cfg3) (idx : Z) (fk fk1 : fields3) (steps : nat) (p : part3) : part3 * bool * bool :=
  match steps with
  | O => (p, false, false)
  | S steps' =>
    let xi_k_1 := double (IZR (idx + 1) * - c_dxi c) in
    let '(hx, hy, hz) := half3_f p in
    if not_in_layer_f hz xi_k_1 then (p, false, true)
    else if is_lost3_f hx hy (lost_radius_f c) then
      (with_state p hx hy hz (b_px p) (b_py p) (b_pz p) (- b_id p) 0, true, false)
    else
      let '(p', x') := update_f p (fields_at_f (c_n c) (c_h c) (c_dxi c) idx (hx, hy, hz) fk fk1) in
      if is_lost3_f (vx x') (vy x') (lost_radius_f c) then
        (with_state p (vx x') (vy x') (vz x') (vx p') (vy p') (vz p') (- b_id p) 0, true, false)
      else loop3_f c idx fk fk1 steps'
             (with_state p (vx x') (vy x') (vz x') (vx p') (vy p') (vz p') (b_id p) steps')
  end.
(** beam3d/move.py:122-127: result: particle, and the lost, moved and fell flags *)
Definition move_one3_f (c : cfg3) (idx : Z) (fk fk1 : fields3) (p : part3) : part3 * (bool * bool * bool) :=
  let '(q, lost, fell) := loop3_f c idx fk fk1 (b_rem p) p in
  let fell' := fell || ((b_rem q =? 0)%nat && not_in_layer_f (b_x q) (double (IZR (idx + 1) * - c_dxi c))) in
  (q, (lost, negb fell' && negb lost, fell')).

(** ** 2D *)
(** beam/beam_calculate.py:203, 235: the sum of the squares of the momentum first *)
Definition gam2_f (qm px py pz : R) : R :=
  double (sqrt (double (double (double (1 / qm) * double (1 / qm)) + double (double (double (px * px) + double (py * py)) + double (pz * pz))))).
(** beam/beam_calculate.py:63-74 *)
Definition beam_to_vec_f (p : part) : vec * vec := ((p_r p, double (ang p / rad p), p_z p), (rad p, 0, xi p)).
(** beam/beam_calculate.py:204-206 *)
Definition half_position_f (p : part) (d : R) : vec :=
  let '(pv, x) := beam_to_vec_f p in
  let g := gam2_f (q_m p) (vx pv) (vy pv) (vz pv) in
  let m := fun a w => double (a + double (double (double (d / 2) * w) / g)) in
  (m (vx x) (vx pv), m (vy x) (vy pv), double (m (vz x) (vz pv) - double (d / 2))).
(** beam/beam_calculate.py:41-49, 231: one component of E + v x B *)
Definition lorentz2_f (e v1 b1 v2 b2 : R) : R := double (e + double (double (v1 * b1) - double (v2 * b2))).
(** beam/beam_calculate.py:228-240: new position and momentum; [eb] is the interpolated field *)
Definition substep_f (c : pcfg) (p : part) (d : R) (eb : vec * vec) : vec * vec :=
  let '(pv, x) := beam_to_vec_f p in
  let g := gam2_f (q_m p) (vx pv) (vy pv) (vz pv) in
  let e := fst eb in
  let b := (vx (snd eb), vy (snd eb), double (vz (snd eb) + magnetic_field c)) in
  let v := (double (vx pv / g), double (vy pv / g), double (vz pv / g)) in
  let s := double (double (d / 2) * Rsgn (q_m p)) in
  let hx := double (vx pv + double (s * lorentz2_f (vx e) (vy v) (vz b) (vz v) (vy b))) in
  let hy := double (vy pv + double (s * lorentz2_f (vy e) (vz v) (vx b) (vx v) (vz b))) in
  let hz := double (vz pv + double (s * lorentz2_f (vz e) (vx v) (vy b) (vy v) (vx b))) in
  let g' := gam2_f (q_m p) hx hy hz in
  let m := fun a w => double (a + double (double (d * w) / g')) in
  ((m (vx x) hx, m (vy x) hy, double (m (vz x) hz - d)),
   (double (double (2 * hx) - vx pv), double (double (2 * hy) - vy pv), double (double (2 * hz) - vz pv))).
(** beam/beam_calculate.py:78-95 *)
Definition vec_to_beam_f (c : pcfg) (b : bpart) (x p : vec) (steps : nat) (l : bool) : bpart :=
  let r := radius_f (vx x) (vy x) in
  mkB (mkPart (vz x) r (vz p) (double (double (double (vx x * vx p) + double (vy x * vy p)) / r))
              (if Req_EM_T (magnetic_field c) 0 then ang (pt b) else double (double (vx x * vy p) - double (vy x * vx p)))
              (q_m (pt b)) (q_norm (pt b)) (pid (pt b)))
      (dt b) steps l.
(** beam/beam_calculate.py:53-59, 115 *)
Definition in_layer2_f (x : vec) (xi_k_1 : R) : bool := if Rle_dec xi_k_1 (vz x) then true else false.
Definition is_lost2_f (x : vec) (rmax : R) : bool := if Rle_dec (double (rmax * rmax)) (double (double (vx x * vx x) + double (vy x * vy x))) then true else false.
Definition lost_boundary_f (c : pcfg) : R := Rmax (double (double 0.9 * max_radius c)) (double (max_radius c - 1)).
(** beam/beam_calculate.py:197-256: the while loop for one particle *)
Fixpoint push_loop_f (c : pcfg) (fk1 fk : fields) (xi_end : R) (steps : nat) (b : bpart) : bpart :=
  match steps with
  | O => b
  | S steps' =>
    let '(pv, x) := beam_to_vec_f (pt b) in
    let xh := half_position_f (pt b) (dt b) in
    if negb (in_layer2_f xh xi_end) then b
    else if is_lost2_f xh (lost_boundary_f c) then vec_to_beam_f c b x pv steps true
    else
      let eb := particle_fields_f xh fk1 fk xi_end (r_step c) (xi_step c) in
      let '(x1, p1) := substep_f c (pt b) (dt b) eb in
      if is_lost2_f x1 (lost_boundary_f c) then vec_to_beam_f c b x1 p1 steps' true
      else push_loop_f c fk1 fk xi_end steps' (vec_to_beam_f c b x1 p1 steps' (lost b))
  end.
(** beam/beam_calculate.py:184, 197-256; [i] is xi_i *)
Definition push_particle_f (c : pcfg) (fk1 fk : fields) (i : Z) (b : bpart) : bpart := push_loop_f c fk1 fk (double (IZR i * - xi_step c)) (rem b) b.
