(** Model of the 3D beam code: lcode/beam3d/{data,beam_io,beam_calculator,weights,move}.py and the
    xi loop of lcode/push_solvers/push_solver.py:216-262; and of beam files (2D and 3D):
    lcode/beam/beam_io.py:131-133, lcode/beam/data.py:109-134, lcode/beam3d/data.py:65-84.

    Simplifications: floats are exact reals; BeamParticles, a structure of equally long arrays that
    are always indexed together, is a list of records; logging and diagnostics are left out. *)
From Coq Require Import Reals ZArith List Bool String.
From Verif Require Import Beam2D_Model Shape_Model.
Import ListNotations.
Open Scope R_scope.

(** data.py:5-7 and 30-40 *)
Record part3 := mk3 { b_xi : R; b_x : R; b_y : R; b_px : R; b_py : R; b_pz : R;
                      b_qm : R; b_q : R; b_id : Z; b_dt : R; b_rem : nat }.

Section Beam3D.
  (** np.argsort(-xi), data.py:88-103 *)
  Variable sort3 : list part3 -> list part3.

  (** beam_io.py:14-27 *)
  Definition new_source3 (beam : list part3) : list part3 := sort3 beam.

  (** beam_io.py:29-47; data.py:122-148 (cut_beam_layer) *)
  Definition in_layer3 (dxi : R) (idx : Z) (p : part3) : bool :=
    if Rle_dec (- dxi * (IZR (idx + 1))) (b_xi p) then
      if Rlt_dec (b_xi p) (- dxi * IZR idx) then true else false else false.
  Definition get_layer3 (dxi : R) (src : list part3) (idx : Z) : list part3 * list part3 :=
    let layer_length := List.length (filter (in_layer3 dxi idx) src) in
    (firstn layer_length src, skipn layer_length src).

  (** beam_io.py:61-66: append *)
  Definition push_layer3 (buf layer : list part3) : list part3 := buf ++ layer.

  (** ** Deposition: weights.py:41-64 and 152-163, beam_calculator.py:82-93 *)
  Definition deposit3 (n : Z) (h dxi : R) (idx : Z) (l : list part3) (out : grid * grid) : grid * grid :=
    fold_left (fun o p =>
      let xi_layer := - dxi * IZR idx in
      let xi_loc := (xi_layer - b_xi p) / dxi in
      let x_h := b_x p / h + 0.5 in
      let y_h := b_y p / h + 0.5 in
      (deposit_one n 1 x_h y_h (fun w => b_q p * (w * weight1 xi_loc 0)) (fst o),
       deposit_one n 1 x_h y_h (fun w => b_q p * (w * weight1 xi_loc 1)) (snd o))) l out.
  (** The density of layer idx and the new rho_layout. *)
  Definition layout3 (n : Z) (h dxi : R) (rho_layout : grid) (l : list part3) (idx : Z) : grid * grid :=
    let '(r0, r1) := match l with [] => (rho_layout, zero_grid)
                     | _ => deposit3 n h dxi idx l (rho_layout, zero_grid) end in
    ((fun a b => r0 a b / h ^ 2), r1).

  (** ** Substeps: beam_calculator.py:18-25, 97-114 *)
  Definition start3 (halvings : nat) (energy time_step : R) (p : part3) : option part3 :=
    option_map (fun d => mk3 (b_xi p) (b_x p) (b_y p) (b_px p) (b_py p) (b_pz p) (b_qm p) (b_q p) (b_id p)
                             (d * time_step) (Z.to_nat (floorR (1 / d))))
      (halve_loop halvings 1 (max_sub_dt (b_qm p) (b_pz p) energy)).
  (** Only the first [size - fell_size] particles are initialised. *)
  Definition start_layer3 (halvings : nat) (energy time_step : R) (l : list part3) (fell_size : nat)
    : option (list part3) :=
    let size := (List.length l - fell_size)%nat in
    option_map (fun a => a ++ skipn size l) (map_opt (start3 halvings energy time_step) (firstn size l)).

  (** ** Mover: move.py *)
  Record fields3 := mkF3 { Ex : grid; Ey : grid; Ez : grid; Bx : grid; By : grid; Bz : grid }.
  Record cfg3 := mkC3 { c_n : Z; c_h : R; c_dxi : R; c_time_step : R; c_energy : R }.
  (** move.py:283-285 *)
  Definition lost_radius (c : cfg3) : R :=
    let max_radius := c_h c * IZR (c_n c) / 2 in Rmax (0.9 * max_radius) (max_radius - 1).
  (** move.py:14-25 *)
  Definition not_in_layer (x xi_k_1 : R) : bool := if Rlt_dec x xi_k_1 then true else false.
  Definition is_lost3 (x y r_max : R) : bool := if Rle_dec (r_max ^ 2) (x ^ 2 + y ^ 2) then true else false.

  Definition gam (qm px py pz : R) : R := sqrt ((1 / qm) ^ 2 + px ^ 2 + py ^ 2 + pz ^ 2).

  (** move.py:47-53 *)
  Definition half3 (p : part3) : R * R * R :=
    let g := gam (b_qm p) (b_px p) (b_py p) (b_pz p) in
    (b_x p + b_dt p / 2 * (b_px p / g), b_y p + b_dt p / 2 * (b_py p / g),
     b_xi p + b_dt p / 2 * (b_pz p / g - 1)).

  (** move.py:66-93: [fk] are the fields of layer [idx], [fk1] those of layer [idx + 1]. *)
  Definition interp3 (c : cfg3) (xi_k : R) (x y z : R) (fk fk1 : grid) : R :=
    let xi_loc := (z - xi_k) / c_dxi c in
    gather (c_n c) (x / c_h c + 0.5) (y / c_h c + 0.5) (fun a b w =>
      fk a b * (w * weight1 xi_loc 0) + fk1 a b * (w * weight1 xi_loc 1)).
  Definition fields_at (c : cfg3) (idx : Z) (h : R * R * R) (fk fk1 : fields3) : vec * vec :=
    let i := fun f => interp3 c (IZR idx * - c_dxi c) (fst (fst h)) (snd (fst h)) (snd h) (f fk) (f fk1) in
    ((i Ex, i Ey, i Ez), (i Bx, i By, i Bz)).

  Definition with_state (p : part3) (x y xi px py pz : R) (id : Z) (rem : nat) : part3 :=
    mk3 xi x y px py pz (b_qm p) (b_q p) id (b_dt p) rem.

  (** move.py:95-114, CPU: new momentum and position. *)
  Definition update_cpu (p : part3) (eb : vec * vec) : vec * vec :=
    let '(e, b) := eb in
    let g := gam (b_qm p) (b_px p) (b_py p) (b_pz p) in
    let v := (b_px p / g, b_py p / g, b_pz p / g) in
    let s := Rsgn (b_qm p) * b_dt p / 2 in
    let hx := b_px p + s * (vx e + vy v * vz b - vz v * vy b) in
    let hy := b_py p + s * (vy e + vz v * vx b - vx v * vz b) in
    let hz := b_pz p + s * (vz e + vx v * vy b - vy v * vx b) in
    let g' := gam (b_qm p) hx hy hz in
    ((2 * hx - b_px p, 2 * hy - b_py p, 2 * hz - b_pz p),
     (b_x p + b_dt p * (hx / g'), b_y p + b_dt p * (hy / g'), b_xi p + b_dt p * (hz / g' - 1))).

  (** move.py:212-249, GPU (Higuera-Cary).  copysign(1.0, q_m) differs from [Rsgn] only at 0. *)
  Definition hc_gamma (qm : R) (pm b : vec) : R :=
    let g := gam qm (vx pm) (vy pm) (vz pm) in
    let b_sq := vx b * vx b + vy b * vy b + vz b * vz b in
    let bp := vx b * vx pm + vy b * vy pm + vz b * vz pm in
    sqrt ((g * g - b_sq + sqrt ((g * g - b_sq) * (g * g - b_sq) + 4 * b_sq + 4 * bp * bp)) / 2).
  Definition hc_rotate (pm t : vec) : vec :=
    let tp := 1 + vx t * vx t + vy t * vy t + vz t * vz t in
    let tm := 1 - vx t * vx t - vy t * vy t - vz t * vz t in
    let sx := 2 * vx t / tp in let sy := 2 * vy t / tp in let sz := 2 * vz t / tp in
    let sp := sx * vx pm + sy * vy pm + sz * vz pm in
    (vx t * sp + vx pm * tm / tp + vy pm * sz - vz pm * sy,
     vy t * sp + vy pm * tm / tp + vz pm * sx - vx pm * sz,
     vz t * sp + vz pm * tm / tp + vx pm * sy - vy pm * sx).
  Definition update_gpu (p : part3) (eb : vec * vec) : vec * vec :=
    let '(e, b) := eb in
    let s := Rsgn (b_qm p) * b_dt p / 2 in
    let pm := (b_px p + s * vx e, b_py p + s * vy e, b_pz p + s * vz e) in
    let bb := (s * vx b, s * vy b, s * vz b) in
    let g := hc_gamma (b_qm p) pm bb in
    let r := hc_rotate pm (vx bb / g, vy bb / g, vz bb / g) in
    let p' := (vx r + s * vx e, vy r + s * vy e, vz r + s * vz e) in
    let g' := gam (b_qm p) (vx p') (vy p') (vz p') in
    let h := half3 p in
    (p', (fst (fst h) + b_dt p / 2 * (vx p' / g'), snd (fst h) + b_dt p / 2 * (vy p' / g'),
          snd h + b_dt p / 2 * (vz p' / g' - 1))).

  Inductive unit_type := CPU | GPU.
  Definition update (u : unit_type) := match u with CPU => update_cpu | GPU => update_gpu end.

  (** move.py:44-121 / 179-259: the while loop for one particle; result: particle, lost, fell. *)
  Fixpoint loop3 (u : unit_type) (c : cfg3) (idx : Z) (fk fk1 : fields3) (steps : nat) (p : part3)
    : part3 * bool * bool :=
    match steps with
    | O => (p, false, false)
    | S steps' =>
      let xi_k_1 := IZR (idx + 1) * - c_dxi c in
      let '(hx, hy, hz) := half3 p in
      if not_in_layer hz xi_k_1 then (p, false, true)
      else if is_lost3 hx hy (lost_radius c) then
        (with_state p hx hy hz (b_px p) (b_py p) (b_pz p) (- b_id p) 0, true, false)
      else
        let '(p', x') := update u p (fields_at c idx (hx, hy, hz) fk fk1) in
        if is_lost3 (vx x') (vy x') (lost_radius c) then
          (with_state p (vx x') (vy x') (vz x') (vx p') (vy p') (vz p') (- b_id p) 0, true, false)
        else loop3 u c idx fk fk1 steps'
               (with_state p (vx x') (vy x') (vz x') (vx p') (vy p') (vz p') (b_id p) steps')
    end.
  (** move.py:122-127 (CPU tests x[k] instead of xi[k]) / 261-268 (GPU): result: particle, lost,
      moved, fell flags. *)
  Definition move_one3 (u : unit_type) (c : cfg3) (idx : Z) (fk fk1 : fields3) (p : part3)
    : part3 * (bool * bool * bool) :=
    let '(q, lost, fell) := loop3 u c idx fk fk1 (b_rem p) p in
    let xi_k_1 := IZR (idx + 1) * - c_dxi c in
    let tested := match u with CPU => b_x q | GPU => b_xi q end in
    let fell' := fell || ((b_rem q =? 0)%nat && not_in_layer tested xi_k_1) in
    (q, (lost, negb fell' && negb lost, fell')).

  (** beam_calculator.py:116-134; beam layer index = plasma layer index - 1 *)
  Definition move_layer3 (u : unit_type) (halvings : nat) (c : cfg3) (l : list part3) (fell_size : nat)
             (pl_layer_idx : Z) (fk fk1 : fields3) : option (list part3 * list part3 * list part3) :=
    option_map (fun l' =>
      let r := map (move_one3 u c (pl_layer_idx - 1) fk fk1) l' in
      (map fst (filter (fun x => fst (fst (snd x))) r), map fst (filter (fun x => snd (fst (snd x))) r),
       map fst (filter (fun x => snd (snd x)) r)))
      (start_layer3 halvings (c_energy c) (c_time_step c) l fell_size).

  (** push_solver.py:216-262 with beam_calculator.py:136-143: the xi loop.  The plasma is abstract.
      The lost particles are collected here although the code drops them (line 253 is commented). *)
  Variable Pl : Type.
  Variable plasma : Pl -> grid -> grid -> Pl.
  Variable pl_fields : Pl -> fields3.
  Record state3 := mkS3 { s_src : list part3; s_move : list part3; s_fell : nat; s_lost : list part3;
                          s_drain : list part3; s_rho : grid; s_prev : grid; s_pl : Pl }.
  Definition iter3 (u : unit_type) (halvings : nat) (c : cfg3) (xi_i : Z) (s : state3) : option state3 :=
    let '(layer, src') := get_layer3 (c_dxi c) (s_src s) xi_i in
    let '(rho, rho') := layout3 (c_n c) (c_h c) (c_dxi c) (s_rho s) layer xi_i in
    let pl' := plasma (s_pl s) rho (s_prev s) in
    option_map (fun r => let '(lost, moved, fell) := r in
      mkS3 src' (layer ++ fell) (List.length fell) (s_lost s ++ lost) (push_layer3 (s_drain s) moved) rho' rho pl')
      (move_layer3 u halvings c (s_move s) (s_fell s) xi_i (pl_fields (s_pl s)) (pl_fields pl')).
  Fixpoint run3 (u : unit_type) (halvings : nat) (c : cfg3) (n : nat) (xi_i : Z) (s : state3) : option state3 :=
    match n with
    | O => Some s
    | S n' => match iter3 u halvings c xi_i s with None => None | Some s' => run3 u halvings c n' (xi_i + 1) s' end
    end.
End Beam3D.

(** ** Beam files.  An npz file is a list of named columns; reading a missing name is a KeyError. *)
Inductive column := ColR (l : list R) | ColZ (l : list Z).
Definition npz := list (string * column).
Fixpoint get_col (f : npz) (key : string) : option column :=
  match f with [] => None | (k, c) :: t => if string_dec k key then Some c else get_col t key end.
Definition get_R (f : npz) (key : string) : option (list R) :=
  match get_col f key with Some (ColR l) => Some l | _ => None end.
Definition get_Z (f : npz) (key : string) : option (list Z) :=
  match get_col f key with Some (ColZ l) => Some l | _ => None end.

(** beam/beam_io.py:131-133 *)
Definition save_beam2d (l : list part) : npz :=
  [("xi", ColR (map xi l)); ("r", ColR (map rad l)); ("pz", ColR (map p_z l)); ("pr", ColR (map p_r l));
   ("M", ColR (map ang l)); ("q_m", ColR (map q_m l)); ("q_norm", ColR (map q_norm l)); ("id", ColZ (map pid l))]%string.
Fixpoint zip_part (xi r pz pr m qm q : list R) (id : list Z) : list part :=
  match xi, r, pz, pr, m, qm, q, id with
  | a :: xi', b :: r', c :: pz', d :: pr', e :: m', f :: qm', g :: q', i :: id' =>
    mkPart a b c d e f g i :: zip_part xi' r' pz' pr' m' qm' q' id'
  | _, _, _, _, _, _, _, _ => []
  end.
(** beam/data.py:109-121 *)
Definition load_beam2d (f : npz) : option (list part) :=
  bind (get_R f "xi") (fun xi => bind (get_R f "r") (fun r => bind (get_R f "p_r") (fun pr =>
  bind (get_R f "p_z") (fun pz => bind (get_R f "M") (fun m => bind (get_R f "q_m") (fun qm =>
  bind (get_R f "q_norm") (fun q => bind (get_Z f "id") (fun id =>
  Some (zip_part xi r pz pr m qm q id))))))))).

(** beam3d/data.py:80-84 *)
Definition save_beam3d (l : list part3) : npz :=
  [("xi", ColR (map b_xi l)); ("x", ColR (map b_x l)); ("y", ColR (map b_y l)); ("px", ColR (map b_px l));
   ("py", ColR (map b_py l)); ("pz", ColR (map b_pz l)); ("q_m", ColR (map b_qm l)); ("q_norm", ColR (map b_q l));
   ("id", ColZ (map b_id l))]%string.
Fixpoint zip_part3 (xi x y px py pz qm q : list R) (id : list Z) : list part3 :=
  match xi, x, y, px, py, pz, qm, q, id with
  | a :: xi', b :: x', c :: y', d :: px', e :: py', f :: pz', g :: qm', h :: q', i :: id' =>
    mk3 a b c d e f g h i 0 0 :: zip_part3 xi' x' y' px' py' pz' qm' q' id'
  | _, _, _, _, _, _, _, _, _ => []
  end.
(** beam3d/data.py:65-78: dt and remaining_steps are zeroed. *)
Definition load_beam3d (f : npz) : option (list part3) :=
  bind (get_R f "xi") (fun xi => bind (get_R f "x") (fun x => bind (get_R f "y") (fun y =>
  bind (get_R f "px") (fun px => bind (get_R f "py") (fun py => bind (get_R f "pz") (fun pz =>
  bind (get_R f "q_m") (fun qm => bind (get_R f "q_norm") (fun q => bind (get_Z f "id") (fun id =>
  Some (zip_part3 xi x y px py pz qm q id)))))))))).
