(** Model of lcode/alt_beam_generator: beam_generator.py, beam_shape.py, beam_segment_shape.py,
    rshape.py, xishape.py, eshape.py.

    Numbers are real numbers.  The random generator is three arbitrary streams of raw draws (unit
    interval, standard normal, integers) read through one position counter; every call of the code
    reads its draws at the current position and advances it.  [None] stands for an exception.
    np.argsort is a parameter (its order among equal keys is unspecified).  Not modelled: numpy
    structured arrays (a beam is a list of records), printing. *)
From Coq Require Import Reals ZArith List Bool String.
From Verif Require Import Beam2D_Model.
Import ListNotations.
Local Open Scope list_scope.
Local Open Scope R_scope.

(** np.random.RandomState: raw draws. *)
Record rng := mkRng { unit_draw : nat -> R; normal_draw : nat -> R; int_draw : nat -> Z }.
(** RandomState.random_sample(size) *)
Definition random_sample (g : rng) (p n : nat) : list R := map (fun i => unit_draw g (p + i)) (seq 0 n).
(** RandomState.uniform(low, high, size) = low + (high - low) * random_sample *)
Definition uniform (g : rng) (p : nat) (lo hi : R) (n : nat) : list R :=
  map (fun u => lo + (hi - lo) * u) (random_sample g p n).
(** RandomState.normal(loc, scale, size) = loc + scale * gauss; scale < 0 is a ValueError. *)
Definition normal (g : rng) (p : nat) (mu sigma : R) (n : nat) : option (list R) :=
  if Rlt_dec sigma 0 then None
  else Some (map (fun i => mu + sigma * normal_draw g (p + i)) (seq 0 n)).
(** RandomState.randint(0, n) *)
Definition randint (g : rng) (p : nat) (n : Z) : Z := (int_draw g p mod n)%Z.

Definition is_name (names : list string) (s : string) : bool := existsb (String.eqb s) names.

(** xishape.py:37-50, the registered longitudinal shapes; None: KeyError of get_shape (24-26). *)
Definition xishape_of (name : string) : option (R -> R -> R) :=
  if is_name ["cos"; "c"]%string name then Some (fun dxi l => 0.5 * (1 - cos (2 * PI * dxi / l)))
  else if is_name ["t"]%string name then Some (fun dxi l => dxi / l)
  else if is_name ["T"]%string name then Some (fun dxi l => 1 - dxi / l)
  else if is_name ["l"]%string name then Some (fun _ _ => 1)
  else if is_name ["half-cos"; "h"]%string name then Some (fun dxi l => 0.5 * (1 - cos (PI * dxi / l)))
  else if is_name ["b"]%string name then Some (fun dxi l => 0.5 * (1 + cos (PI * dxi / l)))
  else if is_name ["gaussian"; "g"]%string name then Some (fun dxi l => 0.5 * exp (- 18 * (dxi / l) ^ 2))
  else None.

(** eshape.py:37-54, the registered energy shapes. *)
Inductive eshape := EMono | EUniform | ELinear | EGauss | EMulti (n : Z).
Definition eshape_of (name : string) : option eshape :=
  if is_name ["monoenergetic"; "m"]%string name then Some EMono
  else if is_name ["uniform"; "u"]%string name then Some EUniform
  else if is_name ["linear"; "l"]%string name then Some ELinear
  else if is_name ["gaussian"; "g"]%string name then Some EGauss
  else if is_name ["2"]%string name then Some (EMulti 2)
  else if is_name ["3"]%string name then Some (EMulti 3)
  else if is_name ["4"]%string name then Some (EMulti 4)
  else if is_name ["5"]%string name then Some (EMulti 5)
  else if is_name ["6"]%string name then Some (EMulti 6)
  else if is_name ["7"]%string name then Some (EMulti 7)
  else if is_name ["8"]%string name then Some (EMulti 8)
  else if is_name ["9"]%string name then Some (EMulti 9)
  else None.
(** eshape.py:37-49: longitudinal momenta of a layer and the next position of the generator. *)
Definition eshape_value (e : eshape) (g : rng) (p : nat) (energy espread dxi l : R) (n : nat)
  : option (list R * nat) :=
  match e with
  | EMono => Some (repeat energy n, p)
  | EUniform => Some (uniform g p energy espread n, p + n)%nat
  | ELinear => Some (repeat (energy * dxi / l + espread * (1 - dxi / l)) n, p)
  | EGauss => match normal g p energy espread n with Some v => Some (v, p + n)%nat | None => None end
  | EMulti k =>
      Some (map (fun b => b + IZR (randint g p k) * (energy - espread) / (IZR k - 1)) (repeat espread n), (p + 1)%nat)
  end.

(** beam_segment_shape.py:6-21 (rshape has one registered shape, rshape.py:78: 'gaussian'/'g') *)
Record segment := mkSeg {
  s_length : R; s_ampl : R; s_xishape : R -> R -> R; s_radius : R; s_energy : R; s_xshift : R;
  s_yshift : R; s_angspread : R; s_angshape : R -> R -> R; s_espread : R; s_eshape : eshape;
  s_mcr : R }.
(** beam_shape.py:5-14 *)
Record beam_shape := mkShape { b_current : R; b_ppl : R; b_segments : list segment }.

(** beam_segment_shape.py:30-32 *)
Definition initial_sigma_impulse (s : segment) (dxi : R) : R :=
  s_angspread s * s_energy s * s_angshape s dxi (s_length s).
(** beam_segment_shape.py:53-62 *)
Definition segment_current (b : beam_shape) (s : segment) : R := s_ampl s * b_current b.
Definition segment_initial_current (b : beam_shape) (s : segment) (dxi : R) : R :=
  if Rlt_dec dxi 0 then 0 else if Rlt_dec (s_length s) dxi then 0
  else segment_current b s * s_xishape s dxi (s_length s).
(** beam_shape.py:25-31 *)
Fixpoint get_segment (segs : list segment) (start xi : R) : option (segment * R) :=
  match segs with
  | [] => None
  | s :: r =>
      if Rlt_dec 0 (start - xi) then
        if Rlt_dec (start - xi) (s_length s) then Some (s, start)
        else get_segment r (start - s_length s) xi
      else get_segment r (start - s_length s) xi
  end.
(** beam_shape.py:33-35 *)
Definition total_length (b : beam_shape) : R := fold_left (fun x s => x + s_length s) (b_segments b) 0.
(** beam_shape.py:37-42 *)
Definition initial_current (b : beam_shape) (xi : R) : R :=
  match get_segment (b_segments b) 0 xi with
  | None => 0
  | Some (s, start) => segment_initial_current b s (start - xi)
  end.

(** np.ceil to an integer. *)
Definition ceilR (x : R) : Z := (- floorR (- x))%Z.
(** np.arange(start, stop, step) *)
Definition arange (start stop step : R) : list R :=
  map (fun i => start + INR i * step) (seq 0 (Z.to_nat (ceilR ((stop - start) / step)))).
(** beam_generator.py:20-25 *)
Definition rigid_beam_current (b : beam_shape) (step : R) : list R :=
  map (initial_current b) (arange (- step / 2) (- total_length b) (- step)).

(** rshape.py:60-66 (radii, radial momenta, angular momenta) and 68-76; None: radius = 0 divides by
    zero, a negative spread is rejected by random.normal. *)
Inductive transverse := T2 (r p_r M : R) | T3 (x y px py : R).
Definition gauss_radius (radius r_max u : R) : R :=
  radius * sqrt (- 2 * ln (1 - u * (1 - exp (- r_max ^ 2 / (2 * radius ^ 2))))).
Fixpoint zip_with {A B C} (f : A -> B -> C) (l : list A) (m : list B) : list C :=
  match l, m with x :: l', y :: m' => f x y :: zip_with f l' m' | _, _ => [] end.
Definition gauss2d (g : rng) (p : nat) (radius sigma r_max : R) (n : nat) : option (list transverse * nat) :=
  if Req_EM_T radius 0 then None else
  let r_b := map (gauss_radius radius r_max) (random_sample g p n) in
  match normal g (p + n) 0 sigma n, normal g (p + n + n) 0 sigma n with
  | Some p_br, Some p_bf =>
      Some (zip_with (fun a b => b a) r_b (zip_with (fun pr pf r => T2 r pr (r * pf)) p_br p_bf),
            (p + n + n + n)%nat)
  | _, _ => None
  end.
Definition gauss3d (g : rng) (p : nat) (radius sigma r_max : R) (n : nat) (xshift yshift : R)
  : option (list transverse * nat) :=
  if Req_EM_T radius 0 then None else
  let r := map (gauss_radius radius r_max) (random_sample g p n) in
  let phi := uniform g (p + n) 0 (2 * PI) n in
  match normal g (p + n + n) 0 sigma n, normal g (p + n + n + n) 0 sigma n with
  | Some p_x, Some p_y =>
      Some (zip_with (fun a b => b a)
              (zip_with (fun r phi => (r * cos phi + xshift, r * sin phi + yshift)) r phi)
              (zip_with (fun px py xy => T3 (fst xy) (snd xy) px py) p_x p_y),
            (p + n + n + n + n)%nat)
  | _, _ => None
  end.

(** beam_generator.py:11-17 *)
Record gpart := mkG { g_xi : R; g_tr : transverse; g_pz : R; g_qm : R; g_qn : R; g_id : nat }.
Definition set_id (q : gpart) (i : nat) : gpart := mkG (g_xi q) (g_tr q) (g_pz q) (g_qm q) (g_qn q) i.

(** beam_generator.py:97-102 *)
Record gen_config := mkGC { gc_step : R; gc_three : bool; gc_width : R }.
Definition gen_max_radius (c : gen_config) : R :=
  let m := if gc_three c then gc_width c / 2 else gc_width c in Rmax (0.9 * m) (m - 1).
(** beam_generator.py:108 *)
Definition elem_charge (b : beam_shape) : R := Rabs (2 * b_current b / b_ppl b).
(** ndarray.astype(np.int_): truncation towards zero *)
Definition truncZ (x : R) : Z := if Rlt_dec x 0 then (- floorR (- x))%Z else floorR x.
(** beam_generator.py:109-110 *)
Definition particles_in_layer (b : beam_shape) (cur : R) : Z :=
  truncZ (b_ppl b * Rabs (cur / b_current b)).

(** beam_generator.py:119-158: the particles of layer [i] (current [cur] there); ids follow. None:
    the layer's centre is in no segment (attribute access on None, line 128), 1/0 (128), negative
    count (136), or an exception of the shapes. *)
Definition gen_layer (c : gen_config) (b : beam_shape) (g : rng) (p i : nat) (cur : R)
  : option (list gpart * nat) :=
  let layer_xi := - gc_step c * INR i in
  let xi_middle := layer_xi - gc_step c / 2 in
  match get_segment (b_segments b) 0 xi_middle with
  | None => None
  | Some (s, start) =>
      let dxi := start - xi_middle in
      if Req_EM_T (s_mcr s) 0 then None else
      if (particles_in_layer b cur <? 0)%Z then None else
      let n := Z.to_nat (particles_in_layer b cur) in
      let q_m := 1 / s_mcr s * (if Rlt_dec 0 cur then 1 else -1) in
      let q_norm := elem_charge b * (if Rle_dec 0 (b_current b) then 1 else -1) in
      let xis := uniform g p (layer_xi - gc_step c) layer_xi n in
      let tr := if gc_three c
                then gauss3d g (p + n) (s_radius s) (initial_sigma_impulse s dxi) (gen_max_radius c) n
                             (s_xshift s) (s_yshift s)
                else gauss2d g (p + n) (s_radius s) (initial_sigma_impulse s dxi) (gen_max_radius c) n in
      match tr with
      | None => None
      | Some (trs, p1) =>
          match eshape_value (s_eshape s) g p1 (s_energy s) (s_espread s) dxi (s_length s) n with
          | None => None
          | Some (pzs, p2) =>
              Some (zip_with (fun x f => f x) xis
                      (zip_with (fun t pz x => mkG x t pz q_m q_norm 0) trs pzs), p2)
          end
      end
  end.
Fixpoint gen_layers (c : gen_config) (b : beam_shape) (g : rng) (p i : nat) (currents : list R)
  : option (list gpart) :=
  match currents with
  | [] => Some []
  | cur :: rest =>
      match gen_layer c b g p i cur with
      | None => None
      | Some (ps, p') =>
          match gen_layers c b g p' (S i) rest with
          | None => None
          | Some qs => Some (ps ++ qs)
          end
      end
  end.

(** beam_generator.py:96-161.  A zero xi-step, zero particles per layer and a zero beam current are
    exceptions (the last: 0/0 converted to int is a negative count). *)
Definition generate_beam_array (argsort : list R -> list nat) (c : gen_config) (b : beam_shape) (g : rng)
  : option (list gpart) :=
  if Req_EM_T (gc_step c) 0 then None else
  if Req_EM_T (b_ppl b) 0 then None else
  if Req_EM_T (b_current b) 0 then None else
  match gen_layers c b g 0 0 (rigid_beam_current b (gc_step c)) with
  | None => None
  | Some ps =>
      let beam := zip_with set_id ps (seq 1 (List.length ps)) in
      Some (map (fun k => nth k beam (mkG 0 (T2 0 0 0) 0 0 0 0)) (argsort (map (fun q => - g_xi q) beam)))
  end.

(** The user's description: a dictionary of numbers, strings and dictionaries of these. *)
Inductive pval := PNum (x : R) | PStr (s : string).
Inductive bval := BVal (v : pval) | BDict (d : list (string * pval)).
Definition params := string -> option pval.
Definition set_param (f : params) (k : string) (v : pval) : params :=
  fun k' => if String.eqb k' k then Some v else f k'.
Definition set_params (f : params) (d : list (string * pval)) : params :=
  fold_left (fun f kv => set_param f (fst kv) (snd kv)) d f.
(** beam_generator.py:37-39 *)
Definition shape_defaults : params := set_params (fun _ => None)
  [("current", PNum 0.05); ("particles_in_layer", PNum 2000); ("rng_seed", PNum 1)]%string.
Definition is_shape_key (k : string) : bool := is_name ["current"; "particles_in_layer"; "rng_seed"]%string k.
(** beam_generator.py:40-45 *)
Definition segment_defaults : params := set_params (fun _ => None)
  [("length", PNum 5.01); ("ampl", PNum 1); ("xishape", PStr "cos"); ("radius", PNum 1);
   ("energy", PNum 1000); ("xshift", PNum 0); ("yshift", PNum 0); ("rshape", PStr "g");
   ("angspread", PNum 0.00001); ("angshape", PStr "l"); ("espread", PNum 0); ("eshape", PStr "m");
   ("mass_charge_ratio", PNum 1)]%string.
Definition get_num (f : params) (k : string) : option R := match f k with Some (PNum x) => Some x | _ => None end.
Definition get_str (f : params) (k : string) : option string := match f k with Some (PStr s) => Some s | _ => None end.
Definition obind {A B} (o : option A) (k : A -> option B) : option B := match o with Some a => k a | None => None end.
Notation "'let?' x := o 'in' k" := (obind o (fun x => k)) (at level 200, x name, right associativity).
(** beam_segment_shape.py:6-21: unknown shape names raise KeyError.  Simplification: a value of the
    wrong type is an exception here (in the code it surfaces when the value is first used). *)
Definition make_segment (f : params) : option segment :=
  let? len := get_num f "length"%string in
  let? amp := get_num f "ampl"%string in
  let? xsn := get_str f "xishape"%string in
  let? xs := xishape_of xsn in
  let? rad := get_num f "radius"%string in
  let? en := get_num f "energy"%string in
  let? xsh := get_num f "xshift"%string in
  let? ysh := get_num f "yshift"%string in
  let? rsn := get_str f "rshape"%string in
  if is_name ["gaussian"; "g"]%string rsn then
    let? asp := get_num f "angspread"%string in
    let? ashn := get_str f "angshape"%string in
    let? ash := xishape_of ashn in
    let? esp := get_num f "espread"%string in
    let? esn := get_str f "eshape"%string in
    let? es := eshape_of esn in
    let? mcr := get_num f "mass_charge_ratio"%string in
    Some (mkSeg len amp xs rad en xsh ysh asp ash esp es mcr)
  else None.
(** beam_generator.py:47-51: the shape parameters the user gave. *)
Definition user_shape_params (d : list (string * bval)) : option params :=
  fold_left (fun o kv => let? f := o in
               if is_shape_key (fst kv) then
                 match snd kv with BVal v => Some (set_param f (fst kv) v) | BDict _ => None end
               else Some f) d (Some shape_defaults).
(** beam_generator.py:56-82: one key of the description. *)
Definition user_key (o : option (params * list segment)) (kv : string * bval) : option (params * list segment) :=
  let? st := o in
  match snd kv with
  | BDict d =>
      if String.eqb (fst kv) "default" then Some (set_params (fst st) d, snd st)
      else let? s := make_segment (set_params (fst st) d) in Some (fst st, snd st ++ [s])
  | BVal _ => if is_shape_key (fst kv) then Some st else None
  end.
(** beam_shape.py:7-12 and beam_generator.py:47-91.  [None]: no beam_parameters were given. *)
Definition describe_beam (three : bool) (user : option (list (string * bval))) : option (beam_shape * R) :=
  let d := match user with Some d => d | None => [] end in
  let? sp := user_shape_params d in
  let? cur := get_num sp "current"%string in
  let? ppl := get_num sp "particles_in_layer"%string in
  let? seed := get_num sp "rng_seed"%string in
  let? st := fold_left user_key d (Some (segment_defaults, [])) in
  let? segs := match snd st with [] => let? s := make_segment (fst st) in Some [s] | l => Some l end in
  Some (mkShape (if three then cur * (2 * 3.1415926535897932) else cur) ppl segs, seed).
(** beam_generator.py:28-93; [stream] is RandomState(seed). *)
Definition generate_beam (argsort : list R -> list nat) (stream : R -> rng) (c : gen_config)
    (user : option (list (string * bval))) : option (list gpart) :=
  let? bs := describe_beam (gc_three c) user in
  generate_beam_array argsort c (fst bs) (stream (snd bs)).
