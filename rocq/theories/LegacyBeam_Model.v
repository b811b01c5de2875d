(** Model of lcode/beam_generator/{beam_generator,beam_profiles}.py, the beam generator for profiles in the format of the C
    LCODE (make_beam, make_beam_from_c_beam_profile, split_into_segments).

    Numbers are real numbers, arrays are lists, None is an exception.  The profile is given as the pairs of name and value
    that the regular expression of find_beam_profile_pars extracts (ProfileText_Model); [fl] is Python's float() on a text.
    The random numbers are arbitrary streams: [u] the uniform ones of scipy, [sh] the permutations of numpy.random.shuffle.
    [norm_ppf] is scipy's quantile of the standard normal distribution.  Files are not modelled, only what is returned;
    numpy's order among equal xi is not modelled (an insertion sort stands for it).  RejectSamplDistr and the longitudinal
    branch of SmoothDistr (no caller), make_beam_from_c_config (calls methods that Config does not have: AttributeError)
    and beam_generator2.py are left out here (see Distr_Model and PyBeam_Model). *)
From Coq Require Import Reals ZArith List Bool String.
From Verif Require Import Beam2D_Model BeamGen_Model Profile_Model CylProfile_Model.
Import ListNotations.
Local Open Scope list_scope.
Local Open Scope R_scope.

(** ** beam_profiles.py: segments *)
Inductive value := Num (x : R) | Txt (s : string).
Definition seg := string -> option value.
Definition set_par (s : seg) (k : string) (v : value) : seg := fun k' => if String.eqb k' k then Some v else s k'.
Definition num (s : seg) (k : string) : option R := match s k with Some (Num x) => Some x | _ => None end.
Definition txt (s : seg) (k : string) : option string := match s k with Some (Txt x) => Some x | _ => None end.
(** beam_profiles.py:102-115 *)
Definition default_segment : seg := fun k =>
  if String.eqb k "xi0" then Some (Num 0) else if String.eqb k "xishape" then Some (Txt "cos")
  else if String.eqb k "ampl" then Some (Num 0.5) else if String.eqb k "length" then Some (Num (2 * PI))
  else if String.eqb k "rshape" then Some (Txt "g") else if String.eqb k "vshift" then Some (Num 0)
  else if String.eqb k "radius" then Some (Num 1) else if String.eqb k "angshape" then Some (Txt "l")
  else if String.eqb k "angspread" then Some (Num 1e-5) else if String.eqb k "energy" then Some (Num 1000)
  else if String.eqb k "eshape" then Some (Txt "m") else if String.eqb k "espread" then Some (Num 0)
  else if String.eqb k "m/q" then Some (Num 1) else None.
(** beam_profiles.py:129: par_name.find('shape') > 0 *)
Definition is_shape (name : string) : bool := match String.index 0 "shape" name with Some (S _) => true | _ => false end.
(** beam_profiles.py:129-132; None: float() raises. *)
Definition assign (fl : string -> option R) (s : seg) (name v : string) : option seg :=
  if is_shape name then Some (set_par s name (Txt v)) else let? x := fl v in Some (set_par s name (Num x)).
(** beam_profiles.py:118-134.  An empty profile gives [None] in the program, which the next step (distrs_from_shapes) cannot
    subscript: None here. *)
Fixpoint split_loop (fl : string -> option R) (pars : list (string * string)) (xi : R) (done : list seg) (cur : option seg) : option (list seg) :=
  match pars with
  | [] => let? s := cur in Some (done ++ [s])
  | (name, v) :: rest =>
    if String.eqb name "xishape" then
      let fresh xi := set_par default_segment "xi0" (Num xi) in
      match cur with
      | Some s => let? len := num s "length" in
                  let? s' := assign fl (fresh (xi - len)) name v in split_loop fl rest (xi - len) (done ++ [s]) (Some s')
      | None => let? s' := assign fl (fresh xi) name v in split_loop fl rest xi done (Some s')
      end
    else
      let? s := cur in (* None: TypeError *)
      let? s' := assign fl s name v in split_loop fl rest xi done (Some s')
  end.
Definition split_into_segments (fl : string -> option R) (pars : list (string * string)) : option (list seg) :=
  split_loop fl pars 0 [] None.

(** ** beam_profiles.py: distributions *)
(** beam_profiles.py:146-147 *)
Definition cosine (x med L : R) : R := 1 / 2 * (1 + cos (2 * PI * (x - med) / L)).
Definition gauss (x med sigma : R) : R := exp (- (x - med) ^ 2 / 2 / sigma ^ 2).
(** beam_profiles.py:150-157 *)
Definition xishape_f (name : string) (xi0 length : R) : option (R -> R) :=
  if String.eqb name "g" then Some (fun x => gauss x xi0 (length / 6))
  else if String.eqb name "c" || String.eqb name "cos" then Some (fun x => cosine x xi0 (2 * length))
  else None.
(** beam_profiles.py:76-79: a zero (or missing) amplitude is replaced by the maximum of the shape. *)
Definition xi_amp (f : R -> R) (xi_max amp : R) : R := if Req_EM_T amp 0 then f xi_max else amp.
(** beam_profiles.py:67: particles in the layer that starts at l *)
Definition layer_count (f : R -> R) (xi_max ppl dxi l : R) : nat := Z.to_nat (py_int (ppl * f ((l + (l + dxi)) / 2) / f xi_max)).
(** beam_profiles.py:63-72.  Layers from the top down; [j] is the index of the lower border, [k] the number of layers left,
    [s] the number of random numbers used. *)
Fixpoint layers_down (f : R -> R) (xi_max ppl dxi : R) (u : nat -> R) (top : Z) (k s : nat) : list R :=
  match k with
  | O => []
  | S k' =>
    let l := IZR (top - 1) * dxi in
    let n := layer_count f xi_max ppl dxi l in
    map (fun i => l + dxi * u (s + i)%nat) (seq 0 n) ++ layers_down f xi_max ppl dxi u (top - 1) k' (s + n)
  end.
(** beam_profiles.py:60-73.  numpy.hstack of no arrays raises. *)
Definition stepwise_xi (f : R -> R) (xi_max vmin vmax ppl dxi : R) (u : nat -> R) : option (list R) :=
  let top := floorR (vmax / dxi) in let bottom := floorR (vmin / dxi) in
  if (top <=? bottom)%Z then None else Some (layers_down f xi_max ppl dxi u top (Z.to_nat (top - bottom)) 0).
(** beam_profiles.py:42-46 with the limits of 158-175: the quantiles k / (N + 1), k = 1 .. N *)
Definition quantile (ppf : R -> R) (N k : nat) : R := ppf (INR (S k) / INR (S N)).
(** scipy.stats.weibull_min(2, 0, sqrt(2) * radius).ppf *)
Definition rayleigh_ppf (radius p : R) : R := sqrt 2 * radius * sqrt (- ln (1 - p)).

(** ** beam_generator.py *)
Record lpart := mkLP { l_xi : R; l_col : string -> R; l_qm : R; l_q : R; l_id : nat }.
(** beam_generator.py:17-25; 'p' is in one table only. *)
Definition columns (geom : string) : option (list string) :=
  if String.eqb geom "circ" || String.eqb geom "c" then Some ["r"; "p_z"; "p_r"; "M"]%string
  else if String.eqb geom "3d" then Some ["x"; "y"; "px"; "py"; "pz"]%string
  else None.
(** numpy.sort(...)[::-1] and beam[::-1].sort(order='xi') *)
Section Sort.
  Variables (A : Type) (key : A -> R).
  Fixpoint insert_desc (x : A) (l : list A) : list A :=
    match l with
    | [] => [x]
    | y :: r => if Rle_dec (key y) (key x) then x :: l else y :: insert_desc x r
    end.
  Definition sort_desc (l : list A) : list A := fold_right insert_desc [] l.
End Sort.
Arguments sort_desc {A} key l.
Arguments insert_desc {A} key x l.
(** beam_generator.py:66-69 *)
Definition stub : lpart := mkLP (-100000) (fun _ => 0) 1 0 0.
(** beam_generator.py:27-83 with the longitudinal sample [xis] already drawn.  [distrs]: the other distributions; [sh name N k]:
    the place from which shuffling brings the k-th of N values. *)
Definition make_beam (geom : string) (window_length : R) (distrs : string -> option (nat -> nat -> R)) (sh : string -> nat -> nat -> nat)
           (xis : list R) (q q_m : R) (savehead saveto : bool) : option (list lpart) :=
  let? cols := columns geom in
  let keep x := if Rle_dec (- window_length) x then (if savehead then true else if Rle_dec x 0 then true else false) else false in
  let xi := sort_desc (fun x => x) (filter keep xis) in
  let N := List.length xi in
  if forallb (fun c => match distrs c with Some _ => true | None => false end) cols then
    let val c k := if existsb (String.eqb c) cols then match distrs c with Some d => d N (sh c N k) | None => 0 end else 0 in
    let col k c := if (String.eqb geom "c" || String.eqb geom "circ") && String.eqb c "M" then val "M"%string k * val "r"%string k else val c k in
    if savehead && negb saveto then None (* os.path.join(False, ...) *)
    else Some (map (fun k => mkLP (nth k xi 0) (col k) q_m q k) (seq 0 N) ++ [stub])
  else None.
(** beam_profiles.py:158-183: the distributions of a segment *)
Definition distrs_from_shapes (norm_ppf : R -> R) (s : seg) : option (string -> option (nat -> nat -> R)) :=
  let? rs := txt s "rshape" in let? es := txt s "eshape" in let? an := txt s "angshape" in
  let? radius := num s "radius" in let? energy := num s "energy" in let? espread := num s "espread" in let? ang := num s "angspread" in
  if String.eqb rs "g" && (String.eqb es "g" || String.eqb es "m") && (String.eqb an "g" || String.eqb an "l") then
    let es_scale := if String.eqb es "g" then espread else 1e-15 in
    Some (fun c => if String.eqb c "r" then Some (quantile (rayleigh_ppf radius))
                   else if String.eqb c "p_z" then Some (quantile (fun p => energy + es_scale * norm_ppf p))
                   else if String.eqb c "p_r" || String.eqb c "M" then Some (quantile (fun p => 0 + energy * ang * norm_ppf p))
                   else None)
  else None.
(** beam_generator.py:44-51, 91-96: one segment.  [u]: its uniform random numbers. *)
Definition segment_beam (norm_ppf : R -> R) (geom : string) (window_length dxi beam_current ppl : R) (sh : string -> nat -> nat -> nat) (u : nat -> R) (s : seg)
  : option (list lpart) :=
  let? name := txt s "xishape" in let? xi0 := num s "xi0" in let? len := num s "length" in let? ampl := num s "ampl" in let? mq := num s "m/q" in
  let? f := xishape_f name xi0 len in
  let? d := distrs_from_shapes norm_ppf s in
  let? _ := columns geom in
  let? xis := stepwise_xi f xi0 (xi0 - len) xi0 ppl dxi u in
  make_beam geom window_length d sh xis (2 * xi_amp f xi0 (ampl * beam_current) / ppl) (1 / mq) false false.
(** beam_generator.py:85-113, as called without saveto and savehead; [us k], [shs k]: the random numbers of segment k *)
Fixpoint join_segments (mk : nat -> seg -> option (list lpart)) (k : nat) (segs : list seg) (beam : option (list lpart)) : option (list lpart) :=
  match segs with
  | [] => beam
  | s :: r => let? b := mk k s in
              join_segments mk (S k) r (Some (match beam with None => b | Some old => removelast old ++ b end))
  end.
Definition make_beam_from_c_beam_profile (fl : string -> option R) (norm_ppf : R -> R) (geom : string) (window_length dxi beam_current ppl : R)
           (shs : nat -> string -> nat -> nat -> nat) (us : nat -> nat -> R) (pars : list (string * string)) : option (list lpart) :=
  let? segs := split_into_segments fl pars in
  let? beam := join_segments (fun k => segment_beam norm_ppf geom window_length dxi beam_current ppl (shs k) (us k)) 0 segs None in
  Some (filter (fun p => if Rle_dec (l_xi p) 0 then true else false) (sort_desc l_xi beam)).
