(** Model of lcode/plasma/profiles.py: the radial profiles of the cylindrical geometry (get_plasma_profile).

    Numbers are real numbers, arrays are lists, None is an exception.  [fl] is Python's float() on a text; texts that
    float() reads as nan or infinity count as texts it rejects (int() of them raises and the bare except at line 140
    catches it).  The abstract base classes (8-41) have no behaviour.  0 / 0 at line 117 (both widths equal and a particle
    exactly there) is 0 here and nan in the program. *)
From Coq Require Import Reals ZArith List Bool String.
From Verif Require Import Beam2D_Model BeamGen_Model Profile_Model.
Import ListNotations.
Local Open Scope list_scope.
Local Open Scope R_scope.

(** The options read: window-width, transverse-step, plasma-width, plasma-width-2, plasma-density-2. *)
Record popts := mkPO { o_window : R; o_step : R; o_width : R; o_width2 : R; o_dens2 : R }.

(** int() of a float. *)
Definition py_int (x : R) : Z := if Rlt_dec x 0 then (- floorR (- x))%Z else floorR x.

(** An instance of one of the classes: min_plasma_radius, max_plasma_radius, the transverse step and weigh_particles. *)
Record cprofile := mkCP { c_min : R; c_max : R; c_step : R; c_weigh : list R -> option (list R) }.

(** profiles.py:49-51 *)
Definition cylindrical_weights (l : list R) : option (list R) :=
  match l with
  | r0 :: r1 :: _ => Some (map (fun r => 2 * PI * (r1 - r0) * r) l)
  | _ => None (* IndexError *)
  end.
(** profiles.py:60-64.  None: ZeroDivisionError; numpy.arange of a negative number is empty. *)
Definition place (p : cprofile) (ppc : nat) : option (list R) :=
  let width := c_max p - c_min p in
  let n := (py_int (width / c_step p) * Z.of_nat ppc)%Z in
  if (n =? 0)%Z then None
  else let dr := width / IZR n in Some (map (fun k => (INR k + 0.5) * dr + c_min p) (seq 0 (Z.to_nat n))).
(** profiles.py:54-58, 67-69 *)
Definition uniform_profile (o : popts) : cprofile := mkCP 0 (o_window o) (o_step o) cylindrical_weights.
(** profiles.py:72-76 *)
Definition stepwise_profile (o : popts) : cprofile := mkCP 0 (Rmin (o_width o) (o_window o)) (o_step o) cylindrical_weights.
(** profiles.py:79-82 *)
Definition channel_profile (o : popts) : cprofile := mkCP (o_width o) (o_window o) (o_step o) cylindrical_weights.
(** profiles.py:5, 85-97 *)
Definition gaussian_profile (o : popts) : cprofile :=
  mkCP 0 (Rmin (5 * o_width o) (o_window o)) (o_step o)
    (fun l => let? c := cylindrical_weights l in
              Some (map (fun cr => fst cr * exp (- snd cr ^ 2 / 2 / o_width o ^ 2)) (combine c l))).
(** profiles.py:109-118, the density at one radius *)
Definition sub_density (o : popts) (r : R) : R :=
  let a := if Rlt_dec r (o_width2 o) then o_dens2 o else r in
  let b := if Rlt_dec (o_width o) r then 1 else a in
  if leb (o_width2 o) r && leb r (o_width o) then
    let iw := (o_width o - r) / (o_width o - o_width2 o) in o_dens2 o * iw + (1 - iw)
  else b.
(** profiles.py:100-119 *)
Definition subchannel_profile (o : popts) : cprofile :=
  mkCP (if Req_EM_T (o_dens2 o) 0 then o_width2 o else 0) (o_window o) (o_step o)
    (fun l => let? c := cylindrical_weights l in Some (map (fun cr => fst cr * sub_density o (snd cr)) (combine c l))).

(** profiles.py:122-133 and 136-142.  None: KeyError. *)
Definition by_number (z : Z) : option (popts -> cprofile) :=
  match z with
  | 1 => Some uniform_profile | 2 => Some stepwise_profile | 3 => Some gaussian_profile
  | 5 => Some channel_profile | 6 => Some subchannel_profile | _ => None
  end%Z.
Definition by_word (s : string) : option (popts -> cprofile) :=
  if String.eqb s "uniform" then Some uniform_profile
  else if String.eqb s "stepwise" then Some stepwise_profile
  else if String.eqb s "gaussian" then Some gaussian_profile
  else if String.eqb s "channel" then Some channel_profile
  else if String.eqb s "sub-channel" then Some subchannel_profile
  else None.
Definition get_plasma_profile (fl : string -> option R) (s : string) (o : popts) : option cprofile :=
  let? mk := match fl s with Some x => by_number (py_int x) | None => by_word s end in Some (mk o).
