(** Model of lcode/plasma3d/profile.py (used by both geometries: plasma/initialization.py:30 and
    plasma3d/initialization.py).

    Numbers are real numbers; arrays are lists; None is an exception.  The text options plasma-zshape and
    plasma-rshape are given as their lines split into words (str.splitlines and str.split are not
    modelled); [float_of] is Python's float() on a word.  Not modelled: printing, the files that
    save-zshape / save-rshape open and leave empty. *)
From Coq Require Import Reals ZArith List Bool String.
From Verif Require Import BeamGen_Model.
Import ListNotations.
Local Open Scope list_scope.
Local Open Scope R_scope.

(** xp.min; None: ValueError on an empty array. *)
Fixpoint list_min (l : list R) : option R :=
  match l with
  | [] => None
  | x :: r => match list_min r with None => Some x | Some y => Some (Rmin x y) end
  end.
Definition ltb (x y : R) : bool := if Rlt_dec x y then true else false.
Definition leb (x y : R) : bool := if Rle_dec x y then true else false.

(** profile.py:3-47.  [w], [w2], [d2]: plasma_width, plasma_width2, plasma_density2. *)
Definition radial_coef (profile : string) (w w2 d2 : R) (r_init : list R) : option (list R) :=
  let ones := map (fun _ => 1) r_init in
  let dr := w2 - w in
  let mask r := ltb w r && ltb r w2 in
  if is_name ["1"; "uniform"]%string profile then Some ones
  else if is_name ["2"; "stepwise"]%string profile then
    let? c := (if ltb 0 dr then
                 let? r_0 := list_min (filter mask r_init) in
                 Some (fun r => if mask r then 1 - (r - r_0) / dr else 1)
               else Some (fun _ => 1)) in
    Some (map (fun r => if ltb (Rmax w w2) r then 0 else c r) r_init)
  else if is_name ["3"; "channel"]%string profile then
    let? c := (if ltb 0 dr then
                 let? r_0 := list_min (filter mask r_init) in
                 Some (fun r => if mask r then (d2 * (1 + dr - r) + (r - r_0)) / dr
                                else if leb r w then d2 else 1)
               else Some (fun r => if leb r w then d2 else 1)) in
    Some (map c r_init)
  else if is_name ["4"; "parabolic-channel"]%string profile then
    Some (map (fun r => let c := d2 * (1 + (r / w) ^ 2) in if ltb 1 c then 1 else c) r_init)
  else if is_name ["5"; "gaussian"]%string profile then
    Some (map (fun r => if ltb (5 * w) r then 0 else exp (- r ^ 2 / 2 / w ^ 2)) r_init)
  else Some ones.

Section Text.
  Variable float_of : string -> option R.
  Definition word (seg : list string) (k : nat) : option string := nth_error seg k.
  Definition num (seg : list string) (k : nat) : option R := let? s := word seg k in float_of s.

  (** profile.py:68-84: the loop over the segments. *)
  Fixpoint rshape_loop (segs : list (list string)) (t : R) (r_init : list R) : option (list R) :=
    match segs with
    | [] => Some (map (fun _ => 1) r_init)
    | seg :: rest =>
        let? len := num seg 0 in
        if ltb t len then
          let? profile := word seg 1 in
          let? w := num seg 2 in
          let? w2 := num seg 3 in
          let? d2 := num seg 4 in
          radial_coef profile w w2 d2 r_init
        else rshape_loop rest (t - len) r_init
    end.
  (** The option plasma-rshape: one of the names, or a text. *)
  Inductive rshape := RName (s : string) | RText (lines : list (list string)).
  Definition nonempty (l : list string) : bool := match l with [] => false | _ => true end.
  (** profile.py:50-85.  A name that is not available is read as a text of one line. *)
  Definition rshape_coef (sh : rshape) (w w2 d2 t : R) (xs ys : list R) : option (list R) :=
    let r_init := zip_with (fun x y => sqrt (x ^ 2 + y ^ 2)) xs ys in
    match sh with
    | RName s =>
        if is_name ["1"; "uniform"; "2"; "stepwise"; "3"; "channel"; "4"; "parabolic-channel"; "5"; "gaussian"]%string s
        then radial_coef s w w2 d2 r_init
        else rshape_loop [[s]] t r_init
    | RText lines => rshape_loop (filter nonempty lines) t r_init
    end.
  (** profile.py:87-109 *)
  Fixpoint zshape_loop (segs : list (list string)) (t : R) : option R :=
    match segs with
    | [] => Some 1
    | seg :: rest =>
        let? len := num seg 0 in
        if ltb t len then
          let? kind := word seg 2 in
          if String.eqb kind "L" then
            let? a := num seg 1 in
            let? b := num seg 3 in
            Some ((a * (len - t) + b * t) / len)
          else Some 1
        else zshape_loop rest (t - len)
    end.
  Definition zshape_coef (lines : list (list string)) (t : R) : option R := zshape_loop (filter nonempty lines) t.
  (** profile.py:111-145; [user] is a callable plasma-shape. *)
  Definition profile_initial_plasma (user : option (R -> list R -> list R -> list R)) (sh : rshape)
      (lines : list (list string)) (w w2 d2 dt t : R) (xs ys q m : list R) : option (list R * list R) :=
    let t_mid := t - dt / 2 in
    let? coef := match user with
                 | Some f => Some (f t xs ys)
                 | None => let? cz := zshape_coef lines t_mid in
                           let? cr := rshape_coef sh w w2 d2 t_mid xs ys in
                           Some (map (fun c => cz * c) cr)
                 end in
    let coef := if existsb (fun c => ltb c 0) coef then map (fun _ => 1) xs else coef in
    Some (zip_with Rmult q coef, zip_with Rmult m coef).
End Text.
