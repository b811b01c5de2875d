(** Notions for C72. *)
From Coq Require Import Reals ZArith List Bool String Permutation.
From Verif Require Import Beam2D_Model LegacyBeam_Model.
Import ListNotations.
Local Open Scope R_scope.

(** How many elements of a list satisfy a test. *)
Definition how_many {A} (P : A -> bool) (l : list A) : nat := List.length (filter P l).
(** x lies in layer number j, between j * dxi and (j + 1) * dxi. *)
Definition in_layer (dxi : R) (j : Z) (x : R) : bool :=
  if Rle_dec (IZR j * dxi) x then (if Rlt_dec x (IZR (j + 1) * dxi) then true else false) else false.
(** The middle of layer j. *)
Definition middle (dxi : R) (j : Z) : R := (IZR j + 1 / 2) * dxi.
(** From the first to the last never rising. *)
Definition descending {A} (key : A -> R) (l : list A) (d : A) : Prop :=
  forall i j, (i < j < List.length l)%nat -> key (nth j l d) <= key (nth i l d).
(** A beam profile as a list of blocks: the longitudinal shape and the other parameters of a segment. *)
Definition block := (string * list (string * string))%type.
Definition written (bs : list block) : list (string * string) := flat_map (fun b => ("xishape"%string, fst b) :: snd b) bs.
(** The value of a parameter in a block: the last one given, if any. *)
Fixpoint last_given (k : string) (ps : list (string * string)) : option string :=
  match ps with
  | [] => None
  | (k', v) :: r => match last_given k r with Some x => Some x | None => if String.eqb k k' then Some v else None end
  end.
(** Sum of the first n values of f. *)
Definition sum_upto (f : nat -> R) (n : nat) : R := fold_right Rplus 0 (map f (seq 0 n)).
(** The two longitudinal shapes, 1 at the head xi0 of a segment. *)
Definition shape (name : string) (xi0 len x : R) : option R :=
  if String.eqb name "g" then Some (exp (- ((x - xi0) / (len / 6)) ^ 2 / 2))
  else if String.eqb name "c" || String.eqb name "cos" then Some ((1 + cos (PI * (x - xi0) / len)) / 2)
  else None.
(** Charge of the particles of layer j. *)
Definition layer_charge (dxi : R) (j : Z) (beam : list lpart) : R :=
  fold_right Rplus 0 (map l_q (filter (fun p => in_layer dxi j (l_xi p)) beam)).
(** The length of segment j of a profile. *)
Definition length_of (segs : list seg) (j : nat) : R := match nth_error segs j with Some t => match num t "length" with Some x => x | None => 0 end | None => 0 end.
(** The four parameters that are words; the others are numbers. *)
Definition word_names : list string := ["xishape"; "rshape"; "angshape"; "eshape"]%string.
Definition number_names : list string := ["ampl"; "length"; "vshift"; "radius"; "angspread"; "energy"; "espread"; "m/q"]%string.
(** What holds when nothing is given. *)
Definition defaults : list (string * value) :=
  [("ampl", Num (1 / 2)); ("length", Num (2 * PI)); ("rshape", Txt "g"); ("vshift", Num 0); ("radius", Num 1); ("angshape", Txt "l"); ("angspread", Num (/ 100000));
   ("energy", Num 1000); ("eshape", Txt "m"); ("espread", Num 0); ("m/q", Num 1)]%string.
(** The blocks are cut at the longitudinal shapes. *)
Definition clean (bs : list block) : Prop := forall b k v, In b bs -> In (k, v) (snd b) -> k <> "xishape"%string.
(** Layer j lies between the tail and the head of a segment, the two rounded down to borders of layers. *)
Definition own_layer (dxi xi0 len : R) (j : Z) : Prop := (floorR ((xi0 - len) / dxi) <= j < floorR (xi0 / dxi))%Z.
(** Shuffling only changes the order. *)
Definition shuffles (sh : string -> nat -> nat -> nat) : Prop := forall c N, Permutation (map (sh c N) (seq 0 N)) (seq 0 N).
(** Sum of a column. *)
Definition total_of (c : string) (ps : list lpart) : R := fold_right Rplus 0 (map (fun p => l_col p c) ps).
