(** What C67 says about the file runas.py. *)
From Coq Require Import List ZArith QArith String Ascii Bool.
From Verif Require Import Config_Model.
Import ListNotations.
Open Scope string_scope.

(** The text has exactly one entry for option k, and it gives v: 'k': v, *)
Definition says (text k v : string) : Prop :=
  exists before after, text = before ++ "'" ++ k ++ "': " ++ v ++ "," ++ after /\
  (forall a b, text = a ++ "'" ++ k ++ "': " ++ b -> a = before).
(** The text has no entry for option k. *)
Definition silent (text k : string) : Prop := forall a b, text <> a ++ "'" ++ k ++ "': " ++ b.

(** Characters of option names. *)
Definition key_char (c : ascii) : bool :=
  let n := nat_of_ascii c in ((Nat.leb 97 n && Nat.leb n 122) || (Nat.leb 48 n && Nat.leb n 57) || Nat.eqb n 45)%bool.
Fixpoint all_chars (f : ascii -> bool) (s : string) : bool :=
  match s with EmptyString => true | String c t => f c && all_chars f t end.
Definition option_name (k : string) : Prop := k <> "" /\ all_chars key_char k = true.
(** No apostrophe and no comma. *)
Definition tidy_char (c : ascii) : bool := negb (Ascii.eqb c "'" || Ascii.eqb c ",").
Definition tidy (s : string) : Prop := all_chars tidy_char s = true.
Definition one_line (s : string) : Prop := all_chars (fun c => negb (Ascii.eqb c (ascii_of_nat 10))) s = true.
Definition tidy_value (fshow : Q -> string) (v : val) : Prop := tidy (py_str fshow v).
(** A dictionary: no key twice; ordinary names; values without apostrophes and commas. *)
Definition tidy_config (fshow : Q -> string) (c : cfg) : Prop :=
  NoDup (map fst (values c)) /\
  (forall k v, In (k, v) (values c) -> option_name k /\ tidy_value fshow v) /\
  (forall k v, In (k, v) (values c) -> k <> "plasma-zshape" -> k <> "plasma-rshape" -> one_line (py_str fshow v)).

(** The options of the documented part of the file, in order, and the developer settings. *)
Definition listed_options : list string :=
  ["geometry"; "processing-unit-type"; "window-width"; "transverse-step"; "window-length"; "xi-step"; "time-limit"; "time-step";
   "plasma-particles-per-cell"; "ion-model"; "ion-mass"; "plasma-shape"; "plasma-rshape"; "plasma-width"; "plasma-width-2"; "plasma-density-2";
   "plasma-zshape"; "declustering-enabled"; "declustering-averaging"; "declustering-force"; "declustering-damping"; "declustering-limit";
   "beam-substepping-energy"; "magnetic-field"; "substepping-depth"; "substepping-sensitivity"; "bound-padding-steps"; "plasma-padding-steps";
   "dual-plasma-approach"; "plasma-coarseness"; "rigid-beam"].
Definition developer_options : list string := ["field-solver-subtraction-coefficient"; "trapped-path-limit"; "correctotransverse-steps"].
Definition options_in (extra : bool) : list string := if extra then listed_options ++ developer_options else listed_options.
(** Options whose value is a name, written in quotes and in lower case. *)
Definition names : list string := ["geometry"; "processing-unit-type"; "ion-model"; "plasma-shape"].
Definition tables : list string := ["plasma-rshape"; "plasma-zshape"].

(** The rows of a table: its lines that are not blank, each as the list of its words. *)
Definition blank_char (c : ascii) : bool := let n := nat_of_ascii c in (Nat.eqb n 32 || Nat.eqb n 9 || Nat.eqb n 10 || Nat.eqb n 11 || Nat.eqb n 12 || Nat.eqb n 13)%bool.
Fixpoint words (s : string) : list string :=
  match s with
  | EmptyString => []
  | String c t =>
    if blank_char c then words t
    else match t with
         | String d _ => if blank_char d then String c EmptyString :: words t
                         else match words t with w :: r => String c w :: r | [] => [String c EmptyString] end
         | EmptyString => [String c EmptyString]
         end
  end.
Fixpoint rows_from (line : string) (s : string) : list (list string) :=
  let row := match words line with [] => [] | w => [w] end in
  match s with
  | EmptyString => row
  | String c t => if Nat.eqb (nat_of_ascii c) 10 then (row ++ rows_from EmptyString t)%list else rows_from (line ++ String c EmptyString) t
  end.
Definition rows (s : string) : list (list string) := rows_from EmptyString s.
(** The entry of option k is a text in triple apostrophes whose rows are those of [table]. *)
Definition says_table (text k table : string) : Prop :=
  exists body, says text k ("'''" ++ body ++ "'''") /\ rows body = rows table.
