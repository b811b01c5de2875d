(** The text of a beam profile: beam_generator/beam_profiles.py:83-88, find_beam_profile_pars.
    Simplified: re.findall with this pattern is written as the scanner it denotes (the pattern needs no backtracking: after the
    name only a white space or '=' may follow, which no part of the name matches); characters below 128, lists of them; of the
    groups of a match only the two that split_into_segments reads (par[:2], line 117). *)
From Coq Require Import List Bool Ascii NArith.
Import ListNotations.
Local Open Scope char_scope.
Definition text := list ascii.
(** [a-z], \d and \s of the pattern (line 87). *)
Definition within (a b : N) (c : ascii) : bool := (a <=? N_of_ascii c)%N && (N_of_ascii c <=? b)%N.
Definition letter (c : ascii) : bool := within 97 122 c.
Definition digit (c : ascii) : bool := within 48 57 c.
Definition white (c : ascii) : bool := within 9 13 c || within 28 32 c.
(** A greedy repetition: the longest prefix of such characters, and the rest. *)
Fixpoint span (p : ascii -> bool) (l : text) : text * text :=
  match l with [] => ([], []) | c :: r => if p c then let '(a, b) := span p r in (c :: a, b) else ([], l) end.
(** [a-z][a-z]*/?[a-z]? *)
Definition name_at (l : text) : option (text * text) :=
  match span letter l with
  | ([], _) => None
  | (a, "/" :: d :: r) => if letter d then Some (a ++ ["/"; d], r) else Some (a ++ ["/"], d :: r)
  | (a, ["/"]) => Some (a ++ ["/"], [])
  | (a, r) => Some (a, r)
  end.
(** \s? *)
Definition skip_white (l : text) : text := match l with c :: r => if white c then r else l | [] => [] end.
(** [-+]? *)
Definition sign_at (l : text) : text * text :=
  match l with "-" :: r => (["-"], r) | "+" :: r => (["+"], r) | _ => ([], l) end.
(** (\d+(\.\d* )?|\.\d+) *)
Definition mantissa_at (l : text) : option (text * text) :=
  match span digit l with
  | ([], "." :: r) => match span digit r with ([], _) => None | (f, r') => Some ("." :: f, r') end
  | ([], _) => None
  | (i, "." :: r) => let '(f, r') := span digit r in Some (i ++ "." :: f, r')
  | (i, r) => Some (i, r)
  end.
(** ([eE][-+]?\d+)? *)
Definition exponent_at (l : text) : text * text :=
  match l with
  | c :: r => if (Ascii.eqb c "e" || Ascii.eqb c "E")%bool then
      let '(s, r1) := sign_at r in match span digit r1 with ([], _) => ([], l) | (d, r2) => (c :: s ++ d, r2) end
    else ([], l)
  | [] => ([], l)
  end.
Definition number_at (l : text) : option (text * text) :=
  let '(s, l1) := sign_at l in
  match mantissa_at l1 with
  | None => None
  | Some (m, l2) => let '(e, l3) := exponent_at l2 in Some (s ++ m ++ e, l3)
  end.
(** the number, otherwise [a-z][a-z]* *)
Definition value_at (l : text) : option (text * text) :=
  match number_at l with
  | Some x => Some x
  | None => match span letter l with ([], _) => None | (w, r) => Some (w, r) end
  end.
(** The whole pattern at one place: the name, the value and what is left. *)
Definition pair_at (l : text) : option (text * text * text) :=
  match name_at l with
  | None => None
  | Some (n, r) =>
      match skip_white r with
      | "=" :: r1 => match value_at (skip_white r1) with Some (v, r2) => Some (n, v, r2) | None => None end
      | _ => None
      end
  end.
(** re.findall: from left to right, after a match from its end. *)
Fixpoint findall (fuel : nat) (l : text) : list (text * text) :=
  match fuel with
  | O => []
  | S k => match l with
           | [] => []
           | _ :: r => match pair_at l with Some (n, v, r2) => (n, v) :: findall k r2 | None => findall k r end
           end
  end.
Definition find_beam_profile_pars (cfg : text) : list (text * text) := findall (length cfg) cfg.
