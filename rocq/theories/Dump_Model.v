(** Model of Config.dump (config.py:86-147): the file runas.py written at the start of a run.

    Text is a string; re.sub is modelled for the patterns used: "'key': " followed by the shortest text up to a
    comma on the same line, and the literal default of 'plasma-zshape'.  Simplifications: option names are made of
    letters, digits and '-' (no regular-expression metacharacters) and the texts put in contain no backslash (re.sub
    would interpret it); an exception is [None]; the file is the returned text. *)
From Coq Require Import List ZArith QArith String Ascii Bool.
From Verif Require Import Config_Model.
Import ListNotations.
Open Scope string_scope.

Definition nl : string := String (ascii_of_nat 10) EmptyString.
Definition spaces8 : string := "        ".
(** str.startswith, returning what follows. *)
Fixpoint after_prefix (p s : string) : option string :=
  match p, s with
  | EmptyString, _ => Some s
  | String a p', String b s' => if Ascii.eqb a b then after_prefix p' s' else None
  | _, EmptyString => None
  end.
(** [.*?(?=,)]: from here to the first comma, if it comes before the end of the line. *)
Fixpoint to_comma (s : string) : option string :=
  match s with
  | EmptyString => None
  | String c t => if Ascii.eqb c "," then Some s else if Ascii.eqb c (ascii_of_nat 10) then None else to_comma t
  end.
Definition key_text (key : string) : string := "'" ++ key ++ "': ".
(** A match of [fr"'{key}': .*?(?=,)"] at the beginning of s: the rest. *)
Definition match_option (key s : string) : option string :=
  match after_prefix (key_text key) s with Some t => to_comma t | None => None end.
(** A match of [fr"'{key}': '''\n        '''"], config.py:120. *)
Definition match_empty_table (key s : string) : option string := after_prefix (key_text key ++ "'''" ++ nl ++ spaces8 ++ "'''") s.
(** re.sub: every match from left to right; [fuel] is at least the length of the text. *)
Fixpoint re_sub (m : string -> option string) (new : string) (fuel : nat) (s : string) : string :=
  match fuel with
  | O => s
  | S f =>
    match s with
    | EmptyString => EmptyString
    | String c t => match m s with Some rest => new ++ re_sub m new f rest | None => String c (re_sub m new f t) end
    end
  end.
Definition substitute (m : string -> option string) (new s : string) : string := re_sub m new (String.length s) s.

(** str.strip(), str.split('\n'), len(str.split()). *)
Definition is_space (c : ascii) : bool := let n := nat_of_ascii c in (Nat.eqb n 32 || (Nat.leb 9 n && Nat.leb n 13))%bool.
Fixpoint lstrip (s : string) : string := match s with String c t => if is_space c then lstrip t else s | EmptyString => s end.
Fixpoint rstrip (s : string) : string :=
  match s with
  | EmptyString => s
  | String c t => let r := rstrip t in if (is_space c && match r with EmptyString => true | _ => false end)%bool then EmptyString else String c r
  end.
Definition strip (s : string) : string := rstrip (lstrip s).
Fixpoint split_lines (s : string) : list string :=
  match s with
  | EmptyString => [EmptyString]
  | String c t =>
    if Ascii.eqb c (ascii_of_nat 10) then EmptyString :: split_lines t
    else match split_lines t with l :: r => String c l :: r | [] => [String c EmptyString] end
  end.
Fixpoint count_words (inside : bool) (s : string) : nat :=
  match s with
  | EmptyString => 0
  | String c t => if is_space c then count_words false t else if inside then count_words true t else S (count_words true t)
  end.

(** default_config_values.py:4-103 *)
Definition default_lines : list string :=
  [ "    'geometry': 'circ', # 'circ' or '3d' ";
    "";
    "    # Here we set the type of processing unit: 'cpu' or 'gpu'.";
    "    # For now, GPU can be used only for 3d simulations.";
    "    'processing-unit-type': 'cpu',";
    "";
    "    # Parameters of simulation window:";
    "";
    "    ## Transverse size of the window from axis to boundary and ";
    "    ## transverse grid step (dr in 2d or dx(=dy) in 3d). ";
    "    ## The window width is adjusted to the closest ""good"" value";
    "    ## to ensure fft performance. ";
    "    'window-width': 5.0,";
    "    'transverse-step': 0.05,";
    "";
    "    ## Window length along xi-axis and grid step in dxi.";
    "    'window-length': 15.0,";
    "    'xi-step': 0.05,";
    "";
    "    ## Time limit for beam evolution and time step.";
    "    'time-limit': 200.5,";
    "    'time-step': 25,";
    "";
    "    # Parameters of plasma model:";
    "";
    "    ## The number of plasma particles per one cell must be the square of ";
    "    ## an integer in 3d. This parameter will be adjusted in 3d geometry";
    "    ## to the nearest integer squared (to 9 by default).";
    "    'plasma-particles-per-cell': 10,";
    "    'ion-model': 'mobile', # 'mobile' or 'background'";
    "";
    "    ## Mass of plasma ions in unita of electron mass";
    "    'ion-mass': 1836,";
    "    ";
    "    ## Plasma shaping mode: lagacy or function(t, x, y) -> density weights.";
    "    ## t is the current time, x(y) is the position of the plasma particles.   ";
    "    ## The density of weights must have the same shape as x.  ";
    "    ## x = r, y = 0 in cylindrical geometry.  ";
    "    'plasma-shape': 'legacy', ";
    "    ";
    "    ## Transverse profile of plasma density settings.";
    "    ## Example https://lcode.info/site-files/manual.pdf p. 16 ";
    "    'plasma-rshape': 'uniform',";
    "    'plasma-width': 1,";
    "    'plasma-width-2': 0,";
    "    'plasma-density-2': 0.5,";
    "";
    "    ## Longitudinal profile of the plasma density. For 3d only. ";
    "    ## Example https://lcode.info/site-files/manual.pdf p. 17";
    "    ## Only linear increase/decrease are available. ";
    "    'plasma-zshape': '''";
    "        ''',";
    "";
    "    ## Declustering of plasma electrons";
    "    'declustering-enabled': False,";
    "    ### The following parameters are used for 3d declustering, ";
    "    ### In 2d they are ignored. ";
    "    'declustering-averaging': 3,";
    "    'declustering-force': 0.3,";
    "    'declustering-damping': 0.1,";
    "    'declustering-limit': 1e-3,";
    "";
    "    # Parameters of beam model:";
    "    'beam-substepping-energy': 2,";
    "";
    "#This part of the configuration contains experimental and unfinished options. ";
    "#There is no guarantee that it will work or develop in the future. ";
    "";
    "    # Partially supported options: ";
    "";
    "    # Plasma:";
    "    ## External Bz amplitude, 2D only.";
    "    'magnetic-field': 0,";
    "    ";
    "    ## Plasma substepping for xi, 2d only";
    "    'substepping-depth': 3,";
    "    'substepping-sensitivity': 0.2,";
    "";
    "    ## Parameters of the area available for motion of plasma particles, 3d only.";
    "    'bound-padding-steps': 10,";
    "    'plasma-padding-steps': 15,";
    "";
    "    ## Dual plasma approache for 3d, only GPU  ";
    "    'dual-plasma-approach': False,";
    "    'plasma-coarseness': 5,";
    "    ";
    "    # Beam:";
    "    ## Works for 3d with an unusual beam configuration.";
    "    'rigid-beam': False, ";
    "    ####";
    "";
    "# Developer settings";
    "    ";
    "    ## Only 3d, default value is 1+dxi";
    "    'field-solver-subtraction-coefficient': 1, ";
    "    ";
    "    ## Only 2d";
    "    ## Plasma:";
    "    'trapped-path-limit': 0,";
    "    'correctotransverse-steps': 2, # Can we even change this???" ].
Definition lines_text (l : list string) : string := fold_right (fun a b => a ++ nl ++ b) "" l.
(** config.py:94-97: without 'extra' in the file name the developer settings are left out (lines 4 to 94). *)
Definition listed_lines (extra : bool) : list string := if extra then default_lines else firstn 91 default_lines.
(** config.py:98-106 *)
Definition header (version : string) : string :=
  lines_text [""""""""; "Simulation preformed with following lcode settings."; "Generated by lcode version " ++ version ++ ".";
              "Fill free to contact team@lcode.info for assistance."; """"""""; ""; "config = {"].
Definition runas_default (version : string) (extra : bool) : string := header version ++ lines_text (listed_lines extra) ++ "}".

Section Dump.
  Variable fshow : Q -> string.
  Variable parse : string -> option Q.
  (** config.py:87-93 *)
  Definition str_keys : list string := ["processing-unit-type"; "geometry"; "ion-model"; "plasma-shape"; "plasma-zshape"; "plasma-rshape"].
  Definition is_str_key (k : string) : bool := existsb (String.eqb k) str_keys.
  (** config.py:112-115 and 128-130: the table, lower-cased and indented. *)
  Definition table_text (s : string) : string :=
    "'''" ++ nl ++ String.concat nl (map (fun x => spaces8 ++ strip x) (split_lines (strip (lower s)))) ++ nl ++ spaces8 ++ "'''".
  Inductive action := Replace (m : string -> option string) (new : string) | Skip | Fail.
  (** config.py:107-138: one turn of the loop. *)
  Definition turn (k : string) (v : val) : action :=
    if String.eqb k "plasma-zshape" then
      match v with VStr s => Replace (match_empty_table k) (key_text k ++ table_text s) | _ => Fail end
    else if String.eqb k "plasma-rshape" then
      match v with
      | VInt _ | VBool _ => Skip
      | VStr s => if Nat.eqb (count_words false s) 1 then Skip else Replace (match_option k) (key_text k ++ table_text s)
      | _ => Fail
      end
    else if is_str_key k then
      match v with
      | VStr s => Replace (match_option k) (key_text k ++ "'" ++ lower s ++ "'")
      | VObj r => if String.eqb k "plasma-shape" then Replace (match_option k) (key_text k ++ "'external function " ++ r ++ "'") else Fail
      | _ => Fail
      end
    else Replace (match_option k) (key_text k ++ py_str fshow v).
  Fixpoint turns (d : list (string * val)) (s : string) : option string :=
    match d with
    | [] => Some s
    | (k, v) :: r => match turn k v with Replace m new => turns r (substitute m new s) | Skip => turns r s | Fail => None end
    end.
  (** config.py:86-147 *)
  Definition dump (version : string) (extra : bool) (c : cfg) : option string :=
    match turns (values c) (runas_default version extra) with
    | None => None
    | Some s =>
      match dict_get (values c) "geometry" with
      | Some (VStr g) =>
        if String.eqb (lower g) "3d" then
          match to_float parse (dict_get (values c) "window-width") with
          | Some w => Some (substitute (match_option "window-width") (key_text "window-width" ++ fshow (w / 2)) s)
          | None => None
          end
        else Some s
      | _ => None
      end
    end.
End Dump.
