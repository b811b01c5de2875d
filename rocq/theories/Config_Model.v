(** Model of lcode/config/config.py (class Config, factorize, good_size) and of
    lcode/config/default_config_values.py.  Definitions only; proofs are in Config_Proofs.v.

    Python numbers are modelled exactly: ints as [Z], floats as rationals [Q]
    (every finite double is rational; rounding is not modelled, nan/inf are excluded). *)
From Coq Require Import List ZArith QArith Qround String Ascii Bool DecimalString Lia.
Import ListNotations.
Open Scope string_scope.

(** A Python value stored in the configuration dictionary.  [VObj] is any other object
    (e.g. a callable 'plasma-shape'), seen by [get] only through its str(). *)
Inductive val : Type :=
| VStr (s : string)
| VInt (z : Z)
| VFloat (q : Q)
| VBool (b : bool)
| VObj (repr : string).

(** str(int): decimal representation. *)
Definition show_Z (z : Z) : string := NilZero.string_of_int (Z.to_int z).

(** str.lower() on ASCII characters. *)
Definition lower_ascii (c : ascii) : ascii :=
  let n := nat_of_ascii c in
  if (Nat.leb 65 n && Nat.leb n 90)%bool then ascii_of_nat (n + 32) else c.
Fixpoint lower (s : string) : string :=
  match s with
  | EmptyString => EmptyString
  | String c r => String (lower_ascii c) (lower r)
  end.

(** The array library selected by 'processing-unit-type' (config.py:21-23, 169-178). *)
Inductive arraylib := Np | Cp.

(** config_values is a Python dict (insertion ordered, config.py:19). *)
Record cfg := mkCfg { values : list (string * val); xp : arraylib }.

Inductive exn := ImportError | ZeroDivisionError | ValueError.

Section Model.
  (** Oracles: [fshow] is str() of a float, [parse] is float() of a string
      (None = ValueError), [has_cupy] tells whether cupy can be imported. *)
  Variable fshow : Q -> string.
  Variable parse : string -> option Q.
  Variable has_cupy : bool.

  Fixpoint dict_get (d : list (string * val)) (k : string) : option val :=
    match d with
    | [] => None
    | (k', v) :: r => if String.eqb k k' then Some v else dict_get r k
    end.

  Fixpoint dict_set (d : list (string * val)) (k : string) (v : val) : list (string * val) :=
    match d with
    | [] => [(k, v)]
    | (k', v') :: r => if String.eqb k k' then (k', v) :: r else (k', v') :: dict_set r k v
    end.

  (** Python str() of a stored value. *)
  Definition py_str (v : val) : string :=
    match v with
    | VStr s => s
    | VInt z => show_Z z
    | VFloat q => fshow q
    | VBool true => "True"
    | VBool false => "False"
    | VObj r => r
    end.

  (** config.py:35-39 *)
  Definition get (c : cfg) (k : string) (fallback : string) : string :=
    match dict_get (values c) k with
    | Some v => py_str v
    | None => fallback
    end.

  (** config.py:41-42 *)
  Definition getraw (c : cfg) (k : string) : option val := dict_get (values c) k.

  (** config.py:45-52 *)
  Definition getbool (c : cfg) (k : string) (fallback : bool) : bool :=
    let s := lower (get c k "") in
    if String.eqb s "true" then true
    else if String.eqb s "false" then false
    else fallback.

  (** float(self.get(k)), config.py:60-64 (the part inside try).  Simplification: for Python
      numbers float(str(x)) = x, so the round trip through the string is skipped; strings go
      through the oracle [parse]; str(bool) and missing options ('') are never numbers. *)
  Definition to_float (ov : option val) : option Q :=
    match ov with
    | Some (VStr s) => parse s
    | Some (VInt z) => Some (inject_Z z)
    | Some (VFloat q) => Some q
    | Some (VBool _) => None
    | Some (VObj r) => parse r
    | None => None
    end.
  Definition getfloat (c : cfg) (k : string) (fallback : Q) : Q :=
    match to_float (dict_get (values c) k) with Some q => q | None => fallback end.

  (** int() of a float: truncation towards zero. *)
  Definition trunc (q : Q) : Z := Z.quot (Qnum q) (Zpos (Qden q)).

  (** config.py:54-58 *)
  Definition getint (c : cfg) (k : string) (fallback : Z) : Z :=
    match to_float (dict_get (values c) k) with Some q => trunc q | None => fallback end.

  Definition is_str (v : option val) (s : string) : bool :=
    match v with Some (VStr t) => String.eqb t s | _ => false end.

  (** config.py:165-183.  [self.config_values['geometry'] == "circ"] compares the raw value. *)
  Definition adjust_on_set (c : cfg) (k : string) : cfg * option exn :=
    let '(c1, e) :=
      if String.eqb k "processing-unit-type" then
        let pu := lower (get c "processing-unit-type" "") in
        if String.eqb pu "cpu" then (mkCfg (values c) Np, None)
        else if String.eqb pu "gpu" then
          if has_cupy then (mkCfg (values c) Cp, None) else (c, Some ImportError)
        else (c, None)
      else (c, None) in
    match e with
    | Some _ => (c1, e)
    | None =>
      if (String.eqb k "geometry" && is_str (dict_get (values c1) "geometry") "circ")%bool
      then (mkCfg (dict_set (values c1) "geometry" (VStr "2d")) (xp c1), None)
      else (c1, None)
    end.

  (** config.py:66-71 *)
  Definition set (c : cfg) (k : string) (v : val) : cfg * option exn :=
    adjust_on_set (mkCfg (dict_set (values c) k v) (xp c)) k.

  (** config.py:73-80: iterate over the items; an exception stops the loop. *)
  Fixpoint update (c : cfg) (items : list (string * val)) : cfg * option exn :=
    match items with
    | [] => (c, None)
    | (k, v) :: r =>
      match set c k v with
      | (c', None) => update c' r
      | (c', Some e) => (c', Some e)
      end
    end.

  (** default_config_values.py:3-104 (in file order). *)
  Definition default_config_values : list (string * val) :=
    [ ("geometry", VStr "circ");
      ("processing-unit-type", VStr "cpu");
      ("window-width", VFloat 5);
      ("transverse-step", VFloat (1 # 20));
      ("window-length", VFloat 15);
      ("xi-step", VFloat (1 # 20));
      ("time-limit", VFloat (401 # 2));
      ("time-step", VInt 25);
      ("plasma-particles-per-cell", VInt 10);
      ("ion-model", VStr "mobile");
      ("ion-mass", VInt 1836);
      ("plasma-shape", VStr "legacy");
      ("plasma-rshape", VStr "uniform");
      ("plasma-width", VInt 1);
      ("plasma-width-2", VInt 0);
      ("plasma-density-2", VFloat (1 # 2));
      ("plasma-zshape", VStr "
        ");
      ("declustering-enabled", VBool false);
      ("declustering-averaging", VInt 3);
      ("declustering-force", VFloat (3 # 10));
      ("declustering-damping", VFloat (1 # 10));
      ("declustering-limit", VFloat (1 # 1000));
      ("beam-substepping-energy", VInt 2);
      ("magnetic-field", VInt 0);
      ("substepping-depth", VInt 3);
      ("substepping-sensitivity", VFloat (1 # 5));
      ("bound-padding-steps", VInt 10);
      ("plasma-padding-steps", VInt 15);
      ("dual-plasma-approach", VBool false);
      ("plasma-coarseness", VInt 5);
      ("rigid-beam", VBool false);
      ("field-solver-subtraction-coefficient", VInt 1);
      ("trapped-path-limit", VInt 0);
      ("correctotransverse-steps", VInt 2) ].

  (** config.py:17-33 *)
  Definition empty_cfg : cfg := mkCfg [] Np.
  Definition new_config (user : list (string * val)) (use_default : bool) : cfg * option exn :=
    match (if use_default then update empty_cfg default_config_values else (empty_cfg, None)) with
    | (c, None) => update c user
    | (c, Some e) => (c, Some e)
    end.

  (** config.py:150-156: a fresh default Config whose dictionary is replaced by a copy. *)
  Definition copy_config (c : cfg) : cfg :=
    mkCfg (values c) (xp (fst (new_config [] true))).

  (** config.py:239-247.  [first_divisor] is the [for i in range(2, number+1)] loop started at
      [i]; [count] is the number of remaining iterations. None = loop exhausted (Python returns None). *)
  Fixpoint first_divisor (n i : Z) (count : nat) : option Z :=
    match count with
    | O => None
    | S k => if Z.eqb (n mod i) 0 then Some i else first_divisor n (i + 1) k
    end.
  (** The recursion carries fuel; [None] = out of fuel or Python's implicit None. *)
  Fixpoint factorize_fuel (fuel : nat) (n : Z) (factors : list Z) : option (list Z) :=
    match fuel with
    | O => None
    | S f =>
      if Z.leb n 1 then Some factors
      else match first_divisor n 2 (Z.to_nat (n - 1)) with
           | Some i => factorize_fuel f (n / i) (factors ++ [i])
           | None => None
           end
    end.
  Definition factorize (n : Z) : option (list Z) := factorize_fuel (S (Z.to_nat n)) n [].

  Definition count_z (x : Z) (l : list Z) : nat := List.length (filter (Z.eqb x) l).

  (** config.py:250-258 *)
  Definition good_size (n : Z) : bool :=
    match factorize (n - 1) with
    | Some fs =>
      forallb (fun f => existsb (Z.eqb f) [2; 3; 4; 5; 7; 11; 13]%Z) fs
      && Nat.ltb (count_z 11 fs + count_z 13 fs) 2
      && negb (Z.eqb (n mod 2) 0)
    | None => false
    end.

  (** range(lo, hi) *)
  Definition zrange (lo hi : Z) : list Z :=
    map (fun i => (lo + Z.of_nat i)%Z) (seq 0 (Z.to_nat (hi - lo))).

  (** np.abs(a - estim).argmin(): first element minimising the distance; ValueError when empty. *)
  Fixpoint argmin_from (e best : Z) (l : list Z) : Z :=
    match l with
    | [] => best
    | x :: r => if Z.ltb (Z.abs (x - e)) (Z.abs (best - e)) then argmin_from e x r
                else argmin_from e best r
    end.
  Definition argmin_dist (e : Z) (l : list Z) : option Z :=
    match l with [] => None | x :: r => Some (argmin_from e x r) end.

  (** config.py:207-216 *)
  Definition optimal_steps (estim : Z) : option Z :=
    let lower_bound := if Z.ltb 0 (estim - 100) then (estim - 100)%Z else 0%Z in
    argmin_dist estim (filter good_size (zrange lower_bound (estim + 100))).

  (** config.py:198-219 *)
  Definition adjust_window (c : cfg) : cfg * option exn :=
    let w := getfloat c "window-width" 0 in
    let h := getfloat c "transverse-step" 0 in
    if Qeq_bool h 0 then (c, Some ZeroDivisionError)
    else match optimal_steps (trunc (w / h)) with
         | None => (c, Some ValueError)
         | Some n =>
           let '(c1, _) := set c "window-width"
               (VFloat (inject_Z n * getfloat c "transverse-step" 0)) in
           set c1 "window-width-steps" (VInt n)
         end.

  (** Python round(): nearest integer, ties to even. *)
  Definition round_q (q : Q) : Z :=
    let f := Qfloor q in
    match Qcompare (q - inject_Z f) (1 # 2) with
    | Lt => f
    | Gt => (f + 1)%Z
    | Eq => if Z.even f then f else (f + 1)%Z
    end.

  (** config.py:222-234.  np.sqrt is irrational in general: [rt] stands for
      np.sqrt(plasma-particles-per-cell). *)
  Definition adjust_fineness (rt : Q -> Q) (c : cfg) : cfg * option exn :=
    let s := rt (getfloat c "plasma-particles-per-cell" 0) in
    let '(c1, _) := set c "plasma-fineness" (VInt (round_q s)) in
    let '(c2, _) := set c1 "plasma-particles-per-cell" (VInt (round_q s * round_q s)) in
    if (negb (Qle_bool s 0) && negb (Qle_bool 1 s))%bool then
      let m := round_q (/ s) in
      let '(c3, _) := set c2 "plasma-fineness" (VFloat (/ inject_Z m)) in
      set c3 "plasma-particles-per-cell" (VFloat (/ inject_Z (m * m)))
    else (c2, None).

  (** config.py:185-196 *)
  Definition adjust_3d (rt : Q -> Q) (c : cfg) : cfg * option exn :=
    if String.eqb (get c "geometry" "") "3d" then
      let '(c1, _) := set c "window-width" (VFloat (2 * getfloat c "window-width" 0)) in
      match adjust_window c1 with
      | (c2, Some e) => (c2, Some e)
      | (c2, None) =>
        match adjust_fineness rt c2 with
        | (c3, Some e) => (c3, Some e)
        | (c3, None) =>
          if String.eqb (get c3 "field-solver-subtraction-coefficient" "") "1"
          then set c3 "field-solver-subtraction-coefficient"
                   (VFloat (1 + getfloat c3 "xi-step" 0))
          else (c3, None)
        end
      end
    else (c, None).

  (** simulation.py:92-120: the solver the simulation selects from the geometry. *)
  Inductive solver := Solver3D | Solver2D | BadGeometry.
  Definition pick_solver (c : cfg) : solver :=
    let g := lower (get c "geometry" "") in
    if String.eqb g "3d" then Solver3D
    else if String.eqb g "2d" then Solver2D
    else BadGeometry.
End Model.
