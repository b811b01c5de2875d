(** Model of diagnostics/targets.py (FieldDiagnostics, BeamDiagnostics, PlasmaDiagnostics) and of
    diagnostics/diagnostics_list.py (TDiagnostics, BeamDiagnostics).  [None] is a raised exception; a dictionary is the list
    of its entries in the order of insertion; floats are exact reals.  Pictures and directories are left out, and a file is
    named by its time step (the program rounds 100 t to a whole number for the name). *)
From Coq Require Import Reals ZArith List Bool Arith.
From Verif Require Import Beam2D_Model.
Import ListNotations.
Open Scope R_scope.

(** ** Python *)
Definition is_zero (x : R) : bool := if Req_EM_T x 0 then true else false.
(** x % y == 0 on numbers; the division by zero raises *)
Definition multiple (x y : R) : option bool := if Req_EM_T y 0 then None else Some (is_zero (x - y * IZR (floorR (x / y)))).
(** a[i] on a sequence: negative indices count from the end *)
Definition py_get {A} (l : list A) (i : Z) : option A :=
  if (0 <=? i)%Z then nth_error l (Z.to_nat i) else if (0 <=? Z.of_nat (length l) + i)%Z then nth_error l (Z.to_nat (Z.of_nat (length l) + i)) else None.
Fixpoint dict_get {V} (d : list (R * V)) (k : R) : option V :=
  match d with [] => None | (k', v) :: d' => if Req_EM_T k' k then Some v else dict_get d' k end.
Fixpoint dict_set {V} (d : list (R * V)) (k : R) (v : V) : list (R * V) :=
  match d with [] => [(k, v)] | (k', v') :: d' => if Req_EM_T k' k then (k', v) :: d' else (k', v') :: dict_set d' k v end.

(** ** FieldDiagnostics *)
(** targets.py:27-59, after pull_config: w = int(window-length / xi-step) + 1, h = int(window-width / transverse-step) + 1,
    and t_start, t_end are numbers (pull_config puts 0 and the time limit for None) *)
Record fcfg := mkFc { f_r : option Z; f_start : R; f_end : R; f_period : R; f_w : nat; f_h : nat; f_save : bool (* 'f' in out *) }.
(** one entry of a line, or one row of a map *)
Inductive item := Num (v : R) | Row (l : list R).
(** an array made by np.empty has no values yet: [None] *)
Definition record := list (option item).
Record fstate := mkFs { f_data : list (R * record); f_files : list (R * list (R * record)) }.
(** targets.py:73-76: the value put into data[t][layer_idx].  A row of the wrong length raises, except that one of length 1
    is spread by numpy. *)
Definition field_item (c : fcfg) (row : list R) : option item :=
  match f_r c with
  | None => if (length row =? f_h c)%nat then Some (Row row) else match row with [v] => Some (Row (repeat v (f_h c))) | _ => None end
  | Some r => option_map Num (py_get row r)
  end.
Definition set_item (a : record) (i : nat) (v : item) : option record :=
  if (i <? length a)%nat then Some (firstn i a ++ Some v :: skipn (S i) a) else None.
(** targets.py:62-80, 94-98 *)
Definition field_process (c : fcfg) (t : R) (idx : nat) (row : list R) (s : fstate) : option fstate :=
  if Rlt_dec t (f_start c) then Some s else if Rlt_dec (f_end c) t then Some s else
  match multiple (t - f_start c) (f_period c) with
  | None => None
  | Some false => Some s
  | Some true =>
    let d := if (idx =? 0)%nat then dict_set (f_data s) t (repeat None (f_w c)) else f_data s in
    match dict_get d t, field_item c row with
    | Some a, Some v =>
      match set_item a idx v with
      | Some a' =>
        let d' := dict_set d t a' in
        Some (mkFs d' (if ((idx =? f_w c - 1)%nat && f_save c)%bool then f_files s ++ [(t, d')] else f_files s))
      | None => None
      end
    | _, _ => None
    end
  end.

(** ** BeamDiagnostics and PlasmaDiagnostics *)
Section Particles.
  Context {P : Type}.
  Record pdcfg := mkPd { d_start : R; d_end : R; d_period : R }.
  Definition store := list (R * list P).
  (** targets.py:153-167 *)
  Definition beam_process (c : pdcfg) (t : R) (idx : nat) (slice : list P) (s : store) : option store :=
    if Rlt_dec t (d_start c) then Some s else if Rlt_dec (d_end c) t then Some s else
    match multiple (t - d_start c) (d_period c) with
    | None => None
    | Some false => Some s
    | Some true =>
      let d := if (idx =? 0)%nat then dict_set s t [] else s in
      match dict_get d t with Some a => Some (dict_set d t (a ++ slice)) | None => None end
    end.
  (** targets.py:194-207: the new entry is made before the period is looked at *)
  Definition plasma_process (c : pdcfg) (t : R) (idx : nat) (slice : list P) (s : store) : option store :=
    if Rlt_dec t (d_start c) then Some s else if Rlt_dec (d_end c) t then Some s else
    let d := if (idx =? 0)%nat then dict_set s t [] else s in
    match multiple (t - d_start c) (d_period c) with
    | None => None
    | Some false => Some d
    | Some true => match dict_get d t with Some a => Some (dict_set d t (a ++ slice)) | None => None end
    end.
  (** diagnostics_list.py:24-38: [if self.t_end] is false for None and for 0 *)
  Record tcfg := mkTc { t_start : R; t_end : option R; t_period : R }.
  Definition t_process (c : tcfg) (t : R) : option bool :=
    let late := match t_end c with Some e => negb (is_zero e) && (if Rlt_dec e t then true else false) | None => false end in
    if (late || if Rlt_dec t (t_start c) then true else false)%bool then Some false else multiple (t - t_start c) (t_period c).
  (** diagnostics_list.py:40-53 *)
  Definition t_beam_process (c : tcfg) (t : R) (idx : nat) (slice : list P) (s : store) : option store :=
    match t_process c t with
    | None => None
    | Some false => Some s
    | Some true =>
      let d := if (idx =? 0)%nat then dict_set s t [] else s in
      match dict_get d t with Some a => Some (dict_set d t (a ++ slice)) | None => None end
    end.
End Particles.

(** ** A run: the calls of one time step are made layer by layer, from layer [first] on *)
Section Run.
  Context {St A : Type} (process : R -> nat -> A -> St -> option St).
  Fixpoint layers (t : R) (idx : nat) (l : list A) (s : St) : option St :=
    match l with [] => Some s | a :: l' => match process t idx a s with Some s' => layers t (S idx) l' s' | None => None end end.
  Fixpoint run (first : nat) (steps : list (R * list A)) (s : St) : option St :=
    match steps with [] => Some s | (t, l) :: r => match layers t first l s with Some s' => run first r s' | None => None end end.
End Run.
