(** Model of the classes of lcode/diagnostics/diagnostics_3d.py: DiagnosticsFXi, DiagnosticsColormaps,
    DiagnosticsTransverse, SaveRunState, as push_solver.py:264-284 calls them in 3D.

    As in Diag_Model numbers are real numbers and a file is its time stamp and what is stored under every key.  An
    exception is None.  Not modelled: pictures, directories, copies from the GPU, infinite limits on the wrong side
    (r_from = inf). *)
From Coq Require Import Reals ZArith List Bool Ascii String.
From Verif Require Import Beam2D_Model Plasma2D_Model Shape_Model Plasma3D_Model Diag_Model.
Import ListNotations.
Local Open Scope list_scope.
Local Open Scope R_scope.

(** ** Recording and saving *)
Section Recorder.
  Context {layer : Type}.
  Variable keeps : R -> layer -> bool.                                 (* conditions_check *)
  Variable entries : layer -> option (list (string * arr)).            (* what is appended *)
  Variables saves saves_again : layer -> bool.                         (* dump in the middle of the window *)
  Variable output : R -> bool.                                         (* the test of the time in dump *)
  Variable pack : data -> option data.                                 (* what dump makes of the data *)
  (** diagnostics_3d.py:236-254, 426-459 without the cleaning: the files are appended in the order of writing *)
  Definition write (t : R) (d : data) (ws : list file) : option (list file) :=
    if output t then option_map (fun f => ws ++ [mkF t f]) (pack d) else Some ws.
  (** diagnostics_3d.py:181-230, 359-417 *)
  Definition record (t : R) (s : data * list file) (l : layer) : option (data * list file) :=
    match (if keeps t l then option_map (fun es => add_all es (fst s)) (entries l) else Some (fst s)) with
    | None => None
    | Some d =>
      match (if saves l then write t d (snd s) else Some (snd s)) with
      | None => None
      | Some ws => option_map (fun ws' => (d, ws')) (if saves_again l then write t d ws else Some ws)
      end
    end.
  Fixpoint record_all (t : R) (ls : list layer) (s : data * list file) : option (data * list file) :=
    match ls with
    | [] => Some s
    | l :: r => match record t s l with None => None | Some s' => record_all t r s' end
    end.
  (** push_solver.py:280-284, then 257-260, 462-464: everything is forgotten at the end of the step, written or not *)
  Definition record_step (t : R) (ls : list layer) (s : data * list file) : option (data * list file) :=
    match record_all t ls s with
    | None => None
    | Some (d, ws) => option_map (fun ws' => (no_data, ws')) (write t d ws)
    end.
  Fixpoint record_run (steps : list (R * list layer)) (s : data * list file) : option (data * list file) :=
    match steps with
    | [] => Some s
    | (t, ls) :: r => match record_step t ls s with None => None | Some s' => record_run r s' end
    end.
End Recorder.

(** the quantity of a name; diagnostics_3d.py:188-222, 368-402 test the names one by one *)
Definition of_name (name : string) : option quantity := find (fun q => String.eqb (name3 q) name) all_quantities.
(** ** DiagnosticsFXi *)
(** diagnostics_3d.py:105-179: [x_P] and [x_S] are the periods as given; [x_cells] are the probe lines' cells (162-165),
    the same as those of FXiDiag *)
Record fx := mkFx { x_names : list string; x_P : period; x_S : period; x_dt : R; x_dxi : R; x_h : R; x_cells : list (Z * Z) }.
Definition new_fx (f_xi : string) (P S : period) (dt dxi h : R) (n : Z) (probes : list (R * R)) : option fx :=
  option_map (fun names => mkFx names P S dt dxi h (map (probe3 n h) probes)) (legacy_fxi f_xi).
(** diagnostics_3d.py:185-222; a name that no branch knows records nothing *)
Definition fx_entries (c : fx) (l : layer3) : option (list (string * arr)) :=
  option_map (fun r => ("xi"%string, scalar (l3_xi l)) :: List.concat r)
    (traverse (fun name => match of_name name with
                           | Some q => option_map (fun e => [e]) (process3 (x_h c) (x_cells c) q l)
                           | None => Some [] end) (x_names c)).
(** diagnostics_3d.py:232-234, 239 *)
Definition fx_due (c : fx) (t : R) : bool := condition_check t (clamp_period (x_P c) (x_dt c)) (x_dt c).
(** diagnostics_3d.py:227-228 *)
Definition fx_saves (c : fx) (l : layer3) : bool := condition_check (l3_xi l) (clamp_period (x_S c) (x_dxi c)) (x_dxi c).
Definition fx_run (c : fx) : list (R * list layer3) -> data * list file -> option (data * list file) :=
  record_run (fun t _ => fx_due c t) (fx_entries c) (fx_saves c) (fun _ => false) (fx_due c) Some.
Definition fx_layers (c : fx) : R -> list layer3 -> data * list file -> option (data * list file) :=
  record_all (fun t _ => fx_due c t) (fx_entries c) (fx_saves c) (fun _ => false) (fx_due c) Some.

(** ** DiagnosticsColormaps *)
Definition allowed_colormaps : list string :=
  ["Ex"; "Ey"; "Ez"; "Bx"; "By"; "Bz"; "ne"; "ni"; "rho_beam"; "Phi"; "y_offt"; "y_plasma_particles"]%string.
(** A limit that is None is the default, infinite one. *)
Record cm := mkCm { m_names : list string; m_P : period; m_S : period; m_dt : R; m_dxi : R; m_h : R; m_n : Z;
  m_xi_from : option R; m_xi_to : option R; m_r_from : option R; m_r_to : option R; m_merge_r : Z; m_merge_xi : Z }.
(** diagnostics_3d.py:279-283 *)
Definition colormap_names (s : string) : option (list string) :=
  let names := from_str_into_list s in if forallb (fun n => mem n allowed_colormaps) names then Some names else None.
(** diagnostics_3d.py:331-347 *)
Definition cm_to (c : cm) : Z :=
  match m_r_to c with
  | None => m_n c
  | Some r => let x := IZR (m_n c / 2) + r / m_h c in if Rlt_dec (IZR (m_n c)) x then m_n c else nearest_even x
  end.
Definition cm_from (c : cm) : Z :=
  match m_r_from c with
  | None => 0%Z
  | Some r => let x := IZR (m_n c / 2) + r / m_h c in if Rlt_dec x 0 then 0%Z else nearest_even x
  end.
(** numpy's slice a:b of an axis of length n, 0 <= a: a negative b counts from the end *)
Definition np_slice (n a b : Z) : list Z := zseq a (if (b <? 0)%Z then Z.max 0 (b + n) else Z.min n b).
(** diagnostics_3d.py:328-329 *)
Definition cm_grid (c : cm) : list R := map (fun i => IZR (i - m_n c / 2) * m_h c) (zseq 0 (m_n c)).
(** diagnostics_3d.py:368-402.  plasma_particles is a dictionary of species (plasma3d/initialization.py:341, 394-407), so
    getattr(plasma_particles, 'y_offt') raises. *)
Definition cm_entry (c : cm) (l : layer3) (name : string) : option (list (string * arr)) :=
  if mem name ["y_offt"; "y_plasma_particles"]%string then None
  else match of_name name with
       | Some q => option_map (fun i => [(name, [map (fun j => field3 q l i j) (np_slice (m_n c) (cm_from c) (cm_to c))])]) (np_index (m_n c) (m_n c / 2))
       | None => Some []
       end.
Definition cm_entries (c : cm) (l : layer3) : option (list (string * arr)) :=
  option_map (fun r => ("xi"%string, scalar (l3_xi l)) :: List.concat r) (traverse (cm_entry c l) (m_names c)).
(** diagnostics_3d.py:419-424 *)
Definition cm_due (c : cm) (t : R) : bool := condition_check t (clamp_period (m_P c) (m_dt c)) (m_dt c).
Definition below (x : R) (top : option R) : bool := match top with None => true | Some y => if Rle_dec x y then true else false end.
Definition above (x : R) (bottom : option R) : bool := match bottom with None => true | Some y => if Rle_dec y x then true else false end.
Definition cm_keeps (c : cm) (t : R) (l : layer3) : bool := cm_due c t && below (l3_xi l) (m_xi_from c) && above (l3_xi l) (m_xi_to c).
(** diagnostics_3d.py:407-408 *)
Definition cm_saves (c : cm) (l : layer3) : bool := condition_check (l3_xi l) (clamp_period (m_S c) (m_dxi c)) (m_dxi c).
(** diagnostics_3d.py:414-415; nothing is below minus infinity *)
Definition cm_ends (c : cm) (l : layer3) : bool :=
  match m_xi_to c with None => false | Some y => below (l3_xi l) (Some y) && above (l3_xi l + m_dxi c) (Some y) end.
(** np.reshape(np.array(v), (size, -1)): rows of equal length; with no rows the length cannot be found *)
Fixpoint chunks (k w : nat) (l : list R) : list (list R) :=
  match k with O => [] | S k' => firstn w l :: chunks k' w (skipn w l) end.
Definition np_rows (size : nat) (v : list arr) : option (list arr) :=
  let l := List.concat (List.concat v) in
  match size with
  | O => None
  | _ => if Nat.eqb (List.length l mod size) 0 then Some (map (fun r => [r]) (chunks size (List.length l / size) l)) else None
  end.
(** diagnostics_3d.py:431-451.  conv_2d calls math.ceil with two arguments (line 67), which raises. *)
Definition cm_pack (c : cm) (d : data) : option data :=
  match traverse (fun name => np_rows (List.length (d "xi"%string)) (d name)) (m_names c) with
  | None => None
  | Some _ =>
    if ((1 <? m_merge_r c) || (1 <? m_merge_xi c))%Z && negb (match m_names c with [] => true | _ => false end) then None
    else Some (fun k => if String.eqb k "transverse_grid" then [[cm_grid c]]
                        else if mem k (m_names c) then match np_rows (List.length (d "xi"%string)) (d k) with Some v => v | None => [] end
                        else d k)
  end.
Definition cm_run (c : cm) : list (R * list layer3) -> data * list file -> option (data * list file) :=
  record_run (cm_keeps c) (cm_entries c) (cm_saves c) (cm_ends c) (cm_due c) (cm_pack c).
Definition cm_layers (c : cm) : R -> list layer3 -> data * list file -> option (data * list file) :=
  record_all (cm_keeps c) (cm_entries c) (cm_saves c) (cm_ends c) (cm_due c) (cm_pack c).

(** ** DiagnosticsTransverse and SaveRunState: attributes of the objects they are given *)
(** A dictionary has the methods of dict; an Arrays object has xp and its arrays (plasma3d/data.py:6-34). *)
Inductive pyobj := Dict (keys : list string) | Arrays (names : list string) | Drain (attributes : list string).
Definition dict_methods : list string :=
  ["clear"; "copy"; "fromkeys"; "get"; "items"; "keys"; "pop"; "popitem"; "setdefault"; "update"; "values"]%string.
(** hasattr(o, name): getattr raises when it is false *)
Definition has (o : pyobj) (name : string) : bool :=
  match o with
  | Dict _ => mem name dict_methods
  | Arrays names => mem name ("xp" :: "copy" :: "save" :: names)%string
  | Drain names => mem name names
  end.
(** plasma3d/initialization.py:341-349, 394-407: what the solver passes on as plasma_particles *)
Definition species (ions : bool) : pyobj := Dict (if ions then ["electrons"; "ions"] else ["electrons"])%string.
(** mpi/beam_io.py:81-84: the drain of a single process is beam3d's BeamDrain (beam3d/beam_io.py:55-80), otherwise MPIBeamDrain *)
Definition drain (single_process : bool) : pyobj :=
  Drain (if single_process then ["beam_buffer"; "lost_buffer"; "push_beam_layer"; "push_beam_lost"; "beam_slice"; "save"]
         else ["beam_transport"; "push_beam_slice"; "beam_slice"; "push_beam_layer"; "save"])%string.
Definition needs (o : pyobj) (names : list string) : option unit := if forallb (has o) names then Some tt else None.

Definition particle_names : list string :=
  ["px"; "py"; "pz"; "x_offt"; "y_offt"; "dx_chaotic"; "dy_chaotic"; "dx_chaotic_perp"; "dy_chaotic_perp"]%string.
Inductive out_type := Numbers | Pictures | Both.
Record tv := mkTv { v_names : list string; v_type : out_type; v_P : period; v_S : period; v_dt : R; v_dxi : R }.
(** diagnostics_3d.py:610-615, 691-696 *)
Definition due_at (P S : period) (dt dxi t xi : R) : bool := condition_check t (clamp_period P dt) dt && condition_check xi (clamp_period S dxi) dxi.
(** diagnostics_3d.py:562-608: a file per layer, its time and its xi in the name, or None; the fields are stored whole *)
Definition tv_after (c : tv) (particles : pyobj) (t : R) (l : layer3) : option (list (R * R)) :=
  if due_at (v_P c) (v_S c) (v_dt c) (v_dxi c) t (l3_xi l) then
    match v_type c with
    | Pictures => Some []
    | _ => option_map (fun _ => [(t, l3_xi l)]) (needs particles (filter (fun n => mem n particle_names) (v_names c) ++ ["xp"%string]))
    end
  else Some [].
Fixpoint tv_layers (c : tv) (particles : pyobj) (t : R) (ls : list layer3) : option (list (R * R)) :=
  match ls with
  | [] => Some []
  | l :: r => match tv_after c particles t l with None => None | Some f => option_map (fun g => f ++ g) (tv_layers c particles t r) end
  end.
Fixpoint tv_run (c : tv) (particles : pyobj) (steps : list (R * list layer3)) : option (list (R * R)) :=
  match steps with
  | [] => Some []
  | (t, ls) :: r => match tv_layers c particles t ls with None => None | Some f => option_map (fun g => f ++ g) (tv_run c particles r) end
  end.

Record rs := mkRs { w_P : period; w_S : period; w_beam : bool; w_plasma : bool; w_dt : R; w_dxi : R }.
(** What a file of SaveRunState holds: the plasma at a layer, at the end of the window, or the beam. *)
Inductive saved := Snapshot (t xi : R) | Plasma (t : R) | Beam (t : R).
Definition state_names : list string :=
  ["xp"; "x_init"; "y_init"; "x_offt"; "y_offt"; "dx_chaotic"; "dy_chaotic"; "dx_chaotic_perp"; "dy_chaotic_perp"; "px"; "py"; "pz"; "q"; "m"]%string.
(** diagnostics_3d.py:656-689 *)
Definition rs_after (c : rs) (particles : pyobj) (t : R) (l : layer3) : option (list saved) :=
  if due_at (w_P c) (w_S c) (w_dt c) (w_dxi c) t (l3_xi l) && w_plasma c
  then option_map (fun _ => [Snapshot t (l3_xi l)]) (needs particles state_names) else Some [].
(** diagnostics_3d.py:698-738 *)
Definition rs_dump (c : rs) (particles beam_drain : pyobj) (t : R) : option (list saved) :=
  if condition_check t (clamp_period (w_P c) (w_dt c)) (w_dt c) then
    match (if w_beam c then option_map (fun _ => [Beam t]) (needs beam_drain ["beam_buffer"%string]) else Some []) with
    | None => None
    | Some b => option_map (fun p => b ++ p) (if w_plasma c then option_map (fun _ => [Plasma t]) (needs particles state_names) else Some [])
    end
  else Some [].
Fixpoint rs_layers (c : rs) (particles : pyobj) (t : R) (ls : list layer3) : option (list saved) :=
  match ls with
  | [] => Some []
  | l :: r => match rs_after c particles t l with None => None | Some f => option_map (fun g => f ++ g) (rs_layers c particles t r) end
  end.
Fixpoint rs_run (c : rs) (particles beam_drain : pyobj) (steps : list (R * list layer3)) : option (list saved) :=
  match steps with
  | [] => Some []
  | (t, ls) :: r =>
    match rs_layers c particles t ls, rs_dump c particles beam_drain t with
    | Some f, Some g => option_map (fun h => f ++ g ++ h) (rs_run c particles beam_drain r)
    | _, _ => None
    end
  end.
