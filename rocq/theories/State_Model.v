(** Model of the reading of a saved plasma state (plasma3d/initialization.py:417-461,
    plasma/initialization.py:96-123), of the writing of plasma particles (plasma3d/data.py:31-34,
    plasma/data.py:31-34) and of where the solver starts (push_solvers/push_solver.py:91).

    Simplifications: arrays are values of an arbitrary type [A]; every exception is [None]; a
    structured array found where a plain one is wanted is an exception here (in the code it is taken
    and fails in the solver). *)
From Coq Require Import Reals ZArith List Bool String.
From Verif Require Import Diag_Model.
Import ListNotations.
Local Open Scope list_scope.
Local Open Scope string_scope.
Local Open Scope R_scope.

Section State.
  Context {A : Type}.

  (** What numpy.load finds under a name of an .npz archive: an array, a structured array (named
      columns), or a pickled Python object (a dictionary given to savez becomes one; np.load refuses
      to unpickle it: allow_pickle is False by default, initialization.py:423). *)
  Inductive entry := Plain (a : A) | Table (cols : list (string * A)) | Pickled.
  Definition pfile := list (string * entry).

  Fixpoint look {B} (l : list (string * B)) (k : string) : option B :=
    match l with
    | [] => None
    | (k', v) :: t => if string_dec k' k then Some v else look t k
    end.
  (** state[k] (KeyError, or ValueError for a pickled object) *)
  Definition array (f : pfile) (k : string) : option A :=
    match look f k with Some (Plain a) => Some a | _ => None end.
  (** state[s][k] (IndexError if state[s] has no named columns) *)
  Definition table_column (f : pfile) (s k : string) : option A :=
    match look f s with Some (Table c) => look c k | _ => None end.
  (** Keyword arguments k=state[k], evaluated one after another. *)
  Fixpoint collect (get : string -> option A) (keys : list string) : option (list (string * A)) :=
    match keys with
    | [] => Some []
    | k :: t => match get k, collect get t with
                | Some a, Some r => Some ((k, a) :: r)
                | _, _ => None
                end
    end.
  (** for sort in const_arrays.sorts: particles[sort] = Arrays(...) *)
  Fixpoint collect_sorts (f : pfile) (cols sorts : list string) : option (list (string * list (string * A))) :=
    match sorts with
    | [] => Some []
    | s :: t => match collect (table_column f s) cols, collect_sorts f cols t with
                | Some c, Some r => Some ((s, c) :: r)
                | _, _ => None
                end
    end.

  Record state := mkState {
    st_fields : list (string * A);
    st_particles : list (string * list (string * A));
    st_currents : list (string * A);
    st_ions : option A;      (* const_arrays.ro_initial (3D), const_arrays.ni (2D) *)
    st_xi : R                (* xi_plasma_layer *)
  }.

  (** plasma3d/initialization.py:417-461.  [ions] and [xi0] are what init_plasma gives (xi0 is
      xi-step, line 412), [sorts] are the species of the configuration, [to_float] is float(). *)
  Definition load3 (to_float : A -> option R) (sorts : list string) (ions : option A) (xi0 : R) (f : pfile) : option state :=
    match collect (array f) ["Ex"; "Ey"; "Ez"; "Bx"; "By"; "Bz"; "Phi"] with
    | None => None
    | Some fields =>
      match collect_sorts f ["x_init"; "y_init"; "q"; "m"; "x_offt"; "y_offt"; "px"; "py"; "pz";
                             "dx_chaotic"; "dy_chaotic"; "dx_chaotic_perp"; "dy_chaotic_perp"] sorts with
      | None => None
      | Some particles =>
        match collect (array f) ["ro"; "jx"; "jy"; "jz"] with
        | None => None
        | Some currents =>
            let ions' := match array f "rho_initial" with Some a => Some a | None => ions end in
            let xi := match array f "xi_plasma_layer" with
                      | Some a => match to_float a with Some x => x | None => xi0 end
                      | None => xi0 end in
            Some (mkState fields particles currents ions' xi)
        end
      end
    end.

  (** plasma/initialization.py:96-123; without xi_plasma_layer the position is 0 (line 121). *)
  Definition load2 (to_float : A -> option R) (sorts : list string) (ions : option A) (f : pfile) : option state :=
    match collect (array f) ["E_r"; "E_f"; "E_z"; "B_f"; "B_z"] with
    | None => None
    | Some fields =>
      match collect_sorts f ["r"; "q"; "m"; "p_r"; "p_f"; "p_z"; "age"] sorts with
      | None => None
      | Some particles =>
        match collect (array f) ["rho"; "j_r"; "j_f"; "j_z"] with
        | None => None
        | Some currents =>
            let ions' := match array f "ni" with Some a => Some a | None => ions end in
            let xi := match array f "xi_plasma_layer" with
                      | Some a => match to_float a with Some x => x | None => 0 end
                      | None => 0 end in
            Some (mkState fields particles currents ions' xi)
        end
      end
    end.

  (** Arrays.save (plasma3d/data.py:31-34, plasma/data.py:31-34): every attribute but xp under its
      own name.  Every file the package writes is of this kind (diagnostics/particles.py:74-110,
      diagnostics_3d.py:666-692: numpy savez of plain arrays). *)
  Definition save_arrays (arrays : list (string * A)) : pfile := map (fun '(k, a) => (k, Plain a)) arrays.
End State.
Arguments entry : clear implicits.
Arguments pfile : clear implicits.
Arguments state : clear implicits.

(** push_solver.py:91: xi_i_plasma_layer_start = round(-xi_plasma_layer_start / dxi) + 1 *)
Definition start_layer (dxi xi : R) : Z := (nearest_even (- xi / dxi) + 1)%Z.
(** push_solver.py:92: the layers computed are those of range(start, xi_steps + 1). *)
Definition layers_computed (dxi xi : R) (xi_steps : Z) : nat := Z.to_nat (xi_steps + 1 - start_layer dxi xi).
