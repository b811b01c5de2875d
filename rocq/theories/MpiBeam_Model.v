(** The per-layer work of one time step of lcode/push_solvers/push_solver.py, lines 97-124 (2D) and
    236-252 (3D), in the form the transport of Mpi_Model.v sees it: from the state of the solver and
    the particles pulled for a layer to the new state and the particles pushed.

    A particle on its way between two time steps is what mpi/transport.py sends: the [particles]
    array, without dt, remaining_steps and lost (mpi/beam_io.py:27, 38, 44, 51-52), so a 2D particle
    is a [part] and a 3D particle a [part3] with dt and remaining_steps reset to 0
    (beam3d/data.py:51-63).

    Simplifications: the plasma solver is a function of its state and of the two beam densities (it
    is modelled in the Plasma files); [None] stands for a run that has raised or has written outside
    an array, after which nothing is pushed. *)
From Coq Require Import Reals ZArith List Bool.
From Verif Require Import Beam2D_Model Shape_Model Beam3D_Model.
Import ListNotations.
Open Scope R_scope.

(** beam_io.py:99-108 as called at push_solver.py:173-175; the particles handed out. *)
Definition get_slice2 (dxi : R) (s : source) (i : nat) : list part * source :=
  match get_beam_slice s (IZR (Z.of_nat i) * - dxi) (IZR (Z.of_nat i + 1) * - dxi) with
  | Some (_, l, s') => (map pt l, s')
  | None => ([], s)
  end.
(** beam3d/beam_io.py:29-47 *)
Definition get_slice3 (dxi : R) (src : list part3) (i : nat) : list part3 * list part3 :=
  get_layer3 dxi src (Z.of_nat i).

Section Kernels.
  Variable sort_bool : (bpart -> bool) -> list bpart -> list bpart.
  Variable Pl : Type.
  Variable plasma : Pl -> list R -> list R -> Pl.
  Variable pl_fields : Pl -> fields.

  (** beam_layer_to_move, rho_layout, rho_beam_prev, plasma *)
  Definition sig2 : Type := option (list bpart * list R * list R * Pl).
  (** push_solver.py:85-94, beam_calculate.py:378-379 (start_time_step), [cells] radial cells *)
  Definition kinit2 (cells : nat) (pl0 : nat -> Pl) (t : nat) : sig2 :=
    Some ([], repeat 0 cells, repeat 0 cells, pl0 t).
  (** push_solver.py:98-124; beam/data.py:25-29 for [fresh] *)
  Definition kern2 (halvings : nat) (c : pcfg) (s : sig2) (i : nat) (b : list part) : sig2 * list part :=
    match s with
    | None => (None, [])
    | Some (mv, rho_layout, prev, pl) =>
      let layer := map fresh b in
      match layout_beam_layer (r_step c) (xi_step c) rho_layout layer (Z.of_nat i) with
      | None => (None, [])
      | Some (rho, rho') =>
        let pl' := plasma pl rho prev in
        match move_beam_layer sort_bool halvings c mv (Z.of_nat i) (pl_fields pl) (pl_fields pl') with
        | None => (None, [])
        | Some (_, moved, fell) => (Some (layer ++ fell, rho', rho, pl'), map pt moved)
        end
      end
    end.

  Variable Pl3 : Type.
  Variable plasma3 : Pl3 -> grid -> grid -> Pl3.
  Variable pl_fields3 : Pl3 -> fields3.

  (** beam3d/data.py:51-63 (init_generated): dt and remaining_steps are zeroed *)
  Definition strip (p : part3) : part3 :=
    mk3 (b_xi p) (b_x p) (b_y p) (b_px p) (b_py p) (b_pz p) (b_qm p) (b_q p) (b_id p) 0 0.

  (** the two parts of beam_layer_to_move (pulled last time; fell from the layer before), rho_layout,
      ro_beam_prev, plasma.  The code keeps the two parts in one array and their sizes. *)
  Definition sig3 : Type := option (list part3 * list part3 * grid * grid * Pl3).
  (** push_solver.py:222-231, beam_calculator.py:76-78 *)
  Definition kinit3 (pl0 : nat -> Pl3) (t : nat) : sig3 := Some ([], [], zero_grid, zero_grid, pl0 t).
  (** push_solver.py:236-252 *)
  Definition kern3 (u : unit_type) (halvings : nat) (c : cfg3) (s : sig3) (i : nat) (b : list part3) : sig3 * list part3 :=
    match s with
    | None => (None, [])
    | Some (lay, fallen, rho_layout, prev, pl) =>
      let layer := map strip b in
      let '(rho, rho') := layout3 (c_n c) (c_h c) (c_dxi c) rho_layout layer (Z.of_nat i) in
      let pl' := plasma3 pl rho prev in
      match move_layer3 u halvings c (lay ++ fallen) (List.length fallen) (Z.of_nat i) (pl_fields3 pl) (pl_fields3 pl') with
      | None => (None, [])
      | Some (_, moved, fell) => (Some (layer, fell, rho', rho, pl'), map strip moved)
      end
    end.
End Kernels.

(** The state of the solver after the layers [ins]; the time step has completed without an exception
    if it is not [None]. *)
Section End.
  Variable A X : Type.
  Variable kern : option X -> nat -> list A -> option X * list A.
  Fixpoint kernel_end (s : option X) (i : nat) (ins : list (list A)) : option X :=
    match ins with [] => s | b :: r => kernel_end (fst (kern s i b)) (i + 1) r end.
  Definition completes (s : option X) (ins : list (list A)) : Prop := kernel_end s 0 ins <> None.
End End.
