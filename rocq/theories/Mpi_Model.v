(** Model of lcode/mpi/transport.py, lcode/mpi/beam_io.py and of the time loop of
    lcode/simulation.py:173-269 with the xi loop of lcode/push_solvers/push_solver.py:98-131
    (lines 236-262 in 3D) as seen by the transport.

    What is abstract: the per-layer physics ([kinit]: plasma initialisation at a time, [kern]:
    one xi iteration, which turns the pulled beam layer into the 'moved' layer that is pushed)
    and the beam source ([mk_source], [get_slice]; concrete in Beam2D_Model / Beam3D_Model).
    Time is counted in units of the time step.  Every rank runs the same number [L] of xi
    iterations per time step. *)
From Coq Require Import List Arith Bool.
From Verif Require Import Ring.
Import ListNotations.

Section Mpi.
  Variable A : Type.                          (* beam particle *)
  Variable Src : Type.                        (* beam source object *)
  Variable mk_source : list A -> Src.
  Variable get_slice : Src -> nat -> list A * Src.
  Variable Sig : Type.                        (* solver state inside one time step *)
  Variable kinit : nat -> Sig.
  Variable kern : Sig -> nat -> list A -> Sig * list A.
  Variable L : nat.                           (* xi iterations per time step *)
  Variable beam0 : list A.

  Variable P : nat.                           (* communicator size *)
  Variable N : nat.                           (* self.steps *)
  Variable rank : nat.

  (** Ghost label of a message: which data it carries.  Receivers never look at it. *)
  Inductive label := LLayer (g i : nat) | LBeam (g : nat).
  Definition msg : Type := label * list A.

  (** Ghost record of an executed time step: time, layers pulled, layers pushed. *)
  Record srec := mkRec { sr_time : nat; sr_in : list (list A); sr_out : list (list A) }.

  (** Fields of MPIBeamTransport (beam_io.py:7-17, transport.py:15-23) and of Simulation. *)
  Record tr := mkTr {
    processed : nat; skip_first : bool; initial_source : Src; final_drain : list (list A);
    time : nat; log : list srec }.

  Definition proc := Ring.proc msg tr.

  (** transport.py:25-31 are [succ_rank], [pred_rank] of Ring.v. *)
  (** transport.py:37-39 *)
  Definition first_step (st : tr) : bool := (rank =? 0) && (processed st =? 0).
  (** transport.py:41-43: processed*size + rank == steps - 1 (over Python ints, so written
      without the subtraction) *)
  Definition final_step (st : tr) : bool := processed st * P + rank + 1 =? N.
  (** transport.py:49-51 *)
  Definition steps_per_node : nat := N / P + (if rank <? N mod P then 1 else 0).
  (** transport.py:45-47 *)
  Definition last_step (st : tr) : bool := processed st + 1 =? steps_per_node.
  (** ghost: global number of the step being executed *)
  Definition cur (st : tr) : nat := processed st * P + rank.

  (** beam_io.py:19-28 (push) and 29-38 (push3d); push_beam_slice appends (beam/beam_io.py:118-121). *)
  Definition push (st : tr) (i : nat) (l : list A) (k : tr -> proc) : proc :=
    if final_step st || (rank =? P - 1) then
      k (mkTr (processed st) (skip_first st) (initial_source st) (final_drain st ++ [l]) (time st) (log st))
    else if skip_first st then
      k (mkTr (processed st) false (initial_source st) (final_drain st) (time st) (log st))
    else
      Send (LLayer (cur st) (i - 1), l)
        (k (mkTr (processed st) (skip_first st) (initial_source st) (final_drain st ++ [l]) (time st) (log st))).

  (** beam_io.py:40-45 (pull) and 47-54 (pull3d) *)
  Definition pull (st : tr) (i : nat) (k : list A -> tr -> proc) : proc :=
    if first_step st || (rank =? 0) then
      let '(b, s) := get_slice (initial_source st) i in
      k b (mkTr (processed st) (skip_first st) s (final_drain st) (time st) (log st))
    else Recv (fun m => k (snd m) st).

  (** push_solver.py:98-129: one pull, the physics, one push per xi iteration. *)
  Fixpoint layers (n i : nat) (s : Sig) (st : tr) (ins outs : list (list A))
           (k : tr -> list (list A) -> list (list A) -> proc) : proc :=
    match n with
    | O => k st ins outs
    | S n' =>
      pull st i (fun b st1 =>
        let '(s', moved) := kern s i b in
        push st1 i moved (fun st2 => layers n' (i + 1) s' st2 (ins ++ [b]) (outs ++ [moved]) k))
    end.

  Definition drained (st : tr) : list A := concat (final_drain st).   (* beam_slice(), beam/beam_io.py:128-129 *)

  (** beam_io.py:86-118 *)
  Definition next_step (st : tr) (k : tr -> proc) : proc :=
    let is_final := final_step st in
    let is_last := last_step st in
    let st1 := mkTr (processed st + 1) true (initial_source st) (final_drain st) (time st) (log st) in
    if is_final then k st1
    else if P =? 1 then
      k (mkTr (processed st1) true (mk_source (drained st)) [] (time st) (log st))
    else if rank =? P - 1 then
      Send (LBeam (cur st), drained st)
        (k (mkTr (processed st1) true (initial_source st) [] (time st) (log st)))
    else
      Send (LLayer (cur st) (L - 1), [])
        (if (rank =? 0) && negb is_last then
           Recv (fun m => k (mkTr (processed st1) true (mk_source (snd m)) [] (time st) (log st)))
         else k (mkTr (processed st1) true (initial_source st) [] (time st) (log st))).

  (** simulation.py:247-264 *)
  Fixpoint time_loop (n : nat) (st : tr) : proc :=
    match n with
    | O => Ret st
    | S n' =>
      layers L 0 (kinit (time st)) st [] [] (fun st1 ins outs =>
        next_step (mkTr (processed st1) (skip_first st1) (initial_source st1) (final_drain st1)
                        (time st1) (log st1 ++ [mkRec (time st1) ins outs]))
          (fun st2 => time_loop n'
             (mkTr (processed st2) (skip_first st2) (initial_source st2) (final_drain st2)
                   (time st2 + P) (log st2))))
    end.

  (** beam_io.py:7-17 and simulation.py:236-247 *)
  Definition init_tr : tr := mkTr 0 true (mk_source beam0) [] (rank + 1) [].
  Definition rank_program : proc := time_loop steps_per_node init_tr.

  (** A second call of Simulation.step on the same object (simulation.py:215-247): beam_source is
      no longer None, so neither the source nor MPITransport is created again (in particular
      MPITransport.steps and processed_steps keep the values of the first call and the argument
      N_steps of the second call is used by nothing but the time limit), and current_time is set
      back to dt*(rank+1).  Rigid beams (a new MPITransport every call) are not modelled here. *)
  Definition step_again (N_steps : nat) (st : tr) : proc :=
    time_loop steps_per_node
      (mkTr (processed st) (skip_first st) (initial_source st) (final_drain st) (rank + 1) (log st)).
End Mpi.

Arguments mkRec {A}.
Arguments sr_time {A}.
Arguments sr_in {A}.
Arguments sr_out {A}.
Arguments final_drain {A Src}.
Arguments log {A Src}.
Arguments processed {A Src}.

(** Reference semantics used by the specification: time steps in order, one after another,
    where step [g] takes its layers either from a beam source made of everything step [g-1]
    drained (when [g] is the first step of a round of [P]) or layer by layer from the pushes of
    step [g-1].  With [P = 1] it is the plain single-process run. *)
Section Ref.
  Variable A : Type.
  Variable Src : Type.
  Variable mk_source : list A -> Src.
  Variable get_slice : Src -> nat -> list A * Src.
  Variable Sig : Type.
  Variable kinit : nat -> Sig.
  Variable kern : Sig -> nat -> list A -> Sig * list A.
  Variable L : nat.
  Variable beam0 : list A.

  Fixpoint slices (s : Src) (i n : nat) : list (list A) :=
    match n with
    | O => []
    | S n' => let '(b, s') := get_slice s i in b :: slices s' (i + 1) n'
    end.
  Fixpoint run_kernel (s : Sig) (i : nat) (ins : list (list A)) : list (list A) :=
    match ins with
    | [] => []
    | b :: r => let '(s', o) := kern s i b in o :: run_kernel s' (i + 1) r
    end.

  Fixpoint ref_in (P g : nat) : list (list A) :=
    match g with
    | O => slices (mk_source beam0) 0 L
    | S g' =>
      let o := run_kernel (kinit (g' + 1)) 0 (ref_in P g') in
      if S g' mod P =? 0 then slices (mk_source (concat o)) 0 L
      else tl o ++ [[]]
    end.
  Definition ref_out (P g : nat) : list (list A) := run_kernel (kinit (g + 1)) 0 (ref_in P g).
End Ref.
