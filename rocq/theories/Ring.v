(** Generic asynchronous semantics of sequential processes on a ring of FIFO channels.
    Process [r] sends only to [(r+1) mod P] and receives only from its predecessor, as
    MPITransport does (lcode/mpi/transport.py:25-31, 53-62).

    MPI standard-mode Send may either buffer the message and return at once or block until the
    receiver takes it: both are transitions here ([StComplete], [StEarly]), chosen by an
    adversarial schedule.  Channels are FIFO (MPI non-overtaking rule for one communicator,
    source and tag).  Definitions only. *)
From Coq Require Import List Arith.
Import ListNotations.

Section Ring.
  Variable msg : Type.
  Variable res : Type.

  Inductive proc : Type :=
  | Ret (x : res)
  | Send (m : msg) (k : proc)
  | Recv (k : msg -> proc).

  (** Global configuration: for each rank its process and whether its current send has been
      posted; [chan r] is the content of the channel from r to its successor, oldest first. *)
  Record conf := mkConf { pr : nat -> proc; posted : nat -> bool; chan : nat -> list msg }.

  Definition upd {X} (f : nat -> X) (i : nat) (x : X) : nat -> X :=
    fun j => if Nat.eqb j i then x else f j.

  Variable P : nat.
  Definition succ_rank (r : nat) : nat := (r + 1) mod P.
  Definition pred_rank (r : nat) : nat := (r + P - 1) mod P.

  Inductive step : conf -> conf -> Prop :=
  | StPost c r m k : r < P -> pr c r = Send m k -> posted c r = false ->
      step c (mkConf (pr c) (upd (posted c) r true) (upd (chan c) r (chan c r ++ [m])))
  | StComplete c r m k : r < P -> pr c r = Send m k -> posted c r = true -> chan c r = [] ->
      step c (mkConf (upd (pr c) r k) (upd (posted c) r false) (chan c))
  | StEarly c r m k : r < P -> pr c r = Send m k -> posted c r = true ->
      step c (mkConf (upd (pr c) r k) (upd (posted c) r false) (chan c))
  | StRecv c r k m rest : r < P -> pr c r = Recv k -> chan c (pred_rank r) = m :: rest ->
      step c (mkConf (upd (pr c) r (k m)) (posted c) (upd (chan c) (pred_rank r) rest)).

  (** The transitions that do not rely on MPI buffering. *)
  Inductive sync_step : conf -> conf -> Prop :=
  | SsPost c r m k : r < P -> pr c r = Send m k -> posted c r = false ->
      sync_step c (mkConf (pr c) (upd (posted c) r true) (upd (chan c) r (chan c r ++ [m])))
  | SsComplete c r m k : r < P -> pr c r = Send m k -> posted c r = true -> chan c r = [] ->
      sync_step c (mkConf (upd (pr c) r k) (upd (posted c) r false) (chan c))
  | SsRecv c r k m rest : r < P -> pr c r = Recv k -> chan c (pred_rank r) = m :: rest ->
      sync_step c (mkConf (upd (pr c) r (k m)) (posted c) (upd (chan c) (pred_rank r) rest)).

  Inductive steps : nat -> conf -> conf -> Prop :=
  | steps_O c : steps 0 c c
  | steps_S n c c1 c2 : steps n c c1 -> step c1 c2 -> steps (S n) c c2.

  Definition init_conf (prog : nat -> proc) : conf :=
    mkConf prog (fun _ => false) (fun _ => []).

  (** Every process has returned and no message is left in any channel. *)
  Definition finished (c : conf) : Prop :=
    forall r, r < P -> (exists x, pr c r = Ret x) /\ chan c r = [] /\ posted c r = false.

  (** A sequential trace of one process and its result. *)
  Inductive event := ESend (m : msg) | ERecv (m : msg).
  Inductive exec : proc -> list event -> res -> Prop :=
  | ExRet x : exec (Ret x) [] x
  | ExSend m k ev x : exec k ev x -> exec (Send m k) (ESend m :: ev) x
  | ExRecv m k ev x : exec (k m) ev x -> exec (Recv k) (ERecv m :: ev) x.

  Definition sends (l : list event) : list msg :=
    flat_map (fun e => match e with ESend m => [m] | ERecv _ => [] end) l.
  Definition recvs (l : list event) : list msg :=
    flat_map (fun e => match e with ESend _ => [] | ERecv m => [m] end) l.
  Definition ev_msg (e : event) : msg := match e with ESend m => m | ERecv m => m end.
End Ring.

Arguments Ret {msg res} x.
Arguments Send {msg res} m k.
Arguments Recv {msg res} k.
Arguments ESend {msg} m.
Arguments ERecv {msg} m.
Arguments sends {msg} l.
Arguments recvs {msg} l.
Arguments ev_msg {msg} e.
Arguments exec {msg res} _ _ _.
Arguments pr {msg res} _ _.
Arguments posted {msg res} _ _.
Arguments chan {msg res} _ _.
