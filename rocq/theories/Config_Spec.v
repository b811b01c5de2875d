(** Specification vocabulary for the configuration properties; refers to nothing of the
    model except the type of stored values. *)
From Coq Require Import List ZArith QArith String Bool Znumtheory Sorting.Sorted.
Open Scope Z_scope.
From Verif Require Import Config_Model.
Import ListNotations.
Open Scope string_scope.

(** The value most recently written to [k] in a chronological list of writes. *)
Definition last_write (h : list (string * val)) (k : string) : option val :=
  match filter (fun kv => String.eqb k (fst kv)) (rev h) with
  | [] => None
  | (_, v) :: _ => Some v
  end.

(** 'circ' is the documented synonym of '2d' for the geometry option. *)
Definition canonical (k : string) (v : val) : val :=
  if (String.eqb k "geometry" && is_str (Some v) "circ")%bool then VStr "2d" else v.

(** API calls on a configuration object. *)
Inductive call := CallSet (k : string) (v : val) | CallUpdate (items : list (string * val)).

Definition product (l : list Z) : Z := fold_right Z.mul 1%Z l.

(** [l] is the ascending prime factorisation of [n]. *)
Definition prime_factorisation (n : Z) (l : list Z) : Prop :=
  Sorted Z.le l /\ Forall prime l /\ product l = n.

(** The sizes FFTW handles well (REDFT00/RODFT00 of n points needs 2(n-1)):
    n odd and n-1 = 2^a 3^b 5^c 7^d 11^e 13^f with e+f <= 1 (or n = 1). *)
Definition fft_friendly (n : Z) : Prop :=
  Z.odd n = true /\
  (n = 1 \/ exists a b c d e f : nat, (e + f <= 1)%nat /\
     (n - 1 = 2 ^ Z.of_nat a * 3 ^ Z.of_nat b * 5 ^ Z.of_nat c * 7 ^ Z.of_nat d
              * 11 ^ Z.of_nat e * 13 ^ Z.of_nat f))%Z.

Section Calls.
  Variable fshow : Q -> string.
  Variable has_cupy : bool.

  (** A write fails exactly when it selects the gpu and cupy is absent. *)
  Definition fails (k : string) (v : val) : bool :=
    (String.eqb k "processing-unit-type" && String.eqb (lower (py_str fshow v)) "gpu" && negb has_cupy)%bool.

  (** The writes that take effect in an update: up to and including the first failing one. *)
  Fixpoint effective (items : list (string * val)) : list (string * val) :=
    match items with
    | [] => []
    | (k, v) :: r => (k, v) :: (if fails k v then [] else effective r)
    end.

  Definition call_writes (o : call) : list (string * val) :=
    match o with CallSet k v => [(k, v)] | CallUpdate items => effective items end.

  (** Running calls; the caller may catch an exception and go on. *)
  (** (config.py:66-80: set and update are the only mutators of the API.) *)
  Definition run_call (c : cfg) (o : call) : cfg :=
    match o with
    | CallSet k v => fst (set fshow has_cupy c k v)
    | CallUpdate items => fst (update fshow has_cupy c items)
    end.
  Definition run_calls (c : cfg) (l : list call) : cfg := fold_left run_call l c.

  (** the array library after a call history *)
  Definition picks (kv : string * val) : option arraylib :=
    if String.eqb (fst kv) "processing-unit-type" then
      let s := lower (py_str fshow (snd kv)) in
      if String.eqb s "cpu" then Some Np
      else if (String.eqb s "gpu" && has_cupy)%bool then Some Cp else None
    else None.
  Definition last_pick (h : list (string * val)) : option arraylib :=
    fold_left (fun a kv => match picks kv with Some x => Some x | None => a end) h None.

End Calls.
