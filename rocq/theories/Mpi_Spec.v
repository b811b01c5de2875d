(** Specification vocabulary for the multi-process properties C06-C09.  Nothing here refers to the
    messages or to the transport. *)
From Coq Require Import List Arith Permutation.
Import ListNotations.

(** Two runs agree layer by layer up to the order of the particles inside a layer. *)
Definition same_layers {A} (x y : list (list A)) : Prop := Forall2 (@Permutation A) x y.

(** [layers_ok inl x]: the i-th list of [x] holds only particles of xi layer [i]. *)
Definition layers_ok {A} (inl : nat -> A -> bool) (x : list (list A)) : Prop :=
  forall i a, In a (nth i x []) -> inl i a = true.

(** What C08 needs of one time step [T t ins] (time, pulled layers |-> pushed layers). *)
Record step_ok {A} (inl : nat -> A -> bool) (T : nat -> list (list A) -> list (list A)) : Prop := {
  so_order : forall t x y, same_layers x y -> same_layers (T t x) (T t y);
    (* the order of the particles inside a layer does not matter *)
  so_first : forall t x, nth 0 (T t x) [] = [];
    (* nothing has been moved before the first layer has been pulled *)
  so_layer : forall t x, layers_ok inl x -> layers_ok inl (tl (T t x))
    (* the particles pushed at iteration i+1 are the ones that ended the step in layer i *)
}.

(** What C08 needs of a beam source: asked for layers 0, 1, ..., n-1 it returns exactly the
    particles of each of these layers, provided no particle lies ahead of the window. *)
Definition source_ok {A} (inl : nat -> A -> bool) (cut : list A -> nat -> list (list A)) : Prop :=
  forall b n, (forall a, In a b -> exists i, inl i a = true) ->
    length (cut b n) = n /\ forall i, i < n -> Permutation (nth i (cut b n) []) (filter (inl i) b).

(** Every particle lies in at most one layer. *)
Definition layers_disjoint {A} (inl : nat -> A -> bool) : Prop :=
  forall i j a, inl i a = true -> inl j a = true -> i = j.
