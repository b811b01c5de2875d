(** Specification vocabulary for C82. *)
From Coq Require Import Reals ZArith List.
Import ListNotations.
Open Scope R_scope.

(** t is a whole number of periods after t0. *)
Definition whole_periods (t0 period t : R) : Prop := exists k : Z, t - t0 = IZR k * period.
(** t is in the window from t0 to t1 and a whole number of periods after t0. *)
Definition on_time (t0 t1 period t : R) : Prop := t0 <= t <= t1 /\ whole_periods t0 period t.
(** The entries of [l] that satisfy P, in their order. *)
Inductive picked {X} (P : X -> Prop) : list X -> list X -> Prop :=
| picked_nil : picked P [] []
| picked_take x l m : P x -> picked P l m -> picked P (x :: l) (x :: m)
| picked_skip x l m : ~ P x -> picked P l m -> picked P (x :: l) m.
(** The prefixes of a list that end after its first, second, ... entry. *)
Definition prefixes {X} (l : list X) : list (list X) := map (fun k => firstn k l) (seq 1 (length l)).
(** Number i of a row, counted from the end if i is negative. *)
Definition numbered (row : list R) (i : Z) : R := nth (Z.to_nat (if Z.ltb i 0 then Z.of_nat (length row) + i else i)) row 0.
