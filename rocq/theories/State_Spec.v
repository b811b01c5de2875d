(** Specification vocabulary for C62: what a plasma file holds, and what continuing a computation
    from a layer means.  Independent of the loaders. *)
From Coq Require Import Reals ZArith List Bool String.
From Verif Require Import State_Model Beam2D_Model Shape_Model Beam3D_Model.
Import ListNotations.
Local Open Scope list_scope.
Local Open Scope string_scope.
Local Open Scope R_scope.

(** The archive holds array [a] under the name [k]. *)
Definition holds {A} (f : pfile A) (k : string) (a : A) : Prop := look f k = Some (Plain a).
(** The archive has, under the name of the species, a table with this column. *)
Definition holds_column {A} (f : pfile A) (s k : string) (a : A) : Prop :=
  exists cols, look f s = Some (Table cols) /\ look cols k = Some a.
(** These are arrays with these names, and the archive holds them. *)
Definition arrays_of {A} (f : pfile A) (names : list string) (l : list (string * A)) : Prop :=
  map fst l = names /\ forall k a, In (k, a) l -> holds f k a.
Definition species_of {A} (f : pfile A) (sorts names : list string) (l : list (string * list (string * A))) : Prop :=
  map fst l = sorts /\ forall s cols, In (s, cols) l -> map fst cols = names /\ forall k a, In (k, a) cols -> holds_column f s k a.
(** Optional content: what the archive holds, else [other]. *)
Definition or_else {A} (f : pfile A) (k : string) (other v : option A) : Prop :=
  (exists a, holds f k a /\ v = Some a) \/ ((forall a, ~ holds f k a) /\ v = other).
Definition number_or {A} (to_float : A -> option R) (f : pfile A) (k : string) (other v : R) : Prop :=
  (exists a, holds f k a /\ to_float a = Some v) \/ ((forall a x, holds f k a -> to_float a <> Some x) /\ v = other).

(** The plasma state [st] is the one written in the archive. *)
Definition written_in {A} (to_float : A -> option R) (field_names columns current_names sorts : list string)
  (ion_name : string) (ions : option A) (xi0 : R) (f : pfile A) (st : state A) : Prop :=
  arrays_of f field_names (st_fields st) /\ species_of f sorts columns (st_particles st) /\
  arrays_of f current_names (st_currents st) /\ or_else f ion_name ions (st_ions st) /\
  number_or to_float f "xi_plasma_layer" xi0 (st_xi st).

(** The beam particles that lie behind the start of layer [i]. *)
Definition behind (dxi : R) (i : Z) (beam : list part) : list part :=
  filter (fun p => if Rlt_dec (xi p) (- (IZR i * dxi)) then true else false) beam.
Definition behind3 (dxi : R) (i : Z) (beam : list part3) : list part3 :=
  filter (fun p => if Rlt_dec (b_xi p) (- (IZR i * dxi)) then true else false) beam.
(** No beam particle lies in the [k] layers before layer [i]. *)
Definition nobody_just_ahead (dxi : R) (i : Z) (k : Z) (positions : list R) : Prop :=
  forall x, In x positions -> ~ (- (IZR i * dxi) <= x <= - (IZR (i - k) * dxi)).
