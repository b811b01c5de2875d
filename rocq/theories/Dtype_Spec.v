(** What C41 says about record types. *)
From Coq Require Import ZArith List String.
From Verif Require Import Dtype_Model.
Import ListNotations.
Local Open Scope list_scope.
Local Open Scope Z_scope.

(** Kind and size in bytes of a numpy scalar, as its name says. *)
Inductive numpy_scalar : string -> prim -> Prop :=
| np_i1 : numpy_scalar "int8" (MInt 1) | np_i2 : numpy_scalar "int16" (MInt 2)
| np_i4 : numpy_scalar "int32" (MInt 4) | np_i8 : numpy_scalar "int64" (MInt 8)
| np_u1 : numpy_scalar "uint8" (MUint 1) | np_u2 : numpy_scalar "uint16" (MUint 2)
| np_u4 : numpy_scalar "uint32" (MUint 4) | np_u8 : numpy_scalar "uint64" (MUint 8)
| np_f4 : numpy_scalar "float32" (MFloat 4) | np_f8 : numpy_scalar "float64" (MFloat 8).

(** [leaf d path off name]: following the field names [path] in [d] one finds the scalar [name] at byte
    offset [off]. *)
Inductive leaf : dtype -> list string -> Z -> string -> Prop :=
| leaf_scalar name : leaf (Builtin name) [] 0 name
| leaf_field fields total f fd off path o name :
    In (f, fd, off) fields -> leaf fd path o name -> leaf (Record fields total) (f :: path) (off + o) name.

(** numpy's itemsize of the supported types. *)
Inductive item_size : dtype -> Z -> Prop :=
| size_scalar name p : numpy_scalar name p -> item_size (Builtin name) (prim_size p)
| size_record fields total : item_size (Record fields total) total.

(** Every scalar in the type is one of the supported ones. *)
Inductive supported : dtype -> Prop :=
| sup_scalar name p : numpy_scalar name p -> supported (Builtin name)
| sup_record fields total : (forall f fd off, In (f, fd, off) fields -> supported fd) -> supported (Record fields total).

(** The two particle records of the code (beam/data.py:4-6, beam3d/data.py:5-7). *)
Definition particle_2d : dtype := Record
  [("xi", Builtin "float64", 0); ("r", Builtin "float64", 8); ("p_z", Builtin "float64", 16);
   ("p_r", Builtin "float64", 24); ("M", Builtin "float64", 32); ("q_m", Builtin "float64", 40);
   ("q_norm", Builtin "float64", 48); ("id", Builtin "int64", 56)]%string 64.
Definition particle_3d : dtype := Record
  [("xi", Builtin "float64", 0); ("x", Builtin "float64", 8); ("y", Builtin "float64", 16);
   ("px", Builtin "float64", 24); ("py", Builtin "float64", 32); ("pz", Builtin "float64", 40);
   ("q_m", Builtin "float64", 48); ("q_norm", Builtin "float64", 56); ("id", Builtin "int64", 64)]%string 72.
