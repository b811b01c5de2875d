(** Model of lcode/mpi/util.py (numpy record types to MPI datatypes) and of the message transfer of
    lcode/mpi/transport.py:53-62.

    A numpy dtype is a builtin scalar (dtype.isbuiltin = 1), a registered user type (2), a record (0, with
    fields) or another non-builtin type without fields (0: strings, sub-arrays, foreign byte order).  An
    MPI datatype is its type map (primitive types with displacements) and its extent; memory is a function
    from addresses to bytes.  Not modelled: fields with titles (listed twice by dtype.fields),
    MPI's alignment of struct extents (the code resizes the type), type commit. *)
From Coq Require Import ZArith List String Ascii.
From Verif Require Import BeamGen_Model.
Import ListNotations.
Local Open Scope list_scope.
Local Open Scope Z_scope.

Inductive dtype :=
| Builtin (name : string)
| UserType
| Record (fields : list (string * dtype * Z)) (itemsize : Z)   (* name, type, offset *)
| OtherType.

(** util.py:9-20: the supported names; an MPI primitive is written with its kind and size in bytes
    (MPI.INT8_T ... MPI.UINT64_T, MPI.FLOAT, MPI.DOUBLE). *)
Inductive prim := MInt (bytes : Z) | MUint (bytes : Z) | MFloat (bytes : Z).
Definition prim_size (p : prim) : Z := match p with MInt n | MUint n | MFloat n => n end.
Definition mapped_dtypes : list (string * prim) :=
  [("int8", MInt 1); ("int16", MInt 2); ("int32", MInt 4); ("int64", MInt 8);
   ("uint8", MUint 1); ("uint16", MUint 2); ("uint32", MUint 4); ("uint64", MUint 8);
   ("float32", MFloat 4); ("float64", MFloat 8)]%string.
Fixpoint assoc {V} (k : string) (l : list (string * V)) : option V :=
  match l with [] => None | (k', v) :: r => if String.eqb k k' then Some v else assoc k r end.

(** MPI datatypes: MPI-3.1, chapter 4 *)
Record mpi_type := mkMpi { typemap : list (prim * Z); extent : Z }.
Definition mpi_prim (p : prim) : mpi_type := mkMpi [(p, 0)] (prim_size p).
Definition shift (d : Z) (m : list (prim * Z)) : list (prim * Z) := map (fun e => (fst e, snd e + d)) m.
(** Create_struct with block lengths 1; the extent given here is the span of the type map and is
    replaced at once by Create_resized(0, total). *)
Definition create_struct (displs : list Z) (types : list mpi_type) : mpi_type :=
  mkMpi (List.concat (zip_with (fun d t => shift d (typemap t)) displs types))
        (fold_right Z.max 0 (zip_with (fun d t => d + extent t) displs types)).
Definition create_resized (t : mpi_type) (total : Z) : mpi_type := mkMpi (typemap t) total.

(** util.py:23-30 *)
Definition mpi_type_from_builtin (name : string) : option mpi_type := option_map mpi_prim (assoc name mapped_dtypes).
(** util.py:33-48 *)
Fixpoint mpi_type_from_dtype (d : dtype) : option mpi_type :=
  match d with
  | Builtin name => mpi_type_from_builtin name
  | UserType => None
  | OtherType => None
  | Record fields total =>
      let loop := fix loop fs : option (list Z * list mpi_type) :=
        match fs with
        | [] => Some ([], [])
        | (_, fd, off) :: r =>
            let? t := mpi_type_from_dtype fd in
            let? acc := loop r in
            Some (off :: fst acc, t :: snd acc)
        end in
      let? acc := loop fields in
      Some (create_resized (create_struct (fst acc) (snd acc)) total)
  end.

(** Message transfer (transport.py:53-62).  [n] elements of type [t] at address [base] are packed element
    by element, entry by entry, byte by byte. *)
Definition memory := Z -> ascii.
Definition zrange (n : Z) : list Z := map Z.of_nat (seq 0 (Z.to_nat n)).
(** The addresses read by a send, and written by a receive, in order. *)
Definition element_addresses (t : mpi_type) (base : Z) : list Z :=
  List.concat (map (fun e => map (fun k => base + snd e + k) (zrange (prim_size (fst e)))) (typemap t)).
Definition addresses (t : mpi_type) (n : nat) (base : Z) : list Z :=
  List.concat (map (fun i => element_addresses t (base + Z.of_nat i * extent t)) (seq 0 n)).
Definition pack (t : mpi_type) (n : nat) (base : Z) (m : memory) : list ascii := map m (addresses t n base).
Fixpoint store (addrs : list Z) (bytes : list ascii) (m : memory) : memory :=
  match addrs, bytes with
  | a :: ar, b :: br => store ar br (fun x => if x =? a then b else m x)
  | _, _ => m
  end.
Definition unpack (t : mpi_type) (n : nat) (base : Z) (bytes : list ascii) (m : memory) : memory :=
  store (addresses t n base) bytes m.
(** Size of one element in a message, and Status.Get_count (transport.py:59). *)
Definition type_size (t : mpi_type) : Z := fold_right (fun e s => prim_size (fst e) + s) 0 (typemap t).
Definition get_count (t : mpi_type) (bytes : list ascii) : Z := Z.of_nat (List.length bytes) / type_size t.
(** transport.py:53-62: send, then recv into a new array of Get_count records at [base'] (its previous
    contents, [buf], are arbitrary: np.empty). *)
Definition send (t : mpi_type) (n : nat) (base : Z) (m : memory) : list ascii := pack t n base m.
Definition recv (t : mpi_type) (bytes : list ascii) (base' : Z) (buf : memory) : nat * memory :=
  let size := Z.to_nat (get_count t bytes) in
  (size, unpack t size base' bytes buf).
