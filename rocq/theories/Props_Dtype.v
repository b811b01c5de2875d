(** C41: the MPI datatype transfers exactly the record's bytes (lcode/mpi/util.py, lcode/mpi/transport.py).
    [leaf], [numpy_scalar], [item_size] and [supported] are in Dtype_Spec. *)
From Coq Require Import ZArith List String Ascii Lia.
From Verif Require Import Dtype_Model Dtype_Spec Dtype_Proofs.
Import ListNotations.
Local Open Scope list_scope.
Local Open Scope Z_scope.

(** A datatype is built for exactly the types whose scalars are all supported (others raise). *)
Theorem C41_built_iff_supported d : (exists t, mpi_type_from_dtype d = Some t) <-> supported d.
Proof. apply from_supported. Qed.
Print Assumptions C41_built_iff_supported.
Example C41_built_ex : supported particle_2d /\ supported particle_3d /\ ~ supported (Record [("a", Builtin "complex128", 0)]%string 16).
Proof.
  repeat split.
  - apply from_supported. now eexists.
  - apply from_supported. now eexists.
  - intros H. apply from_supported in H as [t H]. discriminate.
Qed.

(** The datatype has one entry for each scalar of the record, at any depth: its kind and size are those of
    the numpy scalar, its displacement is the sum of the field offsets on the way; there is no other entry,
    and consecutive records are one item size apart. *)
Theorem C41_entries_are_the_fields d t : mpi_type_from_dtype d = Some t ->
  (forall p o, In (p, o) (typemap t) <-> exists path name, leaf d path o name /\ numpy_scalar name p) /\
  item_size d (extent t).
Proof. intros H. split; [apply typemap_is_leaves, H|apply extent_is_size, H]. Qed.
Print Assumptions C41_entries_are_the_fields.

(** Sending [n] records and receiving them into any array: the receiver allocates exactly [n] records; every
    byte of every scalar of every record arrives, whatever was in the array; no other byte of the receiver's
    memory (padding, neighbours) changes. *)
Theorem C41_message_round_trip d t s n base m base' buf :
  mpi_type_from_dtype d = Some t -> item_size d s -> (exists path o name, leaf d path o name) ->
  let r := recv t (send t n base m) base' buf in
  fst r = n /\
  (forall i path o name p k, (i < n)%nat -> leaf d path o name -> numpy_scalar name p -> 0 <= k < prim_size p ->
     snd r (base' + Z.of_nat i * s + o + k) = m (base + Z.of_nat i * s + o + k)) /\
  (forall a, (forall i path o name p k, (i < n)%nat -> leaf d path o name -> numpy_scalar name p ->
               0 <= k < prim_size p -> a <> base' + Z.of_nat i * s + o + k) -> snd r a = buf a).
Proof.
  intros H Hs (path0 & o0 & name0 & L0).
  assert (Es : extent t = s).
  { pose proof (extent_is_size _ _ H) as E. destruct d; inversion E; inversion Hs; subst; try congruence.
    f_equal. eapply scalar_fun; eassumption. }
  assert (N : typemap t <> []).
  { assert (S : supported d) by (apply from_supported; eauto).
    assert (exists p, numpy_scalar name0 p) as [p Sp].
    { clear - L0 S. induction L0; inversion S; subst; eauto. }
    intros E. assert (K : In (p, o0) (typemap t)) by (apply (typemap_is_leaves _ _ H); eauto).
    rewrite E in K. destruct K. }
  unfold recv, send. rewrite (count_back d t n base m H N), Nat2Z.id. cbn [fst snd]. split; [reflexivity|]. split.
  - intros i path o name p k Hi L S Hk. rewrite unpack_pack.
    replace (existsb _ _) with true; [f_equal; lia|]. symmetry. apply existsb_exists.
    exists (base' + Z.of_nat i * s + o + k). split; [|apply Z.eqb_refl].
    apply in_addresses. exists i, p, o, k. rewrite Es. repeat split; auto; try lia.
    apply (typemap_is_leaves _ _ H). eauto.
  - intros a Ha. rewrite unpack_pack. destruct (existsb _ _) eqn:E; [|reflexivity]. exfalso.
    apply existsb_exists in E as (x & Hx & Ex). apply Z.eqb_eq in Ex. subst x.
    apply in_addresses in Hx as (i & p & o & k & Hi & Hp & Hk & ->).
    apply (typemap_is_leaves _ _ H) in Hp as (path & name & L & S).
    rewrite Es in Ha. apply (Ha i path o name p k Hi L S Hk). reflexivity.
Qed.
Print Assumptions C41_message_round_trip.

(** The two particle records: all 8 (9) fields, 64 (72) bytes apart, nothing between them. *)
Example C41_particle_types :
  mpi_type_from_dtype particle_2d = Some (mkMpi [(MFloat 8, 0); (MFloat 8, 8); (MFloat 8, 16); (MFloat 8, 24);
     (MFloat 8, 32); (MFloat 8, 40); (MFloat 8, 48); (MInt 8, 56)] 64) /\
  mpi_type_from_dtype particle_3d = Some (mkMpi [(MFloat 8, 0); (MFloat 8, 8); (MFloat 8, 16); (MFloat 8, 24);
     (MFloat 8, 32); (MFloat 8, 40); (MFloat 8, 48); (MFloat 8, 56); (MInt 8, 64)] 72).
Proof. split; reflexivity. Qed.
(** A nested record with padding: the inner record starts at byte 8. *)
Definition nested : dtype := Record
  [("a", Builtin "uint8", 0); ("in", Record [("x", Builtin "float32", 0); ("y", Builtin "int16", 4)] 8, 8)]%string 16.
Example C41_nested_ex :
  supported nested /\ leaf nested ["in"; "y"]%string 12 "int16" /\ item_size nested 16.
Proof.
  repeat split.
  - apply from_supported. now eexists.
  - apply (leaf_field _ _ _ (Record [("x", Builtin "float32", 0); ("y", Builtin "int16", 4)]%string 8) 8 _ 4); [cbn; auto|].
    apply (leaf_field _ _ _ (Builtin "int16") 4 _ 0); [cbn; auto|]. constructor.
  - constructor.
Qed.
