(** Proofs about the record types of lcode/mpi/util.py. *)
From Coq Require Import ZArith List String Ascii Lia Bool.
From Verif Require Import BeamGen_Model Dtype_Model Dtype_Spec.
Import ListNotations.
Local Open Scope list_scope.
Local Open Scope Z_scope.

Section Ind.
Variable P : dtype -> Prop.
Hypothesis HB : forall name, P (Builtin name).
Hypothesis HU : P UserType.
Hypothesis HO : P OtherType.
Hypothesis HR : forall fields total, Forall (fun f => P (snd (fst f))) fields -> P (Record fields total).
Fixpoint dtype_rect' (d : dtype) : P d :=
  match d with
  | Builtin n => HB n
  | UserType => HU
  | OtherType => HO
  | Record fs total =>
      HR fs total ((fix go fs : Forall (fun f => P (snd (fst f))) fs :=
        match fs with
        | [] => Forall_nil _
        | f :: r => Forall_cons f (dtype_rect' (snd (fst f))) (go r)
        end) fs)
  end.
End Ind.

(** The type map of a record, field by field. *)
Fixpoint record_map (fs : list (string * dtype * Z)) : option (list (prim * Z)) :=
  match fs with
  | [] => Some []
  | (_, fd, off) :: r =>
      let? t := mpi_type_from_dtype fd in
      let? m := record_map r in
      Some (shift off (typemap t) ++ m)
  end.
Fixpoint field_loop (fs : list (string * dtype * Z)) : option (list Z * list mpi_type) :=
  match fs with
  | [] => Some ([], [])
  | (_, fd, off) :: r =>
      let? t := mpi_type_from_dtype fd in
      let? acc := field_loop r in
      Some (off :: fst acc, t :: snd acc)
  end.
Lemma from_record fs total :
  mpi_type_from_dtype (Record fs total) = let? m := record_map fs in Some (mkMpi m total).
Proof.
  change (mpi_type_from_dtype (Record fs total)) with
    (let? acc := field_loop fs in Some (create_resized (create_struct (fst acc) (snd acc)) total)).
  assert (H : match field_loop fs, record_map fs with
              | Some acc, Some m => List.concat (zip_with (fun d t => shift d (typemap t)) (fst acc) (snd acc)) = m
              | None, None => True
              | _, _ => False
              end).
  { induction fs as [|[[f fd] off] fs IH]; [reflexivity|]. cbn [record_map field_loop].
    destruct (mpi_type_from_dtype fd) as [t|]; [|exact I]. cbn.
    destruct (field_loop fs) as [acc|], (record_map fs) as [m|]; cbn; try exact IH.
    now rewrite IH. }
  destruct (field_loop fs) as [acc|], (record_map fs) as [m|]; cbn; try contradiction; [|reflexivity].
  unfold create_resized, create_struct. cbn. now rewrite H.
Qed.

Lemma assoc_scalar name p : assoc name mapped_dtypes = Some p <-> numpy_scalar name p.
Proof.
  split.
  - unfold mapped_dtypes, assoc.
    repeat match goal with |- context [String.eqb name ?s] => destruct (String.eqb_spec name s) as [->|_] end;
      intros H; try discriminate; injection H as <-; constructor.
  - intros H. destruct H; reflexivity.
Qed.
Lemma scalar_fun name p q : numpy_scalar name p -> numpy_scalar name q -> p = q.
Proof. intros H K. apply assoc_scalar in H, K. congruence. Qed.
Lemma scalar_pos name p : numpy_scalar name p -> 0 < prim_size p.
Proof. intros H. destruct H; cbn; lia. Qed.

Lemma record_map_in fs m : record_map fs = Some m -> forall p o,
  In (p, o) m <-> exists f fd off t o', In (f, fd, off) fs /\ mpi_type_from_dtype fd = Some t /\
    In (p, o') (typemap t) /\ o = off + o'.
Proof.
  revert m. induction fs as [|[[f fd] off] fs IH]; intros m H p o; cbn in H.
  - injection H as <-. split; [intros []|intros (f & fd & off & t & o' & [] & _)].
  - destruct (mpi_type_from_dtype fd) as [t|] eqn:E; [|discriminate]. cbn in H.
    destruct (record_map fs) as [m'|] eqn:E'; [|discriminate]. cbn in H. injection H as <-.
    rewrite in_app_iff. rewrite (IH _ eq_refl). unfold shift. rewrite in_map_iff. split.
    + intros [([p' o'] & He & Hi)|(f' & fd' & off' & t' & o' & H1 & H2 & H3 & H4)].
      * cbn in He. injection He as <- <-. exists f, fd, off, t, o'. repeat split; auto; [now left|lia].
      * exists f', fd', off', t', o'. repeat split; auto. now right.
    + intros (f' & fd' & off' & t' & o' & [H1|H1] & H2 & H3 & H4).
      * injection H1 as <- <- <-. left. exists (p, o'). rewrite E in H2. injection H2 as <-. cbn.
        split; [f_equal; lia|exact H3].
      * right. exists f', fd', off', t', o'. auto.
Qed.
Lemma record_map_def fs : (exists m, record_map fs = Some m) <->
  (forall f fd off, In (f, fd, off) fs -> exists t, mpi_type_from_dtype fd = Some t).
Proof.
  induction fs as [|[[f fd] off] fs IH]; cbn.
  - split; [intros _ f fd off []|intros _; now exists []].
  - split.
    + intros [m H]. destruct (mpi_type_from_dtype fd) as [t|] eqn:E; [|discriminate]. cbn in H.
      destruct (record_map fs) as [m'|]; [|discriminate].
      intros f' fd' off' [K|K]; [injection K as <- <- <-; now exists t|].
      apply (proj1 IH (ex_intro _ m' eq_refl) _ _ _ K).
    + intros H. destruct (H f fd off (or_introl eq_refl)) as [t ->].
      destruct (proj2 IH (fun f' fd' off' K => H f' fd' off' (or_intror K))) as [m ->]. cbn. now eexists.
Qed.

Lemma typemap_is_leaves d t : mpi_type_from_dtype d = Some t -> forall p o,
  In (p, o) (typemap t) <-> exists path name, leaf d path o name /\ numpy_scalar name p.
Proof.
  revert t. induction d as [name| | |fs total IH] using dtype_rect'; intros t H p o; try discriminate.
  - cbn in H. unfold mpi_type_from_builtin in H. destruct (assoc name mapped_dtypes) as [q|] eqn:E; [|discriminate].
    cbn in H. injection H as <-. apply assoc_scalar in E. cbn. split.
    + intros [K|[]]. injection K as <- <-. exists [], name. split; [constructor|exact E].
    + intros (path & name' & K & L). inversion K; subst. left. f_equal. apply (scalar_fun _ _ _ E L).
  - rewrite from_record in H. destruct (record_map fs) as [m|] eqn:E; [|discriminate]. cbn in H. injection H as <-.
    cbn [typemap]. rewrite (record_map_in _ _ E). rewrite Forall_forall in IH. split.
    + intros (f & fd & off & t & o' & Hi & Ht & Ho & ->).
      destruct (proj1 (IH _ Hi t Ht p o') Ho) as (path & name & L & S).
      exists (f :: path), name. split; [|exact S]. econstructor; eauto.
    + intros (path & name & L & S). inversion L as [|fs' total' f fd off path' o' name' Hi L']; subst.
      destruct (proj1 (record_map_def fs) (ex_intro _ m E) _ _ _ Hi) as [t Ht].
      exists f, fd, off, t, o'. repeat split; auto.
      apply (IH _ Hi t Ht). exists path', name. auto.
Qed.

Lemma from_supported d : (exists t, mpi_type_from_dtype d = Some t) <-> supported d.
Proof.
  induction d as [name| | |fs total IH] using dtype_rect'.
  - cbn. unfold mpi_type_from_builtin. split.
    + intros [t H]. destruct (assoc name mapped_dtypes) as [p|] eqn:E; [|discriminate].
      apply assoc_scalar in E. econstructor; exact E.
    + intros H. inversion H as [name' p S|]; subst. apply assoc_scalar in S. rewrite S. now eexists.
  - split; [intros [t H]; discriminate|intros H; inversion H].
  - split; [intros [t H]; discriminate|intros H; inversion H].
  - rewrite from_record. rewrite Forall_forall in IH. split.
    + intros [t H]. destruct (record_map fs) as [m|] eqn:E; [|discriminate].
      constructor. intros f fd off Hi. apply (IH _ Hi). cbn.
      apply (proj1 (record_map_def fs) (ex_intro _ m E) _ _ _ Hi).
    + intros H. inversion H as [|fs' total' Hf]; subst.
      destruct (proj2 (record_map_def fs)) as [m ->]; [|now eexists].
      intros f fd off Hi. apply (IH _ Hi). cbn. eapply Hf, Hi.
Qed.

Lemma extent_is_size d t : mpi_type_from_dtype d = Some t -> item_size d (extent t).
Proof.
  destruct d as [name| |fs total|]; intros H; try discriminate.
  - cbn in H. unfold mpi_type_from_builtin in H. destruct (assoc name mapped_dtypes) as [q|] eqn:E; [|discriminate].
    cbn in H. injection H as <-. apply assoc_scalar in E. cbn. now constructor.
  - rewrite from_record in H. destruct (record_map fs) as [m|] eqn:E; [|discriminate]. injection H as <-. constructor.
Qed.

(** Messages *)
Lemma store_at addrs f m x : store addrs (map f addrs) m x = if existsb (Z.eqb x) addrs then f x else m x.
Proof.
  revert m. induction addrs as [|a r IH]; intros m; cbn; [reflexivity|].
  rewrite IH. destruct (Z.eqb_spec x a) as [->|N]; cbn; [|reflexivity].
  destruct (existsb (Z.eqb a) r); reflexivity.
Qed.
Lemma addresses_shift t n base base' :
  addresses t n base' = map (fun a => a + (base' - base)) (addresses t n base).
Proof.
  unfold addresses, element_addresses. rewrite concat_map, map_map. f_equal. apply map_ext. intros i.
  rewrite concat_map, map_map. f_equal. apply map_ext. intros e.
  rewrite map_map. apply map_ext. intros k. lia.
Qed.
Lemma in_addresses t n base a : In a (addresses t n base) <->
  exists i p o k, (i < n)%nat /\ In (p, o) (typemap t) /\ 0 <= k < prim_size p /\ a = base + Z.of_nat i * extent t + o + k.
Proof.
  unfold addresses. rewrite in_concat. split.
  - intros (l & Hl & Ha). apply in_map_iff in Hl as (i & <- & Hi). apply in_seq in Hi.
    unfold element_addresses in Ha. apply in_concat in Ha as (l & Hl & Ha).
    apply in_map_iff in Hl as ([p o] & <- & He). apply in_map_iff in Ha as (k & <- & Hk).
    unfold zrange in Hk. apply in_map_iff in Hk as (j & <- & Hj). apply in_seq in Hj. cbn in *.
    exists i, p, o, (Z.of_nat j). repeat split; auto; lia.
  - intros (i & p & o & k & Hi & He & Hk & ->).
    exists (element_addresses t (base + Z.of_nat i * extent t)). split.
    + apply in_map_iff. exists i. split; [reflexivity|]. apply in_seq. lia.
    + unfold element_addresses. apply in_concat.
      exists (map (fun k => base + Z.of_nat i * extent t + o + k) (zrange (prim_size p))). split.
      * apply in_map_iff. exists (p, o). auto.
      * apply in_map_iff. exists k. split; [lia|]. unfold zrange. apply in_map_iff. exists (Z.to_nat k).
        split; [lia|]. apply in_seq. lia.
Qed.
Lemma unpack_pack t n base base' m buf x :
  unpack t n base' (pack t n base m) buf x =
  if existsb (Z.eqb x) (addresses t n base') then m (x + (base - base')) else buf x.
Proof.
  unfold unpack, pack. rewrite (addresses_shift t n base' base), map_map.
  exact (store_at _ (fun a => m (a + (base - base'))) _ _).
Qed.

(** Sizes *)
Lemma zrange_length n : 0 <= n -> Z.of_nat (List.length (zrange n)) = n.
Proof. intros H. unfold zrange. rewrite map_length, seq_length. lia. Qed.
Lemma element_length m b : (forall p o, In (p, o) m -> 0 < prim_size p) ->
  Z.of_nat (List.length (List.concat (map (fun e => map (fun k => b + snd e + k) (zrange (prim_size (fst e)))) m)))
  = fold_right (fun e s => prim_size (fst e) + s) 0 m.
Proof.
  induction m as [|[p o] m IH]; intros H; [reflexivity|]. cbn.
  rewrite app_length, map_length, Nat2Z.inj_add, IH by (intros; eapply H; right; eauto).
  rewrite zrange_length; [reflexivity|]. pose proof (H p o (or_introl eq_refl)). lia.
Qed.
Lemma addresses_length t n b : (forall p o, In (p, o) (typemap t) -> 0 < prim_size p) ->
  Z.of_nat (List.length (addresses t n b)) = Z.of_nat n * type_size t.
Proof.
  intros H. unfold addresses. generalize 0%nat as s. induction n as [|n IH]; intros s; [reflexivity|].
  cbn [seq map List.concat]. rewrite app_length, Nat2Z.inj_add, IH. unfold element_addresses.
  rewrite element_length by exact H. unfold type_size. lia.
Qed.
Lemma entries_pos d t : mpi_type_from_dtype d = Some t -> forall p o, In (p, o) (typemap t) -> 0 < prim_size p.
Proof.
  intros H p o Hi. apply (typemap_is_leaves _ _ H) in Hi as (path & name & _ & S). eapply scalar_pos, S.
Qed.
Lemma size_pos t : (forall p o, In (p, o) (typemap t) -> 0 < prim_size p) -> typemap t <> [] -> 0 < type_size t.
Proof.
  unfold type_size. intros H N. destruct (typemap t) as [|[p o] m]; [congruence|]. clear N.
  assert (K : 0 <= fold_right (fun e s => prim_size (fst e) + s) 0 m).
  { assert (H' : forall p o, In (p, o) m -> 0 < prim_size p) by (intros; eapply H; right; eauto). clear H.
    induction m as [|[p' o'] m IH]; cbn; [lia|].
    pose proof (H' p' o' (or_introl eq_refl)). specialize (IH (fun p o K => H' p o (or_intror K))). lia. }
  pose proof (H p o (or_introl eq_refl)). cbn. lia.
Qed.
Lemma count_back d t n b m : mpi_type_from_dtype d = Some t -> typemap t <> [] -> get_count t (pack t n b m) = Z.of_nat n.
Proof.
  intros H N. pose proof (entries_pos _ _ H) as E. unfold get_count, pack. rewrite map_length.
  rewrite addresses_length by exact E. apply Z.div_mul. pose proof (size_pos t E N). lia.
Qed.
