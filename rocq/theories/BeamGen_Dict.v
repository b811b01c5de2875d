(** The user's description of a beam. *)
From Coq Require Import Reals ZArith List Bool String Lra Lia.
From Verif Require Import BeamGen_Model BeamGen_Spec.
Import ListNotations.
Local Open Scope list_scope.
Local Open Scope R_scope.

Lemma binding_snoc {V} (l : list (string * V)) k v : binding (l ++ [(k, v)]) k v.
Proof. exists l, []. auto. Qed.
Lemma binding_weaken {V} (l : list (string * V)) k v k' v' : k <> k' -> binding l k v -> binding (l ++ [(k', v')]) k v.
Proof.
  intros N (l1 & l2 & -> & H). exists l1, (l2 ++ [(k', v')]). split; [now rewrite <- app_assoc|].
  rewrite map_app. intros K. apply in_app_or in K as [K|[K|[]]]; auto.
Qed.
(** [represents l f]: what is looked up in [f] is the last binding in [l]. *)
Definition represents (l : list (string * pval)) (f : params) : Prop :=
  forall k v, f k = Some v -> binding l k v.
Lemma represents_set l f k v : represents l f -> represents (l ++ [(k, v)]) (set_param f k v).
Proof.
  intros H k' v' E. unfold set_param in E. destruct (String.eqb_spec k' k) as [->|N].
  - injection E as <-. apply binding_snoc.
  - apply binding_weaken; auto.
Qed.
Lemma represents_sets d : forall l f, represents l f -> represents (l ++ d) (set_params f d).
Proof.
  unfold set_params. induction d as [|[k v] d IH]; intros l f H; simpl; [now rewrite app_nil_r|].
  replace (l ++ (k, v) :: d) with ((l ++ [(k, v)]) ++ d) by (now rewrite <- app_assoc).
  apply IH. now apply represents_set.
Qed.
Lemma represents_builtin_segment : represents builtin_segment segment_defaults.
Proof. apply (represents_sets builtin_segment []). intros k v E. discriminate. Qed.
Lemma represents_builtin_shape : represents builtin_shape shape_defaults.
Proof. apply (represents_sets builtin_shape []). intros k v E. discriminate. Qed.
Lemma get_num_binding l f k x : represents l f -> get_num f k = Some x -> binding l k (PNum x).
Proof.
  intros H. unfold get_num. destruct (f k) as [[y|s]|] eqn:E; try discriminate. intros [= <-]. now apply H.
Qed.
Lemma get_str_binding l f k x : represents l f -> get_str f k = Some x -> binding l k (PStr x).
Proof.
  intros H. unfold get_str. destruct (f k) as [[y|s]|] eqn:E; try discriminate. intros [= <-]. now apply H.
Qed.
Lemma obind_some {A B} (o : option A) (k : A -> option B) b : obind o k = Some b -> exists a, o = Some a /\ k a = Some b.
Proof. destruct o; simpl; [eauto|discriminate]. Qed.
Lemma is_name_in names s : is_name names s = true -> In s names.
Proof.
  unfold is_name. intros H. apply existsb_exists in H as (x & Hx & E). apply String.eqb_eq in E as ->. assumption.
Qed.
Lemma make_segment_described l f s : represents l f -> make_segment f = Some s -> described_by l s.
Proof.
  intros HR H. unfold make_segment in H.
  apply obind_some in H as (x1 & E1 & H). apply obind_some in H as (x2 & E2 & H).
  apply obind_some in H as (x3 & E3 & H). apply obind_some in H as (x4 & E4 & H).
  apply obind_some in H as (x5 & E5 & H). apply obind_some in H as (x6 & E6 & H).
  apply obind_some in H as (x7 & E7 & H). apply obind_some in H as (x8 & E8 & H).
  apply obind_some in H as (x9 & E9 & H).
  destruct (is_name ["gaussian"; "g"]%string x9) eqn:EN; [|discriminate].
  apply obind_some in H as (y1 & F1 & H). apply obind_some in H as (y2 & F2 & H).
  apply obind_some in H as (y3 & F3 & H). apply obind_some in H as (y4 & F4 & H).
  apply obind_some in H as (y5 & F5 & H). apply obind_some in H as (y6 & F6 & H).
  apply obind_some in H as (y7 & F7 & H). injection H as <-.
  unfold described_by. cbn [s_length s_ampl s_radius s_energy s_xshift s_yshift s_angspread s_espread s_mcr s_xishape s_angshape s_eshape].
  split; [|split; [|split; [|split]]].
  - intros k x HIN. cbn [In] in HIN.
    repeat match type of HIN with _ \/ _ => destruct HIN as [HIN|HIN] end;
      try contradiction; injection HIN as <- <-; eapply get_num_binding; eauto.
  - exists x3. split; [eapply get_str_binding; eauto|assumption].
  - exists y2. split; [eapply get_str_binding; eauto|assumption].
  - exists y5. split; [eapply get_str_binding; eauto|assumption].
  - exists x9. split; [eapply get_str_binding; eauto|]. apply is_name_in in EN. destruct EN as [EN|[EN|[]]]; auto.
Qed.
Lemma fold_none d : fold_left user_key d None = None.
Proof. induction d; simpl; auto. Qed.
(** The loop over the keys. *)
Lemma user_keys_spec d : forall f segs f' segs' l,
  represents l f ->
  fold_left user_key d (Some (f, segs)) = Some (f', segs') ->
  represents (l ++ defaults_in d) f' /\
  exists new, segs' = segs ++ new /\ List.length new = List.length (segment_entries d) /\
    forall d1 k dict d2, d = d1 ++ (k, BDict dict) :: d2 -> k <> "default"%string ->
      exists s, nth_error new (List.length (segment_entries d1)) = Some s /\
                described_by (l ++ defaults_in d1 ++ dict) s.
Proof.
  induction d as [|[k v] d IH]; intros f segs f' segs' l HR H.
  - simpl in H. injection H as <- <-. simpl. rewrite app_nil_r. split; [assumption|].
    exists []. rewrite app_nil_r. repeat split; auto. intros [|? ?] ? ? ? E; discriminate.
  - cbn [fold_left] in H. unfold user_key at 2 in H. cbn [obind fst snd] in H.
    destruct v as [v|dict]; cbn [defaults_in segment_entries].
    + destruct (is_shape_key k) eqn:EK; [|rewrite fold_none in H; discriminate].
      destruct (IH _ _ _ _ l HR H) as (R1 & new & -> & LN & D). split; [assumption|].
      exists new. split; [reflexivity|]. split; [assumption|].
      intros d1 k' dict' d2 E NE. destruct d1 as [|[k1 v1] d1]; cbn [app] in E; [discriminate|].
      injection E as <- <- E. cbn [segment_entries defaults_in]. eauto.
    + destruct (String.eqb_spec k "default") as [->|NK].
      * destruct (IH _ _ _ _ (l ++ dict) (represents_sets dict l f HR) H) as (R1 & new & -> & LN & D).
        split; [now rewrite app_assoc|]. exists new. split; [reflexivity|]. split; [assumption|].
        intros d1 k' dict' d2 E NE. destruct d1 as [|[k1 v1] d1]; cbn [app] in E; injection E as <- E.
        { congruence. }
        subst v1. cbn [segment_entries defaults_in]. rewrite String.eqb_refl.
        destruct (D d1 k' dict' d2 H0 NE) as (s & A & B). exists s. split; [assumption|].
        now rewrite <- !app_assoc in *.
      * destruct (make_segment (set_params f dict)) as [s|] eqn:MS; [|simpl in H; rewrite fold_none in H; discriminate].
        cbn [obind] in H. destruct (IH _ _ _ _ l HR H) as (R1 & new & -> & LN & D).
        split; [assumption|]. exists (s :: new). split; [now rewrite <- app_assoc|].
        split; [simpl; now rewrite LN|].
        intros d1 k' dict' d2 E NE. destruct d1 as [|[k1 v1] d1]; cbn [app] in E.
        { injection E as <- <- <-. exists s. split; [reflexivity|]. simpl.
          eapply make_segment_described; eauto. now apply represents_sets. }
        injection E as <- <- E. cbn [segment_entries defaults_in].
        destruct (String.eqb_spec k "default"); [contradiction|]. simpl. eauto.
Qed.
Lemma user_shape_spec d : forall l f f',
  (represents l f) ->
  fold_left (fun o kv => let? f := o in
               if is_shape_key (fst kv) then
                 match snd kv with BVal v => Some (set_param f (fst kv) v) | BDict _ => None end
               else Some f) d (Some f) = Some f' ->
  exists m, represents (l ++ m) f' /\
    m = filter (fun kv => is_shape_key (fst kv)) (plain_entries d) /\
    forall k dict, In (k, BDict dict) d -> is_shape_key k = false.
Proof.
  assert (FN : forall d, fold_left (fun o kv => let? f := o in
               if is_shape_key (fst kv) then
                 match snd kv with BVal v => Some (set_param f (fst kv) v) | BDict _ => None end
               else Some f) d None = None) by (clear; induction d; simpl; auto).
  induction d as [|[k v] d IH]; intros l f f' HR H.
  - simpl in H. injection H as <-. exists []. rewrite app_nil_r. repeat split; auto. intros ? ? [].
  - cbn [fold_left obind fst snd] in H. destruct v as [v|dict]; cbn [plain_entries filter].
    + destruct (is_shape_key k) eqn:EK; cbn [filter fst]; rewrite EK.
      * destruct (IH (l ++ [(k, v)]) _ _ (represents_set _ _ k v HR) H) as (m & R1 & -> & B).
        exists ((k, v) :: filter (fun kv => is_shape_key (fst kv)) (plain_entries d)).
        rewrite <- app_assoc in R1. repeat split; auto. intros k' dict' [E|HIN]; [discriminate|eauto].
      * destruct (IH l _ _ HR H) as (m & R1 & -> & B). eexists; split; [exact R1|]. split; [reflexivity|].
        intros k' dict' [E|HIN]; [discriminate|eauto].
    + destruct (is_shape_key k) eqn:EK; [rewrite FN in H; discriminate|].
      destruct (IH l _ _ HR H) as (m & R1 & -> & B). eexists; split; [exact R1|]. split; [reflexivity|].
      intros k' dict' [E|HIN]; [injection E as <- <-; assumption|eauto].
Qed.
Lemma binding_in {V} (l : list (string * V)) k v : binding l k v -> In (k, v) l.
Proof. intros (l1 & l2 & -> & _). apply in_or_app. right. now left. Qed.
Lemma unknown_key_fails d k v : In (k, BVal v) d -> is_shape_key k = false -> forall st, fold_left user_key d st = None.
Proof.
  intros HIN HK. induction d as [|[k' v'] d IH]; [destruct HIN|]. intros st. cbn [fold_left].
  destruct HIN as [E|HIN]; [|now apply IH].
  injection E as -> ->. unfold user_key at 2. destruct st as [st|]; simpl; [rewrite HK|]; apply fold_none.
Qed.
