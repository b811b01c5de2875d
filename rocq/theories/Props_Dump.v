(** C67: the file runas.py records the settings of the run. *)
From Coq Require Import List ZArith QArith String Ascii Bool Lia.
From Verif Require Import Config_Model Config_Spec Config_Proofs Dump_Model Dump_Spec Dump_Proofs.
Import ListNotations.
Open Scope string_scope.

(** Hypotheses shared by the theorems: texts of numbers, the version and the values have no apostrophe or comma. *)
Definition ordinary_run (fshow : Q -> string) (version : string) (c : cfg) : Prop :=
  (forall q, tidy (fshow q)) /\ tidy version /\ tidy_config fshow c.
Definition three_d (c : cfg) : Prop := exists g, dict_get (values c) "geometry" = Some (VStr g) /\ lower g = "3d".

(** Every number or switch among the listed options appears once in the file, with its value. *)
Theorem C67_options_are_recorded :
  forall fshow parse version extra c text k v, ordinary_run fshow version c -> dump fshow parse version extra c = Some text ->
    In k (options_in extra) -> ~ In k names -> ~ In k tables -> dict_get (values c) k = Some v -> (k = "window-width" -> ~ three_d c) ->
    says text k (py_str fshow v).
Proof.
  intros fshow parse version extra c text k v (Hn & Hv & Hc) E Hk H1 H2 Hg Hw.
  destruct (dump_pieces fshow parse Hn version extra c text Hv Hc E) as (ps & Hok & Hks & -> & Hin & _).
  apply says_item; auto; [rewrite Hks; apply options_nodup|]. apply (Hin k v); auto. unfold written, turn.
  assert (G : String.eqb k "plasma-zshape" = false /\ String.eqb k "plasma-rshape" = false /\ is_str_key k = false).
  { assert (X : forall n, In n (names ++ tables)%list -> String.eqb k n = false).
    { intros n Hn'. apply String.eqb_neq. intros ->. apply in_app_or in Hn' as [|]; contradiction. }
    repeat split; try (apply X; cbn; tauto). unfold is_str_key, str_keys. cbn [existsb]. rewrite !X by (cbn; tauto). reflexivity. }
  destruct G as (-> & -> & ->). reflexivity.
Qed.
Print Assumptions C67_options_are_recorded.

(** Names are written in apostrophes and in lower case. *)
Theorem C67_names_are_recorded :
  forall fshow parse version extra c text k s, ordinary_run fshow version c -> dump fshow parse version extra c = Some text ->
    In k names -> dict_get (values c) k = Some (VStr s) -> says text k ("'" ++ lower s ++ "'").
Proof.
  intros fshow parse version extra c text k s (Hn & Hv & Hc) E Hk Hg.
  destruct (dump_pieces fshow parse Hn version extra c text Hv Hc E) as (ps & Hok & Hks & -> & Hin & _).
  apply says_item; auto; [rewrite Hks; apply options_nodup|]. apply (Hin k (VStr s)); auto.
  - destruct extra; cbn in Hk |- *; tauto.
  - destruct Hk as [<-|[<-|[<-|[<-|[]]]]]; reflexivity.
  - intros ->. cbn in Hk. intuition discriminate.
Qed.
Print Assumptions C67_names_are_recorded.

(** In 3D the width, which the program doubles, is written halved. *)
Theorem C67_half_width_3d :
  forall fshow parse version extra c text w, ordinary_run fshow version c -> dump fshow parse version extra c = Some text ->
    three_d c -> to_float parse (dict_get (values c) "window-width") = Some w -> says text "window-width" (fshow (w / 2)%Q).
Proof.
  intros fshow parse version extra c text w (Hn & Hv & Hc) E H3 Hw.
  destruct (dump_pieces fshow parse Hn version extra c text Hv Hc E) as (ps & Hok & Hks & -> & _ & H & _).
  apply says_item; auto; rewrite Hks; apply options_nodup.
Qed.
Print Assumptions C67_half_width_3d.

(** Tables keep their rows (in lower case). *)
Theorem C67_tables_are_recorded :
  forall fshow parse version extra c text k s, ordinary_run fshow version c -> dump fshow parse version extra c = Some text ->
    k = "plasma-zshape" \/ (k = "plasma-rshape" /\ List.length (words s) <> 1%nat) -> dict_get (values c) k = Some (VStr s) ->
    says_table text k (lower s).
Proof.
  intros fshow parse version extra c text k s (Hn & Hv & Hc) E Hk Hg.
  destruct (dump_pieces fshow parse Hn version extra c text Hv Hc E) as (ps & Hok & Hks & -> & Hin & _).
  destruct (table_rows s) as (body & Eb & Er). exists body. split; [|exact Er]. rewrite <- Eb.
  apply says_item; auto; [rewrite Hks; apply options_nodup|]. destruct Hk as [->|[-> Hk]].
  - apply (Hin _ (VStr s)); auto; [destruct extra; cbn; tauto|discriminate].
  - apply (Hin _ (VStr s)); auto; [destruct extra; cbn; tauto| |discriminate]. unfold written, turn. cbn.
    rewrite count_words_ok. apply Nat.eqb_neq in Hk. now rewrite Hk.
Qed.
Print Assumptions C67_tables_are_recorded.

(** A one-word rshape is not recorded: the file always says 'uniform'. *)
Theorem C67_one_word_rshape_recorded_refuted :
  forall fshow parse version extra c text s, ordinary_run fshow version c -> dump fshow parse version extra c = Some text ->
    dict_get (values c) "plasma-rshape" = Some (VStr s) -> List.length (words s) = 1%nat -> says text "plasma-rshape" "'uniform'".
Proof.
  intros fshow parse version extra c text s (Hn & Hv & Hc) E Hg Hs.
  destruct (dump_pieces fshow parse Hn version extra c text Hv Hc E) as (ps & Hok & Hks & -> & _ & _ & Hsk).
  apply says_item; auto; [rewrite Hks; apply options_nodup|]. apply (Hsk _ (VStr s)); [| exact Hg| |discriminate].
  - destruct extra; unfold listing; [apply in_or_app; left|]; unfold listing_short; repeat (first [left; reflexivity|right]).
  - unfold written, turn. cbn. now rewrite count_words_ok, Hs.
Qed.
Print Assumptions C67_one_word_rshape_recorded_refuted.

(** Without 'extra' in the file name the developer settings are missing, and options the default file does not list always are. *)
Theorem C67_developer_options_recorded_refuted :
  forall fshow parse version c text k, ordinary_run fshow version c -> dump fshow parse version false c = Some text -> In k developer_options -> silent text k.
Proof.
  intros fshow parse version c text k (Hn & Hv & Hc) E Hk.
  destruct (dump_pieces fshow parse Hn version false c text Hv Hc E) as (ps & Hok & Hks & -> & _).
  apply silent_item; auto.
  - destruct Hk as [<-|[<-|[<-|[]]]]; (split; [discriminate|reflexivity]).
  - rewrite Hks. intros X. assert (N := options_nodup true). unfold options_in in N.
    assert (G : existsb (String.eqb k) listed_options = true) by (apply existsb_exists; exists k; split; [exact X|apply String.eqb_refl]).
    destruct Hk as [<-|[<-|[<-|[]]]]; discriminate.
Qed.
Print Assumptions C67_developer_options_recorded_refuted.
Theorem C67_only_listed_options :
  forall fshow parse version extra c text k, ordinary_run fshow version c -> dump fshow parse version extra c = Some text -> option_name k ->
    ~ In k (options_in extra) -> silent text k.
Proof.
  intros fshow parse version extra c text k (Hn & Hv & Hc) E Hk N.
  destruct (dump_pieces fshow parse Hn version extra c text Hv Hc E) as (ps & Hok & Hks & -> & _).
  apply silent_item; auto. now rewrite Hks.
Qed.
Print Assumptions C67_only_listed_options.

(** A plasma shape given as a function leaves only its name. *)
Theorem C67_function_shape_by_name :
  forall fshow parse version extra c text r, ordinary_run fshow version c -> dump fshow parse version extra c = Some text ->
    dict_get (values c) "plasma-shape" = Some (VObj r) -> says text "plasma-shape" ("'external function " ++ r ++ "'").
Proof.
  intros fshow parse version extra c text r (Hn & Hv & Hc) E Hg.
  destruct (dump_pieces fshow parse Hn version extra c text Hv Hc E) as (ps & Hok & Hks & -> & Hin & _).
  apply says_item; auto; [rewrite Hks; apply options_nodup|]. apply (Hin _ (VObj r)); auto; [destruct extra; cbn; tauto|discriminate].
Qed.
Print Assumptions C67_function_shape_by_name.

(** The file is written whenever the named options and tables are texts and a 3D width is a number. *)
Theorem C67_dump_succeeds :
  forall fshow parse version extra c,
    (forall k v, In (k, v) (values c) -> In k names \/ In k tables -> exists s, v = VStr s) ->
    (exists g, dict_get (values c) "geometry" = Some (VStr g)) ->
    (three_d c -> exists w, to_float parse (dict_get (values c) "window-width") = Some w) ->
    exists text, dump fshow parse version extra c = Some text.
Proof.
  intros fshow parse version extra c H (g & Hg) Hw. apply (dump_some fshow parse version extra c g); auto.
  - intros k v Hi. unfold turn. destruct (String.eqb k "plasma-zshape") eqn:Ez.
    { apply String.eqb_eq in Ez. subst. destruct (H _ _ Hi ltac:(cbn; tauto)) as (s & ->). discriminate. }
    destruct (String.eqb k "plasma-rshape") eqn:Er.
    { apply String.eqb_eq in Er. subst. destruct (H _ _ Hi ltac:(cbn; tauto)) as (s & ->). destruct (Nat.eqb _ 1); discriminate. }
    destruct (is_str_key k) eqn:Es; [|discriminate]. unfold is_str_key in Es. apply existsb_exists in Es as (k' & Hk & Ek). apply String.eqb_eq in Ek. subst k'.
    destruct (H _ _ Hi ltac:(cbn in Hk |- *; tauto)) as (s & ->). discriminate.
  - intros E3. destruct (Hw ltac:(exists g; auto)) as (w & ->). discriminate.
Qed.
Print Assumptions C67_dump_succeeds.

(** Running again with the recorded width and step gives the same grid, in exact arithmetic (C66 gives the floating-point case). *)
Theorem C67_rerun_keeps_the_grid :
  forall fshow parse has_cupy rt c c' r r',
    get fshow c "geometry" "" = "3d" -> adjust_3d fshow parse has_cupy rt c = (c', None) ->
    get fshow r "geometry" "" = "3d" ->
    (getfloat parse r "window-width" 0 == getfloat parse c' "window-width" 0 / 2)%Q ->
    (getfloat parse r "transverse-step" 0 == getfloat parse c' "transverse-step" 0)%Q ->
    adjust_3d fshow parse has_cupy rt r = (r', None) ->
    getint parse r' "window-width-steps" 0 = getint parse c' "window-width-steps" 0 /\
    (getfloat parse r' "window-width" 0 == getfloat parse c' "window-width" 0)%Q.
Proof.
  intros fshow parse has_cupy rt c c' r r' Gc Ec Gr Hw Hh Er.
  destruct (adjust_3d_window fshow parse has_cupy rt c c' Gc Ec) as (n & On & Hz & Sn & Wn & Hn).
  destruct (adjust_3d_window fshow parse has_cupy rt r r' Gr Er) as (m & Om & Hz' & Sm & Wm & Hm).
  assert (Q1 : (2 * getfloat parse r "window-width" 0 / getfloat parse r "transverse-step" 0 == inject_Z n)%Q).
  { rewrite Hw, Hh, Wn, Hn. field. exact Hz. }
  assert (Tr : trunc (2 * getfloat parse r "window-width" 0 / getfloat parse r "transverse-step" 0) = n).
  { unfold trunc. unfold Qeq in Q1. cbn [inject_Z Qnum Qden] in Q1. rewrite Z.mul_1_r in Q1. rewrite Q1. apply Z.quot_mul. lia. }
  rewrite Tr in Om. destruct (optimal_steps_some _ _ On) as (F & P & _). destruct (optimal_steps_some _ _ Om) as (_ & _ & _ & Hb & _).
  specialize (Hb n P F). assert (m = n) as -> by lia. split; [congruence|]. rewrite Wm, Wn, Hh, Hn. reflexivity.
Qed.
Print Assumptions C67_rerun_keeps_the_grid.

(** Non-vacuity: the default configuration in 3D after adjustment. *)
Definition fs_demo (q : Q) : string := if Qeq_bool q (199 # 40) then "4.975" else "0.5".
Definition demo : cfg :=
  fst (adjust_3d fs_demo (fun _ => None) false (fun _ => 316 # 100) (fst (new_config fs_demo false [("geometry", VStr "3d"); ("plasma-zshape", VStr "100 1 L 0.5
   200 0.5 L 2")] true))).
Example C67_nonvacuous : ordinary_run fs_demo "1.0" demo /\ three_d demo /\
  exists text, dump fs_demo (fun _ => None) "1.0" false demo = Some text /\ says text "window-width" "4.975" /\ says text "geometry" "'3d'" /\ says text "time-step" "25" /\
    says_table text "plasma-zshape" "100 1 l 0.5
   200 0.5 l 2" /\ silent text "trapped-path-limit".
Proof.
  assert (R : ordinary_run fs_demo "1.0" demo).
  { split; [intros q; unfold fs_demo; destruct (Qeq_bool q _); reflexivity|]. split; [reflexivity|]. split; [apply nodup_dec; vm_compute; reflexivity|].
    assert (V : forallb (fun kv => negb (String.eqb (fst kv) "") && all_chars key_char (fst kv) && all_chars tidy_char (py_str fs_demo (snd kv)) &&
      (existsb (String.eqb (fst kv)) tables || all_chars (fun c => negb (Ascii.eqb c (ascii_of_nat 10))) (py_str fs_demo (snd kv)))) (values demo) = true) by (vm_compute; reflexivity).
    rewrite forallb_forall in V. split.
    - intros k v H. apply V in H. cbn [fst snd] in H. apply andb_prop in H as [H _]. apply andb_prop in H as [H H3]. apply andb_prop in H as [H1 H2]. repeat split; auto. intros ->. discriminate.
    - intros k v H N1 N2. apply V in H. cbn [fst snd] in H. apply andb_prop in H as [_ H]. apply orb_prop in H as [H|H]; [|exact H]. exfalso.
      unfold tables in H. cbn [existsb] in H. apply String.eqb_neq in N1, N2. rewrite N1, N2 in H. discriminate. }
  assert (T : three_d demo) by (exists "3d"; split; vm_compute; reflexivity). split; [exact R|]. split; [exact T|].
  assert (E : exists text, dump fs_demo (fun _ => None) "1.0" false demo = Some text) by (vm_compute; eauto). destruct E as (text & E). exists text. split; [exact E|].
  repeat split.
  - exact (C67_half_width_3d _ _ _ _ _ _ (199 # 20) R E T ltac:(vm_compute; reflexivity)).
  - exact (C67_names_are_recorded _ _ _ _ _ _ "geometry" "3d" R E ltac:(cbn; tauto) ltac:(vm_compute; reflexivity)).
  - refine (C67_options_are_recorded _ _ _ _ _ _ "time-step" (VInt 25) R E _ _ _ _ _).
    + cbn. tauto.
    + cbn. intuition discriminate.
    + cbn. intuition discriminate.
    + vm_compute. reflexivity.
    + discriminate.
  - exact (C67_tables_are_recorded _ _ _ _ _ _ "plasma-zshape" _ R E ltac:(now left) ltac:(vm_compute; reflexivity)).
  - exact (C67_developer_options_recorded_refuted _ _ _ _ _ "trapped-path-limit" R E ltac:(cbn; tauto)).
Qed.
