(** Theorems C62: saved plasma states and continuing from them. *)
From Coq Require Import Reals ZArith List Bool String Lia Lra Permutation.
From Verif Require Import Diag_Model Diag_Proofs State_Model State_Spec Beam2D_Model Beam2D_Spec Beam2D_Proofs Beam2D_Push Beam2D_Ex
  Shape_Model Shape_Spec Beam3D_Model Beam3D_Spec Beam3D_Proofs Beam3D_Run Beam3D_Ex Causal_Proofs Coupling_Spec Coupling_Proofs Props_Coupling.
From Verif Require Beam2D_Total.
Import ListNotations.
Local Open Scope list_scope.
Local Open Scope string_scope.
Local Open Scope R_scope.

(** ** Loading *)
Section Load.
  Context {A : Type}.
  Implicit Type f : pfile A.
  Lemma array_holds f k a : array f k = Some a <-> holds f k a.
  Proof. unfold array, holds. destruct (look f k) as [[b|c|]|]; split; intros H; try discriminate; congruence. Qed.
  Lemma column_holds f s k a : table_column f s k = Some a <-> holds_column f s k a.
  Proof.
    unfold table_column, holds_column. destruct (look f s) as [[b|c|]|]; split; intros H; try discriminate.
    - destruct H as (c & E & _). discriminate.
    - eauto.
    - destruct H as (c' & E & H). now injection E as <-.
    - destruct H as (c & E & _). discriminate.
    - destruct H as (c & E & _). discriminate.
  Qed.
  Lemma collect_spec (get : string -> option A) keys l :
    collect get keys = Some l <-> map fst l = keys /\ forall k a, In (k, a) l -> get k = Some a.
  Proof.
    revert l. induction keys as [|k t IH]; intros l; cbn [collect].
    - split.
      + intros [= <-]. split; [reflexivity|intros k a []].
      + intros (E & _). now destruct l.
    - destruct (get k) as [a|] eqn:G.
      + destruct (collect get t) as [r|] eqn:C.
        * split.
          -- intros [= <-]. destruct (proj1 (IH r) eq_refl) as (E & H). cbn. split; [now rewrite E|]. intros k' a' [[= <- <-]|Hin]; auto.
          -- intros (E & H). destruct l as [|[k' a'] l]; [discriminate|]. cbn in E. injection E as -> E.
             assert (a' = a) by (pose proof (H k a' (or_introl eq_refl)); congruence). subst.
             assert (Some r = Some l) as [= ->]; [apply IH; split; auto; intros; apply H; now right|reflexivity].
        * split; [discriminate|]. intros (E & H). destruct l as [|[k' a'] l]; [discriminate|]. cbn in E. injection E as -> E.
          assert (None = Some l); [apply IH; split; auto; intros; apply H; now right|discriminate].
      + split; [discriminate|]. intros (E & H). destruct l as [|[k' a'] l]; [discriminate|]. cbn in E. injection E as -> E.
        specialize (H k a' (or_introl eq_refl)). congruence.
  Qed.
  Lemma collect_sorts_spec f cols sorts l : collect_sorts f cols sorts = Some l <-> species_of f sorts cols l.
  Proof.
    unfold species_of. revert l. induction sorts as [|s t IH]; intros l; cbn [collect_sorts].
    - split.
      + intros [= <-]. split; [reflexivity|intros k a []].
      + intros (E & _). now destruct l.
    - destruct (collect (table_column f s) cols) as [c|] eqn:G.
      + destruct (proj1 (collect_spec _ _ _) G) as (Ec & Hc).
        destruct (collect_sorts f cols t) as [r|] eqn:C.
        * split.
          -- intros [= <-]. destruct (proj1 (IH r) eq_refl) as (E & H). cbn. split; [now rewrite E|]. intros s' c' [[= <- <-]|Hin]; [|now apply H].
             split; auto. intros k a Hin. apply column_holds. now apply Hc.
          -- intros (E & H). destruct l as [|[s' c'] l]; [discriminate|]. cbn in E. injection E as -> E.
             assert (Some c = Some c') as [= ->].
             { rewrite <- G. apply collect_spec. destruct (H s c' (or_introl eq_refl)) as (N & K). split; auto. intros. apply column_holds. now apply K. }
             assert (Some r = Some l) as [= ->]; [apply IH; split; auto; intros; apply H; now right|reflexivity].
        * split; [discriminate|]. intros (E & H). destruct l as [|[s' c'] l]; [discriminate|]. cbn in E. injection E as -> E.
          assert (None = Some l); [apply IH; split; auto; intros; apply H; now right|discriminate].
      + split; [discriminate|]. intros (E & H). destruct l as [|[s' c'] l]; [discriminate|]. cbn in E. injection E as -> E.
        assert (None = Some c'); [|discriminate].
        rewrite <- G. apply collect_spec. destruct (H s c' (or_introl eq_refl)) as (N & K). split; auto. intros. apply column_holds. now apply K.
  Qed.
  Lemma arrays_spec f keys l : collect (array f) keys = Some l <-> arrays_of f keys l.
  Proof. rewrite collect_spec. unfold arrays_of. split; intros (E & H); (split; [auto|intros; apply array_holds; auto]). Qed.
  Lemma or_else_spec f k ions v : or_else f k ions v <-> v = match array f k with Some a => Some a | None => ions end.
  Proof.
    unfold or_else. destruct (array f k) as [a|] eqn:E.
    - apply array_holds in E. split.
      + intros [(a' & H & ->)|(N & _)]; [unfold holds in *; congruence|exfalso; eapply N; eauto].
      + intros ->. left. eauto.
    - assert (N : forall a, ~ holds f k a) by (intros a H; apply array_holds in H; congruence). split.
      + intros [(a' & H & ->)|(_ & ->)]; [exfalso; eapply N; eauto|reflexivity].
      + intros ->. right. auto.
  Qed.
  Lemma number_or_spec to_float f k x0 v :
    number_or to_float f k x0 v <-> v = match array f k with Some a => match to_float a with Some x => x | None => x0 end | None => x0 end.
  Proof.
    unfold number_or. destruct (array f k) as [a|] eqn:E.
    - apply array_holds in E. assert (U : forall a', holds f k a' -> a' = a) by (unfold holds in *; congruence).
      destruct (to_float a) as [x|] eqn:T; split.
      + intros [(a' & H & Hx)|(N & _)]; [apply U in H; subst; congruence|exfalso; eapply N; eauto].
      + intros ->. left. eauto.
      + intros [(a' & H & Hx)|(_ & ->)]; [apply U in H; subst; congruence|reflexivity].
      + intros ->. right. split; auto. intros a' x H. apply U in H. subst. congruence.
    - assert (N : forall a, ~ holds f k a) by (intros a H; apply array_holds in H; congruence). split.
      + intros [(a' & H & _)|(_ & ->)]; [exfalso; eapply N; eauto|reflexivity].
      + intros ->. right. split; auto. intros a x H. exfalso. eapply N; eauto.
  Qed.
End Load.

Ltac load_ok :=
  repeat match goal with |- context[match collect ?g ?k with _ => _ end] => let C := fresh "C" in destruct (collect g k) eqn:C
                       | |- context[match collect_sorts ?g ?k ?s with _ => _ end] => let C := fresh "C" in destruct (collect_sorts g k s) eqn:C end.

(** Loading succeeds exactly for the archives in which the state is written, with its fields and
    currents as arrays and each species as a table; and it gives the state written there. *)
Theorem C62_3d_load_gives_what_is_written : forall A (to_float : A -> option R) sorts ions xi0 f st,
  load3 to_float sorts ions xi0 f = Some st <->
  written_in to_float ["Ex"; "Ey"; "Ez"; "Bx"; "By"; "Bz"; "Phi"]
    ["x_init"; "y_init"; "q"; "m"; "x_offt"; "y_offt"; "px"; "py"; "pz"; "dx_chaotic"; "dy_chaotic"; "dx_chaotic_perp"; "dy_chaotic_perp"]
    ["ro"; "jx"; "jy"; "jz"] sorts "rho_initial" ions xi0 f st.
Proof.
  intros A tf sorts ions xi0 f [fl pa cu io xx]. unfold written_in, load3. cbn [st_fields st_particles st_currents st_ions st_xi].
  rewrite <- !arrays_spec, <- collect_sorts_spec, or_else_spec, number_or_spec.
  load_ok; (split; [intros H; try discriminate H; injection H as <- <- <- <- <-; auto 10|intros (H1 & H2 & H3 & -> & ->); congruence]).
Qed.
Print Assumptions C62_3d_load_gives_what_is_written.

Theorem C62_2d_load_gives_what_is_written : forall A (to_float : A -> option R) sorts ions f st,
  load2 to_float sorts ions f = Some st <->
  written_in to_float ["E_r"; "E_f"; "E_z"; "B_f"; "B_z"] ["r"; "q"; "m"; "p_r"; "p_f"; "p_z"; "age"]
    ["rho"; "j_r"; "j_f"; "j_z"] sorts "ni" ions 0 f st.
Proof.
  intros A tf sorts ions f [fl pa cu io xx]. unfold written_in, load2. cbn [st_fields st_particles st_currents st_ions st_xi].
  rewrite <- !arrays_spec, <- collect_sorts_spec, or_else_spec, number_or_spec.
  load_ok; (split; [intros H; try discriminate H; injection H as <- <- <- <- <-; auto 10|intros (H1 & H2 & H3 & -> & ->); congruence]).
Qed.
Print Assumptions C62_2d_load_gives_what_is_written.

Lemma look_save {A} (l : list (string * A)) s : match look (save_arrays l) s with Some (Table _) => False | _ => True end.
Proof. induction l as [|[k a] l IH]; cbn; auto. destruct (string_dec k s); auto. Qed.
Lemma sorts_save {A} (l : list (string * A)) c cols s t : collect_sorts (save_arrays l) (c :: cols) (s :: t) = None.
Proof.
  cbn [collect_sorts collect]. unfold table_column at 1. pose proof (look_save l s) as H.
  destruct (look (save_arrays l) s) as [[|x|]|]; auto. destruct H.
Qed.

(** No file of the kind the package writes (numpy savez of arrays, whatever their names) can be
    loaded back as a plasma state. *)
Theorem C62_saved_states_load_refuted : forall A (to_float : A -> option R) s sorts ions xi0 (arrays : list (string * A)),
  load3 to_float (s :: sorts) ions xi0 (save_arrays arrays) = None /\ load2 to_float (s :: sorts) ions (save_arrays arrays) = None.
Proof.
  intros. unfold load3, load2. split; (destruct (collect _ _); [|reflexivity]); now rewrite sorts_save.
Qed.
Print Assumptions C62_saved_states_load_refuted.

(** ... nor one in which a species is stored as a Python dictionary. *)
Theorem C62_pickled_species_refused : forall A (to_float : A -> option R) s sorts ions xi0 (f : pfile A),
  look f s = Some Pickled -> In s sorts -> load3 to_float sorts ions xi0 f = None /\ load2 to_float sorts ions f = None.
Proof.
  intros A tf s sorts ions xi0 f H Hin.
  assert (N : forall c cols, collect_sorts f (c :: cols) sorts = None).
  { intros c cols. destruct (collect_sorts f (c :: cols) sorts) as [l|] eqn:E; auto. apply collect_sorts_spec in E. destruct E as (E & K).
    rewrite <- E in Hin. apply in_map_iff in Hin. destruct Hin as ([s' cs] & E' & Hin). cbn in E'. subst s'. destruct (K _ _ Hin) as (E1 & K1).
    destruct cs as [|[k a] cs]; [discriminate|]. destruct (K1 k a (or_introl eq_refl)) as (cc & Hc & _). congruence. }
  unfold load3, load2. split; (destruct (collect _ _); [|reflexivity]); now rewrite N.
Qed.
Print Assumptions C62_pickled_species_refused.

(** The loaded state can be anything: every state with the right names is written in some archive. *)
Definition archive {A} (st : state A) (xi_value : A) (ion_name : string) : pfile A :=
  (save_arrays (st_fields st) ++ map (fun '(s, c) => (s, Table c)) (st_particles st) ++ save_arrays (st_currents st) ++
  match st_ions st with Some a => [(ion_name, Plain a)] | None => [] end ++ [("xi_plasma_layer", Plain xi_value)])%list.
Example C62_nonvacuous :
  let a := fun k : string => (k, k) in
  let e := map a ["r"; "q"; "m"; "p_r"; "p_f"; "p_z"; "age"] in
  let st := mkState (map a ["E_r"; "E_f"; "E_z"; "B_f"; "B_z"]) [("electrons", e); ("ions", e)]
                    (map a ["rho"; "j_r"; "j_f"; "j_z"]) (Some "ni") (-3) in
  load2 (fun s => if string_dec s "xi" then Some (-3) else None) ["electrons"; "ions"] None (archive st "xi" "ni") = Some st.
Proof. reflexivity. Qed.

(** ** Where the solver starts *)
(** A plasma after the layer at xi = -n dxi continues with layer n + 1; a fresh plasma (whose
    position is one step ahead of the window, initialization.py:412 and plasma/initialization.py:89)
    starts with layer 0.  A 2D file without the position starts with layer 1. *)
Theorem C62_continues_with_the_next_layer : forall dxi n, 0 < dxi ->
  start_layer dxi (- (IZR n * dxi)) = (n + 1)%Z /\ start_layer dxi dxi = 0%Z /\ start_layer dxi 0 = 1%Z.
Proof.
  intros dxi n Hd. unfold start_layer.
  replace (- - (IZR n * dxi) / dxi) with (IZR n) by (field; lra). rewrite ne_int.
  replace (- dxi / dxi) with (IZR (-1)) by (field; lra). rewrite ne_int.
  replace (- 0 / dxi) with (IZR 0) by (field; lra). rewrite ne_int. auto.
Qed.
Print Assumptions C62_continues_with_the_next_layer.
(** A fresh run of a window of [steps] layers computes the layers 0 .. steps; one that continues after layer n
    computes the layers n + 1 .. steps: together with the n + 1 layers before, the same number. *)
Theorem C62_layers_of_a_continued_run : forall dxi n steps, 0 < dxi -> (0 <= n <= steps)%Z ->
  Z.of_nat (layers_computed dxi dxi steps) = (steps + 1)%Z /\
  Z.of_nat (layers_computed dxi (- (IZR n * dxi)) steps) = (steps - n)%Z /\
  (Z.to_nat (n + 1) + layers_computed dxi (- (IZR n * dxi)) steps)%nat = layers_computed dxi dxi steps.
Proof.
  intros dxi n steps Hd Hn. destruct (C62_continues_with_the_next_layer dxi n Hd) as (A & B & _). unfold layers_computed. rewrite A, B. lia.
Qed.
Print Assumptions C62_layers_of_a_continued_run.

(** ** Continuing a computation *)
Lemma wake_app {Pl D} (plasma : Pl -> D -> D -> Pl) : forall rs rs' pl prev,
  wake plasma pl prev (rs ++ rs')%list = wake plasma (wake plasma pl prev rs) (last rs prev) rs'.
Proof.
  induction rs as [|a rs IH]; intros rs' pl prev; auto. cbn [app wake]. rewrite IH. f_equal. destruct rs; auto. clear.
  revert d. induction rs as [|b rs IH]; intros d; auto. cbn [last] in *. apply IH.
Qed.
Lemma wake_ext {Pl D} (plasma : Pl -> D -> D -> Pl) pl prev prev' rs :
  (forall pl r p p', plasma pl r p = plasma pl r p') -> wake plasma pl prev rs = wake plasma pl prev' rs.
Proof. intros H. destruct rs; auto. cbn. now rewrite (H _ _ prev prev'). Qed.
Lemma seq_shift_map {B} (g g' : nat -> B) n1 : forall n, (forall k, g (n1 + k)%nat = g' k) -> map g (seq n1 n) = map g' (seq 0 n).
Proof.
  intros n H. assert (E : forall m a, seq (n1 + a) m = map (fun k => (n1 + k)%nat) (seq a m)).
  { induction m as [|m IH]; intros a; auto. cbn. f_equal. rewrite <- IH. f_equal. lia. }
  specialize (E n 0%nat). rewrite Nat.add_0_r in E. rewrite E, map_map. apply map_ext. intros k. apply H.
Qed.
Lemma filter_same {B} (f g : B -> bool) l : (forall x, In x l -> f x = g x) -> filter f l = filter g l.
Proof. induction l as [|a l IH]; intros H; auto. cbn. rewrite H by (now left). rewrite IH; auto. intros; apply H; now right. Qed.
Lemma filter_filter {B} (f g : B -> bool) l : filter f (filter g l) = filter (fun x => g x && f x) l.
Proof. induction l as [|a l IH]; auto. cbn. destruct (g a); cbn; rewrite ?IH; auto. Qed.

Section Restart2.
  Variables (h dxi : R) (i : Z) (beam : list part) (n1 : nat).
  Hypothesis (Hd : 0 < dxi) (Hn : (0 < n1)%nat).
  Let j := (i + Z.of_nat n1)%Z.
  Lemma layer_behind k : layer_of dxi i beam (n1 + k) = layer_of dxi j (behind dxi j beam) k.
  Proof.
    unfold layer_of, behind. f_equal. rewrite filter_filter. apply filter_same. intros p _.
    destruct (n1 + k)%nat eqn:E; [lia|]. rewrite <- E. clear n E.
    replace (i + Z.of_nat (n1 + k))%Z with (j + Z.of_nat k)%Z by (unfold j; lia).
    unfold in_xi_layer, in_xi_layer_top.
    assert (L : - (IZR (j + Z.of_nat k) * dxi) <= - (IZR j * dxi)).
    { apply Ropp_le_contravar. apply Rmult_le_compat_r; [lra|]. apply IZR_le. lia. }
    destruct k as [|k]; [change (Z.of_nat 0) with 0%Z in *; rewrite Z.add_0_r in *|];
    repeat match goal with |- context[Rlt_dec ?a ?b] => destruct (Rlt_dec a b) | |- context[Rle_dec ?a ?b] => destruct (Rle_dec a b) end; cbn; auto; exfalso; lra.
  Qed.
  Lemma layer_empty k : (k < n1)%nat -> nobody_just_ahead dxi j (Z.of_nat (n1 - k)) (map xi beam) -> layer_of dxi i beam k = [].
  Proof.
    intros Hk Hb. unfold layer_of. destruct (filter _ beam) as [|p l] eqn:E; auto. exfalso.
    assert (Hp : In p (filter (fun p => match k with 0%nat => in_xi_layer_top dxi i p | S _ => in_xi_layer dxi (i + Z.of_nat k) p end) beam)) by (rewrite E; now left).
    apply filter_In in Hp. destruct Hp as (Hp & Hl). apply (Hb (xi p)); [now apply in_map|].
    replace (j - Z.of_nat (n1 - k))%Z with (i + Z.of_nat k)%Z by (unfold j; lia).
    assert (L : - (IZR j * dxi) <= - (IZR (i + Z.of_nat k + 1) * dxi)).
    { apply Ropp_le_contravar. apply Rmult_le_compat_r; [lra|]. apply IZR_le. unfold j. lia. }
    destruct k as [|k].
    - unfold in_xi_layer_top in Hl. change (Z.of_nat 0) with 0%Z in *. rewrite Z.add_0_r in *.
      destruct (Rle_dec _ _); [|discriminate]. destruct (Rle_dec _ _); [|discriminate]. lra.
    - unfold in_xi_layer in Hl. destruct (Rle_dec _ _); [|discriminate]. destruct (Rlt_dec _ _); [|discriminate]. lra.
  Qed.
  Lemma bottom_shift k : bottom dxi i (n1 + k) = bottom dxi j k.
  Proof. clear Hd Hn. unfold bottom. do 3 f_equal. unfold j. lia. Qed.
  Lemma row_shift carry : nobody_just_ahead dxi j 1 (map xi beam) ->
    forall k, density_row h dxi i beam carry (n1 + k) = density_row h dxi j (behind dxi j beam) (repeat 0 (List.length carry)) k.
  Proof.
    intros Hb k. unfold density_row. rewrite repeat_length. apply map_ext. intros x. unfold beam_density. f_equal. f_equal.
    - destruct k as [|k].
      + rewrite Nat.add_0_r. case_eq n1; [lia|]. intros m E. rewrite layer_empty; [|lia|replace (Z.of_nat (n1 - m)) with 1%Z by lia; exact Hb].
        cbn. symmetry. clear. revert x. induction (List.length carry); intros [|x]; cbn; auto.
      + rewrite Nat.add_succ_r. now rewrite bottom_shift, layer_behind.
    - now rewrite bottom_shift, layer_behind.
  Qed.
  Lemma nobody_less (a b : Z) l : (a <= b)%Z -> nobody_just_ahead dxi j b l -> nobody_just_ahead dxi j a l.
  Proof.
    intros Hab H x Hx K. apply (H x Hx). split; [lra|]. eapply Rle_trans; [apply K|]. apply Ropp_le_contravar. apply Rmult_le_compat_r; [lra|]. apply IZR_le. lia.
  Qed.
  Lemma row_empty carry : (1 < n1)%nat -> nobody_just_ahead dxi j 2 (map xi beam) -> density_row h dxi i beam carry (n1 - 1) = repeat 0 (List.length carry).
  Proof.
    intros H2 Hb. unfold density_row. assert (Z0 : forall x, beam_density h dxi i beam carry (n1 - 1) x = 0).
    { intros x. unfold beam_density. destruct (n1 - 1)%nat as [|m] eqn:E; [lia|].
      rewrite (layer_empty m), (layer_empty (S m)); [| | |lia|].
      - cbn. unfold Rdiv. ring.
      - lia.
      - apply nobody_less with 2%Z; auto. lia.
      - replace (Z.of_nat (n1 - m)) with 2%Z by lia. exact Hb. }
    rewrite (map_ext _ (fun _ => 0) Z0). clear. induction (List.length carry) as [|n IH] in |- *; auto.
    rewrite seq_S, map_app, IH. cbn. symmetry. apply repeat_cons.
  Qed.
  Lemma after_shift {Pl} (plasma : Pl -> list R -> list R -> Pl) pl prev carry :
    nobody_just_ahead dxi j 1 (map xi beam) ->
    ((1 < n1)%nat /\ nobody_just_ahead dxi j 2 (map xi beam)) \/ (forall pl r p p', plasma pl r p = plasma pl r p') ->
    forall n2, plasma_after plasma pl prev carry h dxi i beam (n1 + n2) =
    plasma_after plasma (plasma_after plasma pl prev carry h dxi i beam n1) (repeat 0 (List.length carry)) (repeat 0 (List.length carry)) h dxi j (behind dxi j beam) n2.
  Proof.
    intros H1 H2 n2. unfold plasma_after at 1 2. rewrite seq_app, map_app, wake_app. cbn [Nat.add].
    rewrite (seq_shift_map _ _ n1 n2 (row_shift carry H1)). fold (plasma_after plasma pl prev carry h dxi i beam n1).
    destruct H2 as [(H2 & H3)|H2]; [|apply wake_ext; auto].
    unfold plasma_after at 1. f_equal.
    replace n1 with (S (n1 - 1)) at 1 by lia. rewrite seq_S, map_app. cbn [map]. rewrite last_last. cbn [Nat.add]. now apply row_empty.
  Qed.
End Restart2.

Lemma pass_shift c i F F' n1 k m b b' : (forall k, F' k = F (n1 + k)%nat) ->
  pass c (i + Z.of_nat n1) F' k m b b' -> pass c i F (n1 + k) m b b'.
Proof.
  intros E (H1 & H2). unfold pass. rewrite !E in H1. rewrite !bottom_shift. rewrite !Nat.add_succ_r in H1. split; [exact H1|exact H2].
Qed.
Lemma flight_shift h c i F F' n1 p k l m b : (forall k, F' k = F (n1 + k)%nat) ->
  flight h c (i + Z.of_nat n1) F' p k l m b -> flight h c i F p (n1 + k) (n1 + l) m b.
Proof.
  intros E. induction 1 as [m b b' H1 H2|l m m' b b' H IH H1 H2].
  - eapply Fl_first; eauto. eapply pass_shift; eauto.
  - rewrite Nat.add_succ_r. eapply Fl_next; eauto. 
    + rewrite bottom_shift. exact H1.
    + rewrite <- Nat.add_succ_r. eapply pass_shift; eauto.
Qed.

(** 2D.  A computation is stopped after n1 layers and continued from its plasma, with a beam source
    that holds the particles behind and no density left over from ahead.  If no beam particle lies in
    the two layers before the stop, the plasma is at every later layer that of the uninterrupted
    computation, and every beam particle delivered has made in it the flight it would have made
    there.  One layer is enough for a solver that does not use the density of the layer ahead (the 2D
    one does not: plasma/solver.py:38-39, rho_beam_prev is not read). *)
Theorem C62_2d_continuing_gives_the_same_wake : forall sort_xi sort_bool Pl plasma pl_fields halvings c n1 n2 i beam carry prev (pl : Pl) s1 s s2,
  sort_xi_ok sort_xi -> sort_bool_ok sort_bool -> 0 < r_step c -> 0 < xi_step c -> time_step c <> 0 ->
  IZR (i + Z.of_nat (n1 + n2)) * xi_step c <= 99999 ->
  (forall p, In p beam -> xi p <= - (IZR i * xi_step c) /\ 0 <= rad p) ->
  let j := (i + Z.of_nat n1)%Z in
  let zeros := repeat 0 (List.length carry) in
  ((1 < n1)%nat /\ nobody_just_ahead (xi_step c) j 2 (map xi beam)) \/
  ((0 < n1)%nat /\ nobody_just_ahead (xi_step c) j 1 (map xi beam) /\ forall pl r p p', plasma pl r p = plasma pl r p') ->
  xi_loop sort_bool Pl plasma pl_fields halvings c n1 i (mkLS Pl (new_source sort_xi beam) [] [] [] carry prev pl) = Some s1 ->
  xi_loop sort_bool Pl plasma pl_fields halvings c (n1 + n2) i (mkLS Pl (new_source sort_xi beam) [] [] [] carry prev pl) = Some s ->
  xi_loop sort_bool Pl plasma pl_fields halvings c n2 j
    (mkLS Pl (new_source sort_xi (behind (xi_step c) j beam)) [] [] [] zeros zeros (ls_plasma Pl s1)) = Some s2 ->
  ls_plasma Pl s2 = ls_plasma Pl s /\
  let F := fun k => pl_fields (plasma_after plasma pl prev carry (r_step c) (xi_step c) i beam k) in
  forall b, In b (List.concat (ls_drain Pl s2)) -> exists p k l m, In p beam /\ In (fresh p) (layer_of (xi_step c) i beam k) /\ (n1 <= k <= l)%nat /\ (S l < n1 + n2)%nat /\
     flight halvings c i F p k l m b /\ rem b = 0%nat /\ bottom (xi_step c) i l <= xi (pt b) /\ INR m * dt b = time_step c.
Proof.
  intros sort_xi sort_bool Pl plasma pl_fields h c n1 n2 i beam carry prev pl s1 s s2 Hs Hok Hr Hd Ht Hl Hb j zeros Hq R1 R R2.
  assert (Hn : (0 < n1)%nat) by (destruct Hq as [(H & _)|(H & _)]; lia).
  assert (Q1 : nobody_just_ahead (xi_step c) j 1 (map xi beam)).
  { destruct Hq as [(_ & H)|(_ & H & _)]; auto. eapply (nobody_less (xi_step c) i n1 Hd Hn 1 2); auto. lia. }
  assert (Q2 : ((1 < n1)%nat /\ nobody_just_ahead (xi_step c) j 2 (map xi beam)) \/ (forall pl r p p', plasma pl r p = plasma pl r p')) by (destruct Hq as [H|(_ & _ & H)]; auto).
  pose proof (after_shift (r_step c) (xi_step c) i beam n1 Hd Hn plasma pl prev carry Q1 Q2) as Sh. fold j zeros in Sh.
  assert (Hb' : forall p, In p (behind (xi_step c) j beam) -> xi p <= - (IZR j * xi_step c) /\ 0 <= rad p).
  { intros p Hp. apply filter_In in Hp. destruct Hp as (Hp & Hx). destruct (Rlt_dec _ _); [|discriminate]. split; [lra|]. now apply Hb. }
  assert (Hl1 : IZR (i + Z.of_nat n1) * xi_step c <= 99999).
  { eapply Rle_trans; [|exact Hl]. apply Rmult_le_compat_r; [lra|]. apply IZR_le. lia. }
  assert (Hl2 : IZR (j + Z.of_nat n2) * xi_step c <= 99999) by (replace (j + Z.of_nat n2)%Z with (i + Z.of_nat (n1 + n2))%Z by (unfold j; lia); auto).
  destruct (C59_2d_plasma_sees_the_beam_layer_by_layer _ _ _ _ _ _ _ _ _ _ _ _ _ _ Hs Hr Hd Hl1 Hb R1) as (P1 & _).
  destruct (C59_2d_plasma_sees_the_beam_layer_by_layer _ _ _ _ _ _ _ _ _ _ _ _ _ _ Hs Hr Hd Hl Hb R) as (P & _).
  destruct (C59_2d_plasma_sees_the_beam_layer_by_layer _ _ _ _ _ _ _ _ _ _ _ _ _ _ Hs Hr Hd Hl2 Hb' R2) as (P2 & _).
  split; [rewrite P2, P, P1; symmetry; apply Sh|].
  intros F b Hin. destruct (C59_2d_particles_fly_in_the_wake _ _ _ _ _ _ _ _ _ _ _ _ _ _ Hs Hok Hr Hd Ht Hl2 Hb' R2) as (D & _).
  destruct (D b Hin) as (p & k & l & m & Hp & Hlay & Hkl & Hln & Hf & H0 & Hx & Hm).
  exists p, (n1 + k)%nat, (n1 + l)%nat, m. split; [unfold behind in Hp; now apply filter_In in Hp|]. split; [now rewrite layer_behind|].
  split; [lia|]. split; [lia|]. split.
  - eapply flight_shift; [|exact Hf]. intros q. cbn beta. unfold F. f_equal. rewrite P1. symmetry. apply Sh.
  - split; auto. split; auto. now rewrite bottom_shift.
Qed.
Print Assumptions C62_2d_continuing_gives_the_same_wake.

Section Restart3.
  Variables (n : Z) (h dxi : R) (i : Z) (beam : list part3) (n1 : nat).
  Hypothesis (Hd : 0 < dxi) (Hn : (0 < n1)%nat).
  Let j := (i + Z.of_nat n1)%Z.
  Lemma layer_behind3 k : layer_of3 dxi i beam (n1 + k) = layer_of3 dxi j (behind3 dxi j beam) k.
  Proof.
    unfold layer_of3, behind3. rewrite filter_filter. apply filter_same. intros p _.
    replace (i + Z.of_nat (n1 + k))%Z with (j + Z.of_nat k)%Z by (unfold j; lia).
    assert (L : - (IZR (j + Z.of_nat k) * dxi) <= - (IZR j * dxi)).
    { apply Ropp_le_contravar. apply Rmult_le_compat_r; [lra|]. apply IZR_le. lia. }
    destruct (Rlt_dec _ _) as [|N]; [reflexivity|]. cbn. destruct (in_layer3 _ _ p) eqn:E; auto. apply in_layer3_iff in E. unfold xi_in in E. exfalso. lra.
  Qed.
  Lemma layer_empty3 k : (k < n1)%nat -> nobody_just_ahead dxi j (Z.of_nat (n1 - k)) (map b_xi beam) -> layer_of3 dxi i beam k = [].
  Proof.
    intros Hk Hb. unfold layer_of3. destruct (filter _ beam) as [|p l] eqn:E; auto. exfalso.
    assert (Hp : In p (filter (in_layer3 dxi (i + Z.of_nat k)) beam)) by (rewrite E; now left).
    apply filter_In in Hp. destruct Hp as (Hp & Hl). apply (Hb (b_xi p)); [now apply in_map|].
    replace (j - Z.of_nat (n1 - k))%Z with (i + Z.of_nat k)%Z by (unfold j; lia).
    assert (L : - (IZR j * dxi) <= - (IZR (i + Z.of_nat k + 1) * dxi)).
    { apply Ropp_le_contravar. apply Rmult_le_compat_r; [lra|]. apply IZR_le. unfold j. lia. }
    apply in_layer3_iff in Hl. unfold xi_in in Hl. lra.
  Qed.
  Lemma row_shift3 carry : nobody_just_ahead dxi j 1 (map b_xi beam) ->
    forall k, beam_density3 n h dxi i beam carry (n1 + k) = beam_density3 n h dxi j (behind3 dxi j beam) zero_grid k.
  Proof.
    intros Hb k. apply FunctionalExtensionality.functional_extensionality. intros a. apply FunctionalExtensionality.functional_extensionality. intros b.
    unfold beam_density3. f_equal. f_equal.
    - destruct k as [|k].
      + rewrite Nat.add_0_r. case_eq n1; [lia|]. intros m E. rewrite layer_empty3; [|lia|replace (Z.of_nat (n1 - m)) with 1%Z by lia; exact Hb]. reflexivity.
      + rewrite Nat.add_succ_r. rewrite layer_behind3. do 3 f_equal. apply FunctionalExtensionality.functional_extensionality. intros p. replace (i + Z.of_nat (n1 + k))%Z with (j + Z.of_nat k)%Z by (unfold j; lia). reflexivity.
    - rewrite layer_behind3. replace (i + Z.of_nat (n1 + k))%Z with (j + Z.of_nat k)%Z by (unfold j; lia). reflexivity.
  Qed.
  Lemma row_empty3 carry : (1 < n1)%nat -> nobody_just_ahead dxi j 2 (map b_xi beam) -> beam_density3 n h dxi i beam carry (n1 - 1) = zero_grid.
  Proof.
    intros H2 Hb. apply FunctionalExtensionality.functional_extensionality. intros a. apply FunctionalExtensionality.functional_extensionality. intros b.
    unfold beam_density3. destruct (n1 - 1)%nat as [|m] eqn:E; [lia|].
    rewrite (layer_empty3 m), (layer_empty3 (S m)); [| | |lia|].
    - cbn. unfold zero_grid, Rdiv. ring.
    - lia.
    - apply (nobody_less dxi i n1 Hd Hn _ 2%Z); auto. lia.
    - replace (Z.of_nat (n1 - m)) with 2%Z by lia. exact Hb.
  Qed.
  Lemma after_shift3 {Pl} (plasma : Pl -> grid -> grid -> Pl) pl prev carry :
    (1 < n1)%nat -> nobody_just_ahead dxi j 2 (map b_xi beam) ->
    forall n2, plasma_after3 plasma pl prev carry n h dxi i beam (n1 + n2) =
    plasma_after3 plasma (plasma_after3 plasma pl prev carry n h dxi i beam n1) zero_grid zero_grid n h dxi j (behind3 dxi j beam) n2.
  Proof.
    intros H2 H3 n2. assert (H1 : nobody_just_ahead dxi j 1 (map b_xi beam)) by (apply (nobody_less dxi i n1 Hd Hn _ 2%Z); auto; lia).
    unfold plasma_after3 at 1 2. rewrite seq_app, map_app, wake_app. cbn [Nat.add].
    rewrite (seq_shift_map _ _ n1 n2 (row_shift3 carry H1)). fold (plasma_after3 plasma pl prev carry n h dxi i beam n1).
    unfold plasma_after3 at 1. f_equal.
    replace n1 with (S (n1 - 1)) at 1 by lia. rewrite seq_S, map_app. cbn [map]. rewrite last_last. cbn [Nat.add]. now apply row_empty3.
  Qed.
End Restart3.

Lemma pass3_shift u c i F F' n1 k m b b' : (forall k, F' k = F (n1 + k)%nat) ->
  pass3 u c (i + Z.of_nat n1) F' k m b b' -> pass3 u c i F (n1 + k) m b b'.
Proof.
  intros E (H1 & H2). unfold pass3. rewrite !E in H1. rewrite !bottom_shift. rewrite !Nat.add_succ_r in H1.
  replace (i + Z.of_nat (n1 + k))%Z with (i + Z.of_nat n1 + Z.of_nat k)%Z by lia. split; [exact H1|exact H2].
Qed.
Lemma flight3_shift u h c i F F' n1 p k l m b : (forall k, F' k = F (n1 + k)%nat) ->
  flight3 u h c (i + Z.of_nat n1) F' p k l m b -> flight3 u h c i F p (n1 + k) (n1 + l) m b.
Proof.
  intros E. induction 1 as [m b b' H1 H2|l m m' b b' H IH H1 H2].
  - eapply Fl3_first; eauto. eapply pass3_shift; eauto.
  - rewrite Nat.add_succ_r. eapply Fl3_next; eauto.
    + rewrite bottom_shift. exact H1.
    + rewrite <- Nat.add_succ_r. eapply pass3_shift; eauto.
Qed.

(** 3D, both processors. *)
Theorem C62_3d_continuing_gives_the_same_wake : forall sort3 Pl plasma pl_fields u halvings c n1 n2 i beam carry prev (pl : Pl) s1 s s2,
  sort3_ok sort3 -> 0 < c_h c -> 0 < c_dxi c -> (forall p, In p beam -> b_xi p < - (IZR i * c_dxi c)) ->
  let j := (i + Z.of_nat n1)%Z in
  (1 < n1)%nat -> nobody_just_ahead (c_dxi c) j 2 (map b_xi beam) ->
  run3 Pl plasma pl_fields u halvings c n1 i (mkS3 Pl (new_source3 sort3 beam) [] 0 [] [] carry prev pl) = Some s1 ->
  run3 Pl plasma pl_fields u halvings c (n1 + n2) i (mkS3 Pl (new_source3 sort3 beam) [] 0 [] [] carry prev pl) = Some s ->
  run3 Pl plasma pl_fields u halvings c n2 j (mkS3 Pl (new_source3 sort3 (behind3 (c_dxi c) j beam)) [] 0 [] [] zero_grid zero_grid (s_pl Pl s1)) = Some s2 ->
  s_pl Pl s2 = s_pl Pl s /\
  let F := fun k => pl_fields (plasma_after3 plasma pl prev carry (c_n c) (c_h c) (c_dxi c) i beam k) in
  forall b, In b (s_drain Pl s2) -> (0 <= b_id b)%Z -> (forall p, In p beam -> (0 < b_id p)%Z) ->
     exists p k l m, In p (layer_of3 (c_dxi c) i beam k) /\ (n1 <= k <= l)%nat /\ (S l < n1 + n2)%nat /\
     flight3 u halvings c i F p k l m b /\ b_rem b = 0%nat /\ bottom (c_dxi c) i l <= compared u b /\ INR m * b_dt b = c_time_step c.
Proof.
  intros sort3 Pl plasma pl_fields u h c n1 n2 i beam carry prev pl s1 s s2 Hs Hh Hd Hb j Hn H2 R1 R R2.
  pose proof (after_shift3 (c_n c) (c_h c) (c_dxi c) i beam n1 Hd ltac:(lia) plasma pl prev carry Hn H2) as Sh. fold j in Sh.
  assert (Hb' : forall p, In p (behind3 (c_dxi c) j beam) -> b_xi p < - (IZR j * c_dxi c)).
  { intros p Hp. apply filter_In in Hp. destruct Hp as (_ & Hx). destruct (Rlt_dec _ _); [lra|discriminate]. }
  destruct (C59_3d_plasma_sees_the_beam_layer_by_layer _ _ _ _ _ _ _ _ _ _ _ _ _ _ Hs Hh Hd Hb R1) as (P1 & _).
  destruct (C59_3d_plasma_sees_the_beam_layer_by_layer _ _ _ _ _ _ _ _ _ _ _ _ _ _ Hs Hh Hd Hb R) as (P & _).
  destruct (C59_3d_plasma_sees_the_beam_layer_by_layer _ _ _ _ _ _ _ _ _ _ _ _ _ _ Hs Hh Hd Hb' R2) as (P2 & _).
  split; [rewrite P2, P, P1; symmetry; apply Sh|].
  intros F b Hin Hid Hpos. destruct (C59_3d_particles_fly_in_the_wake _ _ _ _ _ _ _ _ _ _ _ _ _ _ Hs Hh Hd Hb' R2) as (D & _).
  destruct (D b Hin) as [(_ & _ & p & Hp & E)|(p & k & l & m & Hlay & Hkl & Hln & Hf & H0 & Hx & Hm)].
  { exfalso. unfold behind3 in Hp. apply filter_In in Hp. specialize (Hpos p (proj1 Hp)). lia. }
  exists p, (n1 + k)%nat, (n1 + l)%nat, m. split; [rewrite layer_behind3; auto; lia|].
  split; [lia|]. split; [lia|]. split.
  - eapply flight3_shift; [|exact Hf]. intros q. cbn beta. unfold F. f_equal. rewrite P1. symmetry. apply Sh.
  - split; auto. split; auto. now rewrite bottom_shift.
Qed.
Print Assumptions C62_3d_continuing_gives_the_same_wake.

(** With a beam particle in the layer just before the stop the wake is not continued correctly: the
    part of its charge that belongs to the next layer is not there any more
    (push_solver.py:86-90: the density starts from zero). *)
Theorem C62_2d_continuing_always_the_same_refuted :
  exists halvings s1 s s2, let plasma := fun (_ r _ : list R) => r in
  xi_loop bsort _ plasma (fun _ => late_fields) halvings late_cfg 1 0 (mkLS _ (new_source isort [late_part]) [] [] [] (repeat 0 6) (repeat 0 6) []) = Some s1 /\
  xi_loop bsort _ plasma (fun _ => late_fields) halvings late_cfg 2 0 (mkLS _ (new_source isort [late_part]) [] [] [] (repeat 0 6) (repeat 0 6) []) = Some s /\
  xi_loop bsort _ plasma (fun _ => late_fields) halvings late_cfg 1 1
    (mkLS _ (new_source isort (behind (xi_step late_cfg) 1 [late_part])) [] [] [] (repeat 0 6) (repeat 0 6) (ls_plasma _ s1)) = Some s2 /\
  nth 1 (ls_plasma _ s) 0 = 0.9 /\ nth 1 (ls_plasma _ s2) 0 = 0.
Proof.
  set (plasma := fun (_ r _ : list R) => r).
  assert (B : behind (xi_step late_cfg) 1 [late_part] = []).
  { unfold behind. cbn [filter]. destruct (Rlt_dec _ _) as [l|]; auto. exfalso. cbn in l. lra. }
  rewrite B.
  destruct (Beam2D_Total.xi_loop_total bsort _ plasma (fun _ => late_fields) late_cfg (new_source isort [late_part]) 6 bsort_ok) as (h1 & H1);
    [cbn; lra|cbn; lra|cbn; lra|cbn; lra|intros p Hp; cbn in Hp; destruct (Rlt_dec _ _); [destruct Hp|]; destruct Hp as [<-|[]]; cbn; lra|].
  destruct (Beam2D_Total.xi_loop_total bsort _ plasma (fun _ => late_fields) late_cfg (new_source isort []) 6 bsort_ok) as (h2 & H2);
    [cbn; lra|cbn; lra|cbn; lra|cbn; lra|intros p Hp; destruct Hp|].
  set (h := (h1 + h2)%nat).
  destruct (H1 h ltac:(lia) 1%nat 0%Z (repeat 0 6) (repeat 0 6) [] eq_refl) as (s1 & R1).
  destruct (H1 h ltac:(lia) 2%nat 0%Z (repeat 0 6) (repeat 0 6) [] eq_refl) as (s & R).
  destruct (H2 h ltac:(lia) 1%nat 1%Z (repeat 0 6) (repeat 0 6) (ls_plasma _ s1) eq_refl) as (s2 & R2).
  exists h, s1, s, s2. cbv zeta. split; [exact R1|]. split; [exact R|]. split; [exact R2|].
  assert (Hb : forall p, In p [late_part] -> xi p <= - (IZR 0 * xi_step late_cfg) /\ 0 <= rad p) by (intros p [<-|[]]; cbn; lra).
  destruct (C59_2d_plasma_sees_the_beam_layer_by_layer isort bsort _ plasma (fun _ => late_fields) h late_cfg 2 0 [late_part] (repeat 0 6) (repeat 0 6) [] s isort_ok ltac:(cbn; lra) ltac:(cbn; lra) ltac:(cbn; lra) Hb R) as (P & _).
  destruct (C59_2d_plasma_sees_the_beam_layer_by_layer isort bsort _ plasma (fun _ => late_fields) h late_cfg 1 1 [] (repeat 0 6) (repeat 0 6) (ls_plasma _ s1) s2 isort_ok ltac:(cbn; lra) ltac:(cbn; lra) ltac:(cbn; lra) (fun p (K : In p []) => match K with end) R2) as (P2 & _).
  rewrite P, P2. cbn [plasma_after wake map seq].
  unfold plasma_after. cbn [map seq wake]. unfold plasma. unfold density_row. cbn [List.length repeat seq map nth].
  unfold beam_density, layer_of. cbn [filter map]. split.
  - assert (I0 : in_xi_layer_top (xi_step late_cfg) 0 late_part = true).
    { unfold in_xi_layer_top. cbn [xi late_part]. destruct (Rle_dec _ _) as [|N]; [|exfalso; apply N; cbn; lra]. destruct (Rle_dec _ _) as [|N]; [|exfalso; apply N; cbn; lra]. reflexivity. }
    assert (I1 : in_xi_layer (xi_step late_cfg) (0 + Z.of_nat 1) late_part = false).
    { unfold in_xi_layer. cbn [xi late_part]. destruct (Rle_dec _ _); auto. destruct (Rlt_dec _ _) as [l|]; auto. exfalso. cbn in l. lra. }
    rewrite I0, I1. unfold cic_lower, cic_upper, bottom, ring_volume, hat. cbn [map sumR fresh pt q_norm xi rad nth repeat late_part late_cfg r_step xi_step]. 
    change (0 + Z.of_nat 0 + 1)%Z with 1%Z. cbn [INR].
    replace (1 / 1 - 1) with 0 by lra. rewrite Rabs_R0, Rmax_right by lra. lra.
  - unfold cic_lower, cic_upper, ring_volume. cbn. lra.
Qed.
Print Assumptions C62_2d_continuing_always_the_same_refuted.

(** The hypotheses of the positive theorem are met by a beam with a particle ahead and one behind the stop. *)
Definition far_part : part := mkPart (-3.9) 1 0 0 0 (1/3) 1 8%Z.
Example C62_2d_continuing_nonvacuous :
  let plasma := fun (_ r _ : list R) => r in let beam := [late_part; far_part] in
  nobody_just_ahead (xi_step late_cfg) (0 + Z.of_nat 3) 2 (map xi beam) /\ behind (xi_step late_cfg) (0 + Z.of_nat 3) beam = [far_part] /\
  exists halvings s1 s s2,
  xi_loop bsort _ plasma (fun _ => late_fields) halvings late_cfg 3 0 (mkLS _ (new_source isort beam) [] [] [] (repeat 0 6) (repeat 0 6) []) = Some s1 /\
  xi_loop bsort _ plasma (fun _ => late_fields) halvings late_cfg (3 + 3) 0 (mkLS _ (new_source isort beam) [] [] [] (repeat 0 6) (repeat 0 6) []) = Some s /\
  xi_loop bsort _ plasma (fun _ => late_fields) halvings late_cfg 3 (0 + Z.of_nat 3)
    (mkLS _ (new_source isort (behind (xi_step late_cfg) (0 + Z.of_nat 3) beam)) [] [] [] (repeat 0 6) (repeat 0 6) (ls_plasma _ s1)) = Some s2.
Proof.
  intros plasma beam.
  assert (B : behind (xi_step late_cfg) (0 + Z.of_nat 3) beam = [far_part]).
  { unfold behind, beam. cbn [filter]. destruct (Rlt_dec (xi late_part) _) as [l|]; [exfalso; cbn in l; lra|]. destruct (Rlt_dec _ _) as [|N]; auto. exfalso. apply N. cbn. lra. }
  split; [|split; [exact B|]].
  { intros x Hx. cbn in Hx. destruct Hx as [<-|[<-|[]]]; cbn; lra. }
  assert (T : forall b, (forall p, In p b -> In p beam) -> exists h0, forall h, (h0 <= h)%nat -> forall n i pl, exists s',
    xi_loop bsort _ plasma (fun _ => late_fields) h late_cfg n i (mkLS _ (new_source isort b) [] [] [] (repeat 0 6) (repeat 0 6) pl) = Some s').
  { intros b Hb. destruct (Beam2D_Total.xi_loop_total bsort _ plasma (fun _ => late_fields) late_cfg (new_source isort b) 6 bsort_ok) as (h1 & H1);
    [cbn; lra|cbn; lra|cbn; lra|cbn; lra| |exists h1; intros; now apply H1].
    intros p Hp. assert (Hp' : In p b).
    { apply (Permutation_in p (proj1 (isort_ok b))). unfold new_source in Hp. destruct (isort b) as [|p0 l] eqn:E; [destruct Hp|]. cbn [s_parts] in Hp.
      destruct (Rlt_dec _ _); auto. rewrite (app_removelast_last p0) by discriminate. apply in_or_app. now left. }
    apply Hb in Hp'. destruct Hp' as [<-|[<-|[]]]; cbn; lra. }
  destruct (T beam) as (h1 & H1); auto. destruct (T [far_part]) as (h2 & H2); [intros p [<-|[]]; cbn; auto|].
  rewrite B. exists (h1 + h2)%nat.
  destruct (H1 (h1 + h2)%nat ltac:(lia) 3%nat 0%Z []) as (s1 & R1). destruct (H1 (h1 + h2)%nat ltac:(lia) (3 + 3)%nat 0%Z []) as (s & R).
  destruct (H2 (h1 + h2)%nat ltac:(lia) 3%nat (0 + Z.of_nat 3)%Z (ls_plasma _ s1)) as (s2 & R2). eauto 10.
Qed.
