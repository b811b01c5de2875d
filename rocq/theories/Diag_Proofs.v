(** Proofs about diagnostics periods, rounding and the accumulate/dump machine. *)
From Coq Require Import Reals ZArith List Bool String Ascii Lra Lia Psatz.
From Verif Require Import Beam2D_Model Beam2D_Spec Beam2D_Free Beam2D_Ex Shape_Model Plasma2D_Model Plasma3D_Model Diag_Model Diag_Spec.
Import ListNotations.
Local Open Scope list_scope.
Local Open Scope R_scope.

(** ** Rounding *)
Lemma ne_spec x : Rabs (x - IZR (nearest_even x)) <= 1 / 2.
Proof.
  unfold nearest_even. pose proof (floorR_spec x). destruct (Rlt_dec _ _); [apply Rabs_le; lra|].
  destruct (Rlt_dec _ _); [rewrite plus_IZR; apply Rabs_le; lra|]. destruct (Z.even _); [apply Rabs_le; lra|rewrite plus_IZR; apply Rabs_le; lra].
Qed.
Lemma abs_lt_inv a b : Rabs a < b -> - b < a < b.
Proof. intros H. apply Rabs_def2 in H. lra. Qed.
Lemma abs_le_inv a b : Rabs a <= b -> - b <= a <= b.
Proof. intros H. unfold Rabs in H. destruct (Rcase_abs a); lra. Qed.
Lemma IZR_lt1 a b : IZR a < IZR b + 1 -> (a <= b)%Z.
Proof. intros H. assert (a < b + 1)%Z by (apply lt_IZR; rewrite plus_IZR; lra). lia. Qed.
Lemma ne_unique x n : Rabs (x - IZR n) < 1 / 2 -> nearest_even x = n.
Proof.
  intros H. pose proof (ne_spec x) as S. apply abs_lt_inv in H. apply abs_le_inv in S.
  apply Z.le_antisymm; apply IZR_lt1; lra.
Qed.
Lemma ne_int n : nearest_even (IZR n) = n.
Proof. apply ne_unique. replace (IZR n - IZR n) with 0 by ring. rewrite Rabs_R0. lra. Qed.
Lemma ne_half f : nearest_even (IZR f + 1 / 2) = if Z.even f then f else (f + 1)%Z.
Proof.
  unfold nearest_even. rewrite (floor_unique (IZR f + 1 / 2) f) by lra.
  destruct (Rlt_dec _ _); [lra|]. destruct (Rlt_dec _ _); [lra|]. reflexivity.
Qed.
Lemma ne_mono x y : x <= y -> (nearest_even x <= nearest_even y)%Z.
Proof.
  intros H. destruct (Req_dec x y) as [->|N]; [lia|].
  pose proof (abs_le_inv _ _ (ne_spec x)). pose proof (abs_le_inv _ _ (ne_spec y)). apply IZR_lt1. lra.
Qed.
Lemma ne_shift x n : Z.even n = true -> nearest_even (x + IZR n) = (nearest_even x + n)%Z.
Proof.
  intros E. unfold nearest_even. assert (F : floorR (x + IZR n) = (floorR x + n)%Z).
  { apply floor_unique. rewrite plus_IZR. pose proof (floorR_spec x). lra. }
  rewrite F, plus_IZR. replace (x + IZR n - (IZR (floorR x) + IZR n)) with (x - IZR (floorR x)) by ring.
  rewrite Z.even_add, E. destruct (Rlt_dec _ _); auto. destruct (Rlt_dec _ _); [lia|]. destruct (Z.even (floorR x)); simpl; lia.
Qed.

(** ** Periods *)
Lemma remainder_min x y n : 0 < y -> Rabs (py_remainder x y) <= Rabs (x - IZR n * y).
Proof.
  intros Hy. unfold py_remainder. set (m := nearest_even (x / y)). pose proof (ne_spec (x / y)) as S. fold m in S.
  assert (Ex : x = (x / y) * y) by (field; lra). 
  replace (x - IZR m * y) with ((x / y - IZR m) * y) by (rewrite Ex at 2; ring).
  replace (x - IZR n * y) with ((x / y - IZR n) * y) by (rewrite Ex at 2; ring).
  rewrite !Rabs_mult. apply Rmult_le_compat_r; [apply Rabs_pos|].
  destruct (Z.eq_dec n m) as [->|N]; [lra|].
  assert (1 <= Rabs (IZR n - IZR m)).
  { rewrite <- minus_IZR, <- abs_IZR. apply IZR_le. lia. }
  assert (Rabs (IZR n - IZR m) <= Rabs (x / y - IZR m) + Rabs (x / y - IZR n)).
  { replace (IZR n - IZR m) with ((x / y - IZR m) + - (x / y - IZR n)) by ring. eapply Rle_trans; [apply Rabs_triang|]. rewrite Rabs_Ropp. lra. }
  lra.
Qed.
Lemma condition_due P dt t : 0 < dt -> condition_check t (clamp_period P dt) dt = true <-> due P dt t.
Proof.
  intros Hdt. unfold condition_check, due. destruct P as [p|]; simpl.
  - assert (C : clamp_period (Every p) dt = Every (Rmax p dt)).
    { simpl. destruct (Rlt_dec p dt); [rewrite Rmax_right by lra|rewrite Rmax_left by lra]; reflexivity. }
    simpl in C. rewrite C. simpl. assert (0 < Rmax p dt) by (eapply Rlt_le_trans; [exact Hdt|apply Rmax_r]).
    destruct (Rle_dec _ _) as [L|L]; split; intros H1; try discriminate; auto.
    + exists (nearest_even (t / Rmax p dt)). exact L.
    + exfalso. destruct H1 as [n Hn]. apply L. eapply Rle_trans; [apply remainder_min; auto|exact Hn].
  - destruct (Rle_dec _ _); split; intros; try discriminate; auto; lra.
Qed.
Lemma condition_due_false P dt t : 0 < dt -> condition_check t (clamp_period P dt) dt = false <-> ~ due P dt t.
Proof. intros H. rewrite <- (condition_due P dt t H). destruct (condition_check _ _ _); split; congruence. Qed.

(** ** The machine *)
Lemma add_all_app es es' d : add_all (es ++ es') d = add_all es' (add_all es d).
Proof. unfold add_all. apply fold_left_app. Qed.
(** the values stored under a key, in order *)
Definition under (k : string) (es : list (string * arr)) : list arr := map snd (filter (fun e => String.eqb k (fst e)) es).
Lemma add_all_key es : forall d k, add_all es d k = d k ++ under k es.
Proof.
  induction es as [|[n v] es IH]; intros d k; unfold under; simpl; [now rewrite app_nil_r|].
  unfold add_all in *. simpl. rewrite IH. unfold add. destruct (String.eqb k n) eqn:E; simpl; [|reflexivity]. now rewrite <- app_assoc.
Qed.
Section Machine.
  Context {layer : Type}.
  Variable entries : R -> layer -> option (list (string * arr)).
  Variable P : period.
  Variable dt : R.
  Hypothesis Hdt : 0 < dt.
  Notation P' := (clamp_period P dt).

  Lemma after_layers_skip t ls s : is_output P' dt s t = false -> after_layers entries P' dt t ls s = Some s.
  Proof. intros H. induction ls; simpl; auto. unfold after_step_dxi. rewrite H. exact IHls. Qed.
  Lemma after_layers_take t ls : forall s s', is_output P' dt s t = true -> after_layers entries P' dt t ls s = Some s' ->
    exists ess, traverse (entries t) ls = Some ess /\ d_first s' = d_first s /\
      forall k, d_data s' k = d_data s k ++ List.concat (map (under k) ess).
  Proof.
    induction ls as [|l ls IH]; intros s s' H E; simpl in E.
    - inversion E; subst. exists []. simpl. repeat split. intros. now rewrite app_nil_r.
    - unfold after_step_dxi in E. rewrite H in E. destruct (entries t l) as [es|] eqn:El; simpl in E; [|discriminate].
      destruct (IH (mkD (d_first s) (add_all es (d_data s))) s') as (ess & T & F & D); auto.
      exists (es :: ess). simpl. rewrite El, T. split; [reflexivity|]. split; [exact F|]. intros k. rewrite D. simpl.
      rewrite add_all_key, <- app_assoc. reflexivity.
  Qed.
  Lemma after_layers_some t ls ess : forall s, traverse (entries t) ls = Some ess -> exists s', after_layers entries P' dt t ls s = Some s'.
  Proof.
    revert ess. induction ls as [|l ls IH]; intros ess s T; simpl in *; [eauto|].
    destruct (entries t l) as [es|] eqn:El; [|discriminate]. destruct (traverse (entries t) ls) as [r|] eqn:Er; [|discriminate].
    unfold after_step_dxi. rewrite El. destruct (is_output _ _ _ _); simpl; eauto.
  Qed.
  Lemma after_layers_fail t ls : forall s, is_output P' dt s t = true -> traverse (entries t) ls = None -> after_layers entries P' dt t ls s = None.
  Proof.
    induction ls as [|l ls IH]; intros s H T; simpl in *; [discriminate|]. unfold after_step_dxi. rewrite H.
    destruct (entries t l) as [es|] eqn:El; [simpl|reflexivity]. destruct (traverse (entries t) ls) as [r|] eqn:Er; [discriminate|]. apply IH; auto.
  Qed.

  Definition holds (step : R * list layer) (f : file) : Prop :=
    f_time f = fst step /\ exists ess, traverse (entries (fst step)) (snd step) = Some ess /\
      forall k, f_data f k = List.concat (map (under k) ess).

  Lemma run_files : forall steps b s' fs, diag_run entries P' dt steps (mkD b no_data) = Some (s', fs) ->
    exists outs, output_steps P dt b steps outs /\ Forall2 holds outs fs.
  Proof.
    induction steps as [|[t ls] r IH]; intros b s' fs E; simpl in E.
    - inversion E; subst. exists []. split; constructor.
    - unfold diag_step in E. destruct (after_layers entries P' dt t ls (mkD b no_data)) as [s1|] eqn:E1; simpl in E; [|discriminate].
      destruct (is_output P' dt (mkD b no_data) t) eqn:O.
      + destruct (after_layers_take _ _ _ _ O E1) as (ess & T & F & D). simpl in F, D.
        assert (DU : negb (d_first s1) && negb (condition_check t P' dt) = false).
        { rewrite F. unfold is_output in O. simpl in O. destruct b, (condition_check t P' dt); simpl in *; auto. }
        unfold dump in E. rewrite DU in E. simpl in E.
        destruct (diag_run entries P' dt r (mkD false no_data)) as [[s2 fs2]|] eqn:E2; simpl in E; [|discriminate].
        inversion E; subst. destruct (IH _ _ _ E2) as (outs & O2 & H2). exists ((t, ls) :: outs). split.
        * constructor; auto. unfold is_output in O. simpl in O. apply orb_prop in O. destruct O; [left; auto|right; apply condition_due; auto].
        * constructor; auto. split; [reflexivity|]. exists ess. split; [exact T|]. intros k. simpl. rewrite D. reflexivity.
      + rewrite (after_layers_skip _ _ _ O) in E1. inversion E1; subst. unfold is_output in O. simpl in O. apply orb_false_elim in O.
        destruct O as [-> C]. unfold dump in E. simpl in E. rewrite C in E. simpl in E.
        destruct (diag_run entries P' dt r (mkD false no_data)) as [[s2 fs2]|] eqn:E2; simpl in E; [|discriminate].
        inversion E; subst. destruct (IH _ _ _ E2) as (outs & O2 & H2). exists outs. split; auto. constructor; auto.
        apply condition_due_false; auto.
  Qed.
  Lemma output_total : forall (steps : list (R * list layer)) b, exists outs, output_steps P dt b steps outs.
  Proof.
    induction steps as [|[t ls] r IH]; intros b; [eexists; constructor|]. destruct (IH false) as (o & Ho).
    destruct b; [eexists; apply out_take; eauto|]. destruct (condition_check t P' dt) eqn:C.
    - eexists. apply out_take; eauto. right. now apply condition_due.
    - eexists. apply out_skip; eauto. now apply condition_due_false.
  Qed.
  Lemma output_unique : forall b (steps o1 : list (R * list layer)), output_steps P dt b steps o1 -> forall o2, output_steps P dt b steps o2 -> o1 = o2.
  Proof.
    induction 1; intros o2 H2; inversion H2; subst; auto.
    - f_equal. apply IHoutput_steps; auto.
    - destruct H; [discriminate|contradiction].
    - match goal with X : _ \/ _ |- _ => destruct X; [discriminate|contradiction] end.
  Qed.
  (** a run without exceptions exists when every layer of every output step can be read *)
  Lemma run_total : forall steps b outs, output_steps P dt b steps outs ->
    (forall t ls, In (t, ls) outs -> exists ess, traverse (entries t) ls = Some ess) ->
    exists s' fs, diag_run entries P' dt steps (mkD b no_data) = Some (s', fs).
  Proof.
    induction steps as [|[t ls] r IH]; intros b outs O H; [simpl; eauto|]. simpl. unfold diag_step.
    inversion O; subst.
    - destruct (H t ls ltac:(left; auto)) as (ess & T). destruct (after_layers_some _ _ _ (mkD b no_data) T) as (s1 & E1). rewrite E1. simpl.
      assert (OO : is_output P' dt (mkD b no_data) t = true).
      { unfold is_output. simpl. match goal with X : _ \/ due _ _ _ |- _ => destruct X as [->|D] end; auto. apply condition_due in D; auto. rewrite D. apply orb_true_r. }
      destruct (after_layers_take _ _ _ _ OO E1) as (ess' & T' & F & D). simpl in F.
      assert (DU : negb (d_first s1) && negb (condition_check t P' dt) = false).
      { rewrite F. unfold is_output in OO. simpl in OO. destruct b, (condition_check t P' dt); simpl in *; auto. }
      unfold dump. rewrite DU. simpl. destruct (IH false r') as (s' & fs & E2); auto. { intros; apply H. right; auto. }
      rewrite E2. simpl. eauto.
    - assert (OO : is_output P' dt (mkD false no_data) t = false) by (unfold is_output; simpl; now apply condition_due_false).
      rewrite (after_layers_skip _ _ _ OO). simpl. unfold dump. simpl. assert (C : condition_check t P' dt = false) by now apply condition_due_false.
      rewrite C. simpl. destruct (IH false outs) as (s' & fs & E2); auto. rewrite E2. simpl. eauto.
  Qed.
  Lemma run_fails : forall steps b outs, output_steps P dt b steps outs ->
    (exists t ls, In (t, ls) outs /\ traverse (entries t) ls = None) ->
    diag_run entries P' dt steps (mkD b no_data) = None.
  Proof.
    intros steps b outs O (t & ls & I & T). destruct (diag_run entries P' dt steps (mkD b no_data)) as [[s' fs]|] eqn:E; auto. exfalso.
    destruct (run_files _ _ _ _ E) as (o2 & O2 & F). rewrite (output_unique _ _ _ O _ O2) in I. clear - F I T.
    induction F; [contradiction|]. destruct I as [->|I]; auto. destruct H as (_ & ess & E & _). simpl in E. congruence.
  Qed.
End Machine.

(** ** Flags *)
Definition bitno (q : quantity) : Z :=
  match q with
  | qEx => 0 | qEy => 1 | qEz => 2 | qBx => 3 | qBy => 4 | qBz => 5 | qPhi => 6 | qne => 7 | qni => 8 | qrho_beam => 9
  | qSf => 10 | qdx => 11 | qdy => 12 | qdx_perp => 13 | qdy_perp => 14
  end.
Lemma bitno_inj q q' : bitno q = bitno q' -> q = q'.
Proof. destruct q, q'; simpl; intros; (reflexivity || discriminate). Qed.
Lemma code_bit q : code q = (2 ^ bitno q)%Z.
Proof. destruct q; reflexivity. Qed.
Lemma bitno_range q : (0 <= bitno q)%Z.
Proof. destruct q; simpl; lia. Qed.
Lemma asked_bit m q : asked m q = Z.testbit m (bitno q).
Proof.
  unfold asked. rewrite code_bit. pose proof (bitno_range q) as B. destruct (Z.testbit m (bitno q)) eqn:T.
  - apply negb_true_iff. apply Z.eqb_neq. intros E. apply (f_equal (fun z => Z.testbit z (bitno q))) in E.
    rewrite Z.land_spec, T, Z.pow2_bits_true, Z.bits_0 in E by auto. discriminate.
  - apply negb_false_iff. apply Z.eqb_eq. apply Z.bits_inj. intros i. rewrite Z.land_spec, Z.bits_0.
    destruct (Z.eq_dec i (bitno q)) as [->|N]; [now rewrite T|]. rewrite Z.pow2_bits_false by lia. apply andb_false_r.
Qed.
Lemma quantity_eq_dec (q q' : quantity) : {q = q'} + {q <> q'}.
Proof. decide equality. Qed.
Lemma asked_flags qs q : asked (flags qs) q = true <-> In q qs.
Proof.
  rewrite asked_bit. induction qs as [|a qs IH]; [simpl; rewrite Z.bits_0; split; [discriminate|contradiction]|].
  unfold flags in *. cbn [map fold_right]. rewrite Z.lor_spec, orb_true_iff, IH, code_bit. cbn [In].
  destruct (quantity_eq_dec a q) as [->|N].
  - rewrite Z.pow2_bits_true by apply bitno_range. tauto.
  - rewrite Z.pow2_bits_false; [split; intros [X|X]; try discriminate; try contradiction; auto|]. intros E. apply N. now apply bitno_inj.
Qed.

(** ** Entries of one layer *)
Lemma traverse_map {A B} (f : A -> option B) (g : A -> B) l : (forall a, In a l -> f a = Some (g a)) -> traverse f l = Some (map g l).
Proof. induction l; simpl; intros H; auto. rewrite H by auto. rewrite IHl by auto. reflexivity. Qed.
Lemma traverse_none {A B} (f : A -> option B) l a : In a l -> f a = None -> traverse f l = None.
Proof. induction l; simpl; intros I H; [contradiction|]. destruct I as [->|I]; [now rewrite H|]. destruct (f a0); auto. now rewrite IHl. Qed.
Lemma under_app k a b : under k (a ++ b) = under k a ++ under k b.
Proof. unfold under. rewrite filter_app, map_app. reflexivity. Qed.
Lemma under_none k es : (forall e, In e es -> fst e <> k) -> under k es = [].
Proof.
  induction es as [|[n v] es IH]; intros H; auto. unfold under in *. simpl. destruct (String.eqb_spec k n) as [->|N].
  - exfalso. apply (H (n, v)); simpl; auto.
  - apply IH. intros e He. apply H. now right.
Qed.
Lemma under_keyed {Q} (key : Q -> string) (val : Q -> arr) (l : list Q) (q : Q) : NoDup l -> (forall a b, key a = key b -> a = b) ->
  (In q l -> under (key q) (map (fun a => (key a, val a)) l) = [val q]) /\
  (~ In q l -> under (key q) (map (fun a => (key a, val a)) l) = []).
Proof.
  intros ND inj. induction ND as [|a l Ha ND IH]; simpl; [split; [contradiction|reflexivity]|]. unfold under in *. simpl.
  destruct (String.eqb_spec (key q) (key a)) as [E|E]; simpl; split; intros H.
  - apply inj in E. subst. f_equal. apply IH; auto.
  - exfalso. apply H. left. symmetry. auto.
  - apply IH. destruct H as [->|H]; [congruence|auto].
  - apply IH. tauto.
Qed.
Lemma all_nodup : NoDup all_quantities.
Proof. unfold all_quantities. repeat constructor; simpl; intuition discriminate. Qed.
Lemma all_in q : In q all_quantities.
Proof. destruct q; simpl; tauto. Qed.
Lemma filter_nodup {A} (f : A -> bool) l : NoDup l -> NoDup (filter f l).
Proof. induction 1; simpl; [constructor|]. destruct (f x); auto. constructor; auto. rewrite filter_In. tauto. Qed.
Lemma key3_inj a b : key3 a = key3 b -> a = b.
Proof. destruct a, b; simpl; intros; (reflexivity || discriminate). Qed.
Lemma key3_xi q : key3 q <> "xi"%string.
Proof. destruct q; discriminate. Qed.

Lemma amax_spec l m : amax l = Some m -> In m l /\ forall x, In x l -> x <= m.
Proof.
  revert m. induction l as [|a l IH]; intros m H; simpl in H; [discriminate|]. destruct (amax l) as [m'|] eqn:E.
  - inversion H; subst. destruct (IH _ eq_refl) as [A B]. split.
    + unfold Rmax. destruct (Rle_dec a m'); simpl; auto.
    + intros x [->|X]; [apply Rmax_l|]. eapply Rle_trans; [apply B; auto|apply Rmax_r].
  - destruct l; [|simpl in E; destruct (amax l); discriminate]. inversion H; subst. simpl. split; auto. intros x [->|[]]. lra.
Qed.
Lemma amax_some l : l <> [] -> exists m, amax l = Some m.
Proof. destruct l as [|a l]; [congruence|]. intros _. simpl. destruct (amax l); eauto. Qed.
Lemma max_abs_spec a m : max_abs a = Some m -> is_max_abs a m.
Proof.
  unfold max_abs. intros H. apply amax_spec in H. destruct H as [A B]. apply in_map_iff in A. destruct A as (x & E & X). split; [eauto|].
  intros y Hy. apply B. apply in_map. auto.
Qed.
Lemma max_abs_some a : List.concat a <> [] -> exists m, max_abs a = Some m.
Proof. intros H. apply amax_some. destruct (List.concat a); [congruence|discriminate]. Qed.
Lemma cut_length {A} f t (l : list A) : (f <= t)%nat -> (t <= List.length l)%nat -> List.length (cut f t l) = (t - f)%nat.
Proof. intros H1 H2. unfold cut. rewrite firstn_length, skipn_length. lia. Qed.
Lemma cut_nth {A} f t (l : list A) i d : (i < t - f)%nat -> nth i (cut f t l) d = nth (f + i) l d.
Proof.
  intros H. unfold cut. rewrite <- (firstn_skipn f l) at 2. destruct (le_lt_dec f (List.length l)) as [L|L].
  - rewrite app_nth2; rewrite firstn_length, Nat.min_l by auto; [|lia]. replace (f + i - f)%nat with i by lia.
    revert H. generalize (t - f)%nat as n. generalize (skipn f l) as s. clear. intros s n. revert i n. induction s; intros i n H; destruct n; try lia; simpl; destruct i; auto. apply IHs. lia.
  - rewrite (skipn_all2 l) by lia. rewrite app_nil_r, firstn_nil. rewrite firstn_all2 by lia. rewrite !nth_overflow; simpl; auto; lia.
Qed.
Lemma central_spec a : square a -> is_central a (central a).
Proof.
  intros S. unfold is_central, central. set (a1 := (List.length a / 6)%nat).
  assert (L : (5 * a1 <= List.length a)%nat). { pose proof (Nat.mul_div_le (List.length a) 6 ltac:(lia)). fold a1 in H. lia. }
  assert (LC : List.length (cut a1 (5 * a1) a) = (4 * a1)%nat) by (rewrite cut_length by lia; lia).
  split; [rewrite map_length; exact LC|]. intros i Hi.
  assert (N : nth i (map (cut a1 (5 * a1)) (cut a1 (5 * a1) a)) [] = cut a1 (5 * a1) (nth (a1 + i) a [])).
  { rewrite (nth_indep _ [] (cut a1 (5 * a1) [])) by (rewrite map_length, LC; auto). rewrite map_nth. f_equal. apply cut_nth. lia. }
  rewrite N. assert (R' : List.length (nth (a1 + i) a []) = List.length a) by (apply S, nth_In; lia).
  split; [rewrite cut_length; lia|]. intros j Hj. apply cut_nth. lia.
Qed.
Lemma central_nonempty a : square a -> (6 <= List.length a)%nat -> List.concat (central a) <> [].
Proof.
  intros S H. pose proof (central_spec a S) as [L C]. cbv zeta in L, C. set (a1 := (List.length a / 6)%nat) in *.
  assert (A1 : (1 <= a1)%nat). { unfold a1. apply Nat.div_le_lower_bound; lia. }
  destruct (C 0%nat ltac:(lia)) as [L0 _]. clearbody a1. clear C. destruct (central a) as [|r c]; cbn [List.length nth List.concat] in *; [lia|]. destruct r; cbn [List.length] in *; [lia|discriminate].
Qed.
Lemma np_index_in n i : on_axis n i -> np_index n i = Some i.
Proof. intros [A B]. unfold np_index. destruct (Z.leb_spec 0 i); [|lia]. destruct (Z.ltb_spec i n); [reflexivity|lia]. Qed.
Lemma read3_in n g ax : (forall c, In c ax -> on_axis n (fst c) /\ on_axis n (snd c)) -> read3 n g ax = Some [map (fun c => g (fst c) (snd c)) ax].
Proof.
  intros H. unfold read3. rewrite (traverse_map _ (fun c => g (fst c) (snd c))); [reflexivity|]. intros c Hc. destruct (H c Hc). now rewrite !np_index_in.
Qed.
Lemma read2_in n g ax : (forall c, In c ax -> on_axis n c) -> read2 n g ax = Some [map g ax].
Proof. intros H. unfold read2. rewrite (traverse_map _ g); [reflexivity|]. intros c Hc. now rewrite np_index_in by auto. Qed.

(** a layer the 3D diagnostics can read *)
Definition readable3 (cells : list (Z * Z)) (l : layer3) : Prop :=
  (forall c, In c cells -> on_axis (l3_steps l) (fst c) /\ on_axis (l3_steps l) (snd c)) /\
  square (l3_chx l) /\ square (l3_chy l) /\ (6 <= List.length (l3_chx l))%nat /\ (6 <= List.length (l3_chy l))%nat.
Lemma concat_nonempty (a : list (list R)) : square a -> (6 <= List.length a)%nat -> List.concat a <> [].
Proof.
  intros S H. destruct a as [|r a]; simpl in *; [lia|]. pose proof (S r ltac:(simpl; auto)). simpl in H0. destruct r; simpl in *; [lia|discriminate].
Qed.
Definition val3 (h : R) (ax : list (Z * Z)) (l : layer3) (q : quantity) : arr := match process3 h ax q l with Some (_, v) => v | None => [] end.
Lemma process3_spec h ax q l : readable3 ax l -> process3 h ax q l = Some (key3 q, val3 h ax l q) /\ stored3 h ax q l (val3 h ax l q).
Proof.
  intros (C & SX & SY & NX & NY). unfold val3.
  assert (A : exists v, process3 h ax q l = Some (key3 q, v) /\ stored3 h ax q l v).
  { destruct (max_abs_some _ (concat_nonempty _ SX NX)) as (mx & EX). destruct (max_abs_some _ (concat_nonempty _ SY NY)) as (my & EY).
    destruct (max_abs_some _ (central_nonempty _ SX NX)) as (cx & FX). destruct (max_abs_some _ (central_nonempty _ SY NY)) as (cy & FY).
    destruct q; simpl; rewrite ?read3_in by exact C; simpl; try (eexists; split; [reflexivity|eexists; split; reflexivity]).
    - rewrite EX. simpl. eexists; split; [reflexivity|]. exists mx. split; [now apply max_abs_spec|reflexivity].
    - rewrite EY. simpl. eexists; split; [reflexivity|]. exists my. split; [now apply max_abs_spec|reflexivity].
    - rewrite FX. simpl. eexists; split; [reflexivity|]. exists cx, (central (l3_chx l)). split; [now apply central_spec|]. split; [now apply max_abs_spec|reflexivity].
    - rewrite FY. simpl. eexists; split; [reflexivity|]. exists cy, (central (l3_chy l)). split; [now apply central_spec|]. split; [now apply max_abs_spec|reflexivity]. }
  destruct A as (v & E & S). rewrite E. auto.
Qed.
Lemma entries3_spec qs h ax l : readable3 ax l -> exists es, entries3 (flags qs) h ax l = Some es /\
  under "xi" es = [scalar (l3_xi l)] /\
  forall q, (In q qs -> under (key3 q) es = [val3 h ax l q]) /\ (~ In q qs -> under (key3 q) es = []).
Proof.
  intros H. unfold entries3. rewrite (traverse_map _ (fun q => (key3 q, val3 h ax l q))) by (intros; now apply process3_spec).
  eexists. split; [reflexivity|]. split.
  - rewrite under_app, under_none; [reflexivity|]. intros e He. apply in_map_iff in He. destruct He as (q & <- & _). apply key3_xi.
  - intros q. rewrite under_app.
    assert (X : under (key3 q) [("xi"%string, scalar (l3_xi l))] = []). { apply under_none. intros e [<-|[]]. simpl. intros E. exact (key3_xi q (eq_sym E)). }
    rewrite X, app_nil_r.
    destruct (under_keyed key3 (val3 h ax l) (filter (asked (flags qs)) all_quantities) q (filter_nodup _ _ all_nodup) key3_inj) as [A B].
    split; intros I; [apply A|apply B]; rewrite filter_In, asked_flags; [split; auto; apply all_in|tauto].
Qed.

(** 2D *)
Definition readable2 (ax : list Z) (l : layer2) : Prop := forall c, In c ax -> on_axis (l2_n l) c.
Lemma process2_spec ax q l : readable2 ax l -> supported2 q ->
  process2 ax q l = Some (match key2 q with Some k => Some (k, [map (field2_of q l) ax]) | None => None end).
Proof. intros H S. destruct q; simpl in *; try contradiction; rewrite ?read2_in by exact H; reflexivity. Qed.
Definition opt_list {A} (o : option A) : list A := match o with Some x => [x] | None => [] end.
Lemma key2_inj a b k : key2 a = Some k -> key2 b = Some k -> a = b.
Proof. destruct a, b; simpl; intros A B; (reflexivity || congruence). Qed.
Lemma key2_xi q : key2 q <> Some "xi"%string.
Proof. destruct q; discriminate. Qed.
Lemma under_opt (key : quantity -> option string) (val : quantity -> arr) (l : list quantity) q k : NoDup l -> (forall a b k, key a = Some k -> key b = Some k -> a = b) -> key q = Some k ->
  let es := List.concat (map (fun a => opt_list (match key a with Some k => Some (k, val a) | None => None end)) l) in
  (In q l -> under k es = [val q]) /\ (~ In q l -> under k es = []).
Proof.
  intros ND inj K es. unfold es. induction ND as [|a l Ha ND IH]; [split; [contradiction|reflexivity]|]. cbn [map List.concat]. rewrite under_app.
  destruct (quantity_eq_dec a q) as [->|N].
  - rewrite K. cbn [opt_list]. unfold under at 1 3. simpl. rewrite String.eqb_refl. simpl. split; intros H; [|exfalso; apply H; simpl; auto].
    f_equal. apply IH. auto.
  - assert (E : under k (opt_list (match key a with Some k => Some (k, val a) | None => None end)) = []).
    { apply under_none. intros e He. destruct (key a) as [ka|] eqn:Ea; simpl in He; [|contradiction]. destruct He as [<-|[]]. simpl. intros ->. apply N. eapply inj; eauto. }
    rewrite E. simpl app. simpl In. split; intros H; apply IH; tauto.
Qed.
Lemma entries2_spec qs ax l : readable2 ax l -> (forall q, In q qs -> supported2 q) -> exists es, entries2 (flags qs) ax l = Some es /\
  under "xi" es = [scalar (l2_xi l)] /\
  forall q k, key2 q = Some k -> (In q qs -> under k es = [[map (field2_of q l) ax]]) /\ (~ In q qs -> under k es = []).
Proof.
  intros H S. unfold entries2.
  rewrite (traverse_map _ (fun q => match key2 q with Some k => Some (k, [map (field2_of q l) ax]) | None => None end)).
  2:{ intros q Hq. apply filter_In in Hq. destruct Hq as [_ Hq]. apply process2_spec; auto. apply S. now apply asked_flags. }
  eexists. split; [reflexivity|]. rewrite map_map.
  split.
  - rewrite under_app, under_none; [reflexivity|]. intros e He. apply in_concat in He. destruct He as (x & Hx & He). apply in_map_iff in Hx. destruct Hx as (q & <- & _).
    destruct (key2 q) as [k|] eqn:K; [|contradiction]. destruct He as [<-|[]]. simpl. intros ->. exact (key2_xi q K).
  - intros q k K. rewrite under_app.
    assert (X : under k [("xi"%string, scalar (l2_xi l))] = []). { apply under_none. intros e [<-|[]]. simpl. intros <-. exact (key2_xi q K). }
    rewrite X, app_nil_r.
    destruct (under_opt key2 (fun q => [map (field2_of q l) ax]) (filter (asked (flags qs)) all_quantities) q k (filter_nodup _ _ all_nodup) key2_inj K) as [A B].
    unfold opt_list in A, B. split; intros I; [apply A|apply B]; rewrite filter_In, asked_flags; [split; auto; apply all_in|tauto].
Qed.
Lemma entries2_unsupported qs ax l q : readable2 ax l -> In q qs -> ~ supported2 q -> entries2 (flags qs) ax l = None.
Proof.
  intros H I U. unfold entries2. rewrite (traverse_none _ _ q); [reflexivity| |].
  - apply filter_In. split; [apply all_in|now apply asked_flags].
  - destruct q; simpl in *; tauto.
Qed.

(** contents of files when every layer can be read *)
Lemma holds_layers {layer} (entries : R -> layer -> option (list (string * arr))) t ls f (spec : layer -> list (string * arr) -> Prop) :
  holds entries (t, ls) f -> (forall l, In l ls -> exists es, entries t l = Some es /\ spec l es) ->
  exists ess, Forall2 spec ls ess /\ forall k, f_data f k = List.concat (map (under k) ess).
Proof.
  intros (_ & ess & T & D) H. exists ess. split; [|exact D]. simpl in T. clear D. revert ess T. induction ls as [|l ls IH]; intros ess T; simpl in T.
  - inversion T. constructor.
  - destruct (H l ltac:(simpl; auto)) as (es & E & S). rewrite E in T. destruct (traverse (entries t) ls) as [r|] eqn:Er; [|discriminate].
    inversion T; subst. constructor; auto. apply IH; auto. intros l' Hl'. apply H. now right.
Qed.
Lemma traverse_total {layer} (entries : R -> layer -> option (list (string * arr))) t ls : (forall l, In l ls -> exists es, entries t l = Some es) -> exists ess, traverse (entries t) ls = Some ess.
Proof.
  induction ls as [|l ls IH]; intros H; simpl; [eauto|]. destruct (H l ltac:(simpl; auto)) as (es & ->). destruct IH as (ess & ->); [intros; apply H; simpl; auto|]. eauto.
Qed.
Lemma concat_single {A} (ls : list A) ess (k : string) (v : A -> arr) :
  Forall2 (fun l es => under k es = [v l]) ls ess -> List.concat (map (under k) ess) = map v ls.
Proof. induction 1; simpl; auto. rewrite H, IHForall2. reflexivity. Qed.
Lemma concat_empty {A} (ls : list A) ess (k : string) : Forall2 (fun l es => under k es = []) ls ess -> List.concat (map (under k) ess) = [].
Proof. induction 1; simpl; auto. now rewrite H, IHForall2. Qed.
Lemma outs_incl {layer} P dt b (steps outs : list (R * list layer)) : output_steps P dt b steps outs -> incl outs steps.
Proof. induction 1; intros x; simpl; auto. intros [->|]; auto. Qed.
Lemma Forall2_impl' {A B} (P Q : A -> B -> Prop) l l' : Forall2 P l l' -> (forall a b, In a l -> P a b -> Q a b) -> Forall2 Q l l'.
Proof. induction 1; intros H'; constructor; [apply H'; simpl; auto|apply IHForall2; intros; apply H'; simpl; auto]. Qed.
