(** Lemmas for C77. *)
From Coq Require Import Reals ZArith List Bool String Lra Lia.
From Verif Require Import Beam2D_Model Beam2D_Spec Shape_Model Plasma2D_Model Plasma3D_Model Diag_Model Diag_Spec Diag_Proofs Diag3D_Model Diag3D_Spec.
Import ListNotations.
Local Open Scope list_scope.
Local Open Scope R_scope.

Section General.
  Context {layer : Type}.
  Variable P : period.
  Variable dt : R.
  Hypothesis Hdt : 0 < dt.
  Variable kp : layer -> bool.
  Variable keeps : R -> layer -> bool.
  Variable entries : layer -> option (list (string * arr)).
  Variable ent : layer -> list (string * arr).
  Variables saves again : layer -> bool.
  Variable output : R -> bool.
  Variable pack : data -> option data.
  Variable pk : data -> data.
  Variable writes : layer -> nat -> Prop.
  Hypothesis Hout : forall t, output t = true <-> due P dt t.
  Hypothesis Hkeeps : forall t l, keeps t l = output t && kp l.
  Hypothesis Hwrites : forall l, writes l ((if saves l then 1 else 0) + (if again l then 1 else 0))%nat.
  Definition dat (ls : list layer) : data := add_all (List.concat (map ent (filter kp ls))) no_data.
  Lemma dat_snoc ls l : dat (ls ++ [l]) = if kp l then add_all (ent l) (dat ls) else dat ls.
  Proof.
    unfold dat. rewrite filter_app. simpl. destruct (kp l); [|now rewrite app_nil_r].
    rewrite map_app, concat_app. simpl. now rewrite app_nil_r, add_all_app.
  Qed.
  Definition file_of (t : R) (ls : list layer) : file := mkF t (pk (dat ls)).
  Notation recs := (record_all keeps entries saves again output pack).
  Lemma record_skip t ls s : output t = false -> recs t ls s = Some s.
  Proof.
    intros O. destruct s as [d ws]. induction ls as [|l ls IH]; [reflexivity|]. simpl. unfold record, write. rewrite Hkeeps, O. simpl.
    destruct (saves l), (again l); exact IH.
  Qed.
  Lemma record_due t : output t = true -> forall ls seen ws,
    (forall l, In l ls -> kp l = true -> entries l = Some (ent l)) ->
    (forall a b, ls = a ++ b -> a <> [] -> pack (dat (seen ++ a)) = Some (pk (dat (seen ++ a)))) ->
    exists ps, midway writes seen ls ps /\ recs t ls (dat seen, ws) = Some (dat (seen ++ ls), ws ++ map (file_of t) ps).
  Proof.
    intros O. induction ls as [|l ls IH]; intros seen ws He Hp.
    - exists []. split; [constructor|]. simpl. now rewrite !app_nil_r.
    - assert (Hl : pack (dat (seen ++ [l])) = Some (pk (dat (seen ++ [l])))) by (apply (Hp [l] ls); [reflexivity|discriminate]).
      set (k := ((if saves l then 1 else 0) + (if again l then 1 else 0))%nat).
      destruct (IH (seen ++ [l]) (ws ++ repeat (file_of t (seen ++ [l])) k)) as (ps & M & E).
      { intros; apply He; simpl; auto. }
      { intros a b E N. rewrite <- app_assoc. apply (Hp (l :: a) b); [now rewrite E|discriminate]. }
      exists (repeat (seen ++ [l]) k ++ ps). split; [constructor; [apply Hwrites|exact M]|].
      simpl. unfold record at 1, write. cbn [fst snd]. rewrite Hkeeps, O. cbn [andb].
      assert (D : (if kp l then option_map (fun es => add_all es (dat seen)) (entries l) else Some (dat seen)) = Some (dat (seen ++ [l]))).
      { rewrite dat_snoc. destruct (kp l) eqn:K; [|reflexivity]. rewrite He; simpl; auto. }
      rewrite D. rewrite <- app_assoc in E. simpl in E. unfold k in E. rewrite map_app. unfold k. unfold file_of in *. revert E.
      destruct (saves l), (again l); rewrite ?Hl; cbn [option_map Nat.add repeat map app]; rewrite <- ?app_assoc; cbn [app]; rewrite ?app_nil_r; intros E; rewrite E; try reflexivity;
        rewrite <- ?app_assoc; reflexivity.
  Qed.
  Notation run := (record_run keeps entries saves again output pack).
  Lemma run_writes : forall steps ws,
    (forall t ls, In (t, ls) steps -> due P dt t -> (forall l, In l ls -> kp l = true -> entries l = Some (ent l)) /\
       forall a b, ls = a ++ b -> (a <> [] \/ b = []) -> pack (dat a) = Some (pk (dat a))) ->
    exists outs, written P dt writes steps outs /\ run steps (no_data, ws) = Some (no_data, ws ++ map (fun w => file_of (fst w) (snd w)) outs).
  Proof.
    induction steps as [|[t ls] steps IH]; intros ws H.
    - exists []. split; [constructor|]. simpl. now rewrite app_nil_r.
    - assert (H' : forall t' ls', In (t', ls') steps -> due P dt t' -> (forall l, In l ls' -> kp l = true -> entries l = Some (ent l)) /\
        forall a b, ls' = a ++ b -> (a <> [] \/ b = []) -> pack (dat a) = Some (pk (dat a))) by (intros; apply (H t' ls'); simpl; auto).
      destruct (output t) eqn:O.
      + assert (D : due P dt t) by now apply Hout. destruct (H t ls ltac:(simpl; auto) D) as (He & Hp).
        destruct (record_due t O ls [] ws He) as (ps & M & E). { intros a b Ea Na. apply (Hp a b); auto. }
        cbn [app] in E. change (dat []) with no_data in E.
        destruct (IH ((ws ++ map (file_of t) ps) ++ [file_of t ls]) H') as (outs & W & E').
        exists (map (pair t) (ps ++ [ls]) ++ outs). split; [now constructor|].
        simpl. unfold record_step. rewrite E. unfold write. rewrite O. rewrite (Hp ls []) by (rewrite ?app_nil_r; auto). cbn [option_map].
        unfold file_of in E' at 2. rewrite E'. rewrite map_app, map_map, map_app. cbn [fst snd map]. rewrite <- !app_assoc. reflexivity.
      + assert (D : ~ due P dt t) by (intros D; apply Hout in D; congruence).
        destruct (IH ws H') as (outs & W & E'). exists outs. split; [now constructor|]. simpl. unfold record_step. rewrite record_skip by auto. unfold write. rewrite O.
        cbn [option_map]. exact E'.
  Qed.
  (** an output step that cannot be packed stops the run *)
  Lemma run_fails t ls steps s : output t = true -> (forall d, pack d = None) -> run ((t, ls) :: steps) s = None.
  Proof.
    intros O N. simpl. unfold record_step. destruct (recs t ls s) as [[d ws]|]; [|reflexivity]. unfold write. rewrite O, N. reflexivity.
  Qed.
End General.

(** the last write covers every layer that is written midway *)
Lemma midway_reach {layer} (writes : layer -> nat -> Prop) : forall seen ls ps, midway writes seen ls ps -> forall a l b, ls = a ++ l :: b ->
  (forall n, writes l n -> n <> 0%nat) -> exists qs c d, ps = qs ++ [seen ++ a ++ l :: c] /\ b = c ++ d.
Proof.
  induction 1 as [|seen l0 r n ps W M IH]; intros a l b E N; [destruct a; discriminate|].
  destruct a as [|x a]; simpl in E; injection E as -> ->.
  - specialize (N n W). clear IH. destruct ps as [|p ps] using rev_ind.
    + exists (repeat (seen ++ [l]) (n - 1)), [], b. split; [|reflexivity]. rewrite app_nil_r. replace n with (n - 1 + 1)%nat at 1 by lia. rewrite repeat_app. reflexivity.
    + assert (Q : forall seen' r' ps', midway writes seen' r' ps' -> forall ps'' p', ps' = ps'' ++ [p'] -> exists c d, p' = seen' ++ c /\ r' = c ++ d).
      { clear. induction 1 as [|s l r n ps W M IH]; intros ps'' p' E; [destruct ps''; discriminate|].
        destruct ps as [|q ps] using rev_ind.
        - rewrite app_nil_r in E. assert (I : In p' (repeat (s ++ [l]) n)) by (rewrite E, in_app_iff; simpl; auto). apply repeat_spec in I. exists [l], r. split; auto.
        - clear IHps. rewrite app_assoc in E. apply app_inj_tail in E. destruct E as [_ ->]. destruct (IH ps p' eq_refl) as (c & d & -> & ->).
          exists (l :: c), d. rewrite <- app_assoc. split; reflexivity. }
      destruct (Q _ _ _ M ps p eq_refl) as (c & d & -> & ->). exists (repeat (seen ++ [l]) n ++ ps), c, d. split; [|reflexivity].
      rewrite <- !app_assoc. reflexivity.
  - destruct (IH a l b eq_refl N) as (qs & c & d & -> & ->). exists (repeat (seen ++ [x]) n ++ qs), c, d. split; [|reflexivity]. rewrite <- !app_assoc. reflexivity.
Qed.

Lemma in_concat_under {A} (ent : A -> list (string * arr)) k ls : under k (List.concat (map ent ls)) = List.concat (map (fun l => under k (ent l)) ls).
Proof. induction ls as [|l ls IH]; [reflexivity|]. simpl. now rewrite under_app, IH. Qed.
Lemma dat_key {layer} (kp : layer -> bool) ent ls k : dat kp ent ls k = List.concat (map (fun l => under k (ent l)) (filter kp ls)).
Proof. unfold dat. rewrite add_all_key, in_concat_under. reflexivity. Qed.
Lemma concat_sing {A} (v : A -> arr) ls : List.concat (map (fun l => [v l]) ls) = map v ls.
Proof. induction ls; simpl; congruence. Qed.
Lemma concat_nil {A B} (ls : list A) : List.concat (map (fun _ => @nil B) ls) = [].
Proof. induction ls; auto. Qed.

(** names *)
Lemma name_key q : name3 q = key3 q.
Proof. destruct q; reflexivity. Qed.
Lemma of_key q : of_name (key3 q) = Some q.
Proof. destruct q; reflexivity. Qed.
Lemma of_name_key name q : of_name name = Some q -> name = key3 q.
Proof. unfold of_name. intros H. apply find_some in H. destruct H as [_ H]. apply String.eqb_eq in H. rewrite <- name_key. auto. Qed.
Definition named (val : quantity -> arr) (name : string) : list (string * arr) := match of_name name with Some q => [(key3 q, val q)] | None => [] end.
Lemma under_named val k names : under k (List.concat (map (named val) names)) =
  List.concat (map (fun name => match of_name name with Some q => if String.eqb k name then [val q] else [] | None => [] end) names).
Proof.
  rewrite in_concat_under. f_equal. apply map_ext. intros name. unfold named. destruct (of_name name) as [q|] eqn:E; [|reflexivity].
  apply of_name_key in E. subst. unfold under. simpl. destruct (String.eqb k (key3 q)); reflexivity.
Qed.
Lemma under_named_in val q names : NoDup names -> In (key3 q) names -> under (key3 q) (List.concat (map (named val) names)) = [val q].
Proof.
  intros ND I. rewrite under_named. induction ND as [|n names N ND IH]; [contradiction|]. simpl.
  destruct I as [->|I].
  - rewrite of_key, String.eqb_refl. simpl. f_equal. replace (map _ names) with (map (fun _ : string => @nil arr) names); [apply concat_nil|].
    apply map_ext_in. intros x Hx. destruct (of_name x) as [q'|]; [|reflexivity]. destruct (String.eqb_spec (key3 q) x); [subst; contradiction|reflexivity].
  - rewrite IH by auto. destruct (of_name n) as [q'|]; [|reflexivity]. destruct (String.eqb_spec (key3 q) n); [subst; contradiction|reflexivity].
Qed.
Lemma under_named_out val k names : (forall q, k = key3 q -> ~ In k names) -> under k (List.concat (map (named val) names)) = [].
Proof.
  intros H. rewrite under_named. replace (map _ names) with (map (fun _ : string => @nil arr) names); [apply concat_nil|].
  apply map_ext_in. intros x Hx. destruct (of_name x) as [q'|] eqn:E; [|reflexivity]. apply of_name_key in E. destruct (String.eqb_spec k x); [|reflexivity]. subst. exfalso. eapply H; eauto.
Qed.

(** ** DiagnosticsFXi *)
Definition fx_ent (c : fx) (l : layer3) : list (string * arr) :=
  ("xi"%string, scalar (l3_xi l)) :: List.concat (map (named (val3 (x_h c) (x_cells c) l)) (x_names c)).
Lemma fx_entries_ok c l : readable3 (x_cells c) l -> fx_entries c l = Some (fx_ent c l).
Proof.
  intros Hr. unfold fx_entries, fx_ent. rewrite (traverse_map _ (named (val3 (x_h c) (x_cells c) l))); [reflexivity|].
  intros name _. unfold named. destruct (of_name name) as [q|] eqn:E; [|reflexivity].
  destruct (process3_spec (x_h c) (x_cells c) q l Hr) as [-> _]. reflexivity.
Qed.
Lemma under_xi_cons k v es : k <> "xi"%string -> under k (("xi"%string, v) :: es) = under k es.
Proof. intros N. unfold under. simpl. destruct (String.eqb_spec k "xi"%string); [contradiction|reflexivity]. Qed.
Lemma under_named_xi val names : under "xi"%string (List.concat (map (named val) names)) = [].
Proof. apply under_named_out. intros q E. exfalso. now apply (key3_xi q). Qed.
Lemma under_xi v val names : under "xi"%string (("xi"%string, v) :: List.concat (map (named val) names)) = [v].
Proof. change (under "xi" (("xi"%string, v) :: List.concat (map (named val) names))) with (v :: under "xi" (List.concat (map (named val) names))). now rewrite under_named_xi. Qed.
Lemma filter_true {A} (l : list A) : filter (fun _ => true) l = l.
Proof. induction l; simpl; congruence. Qed.
Lemma fx_file c t ls : NoDup (x_names c) -> (forall l, In l ls -> readable3 (x_cells c) l) ->
  line_file (x_names c) (x_h c) (x_cells c) (t, ls) (file_of (fun _ => true) (fx_ent c) (fun d => d) t ls).
Proof.
  intros ND Hr. unfold line_file, file_of. cbn [f_time f_data fst snd]. split; [reflexivity|]. split; [|split].
  - rewrite dat_key, filter_true. unfold fx_ent. rewrite (map_ext _ (fun l => [scalar (l3_xi l)])) by (intros; apply under_xi). apply concat_sing.
  - intros q Hq. rewrite dat_key, filter_true. unfold fx_ent.
    rewrite (map_ext _ (fun l => [val3 (x_h c) (x_cells c) l q])).
    2:{ intros l. rewrite under_xi_cons by apply key3_xi. now apply under_named_in. }
    rewrite concat_sing. clear ND Hq. induction ls as [|l ls IH]; simpl; constructor; [apply process3_spec; apply Hr; simpl; auto|apply IH; intros; apply Hr; simpl; auto].
  - intros k N Hk. rewrite dat_key, filter_true. unfold fx_ent. rewrite (map_ext _ (fun _ => [])); [apply concat_nil|].
    intros l. rewrite under_xi_cons by auto. now apply under_named_out.
Qed.
Lemma fx_saving c l : 0 < x_dxi c -> saving (x_S c) (x_dxi c) l ((if fx_saves c l then 1 else 0) + (if (fun _ : layer3 => false) l then 1 else 0))%nat.
Proof.
  intros H. unfold saving, fx_saves. destruct (condition_check (l3_xi l) (clamp_period (x_S c) (x_dxi c)) (x_dxi c)) eqn:E.
  - left. split; [reflexivity|]. now apply condition_due.
  - right. split; [reflexivity|]. now apply condition_due_false.
Qed.

(** ** DiagnosticsColormaps *)
Lemma chunks_rows w : forall rows : list (list R), (forall r, In r rows -> List.length r = w) -> chunks (List.length rows) w (List.concat rows) = rows.
Proof.
  induction rows as [|r rows IH]; intros H; [reflexivity|]. simpl. assert (L : List.length r = w) by (apply H; simpl; auto).
  rewrite firstn_app, skipn_app, L, Nat.sub_diag. simpl. rewrite <- L, firstn_all, skipn_all, app_nil_r. simpl. rewrite L. rewrite IH by (intros; apply H; simpl; auto). reflexivity.
Qed.
Lemma concat_len w : forall rows : list (list R), (forall r, In r rows -> List.length r = w) -> List.length (List.concat rows) = (List.length rows * w)%nat.
Proof. induction rows as [|r rows IH]; intros H; [reflexivity|]. simpl. rewrite app_length, IH by (intros; apply H; simpl; auto). rewrite (H r) by (simpl; auto). reflexivity. Qed.
Lemma np_rows_id w (rows : list (list R)) : rows <> [] -> (forall r, In r rows -> List.length r = w) ->
  np_rows (List.length rows) (map (fun r => [r]) rows) = Some (map (fun r => [r]) rows).
Proof.
  intros N H. unfold np_rows. assert (E : List.concat (List.concat (map (fun r : list R => [r]) rows)) = List.concat rows).
  { clear. induction rows as [|r rows IH]; [reflexivity|]. simpl. now rewrite IH. }
  rewrite E, (concat_len w) by auto. destruct (List.length rows) as [|k] eqn:L; [destruct rows; [congruence|discriminate]|].
  rewrite Nat.mul_comm, Nat.mod_mul by lia. simpl Nat.eqb. cbv iota. rewrite Nat.div_mul by lia. rewrite <- L. rewrite (chunks_rows w) by auto. reflexivity.
Qed.
Definition cm_cells (c : cm) : list Z := np_slice (m_n c) (cm_from c) (cm_to c).
Definition cm_val (c : cm) (l : layer3) (q : quantity) : arr := [map (fun j => field3 q l (m_n c / 2)%Z j) (cm_cells c)].
Definition cm_ent (c : cm) (l : layer3) : list (string * arr) := ("xi"%string, scalar (l3_xi l)) :: List.concat (map (named (cm_val c l)) (m_names c)).
Definition on_grid_names (names : list string) : Prop := forall name, In name names -> name <> "y_offt"%string /\ name <> "y_plasma_particles"%string.
Lemma half_in n : (0 < n)%Z -> on_axis n (n / 2).
Proof. intros H. unfold on_axis. split; [apply Z.div_pos; lia|apply Z.div_lt_upper_bound; lia]. Qed.
Lemma cm_entries_ok c l : (0 < m_n c)%Z -> on_grid_names (m_names c) -> cm_entries c l = Some (cm_ent c l).
Proof.
  intros Hn Hg. unfold cm_entries, cm_ent. rewrite (traverse_map _ (named (cm_val c l))); [reflexivity|].
  intros name I. destruct (Hg name I) as [A B]. unfold cm_entry, named, mem. cbn [existsb].
  destruct (String.eqb_spec name "y_offt"%string); [contradiction|]. destruct (String.eqb_spec name "y_plasma_particles"%string); [contradiction|]. cbn [orb].
  destruct (of_name name) as [q|] eqn:E; [|reflexivity]. rewrite np_index_in by now apply half_in. apply of_name_key in E. subst. reflexivity.
Qed.
Definition cm_kp (c : cm) (l : layer3) : bool := below (l3_xi l) (m_xi_from c) && above (l3_xi l) (m_xi_to c).
Definition cm_pk (c : cm) (d : data) : data := fun k =>
  if String.eqb k "transverse_grid" then [[cm_grid c]]
  else if mem k (m_names c) then match np_rows (List.length (d "xi"%string)) (d k) with Some v => v | None => [] end
  else d k.
Definition cm_dat (c : cm) (ls : list layer3) : data := dat (cm_kp c) (cm_ent c) ls.
Lemma cm_dat_xi c ls : cm_dat c ls "xi"%string = map (fun l => scalar (l3_xi l)) (filter (cm_kp c) ls).
Proof. unfold cm_dat. rewrite dat_key. unfold cm_ent. rewrite (map_ext _ (fun l => [scalar (l3_xi l)])) by (intros; apply under_xi). apply concat_sing. Qed.
Lemma cm_dat_in c ls q : NoDup (m_names c) -> In (key3 q) (m_names c) -> cm_dat c ls (key3 q) = map (fun l => cm_val c l q) (filter (cm_kp c) ls).
Proof.
  intros ND I. unfold cm_dat. rewrite dat_key. unfold cm_ent. rewrite (map_ext _ (fun l => [cm_val c l q])); [apply concat_sing|].
  intros l. rewrite under_xi_cons by apply key3_xi. now apply under_named_in.
Qed.
Lemma cm_dat_out c ls k : k <> "xi"%string -> (forall q, k = key3 q -> ~ In k (m_names c)) -> cm_dat c ls k = [].
Proof.
  intros N H. unfold cm_dat. rewrite dat_key. unfold cm_ent. rewrite (map_ext _ (fun _ => [])); [apply concat_nil|].
  intros l. rewrite under_xi_cons by auto. now apply under_named_out.
Qed.
Lemma cm_rows_ok c ls q : NoDup (m_names c) -> In (key3 q) (m_names c) -> filter (cm_kp c) ls <> [] ->
  np_rows (List.length (cm_dat c ls "xi"%string)) (cm_dat c ls (key3 q)) = Some (cm_dat c ls (key3 q)).
Proof.
  intros ND I N. rewrite cm_dat_xi, cm_dat_in by auto. rewrite map_length.
  set (rows := map (fun l => map (fun j => field3 q l (m_n c / 2)%Z j) (cm_cells c)) (filter (cm_kp c) ls)).
  assert (E : map (fun l => cm_val c l q) (filter (cm_kp c) ls) = map (fun r : list R => [r]) rows) by (unfold rows; now rewrite map_map).
  rewrite E.
  replace (List.length (filter (cm_kp c) ls)) with (List.length rows) by (unfold rows; now rewrite map_length).
  apply (np_rows_id (List.length (cm_cells c))).
  - unfold rows. destruct (filter (cm_kp c) ls); [congruence|discriminate].
  - intros r Hr. unfold rows in Hr. apply in_map_iff in Hr. destruct Hr as (l & <- & _). apply map_length.
Qed.
Lemma allowed_key name : In name allowed_colormaps -> name <> "y_offt"%string -> name <> "y_plasma_particles"%string -> exists q, name = key3 q.
Proof.
  unfold allowed_colormaps. simpl. intros H A B.
  repeat (destruct H as [<-|H]; [first [exists qEx; reflexivity|exists qEy; reflexivity|exists qEz; reflexivity|exists qBx; reflexivity|exists qBy; reflexivity|exists qBz; reflexivity
    |exists qne; reflexivity|exists qni; reflexivity|exists qrho_beam; reflexivity|exists qPhi; reflexivity|congruence]|]). contradiction.
Qed.
Lemma mem_in s l : mem s l = true <-> In s l.
Proof. unfold mem. rewrite existsb_exists. split; [intros (x & I & E); apply String.eqb_eq in E; now subst|intros I; exists s; split; [auto|apply String.eqb_refl]]. Qed.
Definition plain (c : cm) : Prop := (0 < m_n c)%Z /\ 0 < m_h c /\ (m_merge_r c <= 1)%Z /\ (m_merge_xi c <= 1)%Z /\ NoDup (m_names c) /\
  (forall name, In name (m_names c) -> In name allowed_colormaps) /\ on_grid_names (m_names c).
Lemma cm_pack_ok c ls : plain c -> filter (cm_kp c) ls <> [] -> cm_pack c (cm_dat c ls) = Some (cm_pk c (cm_dat c ls)).
Proof.
  intros (Hn & Hh & M1 & M2 & ND & Ha & Hg) N. unfold cm_pack. rewrite (traverse_map _ (fun name => cm_dat c ls name)).
  - replace ((1 <? m_merge_r c)%Z) with false by (symmetry; apply Z.ltb_ge; lia). replace ((1 <? m_merge_xi c)%Z) with false by (symmetry; apply Z.ltb_ge; lia). reflexivity.
  - intros name I. destruct (Hg name I) as [A B]. destruct (allowed_key name (Ha name I) A B) as (q & ->). now apply cm_rows_ok.
Qed.
Lemma cm_keeps_split c t l : cm_keeps c t l = cm_due c t && cm_kp c l.
Proof. unfold cm_keeps, cm_kp. now rewrite andb_assoc. Qed.
Lemma cm_kp_between c l : cm_kp c l = true <-> between (m_xi_to c) (m_xi_from c) (l3_xi l).
Proof.
  unfold cm_kp, between, below, above. destruct (m_xi_from c) as [f|], (m_xi_to c) as [t|]; repeat destruct Rle_dec; simpl; split; intros H; try discriminate; try tauto;
    repeat split; try (intros y E; inversion E; subst; auto; fail); destruct H as [H1 H2]; exfalso; first [specialize (H1 _ eq_refl); lra|specialize (H2 _ eq_refl); lra].
Qed.
Lemma filter_kept {A} (f : A -> bool) (P : A -> Prop) : (forall a, f a = true <-> P a) -> forall l, kept P l (filter f l).
Proof. intros H. induction l as [|a l IH]; simpl; [constructor|]. destruct (f a) eqn:E; constructor; auto. - now apply H. - rewrite <- H. congruence. Qed.
Lemma cm_saving_ok c l : 0 < m_dxi c -> map_saving (m_S c) (m_dxi c) (m_xi_to c) l ((if cm_saves c l then 1 else 0) + (if cm_ends c l then 1 else 0))%nat.
Proof.
  intros H. exists (if cm_saves c l then 1 else 0)%nat, (if cm_ends c l then 1 else 0)%nat. split; [reflexivity|]. split; [|split].
  - unfold saving, cm_saves. destruct (condition_check (l3_xi l) (clamp_period (m_S c) (m_dxi c)) (m_dxi c)) eqn:E.
    + left. split; [reflexivity|]. now apply condition_due.
    + right. split; [reflexivity|]. now apply condition_due_false.
  - intros y E [A B]. unfold cm_ends. rewrite E. unfold below, above. repeat destruct Rle_dec; simpl; auto; contradiction.
  - intros N. unfold cm_ends. destruct (m_xi_to c) as [y|]; [|reflexivity]. specialize (N y eq_refl). unfold below, above. repeat destruct Rle_dec; simpl; auto; tauto.
Qed.
Lemma zseq_between a b : cells_between a b (zseq a b).
Proof.
  unfold cells_between, zseq. rewrite map_length, seq_length. split; [reflexivity|]. intros k Hk.
  rewrite (nth_indep _ 0%Z (a + Z.of_nat 0)%Z) by (rewrite map_length, seq_length; lia). rewrite (map_nth (fun k => (a + Z.of_nat k)%Z)). rewrite seq_nth by lia. f_equal.
Qed.
Lemma zseq_in a b j : In j (zseq a b) <-> (a <= j < b)%Z.
Proof.
  unfold zseq. rewrite in_map_iff. split.
  - intros (k & <- & I). apply in_seq in I. lia.
  - intros H. exists (Z.to_nat (j - a)). split; [lia|]. apply in_seq. lia.
Qed.
Lemma ne_int_near x : IZR (nearest_even x) - 1 / 2 <= x <= IZR (nearest_even x) + 1 / 2.
Proof. pose proof (ne_spec x) as H. apply abs_le_inv in H. lra. Qed.
Lemma ne_nonneg x : 0 <= x -> (0 <= nearest_even x)%Z.
Proof. intros H. pose proof (ne_mono 0 x H) as M. change 0 with (IZR 0) in M. now rewrite ne_int in M. Qed.
Lemma ne_upper x n : x <= IZR n -> (nearest_even x <= n)%Z.
Proof. intros H. pose proof (ne_mono x (IZR n) H) as M. now rewrite ne_int in M. Qed.
Definition top_ok (c : cm) : Prop := forall r, m_r_to c = Some r -> - (IZR (m_n c / 2) * m_h c) <= r.
Lemma cm_cells_ok c : plain c -> top_ok c -> row_cells (m_n c) (m_h c) (m_r_from c) (m_r_to c) (cm_cells c).
Proof.
  intros (Hn & Hh & _) Ht. unfold row_cells, cm_cells. exists (cm_from c), (cm_to c).
  assert (A0 : (0 <= cm_from c)%Z). { unfold cm_from. destruct (m_r_from c); [|lia]. cbv zeta. destruct Rlt_dec; [lia|]. apply ne_nonneg. lra. }
  assert (B0 : (0 <= cm_to c <= m_n c)%Z).
  { unfold cm_to. destruct (m_r_to c) as [r|] eqn:E; [|lia]. cbv zeta. destruct Rlt_dec; [lia|]. split; [|apply ne_upper; lra].
    apply ne_nonneg. specialize (Ht r E). assert (- IZR (m_n c / 2) <= r / m_h c) by (apply (Rmult_le_reg_r (m_h c)); [lra|]; unfold Rdiv; rewrite Rmult_assoc, Rinv_l by lra; lra). lra. }
  assert (S : np_slice (m_n c) (cm_from c) (cm_to c) = zseq (cm_from c) (cm_to c)).
  { unfold np_slice. destruct (Z.ltb_spec (cm_to c) 0); [lia|]. now rewrite Z.min_r by lia. }
  rewrite S. split; [apply zseq_between|]. split; [exact A0|]. split; [lia|].
  split; [intros E; unfold cm_from; now rewrite E|]. split; [intros E; unfold cm_to; now rewrite E|].
  assert (G : forall r j, r - m_h c / 2 <= centre (m_n c) (m_h c) j <-> IZR (m_n c / 2) + r / m_h c - 1 / 2 <= IZR j).
  { intros r j. unfold centre. rewrite minus_IZR. set (a := IZR (m_n c / 2)). set (h := m_h c) in *. assert (E : r = r / h * h) by (field; lra). set (y := r / h) in *. rewrite E. split; intros H; nra. }
  assert (G' : forall r j, centre (m_n c) (m_h c) j <= r - m_h c / 2 <-> IZR j <= IZR (m_n c / 2) + r / m_h c - 1 / 2).
  { intros r j. unfold centre. rewrite minus_IZR. set (a := IZR (m_n c / 2)). set (h := m_h c) in *. assert (E : r = r / h * h) by (field; lra). set (y := r / h) in *. rewrite E. split; intros H; nra. }
  split; [|split].
  - intros r j E I. apply zseq_in in I. apply G. unfold cm_from in I. rewrite E in I. cbv zeta in I. destruct I as [I _]. apply IZR_le in I. destruct Rlt_dec; [lra|].
    pose proof (ne_int_near (IZR (m_n c / 2) + r / m_h c)). lra.
  - intros r j E I. apply zseq_in in I. apply G'. unfold cm_to in I. rewrite E in I. cbv zeta in I. destruct I as [_ I]. assert (I' : (j + 1 <= (if Rlt_dec (IZR (m_n c)) (IZR (m_n c / 2) + r / m_h c) then m_n c else nearest_even (IZR (m_n c / 2) + r / m_h c)))%Z) by lia.
    apply IZR_le in I'. rewrite plus_IZR in I'. destruct Rlt_dec; [lra|]. pose proof (ne_int_near (IZR (m_n c / 2) + r / m_h c)). lra.
  - intros j [J1 J2] F T. apply zseq_in. split.
    + unfold cm_from. destruct (m_r_from c) as [r|] eqn:E; [|lia]. cbv zeta. specialize (F r eq_refl). destruct Rlt_dec; [lia|].
      assert (X : IZR (m_n c / 2) + r / m_h c - 1 / 2 < IZR j). { apply Rnot_le_lt. intros C. apply G' in C. lra. }
      pose proof (ne_int_near (IZR (m_n c / 2) + r / m_h c)). assert (IZR (nearest_even (IZR (m_n c / 2) + r / m_h c)) < IZR (j + 1)) by (rewrite plus_IZR; lra). apply lt_IZR in H0. lia.
    + unfold cm_to. destruct (m_r_to c) as [r|] eqn:E; [|lia]. cbv zeta. specialize (T r eq_refl). destruct Rlt_dec; [lia|].
      assert (X : IZR j < IZR (m_n c / 2) + r / m_h c - 1 / 2). { apply Rnot_le_lt. intros C. apply G in C. lra. }
      pose proof (ne_int_near (IZR (m_n c / 2) + r / m_h c)). assert (IZR j < IZR (nearest_even (IZR (m_n c / 2) + r / m_h c))) by lra. now apply lt_IZR in H0.
Qed.
Lemma field3_of q l g : field_of q l = Some g -> field3 q l = g.
Proof. destruct q; simpl; intros H; congruence. Qed.
Lemma cm_file c t ls : plain c -> top_ok c -> filter (cm_kp c) ls <> [] ->
  map_file (m_names c) (m_n c) (m_h c) (m_xi_to c) (m_xi_from c) (m_r_from c) (m_r_to c) (t, ls) (file_of (cm_kp c) (cm_ent c) (cm_pk c) t ls).
Proof.
  intros Hp Ht N. pose proof Hp as (Hn & Hh & M1 & M2 & ND & Ha & Hg). unfold map_file, file_of. cbn [f_time f_data fst snd]. split; [reflexivity|].
  change (dat (cm_kp c) (cm_ent c) ls) with (cm_dat c ls).
  assert (K : forall name, In name (m_names c) -> exists q, name = key3 q) by (intros name I; destruct (Hg name I); apply allowed_key; auto).
  assert (XI : mem "xi"%string (m_names c) = false). { destruct (mem "xi"%string (m_names c)) eqn:E; [|reflexivity]. apply mem_in in E. destruct (K _ E) as (q & Q). symmetry in Q. now apply key3_xi in Q. }
  exists (filter (cm_kp c) ls), (cm_cells c). split; [apply filter_kept; apply cm_kp_between|]. split; [now apply cm_cells_ok|]. split; [|split; [|split]].
  - unfold cm_pk. simpl (String.eqb "xi" _). cbv iota. rewrite XI. apply cm_dat_xi.
  - intros q g I F. unfold cm_pk. destruct (String.eqb_spec (key3 q) "transverse_grid"%string) as [E|_]; [destruct q; discriminate|].
    rewrite (proj2 (mem_in _ _) I). rewrite cm_rows_ok by auto. rewrite cm_dat_in by auto. apply map_ext_in. intros l Hl. unfold cm_val. now rewrite (field3_of q l (g l) (F l Hl)).
  - exists (cm_grid c). split; [reflexivity|]. unfold cm_grid. rewrite map_length. unfold zseq at 1. rewrite map_length, seq_length, Z.sub_0_r. split; [reflexivity|].
    intros j [J1 J2]. destruct (zseq_between 0 (m_n c)) as [L Z]. rewrite (nth_indep _ 0 ((fun i => IZR (i - m_n c / 2) * m_h c) 0%Z)) by (rewrite map_length, L; lia).
    rewrite (map_nth (fun i => IZR (i - m_n c / 2) * m_h c)). rewrite Z by (rewrite L; lia). unfold centre. rewrite Z2Nat.id by lia. reflexivity.
  - intros k K1 K2 K3. unfold cm_pk. destruct (String.eqb_spec k "transverse_grid"%string); [contradiction|]. destruct (mem k (m_names c)) eqn:E; [apply mem_in in E; contradiction|].
    apply cm_dat_out; auto.
Qed.
