(** Proofs about slices, file names and scalar diagnostics. *)
From Coq Require Import Reals ZArith List Bool String Ascii Lra Lia Psatz.
From Verif Require Import Beam2D_Model Beam2D_Spec Beam2D_Free Beam2D_Ex Shape_Model Plasma2D_Model Plasma2D_Ode Plasma3D_Model Diag_Model Diag_Spec Diag_Proofs.
Import ListNotations.
Local Open Scope list_scope.
Local Open Scope R_scope.

Lemma name3_key q : name3 q = key3 q.
Proof. destruct q; reflexivity. Qed.
Lemma field3_of q l g : field_of q l = Some g -> field3 q l = g.
Proof. destruct q; simpl; intros; congruence. Qed.
Lemma slice_nodup : NoDup slice_quantities.
Proof. unfold slice_quantities. repeat constructor; simpl; intuition discriminate. Qed.
Lemma slice_in q : In q slice_quantities <-> match field_of q (mkL3 0 0 (fun _ _ => 0) (fun _ _ => 0) (fun _ _ => 0) (fun _ _ => 0) (fun _ _ => 0) (fun _ _ => 0) (fun _ _ => 0) (fun _ _ => 0) (fun _ _ => 0) (fun _ _ => 0) [] [] []) with Some _ => True | None => False end.
Proof. destruct q; simpl; intuition (try discriminate). Qed.
Lemma slice_in' q l : field_of q l <> None <-> In q slice_quantities.
Proof. destruct q; simpl; intuition (try discriminate). Qed.
Lemma zseq_in a b i : In i (zseq a b) <-> (a <= i < b)%Z.
Proof.
  unfold zseq. rewrite in_map_iff. split.
  - intros (k & <- & Hk). apply in_seq in Hk. lia.
  - intros H. exists (Z.to_nat (i - a)). split; [lia|]. apply in_seq. lia.
Qed.
Lemma zseq_cells a b : cells_between a b (zseq a b).
Proof.
  split; [unfold zseq; now rewrite map_length, seq_length|]. intros k Hk. unfold zseq in *. rewrite map_length, seq_length in Hk.
  rewrite (nth_indep _ 0%Z ((fun k => a + Z.of_nat k)%Z 0%nat)) by (rewrite map_length, seq_length; auto).
  rewrite (map_nth (fun k => a + Z.of_nat k)%Z), seq_nth by auto. reflexivity.
Qed.
Lemma condition_xi P dxi xi : (forall p, P = Every p -> 0 < p) -> condition_check xi P dxi = true <-> due_xi P dxi xi.
Proof.
  intros H. unfold condition_check, due_xi. destruct P as [p|]; simpl.
  - specialize (H p eq_refl). destruct (Rle_dec _ _) as [L|L]; split; intros H1; try discriminate; auto.
    + exists (nearest_even (xi / p)). exact L.
    + exfalso. destruct H1 as [n Hn]. apply L. eapply Rle_trans; [apply remainder_min; auto|exact Hn].
  - destruct (Rle_dec _ _); split; intros; try discriminate; auto; lra.
Qed.

Definition line_plane (p : plane) : Prop := p <> X_Y.
(** ** slices along xi *)
Lemma slice_read_line s n g : line_plane (s_plane s) -> on_axis n (s_offset s) ->
  slice_read s n g = Some [line_of (s_plane s) (zseq (s_a s) (Z.min n (s_b s))) (s_offset s) g].
Proof. intros H O. unfold slice_read, line_of, np_range. destruct (s_plane s); [| |congruence]; rewrite np_index_in by auto; reflexivity. Qed.
Lemma takes_line s t xi : line_plane (s_plane s) -> slice_takes s t xi = in_limits (s_to1 s) (s_from1 s) xi.
Proof.
  intros H. unfold slice_takes, in_limits. destruct (s_plane s); [| |congruence];
  destruct (Rlt_dec xi (s_to1 s)), (Rle_dec (s_to1 s) xi); try lra; auto; destruct (Rlt_dec (s_from1 s) xi), (Rle_dec xi (s_from1 s)); try lra; auto.
Qed.
Definition slice_val (s : slicer) (l : layer3) (q : quantity) : arr := match slice_read s (l3_steps l) (field3 q l) with Some v => v | None => [] end.
Lemma slice_entries_gen qs s t l : (forall g, exists v, slice_read s (l3_steps l) g = Some v) -> exists es, slice_entries (flags qs) s t l = Some es /\
  (if slice_takes s t (l3_xi l) then under "xi"%string es = [scalar (l3_xi l)] /\
     forall q, In q slice_quantities -> (In q qs -> under (key3 q) es = [slice_val s l q]) /\ (~ In q qs -> under (key3 q) es = [])
   else es = []).
Proof.
  intros H. unfold slice_entries. destruct (slice_takes s t (l3_xi l)); [|eauto].
  rewrite (traverse_map _ (fun q => (key3 q, slice_val s l q))).
  2:{ intros q _. unfold slice_val. destruct (H (field3 q l)) as (v & ->). simpl. now rewrite name3_key. }
  eexists. split; [reflexivity|]. split.
  - change (?a :: ?b) with ([a] ++ b). rewrite under_app. rewrite (under_none _ (map _ _)).
    + reflexivity.
    + intros e He. apply in_map_iff in He. destruct He as (q & <- & _). apply key3_xi.
  - intros q Hq. change (?a :: ?b) with ([a] ++ b). rewrite under_app.
    assert (X : under (key3 q) [("xi"%string, scalar (l3_xi l))] = []). { apply under_none. intros e [<-|[]]. simpl. intros E. exact (key3_xi q (eq_sym E)). }
    rewrite X. simpl app.
    destruct (under_keyed key3 (slice_val s l) (filter (asked (flags qs)) slice_quantities) q (filter_nodup _ _ slice_nodup) key3_inj) as [A B].
    split; intros I; [apply A|apply B]; rewrite filter_In, asked_flags; tauto.
Qed.
Lemma concat_filter {A} (ls : list A) ess (k : string) (keep : A -> bool) (v : A -> arr) :
  Forall2 (fun l es => if keep l then under k es = [v l] else es = []) ls ess -> List.concat (map (under k) ess) = map v (filter keep ls).
Proof.
  induction 1; simpl; auto. destruct (keep x).
  - rewrite H, IHForall2. reflexivity.
  - subst. rewrite IHForall2. reflexivity.
Qed.
Lemma concat_filter_none {A} (ls : list A) ess (k : string) (keep : A -> bool) :
  Forall2 (fun l es => if keep l then under k es = [] else es = []) ls ess -> List.concat (map (under k) ess) = [].
Proof. induction 1; simpl; auto. destruct (keep x); subst; rewrite ?H, IHForall2; reflexivity. Qed.

(** the contents of slice files for any slicer that can read its layers *)
Lemma slice_files P dt qs s rank (steps : list (R * list layer3)) : 0 < dt ->
  (forall t ls l g, In (t, ls) steps -> In l ls -> exists v, slice_read s (l3_steps l) g = Some v) ->
  exists s' fs outs,
    diag_run (slice_entries (flags qs) s) (clamp_period P dt) dt steps (mkD (Nat.eqb rank 0) no_data) = Some (s', fs) /\
    output_steps P dt (Nat.eqb rank 0) steps outs /\
    Forall2 (fun step f => f_time f = fst step /\
       let kept := filter (fun l => slice_takes s (fst step) (l3_xi l)) (snd step) in
       f_data f "xi"%string = map (fun l => [[l3_xi l]]) kept /\
       (forall q, In q slice_quantities -> In q qs -> f_data f (key3 q) = map (fun l => slice_val s l q) kept) /\
       (forall q, In q slice_quantities -> ~ In q qs -> f_data f (key3 q) = [])) outs fs.
Proof.
  intros Hdt H.
  destruct (output_total P dt Hdt steps (Nat.eqb rank 0)) as (outs & O).
  pose proof (outs_incl _ _ _ _ _ O) as I.
  destruct (run_total (slice_entries (flags qs) s) P dt Hdt steps _ outs O) as (s' & fs & E).
  { intros t ls X. apply (traverse_total (slice_entries (flags qs) s) t). intros l Hl. destruct (slice_entries_gen qs s t l) as (es & Ee & _); [intros; eapply H; eauto|eauto]. }
  exists s', fs, outs. split; [exact E|]. split; [exact O|].
  destruct (run_files _ P dt Hdt _ _ _ _ E) as (o2 & O2 & F). rewrite <- (output_unique _ _ _ _ _ O _ O2) in F.
  apply (Forall2_impl' _ _ _ _ F). intros [t ls] f X Hh. split; [apply Hh|]. cbv zeta. cbn [fst snd].
  destruct (holds_layers _ t ls f (fun l es => if slice_takes s t (l3_xi l) then under "xi"%string es = [scalar (l3_xi l)] /\
     forall q, In q slice_quantities -> (In q qs -> under (key3 q) es = [slice_val s l q]) /\ (~ In q qs -> under (key3 q) es = [])
     else es = []) Hh) as (ess & F2 & D).
  { intros l Hl. apply slice_entries_gen. intros g. eapply H; [apply (I _ X)|auto]. }
  split; [|split].
  - rewrite D. apply (concat_filter ls). apply (Forall2_impl' _ _ _ _ F2). intros l es _. destruct (slice_takes _ _ _); tauto.
  - intros q Hs Hq. rewrite D. apply (concat_filter ls). apply (Forall2_impl' _ _ _ _ F2). intros l es _. destruct (slice_takes _ _ _); auto. intros [_ A]. now apply A.
  - intros q Hs Hq. rewrite D. apply (concat_filter_none ls ess _ (fun l => slice_takes s t (l3_xi l))). apply (Forall2_impl' _ _ _ _ F2). intros l es _. destruct (slice_takes _ _ _); auto. intros [_ A]. now apply A.
Qed.

(** ** ranges of cells *)
Lemma clip_range x lo hi : (lo <= hi)%Z -> (lo <= clip x lo hi <= hi)%Z.
Proof. unfold clip. lia. Qed.
Lemma clip_id x lo hi : (lo <= x <= hi)%Z -> clip x lo hi = x.
Proof. unfold clip. lia. Qed.
Lemma range_cells steps h f t i : (0 <= steps)%Z ->
  In i (zseq (slice_index steps steps h f) (Z.min steps (slice_index steps steps h t))) <->
  on_axis steps i /\ (nearest_even (f / h) <= i - steps / 2 < nearest_even (t / h))%Z.
Proof. intros H. rewrite zseq_in. unfold slice_index, clip, on_axis. lia. Qed.
Lemma ne_div_le h x n : 0 < h -> x + h / 2 <= IZR n * h -> (nearest_even (x / h) <= n)%Z.
Proof.
  intros H L. apply IZR_lt1. pose proof (abs_le_inv _ _ (ne_spec (x / h))). assert (x / h + 1 / 2 <= IZR n); [|lra].
  apply (Rmult_le_reg_r h); auto. replace ((x / h + 1 / 2) * h) with (x + h / 2) by (field; lra). auto.
Qed.
Lemma ne_div_gt h x n : 0 < h -> IZR n * h < x - h / 2 -> (n < nearest_even (x / h))%Z.
Proof.
  intros H L. apply lt_IZR. pose proof (abs_le_inv _ _ (ne_spec (x / h))). assert (IZR n < x / h - 1 / 2); [|lra].
  apply (Rmult_lt_reg_r h); auto. replace ((x / h - 1 / 2) * h) with (x - h / 2) by (field; lra). auto.
Qed.
Lemma ne_div_range h x n : 0 < h -> nearest_even (x / h) = n -> Rabs (IZR n * h - x) <= h / 2.
Proof.
  intros H <-. pose proof (ne_spec (x / h)) as S. replace (IZR (nearest_even (x / h)) * h - x) with (- ((x / h - IZR (nearest_even (x / h))) * h)) by (field; lra).
  rewrite Rabs_Ropp, Rabs_mult, (Rabs_right h) by lra. replace (h / 2) with (1 / 2 * h) by field. apply Rmult_le_compat_r; lra.
Qed.
Lemma odd_half k : ((2 * k + 1) / 2 = k)%Z.
Proof. symmetry. apply (Z.div_unique _ 2 k 1); lia. Qed.
Lemma default_upper k h : 0 < h -> (0 <= k)%Z ->
  slice_index (2 * k + 1) (2 * k + 1) h (IZR (2 * k + 1) * h / 2) = if Z.even k then (2 * k)%Z else (2 * k + 1)%Z.
Proof.
  intros H K. unfold slice_index. rewrite odd_half. replace (IZR (2 * k + 1) * h / 2 / h) with (IZR k + 1 / 2) by (rewrite plus_IZR, mult_IZR; field; lra).
  rewrite ne_half. unfold clip. destruct (Z.even k); lia.
Qed.
Lemma default_lower k hi h : 0 < h -> (0 <= k)%Z -> (0 <= hi)%Z ->
  slice_index (2 * k + 1) hi h (- (IZR (2 * k + 1) * h) / 2) = 0%Z.
Proof.
  intros H K Hh. unfold slice_index. rewrite odd_half.
  replace (- (IZR (2 * k + 1) * h) / 2 / h) with (IZR (- (k + 1)) + 1 / 2) by (rewrite opp_IZR, !plus_IZR, mult_IZR; field; lra).
  rewrite ne_half. unfold clip. destruct (Z.even (- (k + 1))); lia.
Qed.

(** ** names *)
Lemma stamp_distinct dt k k' : 1 / 100 < dt -> (k < k')%nat -> stamp (INR k * dt) <> stamp (INR k' * dt).
Proof.
  intros H L E. unfold stamp in E. pose proof (abs_le_inv _ _ (ne_spec (100 * (INR k * dt)))). pose proof (abs_le_inv _ _ (ne_spec (100 * (INR k' * dt)))).
  rewrite E in H0. assert (INR k + 1 <= INR k') by (rewrite <- S_INR; apply le_INR; lia). nra.
Qed.
Lemma stamp_whole m k : stamp (INR k * (INR m / 100)) = Z.of_nat (k * m).
Proof.
  unfold stamp. replace (100 * (INR k * (INR m / 100))) with (IZR (Z.of_nat (k * m))) by (rewrite <- INR_IZR_INZ, mult_INR; field). apply ne_int.
Qed.

(** ** 2D slices *)
Lemma slice_key2_inj a b k : slice_key2 a = Some k -> slice_key2 b = Some k -> a = b.
Proof. destruct a, b; simpl; intros A B; (reflexivity || congruence). Qed.
Lemma slice_key2_xi q : slice_key2 q <> Some "xi"%string.
Proof. destruct q; discriminate. Qed.
Lemma slice_key2_in q k : slice_key2 q = Some k -> In q slice_quantities.
Proof. destruct q; simpl; intros; try discriminate; tauto. Qed.
Lemma slice_entries2_spec qs s l : (forall q, In q qs -> q <> qPhi) -> exists es, slice_entries2 (flags qs) s l = Some es /\
  (if in_limits (s2_to1 s) (s2_from1 s) (l2_xi l) then under "xi"%string es = [scalar (l2_xi l)] /\
     forall q k, slice_key2 q = Some k -> (In q qs -> under k es = [[map (field2_of q l) (zseq (s2_a s) (Z.min (l2_n l) (s2_b s)))]]) /\ (~ In q qs -> under k es = [])
   else es = []).
Proof.
  intros S. unfold slice_entries2, in_limits.
  destruct (Rlt_dec (l2_xi l) (s2_to1 s)), (Rle_dec (s2_to1 s) (l2_xi l)); try lra; [eexists; split; reflexivity|].
  destruct (Rlt_dec (s2_from1 s) (l2_xi l)), (Rle_dec (l2_xi l) (s2_from1 s)); try lra; [eexists; split; reflexivity|].
  set (cells := zseq (s2_a s) (Z.min (l2_n l) (s2_b s))).
  rewrite (traverse_map _ (fun q => match slice_key2 q with Some k => Some (k, [map (field2_of q l) cells]) | None => None end)).
  2:{ intros q Hq. apply filter_In in Hq. destruct Hq as [I Hq]. apply asked_flags in Hq. specialize (S q Hq).
      destruct q; simpl in *; try reflexivity; try congruence; exfalso; intuition discriminate. }
  eexists. split; [reflexivity|]. rewrite map_map. split.
  - change (?a :: ?b) with ([a] ++ b). rewrite under_app, (under_none _ (List.concat _)); [reflexivity|]. intros e He. apply in_concat in He. destruct He as (x & Hx & He). apply in_map_iff in Hx. destruct Hx as (q & <- & _).
    destruct (slice_key2 q) as [k|] eqn:K; [|contradiction]. destruct He as [<-|[]]. simpl. intros ->. exact (slice_key2_xi q K).
  - intros q k K. change (?a :: ?b) with ([a] ++ b). rewrite under_app.
    assert (X : under k [("xi"%string, scalar (l2_xi l))] = []). { apply under_none. intros e [<-|[]]. simpl. intros <-. exact (slice_key2_xi q K). }
    rewrite X. simpl app.
    destruct (under_opt slice_key2 (fun q => [map (field2_of q l) cells]) (filter (asked (flags qs)) slice_quantities) q k (filter_nodup _ _ slice_nodup) slice_key2_inj K) as [A B].
    unfold opt_list in A, B. split; intros I; [apply A|apply B]; rewrite filter_In, asked_flags; [split; auto; eapply slice_key2_in; eauto|tauto].
Qed.

(** ** energy flux *)
Lemma sumN_nonneg n f : (forall i, (i < n)%nat -> 0 <= f i) -> 0 <= sumN n f.
Proof. induction n; intros H; [simpl; unfold sumN; simpl; lra|]. rewrite sumN_S. assert (0 <= sumN n f) by auto. assert (0 <= f n) by auto. lra. Qed.
Lemma sumN_zero_inv n f : (forall i, (i < n)%nat -> 0 <= f i) -> sumN n f = 0 -> forall i, (i < n)%nat -> f i = 0.
Proof.
  induction n; intros H E i Hi; [lia|]. rewrite sumN_S in E. assert (0 <= sumN n f) by (apply sumN_nonneg; auto). assert (0 <= f n) by auto.
  destruct (Nat.eq_dec i n) as [->|]; [lra|]. apply IHn; auto; try lia. lra.
Qed.
Lemma sq_sum_ge m a b c : m <= sqrt (m ^ 2 + a ^ 2 + b ^ 2 + c ^ 2).
Proof.
  destruct (Rle_dec 0 m) as [H|H]; [|apply Rle_trans with 0; [lra|apply sqrt_pos]].
  rewrite <- (sqrt_pow2 m) at 1 by auto. apply sqrt_le_1_alt. nra.
Qed.
Lemma sq_sum_eq m a b c : 0 <= m -> sqrt (m ^ 2 + a ^ 2 + b ^ 2 + c ^ 2) = m -> a = 0 /\ b = 0 /\ c = 0.
Proof.
  intros H E. assert (X : (sqrt (m ^ 2 + a ^ 2 + b ^ 2 + c ^ 2)) ^ 2 = m ^ 2) by (now rewrite E). rewrite pow2_sqrt in X by nra.
  assert (forall x, x ^ 2 = 0 -> x = 0) by (intros; nra). pose proof (pow2_ge_0 a). pose proof (pow2_ge_0 b). pose proof (pow2_ge_0 c). repeat split; apply H0; lra.
Qed.
Lemma fold_nonneg l : (forall x, In x l -> 0 <= x) -> 0 <= fold_right Rplus 0 l.
Proof. induction l; simpl; intros H; [lra|]. assert (0 <= a) by auto. assert (0 <= fold_right Rplus 0 l) by auto. lra. Qed.
Lemma fold_zero_inv l : (forall x, In x l -> 0 <= x) -> fold_right Rplus 0 l = 0 -> forall x, In x l -> x = 0.
Proof.
  induction l; simpl; intros H E x Hx; [contradiction|]. assert (0 <= a) by auto. assert (0 <= fold_right Rplus 0 l) by (apply fold_nonneg; auto).
  destruct Hx as [<-|Hx]; [lra|]. apply IHl; auto. lra.
Qed.

(** ** option strings *)
Lemma ascii_app a b : list_ascii_of_string (a ++ b)%string = list_ascii_of_string a ++ list_ascii_of_string b.
Proof. induction a; simpl; congruence. Qed.
Lemma split_none l : forall r cur, ~ In comma l -> split_comma (l ++ r) cur = split_comma r (rev l ++ cur).
Proof.
  induction l as [|a l IH]; intros r cur H; simpl; auto. destruct (Ascii.eqb_spec a comma) as [->|N]; [exfalso; apply H; simpl; auto|].
  rewrite IH by (intros X; apply H; simpl; auto). now rewrite <- app_assoc.
Qed.
Definition strip (l : list ascii) : list ascii := filter (fun a => negb (Ascii.eqb a space)) l.
Lemma split_items (items : list string) : (forall i, In i items -> has_no comma i) -> items <> [] ->
  split_comma (strip (list_ascii_of_string (String.concat "," items))) [] = map (fun i => strip (list_ascii_of_string i)) items.
Proof.
  assert (NC : forall i, has_no comma i -> ~ In comma (strip (list_ascii_of_string i))) by (intros i H X; apply filter_In in X; now apply H).
  induction items as [|a items IH]; intros H NE; [congruence|]. destruct items as [|b items].
  - simpl. assert (X := NC a (H a ltac:(simpl; auto))). rewrite <- (app_nil_r (strip _)). rewrite split_none by exact X. simpl. now rewrite !app_nil_r, rev_involutive.
  - change (String.concat "," (a :: b :: items)) with (a ++ ("," ++ String.concat "," (b :: items)))%string.
    rewrite !ascii_app. unfold strip at 1. rewrite !filter_app. fold strip. change (filter (fun a0 => negb (Ascii.eqb a0 space)) (list_ascii_of_string ",")) with [comma].
    fold (strip (list_ascii_of_string a)). fold (strip (list_ascii_of_string (String.concat "," (b :: items)))).
    rewrite split_none by (apply NC, H; simpl; auto). cbn [app split_comma]. change (Ascii.eqb comma comma) with true. cbn iota.
    rewrite IH by (try discriminate; intros; apply H; simpl; auto). cbn [map]. rewrite app_nil_r, rev_involutive. reflexivity.
Qed.
Lemma parse_items (items : list string) : (forall i, In i items -> has_no comma i) ->
  from_str_into_list (String.concat "," items) = filter (fun n => negb (String.eqb n "")) (map without_spaces items).
Proof.
  intros H. destruct items as [|a items]; [reflexivity|]. unfold from_str_into_list. fold (strip (list_ascii_of_string (String.concat "," (a :: items)))).
  rewrite split_items by (auto; discriminate). rewrite map_map. reflexivity.
Qed.
