(** Theorems C50 (what is read at the probe lines) and C52 (the largest displacements). *)
From Coq Require Import Reals ZArith List Bool String Lra Lia Psatz.
From Verif Require Import Beam2D_Model Shape_Model Plasma2D_Model Plasma3D_Model Diag_Model Diag_Spec Diag_Proofs Diag_Slices Props_Diag2.
Import ListNotations.
Local Open Scope list_scope.
Local Open Scope R_scope.

Lemma np_in n i : on_axis n i -> np_index n i = Some i.
Proof. intros [A B]. unfold np_index. destruct (Z.leb_spec 0 i); [|lia]. destruct (Z.ltb_spec i n); [reflexivity|lia]. Qed.
Lemma half_steps n : (0 < n)%Z -> (n / 2 = n / 2)%Z /\ (2 * (n / 2) <= n <= 2 * (n / 2) + 1)%Z.
Proof. intros H. split; [reflexivity|]. assert (D := Z.div_mod n 2 ltac:(lia)). assert (M := Z.mod_pos_bound n 2 ltac:(lia)). lia. Qed.
Lemma probe_on_axis n h x : 0 < h -> (0 < n)%Z -> centre n h 0 - h / 2 < x < centre n h (n - 1) + h / 2 -> on_axis n (n / 2 + nearest_even (x / h)).
Proof.
  intros H Hn [A B]. unfold centre in A, B. assert (S := ne_div_range h x _ H eq_refl). apply abs_le_inv in S. destruct S as [S1 S2].
  assert (L1 : (0 - n / 2 - 1 < nearest_even (x / h))%Z) by (apply lt_IZR, (Rmult_lt_reg_r h); [exact H|]; rewrite !minus_IZR in *; lra).
  assert (L2 : (nearest_even (x / h) < n - 1 - n / 2 + 1)%Z) by (apply lt_IZR, (Rmult_lt_reg_r h); [exact H|]; rewrite ?plus_IZR, !minus_IZR in *; lra).
  unfold on_axis. lia.
Qed.
(** Probe lines inside the window: the recorded row holds, in their order, the values at cells whose centres are nearest. *)
Theorem C50_probe_values : forall n h (ps : list (R * R)) g, 0 < h -> (0 < n)%Z ->
  (forall p, In p ps -> centre n h 0 - h / 2 < fst p < centre n h (n - 1) + h / 2 /\ centre n h 0 - h / 2 < snd p < centre n h (n - 1) + h / 2) ->
  exists cells, Forall2 (fun p c => on_axis n (fst c) /\ on_axis n (snd c) /\ Rabs (centre n h (fst c) - fst p) <= h / 2 /\ Rabs (centre n h (snd c) - snd p) <= h / 2) ps cells /\
  read3 n g (map (probe3 n h) ps) = Some [map (fun c => g (fst c) (snd c)) cells].
Proof.
  intros n h ps g H Hn In0. exists (map (probe3 n h) ps). split.
  - induction ps as [|p ps IH]; cbn [map]; constructor; [|apply IH; intros q Hq; apply In0; now right]. destruct (In0 p (or_introl eq_refl)) as [A B]. assert (K := C50_probe_lines n h (fst p) (snd p) H). rewrite <- surjective_pairing in K. destruct (probe3 n h p) as [i j] eqn:E. unfold probe3 in E. injection E as <- <-. destruct K as [K1 K2]. cbn [fst snd].
    split; [now apply probe_on_axis|]. split; [now apply probe_on_axis|]. split; assumption.
  - unfold read3. rewrite (traverse_map _ (fun c => g (fst c) (snd c))); [reflexivity|]. intros c Hc. apply in_map_iff in Hc. destruct Hc as (p & <- & Hp). destruct (In0 p Hp) as [A B]. unfold probe3. cbn [fst snd]. rewrite !np_in by (now apply probe_on_axis). reflexivity.
Qed.
Print Assumptions C50_probe_values.
Lemma radius_on_axis n h r : 0 < h -> 0 <= r < IZR n * h - h / 2 -> on_axis n (probe2 h r).
Proof.
  intros H [A B]. unfold probe2. assert (S := ne_div_range h r _ H eq_refl). apply abs_le_inv in S. destruct S as [S1 S2].
  assert (L1 : (-1 < nearest_even (r / h))%Z) by (apply lt_IZR, (Rmult_lt_reg_r h); [exact H|]; lra). assert (L2 : (nearest_even (r / h) < n)%Z) by (apply lt_IZR, (Rmult_lt_reg_r h); [exact H|]; lra). unfold on_axis. lia.
Qed.
(** The same for radii inside the 2D window ... *)
Theorem C50_radius_values : forall n h rs g, 0 < h -> (forall r, In r rs -> 0 <= r < IZR n * h - h / 2) ->
  exists cells, Forall2 (fun r c => on_axis n c /\ Rabs (IZR c * h - r) <= h / 2) rs cells /\ read2 n g (map (probe2 h) rs) = Some [map g cells].
Proof.
  intros n h rs g H In0. exists (map (probe2 h) rs). split.
  - induction rs as [|r rs IH]; cbn [map]; constructor; [|apply IH; intros q Hq; apply In0; now right]. split; [apply radius_on_axis; [exact H|apply In0; now left]|now apply C50_probe_radius].
  - unfold read2. rewrite (traverse_map _ g); [reflexivity|]. intros c Hc. apply in_map_iff in Hc. destruct Hc as (r & <- & Hr). rewrite np_in by (apply radius_on_axis; auto). reflexivity.
Qed.
Print Assumptions C50_radius_values.
(** ... while a radius beyond the window raises, and a negative one is read at the other end of the window. *)
Theorem C50_radius_outside_refuted : forall n h g, 0 < h -> (1 < n)%Z ->
  (forall r rs, In r rs -> IZR n * h + h / 2 <= r -> read2 n g (map (probe2 h) rs) = None) /\
  read2 n g [probe2 h (- h)] = Some [[g (n - 1)%Z]].
Proof.
  intros n h g H Hn. split.
  - intros r rs Hr L. unfold read2. rewrite (traverse_none _ _ (probe2 h r)); [reflexivity|now apply in_map|]. unfold probe2. assert (S := ne_div_range h r _ H eq_refl). apply abs_le_inv in S. destruct S as [S1 S2].
    assert (L2 : (n <= nearest_even (r / h))%Z) by (apply le_IZR, (Rmult_le_reg_r h); [exact H|]; lra). unfold np_index. destruct (Z.leb_spec 0 (nearest_even (r / h))); [|lia]. destruct (Z.ltb_spec (nearest_even (r / h)) n); [lia|]. cbn [andb]. destruct (Z.ltb_spec (nearest_even (r / h)) 0); [lia|]. now rewrite andb_false_r.
  - unfold probe2. replace (- h / h) with (IZR (-1)) by (field; lra). rewrite ne_int. unfold read2. cbn [traverse]. unfold np_index. destruct (Z.leb_spec 0 (-1)); [lia|]. cbn [andb]. destruct (Z.leb_spec (- n) (-1)); [|lia]. cbn [andb Z.ltb Z.compare option_map]. now replace (-1 + n)%Z with (n - 1)%Z by lia.
Qed.
Print Assumptions C50_radius_outside_refuted.

(** ** C52: the largest displacements *)
Lemma nth_cut {A} (l : list A) a b i d : (b <= List.length l)%nat -> (i < b - a)%nat -> nth i (cut a b l) d = nth (a + i) l d.
Proof.
  intros Hb Hi. unfold cut. assert (G : forall (m : list A) k j, (j < k)%nat -> nth j (firstn k m) d = nth j m d) by (intros m; induction m as [|x m IH]; intros [|k] [|j] Hj; cbn; try lia; try reflexivity; apply IH; lia).
  rewrite G by exact Hi. revert l Hb. induction a as [|a IH]; intros l Hb; cbn [skipn Nat.add]; [reflexivity|]. destruct l as [|x l]; [cbn in Hb; destruct b; [lia|cbn in Hb; lia]|]. cbn [nth]. clear IH. revert l Hb. 
  assert (S : forall (l : list A) a, nth i (skipn a l) d = nth (a + i) l d) by (induction l as [|y l IHl]; intros [|a']; cbn; try reflexivity; [now destruct i|apply IHl]). intros l _. apply S.
Qed.
Lemma cut_length {A} (l : list A) a b : (b <= List.length l)%nat -> List.length (cut a b l) = (b - a)%nat.
Proof. intros H. unfold cut. rewrite firstn_length, skipn_length. lia. Qed.
(** dx_chaotic is the largest absolute value of the table ... *)
Theorem C52_largest_displacement : forall a m, max_abs a = Some m -> (exists row v, In row a /\ In v row /\ m = Rabs v) /\ forall row v, In row a -> In v row -> Rabs v <= m.
Proof.
  intros a m H. unfold max_abs in H. apply amax_spec in H. destruct H as [H1 H2]. split.
  - apply in_map_iff in H1. destruct H1 as (v & <- & Hv). apply in_concat in Hv. destruct Hv as (row & R1 & R2). exists row, v. repeat split; assumption.
  - intros row v R1 R2. apply H2. apply in_map. apply in_concat. exists row. split; assumption.
Qed.
Print Assumptions C52_largest_displacement.
(** ... and dx_chaotic_perp that over the rows and the columns from the sixth part to five sixth parts, of a table of n rows
    of n values (n at least 6). *)
Theorem C52_largest_central_displacement : forall a n, List.length a = n -> (6 <= n)%nat -> (forall row, In row a -> List.length row = n) ->
  let inside i := (n / 6 <= i < 5 * (n / 6))%nat in let value i j := nth j (nth i a []) 0 in
  exists m, max_abs (central a) = Some m /\ (exists i j, inside i /\ inside j /\ m = Rabs (value i j)) /\ forall i j, inside i -> inside j -> Rabs (value i j) <= m.
Proof.
  intros a n La H6 Lr inside value. set (a1 := (n / 6)%nat). assert (A1 : (1 <= a1)%nat) by (unfold a1; apply Nat.div_le_lower_bound; lia). assert (A6 : (6 * a1 <= n)%nat) by (unfold a1; apply Nat.mul_div_le; lia).
  assert (Lc : List.length (central a) = (5 * a1 - a1)%nat) by (unfold central; cbv zeta; rewrite La; fold a1; rewrite map_length; apply cut_length; lia).
  assert (Lrow : forall i, (i < n)%nat -> List.length (nth i a []) = n) by (intros i Hi; apply Lr, nth_In; lia).
  assert (Vc : forall i j, (i < 5 * a1 - a1)%nat -> (j < 5 * a1 - a1)%nat -> nth j (nth i (central a) []) 0 = value (a1 + i)%nat (a1 + j)%nat).
  { intros i j Hi Hj. unfold central. cbv zeta. rewrite La. fold a1. rewrite (nth_indep _ [] (cut a1 (5 * a1) [])) by (rewrite map_length, cut_length; lia). rewrite map_nth, (nth_cut a) by lia. rewrite nth_cut; [reflexivity|rewrite Lrow; lia|lia]. }
  assert (Lcr : forall i, (i < 5 * a1 - a1)%nat -> List.length (nth i (central a) []) = (5 * a1 - a1)%nat).
  { intros i Hi. unfold central. cbv zeta. rewrite La. fold a1. rewrite (nth_indep _ [] (cut a1 (5 * a1) [])) by (rewrite map_length, cut_length; lia). rewrite map_nth, (nth_cut a) by lia. apply cut_length. rewrite Lrow; lia. }
  assert (Ex : exists m, max_abs (central a) = Some m).
  { unfold max_abs. apply amax_some. intros E. apply map_eq_nil in E. assert (I : In (nth 0 (nth 0 (central a) []) 0) (List.concat (central a))) by (apply in_concat; exists (nth 0 (central a) []); split; apply nth_In; [lia|rewrite Lcr; lia]). rewrite E in I. destruct I. }
  destruct Ex as (m & Em). exists m. split; [exact Em|]. apply C52_largest_displacement in Em. destruct Em as [(row & v & R1 & R2 & ->) Up]. split.
  - apply (In_nth _ _ []) in R1. destruct R1 as (i & Hi & <-). rewrite Lc in Hi. apply (In_nth _ _ 0) in R2. destruct R2 as (j & Hj & <-). rewrite Lcr in Hj by exact Hi. exists (a1 + i)%nat, (a1 + j)%nat. rewrite Vc by assumption. unfold inside. fold a1. repeat split; lia.
  - intros i j [I1 I2] [J1 J2]. fold a1 in I1, I2, J1, J2. replace i with (a1 + (i - a1))%nat by lia. replace j with (a1 + (j - a1))%nat by lia. rewrite <- Vc by lia. apply (Up (nth (i - a1) (central a) [])); apply nth_In; [lia|rewrite Lcr; lia].
Qed.
Print Assumptions C52_largest_central_displacement.
