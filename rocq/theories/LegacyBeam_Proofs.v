(** Lemmas for C72. *)
From Coq Require Import Reals ZArith List Bool String Lia Lra Psatz Permutation.
From Verif Require Import Beam2D_Model BeamGen_Model Profile_Model CylProfile_Model LegacyBeam_Model LegacyBeam_Spec Beam2D_Free.
Import ListNotations.
Local Open Scope list_scope.
Local Open Scope R_scope.

(** ** Sorting *)
Section Sort.
  Variables (A : Type) (key : A -> R) (d : A).
  Lemma insert_perm x l : Permutation (insert_desc key x l) (x :: l).
  Proof. induction l as [|y l IH]; cbn; [reflexivity|]. destruct (Rle_dec (key y) (key x)); [reflexivity|]. rewrite IH. apply perm_swap. Qed.
  Lemma sort_perm l : Permutation (sort_desc key l) l.
  Proof. induction l as [|x l IH]; cbn; [reflexivity|]. rewrite insert_perm, IH. reflexivity. Qed.
  Inductive down : list A -> Prop := down_nil : down [] | down_cons x l : Forall (fun y => key y <= key x) l -> down l -> down (x :: l).
  Lemma insert_down x l : down l -> down (insert_desc key x l).
  Proof.
    induction 1 as [|y l H D IH]; cbn; [repeat constructor|]. destruct (Rle_dec (key y) (key x)) as [L|L].
    - constructor; [constructor; [exact L|]|now constructor]. eapply Forall_impl; [|exact H]. cbn. intros; lra.
    - constructor; [|exact IH]. rewrite insert_perm. constructor; [lra|exact H].
  Qed.
  Lemma sort_down l : down (sort_desc key l).
  Proof. induction l as [|x l IH]; cbn; [constructor|]. now apply insert_down. Qed.
  Lemma filter_down P l : down l -> down (filter P l).
  Proof. induction 1 as [|x l H D IH]; cbn; [constructor|]. destruct (P x); [constructor; [|exact IH]|exact IH]. rewrite Forall_forall in *. intros y Hy. apply filter_In in Hy. now apply H. Qed.
  Lemma down_descending l : down l -> descending key l d.
  Proof.
    induction 1 as [|x l H D IH]; intros i j Hij; cbn in *; [lia|]. destruct j as [|j]; [lia|]. destruct i as [|i]; [|apply IH; lia].
    rewrite Forall_forall in H. apply H. apply nth_In. lia.
  Qed.
  Lemma down_app_last l x y : down (l ++ [x]) -> In y l -> key x <= key y.
  Proof.
    induction l as [|z l IH]; intros D H; [contradiction|]. cbn in D. inversion D as [|? ? F D']; subst. destruct H as [->|H]; [|now apply IH].
    rewrite Forall_forall in F. apply F. apply in_or_app. right. now left.
  Qed.
End Sort.
Lemma how_many_perm A (P : A -> bool) l l' : Permutation l l' -> how_many P l = how_many P l'.
Proof. intros H. unfold how_many. induction H; cbn; auto; try congruence; [destruct (P x); cbn; congruence|destruct (P x), (P y); reflexivity]. Qed.
Lemma how_many_app A (P : A -> bool) l l' : how_many P (l ++ l') = (how_many P l + how_many P l')%nat.
Proof. unfold how_many. rewrite filter_app, app_length. reflexivity. Qed.
Lemma how_many_none A (P : A -> bool) l : (forall x, In x l -> P x = false) -> how_many P l = 0%nat.
Proof. intros H. induction l as [|x l IH]; [reflexivity|]. unfold how_many in *. cbn. rewrite (H x) by now left. apply IH. intros; apply H; now right. Qed.
Lemma how_many_all A (P : A -> bool) l : (forall x, In x l -> P x = true) -> how_many P l = List.length l.
Proof. intros H. induction l as [|x l IH]; [reflexivity|]. unfold how_many in *. cbn. rewrite (H x) by now left. cbn. f_equal. apply IH. intros; apply H; now right. Qed.
Lemma how_many_filter A (P K : A -> bool) l : (forall x, P x = true -> K x = true) -> how_many P (filter K l) = how_many P l.
Proof.
  intros H. induction l as [|x l IH]; [reflexivity|]. unfold how_many in *. cbn. destruct (K x) eqn:E; cbn; destruct (P x) eqn:F; cbn; try congruence.
  apply H in F. congruence.
Qed.
Lemma how_many_map A B (f : A -> B) (P : B -> bool) l : how_many P (map f l) = how_many (fun x => P (f x)) l.
Proof. induction l as [|x l IH]; [reflexivity|]. unfold how_many in *. cbn. destruct (P (f x)); cbn; congruence. Qed.
Lemma how_many_ext A (P Q : A -> bool) l : (forall x, P x = Q x) -> how_many P l = how_many Q l.
Proof. intros H. unfold how_many. f_equal. apply filter_ext. exact H. Qed.
Lemma map_nth_seq A (l : list A) d : map (fun k => nth k l d) (seq 0 (List.length l)) = l.
Proof.
  induction l as [|x l IH]; [reflexivity|]. cbn. f_equal. rewrite <- seq_shift, map_map. exact IH.
Qed.

(** ** Layers *)
Section Layers.
  Variables (f : R -> R) (xi_max ppl dxi : R) (u : nat -> R).
  Hypotheses (Hd : 0 < dxi) (Hu : forall i, 0 <= u i < 1).
  Lemma in_layer_iff j x : in_layer dxi j x = true <-> IZR j * dxi <= x < IZR (j + 1) * dxi.
  Proof. unfold in_layer. destruct (Rle_dec (IZR j * dxi) x), (Rlt_dec x (IZR (j + 1) * dxi)); split; intros; try discriminate; try lra; reflexivity. Qed.
  Lemma layers_range top k s x : In x (layers_down f xi_max ppl dxi u top k s) -> IZR (top - Z.of_nat k) * dxi <= x < IZR top * dxi.
  Proof.
    revert top s. induction k as [|k IH]; intros top s H; [contradiction|]. cbn [layers_down] in H. apply in_app_or in H. destruct H as [H|H].
    - apply in_map_iff in H. destruct H as (i & <- & _). specialize (Hu (s + i)%nat).
      assert (IZR (top - Z.of_nat (S k)) <= IZR (top - 1)) by (apply IZR_le; lia). rewrite (minus_IZR top 1) in *. nra.
    - apply IH in H. replace (top - Z.of_nat (S k))%Z with (top - 1 - Z.of_nat k)%Z by lia. rewrite (minus_IZR top 1) in H. nra.
  Qed.
  Lemma layers_counted top k s j : (top - Z.of_nat k <= j < top)%Z ->
    how_many (in_layer dxi j) (layers_down f xi_max ppl dxi u top k s) = layer_count f xi_max ppl dxi (IZR j * dxi).
  Proof.
    revert top s. induction k as [|k IH]; intros top s H; [lia|]. cbn [layers_down]. rewrite how_many_app. set (n := layer_count f xi_max ppl dxi (IZR (top - 1) * dxi)).
    destruct (Z.eq_dec j (top - 1)) as [->|N].
    - rewrite how_many_all. 2:{ intros x Hx. apply in_map_iff in Hx. destruct Hx as (i & <- & _). specialize (Hu (s + i)%nat). apply in_layer_iff. replace (top - 1 + 1)%Z with top by lia. rewrite minus_IZR. nra. }
      rewrite how_many_none. 2:{ intros x Hx. apply layers_range in Hx. destruct (in_layer dxi (top - 1) x) eqn:E; [|reflexivity]. apply in_layer_iff in E. lra. }
      rewrite map_length, seq_length. unfold n. lia.
    - rewrite how_many_none. 2:{ intros x Hx. apply in_map_iff in Hx. destruct Hx as (i & <- & _). specialize (Hu (s + i)%nat). destruct (in_layer dxi j _) eqn:E; [|reflexivity]. apply in_layer_iff in E.
        assert (IZR (j + 1) <= IZR (top - 1)) by (apply IZR_le; lia). nra. }
      apply IH. lia.
  Qed.
End Layers.

(** ** The pieces of a beam *)
Lemma make_beam_some geom L distrs sh xis q qm savehead saveto b : make_beam geom L distrs sh xis q qm savehead saveto = Some b ->
  exists cols col xi, columns geom = Some cols /\ xi = sort_desc (fun x => x) (filter (fun x => if Rle_dec (- L) x then (if savehead then true else if Rle_dec x 0 then true else false) else false) xis) /\
    b = map (fun k => mkLP (nth k xi 0) (col k) qm q k) (seq 0 (List.length xi)) ++ [stub].
Proof.
  unfold make_beam. destruct (columns geom) as [cols|]; [cbn|discriminate]. intros H. destruct (forallb _ cols); [|discriminate]. destruct (savehead && negb saveto); [discriminate|]. injection H as <-.
  exists cols. eexists _, _. split; [reflexivity|]. split; [reflexivity|]. reflexivity.
Qed.
Section Join.
  Variables (mk : nat -> seg -> option (list lpart)) (P : lpart -> bool).
  Hypothesis HP : P stub = false.
  Hypothesis Hmk : forall k s b, mk k s = Some b -> exists b0, b = b0 ++ [stub].
  Fixpoint count_segments (k : nat) (segs : list seg) : nat :=
    match segs with [] => 0%nat | s :: r => ((match mk k s with Some b => how_many P b | None => 0 end) + count_segments (S k) r)%nat end.
  Lemma how_many_removelast b0 : how_many P (removelast (b0 ++ [stub])) = how_many P (b0 ++ [stub]).
  Proof. rewrite removelast_last, how_many_app. unfold how_many at 3. cbn. rewrite HP. cbn. lia. Qed.
  Lemma join_count segs : forall k old res, (match old with Some o => exists o0, o = o0 ++ [stub] | None => True end) -> join_segments mk k segs old = Some res ->
    how_many P res = ((match old with Some o => how_many P o | None => 0 end) + count_segments k segs)%nat /\ (exists r0, res = r0 ++ [stub]).
  Proof.
    induction segs as [|s segs IH]; intros k old res Ho H; cbn in *; [subst old; split; [lia|exact Ho]|].
    destruct (mk k s) as [b|] eqn:E; [|discriminate]. cbn in H. destruct (Hmk k s b E) as (b0 & ->).
    assert (Q : exists o0, (match old with None => b0 ++ [stub] | Some o => removelast o ++ b0 ++ [stub] end) = o0 ++ [stub]).
    { destruct old as [o|]; [exists (removelast o ++ b0); apply app_assoc|exists b0; reflexivity]. }
    assert (K := IH (S k) (Some _) res Q H).
    destruct K as (K & K2). split; [|exact K2]. rewrite K. clear K. destruct old as [o|]; [|lia]. destruct Ho as (o0 & ->). rewrite how_many_app, how_many_removelast. lia.
  Qed.
  Lemma join_in segs : forall k old res p, join_segments mk k segs old = Some res -> In p res ->
    (match old with Some o => In p o | None => False end) \/ exists i s b, nth_error segs i = Some s /\ mk (k + i)%nat s = Some b /\ In p b.
  Proof.
    induction segs as [|s segs IH]; intros k old res p H Hp; cbn in *; [subst old; now left|].
    destruct (mk k s) as [b|] eqn:E; [|discriminate]. cbn in H. destruct (IH _ _ _ p H Hp) as [I|(i & s' & b' & A & B & C)].
    - destruct old as [o|].
      + apply in_app_or in I. destruct I as [I|I]; [left|right; exists 0%nat, s, b; rewrite Nat.add_0_r; auto].
        clear - I. destruct o as [|x o]; [contradiction|]. rewrite (app_removelast_last x (l := x :: o)) by discriminate. apply in_or_app. now left.
      + right. exists 0%nat, s, b. rewrite Nat.add_0_r. auto.
    - right. exists (S i), s', b'. replace (k + S i)%nat with (S k + i)%nat by lia. auto.
  Qed.
End Join.

Lemma join_front (mk : nat -> seg -> option (list lpart)) (Q : lpart -> Prop) segs : forall k old res,
  (match old with Some o => exists o0, o = o0 ++ [stub] /\ Forall Q o0 | None => segs <> [] end) ->
  (forall i s b, nth_error segs i = Some s -> mk (k + i)%nat s = Some b -> exists b0, b = b0 ++ [stub] /\ Forall Q b0) ->
  join_segments mk k segs old = Some res -> exists r0, res = r0 ++ [stub] /\ Forall Q r0.
Proof.
  induction segs as [|s segs IH]; intros k old res Ho H J; cbn in J; [subst old; exact Ho|].
  destruct (mk k s) as [b|] eqn:E; [|discriminate]. cbn in J. destruct (H 0%nat s b eq_refl) as (b0 & -> & Fb); [rewrite Nat.add_0_r; exact E|].
  apply (IH (S k) _ res) in J; [exact J| |].
  - destruct old as [o|]; [|exists b0; auto]. destruct Ho as (o0 & -> & Fo). rewrite removelast_last. exists (o0 ++ b0). split; [apply app_assoc|]. apply Forall_app. auto.
  - intros i s' b' Hs Hb. apply (H (S i) s' b' Hs). replace (k + S i)%nat with (S k + i)%nat by lia. exact Hb.
Qed.
Lemma join_each (mk : nat -> seg -> option (list lpart)) segs : forall k old res i s, join_segments mk k segs old = Some res -> nth_error segs i = Some s -> exists b, mk (k + i)%nat s = Some b.
Proof.
  induction segs as [|t segs IH]; intros k old res i s J N; [destruct i; discriminate|]. cbn in J. destruct (mk k t) as [b|] eqn:E; [|discriminate]. cbn in J.
  destruct i as [|i]; cbn in N; [injection N as <-; rewrite Nat.add_0_r; eauto|]. replace (k + S i)%nat with (S k + i)%nat by lia. eapply IH; eauto.
Qed.
Lemma count_one (mk : nat -> seg -> option (list lpart)) (P : lpart -> bool) n segs : forall k i,
  (i < List.length segs)%nat ->
  (forall i' s, nth_error segs i' = Some s -> (match mk (k + i')%nat s with Some b => how_many P b | None => 0 end) = if Nat.eqb i' i then n else 0)%nat ->
  count_segments mk P k segs = n.
Proof.
  assert (Z : forall segs k, (forall i s, nth_error segs i = Some s -> (match mk (k + i)%nat s with Some b => how_many P b | None => 0 end) = 0)%nat -> count_segments mk P k segs = 0%nat).
  { induction segs0 as [|s segs0 IH]; intros k H; [reflexivity|]. cbn. assert (H0 := H 0%nat s eq_refl). rewrite Nat.add_0_r in H0. rewrite H0. apply IH. intros i s' N. specialize (H (S i) s' N). replace (k + S i)%nat with (S k + i)%nat in H by lia. exact H. }
  induction segs as [|s segs IH]; intros k i Hi H; [cbn in Hi; lia|]. cbn. assert (H0 := H 0%nat s eq_refl). rewrite Nat.add_0_r in H0. rewrite H0. destruct i as [|i].
  - cbn. rewrite Z; [lia|]. intros i s' N. specialize (H (S i) s' N). replace (k + S i)%nat with (S k + i)%nat in H by lia. exact H.
  - cbn. cbn in Hi. apply (IH (S k) i); [lia|]. intros i' s' N. specialize (H (S i') s' N). replace (k + S i')%nat with (S k + i')%nat in H by lia. exact H.
Qed.
