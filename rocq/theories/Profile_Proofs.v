(** Proofs about the plasma profiles. *)
From Coq Require Import Reals ZArith List Bool String Lra Lia Psatz.
From Verif Require Import Beam2D_Spec BeamGen_Model BeamGen_Dict Profile_Model Profile_Spec.
Import ListNotations.
Local Open Scope list_scope.
Local Open Scope R_scope.

Lemma ltb_true x y : ltb x y = true <-> x < y.
Proof. unfold ltb. destruct (Rlt_dec x y); split; auto; discriminate. Qed.
Lemma ltb_false x y : ltb x y = false <-> y <= x.
Proof. unfold ltb. destruct (Rlt_dec x y); split; intros; try lra; try discriminate; auto. Qed.
Lemma leb_true x y : leb x y = true <-> x <= y.
Proof. unfold leb. destruct (Rle_dec x y); split; auto; discriminate. Qed.
Lemma list_min_spec l m : list_min l = Some m -> In m l /\ forall x, In x l -> m <= x.
Proof.
  revert m; induction l as [|x l IH]; intros m H; simpl in H; [discriminate|].
  destruct (list_min l) as [y|] eqn:E.
  - injection H as <-. destruct (IH y eq_refl) as [A B]. split.
    + unfold Rmin. destruct (Rle_dec x y); [now left|now right].
    + intros z [<-|Hz]; [apply Rmin_l|]. eapply Rle_trans; [apply Rmin_r|auto].
  - injection H as <-. split; [now left|]. destruct l; [|simpl in E; destruct (list_min l); discriminate].
    intros z [<-|[]]. lra.
Qed.
Lemma list_min_none l : list_min l = None <-> l = [].
Proof. destruct l; simpl; [tauto|]. destruct (list_min l); split; discriminate. Qed.

(** * The longitudinal table *)
Fixpoint zval (segs : list zseg) (t : R) : R :=
  match segs with
  | [] => 1
  | s :: rest =>
      if Rlt_dec t (z_len s) then
        match s with ZLin l a b => (a * (l - t) + b * t) / l | ZOther _ => 1 end
      else zval rest (t - z_len s)
  end.
Section Z.
  Variable float_of : string -> option R.
  Lemma zline_num line s : zline float_of line s -> num float_of line 0 = Some (z_len s).
  Proof. intros H. inversion H; subst; unfold num; simpl; assumption. Qed.
  Lemma zloop_val lines : forall segs t, Forall2 (zline float_of) lines segs ->
    zshape_loop float_of lines t = Some (zval segs t).
  Proof.
    induction lines as [|line lines IH]; intros segs t H; inversion H as [|? s ? rest HL HR]; subst; [reflexivity|].
    cbn [zshape_loop zval]. rewrite (zline_num line s HL). cbn [obind]. unfold ltb.
    destruct (Rlt_dec t (z_len s)); [|now apply IH].
    inversion HL; subst; unfold num, word; simpl.
    - rewrite H1, H2. simpl. reflexivity.
    - destruct (String.eqb_spec k "L"); [contradiction|reflexivity].
  Qed.
End Z.
Lemma z_total_app l m : z_total (l ++ m) = z_total l + z_total m.
Proof. unfold z_total. induction l as [|s l IH]; simpl; lra. Qed.
Lemma z_total_cons s l : z_total (s :: l) = z_len s + z_total l.
Proof. reflexivity. Qed.
Lemma z_total_nonneg l : (forall s, In s l -> 0 <= z_len s) -> 0 <= z_total l.
Proof.
  induction l as [|s l IH]; intros H; [unfold z_total; simpl; lra|]. rewrite z_total_cons.
  assert (0 <= z_len s) by (apply H; now left). assert (0 <= z_total l) by (apply IH; intros; apply H; now right). lra.
Qed.
Lemma zval_density segs : forall t, (forall s, In s segs -> 0 <= z_len s) -> 0 <= t -> z_density segs t (zval segs t).
Proof.
  induction segs as [|s segs IH]; intros t HL HT.
  - right. unfold z_total; simpl. lra.
  - cbn [zval]. destruct (Rlt_dec t (z_len s)) as [L|L].
    + left. exists [], s, segs. split; [reflexivity|]. change (z_total []) with 0. split; [lra|].
      destruct s as [l a b|l]; [|reflexivity]. simpl in L. field. lra.
    + destruct (IH (t - z_len s)) as [(bf & s' & af & E & B & V)|[B V]]; [intros; apply HL; now right|lra| |].
      * left. exists (s :: bf), s', af. rewrite z_total_cons. split; [now rewrite E|]. split; [lra|].
        destruct s' as [l a b|l]; [|assumption]. rewrite V.
        replace (t - (z_len s + z_total bf)) with (t - z_len s - z_total bf) by ring. reflexivity.
      * right. rewrite z_total_cons. split; [lra|assumption].
Qed.
Lemma split_unique (bf1 af1 bf2 af2 : list zseg) s1 s2 t :
  (forall s, In s (bf1 ++ s1 :: af1) -> 0 <= z_len s) ->
  bf1 ++ s1 :: af1 = bf2 ++ s2 :: af2 ->
  z_total bf1 <= t < z_total bf1 + z_len s1 -> z_total bf2 <= t < z_total bf2 + z_len s2 ->
  s1 = s2 /\ z_total bf1 = z_total bf2.
Proof.
  revert bf2 t. induction bf1 as [|a bf1 IH]; intros [|c bf2] t HL E B1 B2; simpl in E; injection E as -> E.
  - auto.
  - exfalso. rewrite z_total_cons in B2. unfold z_total in B1 at 1 2; simpl in B1.
    assert (0 <= z_total bf2); [|lra]. apply z_total_nonneg. intros s Hs. apply HL. right. rewrite E.
    apply in_or_app. now left.
  - exfalso. rewrite z_total_cons in B1. unfold z_total in B2 at 1 2; simpl in B2.
    assert (0 <= z_total bf1); [|lra]. apply z_total_nonneg. intros s Hs. apply HL. right.
    apply in_or_app. now left.
  - rewrite !z_total_cons in B1, B2. rewrite z_total_cons. destruct (IH bf2 (t - z_len c)) as [A B]; auto; try lra.
    + intros s Hs. apply HL. now right.
    + split; [assumption|rewrite z_total_cons; lra].
Qed.
Lemma z_density_unique segs t v v' : (forall s, In s segs -> 0 <= z_len s) ->
  z_density segs t v -> z_density segs t v' -> v = v'.
Proof.
  intros HL.
  assert (IN : forall bf s af, segs = bf ++ s :: af -> z_total bf <= t < z_total bf + z_len s -> t < z_total segs).
  { intros bf s af E B. rewrite E, z_total_app, z_total_cons.
    assert (0 <= z_total af); [|lra]. apply z_total_nonneg. intros x Hx. apply HL. rewrite E. apply in_or_app. right. now right. }
  intros [(bf & s & af & E & B & V)|[B V]] [(bf' & s' & af' & E' & B' & V')|[B' V']].
  - subst segs. destruct (split_unique bf af bf' af' s s' t HL E' B B') as [<- EB].
    destruct s; [|congruence]. rewrite V, V', EB. reflexivity.
  - exfalso. specialize (IN _ _ _ E B). lra.
  - exfalso. specialize (IN _ _ _ E' B'). lra.
  - congruence.
Qed.
(** Lipschitz continuity of a joined table. *)
Lemma joined_lens segs : joined segs -> forall s, In s segs -> 0 <= z_len s.
Proof.
  induction segs as [|s segs IH]; intros H x Hx; [destruct Hx|]. destruct s as [l a b|]; [|destruct H].
  destruct H as (HL & _ & HJ). destruct Hx as [<-|Hx]; [simpl; lra|auto].
Qed.
Lemma zval_start l a b rest : 0 < l -> zval (ZLin l a b :: rest) 0 = a.
Proof. intros H. simpl. destruct (Rlt_dec 0 l); [|lra]. field. lra. Qed.
Lemma zval_lipschitz S segs : joined segs -> slopes_at_most S segs -> forall t1 t2,
  0 <= t1 -> t1 <= t2 -> t2 < z_total segs -> Rabs (zval segs t2 - zval segs t1) <= S * (t2 - t1).
Proof.
  induction segs as [|s segs IH]; intros HJ HS t1 t2 H1 H2 H3; [unfold z_total in H3; simpl in H3; lra|].
  destruct s as [l a b|]; [|destruct HJ]. destruct HJ as (HL & HN & HJ). rewrite z_total_cons in H3. simpl z_len in H3.
  assert (SL : Rabs (b - a) <= S * l) by (apply HS; now left).
  assert (SS : Rabs (b - a) / l <= S).
  { apply Rmult_le_reg_r with l; [assumption|]. unfold Rdiv. rewrite Rmult_assoc, Rinv_l by lra. lra. }
  assert (HS' : slopes_at_most S segs) by (intros l' a' b' Hin; apply HS; now right).
  cbn [zval z_len].
  destruct (Rlt_dec t1 l) as [L1|L1]; destruct (Rlt_dec t2 l) as [L2|L2]; try lra.
  - replace ((a * (l - t2) + b * t2) / l - (a * (l - t1) + b * t1) / l) with ((b - a) / l * (t2 - t1)) by (field; lra).
    rewrite Rabs_mult, (Rabs_right (t2 - t1)) by lra. apply Rmult_le_compat_r; [lra|].
    unfold Rdiv. rewrite Rabs_mult, (Rabs_right (/ l)); [exact SS|]. apply Rle_ge. left. now apply Rinv_0_lt_compat.
  - destruct segs as [|[l' a' b'|] segs]; [unfold z_total in H3; simpl in H3; lra| |destruct HJ].
    rewrite <- HN in *. destruct HJ as (HL' & HJ2).
    assert (B0 : zval (ZLin l' a' b' :: segs) 0 = a') by (now apply zval_start).
    assert (E1 : Rabs (zval (ZLin l' a' b' :: segs) (t2 - l) - zval (ZLin l' a' b' :: segs) 0) <= S * (t2 - l - 0)).
    { apply IH; auto; [split; auto|lra|lra|lra]. }
    rewrite B0 in E1.
    assert (E2 : Rabs (a' - (a * (l - t1) + a' * t1) / l) <= S * (l - t1)).
    { replace (a' - (a * (l - t1) + a' * t1) / l) with ((a' - a) / l * (l - t1)) by (field; lra).
      rewrite Rabs_mult, (Rabs_right (l - t1)) by lra. apply Rmult_le_compat_r; [lra|].
      unfold Rdiv. rewrite Rabs_mult, (Rabs_right (/ l)); [exact SS|]. apply Rle_ge. left. now apply Rinv_0_lt_compat. }
    replace (zval (ZLin l' a' b' :: segs) (t2 - l) - (a * (l - t1) + a' * t1) / l)
      with ((zval (ZLin l' a' b' :: segs) (t2 - l) - a') + (a' - (a * (l - t1) + a' * t1) / l)) by ring.
    eapply Rle_trans; [apply Rabs_triang|]. lra.
  - replace (S * (t2 - t1)) with (S * ((t2 - l) - (t1 - l))) by ring. apply IH; auto; lra.
Qed.
