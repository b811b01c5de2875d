(** Lemmas for C57: what a layer computes depends only on the beam ahead of it. *)
From Coq Require Import Reals ZArith List Bool Lia Lra Permutation Sorting.Sorted FunctionalExtensionality.
From Verif Require Import Beam2D_Model Beam2D_Spec Beam2D_Proofs Beam2D_Push Beam2D_Dep Shape_Model Shape_Spec Beam3D_Model Beam3D_Spec Beam3D_Proofs Beam3D_Run.
Import ListNotations.
Open Scope R_scope.

Lemma sumR_perm {X} (f : X -> R) l l' : Permutation l l' -> sumR (map f l) = sumR (map f l').
Proof. induction 1; cbn; lra. Qed.

(** A list sorted by distinct keys is determined by its elements. *)
Lemma sorted_unique {X} (key : X -> R) : forall l l', StronglySorted (fun a b => key b <= key a) l -> StronglySorted (fun a b => key b <= key a) l' ->
  NoDup (map key l) -> Permutation l l' -> l = l'.
Proof.
  induction l as [|x l IH]; intros l' S S' N P.
  - apply Permutation_nil in P. now subst.
  - destruct l' as [|y l']; [apply Permutation_sym, Permutation_nil in P; discriminate|].
    inversion S as [|? ? S1 F1]; subst. inversion S' as [|? ? S2 F2]; subst. cbn in N. inversion N as [|? ? N1 N2]; subst.
    rewrite Forall_forall in F1, F2.
    assert (E : x = y).
    { assert (Hy : In y (x :: l)) by (apply (Permutation_in _ (Permutation_sym P)); left; auto).
      assert (Hx : In x (y :: l')) by (apply (Permutation_in _ P); left; auto).
      destruct Hy as [|Hy]; auto. destruct Hx as [|Hx]; auto. exfalso. apply N1.
      specialize (F1 _ Hy). specialize (F2 _ Hx). assert (key x = key y) by lra. rewrite H. now apply in_map. }
    subst y. f_equal. apply IH; auto. now apply Permutation_cons_inv in P.
Qed.
Lemma filter_sorted_unique {X} (key : X -> R) (f : X -> bool) l1 l2 :
  StronglySorted (fun a b => key b <= key a) l1 -> StronglySorted (fun a b => key b <= key a) l2 ->
  NoDup (map key (filter f l1)) -> Permutation (filter f l1) (filter f l2) -> filter f l1 = filter f l2.
Proof. intros S1 S2. apply sorted_unique; now apply SS_filter. Qed.

(** ** 2D *)
Section C2.
  Variable sort_bool : (bpart -> bool) -> list bpart -> list bpart.
  Variable Pl : Type.
  Variable plasma : Pl -> list R -> list R -> Pl.
  Variable pl_fields : Pl -> fields.
  Notation st := (loop_state Pl).
  Definition with_src (s : st) (src : source) : st := mkLS Pl src (ls_move Pl s) (ls_lost Pl s) (ls_drain Pl s) (ls_rho Pl s) (ls_prev Pl s) (ls_plasma Pl s).
  (** the loop body with the slice given *)
  Definition body (h : nat) (c : pcfg) (i : Z) (layer : list bpart) (s : st) : option st :=
    bind (layout_beam_layer (r_step c) (xi_step c) (ls_rho Pl s) layer i) (fun d =>
    let '(rho, rho') := d in
    let pl' := plasma (ls_plasma Pl s) rho (ls_prev Pl s) in
    bind (move_beam_layer sort_bool h c (ls_move Pl s) i (pl_fields (ls_plasma Pl s)) (pl_fields pl')) (fun m =>
    let '(l, moved, fell) := m in
    Some (mkLS Pl (ls_src Pl s) (layer ++ fell) (ls_lost Pl s ++ l) (drain_push (ls_drain Pl s) moved) rho' rho pl'))).
  Fixpoint feed (h : nat) (c : pcfg) (ls : list (list bpart)) (i : Z) (s : st) : option st :=
    match ls with [] => Some s | l :: t => bind (body h c i l s) (feed h c t (i + 1)) end.

  Lemma iter_body h c i s : xi_iter sort_bool Pl plasma pl_fields h c i s =
    bind (get_beam_slice (ls_src Pl s) (IZR i * - xi_step c) (IZR (i + 1) * - xi_step c)) (fun g =>
      body h c i (snd (fst g)) (with_src s (snd g))).
  Proof.
    unfold xi_iter, body. destruct (get_beam_slice _ _ _) as [[[sz l] src']|]; cbn [bind fst snd]; auto.
  Qed.
  Lemma body_src h c i l s src : body h c i l (with_src s src) = option_map (fun s' => with_src s' src) (body h c i l s).
  Proof.
    unfold body, with_src. cbn [ls_move ls_lost ls_drain ls_rho ls_prev ls_plasma ls_src].
    destruct (layout_beam_layer _ _ _ _ _) as [[rho rho']|]; cbn [bind option_map]; auto.
    destruct (move_beam_layer _ _ _ _ _ _ _) as [[[a b] d]|]; reflexivity.
  Qed.
  Lemma feed_src h c ls : forall i s src, feed h c ls i (with_src s src) = option_map (fun s' => with_src s' src) (feed h c ls i s).
  Proof.
    induction ls as [|l ls IH]; intros i s src; cbn [feed]; auto. rewrite body_src. destruct (body h c i l s); cbn [bind option_map]; auto.
  Qed.
  Lemma loop_feed h c n : forall i s s', xi_loop sort_bool Pl plasma pl_fields h c n i s = Some s' ->
    exists sl src', ask (ls_src Pl s) (xi_step c) i n = Some (sl, src') /\
      exists s1, feed h c (map snd sl) i s = Some s1 /\ s' = with_src s1 src'.
  Proof.
    induction n as [|n IH]; intros i s s' H; cbn [xi_loop] in H.
    - injection H as <-. exists [], (ls_src Pl s). split; auto. exists s. split; auto. now destruct s.
    - rewrite iter_body in H. cbn [ask]. destruct (get_beam_slice _ _ _) as [[[sz l] src1]|]; cbn [bind fst snd] in H; [|discriminate].
      rewrite body_src in H. destruct (body h c i l s) as [s2|] eqn:B; cbn [bind option_map] in H; [|discriminate].
      destruct (IH _ _ _ H) as (sl & src' & A & s1 & F & ->). cbn [with_src ls_src] in A. rewrite A.
      exists ((sz, l) :: sl), src'. split; auto. cbn [map snd feed]. rewrite B. cbn [bind].
      rewrite feed_src in F. destruct (feed h c (map snd sl) (i + 1) s2) as [s3|]; [|discriminate]. injection F as <-.
      exists s3. split; auto.
  Qed.

  Lemma layout_perm h d rho l l' i o o' : 0 < h -> 0 < d -> Permutation l l' -> (forall b, In b l -> 0 <= rad (pt b)) ->
    layout_beam_layer h d rho l i = Some o -> layout_beam_layer h d rho l' i = Some o' -> o = o'.
  Proof.
    intros Hh Hd P Hr E E'. destruct o as [a b], o' as [a' b'].
    destruct (layout_spec _ _ _ _ _ _ _ Hh Hd Hr E) as (L1 & L2 & A & B).
    assert (Hr' : forall b, In b l' -> 0 <= rad (pt b)) by (intros; apply Hr; eapply Permutation_in; [apply Permutation_sym; eauto|auto]).
    destruct (layout_spec _ _ _ _ _ _ _ Hh Hd Hr' E') as (L1' & L2' & A' & B').
    f_equal; apply (nth_ext _ _ 0 0); try congruence.
    - intros k Hk. rewrite A, A' by congruence. f_equal. f_equal. unfold cic_upper. now apply sumR_perm.
    - intros k Hk. rewrite B, B'. unfold cic_lower. now apply sumR_perm.
  Qed.

  Definition same_wake (s t : st) : Prop := ls_rho Pl s = ls_rho Pl t /\ ls_prev Pl s = ls_prev Pl t /\ ls_plasma Pl s = ls_plasma Pl t.
  Lemma feed_wake h c : 0 < r_step c -> 0 < xi_step c -> forall ls ls', Forall2 (fun a b => Permutation a b /\ forall p, In p a -> 0 <= rad (pt p)) ls ls' ->
    forall i s t s' t', same_wake s t -> feed h c ls i s = Some s' -> feed h c ls' i t = Some t' -> same_wake s' t'.
  Proof.
    intros Hh Hd ls ls'. induction 1 as [|a b ls ls' [P Hr] F IH]; intros i s t s' t' W A B; cbn [feed] in A, B; [congruence|].
    destruct (body h c i a s) as [s1|] eqn:B1; cbn [bind] in A; [|discriminate]. destruct (body h c i b t) as [t1|] eqn:B2; cbn [bind] in B; [|discriminate].
    refine (IH _ _ _ _ _ _ A B).
    destruct W as (W1 & W2 & W3). unfold body in B1, B2. rewrite W1 in B1.
    destruct (layout_beam_layer _ _ _ a _) as [o|] eqn:E1; cbn [bind] in B1; [|discriminate].
    destruct (layout_beam_layer _ _ _ b _) as [o'|] eqn:E2; cbn [bind] in B2; [|discriminate].
    assert (o = o') by exact (layout_perm _ _ _ _ _ _ _ _ Hh Hd P Hr E1 E2). subst o'. destruct o as [r r'].
    destruct (move_beam_layer _ _ _ _ _ _ _) as [[[x1 x2] x3]|] in B1; cbn [bind] in B1; [|discriminate].
    destruct (move_beam_layer _ _ _ _ _ _ _) as [[[y1 y2] y3]|] in B2; cbn [bind] in B2; [|discriminate].
    injection B1 as <-. injection B2 as <-. unfold same_wake. cbn. now rewrite W2, W3.
  Qed.
End C2.

Definition ahead2 (lo : R) (p : part) : bool := if Rle_dec lo (xi p) then true else false.
Definition layer2 (dxi : R) (i : Z) (k : nat) (p : part) : bool := if Nat.eqb k 0 then in_xi_layer_top dxi i p else in_xi_layer dxi (i + Z.of_nat k) p.
Lemma layer_ahead dxi i n k l : 0 < dxi -> (k < n)%nat ->
  filter (layer2 dxi i k) l = filter (layer2 dxi i k) (filter (ahead2 (- (IZR (i + Z.of_nat n) * dxi))) l).
Proof.
  intros Hd Hk. rewrite filter_filter. apply filter_ext_in'. intros p _. unfold ahead2. destruct (Rle_dec _ _) as [|Hn]; cbn [andb]; auto.
  assert (K : IZR (i + Z.of_nat k + 1) <= IZR (i + Z.of_nat n)) by (apply IZR_le; lia).
  unfold layer2, in_xi_layer_top, in_xi_layer. destruct (Nat.eqb_spec k 0) as [->|].
  - change (Z.of_nat 0) with 0%Z in K. rewrite Z.add_0_r in K. destruct (Rle_dec _ _); auto. destruct (Rle_dec _ _); auto. nra.
  - destruct (Rle_dec _ _); auto. destruct (Rlt_dec _ _); auto. nra.
Qed.
Lemma ask_slices sort_xi beam dxi i n sl src' : sort_xi_ok sort_xi -> 0 < dxi -> IZR (i + Z.of_nat n) * dxi <= 99999 ->
  (forall p, In p beam -> xi p <= - (IZR i * dxi)) -> ask (new_source sort_xi beam) dxi i n = Some (sl, src') ->
  map snd sl = map (fun k => map fresh (filter (layer2 dxi i k) (sort_xi beam))) (seq 0 n).
Proof.
  intros Hs Hd Hl Ht A. destruct (source_delivers sort_xi beam dxi i n Hs Hd Hl Ht) as (sl' & src2 & A' & L & D).
  rewrite A in A'. injection A' as <- <-. apply (nth_ext _ _ [] []); [now rewrite !map_length, seq_length|].
  intros k Hk. rewrite map_length in Hk. rewrite L in Hk. 
  change [] with (snd (0%nat, @nil bpart)) at 1. rewrite map_nth, (D k Hk). cbn [snd].
  rewrite (nth_indep _ [] (map fresh (filter (layer2 dxi i 0) (sort_xi beam)))) by (now rewrite map_length, seq_length).
  rewrite (map_nth (fun k => map fresh (filter (layer2 dxi i k) (sort_xi beam)))), seq_nth by auto. reflexivity.
Qed.

(** ** 3D *)
Section C3.
  Variable Pl : Type.
  Variable plasma : Pl -> grid -> grid -> Pl.
  Variable pl_fields : Pl -> fields3.
  Notation st := (state3 Pl).
  Definition with_src3 (s : st) (src : list part3) : st := mkS3 Pl src (s_move Pl s) (s_fell Pl s) (s_lost Pl s) (s_drain Pl s) (s_rho Pl s) (s_prev Pl s) (s_pl Pl s).
  Definition body3 (u : unit_type) (h : nat) (c : cfg3) (i : Z) (layer : list part3) (s : st) : option st :=
    let '(rho, rho') := layout3 (c_n c) (c_h c) (c_dxi c) (s_rho Pl s) layer i in
    let pl' := plasma (s_pl Pl s) rho (s_prev Pl s) in
    option_map (fun r => let '(lost, moved, fell) := r in
      mkS3 Pl (s_src Pl s) (layer ++ fell) (List.length fell) (s_lost Pl s ++ lost) (push_layer3 (s_drain Pl s) moved) rho' rho pl')
      (move_layer3 u h c (s_move Pl s) (s_fell Pl s) i (pl_fields (s_pl Pl s)) (pl_fields pl')).
  Fixpoint feed3 (u : unit_type) (h : nat) (c : cfg3) (ls : list (list part3)) (i : Z) (s : st) : option st :=
    match ls with [] => Some s | l :: t => match body3 u h c i l s with None => None | Some s' => feed3 u h c t (i + 1) s' end end.
  Lemma iter_body3 u h c i s : iter3 Pl plasma pl_fields u h c i s =
    let '(layer, src') := get_layer3 (c_dxi c) (s_src Pl s) i in body3 u h c i layer (with_src3 s src').
  Proof. unfold iter3, body3. destruct (get_layer3 _ _ _) as [l src']. reflexivity. Qed.
  Lemma body3_src u h c i l s src : body3 u h c i l (with_src3 s src) = option_map (fun s' => with_src3 s' src) (body3 u h c i l s).
  Proof.
    unfold body3, with_src3. cbn [s_move s_fell s_lost s_drain s_rho s_prev s_pl s_src].
    destruct (layout3 _ _ _ _ _ _) as [rho rho']. destruct (move_layer3 _ _ _ _ _ _ _ _) as [[[a b] d]|]; reflexivity.
  Qed.
  Lemma feed3_src u h c ls : forall i s src, feed3 u h c ls i (with_src3 s src) = option_map (fun s' => with_src3 s' src) (feed3 u h c ls i s).
  Proof.
    induction ls as [|l ls IH]; intros i s src; cbn [feed3]; auto. rewrite body3_src. destruct (body3 u h c i l s); cbn [option_map]; auto.
  Qed.
  Lemma loop_feed3 u h c n : forall i s s', run3 Pl plasma pl_fields u h c n i s = Some s' ->
    exists s1, feed3 u h c (fst (ask3 (c_dxi c) (s_src Pl s) i n)) i s = Some s1 /\ s' = with_src3 s1 (snd (ask3 (c_dxi c) (s_src Pl s) i n)).
  Proof.
    induction n as [|n IH]; intros i s s' H; cbn [run3] in H.
    - injection H as <-. cbn [ask3 fst snd]. exists s. split; auto. now destruct s.
    - rewrite iter_body3 in H. cbn [ask3]. destruct (get_layer3 _ _ _) as [l src1].
      rewrite body3_src in H. destruct (body3 u h c i l s) as [s2|] eqn:B; cbn [option_map] in H; [|discriminate].
      destruct (IH _ _ _ H) as (s1 & F & ->). cbn [with_src3 s_src] in F |- *.
      destruct (ask3 (c_dxi c) src1 (i + 1) n) as [r s3]. cbn [fst snd feed3] in *. rewrite B.
      rewrite feed3_src in F. destruct (feed3 u h c r (i + 1) s2) as [s4|]; [|discriminate]. injection F as <-.
      exists s4. split; auto.
  Qed.
  Lemma layout3_perm n h dxi rho l l' i : 0 < h -> Permutation l l' -> layout3 n h dxi rho l i = layout3 n h dxi rho l' i.
  Proof.
    intros Hh P. destruct (layout3 n h dxi rho l i) as [a b] eqn:E. destruct (layout3 n h dxi rho l' i) as [a' b'] eqn:E'.
    f_equal; extensionality x; extensionality y;
      destruct (layout3_val _ _ _ _ _ _ _ _ Hh E x y) as [V1 V2]; destruct (layout3_val _ _ _ _ _ _ _ _ Hh E' x y) as [V1' V2'].
    - rewrite V1, V1'. f_equal. f_equal. now apply sumR_perm.
    - rewrite V2, V2'. now apply sumR_perm.
  Qed.
  Definition same_wake3 (s t : st) : Prop := s_rho Pl s = s_rho Pl t /\ s_prev Pl s = s_prev Pl t /\ s_pl Pl s = s_pl Pl t.
  Lemma feed_wake3 u h c : 0 < c_h c -> forall ls ls', Forall2 (@Permutation part3) ls ls' ->
    forall i s t s' t', same_wake3 s t -> feed3 u h c ls i s = Some s' -> feed3 u h c ls' i t = Some t' -> same_wake3 s' t'.
  Proof.
    intros Hh ls ls'. induction 1 as [|a b ls ls' P F IH]; intros i s t s' t' W A B; cbn [feed3] in A, B; [congruence|].
    destruct (body3 u h c i a s) as [s1|] eqn:B1; [|discriminate]. destruct (body3 u h c i b t) as [t1|] eqn:B2; [|discriminate].
    refine (IH _ _ _ _ _ _ A B). destruct W as (W1 & W2 & W3). unfold body3 in B1, B2. rewrite W1, (layout3_perm _ _ _ _ _ _ _ Hh P) in B1.
    destruct (layout3 _ _ _ _ b _) as [r r'].
    destruct (move_layer3 _ _ _ _ _ _ _ _) as [[[x1 x2] x3]|] in B1; cbn [option_map] in B1; [|discriminate].
    destruct (move_layer3 _ _ _ _ _ _ _ _) as [[[y1 y2] y3]|] in B2; cbn [option_map] in B2; [|discriminate].
    injection B1 as <-. injection B2 as <-. unfold same_wake3. cbn. now rewrite W2, W3.
  Qed.
End C3.
Definition ahead3 (lo : R) (p : part3) : bool := if Rle_dec lo (b_xi p) then true else false.
Lemma layer_ahead3 dxi i n k l : 0 < dxi -> (k < n)%nat ->
  filter (in_layer3 dxi (i + Z.of_nat k)) l = filter (in_layer3 dxi (i + Z.of_nat k)) (filter (ahead3 (- (IZR (i + Z.of_nat n) * dxi))) l).
Proof.
  intros Hd Hk. rewrite filter_filter. apply filter_ext_in'. intros p _. unfold ahead3. destruct (Rle_dec _ _) as [|Hn]; cbn [andb]; auto.
  destruct (in_layer3 _ _ _) eqn:E; auto. apply in_layer3_iff in E. destruct E as [E _].
  assert (K : IZR (i + Z.of_nat k + 1) <= IZR (i + Z.of_nat n)) by (apply IZR_le; lia). nra.
Qed.
