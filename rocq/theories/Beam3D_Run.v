(** The 3D xi loop as a whole, free motion, and the two momentum updates. *)
From Coq Require Import Reals ZArith List Bool Permutation Sorting.Sorted Lra Lia Psatz.
From Verif Require Import Beam2D_Model Beam2D_Spec Beam2D_Proofs Beam2D_Push Beam2D_Dep Beam2D_Total Shape_Model Shape_Spec Shape_Proofs Beam3D_Model Beam3D_Spec Beam3D_Proofs.
Import ListNotations.
Open Scope R_scope.

(** ** Nothing disappears *)
Definition fl_l (x : part3 * (bool * bool * bool)) := fst (fst (snd x)).
Definition fl_m (x : part3 * (bool * bool * bool)) := snd (fst (snd x)).
Definition fl_f (x : part3 * (bool * bool * bool)) := snd (snd x).

Lemma flags_perm (r : list (part3 * (bool * bool * bool))) :
  (forall x, In x r -> fl_m x = negb (fl_f x) && negb (fl_l x)) ->
  Permutation (filter fl_l r ++ filter fl_m r ++ filter fl_f r) (r ++ filter (fun x => fl_l x && fl_f x) r).
Proof.
  induction r as [|x r IH]; intros H; [reflexivity|].
  specialize (IH (fun y Hy => H y (or_intror Hy))). pose proof (H x (or_introl eq_refl)) as Hx.
  cbn [filter]. rewrite Hx. destruct (fl_l x), (fl_f x); cbn [negb andb].
  - cbn [app]. apply perm_skip. rewrite !app_assoc. rewrite <- Permutation_middle. rewrite <- (Permutation_middle r).
    apply perm_skip. rewrite <- app_assoc. exact IH.
  - cbn [app]. apply perm_skip. exact IH.
  - rewrite !app_assoc. rewrite <- Permutation_middle. cbn [app]. apply perm_skip. rewrite <- app_assoc. exact IH.
  - cbn [app]. rewrite <- Permutation_middle. apply perm_skip. exact IH.
Qed.

Lemma move_one3_flags u c idx fk fk1 p : fl_m (move_one3 u c idx fk fk1 p) =
  negb (fl_f (move_one3 u c idx fk fk1 p)) && negb (fl_l (move_one3 u c idx fk fk1 p)).
Proof. unfold move_one3, fl_m, fl_f, fl_l. destruct (loop3 _ _ _ _ _ _ _) as [[q l] f]. reflexivity. Qed.
Lemma move_one3_ident u c idx fk fk1 p : ident3 (fst (move_one3 u c idx fk fk1 p)) = ident3 p.
Proof.
  unfold move_one3. pose proof (loop3_ident u c idx fk fk1 (b_rem p) p) as H.
  destruct (loop3 _ _ _ _ _ _ _) as [[q l] f]. exact H.
Qed.

Lemma start_layer3_ident h e t l k l' : start_layer3 h e t l k = Some l' -> map ident3 l' = map ident3 l.
Proof.
  unfold start_layer3. destruct (map_opt _ _) as [a|] eqn:E; cbn [option_map]; intros H; [|discriminate]. injection H as <-.
  rewrite map_app.
  assert (K : forall x y, start3 h e t x = Some y -> ident3 y = ident3 x) by (intros x y Hy; now destruct (start3_keeps _ _ _ _ _ Hy)).
  rewrite (map_opt_keeps _ ident3 ident3 K _ _ E).
  rewrite <- map_app, firstn_skipn. reflexivity.
Qed.

(** the list of particles counted twice by one move: lost and also fallen *)
Definition doubled u h c l k pl fk fk1 : list part3 :=
  match start_layer3 h (c_energy c) (c_time_step c) l k with
  | None => []
  | Some l' => map fst (filter (fun x => fl_l x && fl_f x) (map (move_one3 u c (pl - 1) fk fk1) l'))
  end.
Lemma move_layer3_perm u h c l k pl fk fk1 lost moved fell :
  move_layer3 u h c l k pl fk fk1 = Some (lost, moved, fell) ->
  Permutation (map ident3 (lost ++ moved ++ fell)) (map ident3 l ++ map ident3 (doubled u h c l k pl fk fk1)) /\
  incl (doubled u h c l k pl fk fk1) lost /\ incl (doubled u h c l k pl fk fk1) fell.
Proof.
  unfold move_layer3, doubled. destruct (start_layer3 _ _ _ _ _) as [l'|] eqn:E; cbn [option_map]; intros H; [|discriminate].
  apply start_layer3_ident in E. injection H as <- <- <-. set (r := map _ l').
  assert (Hr : forall x, In x r -> fl_m x = negb (fl_f x) && negb (fl_l x)).
  { intros x Hx. apply in_map_iff in Hx. destruct Hx as (p & <- & _). apply move_one3_flags. }
  pose proof (flags_perm r Hr) as P.
  split; [|split].
  - rewrite <- !map_app.
    eapply perm_trans; [apply Permutation_map, Permutation_map; exact P|]. rewrite !map_app. apply Permutation_app; [|reflexivity].
    rewrite <- E. unfold r. rewrite !map_map. rewrite (map_ext _ ident3); [reflexivity|]. intros p. apply move_one3_ident.
  - intros p Hp. apply in_map_iff in Hp. destruct Hp as (x & <- & Hx). apply filter_In in Hx. destruct Hx as [Hi Hx].
    apply andb_true_iff in Hx. apply in_map. apply filter_In. tauto.
  - intros p Hp. apply in_map_iff in Hp. destruct Hp as (x & <- & Hx). apply filter_In in Hx. destruct Hx as [Hi Hx].
    apply andb_true_iff in Hx. apply in_map. apply filter_In. tauto.
Qed.

Lemma get_layer3_perm dxi src i : fst (get_layer3 dxi src i) ++ snd (get_layer3 dxi src i) = src.
Proof. unfold get_layer3. cbn. apply firstn_skipn. Qed.

Section Run.
  Variable Pl : Type.
  Variable plasma : Pl -> grid -> grid -> Pl.
  Variable pl_fields : Pl -> fields3.
  Notation state := (state3 Pl).
  Notation mk := (mkS3 Pl).
  Notation run := (run3 Pl plasma pl_fields).
  Notation iter := (iter3 Pl plasma pl_fields).
  Notation S_src := (s_src Pl). Notation S_move := (s_move Pl). Notation S_fell := (s_fell Pl).
  Notation S_lost := (s_lost Pl). Notation S_drain := (s_drain Pl).

  Definition everything (s : state) : list part3 := S_drain s ++ S_lost s ++ S_move s ++ S_src s.

  Lemma iter3_inv u h c i s s' : iter u h c i s = Some s' ->
    exists layer src' rho rho' lost moved fell,
      get_layer3 (c_dxi c) (S_src s) i = (layer, src') /\
      move_layer3 u h c (S_move s) (S_fell s) i (pl_fields (s_pl Pl s)) (pl_fields (s_pl Pl s')) = Some (lost, moved, fell) /\
      s' = mk src' (layer ++ fell) (length fell) (S_lost s ++ lost) (S_drain s ++ moved) rho' rho (s_pl Pl s').
  Proof.
    unfold iter3. destruct (get_layer3 _ _ _) as [layer src'] eqn:Eg. destruct (layout3 _ _ _ _ _ _) as [rho rho'].
    destruct (move_layer3 _ _ _ _ _ _ _ _) as [[[lost moved] fell]|] eqn:Em; cbn [option_map]; intros H; [|discriminate].
    injection H as <-. exists layer, src', rho, rho', lost, moved, fell. split; [auto|]. cbn [s_pl]. split; [exact Em|reflexivity].
  Qed.

  (** every iteration preserves the multiset of particles, up to those counted both as lost and fallen *)
  Lemma run3_perm u h c : forall n i s s', run u h c n i s = Some s' ->
    exists d, Permutation (map ident3 (everything s')) (map ident3 (everything s) ++ map ident3 d) /\ incl d (S_lost s') /\
      incl (S_lost s) (S_lost s').
  Proof.
    induction n as [|n IH]; intros i s s' E.
    - cbn in E. injection E as <-. exists []. rewrite app_nil_r. split; [reflexivity|]. split; [intros x []|apply incl_refl].
    - cbn [run3] in E. destruct (iter u h c i s) as [s1|] eqn:E1; [|discriminate].
      destruct (IH _ _ _ E) as (d & P & Hd & Hl).
      destruct (iter3_inv _ _ _ _ _ _ E1) as (layer & src' & rho & rho' & lost & moved & fell & Eg & Em & Es).
      destruct (move_layer3_perm _ _ _ _ _ _ _ _ _ _ _ Em) as (P1 & I1 & _).
      set (d1 := doubled _ _ _ _ _ _ _ _) in *.
      assert (El1 : S_lost s1 = S_lost s ++ lost) by (rewrite Es; reflexivity).
      exists (d1 ++ d). split; [|split].
      + eapply perm_trans; [exact P|]. rewrite map_app, app_assoc. apply Permutation_app_tail.
        assert (Ee : everything s1 = (S_drain s ++ moved) ++ (S_lost s ++ lost) ++ (layer ++ fell) ++ src') by (rewrite Es; reflexivity).
        rewrite Ee. unfold everything.
        assert (Er : S_src s = layer ++ src').
        { rewrite <- (get_layer3_perm (c_dxi c) (S_src s) i), Eg. reflexivity. }
        rewrite Er. rewrite !map_app in *.
        set (D := map ident3 (S_drain s)). set (L := map ident3 (S_lost s)). set (A := map ident3 layer) in *.
        set (B := map ident3 src'). set (l := map ident3 lost) in *. set (m := map ident3 moved) in *.
        set (f := map ident3 fell) in *. set (M := map ident3 (S_move s)) in *. set (dd := map ident3 d1) in *.
        transitivity ((l ++ m ++ f) ++ (D ++ L ++ A ++ B)).
        * rewrite (Permutation_app_comm l). rewrite <- !app_assoc.
          transitivity (D ++ m ++ (L ++ l ++ A ++ f ++ B)); [rewrite !app_assoc; reflexivity|].
          rewrite (Permutation_app_swap_app D m). apply Permutation_app_head.
          transitivity (f ++ l ++ D ++ L ++ A ++ B); [|reflexivity].
          transitivity (D ++ L ++ l ++ f ++ A ++ B).
          { do 3 apply Permutation_app_head. rewrite (Permutation_app_swap_app A f). reflexivity. }
          rewrite (Permutation_app_swap_app L l). rewrite (Permutation_app_swap_app D l).
          rewrite (Permutation_app_swap_app L f), (Permutation_app_swap_app D f), (Permutation_app_swap_app l f). reflexivity.
        * rewrite P1. rewrite <- !app_assoc.
          transitivity (D ++ L ++ M ++ dd ++ A ++ B).
          { rewrite (app_assoc M dd (D ++ L ++ A ++ B)), (app_assoc M dd (A ++ B)).
            rewrite (Permutation_app_swap_app (M ++ dd) D). apply Permutation_app_head. apply Permutation_app_swap_app. }
          do 3 apply Permutation_app_head. rewrite (Permutation_app_comm dd). rewrite !app_assoc. reflexivity.
      + intros p Hp. apply in_app_iff in Hp. destruct Hp as [Hp|Hp]; [|auto]. apply Hl. rewrite El1. apply in_or_app. right. auto.
      + intros p Hp. apply Hl. rewrite El1. apply in_or_app. now left.
  Qed.

  (** ** What a drained particle has done *)
  Lemma history3_time u h c n p q : history3 u h c n p q ->
    ident3 q = ident3 p /\ b_id q = b_id p /\ exists k, b_dt q = c_time_step c / 2 ^ k /\ (n + b_rem q = 2 ^ k)%nat.
  Proof.
    induction 1 as [p q Hs|n m p q r idx fk fk1 H IH Hs].
    - destruct (start3_keeps _ _ _ _ _ Hs) as (A & k & B & C). split; auto. split; eauto.
      unfold start3 in Hs. destruct (halve_loop _ _ _); cbn in Hs; [|discriminate]. now injection Hs as <-.
    - destruct IH as (A & Ai & k & B & C).
      assert (X : ident3 r = ident3 q /\ b_id r = b_id q /\ b_dt r = b_dt q /\ (m + b_rem r = b_rem q)%nat).
      { clear - Hs. induction Hs as [|n p q Hr _ _ _ _ IH]; [auto|]. destruct IH as (I1 & I0 & I2 & I3).
        unfold advance in I1, I0, I2, I3. destruct (update u p _) as [p' x']. cbn in I1, I0, I2, I3. repeat split; try assumption. lia. }
      destruct X as (X1 & X0 & X2 & X3). split; [congruence|]. split; [congruence|]. exists k. split; [congruence|lia].
  Qed.

  (** [b] came from a source particle by completed substeps only, or is a lost particle. *)
  Definition lineage u h c (src0 lostl : list part3) (b : part3) : Prop :=
    (exists n p, In p src0 /\ history3 u h c n p b) \/
    (exists b', In b' lostl /\ ident3 b' = ident3 b) /\ b_rem b = 0%nat /\ (exists p, In p src0 /\ b_id b = (- b_id p)%Z).
  Definition sane u h c src0 (s : state) : Prop :=
    incl (S_src s) src0 /\ (S_fell s <= length (S_move s))%nat /\
    (forall p, In p (firstn (length (S_move s) - S_fell s) (S_move s)) -> In p src0) /\
    (forall b, In b (skipn (length (S_move s) - S_fell s) (S_move s)) -> lineage u h c src0 (S_lost s) b) /\
    (forall b, In b (S_drain s) -> b_rem b = 0%nat /\ lineage u h c src0 (S_lost s) b).

  Lemma lineage_incl u h c a l l' b : incl l l' -> lineage u h c a l b -> lineage u h c a l' b.
  Proof. intros H [L|((b' & I & E) & R)]; [left; exact L|right]. split; eauto. Qed.

  Lemma firstn_layer {A} (a b : list A) : firstn (length (a ++ b) - length b) (a ++ b) = a.
  Proof. rewrite app_length, Nat.add_sub. rewrite firstn_app, Nat.sub_diag, firstn_all. cbn. apply app_nil_r. Qed.
  Lemma skipn_layer {A} (a b : list A) : skipn (length (a ++ b) - length b) (a ++ b) = b.
  Proof. rewrite app_length, Nat.add_sub. rewrite skipn_app, Nat.sub_diag, skipn_all. reflexivity. Qed.

  (** one moved particle keeps its lineage unless lost *)
  Lemma lineage_move u h c src0 lostl idx fk fk1 p q l m f :
    lineage u h c src0 lostl p -> move_one3 u c idx fk fk1 p = (q, (l, m, f)) -> l = false ->
    lineage u h c src0 lostl q.
  Proof.
    intros L E ->. destruct (move_one3_spec _ _ _ _ _ _ _ _ _ _ E) as (Hi & _ & Hrun & _).
    destruct (Hrun eq_refl) as (n & Hs & Hn).
    destruct L as [(k & p0 & I & Hh)|(Hl & Hr & Hid)].
    - left. exists (k + n)%nat, p0. split; auto. econstructor; eauto.
    - right. assert (n = 0)%nat by lia. subst n. inversion Hs; subst. split; [|split]; auto.
  Qed.
  Lemma move_one3_lost_rem u c idx fk fk1 p q m f : move_one3 u c idx fk fk1 p = (q, (true, m, f)) -> (0 < b_rem p)%nat.
  Proof.
    unfold move_one3. destruct (b_rem p) as [|n] eqn:En; [|lia]. cbn [loop3]. intros E. discriminate.
  Qed.

  Lemma run3_sane u h c src0 : forall n i s s', sane u h c src0 s -> run u h c n i s = Some s' -> sane u h c src0 s'.
  Proof.
    induction n as [|n IH]; intros i s s' Hs E; [cbn in E; injection E as <-; auto|].
    cbn [run3] in E. destruct (iter u h c i s) as [s1|] eqn:E1; [|discriminate]. apply (IH _ _ _) in E; auto. clear E IH.
    destruct Hs as (HS & HF & HM & HL & HD).
    destruct (iter3_inv _ _ _ _ _ _ E1) as (layer & src' & rho & rho' & lost & moved & fell & Eg & Em & Es).
    assert (Er : S_src s = layer ++ src').
    { rewrite <- (get_layer3_perm (c_dxi c) (S_src s) i), Eg. reflexivity. }
    assert (El1 : S_lost s1 = S_lost s ++ lost) by (rewrite Es; reflexivity).
    assert (Ed1 : S_drain s1 = S_drain s ++ moved) by (rewrite Es; reflexivity).
    assert (Em1 : S_move s1 = layer ++ fell) by (rewrite Es; reflexivity).
    assert (Ef1 : S_fell s1 = length fell) by (rewrite Es; reflexivity).
    assert (Es1 : S_src s1 = src') by (rewrite Es; reflexivity). clear Es E1.
    unfold move_layer3 in Em. destruct (start_layer3 _ _ _ _ _) as [l'|] eqn:Est; cbn [option_map] in Em; [|discriminate].
    injection Em as Hl Hm Hf.
    assert (L' : forall p, In p l' -> lineage u h c src0 (S_lost s) p).
    { unfold start_layer3 in Est. destruct (map_opt _ _) as [a|] eqn:Ea; cbn [option_map] in Est; [|discriminate]. injection Est as <-.
      intros p Hp. apply in_app_iff in Hp. destruct Hp as [Hp|Hp].
      - destruct (map_opt_In _ _ _ _ Ea Hp) as (x & Hx & Hsx). left. exists 0%nat, x. split; [auto|]. now constructor.
      - apply HL. exact Hp. }
    assert (Q : forall p q l m f, In p l' -> move_one3 u c (i - 1) (pl_fields (s_pl Pl s)) (pl_fields (s_pl Pl s1)) p = (q, (l, m, f)) ->
              (m = true \/ f = true) -> lineage u h c src0 (S_lost s ++ lost) q /\ (m = true -> b_rem q = 0%nat)).
    { intros p q l m f Hp Eq Hmf. destruct (move_one3_spec _ _ _ _ _ _ _ _ _ _ Eq) as (Hi & Hm1 & Hrun & Hmv & _ & Hls).
      split; [|intros; now apply Hmv]. destruct l.
      - destruct Hmf as [ -> | -> ]; [exfalso; destruct Hm1 as [Hm1 _]; destruct (Hm1 eq_refl); discriminate|].
        right. destruct (Hls eq_refl) as (H1 & H2 & H3). split.
        + exists q. split; [|reflexivity]. apply in_or_app. right. rewrite <- Hl. apply in_map_iff. exists (q, (true, m, true)).
          split; [reflexivity|]. apply filter_In. split; [|reflexivity]. apply in_map_iff. exists p. auto.
        + split; [exact H1|]. pose proof (move_one3_lost_rem _ _ _ _ _ _ _ _ _ Eq) as Hr.
          destruct (L' p Hp) as [(n0 & p0 & I & Hh)|(_ & Hr0 & _)]; [|lia]. exists p0. split; auto.
          destruct (history3_time _ _ _ _ _ _ Hh) as (_ & X & _). congruence.
      - eapply lineage_incl; [|eapply lineage_move; eauto]. intros x Hx. apply in_or_app. now left. }
    unfold sane. rewrite El1, Ed1, Em1, Ef1, Es1, firstn_layer, skipn_layer. split; [|split; [|split; [|split]]].
    - intros p Hp. apply HS. rewrite Er. apply in_or_app. now right.
    - rewrite app_length. lia.
    - intros p Hp. apply HS. rewrite Er. apply in_or_app. now left.
    - intros b Hb. rewrite <- Hf in Hb. apply in_map_iff in Hb. destruct Hb as ([q [[l m] f]] & <- & Hx). apply filter_In in Hx. cbn in Hx.
      destruct Hx as [Hx ->]. apply in_map_iff in Hx. destruct Hx as (p & Ep & Hp). cbn [fst]. exact (proj1 (Q p q l m true Hp Ep (or_intror eq_refl))).
    - intros b Hb. apply in_app_iff in Hb. destruct Hb as [Hb|Hb].
      + destruct (HD b Hb) as [A B]. split; auto. eapply lineage_incl; [|exact B]. intros x Hx. apply in_or_app. now left.
      + rewrite <- Hm in Hb. apply in_map_iff in Hb. destruct Hb as ([q [[l m] f]] & <- & Hx). apply filter_In in Hx. cbn in Hx.
        destruct Hx as [Hx ->]. apply in_map_iff in Hx. destruct Hx as (p & Ep & Hp). cbn [fst].
        destruct (Q p q l true f Hp Ep (or_introl eq_refl)) as [A B]. auto.
  Qed.

  (** ** The loop never fails *)
  Lemma start3_fuel c : 0 < c_energy c -> forall l : list part3, (forall p, In p l -> b_qm p <> 0) ->
    exists h0, forall h, (h0 <= h)%nat -> forall p, In p l -> exists q, start3 h (c_energy c) (c_time_step c) p = Some q.
  Proof.
    intros He. induction l as [|p l IH]; intros Hq; [exists 0%nat; intros ? _ ? []|].
    destruct IH as (h1 & H1); [intros; apply Hq; now right|].
    destruct (substep_fuel (b_qm p) (b_pz p) (c_energy c) (Hq p (or_introl eq_refl)) He) as (h2 & H2).
    exists (Nat.max h1 h2). intros h Hh q [<-|Hi].
    - destruct (H2 h ltac:(lia)) as (k & E & _). unfold start3. rewrite E. cbn. eauto.
    - apply H1; auto. lia.
  Qed.

  Lemma run3_total u c src0 : 0 < c_energy c -> (forall p, In p src0 -> b_qm p <> 0) ->
    exists h0, forall h, (h0 <= h)%nat -> forall n i s, sane u h c src0 s -> exists s', run u h c n i s = Some s'.
  Proof.
    intros He Hq. destruct (start3_fuel c He src0 Hq) as (h0 & H0). exists h0. intros h Hh.
    induction n as [|n IH]; intros i s Hs; [cbn; eauto|]. cbn [run3].
    assert (E : exists s1, iter u h c i s = Some s1).
    { unfold iter3. destruct (get_layer3 _ _ _) as [layer src']. destruct (layout3 _ _ _ _ _ _) as [rho rho'].
      unfold move_layer3, start_layer3.
      destruct Hs as (_ & _ & HM & _).
      destruct (map_opt_some (start3 h (c_energy c) (c_time_step c)) (firstn (length (S_move s) - S_fell s) (S_move s))) as (l' & E').
      { intros p Hp. apply H0; auto. }
      rewrite E'. cbn [option_map]. eauto. }
    destruct E as (s1 & E). rewrite E. apply IH. eapply (run3_sane u h c src0 1 i s); eauto. cbn [run3]. now rewrite E.
  Qed.

  Lemma sane_start u h c src0 rho prev pl : sane u h c src0 (mk src0 [] 0 [] [] rho prev pl).
  Proof. unfold sane. cbn. repeat split; auto; try apply incl_refl; try (intros ? []); contradiction. Qed.
End Run.

(** ** Motion *)
Lemma gam_gt qm px py pz : qm <> 0 -> Rabs pz < gam qm px py pz.
Proof.
  intros Hq. unfold gam. rewrite <- sqrt_Rsqr_abs. apply sqrt_lt_1.
  - unfold Rsqr. nra.
  - pose proof (pow2_ge_0 (1 / qm)). pose proof (pow2_ge_0 px). pose proof (pow2_ge_0 py). pose proof (pow2_ge_0 pz). lra.
  - assert (0 < (1 / qm) ^ 2). { apply pow2_gt_0. unfold Rdiv. rewrite Rmult_1_l. now apply Rinv_neq_0_compat. }
    pose proof (pow2_ge_0 px). pose proof (pow2_ge_0 py). unfold Rsqr. lra.
Qed.
Lemma vz_lt_1 qm px py pz : qm <> 0 -> pz / gam qm px py pz - 1 < 0.
Proof.
  intros Hq. pose proof (gam_gt qm px py pz Hq) as H. pose proof (Rabs_pos pz).
  assert (0 < gam qm px py pz) by lra.
  apply Rmult_lt_reg_r with (gam qm px py pz); auto. field_simplify; [|lra]. pose proof (Rle_abs pz). lra.
Qed.

Lemma advance_xi u c idx fk fk1 p : b_qm p <> 0 -> 0 < b_dt p -> b_xi (advance u c idx fk fk1 p) < b_xi p.
Proof.
  intros Hq Ht. unfold advance. destruct (fields_at c idx (half3 p) fk fk1) as [e b].
  destruct u; cbn [update update_cpu update_gpu].
  - cbn. match goal with |- context [?a / gam ?q ?b ?d ?a - 1] => pose proof (vz_lt_1 q b d a Hq) end. nra.
  - unfold half3. cbn [fst snd b_xi vx vy vz]. pose proof (vz_lt_1 (b_qm p) (b_px p) (b_py p) (b_pz p) Hq).
    match goal with |- context [_ + b_dt p / 2 * (?a / gam ?q ?b ?d ?a - 1) < _] => pose proof (vz_lt_1 q b d a Hq) end. nra.
Qed.
Lemma advance_keeps u c idx fk fk1 p : b_qm (advance u c idx fk fk1 p) = b_qm p /\ b_dt (advance u c idx fk fk1 p) = b_dt p /\
  b_rem (advance u c idx fk fk1 p) = (b_rem p - 1)%nat.
Proof. unfold advance. destruct (update u p _). auto. Qed.
Lemma substeps3_xi u c idx fk fk1 n p q : substeps3 u c idx fk fk1 n p q -> b_qm p <> 0 -> 0 < b_dt p ->
  b_xi q <= b_xi p /\ ((0 < n)%nat -> b_xi q < b_xi p).
Proof.
  induction 1 as [|n p q Hr Hx Hw Hw' Hs IH]; intros Hq Ht; [split; [lra|lia]|].
  destruct (advance_keeps u c idx fk fk1 p) as (A & B & _). rewrite A, B in IH. specialize (IH Hq Ht).
  pose proof (advance_xi u c idx fk fk1 p Hq Ht). split; [lra|]. intros _. lra.
Qed.
Lemma substeps3_wall u c idx fk fk1 n p q : substeps3 u c idx fk fk1 n p q -> (0 < n)%nat ->
  b_x q ^ 2 + b_y q ^ 2 < lost_radius c ^ 2.
Proof.
  induction 1 as [|n p q Hr Hx Hw Hw' Hs IH]; intros Hn; [lia|]. destruct n; [|apply IH; lia]. inversion Hs; subst. exact Hw'.
Qed.

Lemma gather_zero n x y f : (forall a b w, f a b w = 0) -> gather n x y f = 0.
Proof.
  intros H. unfold gather. assert (E : forall l s kx, fold_left (fun s0 ky => s0 + f (cell n x + kx)%Z (cell n y + ky)%Z (weight4 (loc x) kx * weight4 (loc y) ky)) l s = s).
  { induction l as [|k l IH]; intros s kx; cbn; [auto|]. rewrite H, Rplus_0_r. apply IH. }
  assert (E2 : forall l s, fold_left (fun s0 kx => fold_left (fun s1 ky => s1 + f (cell n x + kx)%Z (cell n y + ky)%Z (weight4 (loc x) kx * weight4 (loc y) ky)) places s0) l s = s).
  { induction l as [|k l IH]; intros s; cbn [fold_left]; [auto|]. rewrite E. apply IH. }
  apply E2.
Qed.
Lemma fields_zero c idx h fk fk1 : no_field3 fk -> no_field3 fk1 -> fields_at c idx h fk fk1 = ((0, 0, 0), (0, 0, 0)).
Proof.
  intros H1 H2. unfold fields_at, interp3.
  rewrite !gather_zero; [reflexivity|..]; intros a b w; specialize (H1 a b); specialize (H2 a b);
    destruct H1 as (A1&A2&A3&A4&A5&A6), H2 as (B1&B2&B3&B4&B5&B6); rewrite ?A1,?A2,?A3,?A4,?A5,?A6,?B1,?B2,?B3,?B4,?B5,?B6; ring.
Qed.

Lemma sqrt_same a : 0 <= a -> sqrt (a * a) = a. Proof. apply sqrt_square. Qed.
Lemma hc_rotate_zero pm : hc_rotate pm (0, 0, 0) = pm.
Proof.
  destruct pm as [[x y] z]. unfold hc_rotate. cbn.
  f_equal; [f_equal|]; field; lra.
Qed.

Lemma advance_free u c idx fk fk1 p : no_field3 fk -> no_field3 fk1 ->
  let q := advance u c idx fk fk1 p in
  b_px q = b_px p /\ b_py q = b_py p /\ b_pz q = b_pz p /\
  b_x q = b_x p + b_dt p * (b_px p / gam3 p) /\ b_y q = b_y p + b_dt p * (b_py p / gam3 p) /\
  b_xi q = b_xi p + b_dt p * (b_pz p / gam3 p - 1).
Proof.
  intros H1 H2 q. unfold q, advance. rewrite (fields_zero c idx (half3 p) fk fk1 H1 H2). destruct u; cbn [update].
  - unfold update_cpu. cbn [vx vy vz fst snd].
    set (Z1 := b_px p + _). set (Z2 := b_py p + _). set (Z3 := b_pz p + _).
    assert (E1 : Z1 = b_px p) by (unfold Z1; ring). assert (E2 : Z2 = b_py p) by (unfold Z2; ring).
    assert (E3 : Z3 = b_pz p) by (unfold Z3; ring). rewrite E1, E2, E3. cbn. unfold gam3, gam. repeat split; ring.
  - unfold update_gpu. cbn [vx vy vz fst snd].
    replace (Rsgn (b_qm p) * b_dt p / 2 * 0) with 0 by ring. rewrite !Rplus_0_r.
    set (G := hc_gamma _ _ _). replace (0 / G) with 0 by (unfold Rdiv; ring). rewrite hc_rotate_zero. cbn [vx vy vz fst snd].
    rewrite ?Rplus_0_r. unfold half3. cbn. unfold gam3, gam. repeat split; lra.
Qed.
