(** Proofs for C59: the layer-by-layer coupling of the beam and the plasma. *)
From Coq Require Import Reals ZArith List Bool Lia Lra Permutation Sorting.Sorted FunctionalExtensionality.
From Verif Require Import Beam2D_Model Beam2D_Spec Beam2D_Proofs Beam2D_Push Beam2D_Dep Shape_Model Shape_Spec Beam3D_Model Beam3D_Spec
  Beam3D_Proofs Beam3D_Run Causal_Proofs Coupling_Spec.
Import ListNotations.
Open Scope R_scope.

Lemma wake_snoc {Pl D} (plasma : Pl -> D -> D -> Pl) : forall rs pl prev r,
  wake plasma pl prev (rs ++ [r]) = plasma (wake plasma pl prev rs) r (last rs prev).
Proof.
  induction rs as [|a rs IH]; intros pl prev r; auto. cbn [app wake]. rewrite IH. f_equal.
  destruct rs as [|b rs]; auto. change (last (a :: b :: rs) prev) with (last (b :: rs) prev).
  clear. revert b. induction rs as [|d rs IH]; intros b; auto. change (last (d :: rs) a = last (d :: rs) prev). apply IH.
Qed.
Lemma map_seq_S {A} (f : nat -> A) n : map f (seq 0 (S n)) = map f (seq 0 n) ++ [f n].
Proof. now rewrite seq_S, map_app. Qed.
Lemma last_map_seq {A} (f : nat -> A) n d : last (map f (seq 0 n)) d = match n with O => d | S k => f k end.
Proof. destruct n; auto. rewrite map_seq_S. apply last_last. Qed.
Lemma nth_map_seq (f : nat -> R) N k : (k < N)%nat -> nth k (map f (seq 0 N)) 0 = f k.
Proof. intros H. rewrite (nth_indep _ 0 (f 0%nat)) by (now rewrite map_length, seq_length). now rewrite map_nth, seq_nth. Qed.

Section D2.
  Variable sort_bool : (bpart -> bool) -> list bpart -> list bpart.
  Hypothesis Hok : sort_bool_ok sort_bool.
  Variable Pl : Type.
  Variable plasma : Pl -> list R -> list R -> Pl.
  Variable pl_fields : Pl -> fields.
  Notation st := (loop_state Pl).
  Notation feed := (feed sort_bool Pl plasma pl_fields).
  Notation body := (body sort_bool Pl plasma pl_fields).
  Lemma feed_snoc h c ls : forall i l s, feed h c (ls ++ [l]) i s = bind (feed h c ls i s) (body h c (i + Z.of_nat (length ls)) l).
  Proof.
    induction ls as [|a ls IH]; intros i l s; cbn [app Causal_Proofs.feed length].
    - cbn [bind]. rewrite Z.add_0_r. destruct (body h c i l s); reflexivity.
    - destruct (body h c i a s) as [s1|]; cbn [bind]; auto. rewrite IH. replace (i + 1 + Z.of_nat (length ls))%Z with (i + Z.of_nat (S (length ls)))%Z by lia. reflexivity.
  Qed.

  Variable h : nat.
  Variable c : pcfg.
  Variable i : Z.
  Variable beam : list part.
  Variables (carry prev : list R) (pl : Pl) (src : source).
  Hypothesis Hh : 0 < r_step c.
  Hypothesis Hd : 0 < xi_step c.
  Hypothesis Hrad : forall p, In p beam -> 0 <= rad p.
  Notation L := (layer_of (xi_step c) i beam).
  Notation row := (density_row (r_step c) (xi_step c) i beam carry).
  Notation after := (plasma_after plasma pl prev carry (r_step c) (xi_step c) i beam).
  Notation s0 := (mkLS Pl src [] [] [] carry prev pl).

  Lemma layer_rad k b : In b (L k) -> 0 <= rad (pt b).
  Proof. unfold layer_of. rewrite in_map_iff. intros (p & <- & H). apply filter_In in H. cbn. apply Hrad. apply H. Qed.

  Lemma feed_wake_spec n : forall s, feed h c (map L (seq 0 n)) i s0 = Some s ->
    ls_plasma Pl s = after n /\ ls_prev Pl s = match n with O => prev | S k => row k end /\
    ls_rho Pl s = match n with O => carry | S k => map (cic_lower (r_step c) (xi_step c) (bottom (xi_step c) i k) (L k)) (seq 0 (length carry)) end.
  Proof.
    induction n as [|n IH]; intros s H.
    - cbn in H. injection H as <-. auto.
    - rewrite map_seq_S, feed_snoc, map_length, seq_length in H. destruct (feed h c (map L (seq 0 n)) i s0) as [s1|]; cbn [bind] in H; [|discriminate].
      destruct (IH s1 eq_refl) as (I1 & I2 & I3). unfold Causal_Proofs.body in H.
      destruct (layout_beam_layer _ _ _ _ _) as [[rho rho']|] eqn:E; cbn [bind] in H; [|discriminate].
      destruct (move_beam_layer _ _ _ _ _ _ _) as [[[x1 x2] x3]|]; cbn [bind] in H; [|discriminate]. injection H as <-.
      cbn [ls_plasma ls_prev ls_rho].
      destruct (layout_spec _ _ _ _ _ _ _ Hh Hd (layer_rad n) E) as (L1 & L2 & A & B).
      assert (LR : length (ls_rho Pl s1) = length carry) by (rewrite I3; destruct n; [auto|now rewrite map_length, seq_length]).
      assert (Er : rho = row n).
      { apply (nth_ext _ _ 0 0); [unfold density_row; rewrite map_length, seq_length; congruence|]. intros k Hk. rewrite L1, LR in Hk.
        rewrite A by congruence. unfold density_row.
        rewrite nth_map_seq by auto. unfold beam_density. fold (ring_volume (r_step c) k). f_equal. f_equal.
        rewrite I3. destruct n as [|n']; auto.
        now rewrite nth_map_seq by auto. }
      split; [|split].
      + unfold plasma_after. rewrite map_seq_S, wake_snoc, last_map_seq. fold (after n). rewrite <- Er, I1, I2. reflexivity.
      + exact Er.
      + apply (nth_ext _ _ 0 0); [rewrite map_length, seq_length; congruence|]. intros k Hk. rewrite L2, LR in Hk. rewrite B.
        now rewrite nth_map_seq by auto.
  Qed.

  Definition F (n : nat) : fields := pl_fields (after n).
  Definition waiting (n : nat) (b : bpart) : Prop :=
    (exists k p, n = S k /\ b = fresh p /\ In (fresh p) (L k)) \/
    (exists k l p m, n = S (S l) /\ In (fresh p) (L k) /\ flight h c i F p k l m b /\ lost b = false /\
       ((0 < rem b)%nat \/ xi (pt b) < bottom (xi_step c) i l)).
  Definition done (n : nat) (b : bpart) : Prop :=
    exists k l p m, (S l < n)%nat /\ In (fresh p) (L k) /\ flight h c i F p k l m b /\ lost b = false /\
      rem b = 0%nat /\ bottom (xi_step c) i l <= xi (pt b).

  Lemma prepare_dt b b1 : prepare h c b = Some b1 -> time_step c <> 0 -> dt b <> 0 -> b1 = b.
  Proof. intros H _ Hb. now apply prepare_again in H. Qed.
  Lemma flight_dt p k l m b : time_step c <> 0 -> flight h c i F p k l m b -> dt b <> 0.
  Proof.
    intros Ht. induction 1 as [m b b' Hp [Hs _]|l m m' b b' Hf IH Hc [Hs _]].
    - rewrite (proj1 (substeps_keep _ _ _ _ _ _ _ Hs)). destruct (prepare_fresh _ _ _ _ Hp) as (j & _ & -> & _).
      unfold Rdiv. apply Rmult_integral_contrapositive_currified; auto. apply Rinv_neq_0_compat. apply pow_nonzero. lra.
    - now rewrite (proj1 (substeps_keep _ _ _ _ _ _ _ Hs)).
  Qed.

  Lemma feed_flights n : time_step c <> 0 -> forall s, feed h c (map L (seq 0 n)) i s0 = Some s ->
    (forall b, In b (ls_move Pl s) -> waiting n b) /\ (forall b, In b (concat (ls_drain Pl s)) -> done n b).
  Proof.
    intros Ht. induction n as [|n IH]; intros s H.
    - cbn in H. injection H as <-. split; intros b [].
    - pose proof (feed_wake_spec _ _ H) as (W' & _).
      rewrite map_seq_S, feed_snoc, map_length, seq_length in H. destruct (feed h c (map L (seq 0 n)) i s0) as [s1|] eqn:Ef; cbn [bind] in H; [|discriminate].
      destruct (IH s1 eq_refl) as (IM & ID). pose proof (feed_wake_spec _ _ Ef) as (W & _). clear IH Ef. unfold Causal_Proofs.body in H.
      destruct (layout_beam_layer _ _ _ _ _) as [[rho rho']|] eqn:E; cbn [bind] in H; [|discriminate].
      destruct (move_beam_layer _ _ _ _ _ _ _) as [[[ls mv] fl]|] eqn:Em; cbn [bind] in H; [|discriminate]. injection H as <-.
      cbn [ls_plasma] in W'. rewrite W', W in Em. fold (F n) in Em. fold (F (S n)) in Em.
      destruct (move_spec _ _ _ _ _ _ _ _ _ _ Hok Em) as (M1 & M2 & M3 & M4). clear Em.
      assert (K : forall b, In b (mv ++ fl) -> exists k l p m, S n = S (S l) /\ In (fresh p) (L k) /\ flight h c i F p k l m b /\ lost b = false).
      { intros b Hb. destruct (M4 b) as (b1 & b2 & Hb1 & Hp & Hpush); [rewrite in_app_iff; auto|].
        assert (Hl : lost b = false) by (apply in_app_or in Hb; destruct Hb as [Hb|Hb]; [apply (M2 b Hb)|apply (M3 b Hb)]).
        assert (Hl2 : lost b1 = false -> lost b2 = false) by (intros; apply prepare_keeps in Hp; destruct Hp as (_ & Hp & _); congruence).
        assert (Ee : forall l, n = S l -> IZR (i + Z.of_nat n) * - xi_step c = bottom (xi_step c) i l).
        { intros l ->. unfold bottom. replace (i + Z.of_nat (S l))%Z with (i + Z.of_nat l + 1)%Z by lia. ring. }
        destruct (IM b1 Hb1) as [(k & p & Hn & -> & Hi)|(k & l & p & m & Hn & Hi & Hf & Hl1 & Hc)].
        - specialize (Hl2 eq_refl). destruct (push_run c _ _ _ b2 Hl2 ltac:(rewrite Hpush; exact Hl)) as (m & S1 & _ & S3).
          rewrite Hpush in S1, S3. rewrite (Ee k Hn) in S1, S3. exists k, k, p, m. rewrite Hn. repeat split; auto.
          eapply Fl_first; eauto. split; auto. rewrite <- Hn. exact S1.
        - specialize (Hl2 Hl1). assert (b2 = b1) by (eapply prepare_dt; eauto; eapply flight_dt; eauto). subst b2.
          destruct (push_run c _ _ _ b1 Hl2 ltac:(rewrite Hpush; exact Hl)) as (m' & S1 & _ & S3).
          rewrite Hpush in S1, S3. rewrite (Ee (S l) Hn) in S1, S3. exists k, (S l), p, (m + m')%nat. rewrite Hn. repeat split; auto.
          eapply Fl_next; eauto. split; auto. rewrite <- Hn. exact S1. }
      assert (Ee : forall l, S n = S (S l) -> IZR (i + Z.of_nat n) * - xi_step c = bottom (xi_step c) i l).
      { intros l Hn. injection Hn as ->. unfold bottom. replace (i + Z.of_nat (S l))%Z with (i + Z.of_nat l + 1)%Z by lia. ring. }
      cbn [ls_move ls_drain]. split; intros b Hb.
      + apply in_app_or in Hb. destruct Hb as [Hb|Hb].
        * left. unfold layer_of in Hb. pose proof Hb as Hb'. apply in_map_iff in Hb'. destruct Hb' as (p & <- & _). exists n, p. auto.
        * right. destruct (K b) as (k & l & p & m & Hn & Hi & Hf & Hl); [apply in_or_app; auto|]. exists k, l, p, m. repeat split; auto.
          destruct (M3 b Hb) as (_ & Hc). now rewrite (Ee l Hn) in Hc.
      + rewrite drain_push_concat in Hb. apply in_app_or in Hb. destruct Hb as [Hb|Hb].
        * destruct (ID b Hb) as (k & l & p & m & Hn & R). exists k, l, p, m. split; [lia|exact R].
        * destruct (K b) as (k & l & p & m & Hn & Hi & Hf & Hl); [apply in_or_app; auto|]. exists k, l, p, m.
          destruct (M2 b Hb) as (_ & Hr & Hx). rewrite (Ee l Hn) in Hx. repeat split; auto. lia.
  Qed.
End D2.

Section D3.
  Variable Pl : Type.
  Variable plasma : Pl -> grid -> grid -> Pl.
  Variable pl_fields : Pl -> fields3.
  Notation feed3 := (feed3 Pl plasma pl_fields).
  Notation body3 := (body3 Pl plasma pl_fields).
  Lemma feed3_snoc u h c ls : forall i l s, feed3 u h c (ls ++ [l]) i s =
    match feed3 u h c ls i s with None => None | Some s' => body3 u h c (i + Z.of_nat (length ls)) l s' end.
  Proof.
    induction ls as [|a ls IH]; intros i l s; cbn [app Causal_Proofs.feed3 length].
    - rewrite Z.add_0_r. destruct (body3 u h c i l s); reflexivity.
    - destruct (body3 u h c i a s) as [s1|]; auto. rewrite IH. replace (i + 1 + Z.of_nat (length ls))%Z with (i + Z.of_nat (S (length ls)))%Z by lia. reflexivity.
  Qed.

  Variable u : unit_type.
  Variable h : nat.
  Variable c : cfg3.
  Variable i : Z.
  Variable beam : list part3.
  Variables (carry prev : grid) (pl : Pl) (src : list part3).
  Hypothesis Hh : 0 < c_h c.
  Notation L := (layer_of3 (c_dxi c) i beam).
  Notation row := (beam_density3 (c_n c) (c_h c) (c_dxi c) i beam carry).
  Notation after := (plasma_after3 plasma pl prev carry (c_n c) (c_h c) (c_dxi c) i beam).
  Notation s0 := (mkS3 Pl src [] 0 [] [] carry prev pl).
  Definition left3 (k : nat) : grid := fun a b =>
    sumR (map (fun p => b_q p * (1 - dist_from_top (c_dxi c) (i + Z.of_nat k) p) * shape (c_n c) (c_h c) (b_x p) (b_y p) a b) (L k)).

  Lemma feed3_wake_spec n : forall s, feed3 u h c (map L (seq 0 n)) i s0 = Some s ->
    s_pl Pl s = after n /\ s_prev Pl s = match n with O => prev | S k => row k end /\
    s_rho Pl s = match n with O => carry | S k => left3 k end.
  Proof.
    induction n as [|n IH]; intros s H.
    - cbn in H. injection H as <-. auto.
    - rewrite map_seq_S, feed3_snoc, map_length, seq_length in H. destruct (feed3 u h c (map L (seq 0 n)) i s0) as [s1|]; [|discriminate].
      destruct (IH s1 eq_refl) as (I1 & I2 & I3). unfold Causal_Proofs.body3 in H.
      destruct (layout3 _ _ _ _ _ _) as [rho rho'] eqn:E.
      destruct (move_layer3 _ _ _ _ _ _ _ _) as [[[x1 x2] x3]|]; cbn [option_map] in H; [|discriminate]. injection H as <-.
      cbn [s_pl s_prev s_rho]. pose proof (layout3_val _ _ _ _ _ _ _ _ Hh E) as V.
      assert (Er : rho = row n).
      { extensionality a. extensionality b. destruct (V a b) as [-> _]. unfold beam_density3. f_equal. f_equal. rewrite I3. destruct n; reflexivity. }
      split; [|split].
      + unfold plasma_after3. rewrite map_seq_S, wake_snoc, last_map_seq. fold (after n). rewrite <- Er, I1, I2. reflexivity.
      + exact Er.
      + extensionality a. extensionality b. destruct (V a b) as [_ ->]. reflexivity.
  Qed.

  Definition F3 (n : nat) : fields3 := pl_fields (after n).
  (** a copy of a lost particle, marked by the sign of its id *)
  Definition ghost (lostl : list part3) (b : part3) : Prop :=
    (exists b', In b' lostl /\ ident3 b' = ident3 b) /\ b_rem b = 0%nat /\ (exists p, In p beam /\ b_id b = (- b_id p)%Z).
  Definition fallen3 (n : nat) (lostl : list part3) (b : part3) : Prop :=
    (exists k l p m, n = S (S l) /\ In p (L k) /\ flight3 u h c i F3 p k l m b /\
       ((0 < b_rem b)%nat \/ compared u b < bottom (c_dxi c) i l)) \/ ghost lostl b.
  Definition done3 (n : nat) (lostl : list part3) (b : part3) : Prop :=
    (exists k l p m, (S l < n)%nat /\ In p (L k) /\ flight3 u h c i F3 p k l m b /\
      b_rem b = 0%nat /\ bottom (c_dxi c) i l <= compared u b) \/ ghost lostl b.

  Lemma flight3_id p k l m b : flight3 u h c i F3 p k l m b -> b_id b = b_id p.
  Proof.
    assert (K : forall idx fk fk1 n x y, substeps3 u c idx fk fk1 n x y -> b_id y = b_id x).
    { induction 1 as [|n x y Hr H1 H2 H3 H4 IH]; auto. rewrite IH. unfold advance. destruct (update _ _ _). reflexivity. }
    induction 1 as [m q q' Hs [Hp _]|l m m' q q' Hf IH Hc [Hp _]]; rewrite (K _ _ _ _ _ _ Hp); auto.
    unfold start3 in Hs. destruct (halve_loop _ _ _); [|discriminate]. cbn in Hs. now injection Hs as <-.
  Qed.
  Lemma ghost_incl l l' b : incl l l' -> ghost l b -> ghost l' b.
  Proof. intros H ((b' & I & E) & R). split; eauto. Qed.

  Lemma feed3_flights n : forall s, feed3 u h c (map L (seq 0 n)) i s0 = Some s ->
    (s_fell Pl s <= length (s_move Pl s))%nat /\
    (forall b, In b (firstn (length (s_move Pl s) - s_fell Pl s) (s_move Pl s)) -> exists k, n = S k /\ In b (L k)) /\
    (forall b, In b (skipn (length (s_move Pl s) - s_fell Pl s) (s_move Pl s)) -> fallen3 n (s_lost Pl s) b) /\
    (forall b, In b (s_drain Pl s) -> done3 n (s_lost Pl s) b).
  Proof.
    induction n as [|n IH]; intros s H.
    - cbn in H. injection H as <-. cbn. repeat split; auto; intros b [].
    - pose proof (feed3_wake_spec _ _ H) as (W' & _).
      rewrite map_seq_S, feed3_snoc, map_length, seq_length in H. destruct (feed3 u h c (map L (seq 0 n)) i s0) as [s1|] eqn:Ef; [|discriminate].
      destruct (IH s1 eq_refl) as (IF & IA & IM & ID). pose proof (feed3_wake_spec _ _ Ef) as (W & _). clear IH Ef. unfold Causal_Proofs.body3 in H.
      destruct (layout3 _ _ _ _ _ _) as [rho rho'] eqn:E.
      destruct (move_layer3 _ _ _ _ _ _ _ _) as [[[ls mv] fl]|] eqn:Em; cbn [option_map] in H; [|discriminate]. injection H as <-.
      cbn [s_pl] in W'. rewrite W', W in Em. fold (F3 n) in Em. fold (F3 (S n)) in Em.
      cbn [s_move s_fell s_lost s_drain]. rewrite firstn_layer, skipn_layer.
      unfold move_layer3 in Em. destruct (start_layer3 _ _ _ _ _) as [l'|] eqn:Est; cbn [option_map] in Em; [|discriminate]. injection Em as Hl Hm Hf.
      (* every moved particle is a start or a continuation *)
      assert (L' : forall p, In p l' -> (exists k x, n = S k /\ In x (L k) /\ start3 h (c_energy c) (c_time_step c) x = Some p) \/ fallen3 n (s_lost Pl s1) p).
      { unfold start_layer3 in Est. destruct (map_opt _ _) as [a|] eqn:Ea; cbn [option_map] in Est; [|discriminate]. injection Est as <-.
        intros p Hp. apply in_app_iff in Hp. destruct Hp as [Hp|Hp]; [left|right; apply IM; exact Hp].
        destruct (map_opt_In _ _ _ _ Ea Hp) as (x & Hx & Hsx). destruct (IA x Hx) as (k & Hk & Hi). exists k, x. auto. }
      assert (G : forall l, n = S l -> (i + Z.of_nat n - 1)%Z = (i + Z.of_nat l)%Z) by (intros; lia).
      assert (Q : forall p q lo m f, In p l' -> move_one3 u c (i + Z.of_nat n - 1) (F3 n) (F3 (S n)) p = (q, (lo, m, f)) -> (m = true \/ f = true) ->
        ghost (s_lost Pl s1 ++ ls) q \/
        (exists k l p0 j, S n = S (S l) /\ In p0 (L k) /\ flight3 u h c i F3 p0 k l j q /\
           (m = true -> b_rem q = 0%nat /\ bottom (c_dxi c) i l <= compared u q) /\
           (f = true -> (0 < b_rem q)%nat \/ compared u q < bottom (c_dxi c) i l))).
      { intros p q lo m f Hp Eq Hmf. destruct (move_one3_spec _ _ _ _ _ _ _ _ _ _ Eq) as (Hi & Hm1 & Hrun & Hmv & Hfl & Hls).
        pose proof (L' p Hp) as HL. destruct lo.
        - left. destruct Hmf as [ -> | -> ]; [exfalso; destruct Hm1 as [Hm1 _]; destruct (Hm1 eq_refl); discriminate|].
          destruct (Hls eq_refl) as (H1 & H2 & H3). split; [|split; [exact H1|]].
          + exists q. split; [|reflexivity]. apply in_or_app. right. rewrite <- Hl. apply in_map_iff. exists (q, (true, m, true)).
            split; [reflexivity|]. apply filter_In. split; [|reflexivity]. apply in_map_iff. exists p. split; auto.
          + pose proof (move_one3_lost_rem _ _ _ _ _ _ _ _ _ Eq) as Hr.
            destruct HL as [(k & x & Hn & Hx & Hs)|[(k & l & p0 & j & Hn & Hx & Hfl3 & _)|(_ & Hr0 & _)]]; [| |lia].
            * exists x. split; [unfold layer_of3 in Hx; apply filter_In in Hx; apply Hx|]. unfold start3 in Hs. destruct (halve_loop _ _ _); [|discriminate]. cbn in Hs. injection Hs as <-. exact H3.
            * exists p0. split; [unfold layer_of3 in Hx; apply filter_In in Hx; apply Hx|]. rewrite H3. f_equal. eapply flight3_id; eauto.
        - destruct (Hrun eq_refl) as (n0 & Hs0 & Hn0).
          assert (P : forall l, n = S l -> pass3 u c i F3 l n0 p q).
          { intros l Hn. split; [rewrite <- (G l Hn), <- Hn; exact Hs0|]. rewrite (G l Hn) in Hfl, Hmv. destruct m; [left; apply Hmv; auto|].
            destruct Hmf as [|Hmf]; [discriminate|]. destruct (Hfl eq_refl Hmf) as [(A & B)|(A & B)]; [right; exact B|left; exact A]. }
          assert (C : forall l, n = S l -> (m = true -> b_rem q = 0%nat /\ bottom (c_dxi c) i l <= compared u q) /\
                                           (f = true -> (0 < b_rem q)%nat \/ compared u q < bottom (c_dxi c) i l)).
          { intros l Hn. rewrite (G l Hn) in Hfl, Hmv. split; intros Hx; [apply Hmv; exact Hx|]. destruct (Hfl eq_refl Hx) as [(A & _)|(_ & B)]; auto. }
          destruct HL as [(k & x & Hn & Hx & Hs)|[(k & l & p0 & j & Hn & Hx & Hfl3 & Hc)|Hg]].
          + right. exists k, k, x, n0. destruct (C k Hn) as [C1 C2]. rewrite Hn. repeat (split; [auto; fail|]). split; [|auto]. eapply Fl3_first; eauto.
          + right. exists k, (S l), p0, (j + n0)%nat. destruct (C (S l) Hn) as [C1 C2]. rewrite Hn. repeat (split; [auto; fail|]). split; [|auto]. eapply Fl3_next; eauto.
          + left. destruct Hg as (G1 & G2 & G3). assert (n0 = 0)%nat by lia. subst n0. inversion Hs0; subst.
            eapply ghost_incl; [|split; [exact G1|split; [exact G2|exact G3]]]. intros y Hy. apply in_or_app. auto. }
      split; [rewrite app_length; lia|]. split; [|split].
      + intros b Hb. exists n. auto.
      + intros b Hb. rewrite <- Hf in Hb. apply in_map_iff in Hb. destruct Hb as ([q [[lo m] f]] & <- & Hx). apply filter_In in Hx. cbn in Hx.
        destruct Hx as [Hx ->]. apply in_map_iff in Hx. destruct Hx as (p & Ep & Hp). cbn [fst].
        destruct (Q p q lo m true Hp Ep (or_intror eq_refl)) as [Hg|(k & l & p0 & j & A1 & A2 & A3 & _ & A4)]; [right; auto|].
        left. exists k, l, p0, j. auto.
      + intros b Hb. apply in_app_iff in Hb. destruct Hb as [Hb|Hb].
        * destruct (ID b Hb) as [(k & l & p & m & Hn & R)|Hg]; [left; exists k, l, p, m; split; [lia|exact R]|right].
          eapply ghost_incl; [|exact Hg]. intros y Hy. apply in_or_app. auto.
        * rewrite <- Hm in Hb. apply in_map_iff in Hb. destruct Hb as ([q [[lo m] f]] & <- & Hx). apply filter_In in Hx. cbn in Hx.
          destruct Hx as [Hx ->]. apply in_map_iff in Hx. destruct Hx as (p & Ep & Hp). cbn [fst].
          destruct (Q p q lo true f Hp Ep (or_introl eq_refl)) as [Hg|(k & l & p0 & j & A1 & A2 & A3 & A4 & _)]; [right; auto|].
          left. exists k, l, p0, j. destruct (A4 eq_refl). repeat split; auto. lia.
  Qed.
End D3.

(** ** A flight is unique and takes one time step *)
Lemma pass_det c i F k m b b1 m' b2 : pass c i F k m b b1 -> pass c i F k m' b b2 -> m = m' /\ b1 = b2.
Proof.
  assert (K : forall m b b1 m' b2, pass c i F k m b b1 -> pass c i F k m' b b2 -> (m <= m')%nat -> m = m' /\ b1 = b2).
  { intros m0 b0 b01 m1 b02 [S1 E1] [S2 E2] Hle. destruct (substeps_det _ _ _ _ _ _ _ S1 _ _ S2 Hle) as (d & -> & S3).
    inversion S3 as [|n0 x0 x1 y1 q1 xh Hr Hx Hw Hsub Hw1 Hrest]; subst; [split; [lia|auto]|]. exfalso. destruct E1 as [E1|E1]; [lia|]. unfold xh in Hx. lra. }
  intros H H'. destruct (Nat.le_ge_cases m m').
  - eapply K; eauto.
  - destruct (K _ _ _ _ _ H' H H0) as [-> ->]. auto.
Qed.
Lemma flight_det h c i F p k l m b : flight h c i F p k l m b -> forall m' b', flight h c i F p k l m' b' -> m' = m /\ b' = b.
Proof.
  assert (G : forall l m b, flight h c i F p k l m b -> (k <= l)%nat) by (induction 1; lia).
  induction 1 as [m b b1 Hp Hs|l m d b b1 Hf IH Hc Hs]; intros m' b' H'.
  - inversion H' as [x1 x2 x3 P1 P2|x1 x2 x3 x4 x5 P1 P2 P3]; subst; [|apply G in P1; lia].
    rewrite Hp in P1. injection P1 as <-. destruct (pass_det _ _ _ _ _ _ _ _ _ Hs P2). auto.
  - inversion H' as [x1 x2 x3 P1 P2|x1 x2 x3 x4 x5 P1 P2 P3]; subst; [apply G in Hf; lia|].
    destruct (IH _ _ P1) as [-> ->]. destruct (pass_det _ _ _ _ _ _ _ _ _ Hs P3). subst. auto.
Qed.
Lemma flight_account h c i F p k l m b : flight h c i F p k l m b -> exists j, dt b = time_step c / 2 ^ j /\ (m + rem b = 2 ^ j)%nat.
Proof.
  induction 1 as [m b b1 Hp [Hs _]|l m d b b1 Hf IH Hc [Hs _]];
    pose proof (substeps_rem _ _ _ _ _ _ _ Hs) as HR; pose proof (substeps_keep _ _ _ _ _ _ _ Hs) as (HD & _).
  - destruct (prepare_fresh _ _ _ _ Hp) as (j & A & B & _). exists j. split; [congruence|lia].
  - destruct IH as (j & A & B). exists j. split; [congruence|lia].
Qed.
Lemma flight_time h c i F p k l m b : flight h c i F p k l m b -> rem b = 0%nat -> INR m * dt b = time_step c.
Proof.
  intros H Hr. destruct (flight_account _ _ _ _ _ _ _ _ _ H) as (j & -> & E). rewrite Hr, Nat.add_0_r in E. subst m.
  rewrite pow_INR. replace (INR 2) with 2 by (simpl; lra). field. apply pow_nonzero. lra.
Qed.

Lemma substeps3_rem u c idx fk fk1 n p q : substeps3 u c idx fk fk1 n p q -> (n + b_rem q = b_rem p)%nat /\ b_dt q = b_dt p.
Proof.
  induction 1 as [|n p q Hr _ _ _ _ IH]; [auto|]. destruct (advance_keeps u c idx fk fk1 p) as (_ & A & B). rewrite A, B in IH. split; [lia|apply IH].
Qed.
Lemma substeps3_det u c idx fk fk1 n p q : substeps3 u c idx fk fk1 n p q -> forall n' q', substeps3 u c idx fk fk1 n' p q' -> (n <= n')%nat ->
  exists m, n' = (n + m)%nat /\ substeps3 u c idx fk fk1 m q q'.
Proof.
  induction 1 as [|n p q H0 H1 H2 H3 H4 IH]; intros n' q' H' Hle; [exists n'; auto|].
  inversion H' as [|n1 p1 q1 K0 K1 K2 K3 K4]; subst; [lia|]. destruct (IH _ _ K4 ltac:(lia)) as (m & -> & S1). exists m. split; [lia|auto].
Qed.
Lemma pass3_det u c i F k m b b1 m' b2 : pass3 u c i F k m b b1 -> pass3 u c i F k m' b b2 -> m = m' /\ b1 = b2.
Proof.
  assert (K : forall m b b1 m' b2, pass3 u c i F k m b b1 -> pass3 u c i F k m' b b2 -> (m <= m')%nat -> m = m' /\ b1 = b2).
  { intros m0 b0 b01 m1 b02 [S1 E1] [S2 E2] Hle. destruct (substeps3_det _ _ _ _ _ _ _ _ S1 _ _ S2 Hle) as (d & -> & S3).
    inversion S3 as [|n0 x0 x1 Hr Hx Hw Hw1 Hrest]; subst; [split; [lia|auto]|]. exfalso. unfold bottom in E1. destruct E1 as [E1|E1]; [lia|]. lra. }
  intros H H'. destruct (Nat.le_ge_cases m m').
  - eapply K; eauto.
  - destruct (K _ _ _ _ _ H' H H0) as [-> ->]. auto.
Qed.
Lemma flight3_det u h c i F p k l m b : flight3 u h c i F p k l m b -> forall m' b', flight3 u h c i F p k l m' b' -> m' = m /\ b' = b.
Proof.
  assert (G : forall l m b, flight3 u h c i F p k l m b -> (k <= l)%nat) by (induction 1; lia).
  induction 1 as [m b b1 Hp Hs|l m d b b1 Hf IH Hc Hs]; intros m' b' H'.
  - inversion H' as [x1 x2 x3 P1 P2|x1 x2 x3 x4 x5 P1 P2 P3]; subst; [|apply G in P1; lia].
    rewrite Hp in P1. injection P1 as <-. destruct (pass3_det _ _ _ _ _ _ _ _ _ _ Hs P2). auto.
  - inversion H' as [x1 x2 x3 P1 P2|x1 x2 x3 x4 x5 P1 P2 P3]; subst; [apply G in Hf; lia|].
    destruct (IH _ _ P1) as [-> ->]. destruct (pass3_det _ _ _ _ _ _ _ _ _ _ Hs P3). subst. auto.
Qed.
Lemma flight3_time u h c i F p k l m b : flight3 u h c i F p k l m b -> b_rem b = 0%nat -> INR m * b_dt b = c_time_step c.
Proof.
  intros H. assert (A : exists j, b_dt b = c_time_step c / 2 ^ j /\ (m + b_rem b = 2 ^ j)%nat).
  { induction H as [m q q' Hs [Hp _]|l m m' q q' Hf IH Hc [Hp _]]; destruct (substeps3_rem _ _ _ _ _ _ _ _ Hp) as [R D].
    - destruct (start3_keeps _ _ _ _ _ Hs) as (_ & j & B & C). exists j. split; [congruence|lia].
    - destruct IH as (j & A & B). exists j. split; [congruence|lia]. }
  destruct A as (j & -> & E). intros Hr. rewrite Hr, Nat.add_0_r in E. subst m.
  rewrite pow_INR. replace (INR 2) with 2 by (simpl; lra). field. apply pow_nonzero. lra.
Qed.

(** ** The densities do not depend on the order of the beam *)
Lemma layer_of_perm dxi i b b' k : Permutation b b' -> Permutation (layer_of dxi i b k) (layer_of dxi i b' k).
Proof. intros P. unfold layer_of. apply Permutation_map. now apply filter_perm. Qed.
Lemma density_row_perm h dxi i b b' carry k : Permutation b b' -> density_row h dxi i b carry k = density_row h dxi i b' carry k.
Proof.
  intros P. unfold density_row. apply map_ext. intros j. unfold beam_density. f_equal. f_equal.
  - destruct k; auto. unfold cic_lower. apply sumR_perm. now apply layer_of_perm.
  - unfold cic_upper. apply sumR_perm. now apply layer_of_perm.
Qed.
Lemma beam_density3_perm n h dxi i b b' carry k : Permutation b b' -> beam_density3 n h dxi i b carry k = beam_density3 n h dxi i b' carry k.
Proof.
  intros P. unfold beam_density3, layer_of3. extensionality x. extensionality y. f_equal. f_equal.
  - destruct k; auto. apply sumR_perm. now apply filter_perm.
  - apply sumR_perm. now apply filter_perm.
Qed.
