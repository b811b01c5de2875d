(** Proofs about substepping and pushing (C13-C15). *)
From Coq Require Import Reals ZArith List Bool Lia Lra Permutation Sorting.Sorted.
From Verif Require Import Beam2D_Model Beam2D_Spec Beam2D_Proofs.
Import ListNotations.
Open Scope R_scope.

Lemma pow2_gt_0 x : x <> 0 -> 0 < x ^ 2.
Proof. intros H. pose proof (Rsqr_pos_lt x H) as G. unfold Rsqr in G. simpl. lra. Qed.

(** ** Substepping *)
Lemma halve_loop_spec m : 0 < m -> forall n d, 0 < d -> (exists k, d / 2 ^ k <= m /\ (k <= n)%nat) ->
  exists k, halve_loop n d m = Some (d / 2 ^ k) /\ d / 2 ^ k <= m /\ (k = 0%nat \/ m < d / 2 ^ (k - 1)).
Proof.
  intros Hm. induction n as [|n IH]; intros d Hd (k & Hk & Hkn); simpl.
  - assert (k = 0)%nat by lia. subst. simpl in Hk. destruct (Rlt_dec m d); [lra|].
    exists 0%nat. simpl. replace (d / 1) with d by field. repeat split; auto. lra.
  - destruct (Rlt_dec m d).
    + destruct k as [|k]; [simpl in Hk; lra|].
      destruct (IH (d / 2)) as (k' & E1 & E2 & E3); [lra| |].
      { exists k. split; [|lia]. replace (d / 2 / 2 ^ k) with (d / 2 ^ S k); auto. simpl. field. apply pow_nonzero. lra. }
      exists (S k'). replace (d / 2 ^ S k') with (d / 2 / 2 ^ k') by (simpl; field; apply pow_nonzero; lra).
      repeat split; auto. right. simpl. rewrite Nat.sub_0_r.
      destruct E3 as [->|E3]; [simpl; lra|].
      destruct k' as [|k']; [simpl; lra|]. simpl in E3. rewrite Nat.sub_0_r in E3.
      replace (d / 2 ^ S k') with (d / 2 / 2 ^ k'); auto. simpl. field. apply pow_nonzero. lra.
    + exists 0%nat. simpl. replace (d / 1) with d by field. repeat split; auto. lra.
Qed.

Lemma pow2_unbounded x : exists k, x <= 2 ^ k.
Proof.
  destruct (Pow_x_infinity 2) with (b := x) as (N & HN).
  - rewrite Rabs_right; lra.
  - exists N. specialize (HN N (le_n N)). rewrite Rabs_right in HN; [lra|].
    apply Rle_ge. apply pow_le. lra.
Qed.

Lemma max_sub_dt_pos qm pz en : qm <> 0 -> 0 < en -> 0 < max_sub_dt qm pz en.
Proof.
  intros Hq He. unfold max_sub_dt. apply sqrt_lt_R0. apply Rdiv_lt_0_compat; auto. apply sqrt_lt_R0.
  assert (0 < 1 / qm ^ 2) by (apply Rdiv_lt_0_compat; [lra|]; apply pow2_gt_0; auto).
  pose proof (pow2_ge_0 pz). lra.
Qed.

Lemma floor_pow2 k : floorR (1 / (1 / 2 ^ k)) = Z.of_nat (2 ^ k).
Proof.
  assert (E : 1 / (1 / 2 ^ k) = IZR (Z.of_nat (2 ^ k))).
  { rewrite <- INR_IZR_INZ, pow_INR. replace (INR 2) with 2 by (simpl; lra). field. apply pow_nonzero. lra. }
  rewrite E. unfold floorR.
  rewrite <- (tech_up (IZR (Z.of_nat (2 ^ k))) (Z.of_nat (2 ^ k) + 1)); [lia| |]; rewrite plus_IZR; lra.
Qed.

Lemma substep_fuel qm pz en : qm <> 0 -> 0 < en -> exists n0, forall n, (n0 <= n)%nat ->
  exists k, halve_loop n 1 (max_sub_dt qm pz en) = Some (1 / 2 ^ k) /\
    1 / 2 ^ k <= max_sub_dt qm pz en /\ (k = 0%nat \/ max_sub_dt qm pz en < 1 / 2 ^ (k - 1)).
Proof.
  intros Hq He. pose proof (max_sub_dt_pos qm pz en Hq He) as Hm.
  destruct (pow2_unbounded (/ max_sub_dt qm pz en)) as (k & Hk).
  exists k. intros n Hn. apply halve_loop_spec; auto; [lra|]. exists k. split; auto.
  unfold Rdiv. rewrite Rmult_1_l. rewrite <- (Rinv_inv (max_sub_dt qm pz en)).
  apply Rinv_le_contravar; auto. now apply Rinv_0_lt_compat.
Qed.

(** Independently of the fuel, a successful preparation splits the time step exactly. *)
Lemma halve_loop_shape m : forall n d r, halve_loop n d m = Some r -> exists k, r = d / 2 ^ k.
Proof.
  induction n as [|n IH]; intros d r; simpl; destruct (Rlt_dec m d); intros H; try discriminate.
  - injection H as <-. exists 0%nat. simpl. field.
  - apply IH in H. destruct H as (k & ->). exists (S k). simpl. field. apply pow_nonzero. lra.
  - injection H as <-. exists 0%nat. simpl. field.
Qed.

Lemma prepare_fresh h c p b : prepare h c (fresh p) = Some b ->
  exists k, rem b = (2 ^ k)%nat /\ dt b = time_step c / 2 ^ k /\ INR (rem b) * dt b = time_step c.
Proof.
  unfold prepare. cbn [dt fresh]. destruct (Req_EM_T 0 0); [|lra]. destruct (Req_EM_T (sub_energy c) 0).
  - intros H. injection H as <-. exists 0%nat. simpl. repeat split; field.
  - destruct (halve_loop _ _ _) as [d|] eqn:E; simpl; [|discriminate]. intros H. injection H as <-.
    apply halve_loop_shape in E. destruct E as (k & ->). exists k.
    cbn [rem dt]. rewrite floor_pow2, Nat2Z.id.
    split; auto. assert (2 ^ k <> 0) by (apply pow_nonzero; lra). split; [field; auto|].
    rewrite pow_INR. replace (INR 2) with 2 by (simpl; lra). field. auto.
Qed.

Lemma prepare_again h c b b' : dt b <> 0 -> prepare h c b = Some b' -> b' = b.
Proof.
  intros Hd. unfold prepare. destruct (Req_EM_T (dt b) 0); [contradiction|]. congruence.
Qed.

(** ** The pushing loop *)
Lemma push_loop_run c fk1 fk xi_end : forall steps b, steps = rem b -> lost b = false ->
  lost (push_loop c fk1 fk xi_end steps b) = false ->
  let b' := push_loop c fk1 fk xi_end steps b in
  exists n, substeps c fk1 fk xi_end n b b' /\ (n + rem b' = rem b)%nat /\
    (rem b' = 0%nat \/ vz (half_position (pt b') (dt b')) < xi_end).
Proof.
  induction steps as [|steps IH]; intros b Hr Hl H; cbn [push_loop] in *.
  - exists 0%nat. split; [constructor|]. split; [lia|]. left. auto.
  - destruct (beam_to_vec (pt b)) as [pv x] eqn:Ev.
    unfold in_layer in *. destruct (Rle_dec xi_end (vz (half_position (pt b) (dt b)))) as [Hin|Hout]; cbn [negb] in *.
    2:{ exists 0%nat. split; [constructor|]. split; [lia|]. right. lra. }
    unfold is_lost in *. destruct (Rle_dec (lost_boundary c ^ 2) _) as [Hw|Hw] in *; [simpl in H; discriminate|].
    destruct (substep _ _ _ _) as [x1 p1] eqn:Es.
    destruct (Rle_dec (lost_boundary c ^ 2) _) as [Hw1|Hw1] in *; [simpl in H; discriminate|].
    destruct (IH (vec_to_beam c b x1 p1 steps (lost b))) as (n & S1 & S2 & S3); auto.
    exists (S n). split; [|split; [|exact S3]].
    + eapply SSS; eauto; try lra; try lia. rewrite <- Hr. simpl Nat.sub. rewrite Nat.sub_0_r. exact S1.
    + cbn in S2 |- *. lia.
Qed.

Lemma push_run c fk1 fk xi_end b : lost b = false ->
  lost (push_particle c fk1 fk xi_end b) = false ->
  let b' := push_particle c fk1 fk xi_end b in
  exists n, substeps c fk1 fk xi_end n b b' /\ (n + rem b' = rem b)%nat /\
    (rem b' = 0%nat \/ vz (half_position (pt b') (dt b')) < xi_end).
Proof. intros. now apply push_loop_run. Qed.

Lemma substeps_det c fk1 fk xi_end n b b' : substeps c fk1 fk xi_end n b b' ->
  forall n' b'', substeps c fk1 fk xi_end n' b b'' -> (n <= n')%nat ->
  exists m, n' = (n + m)%nat /\ substeps c fk1 fk xi_end m b' b''.
Proof.
  induction 1 as [b|n b b' x1 p1 xh H0 H1 H2 H3 H4 H5 IH]; intros n' b'' H' Hle.
  - exists n'. auto.
  - inversion H' as [|n1 b1 b2 x2 p2 xh2 K0 K1 K2 K3 K4 K5]; subst; [lia|].
    unfold xh2 in K3. unfold xh in H3. rewrite H3 in K3. injection K3 as <- <-.
    destruct (IH _ _ K5 ltac:(lia)) as (m & -> & S1). exists m. split; [lia|auto].
Qed.

Lemma substeps_rem c fk1 fk xi_end n b b' : substeps c fk1 fk xi_end n b b' ->
  (n + rem b' = rem b)%nat.
Proof.
  induction 1 as [b|n b b' x1 p1 xh H0 H1 H2 H3 H4 H5 IH]; [lia|].
  cbn [rem vec_to_beam] in IH. lia.
Qed.
Lemma substeps_keep c fk1 fk xi_end n b b' : substeps c fk1 fk xi_end n b b' ->
  dt b' = dt b /\ ident b' = ident b /\ lost b' = lost b.
Proof. induction 1 as [b|n b b' x1 p1 xh H0 H1 H2 H3 H4 H5 IH]; auto. Qed.

(** Gamma of a momentum exceeds its longitudinal component, so xi decreases. *)
Lemma gamma_gt qm pv : qm <> 0 -> vz pv < sqrt ((1 / qm) ^ 2 + vsq pv) /\ 0 < sqrt ((1 / qm) ^ 2 + vsq pv).
Proof.
  intros Hq. assert (Hm : 0 < (1 / qm) ^ 2).
  { apply pow2_gt_0. unfold Rdiv. rewrite Rmult_1_l. now apply Rinv_neq_0_compat. }
  assert (H0 : vz pv ^ 2 < (1 / qm) ^ 2 + vsq pv).
  { unfold vsq. pose proof (pow2_ge_0 (vx pv)). pose proof (pow2_ge_0 (vy pv)). lra. }
  assert (Hp : 0 < sqrt ((1 / qm) ^ 2 + vsq pv)).
  { apply sqrt_lt_R0. pose proof (pow2_ge_0 (vz pv)). lra. }
  split; auto. destruct (Rle_dec (vz pv) 0); [lra|].
  rewrite <- (sqrt_pow2 (vz pv)) by lra. apply sqrt_lt_1_alt. split; auto. apply pow2_ge_0.
Qed.

Lemma substep_xi c p d eb x1 p1 : q_m p <> 0 -> 0 < d -> substep c p d eb = (x1, p1) -> vz x1 < xi p.
Proof.
  intros Hq Hd H. unfold substep, beam_to_vec in H. cbv zeta beta iota in H.
  match type of H with context [vscale (d / sqrt ((1 / q_m p) ^ 2 + vsq ?q)) ?q] => set (ph := q) in H end.
  destruct (gamma_gt (q_m p) ph Hq) as [G1 G2].
  clearbody ph. change (vz x1) with (vz (fst (x1, p1))). rewrite <- H. cbn [fst].
  set (g := sqrt ((1 / q_m p) ^ 2 + vsq ph)) in *.
  assert (d / g * vz ph < d).
  { unfold Rdiv. rewrite Rmult_assoc. rewrite <- (Rmult_1_r d) at 2. apply Rmult_lt_compat_l; auto.
    rewrite <- (Rinv_l g) by (apply Rgt_not_eq; exact G2). apply Rmult_lt_compat_l; auto. now apply Rinv_0_lt_compat. }
  cbn [vz vadd vscale snd fst]. unfold vz in *. simpl in *. lra.
Qed.

Lemma substeps_xi c fk1 fk xi_end n b b' : substeps c fk1 fk xi_end n b b' -> q_m (pt b) <> 0 -> 0 < dt b ->
  xi (pt b') <= xi (pt b) /\ ((0 < n)%nat -> xi (pt b') < xi (pt b)).
Proof.
  induction 1 as [b|n b b' x1 p1 xh H0 H1 H2 H3 H4 H5 IH]; intros Hq Hd.
  - split; [lra|lia].
  - apply substep_xi in H3; auto. destruct IH as [I1 _]; auto. cbn [pt xi vec_to_beam] in I1. split; [lra|intros; lra].
Qed.

Lemma lost_boundary_pos c : 0 < max_radius c -> 0 < lost_boundary c /\ lost_boundary c < max_radius c.
Proof.
  intros H. unfold lost_boundary. split.
  - eapply Rlt_le_trans; [|apply Rmax_l]. lra.
  - apply Rmax_lub_lt; lra.
Qed.

Lemma sqrt_lt_bound a b : 0 <= b -> a < b ^ 2 -> 0 <= a -> sqrt a < b.
Proof. intros Hb H Ha. rewrite <- (sqrt_pow2 b) by auto. now apply sqrt_lt_1_alt. Qed.

Lemma substeps_wall c fk1 fk xi_end n b b' : substeps c fk1 fk xi_end n b b' -> 0 < max_radius c ->
  (0 < n)%nat -> 0 <= rad (pt b') < lost_boundary c.
Proof.
  intros H HR. destruct (lost_boundary_pos c HR) as [Hb _].
  induction H as [b|n b b' x1 p1 xh H0 H1 H2 H3 H4 H5 IH]; intros Hn; [lia|].
  destruct n as [|n].
  - inversion H5; subst. cbn [pt rad vec_to_beam]. split; [apply sqrt_pos|].
    apply sqrt_lt_bound; try lra. pose proof (pow2_ge_0 (vx x1)). pose proof (pow2_ge_0 (vy x1)). lra.
  - apply IH. lia.
Qed.

(** ** History of a particle *)
Lemma history_account h c n p b : time_step c <> 0 -> history h c n (fresh p) b ->
  (n = 0%nat /\ b = fresh p) \/ (exists k, dt b = time_step c / 2 ^ k /\ (n + rem b = 2 ^ k)%nat).
Proof.
  intros Ht H. remember (fresh p) as b0 eqn:E0. induction H as [b0|n m b0 b1 b2 b3 fk1 fk xe H IH Hp Hpush Hl Hs]; subst b0.
  - now left.
  - right. specialize (IH eq_refl).
    pose proof (substeps_rem _ _ _ _ _ _ _ Hs) as HR. pose proof (substeps_keep _ _ _ _ _ _ _ Hs) as (HD & _).
    destruct IH as [(-> & ->)|(k & K1 & K2)].
    + destruct (prepare_fresh _ _ _ _ Hp) as (k & A & B & _). exists k. split; [congruence|]. simpl. lia.
    + assert (dt b1 <> 0).
      { rewrite K1. unfold Rdiv. apply Rmult_integral_contrapositive_currified; auto.
        apply Rinv_neq_0_compat. apply pow_nonzero. lra. }
      apply prepare_again in Hp; auto. subst b2. exists k. split; [congruence|lia].
Qed.
Lemma history_time h c n p b : time_step c <> 0 -> history h c n (fresh p) b -> rem b = 0%nat ->
  INR n * dt b = time_step c.
Proof.
  intros Ht H Hr. destruct (history_account h c n p b Ht H) as [(-> & ->)|(k & K1 & K2)]; [discriminate|].
  rewrite Hr, Nat.add_0_r in K2. subst n. rewrite K1, pow_INR. replace (INR 2) with 2 by (simpl; lra).
  field. apply pow_nonzero. lra.
Qed.
Lemma history_ident h c n b b' : history h c n b b' -> ident b' = ident b.
Proof.
  induction 1 as [b|n m b b1 b2 b3 fk1 fk xe H IH Hp Hpush Hl Hs]; auto.
  rewrite <- IH. subst b3. unfold push_particle. rewrite (proj1 (push_loop_keeps _ _ _ _ _ _)).
  now apply prepare_keeps in Hp.
Qed.

(** ** The xi loop *)
Lemma map_opt_In {X Y} (f : X -> option Y) l : forall l' y, map_opt f l = Some l' -> In y l' -> exists x, In x l /\ f x = Some y.
Proof.
  induction l as [|x l IH]; intros l' y; simpl.
  - intros E. injection E as <-. intros [].
  - destruct (f x) as [y0|] eqn:Ey; simpl; [|discriminate]. destruct (map_opt f l) as [l1|]; simpl; [|discriminate].
    intros E. injection E as <-. intros [<-|H].
    + exists x. auto.
    + destruct (IH l1 y eq_refl H) as (x' & Hx & Hf). exists x'. auto.
Qed.

Lemma move_spec sort_bool h c l xi_i pf nf ls st mv : sort_bool_ok sort_bool ->
  move_beam_layer sort_bool h c l xi_i pf nf = Some (ls, st, mv) ->
  let xe := IZR xi_i * - xi_step c in
  (forall b, In b ls -> lost b = true) /\
  (forall b, In b st -> lost b = false /\ rem b = 0%nat /\ xe <= xi (pt b)) /\
  (forall b, In b mv -> lost b = false /\ ((0 < rem b)%nat \/ xi (pt b) < xe)) /\
  (forall b, In b (ls ++ st ++ mv) -> exists b1 b2, In b1 l /\ prepare h c b1 = Some b2 /\ push_particle c nf pf xe b2 = b).
Proof.
  intros Hok H xe. unfold move_beam_layer in H. fold xe in H.
  destruct (map_opt (prepare h c) l) as [l'|] eqn:E; cbn [option_map] in H; [|discriminate].
  assert (H' : split_beam_slice sort_bool (map (push_particle c nf pf xe) l') xe = (ls, st, mv)) by congruence.
  pose proof (split_perm _ _ _ _ _ _ Hok H') as HP.
  destruct (split_spec _ _ _ _ _ _ Hok H') as (A & B & C).
  split; [|split; [|split]].
  - intros b Hb. apply (Permutation_in _ A) in Hb. apply filter_In in Hb. tauto.
  - intros b Hb. apply (Permutation_in _ B) in Hb. apply filter_In in Hb. destruct Hb as [_ Hb].
    apply andb_prop in Hb. destruct Hb as [Hb1 Hb2]. apply negb_true_iff in Hb1, Hb2. split; auto.
    unfold moving_b in Hb2. apply orb_false_iff in Hb2. destruct Hb2 as [Hb2 Hb3].
    apply Nat.ltb_ge in Hb2. split; [lia|]. destruct (Rlt_dec (xi (pt b)) xe); [discriminate|lra].
  - intros b Hb. apply (Permutation_in _ C) in Hb. apply filter_In in Hb. destruct Hb as [_ Hb].
    apply andb_prop in Hb. destruct Hb as [Hb1 Hb2]. apply negb_true_iff in Hb1. split; auto.
    unfold moving_b in Hb2. apply orb_true_iff in Hb2. destruct Hb2 as [Hb2|Hb2].
    + left. now apply Nat.ltb_lt.
    + right. destruct (Rlt_dec (xi (pt b)) xe); [auto|discriminate].
  - intros b Hb. apply (Permutation_in _ HP) in Hb. apply in_map_iff in Hb. destruct Hb as (b2 & <- & Hb2).
    destruct (map_opt_In _ _ _ _ E Hb2) as (b1 & Hb1 & Hp). eauto.
Qed.

Section Loop.
  Variable sort_bool : (bpart -> bool) -> list bpart -> list bpart.
  Hypothesis Hok : sort_bool_ok sort_bool.
  Variable Pl : Type.
  Variable plasma : Pl -> list R -> list R -> Pl.
  Variable pl_fields : Pl -> fields.
  Notation iter := (xi_iter sort_bool Pl plasma pl_fields).
  Notation loop := (xi_loop sort_bool Pl plasma pl_fields).
  Variable h : nat.
  Variable c : pcfg.
  Variable src0 : source.
  Hypothesis Hstep : 0 <= xi_step c.

  Definition traced (b : bpart) : Prop :=
    lost b = false /\ exists n p, In (fresh p) (undelivered src0) /\ history h c n (fresh p) b.

  Record linv (i : Z) (s : loop_state Pl) : Prop := {
    li_src : forall b, In b (undelivered (ls_src Pl s)) -> In b (undelivered src0);
    li_move : forall b, In b (ls_move Pl s) -> traced b /\
                ((0 < rem b)%nat \/ xi (pt b) < IZR (i - 1) * - xi_step c);
    li_lost : forall b, In b (ls_lost Pl s) -> lost b = true;
    li_drain : forall b, In b (concat (ls_drain Pl s)) -> traced b /\ rem b = 0%nat /\ IZR (i - 1) * - xi_step c <= xi (pt b) }.

  Lemma in_undelivered_fresh s b : In b (undelivered s) -> exists p, b = fresh p.
  Proof. unfold undelivered. rewrite in_map_iff. intros (p & <- & _). eauto. Qed.

  Lemma iter_inv i s s' : linv i s -> iter h c i s = Some s' -> linv (i + 1) s'.
  Proof.
    intros I H. unfold xi_iter in H.
    destruct (get_beam_slice _ _ _) as [[[sz layer] src']|] eqn:Eg; simpl in H; [|discriminate].
    destruct (layout_beam_layer _ _ _ _ _) as [[rho rho']|]; simpl in H; [|discriminate].
    destruct (move_beam_layer _ _ _ _ _ _ _) as [[[l moved] fell]|] eqn:Em; simpl in H; [|discriminate].
    injection H as <-. apply get_slice_ledger in Eg.
    destruct (move_spec _ _ _ _ _ _ _ _ _ _ Hok Em) as (M1 & M2 & M3 & M4).
    assert (Tr : forall b, In b (moved ++ fell) -> traced b).
    { intros b Hb. destruct (M4 b) as (b1 & b2 & Hb1 & Hp & Hpush); [rewrite in_app_iff; auto|].
      destruct (li_move _ _ I b1 Hb1) as ((Hl1 & n & p & Hin & Hh) & _).
      assert (Hl : lost b = false).
      { apply in_app_or in Hb. destruct Hb as [Hb|Hb]; [apply (M2 b Hb)|apply (M3 b Hb)]. }
      split; auto. assert (Hl2 : lost b2 = false) by (apply prepare_keeps in Hp; destruct Hp as (_ & Hp & _); congruence).
      destruct (push_run c _ _ _ b2 Hl2 ltac:(rewrite Hpush; exact Hl)) as (m & S1 & _ & _).
      exists (n + m)%nat, p. split; auto. eapply H_layer; eauto. rewrite Hpush in S1. exact S1. }
    assert (Ei : (i + 1 - 1)%Z = i) by lia.
    constructor; rewrite ?Ei; cbn [ls_src ls_move ls_lost ls_drain].
    - intros b Hb. apply (li_src _ _ I). rewrite Eg. apply in_or_app. auto.
    - intros b Hb. apply in_app_or in Hb. destruct Hb as [Hb|Hb].
      + assert (Hin : In b (undelivered (ls_src Pl s))) by (rewrite Eg; apply in_or_app; auto).
        destruct (in_undelivered_fresh _ _ Hin) as (p & ->).
        split; [|left; simpl; lia]. split; [reflexivity|].
        exists 0%nat, p. split; [now apply (li_src _ _ I)|constructor].
      + split; [apply Tr; apply in_or_app; auto|]. apply (M3 b Hb).
    - intros b Hb. apply in_app_or in Hb. destruct Hb; [now apply (li_lost _ _ I)|auto].
    - intros b Hb. rewrite drain_push_concat in Hb. apply in_app_or in Hb. destruct Hb as [Hb|Hb].
      + destruct (li_drain _ _ I b Hb) as (D1 & D2 & D3). split; auto. split; auto.
        rewrite minus_IZR in D3. nra.
      + split; [apply Tr; apply in_or_app; auto|]. apply (M2 b Hb).
  Qed.

  Lemma loop_inv n : forall i s s', linv i s -> loop h c n i s = Some s' -> linv (i + Z.of_nat n) s'.
  Proof.
    induction n as [|n IH]; intros i s s' I H; cbn [xi_loop] in H.
    - injection H as <-. now rewrite Z.add_0_r.
    - destruct (iter h c i s) as [s1|] eqn:E; simpl in H; [|discriminate].
      apply iter_inv in E; auto. replace (i + Z.of_nat (S n))%Z with (i + 1 + Z.of_nat n)%Z by lia. eauto.
  Qed.
  Lemma loop_ledger n : forall i s s', loop h c n i s = Some s' -> Permutation (idents (ledger Pl s')) (idents (ledger Pl s)).
  Proof.
    induction n as [|n IH]; intros i s s' H; cbn [xi_loop] in H.
    - injection H as <-. reflexivity.
    - destruct (iter h c i s) as [s1|] eqn:E; simpl in H; [|discriminate].
      apply iter_ledger in E; auto. eapply Permutation_trans; [eapply IH; eauto|exact E].
  Qed.

  Lemma loop_conservation n i s' rho prev pl : time_step c <> 0 ->
    loop h c n i (mkLS Pl src0 [] [] [] rho prev pl) = Some s' ->
    Permutation (idents (undelivered src0))
      (idents (concat (ls_drain Pl s') ++ ls_lost Pl s' ++ ls_move Pl s' ++ undelivered (ls_src Pl s'))) /\
    (forall b, In b (ls_lost Pl s') -> lost b = true) /\
    (forall b, In b (concat (ls_drain Pl s')) -> lost b = false /\ rem b = 0%nat /\
       IZR (i + Z.of_nat n - 1) * - xi_step c <= xi (pt b) /\
       exists m p, In (fresh p) (undelivered src0) /\ history h c m (fresh p) b /\
         ident b = ident (fresh p) /\ INR m * dt b = time_step c) /\
    (forall b, In b (ls_move Pl s') -> lost b = false /\
       ((0 < rem b)%nat \/ xi (pt b) < IZR (i + Z.of_nat n - 1) * - xi_step c)).
  Proof.
    intros Ht H. pose proof (loop_ledger _ _ _ _ H) as HL.
    assert (I0 : linv i (mkLS Pl src0 [] [] [] rho prev pl)).
    { constructor; cbn [ls_src ls_move ls_lost ls_drain]; auto; intros b []. }
    pose proof (loop_inv _ _ _ _ I0 H) as I. destruct I as [I1 I2 I3 I4].
    split; [|split; [exact I3|split]].
    - unfold ledger in HL. cbn [ls_src ls_move ls_lost ls_drain concat app] in HL. rewrite !app_nil_r in HL.
      eapply Permutation_trans; [apply Permutation_sym; exact HL|].
      unfold idents. rewrite !map_app.
      apply (Permutation_count_occ ident_dec). intros x. rewrite !count_occ_app. lia.
    - intros b Hb. destruct (I4 b Hb) as ((L1 & m & p & Hin & Hh) & Hr & Hx). repeat split; auto.
      exists m, p. repeat split; auto; [eapply history_ident; eauto|eapply history_time; eauto].
    - intros b Hb. destruct (I2 b Hb) as ((L1 & _) & Hx). auto.
  Qed.
End Loop.
