(** Proofs for the 3D beam model. *)
From Coq Require Import Reals ZArith List Bool Permutation Sorting.Sorted Lra Lia Psatz.
From Verif Require Import Beam2D_Model Beam2D_Spec Beam2D_Proofs Beam2D_Push Beam2D_Dep Shape_Model Shape_Spec Shape_Proofs Beam3D_Model Beam3D_Spec.
Import ListNotations.
Open Scope R_scope.

(** ** Files *)
Lemma zip_part3_map l : zip_part3 (map b_xi l) (map b_x l) (map b_y l) (map b_px l) (map b_py l) (map b_pz l)
    (map b_qm l) (map b_q l) (map b_id l) =
  map (fun p => mk3 (b_xi p) (b_x p) (b_y p) (b_px p) (b_py p) (b_pz p) (b_qm p) (b_q p) (b_id p) 0 0) l.
Proof. induction l as [|p l IH]; [reflexivity|]. cbn. now rewrite IH. Qed.
Lemma load_save3 l : load_beam3d (save_beam3d l) =
  Some (map (fun p => mk3 (b_xi p) (b_x p) (b_y p) (b_px p) (b_py p) (b_pz p) (b_qm p) (b_q p) (b_id p) 0 0) l).
Proof. unfold load_beam3d, save_beam3d, get_R, get_Z. cbn. now rewrite zip_part3_map. Qed.
Lemma load_save2 l : load_beam2d (save_beam2d l) = None.
Proof. reflexivity. Qed.

(** ** Source *)
Definition ltop (t : R) (p : part3) : bool := if Rlt_dec (b_xi p) t then true else false.
Lemma cut3 dxi idx l : 0 < dxi -> StronglySorted (fun a b => b_xi b <= b_xi a) l ->
  (forall p, In p l -> b_xi p < - (IZR idx * dxi)) ->
  firstn (length (filter (in_layer3 dxi idx) l)) l = filter (in_layer3 dxi idx) l /\
  skipn (length (filter (in_layer3 dxi idx) l)) l = filter (ltop (- (IZR (idx + 1) * dxi))) l.
Proof.
  intros Hd. induction l as [|p l IH]; intros Hs Ht; [split; reflexivity|]. inversion Hs as [|? ? Hs' Hf]; subst.
  specialize (IH Hs' (fun q Hq => Ht q (or_intror Hq))). destruct IH as [IH1 IH2].
  cbn [filter]. specialize (Ht p (or_introl eq_refl)) as Hp.
  destruct (Rle_dec (- (IZR (idx + 1) * dxi)) (b_xi p)) as [H|H].
  - assert (E : in_layer3 dxi idx p = true).
    { unfold in_layer3. destruct (Rle_dec _ _); [|lra]. destruct (Rlt_dec _ _); auto; lra. }
    assert (E' : ltop (- (IZR (idx + 1) * dxi)) p = false).
    { unfold ltop. destruct (Rlt_dec _ _); auto; lra. }
    rewrite E, E'. cbn [length firstn skipn]. now rewrite IH1, IH2.
  - assert (E0 : in_layer3 dxi idx p = false).
    { unfold in_layer3. destruct (Rle_dec _ _); auto; lra. }
    assert (E' : ltop (- (IZR (idx + 1) * dxi)) p = true).
    { unfold ltop. destruct (Rlt_dec _ _); auto; lra. }
    assert (E : filter (in_layer3 dxi idx) l = []).
    { apply filter_none. intros q Hq. rewrite Forall_forall in Hf. specialize (Hf q Hq). unfold in_layer3.
      destruct (Rle_dec _ _); auto. lra. }
    rewrite E0, E', E in *. cbn [length firstn skipn] in *. split; auto. now rewrite <- IH2.
Qed.

Lemma ask3_spec dxi : 0 < dxi -> forall n i l, StronglySorted (fun a b => b_xi b <= b_xi a) l ->
  (forall p, In p l -> b_xi p < - (IZR i * dxi)) ->
  fst (ask3 dxi l i n) = map (fun k => filter (in_layer3 dxi (i + Z.of_nat k)) l) (seq 0 n) /\
  snd (ask3 dxi l i n) = filter (ltop (- (IZR (i + Z.of_nat n) * dxi))) l.
Proof.
  intros Hd. induction n as [|n IH]; intros i l Hs Ht.
  - cbn [ask3 fst snd seq map]. split; auto. rewrite filter_idem; auto. intros p Hp. unfold ltop.
    rewrite Z.add_0_r. specialize (Ht p Hp). destruct (Rlt_dec _ _); auto; lra.
  - cbn [ask3]. unfold get_layer3. destruct (cut3 dxi i l Hd Hs Ht) as [E1 E2]. rewrite E1, E2.
    specialize (IH (i + 1)%Z (filter (ltop (- (IZR (i + 1) * dxi))) l) (SS_filter _ _ _ Hs)).
    assert (Ht' : forall p, In p (filter (ltop (- (IZR (i + 1) * dxi))) l) -> b_xi p < - (IZR (i + 1) * dxi)).
    { intros p Hp. apply filter_In in Hp. destruct Hp as [_ Hp]. unfold ltop in Hp. destruct (Rlt_dec _ _); [auto|discriminate]. }
    destruct (IH Ht') as [A B]. destruct (ask3 dxi _ (i + 1) n) as [r s2]. cbn [fst snd] in *. subst r s2. split.
    + cbn [seq map]. rewrite Z.add_0_r. f_equal. rewrite <- seq_shift, map_map. apply map_ext. intros k.
      rewrite filter_filter. replace (i + Z.of_nat (S k))%Z with (i + 1 + Z.of_nat k)%Z by lia.
      apply filter_ext_in'. intros p Hp. unfold ltop, in_layer3.
      assert (Hk : 0 <= IZR (Z.of_nat k)) by (apply IZR_le; lia). 
      destruct (Rlt_dec (b_xi p) (- (IZR (i + 1) * dxi))) as [H|H]; [reflexivity|]. cbn [andb].
      destruct (Rle_dec _ _); auto. destruct (Rlt_dec (b_xi p) (- dxi * IZR (i + 1 + Z.of_nat k))) as [H1|H1]; auto.
      exfalso. rewrite (plus_IZR (i + 1)) in H1. nra.
    + rewrite filter_filter. replace (i + 1 + Z.of_nat n)%Z with (i + Z.of_nat (S n))%Z by lia.
      apply filter_ext_in'. intros p Hp. unfold ltop.
      destruct (Rlt_dec (b_xi p) (- (IZR (i + Z.of_nat (S n)) * dxi))) as [H1|H1].
      * destruct (Rlt_dec (b_xi p) (- (IZR (i + 1) * dxi))) as [H2|H2]; auto. exfalso.
        replace (i + Z.of_nat (S n))%Z with (i + 1 + Z.of_nat n)%Z in H1 by lia. rewrite (plus_IZR (i + 1)) in H1.
        assert (0 <= IZR (Z.of_nat n)) by (apply IZR_le; lia). nra.
      * apply andb_false_r.
Qed.

Lemma in_layer3_iff dxi i p : in_layer3 dxi i p = true <-> xi_in dxi i p.
Proof.
  unfold in_layer3, xi_in.
  replace (- dxi * IZR (i + 1)) with (- (IZR (i + 1) * dxi)) by ring. replace (- dxi * IZR i) with (- (IZR i * dxi)) by ring.
  destruct (Rle_dec (- (IZR (i + 1) * dxi)) (b_xi p)); destruct (Rlt_dec (b_xi p) (- (IZR i * dxi)));
    split; intros; try discriminate; auto; lra.
Qed.

(** ** Deposition *)
Lemma deposit3_val n h dxi idx : h <> 0 -> forall l o a b,
  fst (deposit3 n h dxi idx l o) a b = fst o a b +
    sumR (map (fun p => b_q p * dist_from_top dxi idx p * shape n h (b_x p) (b_y p) a b) l) /\
  snd (deposit3 n h dxi idx l o) a b = snd o a b +
    sumR (map (fun p => b_q p * (1 - dist_from_top dxi idx p) * shape n h (b_x p) (b_y p) a b) l).
Proof.
  intros Hh. induction l as [|p l IH]; intros o a b.
  - cbn. lra.
  - unfold deposit3 in *. cbn [fold_left map sumR]. destruct (IH
      (deposit_one n 1 (b_x p / h + 0.5) (b_y p / h + 0.5) (fun w => b_q p * (w * weight1 ((- dxi * IZR idx - b_xi p) / dxi) 0)) (fst o),
       deposit_one n 1 (b_x p / h + 0.5) (b_y p / h + 0.5) (fun w => b_q p * (w * weight1 ((- dxi * IZR idx - b_xi p) / dxi) 1)) (snd o)) a b) as [A B].
    rewrite A, B. cbn [fst snd].
    rewrite !deposit_one_val by (first [lra | intros; unfold weight1; ring]). unfold weight1, dist_from_top.
    set (D := (- dxi * IZR idx - b_xi p) / dxi). split; field.
Qed.

Lemma gsum_sumR n (l : list part3) (f : part3 -> grid) :
  gsum n (fun a b => sumR (map (fun p => f p a b) l)) = sumR (map (fun p => gsum n (f p)) l).
Proof.
  induction l as [|p l IH]; cbn [map sumR].
  - unfold gsum. rewrite (sumZ_ext n _ (fun _ => 0)); [apply sumZ_0|]. intros. apply sumZ_0.
  - rewrite (gsum_plus n (f p) (fun a b => sumR (map (fun p => f p a b) l))), IH. reflexivity.
Qed.

Lemma layout3_val n h dxi rho_l l idx rho next : 0 < h ->
  layout3 n h dxi rho_l l idx = (rho, next) -> forall a b,
  rho a b = (rho_l a b + sumR (map (fun p => b_q p * dist_from_top dxi idx p * shape n h (b_x p) (b_y p) a b) l)) / h ^ 2 /\
  next a b = sumR (map (fun p => b_q p * (1 - dist_from_top dxi idx p) * shape n h (b_x p) (b_y p) a b) l).
Proof.
  intros Hh E a b. unfold layout3 in E.
  assert (E' : (fun a b : Z => fst (deposit3 n h dxi idx l (rho_l, zero_grid)) a b / h ^ 2, snd (deposit3 n h dxi idx l (rho_l, zero_grid))) = (rho, next)).
  { destruct l as [|p l]; [exact E|]. destruct (deposit3 n h dxi idx (p :: l) (rho_l, zero_grid)). exact E. }
  injection E' as <- <-. destruct (deposit3_val n h dxi idx ltac:(lra) l (rho_l, zero_grid) a b) as [A B].
  rewrite A, B. cbn [fst snd]. unfold zero_grid. split; [reflexivity|apply Rplus_0_l].
Qed.

Lemma layout3_charge N h dxi rho_l l idx rho next : 0 < h ->
  layout3 (Z.of_nat N) h dxi rho_l l idx = (rho, next) ->
  (forall p, In p l -> on_grid3 (Z.of_nat N) h p) ->
  h ^ 2 * gsum N rho + gsum N next = gsum N rho_l + total_charge3 l.
Proof.
  intros Hh E Hg. pose proof (layout3_val _ _ _ _ _ _ _ _ Hh E) as V.
  rewrite <- gsum_scal.
  rewrite (gsum_ext N (fun a b => h ^ 2 * rho a b) (fun a b => rho_l a b +
     sumR (map (fun p => b_q p * dist_from_top dxi idx p * shape (Z.of_nat N) h (b_x p) (b_y p) a b) l))).
  2: { intros a b. destruct (V a b) as [-> _]. field. lra. }
  rewrite (gsum_ext N next (fun a b => sumR (map (fun p => b_q p * (1 - dist_from_top dxi idx p) * shape (Z.of_nat N) h (b_x p) (b_y p) a b) l))).
  2: { intros a b. now destruct (V a b). }
  rewrite gsum_plus.
  rewrite (gsum_sumR N l (fun p a b => b_q p * dist_from_top dxi idx p * shape (Z.of_nat N) h (b_x p) (b_y p) a b)).
  rewrite (gsum_sumR N l (fun p a b => b_q p * (1 - dist_from_top dxi idx p) * shape (Z.of_nat N) h (b_x p) (b_y p) a b)).
  unfold total_charge3. clear E V.
  induction l as [|p l IH]; cbn [map sumR]; [lra|].
  destruct (Hg p (or_introl eq_refl)) as [Hx Hy]. specialize (IH (fun q Hq => Hg q (or_intror Hq))).
  rewrite !gsum_scal, !shape_sum by auto. lra.
Qed.

(** ** Mover *)
Lemma ident3_neg p x y xi px py pz r : ident3 (with_state p x y xi px py pz (- b_id p) r) = ident3 p.
Proof. unfold ident3, with_state. cbn. now rewrite Z.abs_opp. Qed.

Lemma loop3_ident u c idx fk fk1 : forall steps p, ident3 (fst (fst (loop3 u c idx fk fk1 steps p))) = ident3 p.
Proof.
  induction steps as [|n IH]; intros p; [reflexivity|]. cbn [loop3].
  destruct (half3 p) as [[hx hy] hz]. destruct (not_in_layer hz _); [reflexivity|].
  destruct (is_lost3 hx hy _); [apply ident3_neg|].
  destruct (update u p _) as [p' x']. destruct (is_lost3 _ _ _); [apply ident3_neg|].
  rewrite IH. reflexivity.
Qed.

Lemma loop3_run u c idx fk fk1 : forall steps p q fell, steps = b_rem p ->
  loop3 u c idx fk fk1 steps p = (q, false, fell) ->
  exists n, substeps3 u c idx fk fk1 n p q /\ (n + b_rem q = b_rem p)%nat /\
    (fell = false -> b_rem q = 0%nat) /\
    (fell = true -> (0 < b_rem q)%nat /\ snd (half3 q) < - (IZR (idx + 1) * c_dxi c)).
Proof.
  induction steps as [|n IH]; intros p q fell Hr E.
  - cbn in E. injection E as <- <-. exists 0%nat. split; [constructor|]. repeat split; try lia; try discriminate. 
  - cbn [loop3] in E. destruct (half3 p) as [[hx hy] hz] eqn:Eh. unfold not_in_layer at 1 in E.
    replace (IZR (idx + 1) * - c_dxi c) with (- (IZR (idx + 1) * c_dxi c)) in E by ring.
    destruct (Rlt_dec hz _) as [H|H].
    + injection E as <- <-. exists 0%nat. split; [constructor|]. rewrite Eh. cbn [snd]. repeat split; try lia; try discriminate; auto.
    + unfold is_lost3 at 1 in E. destruct (Rle_dec (lost_radius c ^ 2) (hx ^ 2 + hy ^ 2)) as [Hl|Hl]; [discriminate|].
      destruct (update u p (fields_at c idx (hx, hy, hz) fk fk1)) as [p' x'] eqn:Eu.
      unfold is_lost3 at 1 in E. destruct (Rle_dec _ _) as [Hl'|Hl'] in E; [discriminate|].
      assert (Ea : advance u c idx fk fk1 p = with_state p (vx x') (vy x') (vz x') (vx p') (vy p') (vz p') (b_id p) n).
      { unfold advance, with_state. rewrite Eh, Eu, <- Hr. f_equal. lia. }
      rewrite <- Ea in E. destruct (IH (advance u c idx fk fk1 p) q fell) as (m & Hs & Hn & H1 & H2).
      { rewrite Ea. reflexivity. } { exact E. }
      exists (S m). split.
      * apply S3_S; auto; try lia.
        -- rewrite Eh. cbn [snd]. lra.
        -- rewrite Eh. cbn [fst snd]. lra.
        -- rewrite Ea. cbn. lra.
      * rewrite Ea in Hn. cbn [with_state b_rem] in Hn. split; [lia|]. auto.
Qed.

(** lost particles end outside the wall, with no steps left *)
Lemma loop3_lost u c idx fk fk1 : forall steps p q fell,
  loop3 u c idx fk fk1 steps p = (q, true, fell) ->
  fell = false /\ b_rem q = 0%nat /\ lost_radius c ^ 2 <= b_x q ^ 2 + b_y q ^ 2 /\ b_id q = (- b_id p)%Z.
Proof.
  induction steps as [|n IH]; intros p q fell E; [discriminate|].
  cbn [loop3] in E. destruct (half3 p) as [[hx hy] hz] eqn:Eh. destruct (not_in_layer hz _); [discriminate|].
  unfold is_lost3 at 1 in E. destruct (Rle_dec (lost_radius c ^ 2) (hx ^ 2 + hy ^ 2)) as [Hl|Hl].
  - injection E as <- <-. cbn. auto.
  - destruct (update u p _) as [p' x']. unfold is_lost3 at 1 in E. destruct (Rle_dec _ _) as [Hl'|Hl'] in E.
    + injection E as <- <-. cbn. auto.
    + apply IH in E. cbn [with_state b_id] in E. exact E.
Qed.

Lemma move_one3_spec u c idx fk fk1 p q l m f : move_one3 u c idx fk fk1 p = (q, (l, m, f)) ->
  ident3 q = ident3 p /\
  (m = true <-> l = false /\ f = false) /\
  (l = false -> exists n, substeps3 u c idx fk fk1 n p q /\ (n + b_rem q = b_rem p)%nat) /\
  (m = true -> b_rem q = 0%nat /\ - (IZR (idx + 1) * c_dxi c) <= match u with CPU => b_x q | GPU => b_xi q end) /\
  (l = false -> f = true -> ((0 < b_rem q)%nat /\ snd (half3 q) < - (IZR (idx + 1) * c_dxi c)) \/
     (b_rem q = 0%nat /\ match u with CPU => b_x q | GPU => b_xi q end < - (IZR (idx + 1) * c_dxi c))) /\
  (l = true -> b_rem q = 0%nat /\ lost_radius c ^ 2 <= b_x q ^ 2 + b_y q ^ 2 /\ b_id q = (- b_id p)%Z).
Proof.
  unfold move_one3. destruct (loop3 u c idx fk fk1 (b_rem p) p) as [[q0 l0] f0] eqn:E. intros H. injection H as -> -> Hm Hf.
  replace (IZR (idx + 1) * - c_dxi c) with (- (IZR (idx + 1) * c_dxi c)) in * by ring.
  pose proof (loop3_ident u c idx fk fk1 (b_rem p) p) as Hi. rewrite E in Hi. cbn [fst] in Hi.
  split; [exact Hi|].
  split. { rewrite <- Hm, Hf. destruct f, l; cbn; intuition discriminate. }
  split. { intros ->. destruct (loop3_run _ _ _ _ _ _ _ _ _ eq_refl E) as (n & A & B & _). eauto. }
  set (z := match u with CPU => b_x q | GPU => b_xi q end) in *.
  split.
  { intros ->. rewrite Hf in Hm. destruct f; [discriminate|]. destruct l; [discriminate|].
    apply orb_false_iff in Hf. destruct Hf as [-> Hf].
    destruct (loop3_run _ _ _ _ _ _ _ _ _ eq_refl E) as (n & _ & _ & A & _). specialize (A eq_refl).
    split; [exact A|]. rewrite A in Hf. cbn in Hf. unfold not_in_layer in Hf. destruct (Rlt_dec z _); [discriminate|lra]. }
  split.
  { intros -> ->. destruct (loop3_run _ _ _ _ _ _ _ _ _ eq_refl E) as (n & _ & _ & _ & A).
    apply orb_true_iff in Hf. destruct Hf as [->|Hf]; [left; auto|]. right. apply andb_true_iff in Hf. destruct Hf as [Hf1 Hf2].
    apply Nat.eqb_eq in Hf1. split; auto. unfold not_in_layer in Hf2. destruct (Rlt_dec z _); [auto|discriminate]. }
  intros ->. destruct (loop3_lost _ _ _ _ _ _ _ _ _ E) as (_ & A & B & C). auto.
Qed.

Lemma start3_keeps h e t p q : start3 h e t p = Some q ->
  ident3 q = ident3 p /\ exists k, b_dt q = t / 2 ^ k /\ b_rem q = (2 ^ k)%nat.
Proof.
  unfold start3. destruct (halve_loop h 1 _) as [d|] eqn:E; cbn; intros H; [|discriminate]. injection H as <-. cbn.
  split; auto. destruct (halve_loop_shape _ _ _ _ E) as (k & ->). exists k. split.
  - unfold Rdiv. rewrite Rmult_1_l. apply Rmult_comm.
  - rewrite floor_pow2. lia.
Qed.
