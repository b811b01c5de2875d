(** Beam density deposition (C16). *)
From Coq Require Import Reals ZArith List Bool Lia Lra Permutation.
From Verif Require Import Beam2D_Model Beam2D_Spec Beam2D_Proofs Beam2D_Push Beam2D_Free.
Import ListNotations.
Open Scope R_scope.

Lemma weights_spec r x xe h d j a00 a01 a10 a11 : 0 < h -> d <> 0 ->
  particle_weights r x xe h d = (j, a00, a01, a10, a11) ->
  a00 + a01 + a10 + a11 = 1 /\
  (a00 + a10) * IZR j + (a01 + a11) * IZR (j + 1) = r / h /\
  (a00 + a01) * (xe + d) + (a10 + a11) * xe = x /\
  (xe <= x <= xe + d -> 0 < d -> 0 <= a00 /\ 0 <= a01 /\ 0 <= a10 /\ 0 <= a11).
Proof.
  intros Hh Hd H. unfold particle_weights in H. injection H as <- <- <- <- <-.
  set (j := floorR (r / h)). destruct (floorR_spec (r / h)) as [A B]. fold j in A, B.
  rewrite plus_IZR. split; [ring|]. split; [field; lra|]. split; [field; lra|].
  intros Hx Hdp.
  set (u := - (xe - x) / d).
  assert (Hu : 0 <= u <= 1).
  { unfold u. split.
    - apply Rmult_le_pos; [lra|]. left. now apply Rinv_0_lt_compat.
    - apply (Rmult_le_reg_r d); auto. unfold Rdiv. rewrite Rmult_assoc, Rinv_l by lra. lra. }
  repeat split; apply Rmult_le_pos; lra.
Qed.

Lemma add_nat_spec out : forall i v o, add_nat out i v = Some o ->
  length o = length out /\ (i < length out)%nat /\
  forall k, nth k o 0 = nth k out 0 + (if Nat.eqb k i then v else 0).
Proof.
  induction out as [|x t IH]; intros i v o H; destruct i as [|i]; simpl in H; try discriminate.
  - injection H as <-. split; auto. split; [simpl; lia|]. intros [|k]; simpl; ring.
  - destruct (add_nat t i v) as [o1|] eqn:E; simpl in H; [|discriminate]. injection H as <-.
    destruct (IH i v o1 E) as (A & B & C). split; [simpl; lia|]. split; [simpl; lia|].
    intros [|k]; simpl; [ring|]. apply C.
Qed.
Lemma add_nat_some out : forall i v, (i < length out)%nat -> exists o, add_nat out i v = Some o.
Proof.
  induction out as [|x t IH]; intros i v H; simpl in H; [lia|]. destruct i as [|i]; simpl; eauto.
  destruct (IH i v ltac:(lia)) as (o & E). rewrite E. simpl. eauto.
Qed.
Lemma add_at_spec out i v o : add_at out i v = Some o ->
  length o = length out /\ (0 <= i < Z.of_nat (length out))%Z /\
  forall k, nth k o 0 = nth k out 0 + (if Z.eqb (Z.of_nat k) i then v else 0).
Proof.
  unfold add_at. destruct (Z.ltb_spec i 0) as [|Hi]; [discriminate|]. intros H.
  destruct (add_nat_spec _ _ _ _ H) as (A & B & C). split; auto. split; [lia|].
  intros k. rewrite C. destruct (Nat.eqb_spec k (Z.to_nat i)), (Z.eqb_spec (Z.of_nat k) i); auto; lia.
Qed.
Lemma add_at_some out i v : (0 <= i < Z.of_nat (length out))%Z -> exists o, add_at out i v = Some o.
Proof.
  intros H. unfold add_at. destruct (Z.ltb_spec i 0); [lia|]. apply add_nat_some. lia.
Qed.

(** the hat function at the cells around r *)
Lemma hat_cell r h k : 0 < h -> 0 <= r ->
  let j := floorR (r / h) in
  (if Z.eqb (Z.of_nat k) j then 1 - (r / h - IZR j) else 0) + (if Z.eqb (Z.of_nat k) (j + 1) then r / h - IZR j else 0)
  = hat (r / h - INR k).
Proof.
  intros Hh Hr j. destruct (floorR_spec (r / h)) as [A B]. fold j in A, B. unfold hat. rewrite INR_IZR_INZ.
  destruct (Z.eqb_spec (Z.of_nat k) j) as [E|E]; destruct (Z.eqb_spec (Z.of_nat k) (j + 1)) as [E'|E']; try lia.
  - rewrite E. rewrite Rabs_right by lra. rewrite Rmax_right by lra. lra.
  - rewrite E', plus_IZR. rewrite Rabs_left1 by lra. rewrite Rmax_right by lra. lra.
  - assert (H : (Z.of_nat k <= j - 1)%Z \/ (j + 2 <= Z.of_nat k)%Z) by lia. destruct H as [H|H]; apply IZR_le in H.
    + rewrite minus_IZR in H. rewrite Rabs_right by lra. rewrite Rmax_left by lra. lra.
    + rewrite plus_IZR in H. rewrite Rabs_left1 by lra. rewrite Rmax_left by lra. lra.
Qed.

Lemma deposit_spec h d xe : 0 < h -> d <> 0 -> forall l out0 out1 o0 o1,
  (forall b, In b l -> 0 <= rad (pt b)) ->
  deposit l out0 out1 xe h d = Some (o0, o1) ->
  length o0 = length out0 /\ length o1 = length out1 /\
  (forall k, nth k o0 0 = nth k out0 0 + cic_upper h d xe l k) /\
  (forall k, nth k o1 0 = nth k out1 0 + cic_lower h d xe l k).
Proof.
  intros Hh Hd. induction l as [|b l IH]; intros out0 out1 o0 o1 Hr H; cbn [deposit] in H.
  - injection H as <- <-. unfold cic_upper, cic_lower. simpl. repeat split; intros; ring.
  - unfold particle_weights in H. cbv zeta in H.
    set (j := floorR (rad (pt b) / h)) in *. set (u := - (xe - xi (pt b)) / d) in *.
    set (w := rad (pt b) / h - IZR j) in *. set (q := q_norm (pt b)) in *.
    destruct (add_at out0 j _) as [x0|] eqn:E0; cbn [bind] in H; [|discriminate].
    destruct (add_at x0 (j + 1) _) as [x0'|] eqn:E0'; cbn [bind] in H; [|discriminate].
    destruct (add_at out1 j _) as [x1|] eqn:E1; cbn [bind] in H; [|discriminate].
    destruct (add_at x1 (j + 1) _) as [x1'|] eqn:E1'; cbn [bind] in H; [|discriminate].
    apply add_at_spec in E0, E0', E1, E1'.
    destruct E0 as (L0 & _ & F0), E0' as (L0' & _ & F0'), E1 as (L1 & _ & F1), E1' as (L1' & _ & F1').
    destruct (IH _ _ _ _ (fun x Hx => Hr x (or_intror Hx)) H) as (A & B & C & D).
    assert (Hu : u = (xi (pt b) - xe) / d) by (unfold u; field; auto).
    repeat split; try congruence; intros k.
    + rewrite C, F0', F0. unfold cic_upper. cbn [map sumR].
      rewrite <- (hat_cell (rad (pt b)) h k Hh (Hr b (or_introl eq_refl))). fold j. fold w.
      rewrite <- Hu. fold q.
      destruct (Z.of_nat k =? j)%Z, (Z.of_nat k =? j + 1)%Z; ring.
    + rewrite D, F1', F1. unfold cic_lower. cbn [map sumR].
      rewrite <- (hat_cell (rad (pt b)) h k Hh (Hr b (or_introl eq_refl))). fold j. fold w.
      rewrite <- Hu. fold q.
      destruct (Z.of_nat k =? j)%Z, (Z.of_nat k =? j + 1)%Z; ring.
Qed.

Lemma deposit_some h d xe : 0 < h -> forall l out0 out1, length out1 = length out0 ->
  (forall b, In b l -> on_grid h (length out0) b) -> exists o, deposit l out0 out1 xe h d = Some o.
Proof.
  intros Hh. induction l as [|b l IH]; intros out0 out1 Hlen Hg; cbn [deposit]; eauto.
  unfold particle_weights. cbv zeta. set (j := floorR (rad (pt b) / h)).
  destruct (Hg b (or_introl eq_refl)) as [G1 G2].
  assert (Hj : (0 <= j)%Z).
  { apply floorR_nonneg. apply Rmult_le_pos; auto. left. now apply Rinv_0_lt_compat. }
  assert (Hj2 : (j + 1 < Z.of_nat (length out0))%Z).
  { destruct (floorR_spec (rad (pt b) / h)) as [A _]. fold j in A.
    assert (rad (pt b) / h < INR (length out0 - 1)).
    { apply (Rmult_lt_reg_r h); auto. unfold Rdiv. rewrite Rmult_assoc, Rinv_l by lra. lra. }
    assert (j < Z.of_nat (length out0 - 1))%Z by (apply lt_IZR; rewrite <- INR_IZR_INZ; lra). lia. }
  destruct (add_at_some out0 j (- (xe - xi (pt b)) / d * (1 - (rad (pt b) / h - IZR j)) * q_norm (pt b)) ltac:(lia)) as (x0 & E0).
  rewrite E0. cbn [bind]. apply add_at_spec in E0 as (L0 & _).
  match goal with |- context [add_at x0 (j + 1) ?v] => destruct (add_at_some x0 (j + 1) v ltac:(lia)) as (x0' & E0') end.
  rewrite E0'. cbn [bind]. apply add_at_spec in E0' as (L0' & _).
  match goal with |- context [add_at out1 j ?v] => destruct (add_at_some out1 j v ltac:(lia)) as (x1 & E1) end.
  rewrite E1. cbn [bind]. apply add_at_spec in E1 as (L1 & _).
  match goal with |- context [add_at x1 (j + 1) ?v] => destruct (add_at_some x1 (j + 1) v ltac:(lia)) as (x1' & E1') end.
  rewrite E1'. cbn [bind]. apply add_at_spec in E1' as (L1' & _).
  apply IH; [congruence|]. intros x Hx. rewrite L0', L0. apply Hg. now right.
Qed.

(** Totals *)
Lemma sumR_app a b : sumR (a ++ b) = sumR a + sumR b.
Proof. induction a; simpl; [ring|]. rewrite IHa. ring. Qed.
Lemma add_nat_sum out : forall i v o, add_nat out i v = Some o -> sumR o = sumR out + v.
Proof.
  induction out as [|x t IH]; intros i v o H; destruct i as [|i]; simpl in H; try discriminate.
  - injection H as <-. simpl. ring.
  - destruct (add_nat t i v) as [o1|] eqn:E; simpl in H; [|discriminate]. injection H as <-.
    simpl. rewrite (IH _ _ _ E). ring.
Qed.
Lemma add_at_sum out i v o : add_at out i v = Some o -> sumR o = sumR out + v.
Proof. unfold add_at. destruct (i <? 0)%Z; [discriminate|]. apply add_nat_sum. Qed.

Lemma deposit_sum h d xe : forall l out0 out1 o0 o1,
  deposit l out0 out1 xe h d = Some (o0, o1) ->
  sumR o0 = sumR out0 + sumR (map (fun b => q_norm (pt b) * (- (xe - xi (pt b)) / d)) l) /\
  sumR o0 + sumR o1 = sumR out0 + sumR out1 + total_charge l.
Proof.
  unfold total_charge. induction l as [|b l IH]; intros out0 out1 o0 o1 H; cbn [deposit] in H.
  - injection H as <- <-. simpl. split; ring.
  - unfold particle_weights in H. cbv zeta in H.
    set (j := floorR (rad (pt b) / h)) in *. set (u := - (xe - xi (pt b)) / d) in *.
    set (w := rad (pt b) / h - IZR j) in *. set (q := q_norm (pt b)) in *.
    destruct (add_at out0 j _) as [x0|] eqn:E0; cbn [bind] in H; [|discriminate].
    destruct (add_at x0 (j + 1) _) as [x0'|] eqn:E0'; cbn [bind] in H; [|discriminate].
    destruct (add_at out1 j _) as [x1|] eqn:E1; cbn [bind] in H; [|discriminate].
    destruct (add_at x1 (j + 1) _) as [x1'|] eqn:E1'; cbn [bind] in H; [|discriminate].
    apply add_at_sum in E0, E0', E1, E1'.
    destruct (IH _ _ _ _ H) as [A B]. cbn [map sumR]. fold q u.
    split; [rewrite A, E0', E0|rewrite B, E0', E0, E1', E1]; ring.
Qed.

Lemma nth_map0 (l : list R) k : nth k (map (fun _ => 0) l) 0 = 0.
Proof. revert k. induction l; intros [|k]; simpl; auto. Qed.
Lemma sumR_map0 (l : list R) : sumR (map (fun _ => 0) l) = 0.
Proof. induction l; simpl; [auto|]. rewrite IHl. ring. Qed.

Lemma scale_nth h l : forall j k, (k < length l)%nat -> nth k (scale_from h j l) 0 = scale_cell h (j + k) (nth k l 0).
Proof.
  induction l as [|x l IH]; intros j k H; simpl in H; [lia|]. destruct k as [|k]; simpl.
  - now rewrite Nat.add_0_r.
  - rewrite IH by lia. f_equal. lia.
Qed.
Lemma scale_charge h : 0 < h -> forall l j, layer_charge h j (scale_from h j l) = sumR l.
Proof.
  intros Hh. induction l as [|x l IH]; intros j; cbn [scale_from layer_charge sumR]; auto.
  rewrite IH. f_equal. destruct j as [|j]; unfold scale_cell; [field; lra|].
  assert (INR (S j) <> 0) by (apply not_0_INR; lia). field. split; auto. lra.
Qed.
Lemma scale_length h l : forall j, length (scale_from h j l) = length l.
Proof. induction l; intros j; simpl; auto. Qed.

Lemma layout_spec h d rho_l l i rho next : 0 < h -> 0 < d ->
  (forall b, In b l -> 0 <= rad (pt b)) ->
  layout_beam_layer h d rho_l l i = Some (rho, next) ->
  let xe := - (IZR (i + 1) * d) in
  length rho = length rho_l /\ length next = length rho_l /\
  (forall k, (k < length rho_l)%nat ->
     nth k rho 0 = (nth k rho_l 0 + cic_upper h d xe l k) / (match k with O => h ^ 2 / 6 | _ => INR k * h ^ 2 end)) /\
  (forall k, nth k next 0 = cic_lower h d xe l k).
Proof.
  intros Hh Hd Hr H xe. unfold layout_beam_layer in H. replace (IZR (i + 1) * - d) with xe in H by (unfold xe; ring).
  destruct (deposit _ _ _ _ _ _) as [[o0 o1]|] eqn:E; cbn [bind] in H; [|discriminate]. injection H as <- <-.
  apply deposit_spec in E; auto; [|lra]. destruct E as (A & B & C & D). cbn [fst snd].
  rewrite scale_length, B, map_length. repeat split; auto.
  - intros k Hk. rewrite scale_nth by lia. simpl plus. rewrite C. destruct k; unfold scale_cell.
    + field. lra.
    + assert (INR (S k) <> 0) by (apply not_0_INR; lia). field. split; auto. lra.
  - intros k. rewrite D, nth_map0. ring.
Qed.

Lemma layout_charge h d rho_l l i rho next : 0 < h ->
  layout_beam_layer h d rho_l l i = Some (rho, next) ->
  layer_charge h 0 rho + sumR next = sumR rho_l + total_charge l.
Proof.
  intros Hh H. unfold layout_beam_layer in H.
  destruct (deposit _ _ _ _ _ _) as [[o0 o1]|] eqn:E; cbn [bind] in H; [|discriminate]. injection H as <- <-.
  apply deposit_sum in E. destruct E as [_ E]. cbn [fst snd]. rewrite scale_charge by auto.
  rewrite sumR_map0 in E. lra.
Qed.
Lemma layout_some h d rho_l l i : 0 < h -> (forall b, In b l -> on_grid h (length rho_l) b) ->
  exists rho next, layout_beam_layer h d rho_l l i = Some (rho, next).
Proof.
  intros Hh Hg. unfold layout_beam_layer.
  destruct (deposit_some h d (IZR (i + 1) * - d) Hh l rho_l (map (fun _ => 0) rho_l)) as ([o0 o1] & E); auto.
  { apply map_length. }
  rewrite E. simpl. eauto.
Qed.
