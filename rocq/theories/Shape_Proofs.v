(** Proofs about the 3D shape functions. *)
From Coq Require Import Reals ZArith List Lra Lia Psatz.
From Verif Require Import Beam2D_Model Beam2D_Free Shape_Model Shape_Spec.
Import ListNotations.
Open Scope R_scope.

Definition sum5 (f : Z -> R) : R := f (-2)%Z + f (-1)%Z + f 0%Z + f 1%Z + f 2%Z.

Lemma w4_sum x : sum5 (weight4 x) = 1.
Proof. unfold sum5, weight4. field. Qed.
Lemma w4_moment1 x : sum5 (fun k => IZR k * weight4 x k) = x.
Proof. unfold sum5, weight4. field. Qed.
Lemma w4_moment2 x : sum5 (fun k => (IZR k - x) ^ 2 * weight4 x k) = 5 / 12.
Proof. unfold sum5, weight4. field. Qed.

Lemma tpow_pos x : 0 <= x -> tpow x = x ^ 4.
Proof. intros. unfold tpow. destruct (Rle_dec 0 x); [auto|lra]. Qed.
Lemma tpow_neg x : x <= 0 -> tpow x = 0.
Proof. intros. unfold tpow. destruct (Rle_dec 0 x); auto. replace x with 0 by lra. ring. Qed.

Ltac tp := repeat match goal with
  | |- context [tpow ?e] => first [rewrite (tpow_pos e) by lra | rewrite (tpow_neg e) by lra] end.

Lemma w4_spline x k : - (1/2) <= x <= 1/2 -> In k places -> weight4 x k = spline4 (IZR k - x).
Proof.
  intros Hx Hk. unfold spline4.
  destruct Hk as [<-|[<-|[<-|[<-|[<-|[]]]]]]; unfold weight4; tp; field.
Qed.
Lemma spline_out u : 5/2 <= Rabs u -> spline4 u = 0.
Proof.
  intros H. unfold spline4. unfold Rabs in H. destruct (Rcase_abs u); tp; field.
Qed.
Lemma spline_even u : spline4 (- u) = spline4 u.
Proof.
  assert (T : forall e, tpow e - tpow (- e) = e ^ 4 \/ tpow e + tpow (- e) = e ^ 4).
  { intros e. right. destruct (Rle_dec 0 e); tp; ring. }
  assert (T' : forall e, tpow (- e) = e ^ 4 - tpow e).
  { intros e. destruct (Rle_dec 0 e); tp; ring. }
  unfold spline4.
  replace (- u + 5/2) with (- (u - 5/2)) by lra. replace (- u + 3/2) with (- (u - 3/2)) by lra.
  replace (- u + 1/2) with (- (u - 1/2)) by lra. replace (- u - 1/2) with (- (u + 1/2)) by lra.
  replace (- u - 3/2) with (- (u + 3/2)) by lra. replace (- u - 5/2) with (- (u + 5/2)) by lra.
  rewrite !T'. field.
Qed.
Lemma w4_pos x k : - (1/2) <= x <= 1/2 -> In k places -> 0 <= weight4 x k.
Proof.
  intros Hx Hk. destruct Hk as [<-|[<-|[<-|[<-|[<-|[]]]]]]; unfold weight4.
  - pose proof (pow2_ge_0 ((1/2 - x)^2)) as P. simpl in *. lra.
  - pose (s := 1/2 - x). assert (Hs : 0 <= s <= 1) by (unfold s; lra). replace x with (1/2 - s) by (unfold s; lra).
    replace (19 / 96 - 11 / 24 * (1 / 2 - s) + (1 / 2 - s) ^ 2 / 4 + (1 / 2 - s) ^ 3 / 6 - (1 / 2 - s) ^ 4 / 6)
      with ((1 + 4 * s + 6 * s ^ 2 + 4 * (s ^ 3 * (1 - s))) / 24) by field.
    assert (0 <= s ^ 2) by apply pow2_ge_0. assert (0 <= s ^ 3) by (apply pow_le; lra).
    assert (0 <= s ^ 3 * (1 - s)) by (apply Rmult_le_pos; lra). lra.
  - assert (0 <= x ^ 2 <= 1/4) by (split; [apply pow2_ge_0|simpl; nra]).
    assert (0 <= x ^ 4) by (replace (x ^ 4) with ((x ^ 2) ^ 2) by ring; apply pow2_ge_0). lra.
  - pose (s := 1/2 + x). assert (Hs : 0 <= s <= 1) by (unfold s; lra). replace x with (s - 1/2) by (unfold s; lra).
    replace (19 / 96 + 11 / 24 * (s - 1 / 2) + (s - 1 / 2) ^ 2 / 4 - (s - 1 / 2) ^ 3 / 6 - (s - 1 / 2) ^ 4 / 6)
      with ((1 + 4 * s + 6 * s ^ 2 + 4 * (s ^ 3 * (1 - s))) / 24) by field.
    assert (0 <= s ^ 2) by apply pow2_ge_0. assert (0 <= s ^ 3) by (apply pow_le; lra).
    assert (0 <= s ^ 3 * (1 - s)) by (apply Rmult_le_pos; lra). lra.
  - pose proof (pow2_ge_0 ((1/2 + x)^2)) as P. simpl in *. lra.
Qed.

Lemma loc_range x_h : - (1/2) <= loc x_h <= 1/2.
Proof. unfold loc. pose proof (floorR_spec x_h). lra. Qed.

(** ** One particle *)
Lemma loc_cell n h x k : IZR k - loc (x / h + 0.5) = IZR (cell n (x / h + 0.5) + k - n / 2) - x / h.
Proof.
  unfold loc, cell. rewrite minus_IZR, !plus_IZR. lra.
Qed.

Lemma add_cell_val g i j v a b :
  add_cell g i j v a b = g a b + (if (a =? i)%Z then if (b =? j)%Z then v else 0 else 0).
Proof. unfold add_cell. destruct (a =? i)%Z, (b =? j)%Z; lra. Qed.

(** value of the deposit in a cell, as a sum over the 25 places *)
Lemma inner_val ix iy kx (u : Z -> R) : forall l g a b,
  fold_left (fun g ky => add_cell g (ix + kx) (iy + ky) (u ky)) l g a b =
  g a b + (if (a =? ix + kx)%Z then fold_right (fun ky s => (if (b =? iy + ky)%Z then u ky else 0) + s) 0 l else 0).
Proof.
  induction l as [|k l IH]; intros g a b; cbn [fold_left fold_right].
  - destruct (a =? ix + kx)%Z; lra.
  - rewrite IH, add_cell_val. destruct (a =? ix + kx)%Z; lra.
Qed.
Lemma outer_val ix iy (u : Z -> Z -> R) : forall l g a b,
  fold_left (fun g kx => fold_left (fun g ky => add_cell g (ix + kx) (iy + ky) (u kx ky)) places g) l g a b =
  g a b + fold_right (fun kx s => (if (a =? ix + kx)%Z then
             fold_right (fun ky s => (if (b =? iy + ky)%Z then u kx ky else 0) + s) 0 places else 0) + s) 0 l.
Proof.
  induction l as [|k l IH]; intros g a b; cbn [fold_left].
  - cbn [fold_right]. lra.
  - rewrite IH, inner_val. cbn [fold_right]. lra.
Qed.

Lemma pick1 ix a (f : Z -> R) : fold_right (fun k s => (if (a =? ix + k)%Z then f k else 0) + s) 0 places =
  if In_dec Z.eq_dec (a - ix)%Z places then f (a - ix)%Z else 0.
Proof.
  destruct (In_dec Z.eq_dec (a - ix)%Z places) as [H|H].
  - unfold places in *. cbn [fold_right].
    destruct H as [H|[H|[H|[H|[H|[]]]]]]; rewrite <- H;
      repeat (match goal with |- context [Z.eqb a ?e] => destruct (Z.eqb_spec a e); try lia end); lra.
  - unfold places. cbn [fold_right].
    repeat (match goal with |- context [Z.eqb a ?e] => destruct (Z.eqb_spec a e);
       [exfalso; apply H; unfold places; cbn; lia|] end); lra.
Qed.

Lemma not_place_far n h x a : ~ In (a - cell n (x / h + 0.5))%Z places -> 5/2 <= Rabs (IZR (a - n / 2) - x / h).
Proof.
  intros H. set (k := (a - cell n (x / h + 0.5))%Z) in *.
  assert (E : IZR (a - n / 2) - x / h = IZR k - loc (x / h + 0.5)).
  { rewrite (loc_cell n). unfold k. do 2 f_equal. lia. }
  rewrite E. pose proof (loc_range (x / h + 0.5)) as L.
  assert (K : (k <= -3 \/ 3 <= k)%Z) by (unfold places in H; cbn in H; lia).
  destruct K as [K|K]; apply IZR_le in K; unfold Rabs; destruct (Rcase_abs _); lra.
Qed.

Lemma deposit_one_val n norm h x y f g a b : norm <> 0 -> f 0 = 0 -> (forall u, f u = u * f 1) ->
  deposit_one n norm (x / h + 0.5) (y / h + 0.5) f g a b = g a b + f 1 * shape n h x y a b / norm ^ 2.
Proof.
  intros Hn F0 F1. unfold deposit_one.
  rewrite (outer_val _ _ (fun kx ky => f (weight4 (loc (x / h + 0.5)) kx / norm * weight4 (loc (y / h + 0.5)) ky / norm))).
  f_equal. rewrite pick1.
  destruct (In_dec _ _ _) as [Ha|Ha].
  - rewrite pick1. destruct (In_dec _ _ _) as [Hb|Hb].
    + rewrite F1. rewrite (w4_spline _ _ (loc_range _) Ha), (w4_spline _ _ (loc_range _) Hb).
      rewrite !(loc_cell n). unfold shape.
      replace (cell n (x / h + 0.5) + (a - cell n (x / h + 0.5)) - n / 2)%Z with (a - n / 2)%Z by lia.
      replace (cell n (y / h + 0.5) + (b - cell n (y / h + 0.5)) - n / 2)%Z with (b - n / 2)%Z by lia. field. auto.
    + unfold shape. apply not_place_far in Hb. rewrite (spline_out _ Hb). unfold Rdiv. ring.
  - unfold shape. apply not_place_far in Ha. rewrite (spline_out _ Ha). unfold Rdiv. ring.
Qed.

(** ** Sums over the grid *)
Lemma sumZ_ext n f g : (forall k, (0 <= k < Z.of_nat n)%Z -> f k = g k) -> sumZ n f = sumZ n g.
Proof.
  induction n as [|n IH]; intros H; [reflexivity|]. cbn [sumZ]. rewrite IH, H; auto; [lia|]. intros. apply H. lia.
Qed.
Lemma sumZ_plus n f g : sumZ n (fun k => f k + g k) = sumZ n f + sumZ n g.
Proof. induction n as [|n IH]; cbn [sumZ]; [lra|]. rewrite IH. lra. Qed.
Lemma sumZ_scal n c f : sumZ n (fun k => c * f k) = c * sumZ n f.
Proof. induction n as [|n IH]; cbn [sumZ]; [lra|]. rewrite IH. lra. Qed.
Lemma sumZ_0 n : sumZ n (fun _ => 0) = 0.
Proof. induction n as [|n IH]; cbn [sumZ]; [lra|]. rewrite IH. lra. Qed.
Lemma sumZ_delta n i v : sumZ n (fun k => if (k =? i)%Z then v else 0) =
  if ((0 <=? i)%Z && (i <? Z.of_nat n)%Z)%bool then v else 0.
Proof.
  induction n as [|n IH]; cbn [sumZ].
  - destruct (Z.leb_spec 0 i), (Z.ltb_spec i (Z.of_nat 0)); cbn [andb]; auto; lia.
  - rewrite IH. destruct (Z.eqb_spec (Z.of_nat n) i), (Z.leb_spec 0 i), (Z.ltb_spec i (Z.of_nat n)), (Z.ltb_spec i (Z.of_nat (S n)));
      cbn [andb]; try lia; lra.
Qed.
Lemma gsum_plus n f g : gsum n (fun a b => f a b + g a b) = gsum n f + gsum n g.
Proof.
  unfold gsum. rewrite <- sumZ_plus. apply sumZ_ext. intros. now rewrite sumZ_plus.
Qed.
Lemma gsum_scal n c g : gsum n (fun a b => c * g a b) = c * gsum n g.
Proof. unfold gsum. rewrite <- sumZ_scal. apply sumZ_ext. intros. now rewrite sumZ_scal. Qed.
Lemma gsum_ext n f g : (forall a b, f a b = g a b) -> gsum n f = gsum n g.
Proof. intros H. unfold gsum. apply sumZ_ext. intros. apply sumZ_ext. auto. Qed.
Lemma gsum_prod n f g : gsum n (fun a b => f a * g b) = sumZ n f * sumZ n g.
Proof.
  unfold gsum. rewrite Rmult_comm, <- sumZ_scal. apply sumZ_ext. intros. now rewrite sumZ_scal, Rmult_comm.
Qed.

Lemma inside_cell n h x : inside n h x -> forall k, In k places ->
  (0 <= cell n (x / h + 0.5) + k < n)%Z.
Proof.
  intros [H1 H2] k Hk. unfold cell. pose proof (floorR_spec (x / h + 0.5)) as F. rewrite !minus_IZR in H2.
  assert (A : IZR (- (n / 2) + 2) - 1 < IZR (floorR (x / h + 0.5))) by (rewrite plus_IZR, opp_IZR; lra).
  assert (B : IZR (floorR (x / h + 0.5)) < IZR (n - 1 - n / 2 - 2) + 1) by (rewrite !minus_IZR; lra).
  rewrite <- minus_IZR in A. rewrite <- plus_IZR in B. apply lt_IZR in A, B.
  unfold places in Hk. cbn in Hk. lia.
Qed.

(** The spline is a partition of unity on the grid. *)
Lemma spline_sum n h x : inside (Z.of_nat n) h x ->
  sumZ n (fun a => spline4 (IZR (a - Z.of_nat n / 2) - x / h)) = 1.
Proof.
  intros Hi. set (N := Z.of_nat n) in *. set (ix := cell N (x / h + 0.5)).
  rewrite (sumZ_ext n _ (fun a => (if (a =? ix + -2)%Z then weight4 (loc (x / h + 0.5)) (-2) else 0) +
    ((if (a =? ix + -1)%Z then weight4 (loc (x / h + 0.5)) (-1) else 0) +
    ((if (a =? ix + 0)%Z then weight4 (loc (x / h + 0.5)) 0 else 0) +
    ((if (a =? ix + 1)%Z then weight4 (loc (x / h + 0.5)) 1 else 0) +
     ((if (a =? ix + 2)%Z then weight4 (loc (x / h + 0.5)) 2 else 0) + 0)))))).
  - rewrite !sumZ_plus, !sumZ_delta, sumZ_0.
    assert (R : forall k, In k places -> ((0 <=? ix + k)%Z && (ix + k <? Z.of_nat n)%Z)%bool = true).
    { intros k Hk. pose proof (inside_cell _ _ _ Hi k Hk) as B. unfold ix. fold N.
      apply Bool.andb_true_iff. split; [apply Z.leb_le; lia|apply Z.ltb_lt; lia]. }
    rewrite !R by (unfold places; cbn; lia).
    pose proof (w4_sum (loc (x / h + 0.5))) as S. unfold sum5 in S. lra.
  - intros a Ha. pose proof (pick1 ix a (fun k => weight4 (loc (x / h + 0.5)) k)) as P. unfold places at 1 in P. cbn [fold_right] in P.
    rewrite P. destruct (In_dec _ _ _) as [Hk|Hk].
    + rewrite (w4_spline _ _ (loc_range _) Hk), (loc_cell N). f_equal. f_equal. f_equal. unfold ix. lia.
    + apply spline_out. now apply not_place_far.
Qed.
Lemma shape_sum n h x y : inside (Z.of_nat n) h x -> inside (Z.of_nat n) h y ->
  gsum n (shape (Z.of_nat n) h x y) = 1.
Proof. intros Hx Hy. unfold shape. rewrite gsum_prod, !spline_sum by auto. ring. Qed.

(** ** Gathering *)
Lemma gather_val n h x y val : (forall a b u, val a b u = u * val a b 1) ->
  gather n (x / h + 0.5) (y / h + 0.5) val =
  fold_right (fun kx s => fold_right (fun ky s =>
     weight4 (loc (x / h + 0.5)) kx * weight4 (loc (y / h + 0.5)) ky *
     val (cell n (x / h + 0.5) + kx)%Z (cell n (y / h + 0.5) + ky)%Z 1 + s) 0 places + s) 0 places.
Proof.
  intros L. unfold gather, places. cbn [fold_left fold_right].
  rewrite (L _ _ (_ * _)). repeat rewrite (L _ _ (weight4 _ _ * weight4 _ _)). ring.
Qed.
(** A constant field is gathered exactly, a linear field too. *)
Lemma gather_linear n h x y c0 c1 c2 : 
  gather n (x / h + 0.5) (y / h + 0.5) (fun a b w => w * (c0 + c1 * IZR (a - n / 2) + c2 * IZR (b - n / 2))) =
  c0 + c1 * (x / h) + c2 * (y / h).
Proof.
  rewrite gather_val by (intros; ring).
  assert (E : forall z k, IZR (cell n (z / h + 0.5) + k - n / 2) = IZR k - loc (z / h + 0.5) + z / h) by (intros; rewrite (loc_cell n); ring).
  assert (S : forall z, weight4 (loc z) (-2) = 1 - weight4 (loc z) (-1) - weight4 (loc z) 0 - weight4 (loc z) 1 - weight4 (loc z) 2).
  { intros z. pose proof (w4_sum (loc z)) as S. unfold sum5 in S. lra. }
  pose proof (w4_sum (loc (x / h + 0.5))) as Sx. pose proof (w4_sum (loc (y / h + 0.5))) as Sy.
  pose proof (w4_moment1 (loc (x / h + 0.5))) as Mx. pose proof (w4_moment1 (loc (y / h + 0.5))) as My.
  unfold sum5 in *. unfold places. cbn [fold_right]. rewrite !E.
  generalize dependent (weight4 (loc (x / h + 0.5))). generalize dependent (weight4 (loc (y / h + 0.5))).
  intros wy Sy My wx Sx Mx. clear S.
  transitivity ((wx (-2)%Z + wx (-1)%Z + wx 0%Z + wx 1%Z + wx 2%Z) * (wy (-2)%Z + wy (-1)%Z + wy 0%Z + wy 1%Z + wy 2%Z) *
     (c0 + c1 * (x / h - loc (x / h + 0.5)) + c2 * (y / h - loc (y / h + 0.5)))
   + c1 * (-2 * wx (-2)%Z + -1 * wx (-1)%Z + 0 * wx 0%Z + 1 * wx 1%Z + 2 * wx 2%Z) * (wy (-2)%Z + wy (-1)%Z + wy 0%Z + wy 1%Z + wy 2%Z)
   + c2 * (wx (-2)%Z + wx (-1)%Z + wx 0%Z + wx 1%Z + wx 2%Z) * (-2 * wy (-2)%Z + -1 * wy (-1)%Z + 0 * wy 0%Z + 1 * wy 1%Z + 2 * wy 2%Z)).
  - ring.
  - rewrite Sx, Sy, Mx, My. ring.
Qed.
