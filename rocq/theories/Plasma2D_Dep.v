(** Lemmas for C25: 2D plasma deposition. *)
From Coq Require Import Reals ZArith List Bool Lra Lia Psatz.
From Verif Require Import Beam2D_Model Beam2D_Spec Beam2D_Free Beam2D_Ex Plasma2D_Model Plasma2D_Spec Plasma2D_Ode.
Import ListNotations.
Open Scope R_scope.

Lemma cell2_spec h r : let c := cell2 h r in - (1 / 2) <= r / h - IZR c < 1 / 2.
Proof. intros c. pose proof (floorR_spec (r / h + 0.5)) as H. unfold c, cell2. lra. Qed.
Lemma cell2_range h n p : inside2 h n p -> 0 < h -> (0 <= cell2 h (r_ p) <= Z.of_nat n - 1)%Z.
Proof.
  intros [H1 H2] Hh. pose proof (cell2_spec h (r_ p)) as C. cbn zeta in C. set (c := cell2 _ _) in *.
  assert (0 <= r_ p / h) by (apply Rmult_le_pos; [auto|apply Rlt_le, Rinv_0_lt_compat; auto]).
  rewrite INR_IZR_INZ in H2. split.
  - assert (IZR (-1) < IZR c) by lra. apply lt_IZR in H0. lia.
  - assert (IZR c < IZR (Z.of_nat n)) by lra. apply lt_IZR in H0. lia.
Qed.
Lemma spline_at x c rho j : x = rho - IZR c -> - (1 / 2) <= x < 1 / 2 ->
  spline2 (rho - IZR j) = if (j =? c - 1)%Z then weight_quadratic x (-1) else if (j =? c)%Z then weight_quadratic x 0
                          else if (j =? c + 1)%Z then weight_quadratic x 1 else 0.
Proof.
  intros -> Hx. unfold spline2. cbn [weight_quadratic].
  destruct (Z.eqb_spec j (c - 1)) as [->|N1]; [|destruct (Z.eqb_spec j c) as [->|N2]; [|destruct (Z.eqb_spec j (c + 1)) as [->|N3]]].
  - rewrite minus_IZR. set (x := rho - IZR c) in *. replace (rho - (IZR c - 1)) with (x + 1) by (unfold x; lra).
    rewrite Rabs_right by lra. destruct (Rle_dec (x + 1) (1 / 2)).
    + assert (x = - (1 / 2)) as -> by lra. lra.
    + destruct (Rle_dec (x + 1) (3 / 2)); lra.
  - set (x := rho - IZR c) in *. destruct (Rle_dec (Rabs x) (1 / 2)) as [|G]; [reflexivity|]. exfalso. apply G. apply Rabs_le. lra.
  - rewrite plus_IZR. set (x := rho - IZR c) in *. replace (rho - (IZR c + 1)) with (x - 1) by (unfold x; lra).
    rewrite Rabs_left by lra. destruct (Rle_dec _ _); [lra|]. destruct (Rle_dec _ _); lra.
  - assert (G : (j <= c - 2 \/ c + 2 <= j)%Z) by lia. set (x := rho - IZR c) in *.
    assert (H : 3 / 2 <= Rabs (rho - IZR j)).
    { destruct G as [G|G]; apply IZR_le in G.
      - rewrite minus_IZR in G. rewrite Rabs_right; unfold x in *; lra.
      - rewrite plus_IZR in G. rewrite Rabs_left; unfold x in *; lra. }
    destruct (Rle_dec _ _); [lra|]. destruct (Rle_dec _ _); [|reflexivity].
    replace (Rabs (rho - IZR j)) with (3 / 2) by lra. lra.
Qed.

(** one particle, one node *)
Definition dep_of p := q_ p / (gm_of p - pz_ p).
Lemma deposit_nodes h n o p i : 0 < h -> (2 <= n)%nat -> inside2 h n p -> (i < n)%nat ->
  let o' := deposit_particle h n o p in let rho := r_ p / h in
  d_rho o' i = d_rho o i + dep_of p * gm_of p * node_share n 1 rho i /\
  d_jz o' i = d_jz o i + dep_of p * pz_ p * node_share n 1 rho i /\
  d_jr o' i = d_jr o i + dep_of p * pr_ p * node_share n (-1) rho i /\
  d_jf o' i = d_jf o i + dep_of p * pf_ p * node_share n (-1) rho i.
Proof.
  intros Hh Hn Hin Hi. pose proof (cell2_range h n p Hin Hh) as Hc. pose proof (cell2_spec h (r_ p)) as Hx. cbn zeta in Hx.
  cbn zeta. unfold deposit_particle. fold (gm_of p). fold (dep_of p). set (c := cell2 h (r_ p)) in *. set (rho := r_ p / h) in *.
  set (x := rho - IZR c) in *.
  assert (SP : forall j, spline2 (rho - IZR j) = if (j =? c - 1)%Z then weight_quadratic x (-1) else if (j =? c)%Z then weight_quadratic x 0
                          else if (j =? c + 1)%Z then weight_quadratic x 1 else 0).
  { intros j. now apply spline_at. }
  unfold node_share.
  replace (rho + INR i) with (rho - IZR (- Z.of_nat i)) by (rewrite opp_IZR, <- INR_IZR_INZ; lra).
  replace (rho - (2 * INR (n - 1) - INR i)) with (rho - IZR (2 * Z.of_nat (n - 1) - Z.of_nat i))
    by (rewrite minus_IZR, mult_IZR, <- !INR_IZR_INZ; lra).
  rewrite (INR_IZR_INZ i). rewrite !SP.
  set (w1 := weight_quadratic x (-1)). set (w2 := weight_quadratic x 0). set (w3 := weight_quadratic x 1).
  destruct (Z.eqb_spec c 0) as [C0|C0].
  - cbn [fold_left]. fold w1 w2 w3. unfold add4, add_at. cbn [d_rho d_jr d_jf d_jz].
    replace (Z.eqb c (Z.of_nat n - 1)) with false by (symmetry; apply Z.eqb_neq; lia). cbn [andb].
    replace (Z.to_nat (c + 0)) with 0%nat by lia. replace (Z.to_nat (c + 1)) with 1%nat by lia.
    destruct (Nat.eqb_spec i 0) as [I0|I0]; destruct (Nat.eqb_spec i 1) as [I1|I1]; try lia; destruct (Nat.eqb_spec i (n - 1)) as [I2|I2];
      repeat match goal with |- context [(?a =? ?b)%Z] => destruct (Z.eqb_spec a b); try lia end; repeat split; ring.
  - cbn [fold_left]. fold w1 w2 w3. unfold add4, add_at. cbn [d_rho d_jr d_jf d_jz].
    change (-1 =? 1)%Z with false. change (0 =? 1)%Z with false. change (1 =? 1)%Z with true. rewrite !andb_false_r, andb_true_r.
    destruct (Z.eqb_spec c (Z.of_nat n - 1)) as [C1|C1];
    destruct (Nat.eqb_spec i (Z.to_nat (c + -1))) as [I0|I0]; destruct (Nat.eqb_spec i (Z.to_nat (c + 0))) as [I1|I1]; try lia;
    destruct (Nat.eqb_spec i 0); destruct (Nat.eqb_spec i (n - 1)); try lia;
    try (destruct (Nat.eqb_spec i (n - 2)); try lia); try (destruct (Nat.eqb_spec i (Z.to_nat (c + 1))); try lia);
      repeat match goal with |- context [(?a =? ?b)%Z] => destruct (Z.eqb_spec a b); try lia end; repeat split; ring.
Qed.
(** nothing outside the arrays is touched *)
Lemma deposit_outside h n o p i : 0 < h -> (2 <= n)%nat -> inside2 h n p -> (n <= i)%nat ->
  let o' := deposit_particle h n o p in
  d_rho o' i = d_rho o i /\ d_jz o' i = d_jz o i /\ d_jr o' i = d_jr o i /\ d_jf o' i = d_jf o i.
Proof.
  intros Hh Hn Hin Hi. pose proof (cell2_range h n p Hin Hh) as Hc. cbn zeta. unfold deposit_particle. set (c := cell2 h (r_ p)) in *.
  destruct (Z.eqb_spec c 0) as [C0|C0]; cbn [fold_left]; unfold add4, add_at; cbn [d_rho d_jr d_jf d_jz].
  - replace (Z.eqb c (Z.of_nat n - 1)) with false by (symmetry; apply Z.eqb_neq; lia). cbn [andb].
    destruct (Nat.eqb_spec i (Z.to_nat (c + 0))); try lia. destruct (Nat.eqb_spec i (Z.to_nat (c + 1))); try lia.
    destruct (Nat.eqb_spec i 1); try lia. auto.
  - change (-1 =? 1)%Z with false. change (0 =? 1)%Z with false. change (1 =? 1)%Z with true. rewrite !andb_false_r, andb_true_r.
    destruct (Z.eqb_spec c (Z.of_nat n - 1)) as [C1|C1];
    destruct (Nat.eqb_spec i (Z.to_nat (c + -1))) as [I0|I0]; try lia; destruct (Nat.eqb_spec i (Z.to_nat (c + 0))) as [I1|I1]; try lia.
    + destruct (Nat.eqb_spec i (n - 2)); try lia. auto.
    + destruct (Nat.eqb_spec i (Z.to_nat (c + 1))); try lia. auto.
Qed.

(** shares of all nodes sum to 1 *)
Lemma sumN_one n i v : (i < n)%nat -> sumN n (fun k => if (k =? i)%nat then v else 0) = v.
Proof.
  revert i. induction n as [|n IH]; intros i Hi; [lia|]. rewrite sumN_S. destruct (Nat.eqb_spec n i) as [->|N].
  - rewrite sumN_zero; [lra|]. intros k Hk. destruct (Nat.eqb_spec k i); [lia|reflexivity].
  - rewrite IH by lia. lra.
Qed.
Lemma share_total h n p : 0 < h -> (2 <= n)%nat -> inside2 h n p -> sumN n (node_share n 1 (r_ p / h)) = 1.
Proof.
  intros Hh Hn Hin. pose proof (cell2_range h n p Hin Hh) as Hc. pose proof (cell2_spec h (r_ p)) as Hx. cbn zeta in Hx.
  set (c := cell2 h (r_ p)) in *. set (rho := r_ p / h) in *. set (x := rho - IZR c) in *.
  assert (SP : forall j, spline2 (rho - IZR j) = if (j =? c - 1)%Z then weight_quadratic x (-1) else if (j =? c)%Z then weight_quadratic x 0
                          else if (j =? c + 1)%Z then weight_quadratic x 1 else 0) by (intros j; now apply spline_at).
  set (w1 := weight_quadratic x (-1)) in *. set (w2 := weight_quadratic x 0) in *. set (w3 := weight_quadratic x 1) in *.
  assert (W : w1 + w2 + w3 = 1) by (unfold w1, w2, w3; cbn [weight_quadratic]; nra).
  set (a := if (c =? 0)%Z then 1%nat else Z.to_nat (c - 1)). set (b := Z.to_nat c).
  set (d := if (c =? Z.of_nat n - 1)%Z then (n - 2)%nat else Z.to_nat (c + 1)).
  rewrite (sumN_ext n _ (fun k => ((if (k =? a)%nat then w1 else 0) + (if (k =? b)%nat then w2 else 0)) + (if (k =? d)%nat then w3 else 0))).
  - rewrite !sumN_plus, !sumN_one; [lra| | |]; unfold a, b, d.
    + destruct (Z.eqb_spec c (Z.of_nat n - 1)); lia.
    + lia.
    + destruct (Z.eqb_spec c 0); lia.
  - intros i Hi. unfold node_share.
    replace (rho + INR i) with (rho - IZR (- Z.of_nat i)) by (rewrite opp_IZR, <- INR_IZR_INZ; lra).
    replace (rho - (2 * INR (n - 1) - INR i)) with (rho - IZR (2 * Z.of_nat (n - 1) - Z.of_nat i))
      by (rewrite minus_IZR, mult_IZR, <- !INR_IZR_INZ; lra).
    rewrite (INR_IZR_INZ i), !SP. unfold a, b, d.
    destruct (Z.eqb_spec c 0); destruct (Z.eqb_spec c (Z.of_nat n - 1)); try lia;
    destruct (Nat.eqb_spec i 0); destruct (Nat.eqb_spec i (n - 1)); try lia;
    destruct (Nat.eqb_spec i (Z.to_nat c)); try lia;
    repeat match goal with |- context [(?a =? ?b)%nat] => destruct (Nat.eqb_spec a b); try lia end;
    repeat match goal with |- context [(?a =? ?b)%Z] => destruct (Z.eqb_spec a b); try lia end; ring.
Qed.

(** all particles *)
Lemma deposit_all h n l o i : 0 < h -> (2 <= n)%nat -> (forall p, In p l -> inside2 h n p) -> (i < n)%nat ->
  let o' := fold_left (deposit_particle h n) l o in
  d_rho o' i = d_rho o i + sumR (map (fun p => dep_of p * gm_of p * node_share n 1 (r_ p / h) i) l) /\
  d_jz o' i = d_jz o i + sumR (map (fun p => dep_of p * pz_ p * node_share n 1 (r_ p / h) i) l) /\
  d_jr o' i = d_jr o i + sumR (map (fun p => dep_of p * pr_ p * node_share n (-1) (r_ p / h) i) l) /\
  d_jf o' i = d_jf o i + sumR (map (fun p => dep_of p * pf_ p * node_share n (-1) (r_ p / h) i) l).
Proof.
  intros Hh Hn Hin Hi. revert o. induction l as [|p l IH]; intros o; cbn [fold_left map sumR]; [repeat split; lra|].
  destruct (IH (fun q Hq => Hin q (or_intror Hq)) (deposit_particle h n o p)) as (A & B & C & D).
  destruct (deposit_nodes h n o p i Hh Hn (Hin p (or_introl eq_refl)) Hi) as (A' & B' & C' & D'). cbn zeta in *.
  rewrite A, B, C, D, A', B', C', D'. repeat split; lra.
Qed.
Lemma deposit_all_outside h n l o i : 0 < h -> (2 <= n)%nat -> (forall p, In p l -> inside2 h n p) -> (n <= i)%nat ->
  let o' := fold_left (deposit_particle h n) l o in
  d_rho o' i = d_rho o i /\ d_jz o' i = d_jz o i /\ d_jr o' i = d_jr o i /\ d_jf o' i = d_jf o i.
Proof.
  intros Hh Hn Hin Hi. revert o. induction l as [|p l IH]; intros o; cbn [fold_left]; [auto|].
  destruct (IH (fun q Hq => Hin q (or_intror Hq)) (deposit_particle h n o p)) as (A & B & C & D).
  destruct (deposit_outside h n o p i Hh Hn (Hin p (or_introl eq_refl)) Hi) as (A' & B' & C' & D'). cbn zeta in *.
  rewrite A, B, C, D. auto.
Qed.

Lemma sumN_sumR n (g : pl2 -> nat -> R) l : sumN n (fun i => sumR (map (fun p => g p i) l)) = sumR (map (fun p => sumN n (g p)) l).
Proof.
  induction l as [|p l IH]; cbn [map sumR]; [now apply sumN_zero|]. rewrite sumN_plus, IH. reflexivity.
Qed.
Lemma sumR_ext {X} (f g : X -> R) l : (forall p, In p l -> f p = g p) -> sumR (map f l) = sumR (map g l).
Proof. induction l as [|p l IH]; intros H; [reflexivity|]. cbn. rewrite IH, (H p); auto. - now left. - intros q Hq. apply H. now right. Qed.

Lemma volume_pos h ppc n i : 0 < h -> (2 <= n)%nat -> (i < n)%nat -> 0 < cell_volume h ppc n i.
Proof.
  intros Hh Hn Hi. unfold cell_volume. pose proof PI_RGT_0. assert (0 < h ^ 2) by (apply pow_lt; auto).
  assert (HP : 0 < PI * h ^ 2) by (apply Rmult_lt_0_compat; auto). pose proof (pow2_ge_0 (1 / INR ppc)).
  destruct (Nat.eqb_spec i (n - 1)); [|destruct (Nat.eqb_spec i 0); [|destruct (Nat.eqb_spec i 1)]].
  - apply Rmult_lt_0_compat; auto. apply (le_INR 2) in Hn. cbn in Hn. lra.
  - apply Rmult_lt_0_compat; auto. lra.
  - subst. cbn [INR]. apply Rmult_lt_0_compat; [lra|]. lra.
  - assert (0 < INR i) by (apply lt_0_INR; lia). apply Rmult_lt_0_compat; lra.
Qed.

Lemma gm_gt p : m_ p <> 0 -> pz_ p < gm_of p.
Proof.
  intros Hm. unfold gm_of. apply Rle_lt_trans with (Rabs (pz_ p)); [apply Rle_abs|]. rewrite <- sqrt_Rsqr_abs. apply sqrt_lt_1_alt.
  split; [apply Rle_0_sqr|]. unfold Rsqr. assert (0 < m_ p ^ 2) by (apply Rlt_0_sqr in Hm; unfold Rsqr in Hm; lra). pose proof (pow2_ge_0 (pr_ p)). pose proof (pow2_ge_0 (pf_ p)). lra.
Qed.
