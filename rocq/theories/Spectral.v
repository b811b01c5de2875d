(** Lemmas for C32: the type-1 sine and cosine transforms are their own inverses (up to a factor), and
    turn the second difference into a multiplication. *)
From Coq Require Import Reals ZArith List Bool Lra Lia Psatz.
From Verif Require Import Plasma2D_Model Plasma2D_Ode Plasma2D_Dens Plasma3D_Model Plasma3D_Spec.
Import ListNotations.
Open Scope R_scope.

Lemma sumN_swap a b (f : nat -> nat -> R) : sumN a (fun i => sumN b (fun j => f i j)) = sumN b (fun j => sumN a (fun i => f i j)).
Proof.
  induction a as [|a IH]; [cbn; symmetry; apply sumN_zero; auto|]. rewrite sumN_S, IH, <- sumN_plus. apply sumN_ext. intros. now rewrite sumN_S.
Qed.
Lemma sum_lin n a b f g : sumN n (fun i => a * f i + b * g i) = a * sumN n f + b * sumN n g.
Proof. now rewrite sumN_plus, !sumN_scal. Qed.
Lemma sumN_delta a k (f : nat -> R) : (k < a)%nat -> (forall i, (i < a)%nat -> i <> k -> f i = 0) -> sumN a f = f k.
Proof.
  intros Hk H. replace a with (k + (1 + (a - k - 1)))%nat by lia. rewrite sumN_add, sumN_add.
  rewrite (sumN_zero k), (sumN_zero (a - k - 1)).
  - cbn. rewrite Nat.add_0_r. lra.
  - intros i Hi. apply H; lia.
  - intros i Hi. apply H; lia.
Qed.

Lemma sin_npi n : sin (INR n * PI) = 0.
Proof. induction n as [|n IH]; [cbn [INR]; rewrite Rmult_0_l; apply sin_0|]. rewrite S_INR, Rmult_plus_distr_r, Rmult_1_l, neg_sin, IH. ring. Qed.
Lemma cos_npi n : cos (INR n * PI) = (-1) ^ n.
Proof. induction n as [|n IH]; [cbn [INR pow]; rewrite Rmult_0_l; apply cos_0|]. rewrite S_INR, Rmult_plus_distr_r, Rmult_1_l, neg_cos, IH. cbn [pow]. ring. Qed.

(** the telescoping sum *)
Lemma tele a n : 2 * sin (a / 2) * sumN n (fun i => cos (a * INR (i + 1))) = sin (a * (INR n + 1 / 2)) - sin (a / 2).
Proof.
  induction n as [|n IH].
  - cbn [sumN INR]. replace (a * (0 + 1 / 2)) with (a / 2) by field. ring.
  - rewrite sumN_S, Rmult_plus_distr_l, IH. rewrite plus_INR, (S_INR n). cbn [INR].
    replace (a * (INR n + 1 / 2)) with (a * (INR n + 1) - a / 2) by field.
    replace (a * (INR n + 1 + 1 / 2)) with (a * (INR n + 1) + a / 2) by field. rewrite sin_plus, sin_minus. ring.
Qed.

(** the trapezoid sum of cos(m pi n / L) over n = 0..L *)
Definition dsum (L m : nat) : R := 1 + (-1) ^ m + 2 * sumN (L - 1) (fun n => cos (PI * INR m * INR (n + 1) / INR L)).
Lemma dsum_0 L : (1 <= L)%nat -> dsum L 0 = 2 * INR L.
Proof.
  intros H. unfold dsum. rewrite (sumN_ext _ _ (fun _ => 1)).
  - assert (E : forall n, sumN n (fun _ => 1) = INR n) by (induction n as [|n IH]; [reflexivity|rewrite sumN_S, IH, S_INR; ring]).
    rewrite E, minus_INR by lia. cbn. ring.
  - intros. cbn [INR]. unfold Rdiv. rewrite Rmult_0_r, !Rmult_0_l. apply cos_0.
Qed.
Lemma dsum_2L L : (1 <= L)%nat -> dsum L (2 * L) = 2 * INR L.
Proof.
  intros H. rewrite <- dsum_0 by auto. unfold dsum. rewrite pow_mult. replace ((-1) ^ 2) with 1 by ring. rewrite pow1. cbn [pow]. f_equal. f_equal.
  apply sumN_ext. intros i _. assert (INR L <> 0) by (apply not_0_INR; lia).
  replace (PI * INR (2 * L) * INR (i + 1) / INR L) with (INR (2 * (i + 1)) * PI) by (rewrite !mult_INR; cbn [INR]; field; auto).
  rewrite cos_npi, pow_mult. replace ((-1) ^ 2) with 1 by ring. rewrite pow1. cbn [INR]. unfold Rdiv. rewrite Rmult_0_r, !Rmult_0_l, cos_0. reflexivity.
Qed.
Lemma dsum_mid L m : (0 < m < 2 * L)%nat -> dsum L m = 0.
Proof.
  intros H. assert (HL : (1 <= L)%nat) by lia. assert (HLr : 1 <= INR L) by (apply INR_pos'; auto).
  assert (Hm : 0 < INR m < 2 * INR L).
  { split; [apply lt_0_INR; lia|]. replace (2 * INR L) with (INR (2 * L)) by (rewrite mult_INR; reflexivity). apply lt_INR. lia. }
  set (a := PI * INR m / INR L). assert (Hs : 0 < sin (a / 2)).
  { apply sin_gt_0; unfold a; pose proof PI_RGT_0.
    - apply Rdiv_lt_0_compat; [|lra]. apply Rdiv_lt_0_compat; [nra|lra].
    - apply (Rmult_lt_reg_r (2 * INR L)); [lra|]. replace (PI * INR m / INR L / 2 * (2 * INR L)) with (PI * INR m) by (field; lra). nra. }
  pose proof (tele a (L - 1)) as T. rewrite minus_INR in T by lia. cbn [INR] in T.
  replace (a * (INR L - 1 + 1 / 2)) with (INR m * PI - a / 2) in T by (unfold a; field; lra).
  rewrite sin_minus, sin_npi, cos_npi in T.
  unfold dsum. rewrite (sumN_ext _ _ (fun i => cos (a * INR (i + 1)))).
  - apply (Rmult_eq_reg_l (sin (a / 2))); [|lra]. rewrite Rmult_0_r. lra.
  - intros. f_equal. unfold a. field. lra.
Qed.
Lemma cos_sum_neg L k m : INR L <> 0 -> dsum L (k - m) + dsum L (m - k) = dsum L 0 + dsum L ((k - m) + (m - k)).
Proof. intros _. destruct (le_lt_dec k m); [replace (k - m)%nat with 0%nat by lia|replace (m - k)%nat with 0%nat by lia; rewrite Nat.add_0_r]; cbn [Nat.add]; ring. Qed.
Definition gap (k m : nat) : nat := ((k - m) + (m - k))%nat.
Lemma cos_gap k m x : cos (PI * INR (gap k m) * x) = cos (PI * INR k * x - PI * INR m * x).
Proof.
  unfold gap. destruct (le_lt_dec k m).
  - replace (k - m)%nat with 0%nat by lia. cbn [Nat.add]. rewrite minus_INR by auto. rewrite <- cos_neg. f_equal. ring.
  - replace (m - k)%nat with 0%nat by lia. rewrite Nat.add_0_r, minus_INR by lia. f_equal. ring.
Qed.
Lemma pow_gap k m : (-1) ^ gap k m = (-1) ^ (k + m).
Proof.
  assert (S1 : forall a, (-1) ^ (a + a) = 1) by (intros; replace (a + a)%nat with (2 * a)%nat by lia; rewrite pow_mult; replace ((-1) ^ 2) with 1 by ring; apply pow1).
  unfold gap. destruct (le_lt_dec k m).
  - replace (k - m)%nat with 0%nat by lia. replace (k + m)%nat with ((m - k) + (k + k))%nat by lia. rewrite (pow_add _ (m - k) (k + k)), S1, Rmult_1_r. reflexivity.
  - replace (m - k)%nat with 0%nat by lia. rewrite Nat.add_0_r. replace (k + m)%nat with ((k - m) + (m + m))%nat by lia. rewrite pow_add, S1. ring.
Qed.

Section Ortho.
  Variable L : nat.
  Hypothesis HL : (1 <= L)%nat.
  Lemma L_ne : INR L <> 0. Proof. apply not_0_INR. lia. Qed.
  Notation th k n := (PI * INR k * INR n / INR L).
  Lemma cos_prod k m : 
    1 + (-1) ^ (k + m) + 2 * sumN (L - 1) (fun n => cos (th k (n + 1)) * cos (th m (n + 1))) = (dsum L (gap k m) + dsum L (k + m)) / 2.
  Proof.
    unfold dsum. rewrite pow_gap.
    replace (sumN (L - 1) (fun n => cos (th k (n + 1)) * cos (th m (n + 1)))) with
      (/ 2 * sumN (L - 1) (fun n => cos (th (gap k m) (n + 1))) + / 2 * sumN (L - 1) (fun n => cos (th (k + m)%nat (n + 1)))).
    - field.
    - rewrite <- sum_lin. apply sumN_ext. intros n _. unfold Rdiv.
      replace (PI * INR (gap k m) * INR (n + 1) * / INR L) with (PI * INR (gap k m) * (INR (n + 1) * / INR L)) by ring. rewrite cos_gap.
      rewrite (plus_INR k m).
      replace (PI * (INR k + INR m) * INR (n + 1) * / INR L) with (PI * INR k * (INR (n + 1) * / INR L) + PI * INR m * (INR (n + 1) * / INR L)) by ring.
      rewrite cos_minus, cos_plus.
      replace (PI * INR k * INR (n + 1) * / INR L) with (PI * INR k * (INR (n + 1) * / INR L)) by ring.
      replace (PI * INR m * INR (n + 1) * / INR L) with (PI * INR m * (INR (n + 1) * / INR L)) by ring. field.
  Qed.
  Lemma sin_prod k m :
    4 * sumN (L - 1) (fun n => sin (th k (n + 1)) * sin (th m (n + 1))) = dsum L (gap k m) - dsum L (k + m).
  Proof.
    unfold dsum. rewrite pow_gap.
    replace (sumN (L - 1) (fun n => sin (th k (n + 1)) * sin (th m (n + 1)))) with
      (/ 2 * sumN (L - 1) (fun n => cos (th (gap k m) (n + 1))) + - / 2 * sumN (L - 1) (fun n => cos (th (k + m)%nat (n + 1)))).
    - field.
    - rewrite <- sum_lin. apply sumN_ext. intros n _. unfold Rdiv.
      replace (PI * INR (gap k m) * INR (n + 1) * / INR L) with (PI * INR (gap k m) * (INR (n + 1) * / INR L)) by ring. rewrite cos_gap.
      rewrite (plus_INR k m).
      replace (PI * (INR k + INR m) * INR (n + 1) * / INR L) with (PI * INR k * (INR (n + 1) * / INR L) + PI * INR m * (INR (n + 1) * / INR L)) by ring.
      rewrite cos_minus, cos_plus.
      replace (PI * INR k * INR (n + 1) * / INR L) with (PI * INR k * (INR (n + 1) * / INR L)) by ring.
      replace (PI * INR m * INR (n + 1) * / INR L) with (PI * INR m * (INR (n + 1) * / INR L)) by ring. field.
  Qed.
  Lemma gap_0 k : gap k k = 0%nat. Proof. unfold gap. lia. Qed.
  Lemma sin_ortho k m : (1 <= k <= L - 1)%nat -> (1 <= m <= L - 1)%nat ->
    sumN (L - 1) (fun n => sin (th k (n + 1)) * sin (th m (n + 1))) = if (k =? m)%nat then INR L / 2 else 0.
  Proof.
    intros Hk Hm. pose proof (sin_prod k m) as P. rewrite (dsum_mid L (k + m)) in P by lia. destruct (Nat.eqb_spec k m) as [->|N].
    - rewrite gap_0, dsum_0 in P by auto. lra.
    - rewrite dsum_mid in P by (unfold gap; lia). lra.
  Qed.
  (** weights 1 at the ends, 2 inside *)
  Definition wt (n : nat) : R := if (n =? 0)%nat || (n =? L)%nat then 1 else 2.
  Lemma wt_sum f : sumN (L + 1) (fun n => wt n * f n) = f 0%nat + f L + 2 * sumN (L - 1) (fun n => f (n + 1)%nat).
  Proof.
    replace (L + 1)%nat with (1 + ((L - 1) + 1))%nat by lia. rewrite sumN_add, sumN_add.
    rewrite (sumN_ext (L - 1) (fun i => wt (1 + i) * f (1 + i)%nat) (fun i => 2 * f (i + 1)%nat)).
    - rewrite sumN_scal. cbn [sumN]. rewrite Nat.add_0_r. replace (1 + (L - 1))%nat with L by lia.
      assert (W0 : wt 0 = 1) by reflexivity. assert (WL : wt L = 1) by (unfold wt; rewrite Nat.eqb_refl, orb_true_r; reflexivity).
      rewrite W0, WL. ring.
    - intros i Hi. unfold wt. destruct (Nat.eqb_spec (1 + i) 0); [lia|]. destruct (Nat.eqb_spec (1 + i) L); [lia|]. cbn [orb].
      rewrite Nat.add_comm. reflexivity.
  Qed.
  Lemma cos_ortho k m : (k <= L)%nat -> (m <= L)%nat ->
    sumN (L + 1) (fun n => wt n * (cos (th k n) * cos (th m n))) = if (k =? m)%nat then 2 * INR L / wt k else 0.
  Proof.
    intros Hk Hm. rewrite (wt_sum (fun n => cos (th k n) * cos (th m n))).
    assert (E0 : cos (th k 0%nat) * cos (th m 0%nat) = 1).
    { cbn [INR]. unfold Rdiv. rewrite !Rmult_0_r, !Rmult_0_l, cos_0. ring. }
    assert (EL : cos (th k L) * cos (th m L) = (-1) ^ (k + m)).
    { replace (th k L) with (INR k * PI) by (field; exact L_ne). replace (th m L) with (INR m * PI) by (field; exact L_ne).
      rewrite !cos_npi, pow_add. reflexivity. }
    rewrite E0, EL, cos_prod. destruct (Nat.eqb_spec k m) as [->|N].
    - rewrite gap_0, dsum_0 by auto. unfold wt. destruct (Nat.eqb_spec m 0) as [->|N0]; cbn [orb].
      + cbn [Nat.add]. rewrite dsum_0 by auto. field.
      + destruct (Nat.eqb_spec m L) as [->|NL].
        * replace (L + L)%nat with (2 * L)%nat by lia. rewrite dsum_2L by auto. field.
        * rewrite dsum_mid by lia. field.
    - rewrite !dsum_mid by (unfold gap; lia). field.
  Qed.
End Ortho.

(** ** The transforms *)
(** as a function of the node number *)
Definition sines (L : nat) (f : arr) (i : nat) : R := 2 * sumN (L - 1) (fun k => f k * sin (PI * INR (k + 1) * INR i / INR L)).
Definition cosines (L : nat) (f : arr) (j : nat) : R := sumN (L + 1) (fun k => wt L k * (f k * cos (PI * INR k * INR j / INR L))).

Lemma dst_sines L f i : (1 <= L)%nat -> dst_1 (L - 1) f i = sines L f (i + 1).
Proof.
  intros HL. unfold dst_1, sines. f_equal. replace (L - 1 + 1)%nat with L by lia. apply sumN_ext. intros k _. f_equal. f_equal.
  unfold Rdiv. ring.
Qed.
Lemma dct_cosines L f j : (1 <= L)%nat -> dct_1 (L + 1) f j = cosines L f j.
Proof.
  intros HL. unfold dct_1, cosines. rewrite wt_sum by auto. replace (L + 1 - 1)%nat with L by lia. replace (L + 1 - 2)%nat with (L - 1)%nat by lia.
  cbn [INR]. unfold Rdiv. rewrite !Rmult_0_r, !Rmult_0_l, cos_0.
  replace (PI * INR L * INR j * / INR L) with (INR j * PI) by (field; apply L_ne; auto). rewrite cos_npi.
  rewrite (sumN_ext _ (fun n => f (n + 1)%nat * cos (PI * INR (n + 1) * INR j * / INR L)) (fun n => f (n + 1)%nat * cos (PI * INR j * INR (n + 1) * / INR L))); [ring|].
  intros. f_equal. f_equal. ring.
Qed.
Lemma sines_end L f : (1 <= L)%nat -> sines L f 0 = 0 /\ sines L f L = 0.
Proof.
  intros HL. unfold sines. split; rewrite sumN_zero; try ring; intros k Hk.
  - cbn [INR]. unfold Rdiv. rewrite Rmult_0_r, Rmult_0_l, sin_0. ring.
  - replace (PI * INR (k + 1) * INR L / INR L) with (INR (k + 1) * PI) by (field; apply L_ne; auto). rewrite sin_npi. ring.
Qed.
Lemma dst_inv L f i : (2 <= L)%nat -> (i < L - 1)%nat -> dst_1 (L - 1) (dst_1 (L - 1) f) i = 2 * INR L * f i.
Proof.
  intros HL Hi. unfold dst_1. replace (L - 1 + 1)%nat with L by lia.
  rewrite (sumN_ext _ _ (fun n => sumN (L - 1) (fun m => 2 * f m * (sin (PI * INR (i + 1) * INR (n + 1) / INR L) * sin (PI * INR (m + 1) * INR (n + 1) / INR L))))).
  - rewrite sumN_swap.
    rewrite (sumN_ext _ _ (fun m => 2 * f m * (if (i + 1 =? m + 1)%nat then INR L / 2 else 0))).
    + rewrite (sumN_delta _ i) by (lia || (intros m Hm Nm; destruct (Nat.eqb_spec (i + 1) (m + 1)); [lia|ring])).
      rewrite Nat.eqb_refl. field.
    + intros m Hm. rewrite sumN_scal. f_equal. apply sin_ortho; lia.
  - intros n Hn. cbn beta. rewrite Rmult_comm, <- Rmult_assoc, <- sumN_scal. apply sumN_ext. intros m Hm.
    replace (PI * INR (n + 1) * INR (m + 1) / INR L) with (PI * INR (m + 1) * INR (n + 1) / INR L) by (unfold Rdiv; ring). ring.
Qed.
Lemma dct_inv L f i : (1 <= L)%nat -> (i <= L)%nat -> dct_1 (L + 1) (dct_1 (L + 1) f) i = 2 * INR L * f i.
Proof.
  intros HL Hi. rewrite dct_cosines by auto. unfold cosines.
  rewrite (sumN_ext _ _ (fun n => sumN (L + 1) (fun m => wt L m * f m * (wt L n * (cos (PI * INR i * INR n / INR L) * cos (PI * INR m * INR n / INR L)))))).
  - rewrite sumN_swap.
    rewrite (sumN_ext _ _ (fun m => wt L m * f m * (if (i =? m)%nat then 2 * INR L / wt L i else 0))).
    + rewrite (sumN_delta _ i) by (lia || (intros m Hm Nm; destruct (Nat.eqb_spec i m); [lia|ring])).
      rewrite Nat.eqb_refl. field. unfold wt. destruct (orb _ _); lra.
    + intros m Hm. rewrite sumN_scal. f_equal. apply cos_ortho; lia.
  - intros n Hn. rewrite dct_cosines by auto. unfold cosines. 
    rewrite (Rmult_comm (sumN _ _)), <- Rmult_assoc, <- sumN_scal. apply sumN_ext. intros m Hm.
    replace (PI * INR n * INR i / INR L) with (PI * INR i * INR n / INR L) by (unfold Rdiv; ring). ring.
Qed.

(** ** Second differences *)
Definition eig (h : R) (L k : nat) : R := 4 / h ^ 2 * sin (INR k * PI / (2 * INR L)) ^ 2.
Lemma two_sin2 x : 2 - 2 * cos x = 4 * sin (x / 2) ^ 2.
Proof. replace x with (2 * (x / 2)) at 1 by field. rewrite cos_2a_sin. ring. Qed.
Lemma sin_d2 a i : (1 <= i)%nat -> 2 * sin (a * INR i) - sin (a * INR (i + 1)) - sin (a * INR (i - 1)) = 4 * sin (a / 2) ^ 2 * sin (a * INR i).
Proof.
  intros Hi. rewrite <- two_sin2, plus_INR, minus_INR by lia. cbn [INR].
  replace (a * (INR i + 1)) with (a * INR i + a) by ring. replace (a * (INR i - 1)) with (a * INR i - a) by ring. rewrite sin_plus, sin_minus. ring.
Qed.
Lemma cos_d2 L k i : (1 <= L)%nat -> (i <= L)%nat -> let c := fun j => cos (PI * INR k * INR j / INR L) in
  2 * c i - c (above L i) - c (below i) = 4 * sin (INR k * PI / (2 * INR L)) ^ 2 * c i.
Proof.
  intros HL Hi c. subst c. cbn beta. set (a := PI * INR k / INR L).
  pose proof (L_ne L HL) as HN.
  replace (INR k * PI / (2 * INR L)) with (a / 2) by (unfold a; field; auto). rewrite <- two_sin2.
  assert (E : forall j, PI * INR k * INR j / INR L = a * INR j) by (intros; unfold a; field; auto). rewrite !E.
  assert (EL : a * INR L = INR k * PI) by (unfold a; field; auto).
  destruct i as [|i].
  - unfold above. cbn [below]. destruct (Nat.eqb_spec 0 L); [lia|]. cbn [Nat.add INR]. rewrite Rmult_0_r, cos_0, !Rmult_1_r. ring.
  - cbn [below]. unfold above. destruct (Nat.eqb_spec (S i) L) as [<-|N].
    + replace (S i - 1)%nat with i by lia. rewrite EL. replace (a * INR i) with (INR k * PI - a) by (rewrite <- EL, S_INR; ring).
      rewrite cos_minus, sin_npi. ring.
    + rewrite plus_INR, S_INR. cbn [INR]. replace (a * (INR i + 1 + 1)) with (a * (INR i + 1) + a) by ring.
      replace (a * INR i) with (a * (INR i + 1) - a) by ring. rewrite cos_plus, cos_minus. ring.
Qed.
Lemma sines_d2 L h f i : h <> 0 -> (1 <= i <= L - 1)%nat ->
  minus_d2 h L (sines L f) i = sines L (fun k => eig h L (k + 1) * f k) i.
Proof.
  intros Hh Hi. unfold minus_d2, above. destruct (Nat.eqb_spec i L); [lia|]. replace (below i) with (i - 1)%nat by (destruct i; cbn; lia).
  unfold sines. assert (HN : INR L <> 0) by (apply L_ne; lia).
  transitivity (2 / h ^ 2 * (sumN (L - 1) (fun k => f k * (2 * sin (PI * INR (k + 1) * INR i / INR L) - sin (PI * INR (k + 1) * INR (i + 1) / INR L) - sin (PI * INR (k + 1) * INR (i - 1) / INR L))))).
  - rewrite (sumN_ext _ (fun k => f k * (2 * _ - _ - _)) (fun k => 2 * (f k * sin (PI * INR (k + 1) * INR i / INR L)) + (-1 * (f k * sin (PI * INR (k + 1) * INR (i + 1) / INR L)) + -1 * (f k * sin (PI * INR (k + 1) * INR (i - 1) / INR L)))))
      by (intros; ring).
    rewrite !sumN_plus, !sumN_scal. field. auto.
  - unfold Rdiv at 1. rewrite Rmult_assoc. f_equal. rewrite <- sumN_scal. apply sumN_ext. intros k _.
    set (a := PI * INR (k + 1) / INR L).
    assert (E : forall j, PI * INR (k + 1) * INR j / INR L = a * INR j) by (intros; unfold a; field; auto). rewrite !E.
    rewrite sin_d2 by lia. unfold eig. replace (INR (k + 1) * PI / (2 * INR L)) with (a / 2) by (unfold a; field; auto). field. auto.
Qed.
Lemma cosines_d2 L h f i : h <> 0 -> (1 <= L)%nat -> (i <= L)%nat ->
  minus_d2 h L (cosines L f) i = cosines L (fun k => eig h L k * f k) i.
Proof.
  intros Hh HL Hi. unfold minus_d2, cosines.
  transitivity (/ h ^ 2 * (sumN (L + 1) (fun k => wt L k * (f k * (2 * cos (PI * INR k * INR i / INR L) - cos (PI * INR k * INR (above L i) / INR L) - cos (PI * INR k * INR (below i) / INR L)))))).
  - rewrite (sumN_ext _ (fun k => wt L k * (f k * (2 * _ - _ - _))) (fun k => 2 * (wt L k * (f k * cos (PI * INR k * INR i / INR L))) + (-1 * (wt L k * (f k * cos (PI * INR k * INR (above L i) / INR L))) + -1 * (wt L k * (f k * cos (PI * INR k * INR (below i) / INR L))))))
      by (intros; ring).
    rewrite !sumN_plus, !sumN_scal. field. auto.
  - rewrite <- sumN_scal. apply sumN_ext. intros k _. rewrite (cos_d2 L k i) by auto. unfold eig. field. auto.
Qed.
