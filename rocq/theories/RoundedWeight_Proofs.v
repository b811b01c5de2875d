(** Lemmas for C74: the rounded weights of one particle. *)
From Coq Require Import Reals ZArith List Bool Lra Lia Psatz.
From Flocq Require Import Core.
From Verif Require Import Float_Model Float_Proofs Beam2D_Model Beam2D_Spec Beam2D_Free Shape_Model Shape_Spec Shape_Proofs Rounded3D_Model RoundedBeam_Spec RoundedSum_Proofs.
Import ListNotations.
Open Scope R_scope.

(** [x] is [X] up to [e] roundings of 1 *)
Definition approx (e x X : R) : Prop := Rabs (x - X) <= e * u.
Lemma ap_refl x : approx 0 x x. Proof. unfold approx. replace (x - x) with 0 by ring. rewrite Rabs_R0. lra. Qed.
Lemma ap_weak e e' x X : e <= e' -> approx e x X -> approx e' x X.
Proof. unfold approx. intros H K. assert (U := u_pos). nra. Qed.
Lemma ap_add e1 e2 a A b B : approx e1 a A -> approx e2 b B -> approx (e1 + e2) (a + b) (A + B).
Proof. unfold approx. intros H K. replace (a + b - (A + B)) with ((a - A) + (b - B)) by ring. eapply Rle_trans; [apply Rabs_triang|]. lra. Qed.
Lemma ap_sub e1 e2 a A b B : approx e1 a A -> approx e2 b B -> approx (e1 + e2) (a - b) (A - B).
Proof. unfold approx. intros H K. replace (a - b - (A - B)) with ((a - A) + - (b - B)) by ring. eapply Rle_trans; [apply Rabs_triang|]. rewrite Rabs_Ropp. lra. Qed.
Lemma ap_mul e1 e2 a A b B MA MB : 0 <= e1 <= 1000 -> 0 <= e2 <= 1000 -> Rabs A <= MA -> Rabs B <= MB -> approx e1 a A -> approx e2 b B ->
  approx (e1 * MB + e2 * MA + / 1000) (a * b) (A * B).
Proof.
  unfold approx. intros H1 H2 HA HB Ha Hb. assert (U := u_pos). assert (V := u_tiny).
  replace (a * b - A * B) with ((a - A) * B + (A * (b - B) + (a - A) * (b - B))) by ring.
  eapply Rle_trans; [apply Rabs_triang|]. eapply Rle_trans; [apply Rplus_le_compat_l, Rabs_triang|]. rewrite !Rabs_mult.
  assert (P1 := Rabs_pos (a - A)). assert (P2 := Rabs_pos (b - B)). assert (P3 := Rabs_pos A). assert (P4 := Rabs_pos B).
  assert (K1 : Rabs (a - A) * Rabs B <= e1 * u * MB) by (apply Rmult_le_compat; lra).
  assert (K2 : Rabs A * Rabs (b - B) <= MA * (e2 * u)) by (apply Rmult_le_compat; lra).
  assert (K3 : Rabs (a - A) * Rabs (b - B) <= (1000 * u) * (1000 * u)) by (apply Rmult_le_compat; try lra; nra).
  assert (K4 : (1000 * u) * (1000 * u) <= / 1000 * u) by nra. lra.
Qed.
Lemma ap_div e a A c : 0 < c -> approx e a A -> approx (e / c) (a / c) (A / c).
Proof.
  unfold approx. intros Hc H. replace (a / c - A / c) with ((a - A) * / c) by (field; lra). rewrite Rabs_mult, (Rabs_pos_eq (/ c)) by (left; now apply Rinv_0_lt_compat).
  replace (e / c * u) with (e * u * / c) by (unfold Rdiv; ring). apply Rmult_le_compat_r; [left; now apply Rinv_0_lt_compat|exact H].
Qed.
(** rounding, for numbers scaled by [s] *)
Lemma eta_small s : 0 < s <= bpow radix2 900 -> eta * s <= u * / 10000.
Proof.
  intros [Hs Hs']. assert (E := eta_pos). apply Rle_trans with (eta * bpow radix2 900); [apply Rmult_le_compat_l; lra|]. unfold eta. rewrite <- bpow_plus.
  change (-1075 + 900)%Z with (-53 + -122)%Z. rewrite bpow_plus. apply Rmult_le_compat_l; [left; apply u_pos|].
  apply Rle_trans with (bpow radix2 (-14)); [apply bpow_le; lia|]. change (bpow radix2 (-14)) with (/ 16384). lra.
Qed.
Lemma ap_round_s s e x X M : 0 < s <= bpow radix2 900 -> 0 <= e <= 1000 -> Rabs X <= M -> approx e (x * s) X -> approx (e + M + / 1000) (double x * s) X.
Proof.
  unfold approx. intros Hs He HX H. assert (U := u_pos). assert (V := u_tiny). assert (R := round_error x). assert (E := eta_small s Hs).
  replace (double x * s - X) with ((double x - x) * s + (x * s - X)) by ring. eapply Rle_trans; [apply Rabs_triang|]. rewrite Rabs_mult, (Rabs_pos_eq s) by lra.
  assert (A : Rabs (x * s) <= M + e * u). { replace (x * s) with (X + (x * s - X)) by ring. eapply Rle_trans; [apply Rabs_triang|]. lra. }
  rewrite Rabs_mult, (Rabs_pos_eq s) in A by lra.
  assert (B : Rabs (double x - x) * s <= (u * Rabs x + eta) * s) by (apply Rmult_le_compat_r; lra).
  assert (C : u * (Rabs x * s) <= u * (M + e * u)) by (apply Rmult_le_compat_l; lra). assert (D : e * u <= / 10000) by nra. nra.
Qed.
Lemma ap_round e x X M : 0 <= e <= 1000 -> Rabs X <= M -> approx e x X -> approx (e + M + / 1000) (double x) X.
Proof.
  intros He HX H. assert (K := ap_round_s 1 e x X M). rewrite !Rmult_1_r in K. apply K; try assumption. split; [lra|]. change 1 with (bpow radix2 0). apply bpow_le. lia.
Qed.
Ltac absle := apply Rabs_le; first [lra | nra].

(** ** 3D weights *)
Lemma powers x : Rabs x <= 1 / 2 -> Rabs (x * x) <= 1 / 4 /\ Rabs (x * x * x) <= 1 / 8 /\ Rabs (x * x * (x * x)) <= 1 / 16.
Proof.
  intros H. assert (P := Rabs_pos x). assert (A : Rabs (x * x) <= 1 / 4) by (rewrite Rabs_mult; nra). split; [exact A|]. split; rewrite Rabs_mult; assert (Q := Rabs_pos (x * x)); nra.
Qed.
Lemma f2_ap x : Rabs x <= 1 / 2 -> approx 0.26 (f2 double x) (x * x).
Proof. intros H. destruct (powers x H) as [A _]. eapply ap_weak; [|apply (ap_round 0 (x * x) (x * x) (1 / 4) ltac:(lra) A), ap_refl]. lra. Qed.
Lemma f3_ap x : Rabs x <= 1 / 2 -> approx 0.27 (f3 double x) (x * x * x).
Proof.
  intros H. destruct (powers x H) as (A & B & _). unfold f3. eapply ap_weak; [|eapply (ap_round _ _ _ (1 / 8)); [|exact B|apply (ap_mul 0.26 0 _ _ _ _ (1/4) (1/2)); [lra|lra|exact A|exact H|now apply f2_ap|apply ap_refl]]]; lra.
Qed.
Lemma f4_ap x : Rabs x <= 1 / 2 -> approx 0.2 (f4 double x) (x * x * (x * x)).
Proof.
  intros H. destruct (powers x H) as (A & _ & B). unfold f4. eapply ap_weak; [|eapply (ap_round _ _ _ (1 / 16)); [|exact B|apply (ap_mul 0.26 0.26 _ _ _ _ (1/4) (1/4)); [lra|lra|exact A|exact A|now apply f2_ap|now apply f2_ap]]]; lra.
Qed.
Lemma half_is : half double = 1 / 2.
Proof. unfold half. replace (1 / 2) with (1 * bpow radix2 (-1)) by (change (bpow radix2 (-1)) with (/ 2); lra). apply (double_exact 1); lia. Qed.
Ltac rd B := eapply ap_weak; cycle 1; [eapply (ap_round _ _ _ B); cycle 2|].
Lemma far_ap x : Rabs x <= 1 / 2 -> approx 3 (double (f4 double (double (1 / 2 - x)) / 24)) ((1 / 2 - x) ^ 4 / 24).
Proof.
  intros H. apply Rabs_le_inv in H. set (y := 1 / 2 - x). assert (Hy : 0 <= y <= 1) by (unfold y; lra). clearbody y. assert (Hyy : 0 <= y * y <= 1) by nra. assert (Hy4 : 0 <= y * y * (y * y) <= 1) by nra.
  assert (A1 : approx 1.01 (double y) y). { rd 1; [apply ap_refl|lra|absle|lra]. }
  assert (A2 : approx 3.03 (f2 double (double y)) (y * y)). { unfold f2. rd 1; [apply (ap_mul 1.01 1.01 _ _ _ _ 1 1); try lra; try absle; exact A1|lra|absle|lra]. }
  assert (A4 : approx 7.1 (f4 double (double y)) (y * y * (y * y))). { unfold f4. rd 1; [apply (ap_mul 3.03 3.03 _ _ _ _ 1 1); try lra; try (absle; fail); exact A2|lra|absle|lra]. }
  replace (y ^ 4 / 24) with (y * y * (y * y) / 24) by (field). rd 1; [apply ap_div; [lra|exact A4]|lra| |lra].
  assert (0 <= y * y <= 1) by nra. apply Rabs_le. nra.
Qed.
Lemma weight4_ap x k : Rabs x <= 1 / 2 -> In k places -> approx 4 (weight4_f double x k) (weight4 x k).
Proof.
  intros H Hk. assert (Hx := Rabs_le_inv _ _ H). assert (F2 := f2_ap x H). assert (F3 := f3_ap x H). assert (F4 := f4_ap x H). destruct (powers x H) as (B2 & B3 & B4).
  assert (C19 : approx 0.25 (double (19 / 96)) (19 / 96)) by (rd (19/96); [apply ap_refl|lra|absle|lra]).
  assert (C11 : approx 0.48 (double (11 / 24)) (11 / 24)) by (rd (11/24); [apply ap_refl|lra|absle|lra]).
  assert (C115 : approx 0.61 (double (115 / 192)) (115 / 192)) by (rd (115/192); [apply ap_refl|lra|absle|lra]).
  assert (L : approx 0.5 (double (double (11 / 24) * x)) (11 / 24 * x)).
  { rd 0.24; [apply (ap_mul 0.48 0 _ _ _ _ (11/24) (1/2)); try lra; try absle; exact C11|lra|absle|lra]. }
  apply Rabs_le_inv in B2, B3, B4.
  assert (Q2 : approx 0.15 (double (f2 double x / 4)) (x * x / 4)) by (rd 0.07; [apply ap_div; [lra|exact F2]|lra|apply Rabs_le; lra|lra]).
  assert (Q3 : approx 0.1 (double (f3 double x / 6)) (x * x * x / 6)) by (rd 0.03; [apply ap_div; [lra|exact F3]|lra|apply Rabs_le; lra|lra]).
  assert (Q4 : approx 0.1 (double (f4 double x / 6)) (x * x * (x * x) / 6)) by (rd 0.02; [apply ap_div; [lra|exact F4]|lra|apply Rabs_le; lra|lra]).
  cbn [places In] in Hk. destruct Hk as [<-|[<-|[<-|[<-|[<-|[]]]]]]; cbn [weight4_f weight4].
  - rewrite half_is. eapply ap_weak; [|apply far_ap; exact H]. lra.
  - replace (19 / 96 - 11 / 24 * x + x ^ 2 / 4 + x ^ 3 / 6 - x ^ 4 / 6) with (19 / 96 - 11 / 24 * x + x * x / 4 + x * x * x / 6 - x * x * (x * x) / 6) by (field).
    rd 0.6; [apply ap_sub; [|exact Q4]; rd 0.6; [apply ap_add; [|exact Q3]; rd 0.6; [apply ap_add; [|exact Q2]; rd 0.6; [apply ap_sub; [exact C19|exact L]|lra|apply Rabs_le; lra|apply Rle_refl]|lra|apply Rabs_le; lra|apply Rle_refl]|lra|apply Rabs_le; lra|apply Rle_refl]|lra|apply Rabs_le; lra|lra].
  - replace (115 / 192 - x ^ 2 * 5 / 8 + x ^ 4 / 4) with (115 / 192 - x * x * 5 / 8 + x * x * (x * x) / 4) by (field).
    assert (M5 : approx 2.6 (double (f2 double x * 5)) (x * x * 5)).
    { rd 1.25; [apply (ap_mul 0.26 0 _ _ _ _ (1/4) 5); try lra; try (apply Rabs_le; lra); exact F2|lra|apply Rabs_le; lra|lra]. }
    assert (M8 : approx 0.5 (double (double (f2 double x * 5) / 8)) (x * x * 5 / 8)) by (rd 0.16; [apply ap_div; [lra|exact M5]|lra|apply Rabs_le; lra|lra]).
    assert (Q44 : approx 0.1 (double (f4 double x / 4)) (x * x * (x * x) / 4)) by (rd 0.02; [apply ap_div; [lra|exact F4]|lra|apply Rabs_le; lra|lra]).
    rd 0.7; [apply ap_add; [|exact Q44]; rd 0.6; [apply ap_sub; [exact C115|exact M8]|lra|assert (0 <= x * x) by nra; apply Rabs_le; lra|apply Rle_refl]|lra| |lra].
    assert (0 <= x * x) by nra. apply Rabs_le. lra.
  - replace (19 / 96 + 11 / 24 * x + x ^ 2 / 4 - x ^ 3 / 6 - x ^ 4 / 6) with (19 / 96 + 11 / 24 * x + x * x / 4 - x * x * x / 6 - x * x * (x * x) / 6) by (field).
    rd 0.6; [apply ap_sub; [|exact Q4]; rd 0.6; [apply ap_sub; [|exact Q3]; rd 0.6; [apply ap_add; [|exact Q2]; rd 0.6; [apply ap_add; [exact C19|exact L]|lra|apply Rabs_le; lra|apply Rle_refl]|lra|apply Rabs_le; lra|apply Rle_refl]|lra|apply Rabs_le; lra|apply Rle_refl]|lra|apply Rabs_le; lra|lra].
  - rewrite half_is. replace (1 / 2 + x) with (1 / 2 - - x) by ring. eapply ap_weak; [|apply far_ap; rewrite Rabs_Ropp; exact H]. lra.
Qed.
