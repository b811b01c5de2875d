(** Theorem C74, continued: the charge of the 2D plasma on the grids in binary64. *)
From Coq Require Import Reals ZArith List Bool Lra Lia Psatz.
From Flocq Require Import Core.
From Verif Require Import Float_Model Float_Proofs Beam2D_Model Beam2D_Spec Beam2D_Free Plasma2D_Model Plasma2D_Spec Rounded3D_Model Rounded2D_Model RoundedBeam_Spec RoundedSum_Proofs RoundedWeight_Proofs RoundedDep_Spec RoundedDep_Proofs Props_RoundedDep RoundedPlasma_Proofs.
Import ListNotations.
Open Scope R_scope.

(** ** Positive numbers up to a few roundings *)
Definition rel (e x X : R) : Prop := 0 < X /\ Rabs (x - X) <= e * u * X.
Lemma rel_ap e x X : rel e x X <-> 0 < X /\ approx e (x * / X) 1.
Proof.
  unfold rel, approx. split; intros [P H]; (split; [exact P|]).
  - replace (x * / X - 1) with ((x - X) * / X) by (field; lra). rewrite Rabs_mult, (Rabs_pos_eq (/ X)) by (left; now apply Rinv_0_lt_compat). apply (Rmult_le_reg_r X); [exact P|]. rewrite Rmult_assoc, Rinv_l by lra. lra.
  - replace (x - X) with ((x * / X - 1) * X) by (field; lra). rewrite Rabs_mult, (Rabs_pos_eq X) by lra. apply Rmult_le_compat_r; lra.
Qed.
Lemma rel_refl X : 0 < X -> rel 0 X X. Proof. intros H. split; [exact H|]. replace (X - X) with 0 by ring. rewrite Rabs_R0. lra. Qed.
Lemma rel_weak e e' x X : e <= e' -> rel e x X -> rel e' x X.
Proof. intros H [P K]. split; [exact P|]. assert (U := u_pos). eapply Rle_trans; [exact K|]. apply Rmult_le_compat_r; [lra|]. apply Rmult_le_compat_r; lra. Qed.
Lemma rel_round e x X : 0 <= e <= 1000 -> bpow radix2 (-900) <= X -> rel e x X -> rel (e + 1.001) (double x) X.
Proof.
  intros He HX H. apply rel_ap in H. destruct H as [P H]. apply rel_ap. split; [exact P|]. eapply ap_weak; [|apply (ap_round_s (/ X) e x 1 1); [|exact He|rewrite Rabs_R1; lra|exact H]]; [lra|].
  split; [now apply Rinv_0_lt_compat|]. change 900%Z with (- -900)%Z. rewrite bpow_opp. apply Rinv_le_contravar; [apply bpow_gt_0|exact HX].
Qed.
Lemma rel_mul e1 e2 a A b B : 0 <= e1 <= 1000 -> 0 <= e2 <= 1000 -> rel e1 a A -> rel e2 b B -> rel (e1 + e2 + 0.001) (a * b) (A * B).
Proof.
  intros H1 H2 Ha Hb. apply rel_ap in Ha, Hb. destruct Ha as [PA Ha], Hb as [PB Hb]. apply rel_ap. split; [now apply Rmult_lt_0_compat|]. replace (a * b * / (A * B)) with (a * / A * (b * / B)) by (field; lra). replace 1 with (1 * 1) by ring.
  eapply ap_weak; [|apply (ap_mul e1 e2 _ 1 _ 1 1 1); try assumption; rewrite Rabs_R1; lra]. lra.
Qed.
Lemma rel_add e1 e2 a A b B : 0 <= e1 -> 0 <= e2 -> rel e1 a A -> rel e2 b B -> rel (Rmax e1 e2) (a + b) (A + B).
Proof.
  intros H1 H2 Ha Hb. destruct (rel_weak _ (Rmax e1 e2) _ _ (Rmax_l e1 e2) Ha) as [PA KA]. destruct (rel_weak _ (Rmax e1 e2) _ _ (Rmax_r e1 e2) Hb) as [PB KB]. split; [lra|]. replace (a + b - (A + B)) with ((a - A) + (b - B)) by ring. eapply Rle_trans; [apply Rabs_triang|]. lra.
Qed.
Lemma rel_div_c e a A c : 0 < c -> rel e a A -> rel e (a / c) (A / c).
Proof.
  intros Hc [P K]. assert (IC := Rinv_0_lt_compat c Hc). split; [apply Rmult_lt_0_compat; assumption|]. replace (a / c - A / c) with ((a - A) * / c) by (unfold Rdiv; ring). rewrite Rabs_mult, (Rabs_pos_eq (/ c)) by lra. unfold Rdiv. rewrite <- Rmult_assoc. apply Rmult_le_compat_r; lra.
Qed.
Lemma big_900 c X : (-900 <= c)%Z -> bpow radix2 c <= X -> bpow radix2 (-900) <= X.
Proof. intros H K. eapply Rle_trans; [apply bpow_le; exact H|exact K]. Qed.

(** the volumes of the cells *)
Lemma prod_ge b x c : 0 < b -> b <= x -> 1 <= c -> b <= x * c.
Proof. intros. nra. Qed.
Lemma rel_rm e1 e2 a A b B : 0 <= e1 <= 100 -> 0 <= e2 <= 100 -> bpow radix2 (-900) <= A * B -> rel e1 a A -> rel e2 b B -> rel (e1 + e2 + 1.01) (double (a * b)) (A * B).
Proof. intros H1 H2 HB Ha Hb. eapply rel_weak; [|apply (rel_round (e1 + e2 + 0.001)); [lra|exact HB|apply rel_mul; try assumption; lra]]. lra. Qed.
Lemma volume_rel h ppc n j : ordinary_step h -> (1 <= ppc)%nat -> (Z.of_nat ppc <= 2 ^ 50)%Z -> (3 <= n)%nat -> rel 20 (cell_volume_f double h ppc n j) (cell_volume h ppc n j).
Proof.
  intros Hh P1 P2 Hn. destruct Hh as [Hh _]. assert (B := bpow_gt_0 radix2 (-100)). assert (B2 := bpow_gt_0 radix2 (-900)).
  assert (H2 : bpow radix2 (-200) <= h ^ 2). { change (-200)%Z with (-100 + -100)%Z. rewrite bpow_plus. cbn [pow]. rewrite Rmult_1_r. apply Rmult_le_compat; lra. }
  assert (H9 : bpow radix2 (-900) <= h ^ 2) by (apply (big_900 (-200)); [lia|exact H2]).
  assert (one9 : bpow radix2 (-900) <= 1) by (change 1 with (bpow radix2 0); apply bpow_le; lia).
  assert (PI3 : 3 <= PI) by (assert (Q := PI2_3_2); lra).
  assert (F : rel 1.01 (f2 double h) (h ^ 2)). { unfold f2. replace (h * h) with (h ^ 2) by ring. eapply rel_weak; [|apply (rel_round 0); [lra|exact H9|apply rel_refl; lra]]. lra. }
  assert (FP : rel 1.01 (pi_f double) PI) by (unfold pi_f; eapply rel_weak; [|apply (rel_round 0); [lra|lra|apply rel_refl; lra]]; lra).
  assert (PH : rel 3.03 (double (pi_f double * f2 double h)) (PI * h ^ 2)) by (eapply rel_weak; [|apply (rel_rm 1.01 1.01); [lra|lra|nra|exact FP|exact F]]; lra).
  assert (TP : rel 2.02 (double (2 * pi_f double)) (2 * PI)) by (eapply rel_weak; [|apply (rel_rm 0 1.01); [lra|lra|lra|apply rel_refl; lra|exact FP]]; lra).
  assert (TH : rel 4.04 (double (double (2 * pi_f double) * f2 double h)) (2 * PI * h ^ 2)) by (eapply rel_weak; [|apply (rel_rm 2.02 1.01); [lra|lra|nra|exact TP|exact F]]; lra).
  assert (C : rel 5.05 (double (2 * f2 double (double (1 / INR ppc)))) (2 * (1 / INR ppc) ^ 2) /\ 0 < 2 * (1 / INR ppc) ^ 2).
  { assert (N1 : 1 <= INR ppc) by (change 1 with (INR 1); apply le_INR; lia). assert (N2 : INR ppc <= bpow radix2 50) by (rewrite INR_IZR_INZ; change (bpow radix2 50) with (IZR (2 ^ 50)); apply IZR_le; exact P2).
    assert (Q : bpow radix2 (-50) <= 1 / INR ppc) by (unfold Rdiv; rewrite Rmult_1_l; change (-50)%Z with (- (50))%Z; rewrite bpow_opp; apply Rinv_le_contravar; lra). assert (B5 := bpow_gt_0 radix2 (-50)).
    set (c := 1 / INR ppc) in *. assert (C0 : rel 1.01 (double c) c) by (eapply rel_weak; [|apply (rel_round 0); [lra|apply (big_900 (-50)); [lia|exact Q]|apply rel_refl; lra]]; lra).
    assert (C2 : bpow radix2 (-900) <= c * c) by (apply (big_900 (-100)); [lia|]; change (-100)%Z with (-50 + -50)%Z; rewrite bpow_plus; apply Rmult_le_compat; lra).
    assert (C1 : rel 3.03 (f2 double (double c)) (c * c)) by (unfold f2; eapply rel_weak; [|apply (rel_rm 1.01 1.01); [lra|lra|exact C2|exact C0|exact C0]]; lra). replace (c ^ 2) with (c * c) by ring.
    split; [|lra]. eapply rel_weak; [|apply (rel_rm 0 3.03); [lra|lra|lra|apply rel_refl; lra|exact C1]]. lra. }
  destruct C as [C Cp]. set (cc := 2 * (1 / INR ppc) ^ 2) in *.
  assert (K : forall a b, 1 <= a <= 1000 -> 1 <= b <= 1000 -> b <= 10 * a -> rel 7.1 (double (double (a + double (2 * f2 double (double (1 / INR ppc)))) / b)) ((a + cc) / b)).
  { intros a b Ha Hb Hab. assert (S : rel 5.05 (a + double (2 * f2 double (double (1 / INR ppc)))) (a + cc)) by (eapply rel_weak; [|apply (rel_add 0 5.05); [lra|lra|apply rel_refl; lra|exact C]]; rewrite Rmax_right; lra).
    assert (S2 : rel 6.06 (double (a + double (2 * f2 double (double (1 / INR ppc))))) (a + cc)) by (eapply rel_weak; [|apply (rel_round 5.05); [lra|lra|exact S]]; lra).
    apply (rel_div_c _ _ _ b ltac:(lra)) in S2. eapply rel_weak; [|apply (rel_round 6.06); [lra| |exact S2]]; [lra|]. apply Rle_trans with (1 / 10); [|apply (Rmult_le_reg_r b); [lra|]; unfold Rdiv at 2; rewrite Rmult_assoc, Rinv_l by lra; lra].
    apply Rle_trans with (bpow radix2 (-4)); [apply bpow_le; lia|]. change (bpow radix2 (-4)) with (/ 16). lra. }
  unfold cell_volume_f, cell_volume. destruct (j =? n - 1)%nat.
  - assert (N3 : 3 <= INR n) by (replace 3 with (INR 3) by (cbn; lra); apply le_INR; lia). eapply rel_weak; [|apply (rel_rm 3.03 1.01); [lra|lra| |exact PH|]]; [lra|apply prod_ge; [exact B2|nra|lra]|]. eapply rel_weak; [|apply (rel_round 0); [lra|lra|apply rel_refl; lra]]. lra.
  - destruct (j =? 0)%nat eqn:J0.
    + replace ((13 + 2 * (1 / INR ppc) ^ 2) / 32) with ((13 + cc) / 32) by reflexivity. eapply rel_weak; [|apply (rel_rm 3.03 7.1); [lra|lra| |exact PH|apply K; lra]]; [lra|]. replace (PI * h ^ 2 * ((13 + cc) / 32)) with (h ^ 2 * (PI * ((13 + cc) / 32))) by ring. apply prod_ge; [exact B2|exact H9|nra].
    + apply Nat.eqb_neq in J0. assert (J1 : 1 <= INR j) by (change 1 with (INR 1); apply le_INR; lia).
      assert (TJ : rel 5.06 (double (double (double (2 * pi_f double) * f2 double h) * INR j)) (2 * PI * h ^ 2 * INR j)) by (eapply rel_weak; [|apply (rel_rm 4.04 0); [lra|lra|apply prod_ge; [exact B2|nra|exact J1]|exact TH|apply rel_refl; lra]]; lra).
      destruct (j =? 1)%nat; [|eapply rel_weak; [|exact TJ]; lra]. replace ((193 + 2 * (1 / INR ppc) ^ 2) / 192) with ((193 + cc) / 192) by reflexivity. eapply rel_weak; [|apply (rel_rm 5.06 7.1); [lra|lra| |exact TJ|apply K; lra]]; [lra|]. apply prod_ge; [exact B2|apply prod_ge; [exact B2|nra|exact J1]|lra].
Qed.
(** the volumes are below 7 h^2 n *)
Lemma volume_range h ppc n j : 0 < h -> (1 <= ppc)%nat -> (3 <= n)%nat -> (j < n)%nat -> 0 < cell_volume h ppc n j <= 10 * h ^ 2 * INR n.
Proof.
  intros Hh P1 Hn Hj. assert (H2 : 0 < h ^ 2) by (apply pow_lt; exact Hh). assert (PI3 : 3 <= PI) by (assert (Q := PI2_3_2); lra). assert (PI4 := PI_4). assert (N1 : 1 <= INR ppc) by (change 1 with (INR 1); apply le_INR; lia).
  assert (C : 0 < 1 / INR ppc <= 1) by (split; [apply Rmult_lt_0_compat; [lra|apply Rinv_0_lt_compat; lra]|apply (Rmult_le_reg_r (INR ppc)); [lra|]; unfold Rdiv; rewrite Rmult_assoc, Rinv_l by lra; lra]).
  assert (CC : 0 < (1 / INR ppc) ^ 2 <= 1) by (split; [apply pow_lt; lra|]; nra). assert (N3 : 3 <= INR n) by (replace 3 with (INR 3) by (cbn; lra); apply le_INR; lia). assert (JN : INR j <= INR n) by (apply le_INR; lia). unfold cell_volume. set (H := h ^ 2) in *. set (cc := (1 / INR ppc) ^ 2) in *. clearbody H cc.
  assert (PH : 3 * H <= PI * H <= 4 * H) by nra. replace (2 * PI * H) with (2 * (PI * H)) by ring. set (ph := PI * H) in *. clearbody ph. destruct (j =? n - 1)%nat; [nra|]. destruct (j =? 0)%nat eqn:J0; [nra|].
  apply Nat.eqb_neq in J0. assert (J1 : 1 <= INR j) by (change 1 with (INR 1); apply le_INR; lia). destruct (j =? 1)%nat eqn:JE; [apply Nat.eqb_eq in JE; subst j; replace (INR 1) with 1 by reflexivity; nra|nra].
Qed.

(** ** The charge and the current of a particle *)
Section One2.
  Variables (m pr pf pz q : R).
  Let A := m ^ 2 + pr ^ 2 + pf ^ 2 + pz ^ 2.
  Hypotheses (Hm : bpow radix2 (-100) <= m) (HG : sqrt A <= bpow radix2 300) (Hd : bpow radix2 (-40) <= 1 - pz / sqrt A) (Hq : bpow radix2 (-500) <= Rabs q).
  Let dr := 1 - pz / sqrt A.
  Let D := Rabs q / dr.
  Let gm := gamma_a double m pr pf pz.
  Let den := double (gm - pz).
  Let dep := double (q / den).
  Let drho := double (dep * gm).
  Let djz := double (dep * pz).
  Lemma E_big : bpow radix2 (-100) <= sqrt A.
  Proof. assert (K := A_big m pr pf pz Hm). fold A in K. apply Rsqr_incr_0_var; [|apply sqrt_pos]. unfold Rsqr. rewrite sqrt_sqrt; [|assert (P := bpow_gt_0 radix2 (-200)); lra]. rewrite <- bpow_plus. exact K. Qed.
  Lemma two_charges : Rabs (drho - djz - q) <= 10 * u * D /\ Rabs drho <= 1.2 * D /\ Rabs djz <= 1.2 * D /\ bpow radix2 (-505) <= D.
  Proof.
    assert (EB := E_big). assert (P0 := bpow_gt_0 radix2 (-100)). assert (P1 := bpow_gt_0 radix2 (-40)). assert (P2 := bpow_gt_0 radix2 (-505)). assert (DB := D_big m pr pf pz Hm Hd q Hq). fold A dr D in DB. assert (DR := dr_pos m pr pf pz Hm Hd). fold A dr in DR. assert (DS := D_scale m pr pf pz Hm Hd q Hq). fold A dr D in DS.
    assert (G := gamma_ap m pr pf pz Hm). fold A gm in G. assert (SG := sg_range m pr pf pz Hm). fold A in SG.
    set (E := sqrt A) in *. assert (U := u_pos). assert (UT := u_tiny). assert (QD : Rabs q = D * dr) by (unfold D; field; lra).
    assert (UD : u <= / 8192 * dr). { apply Rle_trans with (/ 8192 * bpow radix2 (-40)); [|apply Rmult_le_compat_l; [lra|exact Hd]]. change (/ 8192) with (bpow radix2 (-13)). rewrite <- bpow_plus. apply Rle_refl. }
    assert (GE : Rabs (gm - E) <= 9.1 * u * E). { unfold approx in G. replace (gm - E) with ((gm * / E - 1) * E) by (field; lra). rewrite Rabs_mult, (Rabs_pos_eq E) by lra. apply Rmult_le_compat_r; lra. }
    assert (PZ : Rabs pz <= E). { replace pz with (pz / E * E) by (field; lra). rewrite Rabs_mult, (Rabs_pos_eq E) by lra. assert (Rabs (pz / E) * E <= 1 * E) by (apply Rmult_le_compat_r; lra). lra. }
    assert (EDR : E - pz = E * dr) by (unfold dr; field; lra). apply Rabs_le_inv in GE.
    assert (UE : u * E <= / 8192 * dr * E) by (apply Rmult_le_compat_r; lra). set (X := gm - pz) in *. assert (X1 : 0.998 * (E * dr) <= X <= 1.002 * (E * dr)) by (unfold X; lra). assert (EP : 0 < E * dr) by (apply Rmult_lt_0_compat; lra).
    assert (XB : bpow radix2 (-142) <= X). { apply Rle_trans with (0.5 * (E * dr)); [|lra]. apply Rle_trans with (bpow radix2 (-1) * (bpow radix2 (-100) * bpow radix2 (-40))); [rewrite <- !bpow_plus; apply bpow_le; lia|]. change (bpow radix2 (-1)) with (/ 2). assert (bpow radix2 (-100) * bpow radix2 (-40) <= E * dr) by (apply Rmult_le_compat; try lra; exact Hd). lra. }
    destruct (rel_round 0 X X ltac:(lra) (big_900 (-142) X ltac:(lia) XB) (rel_refl X ltac:(lra))) as [_ DN]. fold den in DN. apply Rabs_le_inv in DN. assert (UX : u * X <= 0.0001 * X) by (apply Rmult_le_compat_r; lra).
    assert (D0 : 0.997 * (E * dr) <= den <= 1.003 * (E * dr)) by lra. assert (dp : 0 < den) by lra.
    assert (QN : Rabs (q / den) * E <= 1.004 * D). { unfold Rdiv. rewrite Rabs_mult, (Rabs_pos_eq (/ den)) by (left; now apply Rinv_0_lt_compat). rewrite QD. apply (Rmult_le_reg_r den); [exact dp|]. replace (D * dr * / den * E * den) with (D * (E * dr)) by (field; lra). assert (D * (0.997 * (E * dr)) <= D * den) by (apply Rmult_le_compat_l; lra). assert (0 <= D * (E * dr)) by (apply Rmult_le_pos; lra). lra. }
    assert (ET : forall s, 0 < s -> s <= bpow radix2 900 -> eta <= u * / 10000 * / s). { intros s S1 S2. assert (K := eta_small s (conj S1 S2)). apply (Rmult_le_reg_r s); [exact S1|]. rewrite Rmult_assoc, Rinv_l by lra. lra. }
    assert (DPP : 0 < D) by lra. assert (EtaD : eta <= u * / 10000 * D). { rewrite <- (Rinv_inv D) at 1. apply ET; [lra|]. eapply Rle_trans; [apply DS|]. apply bpow_le. lia. }
    assert (EtaE : eta * E <= u * / 10000 * D). { assert (K := ET (E / D) ltac:(apply Rmult_lt_0_compat; lra) ltac:(apply Rle_trans with (bpow radix2 300 * bpow radix2 510); [apply Rmult_le_compat; lra|]; rewrite <- bpow_plus; apply bpow_le; lia)). rewrite Rinv_div in K. assert (K2 : eta * E <= u * / 10000 * (D / E) * E) by (apply Rmult_le_compat_r; lra). replace (u * / 10000 * (D / E) * E) with (u * / 10000 * D) in K2 by (field; lra). exact K2. }
    assert (R1 := round_error (q / den)). fold dep in R1. assert (R1E : Rabs (dep - q / den) * E <= (u * Rabs (q / den) + eta) * E) by (apply Rmult_le_compat_r; lra). assert (U1 : u * (Rabs (q / den) * E) <= u * (1.004 * D)) by (apply Rmult_le_compat_l; lra). assert (UDp : 0 <= u * D <= 0.0001 * D) by (split; [apply Rmult_le_pos; lra|apply Rmult_le_compat_r; lra]).
    assert (R1b : Rabs (dep - q / den) * E <= 1.005 * u * D) by lra.
    assert (DEP : Rabs dep * E <= 1.01 * D). { replace dep with (q / den + (dep - q / den)) by ring. assert (T := Rabs_triang (q / den) (dep - q / den)). assert (T2 : Rabs (q / den + (dep - q / den)) * E <= (Rabs (q / den) + Rabs (dep - q / den)) * E) by (apply Rmult_le_compat_r; lra). lra. }
    assert (UE2 : u * E <= 0.0001 * E) by (apply Rmult_le_compat_r; lra). assert (GM : Rabs gm <= 1.001 * E) by (apply Rabs_le; lra). assert (PD := Rabs_pos dep).
    assert (S1 : Rabs (dep * gm) <= 1.012 * D). { rewrite Rabs_mult. apply Rle_trans with (Rabs dep * (1.001 * E)); [apply Rmult_le_compat_l; lra|]. lra. }
    assert (S2 : Rabs (dep * pz) <= 1.012 * D). { rewrite Rabs_mult. apply Rle_trans with (Rabs dep * E); [apply Rmult_le_compat_l; lra|]. lra. }
    assert (R2 := round_error (dep * gm)). fold drho in R2. assert (R3 := round_error (dep * pz)). fold djz in R3.
    assert (V1 : u * Rabs (dep * gm) <= u * (1.012 * D)) by (apply Rmult_le_compat_l; lra). assert (V2 : u * Rabs (dep * pz) <= u * (1.012 * D)) by (apply Rmult_le_compat_l; lra).
    assert (W1 : Rabs (drho - dep * gm) <= 1.02 * u * D) by lra. assert (W2 : Rabs (djz - dep * pz) <= 1.02 * u * D) by lra.
    split; [|split; [|split; [|exact DB]]].
    - replace (drho - djz - q) with ((drho - dep * gm) + - (djz - dep * pz) + ((dep - q / den) * X + (q / den) * (X - den))) by (unfold X; field; lra).
      eapply Rle_trans; [apply Rabs_triang|]. eapply Rle_trans; [apply Rplus_le_compat; apply Rabs_triang|]. rewrite Rabs_Ropp, !Rabs_mult, (Rabs_pos_eq X) by lra.
      assert (Y1 : Rabs (dep - q / den) * X <= Rabs (dep - q / den) * (2.1 * E)) by (apply Rmult_le_compat_l; [apply Rabs_pos|]; assert (E * dr <= E * 2) by (apply Rmult_le_compat_l; lra); lra).
      assert (Y2 : Rabs (X - den) <= 1.001 * u * (2.1 * E)). { apply Rle_trans with (1.001 * u * X); [apply Rabs_le; lra|]. apply Rmult_le_compat_l; [lra|]. assert (E * dr <= E * 2) by (apply Rmult_le_compat_l; lra); lra. }
      assert (Y3 : Rabs (q / den) * Rabs (X - den) <= Rabs (q / den) * (1.001 * u * (2.1 * E))) by (apply Rmult_le_compat_l; [apply Rabs_pos|exact Y2]). lra.
    - replace drho with (dep * gm + (drho - dep * gm)) by ring. eapply Rle_trans; [apply Rabs_triang|]. lra.
    - replace djz with (dep * pz + (djz - dep * pz)) by ring. eapply Rle_trans; [apply Rabs_triang|]. lra.
  Qed.
End One2.

(** ** The three contributions to one array *)
Definition wt (x : R) (k : Z) : R := match k with (-1)%Z => (x - 1 / 2) ^ 2 / 2 | 0%Z => 3 / 4 - x ^ 2 | _ => (x + 1 / 2) ^ 2 / 2 end.
Lemma wt_ap x k : Rabs x <= 3 / 4 -> In k [-1; 0; 1]%Z -> approx 4 (weight_quadratic_f double x k) (wt x k) /\ 0 <= wt x k <= 1.
Proof.
  intros Hx Hk. apply Rabs_le_inv in Hx.
  assert (Side : forall y, Rabs y <= 5 / 4 -> approx 4 (double (f2 double (double y) / 2)) (y ^ 2 / 2) /\ 0 <= y ^ 2 / 2 <= 1).
  { intros y Hy. assert (Y2 : 0 <= y * y <= 25 / 16) by (apply Rabs_le_inv in Hy; nra). replace (y ^ 2) with (y * y) by ring. split; [|lra].
    assert (A1 : approx 1.26 (double y) y) by (rd (5/4); [apply ap_refl|lra|exact Hy|lra]).
    assert (A2 : approx 4.8 (f2 double (double y)) (y * y)) by (unfold f2; rd (25 / 16); [apply (ap_mul 1.26 1.26 _ _ _ _ (5/4) (5/4)); try lra; assumption|lra|apply Rabs_le; lra|lra]).
    rd (25 / 32); [apply (ap_div 4.8 _ _ 2); [lra|exact A2]|lra|apply Rabs_le; lra|lra]. }
  cbn [In] in Hk. destruct Hk as [<-|[<-|[<-|[]]]]; cbn [weight_quadratic_f wt].
  - apply Side. apply Rabs_le. lra.
  - assert (X2 : 0 <= x * x <= 9 / 16) by nra. replace (x ^ 2) with (x * x) by ring. split; [|lra]. assert (A2 : approx 0.6 (f2 double x) (x * x)) by (unfold f2; rd (9 / 16); [apply ap_refl|lra|apply Rabs_le; lra|lra]).
    rd (3 / 4); [apply (ap_sub 0 0.6); [apply ap_refl|exact A2]|lra|apply Rabs_le; lra|lra].
  - apply Side. apply Rabs_le. lra.
Qed.
Lemma wt_sum x : wt x (-1) + wt x 0 + wt x 1 = 1. Proof. cbn [wt]. lra. Qed.
Definition asum (n : nat) (g : nat -> R) : R := sumR (map g (seq 0 n)).
Definition asizes (n : nat) (g : nat -> R) : R := sumR (map (fun i => Rabs (g i)) (seq 0 n)).
Lemma asizes_pos n g : 0 <= asizes n g.
Proof. unfold asizes. induction (seq 0 n) as [|i l IH]; cbn; [lra|]. assert (K := Rabs_pos (g i)). lra. Qed.
Lemma sumN_asum n g : sumN n g = asum n g.
Proof. unfold asum. induction n as [|n IH]; [reflexivity|]. rewrite seq_S, map_app, sumR_app. cbn. rewrite IH. lra. Qed.
Lemma three_moved n x d D i1 i2 i3 g : Rabs x <= 3 / 4 -> D = 0 \/ bpow radix2 (-510) <= D -> Rabs d <= D -> (forall i, is_double (g i)) -> (i1 < n)%nat -> (i2 < n)%nat -> (i3 < n)%nat ->
  let g' := puts Nat.eqb g [(i1, double (d * weight_quadratic_f double x (-1))); (i2, double (d * weight_quadratic_f double x 0)); (i3, double (d * weight_quadratic_f double x 1))] in
  (forall i, is_double (g' i)) /\ moved 3 d D (asum n g) (asizes n g) (asum n g') (asizes n g').
Proof.
  intros Hx HD Hd Hg H1 H2 H3 g'. assert (S := fun c v => fun I : In (c, v) [(i1, double (d * weight_quadratic_f double x (-1))); (i2, double (d * weight_quadratic_f double x 0)); (i3, double (d * weight_quadratic_f double x 1))] => I).
  destruct (puts_added Nat.eqb Nat.eqb_eq (seq 0 n) (seq_NoDup n 0) [(i1, double (d * weight_quadratic_f double x (-1))); (i2, double (d * weight_quadratic_f double x 0)); (i3, double (d * weight_quadratic_f double x 1))] g Hg) as [K1 K2].
  { intros c v [E|[E|[E|[]]]]; injection E as <- <-; (split; [apply in_seq; lia|apply double_double]). }
  split; [exact K1|]. cbn [map snd] in K2. exists [double (d * weight_quadratic_f double x (-1)); double (d * weight_quadratic_f double x 0); double (d * weight_quadratic_f double x 1)]. split; [cbn; lia|].
  destruct (wt_ap x (-1) Hx ltac:(cbn; tauto)) as [W1 B1]. destruct (wt_ap x 0 Hx ltac:(cbn; tauto)) as [W2 B2]. destruct (wt_ap x 1 Hx ltac:(cbn; tauto)) as [W3 B3]. assert (WS := wt_sum x).
  assert (U := u_pos). assert (UT := u_tiny). assert (PD : 0 <= D) by (assert (K := Rabs_pos d); lra). assert (UD : 0 <= u * D <= 0.0001 * D) by (split; [apply Rmult_le_pos; lra|apply Rmult_le_compat_r; lra]).
  assert (T : forall w W, 0 <= W <= 1 -> approx 4 w W -> Rabs (double (d * w) - d * W) <= 5.1 * u * D).
  { intros w W HW Hw. destruct HD as [->|HD]; [assert (d = 0) by (apply Rabs_le_inv in Hd; lra); subst d; rewrite !Rmult_0_l, double_0; replace (0 - 0) with 0 by ring; rewrite Rabs_R0; lra|].
    assert (K := times_charge_s 1 D d 4 w W 1 one_900 HD Hd ltac:(lra) ltac:(apply Rabs_le; lra) ltac:(lra)). rewrite !Rmult_1_r in K. eapply Rle_trans; [apply K; exact Hw|]. apply Rmult_le_compat_r; [exact PD|]. lra. }
  assert (T1 := T _ _ B1 W1). assert (T2 := T _ _ B2 W2). assert (T3 := T _ _ B3 W3). clear T. set (a := double (d * weight_quadratic_f double x (-1))) in *. set (b := double (d * weight_quadratic_f double x 0)) in *. set (c := double (d * weight_quadratic_f double x 1)) in *.
  split; [|split; [|exact K2]].
  - cbn [sumR]. replace (a + (b + (c + 0)) - d) with ((a - d * wt x (-1)) + ((b - d * wt x 0) + (c - d * wt x 1))) by (rewrite <- (Rmult_1_r d) at 4; rewrite <- WS; ring).
    eapply Rle_trans; [apply Rabs_triang|]. eapply Rle_trans; [apply Rplus_le_compat_l, Rabs_triang|]. lra.
  - unfold sum_abs. cbn [map sumR]. assert (G : forall v W, 0 <= W -> Rabs (v - d * W) <= 5.1 * u * D -> Rabs v <= Rabs d * W + 5.1 * u * D).
    { intros v W HW H. replace v with (d * W + (v - d * W)) by ring. eapply Rle_trans; [apply Rabs_triang|]. rewrite Rabs_mult, (Rabs_pos_eq W) by exact HW. lra. }
    apply G in T1; [|lra]. apply G in T2; [|lra]. apply G in T3; [|lra]. assert (Q : Rabs d * wt x (-1) + Rabs d * wt x 0 + Rabs d * wt x 1 = Rabs d) by (rewrite <- !Rmult_plus_distr_l, WS; ring). lra.
Qed.

(** the cell and the position in it *)
Lemma place_in_cell n h r : ordinary_step h -> (Z.of_nat n <= 2 ^ 50)%Z -> 0 <= r <= (INR n - 3) * h ->
  (0 <= cell2_f double h r <= Z.of_nat n - 3)%Z /\ Rabs (double (double (r / h) - IZR (cell2_f double h r))) <= 3 / 4.
Proof.
  intros Hh Hn [R0 R1]. assert (P := step_pos _ Hh). assert (Q : 0 <= r / h <= IZR (Z.of_nat n - 3)).
  { rewrite minus_IZR, <- INR_IZR_INZ. split; [apply Rmult_le_pos; [exact R0|left; now apply Rinv_0_lt_compat]|]. apply (Rmult_le_reg_r h); [exact P|]. unfold Rdiv. rewrite Rmult_assoc, Rinv_l by lra. lra. }
  assert (N2 : (0 <= Z.of_nat n - 3)%Z) by (apply le_IZR; lra). assert (T : 0 <= double (r / h) <= IZR (Z.of_nat n - 3)) by (split; [apply (double_ge_int _ 0); [lia|lra]|apply double_le_int; [lia|lra]]).
  unfold cell2_f. set (t := double (r / h)) in *. assert (E := round_error (t + 0.5)). set (s := double (t + 0.5)) in *. rewrite (Rabs_pos_eq (t + 0.5)) in E by lra.
  assert (T2 : t + 0.5 <= IZR (2 ^ 50)) by (apply Rle_trans with (IZR (Z.of_nat n - 2)); [rewrite !minus_IZR in *; lra|apply IZR_le; lia]).
  assert (V := u_small). replace (IZR (2 ^ 53)) with (8 * IZR (2 ^ 50)) in V by (rewrite <- mult_IZR; reflexivity). assert (U := u_pos). assert (G : u * (t + 0.5) <= u * IZR (2 ^ 50)) by (apply Rmult_le_compat_l; lra).
  assert (ET : eta <= 0.01). { unfold eta. apply Rle_trans with (bpow radix2 (-7)); [apply bpow_le; lia|]. change (bpow radix2 (-7)) with (/ 128). lra. }
  assert (S1 : Rabs (s - (t + 0.5)) <= 0.14) by lra. apply Rabs_le_inv in S1. assert (F := floorR_spec s). set (c := floorR s) in *.
  split; [split|].
  - assert (-1 < c)%Z; [|lia]. apply lt_IZR. lra.
  - assert (c < Z.of_nat n - 3 + 1)%Z; [|lia]. apply lt_IZR. rewrite plus_IZR. lra.
  - assert (X : - (3 / 4) <= t - IZR c <= 3 / 4) by lra. assert (E34 : double (3 / 4) = 3 / 4) by (replace (3 / 4) with (3 * bpow radix2 (-2)) by (change (bpow radix2 (-2)) with (/ 4); lra); apply (double_exact 3); lia).
    apply Rabs_le. split; [rewrite <- E34, <- double_opp at 1|rewrite <- E34]; apply double_mono; lra.
Qed.
Definition load_sum (l : list pl2) : R := sumR (map load2 l).
Definition tidy (n : nat) (o : dens) : Prop := (forall i, is_double (d_rho o i)) /\ (forall i, is_double (d_jz o i)) /\ d_rho o (n - 1)%nat = 0 /\ d_jz o (n - 1)%nat = 0.
Lemma load2_pos n h p : regular2 n h p -> 0 <= load2 p.
Proof. unfold load2. intros (_ & _ & _ & D & _). assert (P := bpow_gt_0 radix2 (-40)). apply Rmult_le_pos; [apply Rabs_pos|left; apply Rinv_0_lt_compat; lra]. Qed.
Lemma puts_out (g : nat -> R) l k : ~ In k (map fst l) -> puts Nat.eqb g l k = g k.
Proof.
  revert g. induction l as [|[c v] l IH]; intros g H; [reflexivity|]. cbn [puts fold_left fst snd map] in *. fold (puts Nat.eqb (put Nat.eqb g c v) l). rewrite IH by (intros I; apply H; now right). unfold put. destruct (k =? c)%nat eqn:E; [apply Nat.eqb_eq in E; subst; exfalso; apply H; now left|reflexivity].
Qed.
Lemma one2_moved n h o p : ordinary_step h -> (3 <= n)%nat -> (Z.of_nat n <= 2 ^ 50)%Z -> regular2 n h p -> tidy n o ->
  let o' := deposit_particle_f double h n o p in tidy n o' /\ exists Qr Qj, Rabs (Qr - Qj - q_ p) <= 10 * u * load2 p /\
  moved 3 Qr (1.2 * load2 p) (asum n (d_rho o)) (asizes n (d_rho o)) (asum n (d_rho o')) (asizes n (d_rho o')) /\
  moved 3 Qj (1.2 * load2 p) (asum n (d_jz o)) (asizes n (d_jz o)) (asum n (d_jz o')) (asizes n (d_jz o')).
Proof.
  intros Hh H3 Hn (Q & M & G & D & R) (T1 & T2 & T3 & T4) o'. destruct (place_in_cell n h (r_ p) Hh Hn R) as [C X].
  set (gm := sq4_f double (m_ p) (pr_ p) (pf_ p) (pz_ p)). set (dep := double (q_ p / double (gm - pz_ p))). set (drho := double (dep * gm)). set (djz := double (dep * pz_ p)). set (c := cell2_f double h (r_ p)) in *. set (x := double (double (r_ p / h) - IZR c)) in *.
  assert (Idx : exists i1 i2 i3, (i1 < n - 1)%nat /\ (i2 < n - 1)%nat /\ (i3 < n - 1)%nat /\
    d_rho o' = puts Nat.eqb (d_rho o) [(i1, double (drho * weight_quadratic_f double x (-1))); (i2, double (drho * weight_quadratic_f double x 0)); (i3, double (drho * weight_quadratic_f double x 1))] /\
    d_jz o' = puts Nat.eqb (d_jz o) [(i1, double (djz * weight_quadratic_f double x (-1))); (i2, double (djz * weight_quadratic_f double x 0)); (i3, double (djz * weight_quadratic_f double x 1))]).
  { unfold o', deposit_particle_f. cbv zeta. fold gm dep drho djz c x. assert (NE : (c =? Z.of_nat n - 1)%Z = false) by (apply Z.eqb_neq; lia). rewrite NE. cbn [andb]. destruct (c =? 0)%Z eqn:C0.
    - apply Z.eqb_eq in C0. rewrite C0. exists 1%nat, 0%nat, 1%nat. split; [lia|]. split; [lia|]. split; [lia|]. split; reflexivity.
    - apply Z.eqb_neq in C0. exists (Z.to_nat (c + -1)), (Z.to_nat (c + 0)), (Z.to_nat (c + 1)). split; [lia|]. split; [lia|]. split; [lia|]. split; reflexivity. }
  destruct Idx as (i1 & i2 & i3 & I1 & I2 & I3 & ER & EJ).
  assert (Ch : Rabs (drho - djz - q_ p) <= 10 * u * load2 p /\ Rabs drho <= 1.2 * load2 p /\ Rabs djz <= 1.2 * load2 p /\ (1.2 * load2 p = 0 \/ bpow radix2 (-510) <= 1.2 * load2 p)).
  { destruct Q as [Q|Q].
    - assert (DE : dep = 0) by (unfold dep; rewrite Q; unfold Rdiv; rewrite Rmult_0_l; apply double_0). assert (L0 : load2 p = 0) by (unfold load2; rewrite Q, Rabs_R0; unfold Rdiv; lra). unfold drho, djz. rewrite DE, Q, L0, !Rmult_0_l, double_0, !Rmult_0_r, !Rminus_0_r, Rabs_R0. repeat split; try lra; left; lra.
    - unfold energy2 in G, D. destruct (two_charges (m_ p) (pr_ p) (pf_ p) (pz_ p) (q_ p) M G D Q) as (A1 & A2 & A3 & A4). fold (energy2 p) in A1, A2, A3, A4. fold (load2 p) in A1, A2, A3, A4. split; [exact A1|]. split; [exact A2|]. split; [exact A3|]. right.
      assert (bpow radix2 (-510) <= bpow radix2 (-505)) by (apply bpow_le; lia). assert (P := bpow_gt_0 radix2 (-505)). lra. }
  destruct Ch as (C1 & C2 & C3 & C4).
  destruct (three_moved n x drho (1.2 * load2 p) i1 i2 i3 (d_rho o) X C4 C2 T1 ltac:(lia) ltac:(lia) ltac:(lia)) as [DR MR]. destruct (three_moved n x djz (1.2 * load2 p) i1 i2 i3 (d_jz o) X C4 C3 T2 ltac:(lia) ltac:(lia) ltac:(lia)) as [DJ MJ]. cbv zeta in DR, MR, DJ, MJ. rewrite <- ER in DR, MR. rewrite <- EJ in DJ, MJ.
  split; [|exists drho, djz; split; [exact C1|]; split; [exact MR|exact MJ]].
  split; [exact DR|]. split; [exact DJ|]. split; [rewrite ER, puts_out; [exact T3|]|rewrite EJ, puts_out; [exact T4|]]; cbn [map fst In]; lia.
Qed.
Lemma all2_moved n h : ordinary_step h -> (3 <= n)%nat -> (Z.of_nat n <= 2 ^ 50)%Z -> forall l o, (forall p, In p l -> regular2 n h p) -> tidy n o ->
  let o' := fold_left (deposit_particle_f double h n) l o in tidy n o' /\ exists Qr Qj, Rabs (Qr - Qj - sumR (map q_ l)) <= 10 * u * load_sum l /\
  moved (3 * length l) Qr (1.2 * load_sum l) (asum n (d_rho o)) (asizes n (d_rho o)) (asum n (d_rho o')) (asizes n (d_rho o')) /\
  moved (3 * length l) Qj (1.2 * load_sum l) (asum n (d_jz o)) (asizes n (d_jz o)) (asum n (d_jz o')) (asizes n (d_jz o')).
Proof.
  intros Hh H3 Hn. induction l as [|p l IH]; intros o Hl Ho o'.
  - split; [exact Ho|]. exists 0, 0. unfold load_sum. cbn [map sumR length Nat.mul fold_left] in *. rewrite !Rmult_0_r, !Rminus_0_r, Rabs_R0. split; [lra|]. split; apply moved_nil.
  - destruct (one2_moved n h o p Hh H3 Hn (Hl p (or_introl eq_refl)) Ho) as (T & Qr & Qj & C & M1 & M2). destruct (IH _ (fun q I => Hl q (or_intror I)) T) as (T' & Qr' & Qj' & C' & M1' & M2'). cbv zeta in M1', M2'.
    split; [exact T'|]. exists (Qr + Qr'), (Qj + Qj'). replace (3 * length (p :: l))%nat with (3 + 3 * length l)%nat by (cbn [length]; lia). unfold load_sum in *. cbn [map sumR fold_left] in *. rewrite !Rmult_plus_distr_l.
    split; [|split; (eapply moved_app; [apply asizes_pos| |]; [first [exact M1|exact M2]|first [exact M1'|exact M2']])].
    replace (Qr + Qr' - (Qj + Qj') - (q_ p + sumR (map q_ l))) with ((Qr - Qj - q_ p) + (Qr' - Qj' - sumR (map q_ l))) by ring. eapply Rle_trans; [apply Rabs_triang|]. lra.
Qed.
(** division by the volumes *)
Lemma per_cell v vf x : rel 20 vf v -> Rabs (v * double (x / vf) - x) <= 22 * u * Rabs x + v * eta.
Proof.
  intros [P H]. assert (U := u_pos). assert (UT := u_tiny). apply Rabs_le_inv in H. assert (UV : u * v <= 0.0001 * v) by (apply Rmult_le_compat_r; lra). assert (VF : 0.99 * v <= vf <= 1.01 * v) by lra. assert (E := round_error (x / vf)).
  assert (RV : Rabs (v / vf - 1) <= 20.5 * u). { replace (v / vf - 1) with ((v - vf) / vf) by (field; lra). unfold Rdiv. rewrite Rabs_mult, (Rabs_pos_eq (/ vf)) by (left; apply Rinv_0_lt_compat; lra). apply (Rmult_le_reg_r vf); [lra|]. rewrite Rmult_assoc, Rinv_l, Rmult_1_r by lra. assert (20.5 * u * (0.99 * v) <= 20.5 * u * vf) by (apply Rmult_le_compat_l; lra). assert (0 <= u * v) by (apply Rmult_le_pos; lra). apply Rabs_le. split; lra. }
  replace (v * double (x / vf) - x) with (v * (double (x / vf) - x / vf) + x * (v / vf - 1)) by (field; lra). eapply Rle_trans; [apply Rabs_triang|]. rewrite !Rabs_mult, (Rabs_pos_eq v) by lra. assert (X := Rabs_pos x).
  assert (K1 : v * Rabs (double (x / vf) - x / vf) <= v * (u * Rabs (x / vf) + eta)) by (apply Rmult_le_compat_l; lra).
  assert (K2 : v * Rabs (x / vf) <= 1.1 * Rabs x). { rewrite <- (Rabs_pos_eq v) at 1 by lra. rewrite <- Rabs_mult. replace (v * (x / vf)) with (x * (v / vf)) by (field; lra). rewrite Rabs_mult. apply Rabs_le_inv in RV. assert (Rabs (v / vf) <= 1.1) by (apply Rabs_le; lra). rewrite (Rmult_comm 1.1). apply Rmult_le_compat_l; lra. }
  assert (K3 : Rabs x * Rabs (v / vf - 1) <= Rabs x * (20.5 * u)) by (apply Rmult_le_compat_l; lra). assert (K4 : u * (v * Rabs (x / vf)) <= u * (1.1 * Rabs x)) by (apply Rmult_le_compat_l; lra). assert (0 <= u * Rabs x) by (apply Rmult_le_pos; lra). lra.
Qed.
Lemma per_cells (v vf : nat -> R) B n g : (forall i, (i < n)%nat -> rel 20 (vf i) (v i) /\ v i <= B) -> Rabs (asum n (fun i => v i * double (g i / vf i)) - asum n g) <= 22 * u * asizes n g + INR n * (B * eta).
Proof.
  intros H. assert (EP := eta_pos). assert (W : forall l, (forall i, In i l -> (i < n)%nat) -> Rabs (sumR (map (fun i => v i * double (g i / vf i)) l) - sumR (map g l)) <= 22 * u * sumR (map (fun i => Rabs (g i)) l) + INR (length l) * (B * eta)).
  { induction l as [|i l IH]; intros Hl; [cbn; rewrite Rminus_0_r, Rabs_R0; lra|]. specialize (IH (fun j I => Hl j (or_intror I))). destruct (H i (Hl i (or_introl eq_refl))) as [R VB]. assert (K := per_cell _ _ (g i) R). cbn [map sumR length]. rewrite S_INR.
    replace (v i * double (g i / vf i) + sumR (map (fun i0 => v i0 * double (g i0 / vf i0)) l) - (g i + sumR (map g l))) with ((v i * double (g i / vf i) - g i) + (sumR (map (fun i0 => v i0 * double (g i0 / vf i0)) l) - sumR (map g l))) by ring.
    eapply Rle_trans; [apply Rabs_triang|]. assert (v i * eta <= B * eta) by (apply Rmult_le_compat_r; lra). lra. }
  assert (K := W (seq 0 n) ltac:(intros i I; apply in_seq in I; lia)). rewrite seq_length in K. exact K.
Qed.

(** The charge density of the 2D plasma minus its current along z stands for the charge of the particles, up to rounding. *)
Theorem C74_2d_plasma_charge : forall h ppc n l, ordinary_step h -> (1 <= ppc)%nat -> (Z.of_nat ppc <= 2 ^ 50)%Z -> (3 <= n)%nat -> (Z.of_nat n <= 2 ^ 50)%Z -> (3 * Z.of_nat (length l) <= 2 ^ 52)%Z ->
  (forall p, In p l -> regular2 n h p) ->
  let d := per_volume_f double (cell_volume_f double h ppc n) (deposit2_f double h n l) in
  Rabs (grid_total n (cell_volume h ppc n) (fun i => d_rho d i - d_jz d i) - total_of q_ l)
    <= (2300 + 31 * INR (length l)) * rounding * total_of load2 l + 20 * INR n ^ 2 * h ^ 2 * underflow.
Proof.
  intros h ppc n l Hh P1 P2 H3 Hn Hc Hl d. rewrite rounding_u. change underflow with eta.
  assert (T0 : tidy n zero_dens) by (split; [intros i; apply double_0|]; split; [intros i; apply double_0|]; split; reflexivity).
  destruct (all2_moved n h Hh H3 Hn l zero_dens Hl T0) as ((_ & _ & Z1 & Z2) & Qr & Qj & C & M1 & M2). set (o := fold_left (deposit_particle_f double h n) l zero_dens) in *. cbn [d_rho d_jz zero_dens] in M1, M2.
  assert (A0 : asum n zeros = 0) by (unfold asum; induction (seq 0 n) as [|i s IH]; cbn; [lra|rewrite IH; unfold zeros; lra]). assert (A1 : asizes n zeros = 0) by (unfold asizes; induction (seq 0 n) as [|i s IH]; cbn; [lra|rewrite IH; unfold zeros; rewrite Rabs_R0; lra]).
  rewrite A0, A1 in M1, M2. assert (LP : 0 <= load_sum l). { unfold load_sum. clear - Hl. induction l as [|p l IH]; cbn; [lra|]. assert (K := load2_pos n h p (Hl p (or_introl eq_refl))). assert (K2 := IH (fun q I => Hl q (or_intror I))). lra. }
  destruct (moved_total (3 * length l) _ (1.2 * load_sum l) _ _ _ _ (Rle_refl 0) ltac:(lra) ltac:(lia) M1) as [B1 S1]. destruct (moved_total (3 * length l) _ (1.2 * load_sum l) _ _ _ _ (Rle_refl 0) ltac:(lra) ltac:(lia) M2) as [B2 S2].
  assert (HP := step_pos _ Hh). assert (VV : forall i, (i < n)%nat -> rel 20 (cell_volume_f double h ppc n i) (cell_volume h ppc n i) /\ cell_volume h ppc n i <= 10 * h ^ 2 * INR n).
  { intros i Hi. split; [now apply volume_rel|]. now apply volume_range. }
  assert (V1 := per_cells _ _ _ n (d_rho o) VV). assert (V2 := per_cells _ _ _ n (d_jz o) VV).
  assert (ED : grid_total n (cell_volume h ppc n) (fun i => d_rho d i - d_jz d i) = asum n (fun i => cell_volume h ppc n i * double (d_rho o i / cell_volume_f double h ppc n i)) - asum n (fun i => cell_volume h ppc n i * double (d_jz o i / cell_volume_f double h ppc n i))).
  { unfold grid_total. rewrite sumN_asum. unfold d, deposit2_f, per_volume_f, close_ends. fold o. cbn [d_rho d_jz]. assert (EJ : forall i, set_at (d_jz o) (n - 1) 0 i = d_jz o i) by (intros i; unfold set_at; destruct (Nat.eqb i (n - 1)) eqn:E; [apply Nat.eqb_eq in E; subst i; now rewrite Z2|reflexivity]).
    unfold asum. clear - EJ. induction (seq 0 n) as [|i s IH]; cbn; [lra|]. rewrite IH, EJ. lra. }
  rewrite ED. clear ED. fold (load_sum l). change (total_of load2 l) with (load_sum l). unfold total_of. rewrite Rminus_0_r, Rplus_0_l in B1, B2. rewrite Rplus_0_l in S1, S2. rewrite mult_INR in B1, B2. replace (INR 3) with 3 in B1, B2 by (cbn; lra).
  set (k := INR (length l)) in *. assert (Hk : 0 <= k) by apply pos_INR. set (L := load_sum l) in *. assert (U := u_pos). set (X1 := asum n (fun i => cell_volume h ppc n i * double (d_rho o i / cell_volume_f double h ppc n i))) in *. set (X2 := asum n (fun i => cell_volume h ppc n i * double (d_jz o i / cell_volume_f double h ppc n i))) in *.
  replace (X1 - X2 - sumR (map q_ l)) with ((X1 - asum n (d_rho o)) + - (X2 - asum n (d_jz o)) + ((asum n (d_rho o) - Qr) + - (asum n (d_jz o) - Qj)) + (Qr - Qj - sumR (map q_ l))) by ring.
  eapply Rle_trans; [apply Rabs_triang|]. eapply Rle_trans; [apply Rplus_le_compat_r; eapply Rle_trans; [apply Rabs_triang|]; apply Rplus_le_compat; apply Rabs_triang|]. rewrite !Rabs_Ropp.
  assert (F1 : 22 * u * asizes n (d_rho o) <= 22 * u * (4.2 * (1.2 * L))) by (apply Rmult_le_compat_l; lra). assert (F2 : 22 * u * asizes n (d_jz o) <= 22 * u * (4.2 * (1.2 * L))) by (apply Rmult_le_compat_l; lra).
  assert (G : 0 <= u * L) by (apply Rmult_le_pos; lra). assert (G2 : 0 <= k * (u * L)) by (apply Rmult_le_pos; lra). replace (20 * INR n ^ 2 * h ^ 2 * eta) with (2 * (INR n * (10 * h ^ 2 * INR n * eta))) by ring. lra.
Qed.


(** Particles that meet the conditions: one moves with the wave at pz/gamma = 3/5, one is at rest on the axis. *)
Definition case_plasma2 : list pl2 := [mkPl (1/3) 0 0 (3/4) (-1) 1 0; mkPl 0 0 0 0 (1/3) 1 0].
Example C74_2d_plasma_case : (forall p, In p case_plasma2 -> regular2 8 (1/2) p) /\
  let d := per_volume_f double (cell_volume_f double (1/2) 10 8) (deposit2_f double (1/2) 8 case_plasma2) in
  Rabs (grid_total 8 (cell_volume (1/2) 10 8) (fun i => d_rho d i - d_jz d i) - (-1 + 1/3)) <= 10000 * rounding.
Proof.
  assert (E1 : energy2 (mkPl (1/3) 0 0 (3/4) (-1) 1 0) = 5/4) by (unfold energy2; cbn [m_ pr_ pf_ pz_]; replace (1 ^ 2 + 0 ^ 2 + 0 ^ 2 + (3/4) ^ 2) with ((5/4) ^ 2) by lra; apply sqrt_pow2; lra).
  assert (E2 : energy2 (mkPl 0 0 0 0 (1/3) 1 0) = 1) by (unfold energy2; cbn [m_ pr_ pf_ pz_]; replace (1 ^ 2 + 0 ^ 2 + 0 ^ 2 + 0 ^ 2) with (1 ^ 2) by lra; apply sqrt_pow2; lra).
  assert (S1 : bpow radix2 (-100) <= 1) by (change 1 with (bpow radix2 0); apply bpow_le; lia). assert (S2 : 2 <= bpow radix2 300) by (change 2 with (bpow radix2 1); apply bpow_le; lia). assert (S3 : bpow radix2 (-40) <= / 4) by (change (/ 4) with (bpow radix2 (-2)); apply bpow_le; lia).
  assert (A : forall p, In p case_plasma2 -> regular2 8 (1/2) p).
  { assert (I8 : INR 8 = 8) by (cbn; lra). intros p [<-|[<-|[]]]; unfold regular2; rewrite ?E1, ?E2, I8; cbn [q_ m_ pz_ r_].
    - split; [right; apply case_ordinary; rewrite Rabs_left; lra|]. split; [exact S1|]. split; [lra|]. split; lra.
    - split; [right; apply case_ordinary; rewrite Rabs_pos_eq; lra|]. split; [exact S1|]. split; [lra|]. split; lra. }
  split; [exact A|]. assert (K := C74_2d_plasma_charge (1/2) 10 8 case_plasma2 case_step ltac:(lia) ltac:(cbn; lia) ltac:(lia) ltac:(cbn; lia) ltac:(cbn; lia) A). cbv zeta in *.
  unfold total_of in K. cbn [case_plasma2 map sumR q_ length] in K. unfold load2 in K. rewrite E1, E2 in K. cbn [q_ pz_] in K. rewrite (Rabs_left (-1)), (Rabs_pos_eq (1/3)) in K by lra. fold case_plasma2 in K.
  match type of K with Rabs (?a - ?b) <= _ => replace b with (-1 + 1/3) in K by lra end. eapply Rle_trans; [exact K|]. replace (INR 2) with 2 by reflexivity. replace (INR 8) with 8 by (cbn; lra). assert (UN : underflow <= rounding) by (apply bpow_le; lia). assert (U := u_pos). rewrite rounding_u in *.
  replace (- -1 / (1 - 3 / 4 / (5 / 4)) + (1 / 3 / (1 - 0 / 1) + 0)) with (5/2 + 1/3) by field. lra.
Qed.

Print Assumptions C74_2d_plasma_charge.
