(** Theorems C75, continued: each node of the 2D plasma densities in binary64. *)
From Coq Require Import Reals ZArith List Bool Lra Lia Psatz FunctionalExtensionality.
From Flocq Require Import Core.
From Verif Require Import Float_Model Float_Proofs Beam2D_Model Beam2D_Spec Beam2D_Free Plasma2D_Model Plasma2D_Spec Rounded3D_Model Rounded2D_Model RoundedBeam_Spec RoundedSum_Proofs RoundedWeight_Proofs RoundedDep_Spec RoundedDep_Proofs RoundedCell_Proofs Props_RoundedDep RoundedPlasma_Proofs Props_RoundedPlasma2 Props_RoundedCell.
Import ListNotations.
Open Scope R_scope.

(** ** The quadratic spline *)
Definition thr : list Z := [-1; 0; 1]%Z.
Lemma wt_spline x k : - (1/2) <= x <= 1/2 -> In k thr -> wt x k = spline2 (x - IZR k).
Proof.
  intros Hx Hk. unfold spline2. cbn [thr In] in Hk. destruct Hk as [<-|[<-|[<-|[]]]]; cbn [wt].
  - replace (x - -1) with (x + 1) by ring. rewrite (Rabs_pos_eq (x + 1)) by lra. destruct (Rle_dec (x + 1) (1/2)); [assert (x = - (1/2)) by lra; subst; lra|]. destruct (Rle_dec (x + 1) (3/2)); [|lra]. replace (3 / 2 - (x + 1)) with (- (x - 1/2)) by lra. lra.
  - rewrite Rminus_0_r. destruct (Rle_dec (Rabs x) (1/2)) as [|N]; [reflexivity|]. exfalso. apply N. apply Rabs_le. lra.
  - rewrite (Rabs_left1 (x - 1)) by lra. destruct (Rle_dec (- (x - 1)) (1/2)); [assert (x = 1/2) by lra; subst; lra|]. destruct (Rle_dec (- (x - 1)) (3/2)); [|lra]. replace (3 / 2 - - (x - 1)) with (x + 1/2) by lra. lra.
Qed.
Lemma spline2_out t : 3/2 <= Rabs t -> spline2 t = 0.
Proof. intros H. unfold spline2. destruct (Rle_dec (Rabs t) (1/2)); [lra|]. destruct (Rle_dec (Rabs t) (3/2)); [|reflexivity]. replace (3/2 - Rabs t) with 0 by lra. lra. Qed.
Lemma wt_lip x y k : Rabs x <= 3/4 -> Rabs y <= 3/4 -> In k thr -> Rabs (wt x k - wt y k) <= 1.5 * Rabs (x - y).
Proof.
  intros Hx Hy Hk. apply Rabs_le_inv in Hx, Hy. assert (K : exists c, wt x k - wt y k = (x - y) * c /\ -1.5 <= c <= 1.5).
  { cbn [thr In] in Hk. destruct Hk as [<-|[<-|[<-|[]]]]; cbn [wt]; [exists ((x + y - 1) / 2)|exists (- (x + y))|exists ((x + y + 1) / 2)]; split; lra. }
  destruct K as (c & -> & Hc). rewrite Rabs_mult. assert (Rabs c <= 1.5) by (apply Rabs_le; lra). assert (P := Rabs_pos (x - y)). nra.
Qed.
Lemma wt_lip1 x y k : - (1/2) <= x <= 1/2 -> - (1/2) <= y <= 1/2 -> In k thr -> Rabs (wt x k - wt y k) <= Rabs (x - y).
Proof.
  intros Hx Hy Hk. assert (K : exists c, wt x k - wt y k = (x - y) * c /\ -1 <= c <= 1).
  { cbn [thr In] in Hk. destruct Hk as [<-|[<-|[<-|[]]]]; cbn [wt]; [exists ((x + y - 1) / 2)|exists (- (x + y))|exists ((x + y + 1) / 2)]; split; lra. }
  destruct K as (c & -> & Hc). rewrite Rabs_mult. assert (Rabs c <= 1) by (apply Rabs_le; lra). assert (P := Rabs_pos (x - y)). nra.
Qed.
Definition near3 (k : Z) : bool := ((-1 <=? k) && (k <=? 1))%Z.
Lemma near3_in k : near3 k = true <-> In k thr.
Proof. unfold near3. rewrite andb_true_iff, !Z.leb_le. cbn. lia. Qed.
Lemma near3_out k : near3 k = false -> (k <= -2 \/ 2 <= k)%Z.
Proof. unfold near3. rewrite andb_false_iff, !Z.leb_gt. lia. Qed.
Definition ext3 (w : Z -> R) (k : Z) : R := if near3 k then w k else 0.
Lemma ext3_spline x k : - (1/2) <= x <= 1/2 -> ext3 (wt x) k = spline2 (x - IZR k).
Proof.
  intros Hx. unfold ext3. destruct (near3 k) eqn:E; [apply wt_spline; [exact Hx|now apply near3_in]|]. symmetry. apply spline2_out. apply near3_out in E. destruct E as [E|E]; apply IZR_le in E; [rewrite Rabs_pos_eq by lra|rewrite Rabs_left by lra]; lra.
Qed.
Lemma spline2_piece k s t : IZR k - 1/2 <= s <= IZR k + 1/2 -> IZR k - 1/2 <= t <= IZR k + 1/2 -> Rabs (spline2 s - spline2 t) <= Rabs (s - t).
Proof.
  intros Hs Ht. replace (spline2 s) with (ext3 (wt (s - IZR k)) (- k)) by (rewrite ext3_spline by lra; rewrite opp_IZR; f_equal; ring). replace (spline2 t) with (ext3 (wt (t - IZR k)) (- k)) by (rewrite ext3_spline by lra; rewrite opp_IZR; f_equal; ring).
  unfold ext3. destruct (near3 (- k)) eqn:E.
  - apply near3_in in E. eapply Rle_trans; [apply wt_lip1; try lra; exact E|]. replace (s - IZR k - (t - IZR k)) with (s - t) by ring. lra.
  - replace (0 - 0) with 0 by ring. rewrite Rabs_R0. apply Rabs_pos.
Qed.
Lemma spline2_lip s t : Rabs (s - t) <= 1 -> Rabs (spline2 s - spline2 t) <= Rabs (s - t).
Proof.
  assert (M : forall s t, s <= t -> t - s <= 1 -> Rabs (spline2 s - spline2 t) <= t - s).
  { clear. intros s t L H. assert (F := floorR_spec (s + 1/2)). set (k := floorR (s + 1/2)) in *. destruct (Rle_dec t (IZR k + 1/2)) as [T|T].
    - eapply Rle_trans; [apply (spline2_piece k); lra|]. rewrite (Rabs_minus_sym s t), Rabs_pos_eq by lra. lra.
    - set (b := IZR k + 1/2) in *. replace (spline2 s - spline2 t) with ((spline2 s - spline2 b) + (spline2 b - spline2 t)) by ring. eapply Rle_trans; [apply Rabs_triang|].
      assert (A := spline2_piece k s b ltac:(unfold b; lra) ltac:(unfold b; lra)). assert (B := spline2_piece (k + 1) b t ltac:(rewrite plus_IZR; unfold b; lra) ltac:(rewrite plus_IZR; unfold b in *; lra)).
      rewrite (Rabs_minus_sym s b), (Rabs_pos_eq (b - s)) in A by (unfold b; lra). rewrite (Rabs_minus_sym b t), (Rabs_pos_eq (t - b)) in B by lra. lra. }
  intros H. destruct (Rle_dec s t) as [L|L].
  - rewrite (Rabs_minus_sym s), (Rabs_pos_eq (t - s)) in * by lra. apply M; lra.
  - rewrite (Rabs_pos_eq (s - t)) in * by lra. rewrite Rabs_minus_sym. apply M; lra.
Qed.
Lemma spline2_range s : 0 <= spline2 s <= 1.
Proof.
  assert (F := floorR_spec (s + 1/2)). set (k := floorR (s + 1/2)) in *. replace (spline2 s) with (ext3 (wt (s - IZR k)) (- k)) by (rewrite ext3_spline by lra; rewrite opp_IZR; f_equal; ring).
  unfold ext3. destruct (near3 (- k)) eqn:E; [|lra]. apply near3_in in E. apply (wt_ap (s - IZR k) (- k)); [apply Rabs_le; lra|exact E].
Qed.
(** the position in the cell, slightly out of it perhaps, and the weights *)
Lemma ext3_near c x rho z d e : Rabs x <= 1/2 + d -> 0 <= d <= / 5 -> Rabs (x + IZR c - rho) <= e -> e <= / 5 -> Rabs (ext3 (wt x) (z - c) - spline2 (rho - IZR z)) <= 2.5 * d + e.
Proof.
  intros Hx Hd He He1. apply Rabs_le_inv in Hx. set (x' := Rmax (- (1/2)) (Rmin (1/2) x)). assert (X1 : - (1/2) <= x' <= 1/2) by (unfold x', Rmax, Rmin; repeat destruct (Rle_dec _ _); lra).
  assert (X2 : Rabs (x - x') <= d) by (unfold x', Rmax, Rmin; repeat destruct (Rle_dec _ _); apply Rabs_le; lra).
  assert (A : Rabs (ext3 (wt x) (z - c) - ext3 (wt x') (z - c)) <= 1.5 * d). { unfold ext3. destruct (near3 (z - c)) eqn:E; [|replace (0 - 0) with 0 by ring; rewrite Rabs_R0; lra]. apply near3_in in E. eapply Rle_trans; [apply wt_lip; [apply Rabs_le; lra|apply Rabs_le; lra|exact E]|]. lra. }
  rewrite (ext3_spline x') in A by exact X1. rewrite minus_IZR in A. assert (D : Rabs (x' - (IZR z - IZR c) - (rho - IZR z)) <= d + e).
  { replace (x' - (IZR z - IZR c) - (rho - IZR z)) with ((x + IZR c - rho) + - (x - x')) by ring. eapply Rle_trans; [apply Rabs_triang|]. rewrite Rabs_Ropp. lra. }
  assert (B := spline2_lip (x' - (IZR z - IZR c)) (rho - IZR z) ltac:(lra)). set (v := ext3 (wt x) (z - c)) in *.
  replace (v - spline2 (rho - IZR z)) with ((v - spline2 (x' - (IZR z - IZR c))) + (spline2 (x' - (IZR z - IZR c)) - spline2 (rho - IZR z))) by ring. eapply Rle_trans; [apply Rabs_triang|]. lra.
Qed.
Lemma place_close n h r : ordinary_step h -> (Z.of_nat n <= 2 ^ 46)%Z -> 0 <= r <= (INR n - 3) * h ->
  let c := cell2_f double h r in let x := double (double (r / h) - IZR c) in
  Rabs x <= 1/2 + (2 * INR n + 2) * u /\ Rabs (x + IZR c - r / h) <= (INR n + 1) * u.
Proof.
  intros Hh Hn [R0 R1] c x. assert (P := step_pos _ Hh). assert (U := u_pos). assert (UT := u_tiny). assert (Et := eta_u). destruct (place_in_cell n h r Hh ltac:(lia) (conj R0 R1)) as [C X]. fold c in C, X. fold x in X.
  assert (Q : 0 <= r / h <= INR n - 3). { split; [apply Rmult_le_pos; [exact R0|left; now apply Rinv_0_lt_compat]|]. apply (Rmult_le_reg_r h); [exact P|]. unfold Rdiv. rewrite Rmult_assoc, Rinv_l by lra. lra. }
  assert (Nu : INR n * u <= / 100). { assert (A : INR n <= IZR (2 ^ 46)) by (rewrite INR_IZR_INZ; apply IZR_le; lia). assert (V := u_small). replace (IZR (2 ^ 53)) with (128 * IZR (2 ^ 46)) in V by (rewrite <- mult_IZR; reflexivity). nra. }
  assert (E1 := round_error (r / h)). set (t := double (r / h)) in *. rewrite (Rabs_pos_eq (r / h)) in E1 by lra. assert (K1 : u * (r / h) <= u * (INR n - 3)) by (apply Rmult_le_compat_l; lra).
  assert (T0 : 0 <= t) by (apply (double_ge_int _ 0); [lia|lra]). assert (E1' := E1). apply Rabs_le_inv in E1'. assert (E2 := round_error (t + 0.5)). rewrite (Rabs_pos_eq (t + 0.5)) in E2 by lra. assert (K2 : u * (t + 0.5) <= u * (INR n - 2)) by (apply Rmult_le_compat_l; lra).
  assert (F := floorR_spec (double (t + 0.5))). change (floorR (double (t + 0.5))) with c in F. apply Rabs_le_inv in E2. assert (E3 := round_error (t - IZR c)). fold x in E3.
  assert (B : Rabs (t - IZR c) <= 1/2 + (INR n - 1.9) * u) by (apply Rabs_le; lra). assert (B1 : Rabs (t - IZR c) <= 0.6) by (eapply Rle_trans; [exact B|]; lra). assert (K3 : u * Rabs (t - IZR c) <= u * 0.6) by (apply Rmult_le_compat_l; lra).
  split.
  - replace x with ((x - (t - IZR c)) + (t - IZR c)) by ring. eapply Rle_trans; [apply Rabs_triang|]. assert (0 <= INR n * u) by (apply Rmult_le_pos; [apply pos_INR|lra]). lra.
  - replace (x + IZR c - r / h) with ((x - (t - IZR c)) + (t - r / h)) by ring. eapply Rle_trans; [apply Rabs_triang|]. lra.
Qed.

(** ** The charge and the currents of a particle *)
Definition stretch2 (p : pl2) : R := Rabs (q_ p) / (1 - pz_ p / energy2 p) ^ 2.
Section Charges2.
  Variables (m pr pf pz q : R).
  Let A := m ^ 2 + pr ^ 2 + pf ^ 2 + pz ^ 2.
  Hypotheses (Hm : bpow radix2 (-100) <= m) (HG : sqrt A <= bpow radix2 300) (Hd : bpow radix2 (-40) <= 1 - pz / sqrt A) (Hq : bpow radix2 (-500) <= Rabs q).
  Let dr := 1 - pz / sqrt A.
  Let D := Rabs q / dr.
  Let S := Rabs q / dr ^ 2.
  Let gm := gamma_a double m pr pf pz.
  Let den := double (gm - pz).
  Let dep := double (q / den).
  Lemma charges2 : bpow radix2 (-510) <= 1.2 * D /\ D <= 2 * S /\ 0 <= S /\ Rabs (q * sqrt A / (sqrt A - pz)) <= D /\ Rabs (double (dep * gm)) <= 1.2 * D /\ Rabs (double (dep * gm) - q * sqrt A / (sqrt A - pz)) <= 36 * u * S /\
    forall c, c ^ 2 <= A -> Rabs (q * c / (sqrt A - pz)) <= D /\ Rabs (double (dep * c)) <= 1.2 * D /\ Rabs (double (dep * c) - q * c / (sqrt A - pz)) <= 36 * u * S.
  Proof.
    assert (EB := E_big m pr pf pz Hm). fold A in EB. assert (P0 := bpow_gt_0 radix2 (-100)). assert (P1 := bpow_gt_0 radix2 (-40)). assert (P2 := bpow_gt_0 radix2 (-505)). assert (DB := D_big m pr pf pz Hm Hd q Hq). fold A dr D in DB. assert (DR := dr_pos m pr pf pz Hm Hd). fold A dr in DR. assert (DS := D_scale m pr pf pz Hm Hd q Hq). fold A dr D in DS.
    assert (G := gamma_ap m pr pf pz Hm). fold A gm in G. assert (SG := sg_range m pr pf pz Hm). fold A in SG. assert (A0 : 0 <= A) by (unfold A; nra). assert (SQ := sqrt_sqrt A A0).
    set (E := sqrt A) in *. assert (U := u_pos). assert (UT := u_tiny). assert (QD : Rabs q = D * dr) by (unfold D; field; lra).
    assert (DPP : 0 < D) by lra. assert (SD : D = S * dr) by (unfold D, S; field; lra). assert (S0 : 0 < S) by (apply (Rmult_lt_reg_r dr); lra). assert (D2 : D <= 2 * S) by (rewrite SD; nra).
    assert (UD : u <= / 8192 * dr). { apply Rle_trans with (/ 8192 * bpow radix2 (-40)); [|apply Rmult_le_compat_l; [lra|exact Hd]]. change (/ 8192) with (bpow radix2 (-13)). rewrite <- bpow_plus. apply Rle_refl. }
    assert (GE : Rabs (gm - E) <= 9.1 * u * E). { unfold approx in G. replace (gm - E) with ((gm * / E - 1) * E) by (field; lra). rewrite Rabs_mult, (Rabs_pos_eq E) by lra. apply Rmult_le_compat_r; lra. }
    assert (GE' := GE). apply Rabs_le_inv in GE'. assert (EDR : E - pz = E * dr) by (unfold dr; field; lra). assert (EP : 0 < E * dr) by (apply Rmult_lt_0_compat; lra).
    assert (UE : u * E <= / 8192 * dr * E) by (apply Rmult_le_compat_r; lra). set (X := gm - pz) in *. assert (X1 : 0.998 * (E * dr) <= X <= 1.002 * (E * dr)) by (unfold X; lra).
    assert (XB : bpow radix2 (-142) <= X). { apply Rle_trans with (0.5 * (E * dr)); [|lra]. apply Rle_trans with (bpow radix2 (-1) * (bpow radix2 (-100) * bpow radix2 (-40))); [rewrite <- !bpow_plus; apply bpow_le; lia|]. change (bpow radix2 (-1)) with (/ 2). assert (bpow radix2 (-100) * bpow radix2 (-40) <= E * dr) by (apply Rmult_le_compat; try lra; exact Hd). lra. }
    destruct (rel_round 0 X X ltac:(lra) (big_900 (-142) X ltac:(lia) XB) (rel_refl X ltac:(lra))) as [_ DN]. fold den in DN. apply Rabs_le_inv in DN. assert (UX : u * X <= 0.0001 * X) by (apply Rmult_le_compat_r; lra).
    assert (D0 : 0.997 * (E * dr) <= den <= 1.003 * (E * dr)) by lra. assert (dp : 0 < den) by lra. assert (E2 : E * dr <= E * 2) by (apply Rmult_le_compat_l; lra).
    assert (UX2 : u * X <= u * (2.01 * E)) by (apply Rmult_le_compat_l; lra). assert (DD : Rabs (E * dr - den) <= 11.3 * u * E) by (apply Rabs_le; unfold X in *; lra).
    assert (QN : Rabs (q / den) * E <= 1.004 * D). { unfold Rdiv. rewrite Rabs_mult, (Rabs_pos_eq (/ den)) by (left; now apply Rinv_0_lt_compat). rewrite QD. apply (Rmult_le_reg_r den); [exact dp|]. replace (D * dr * / den * E * den) with (D * (E * dr)) by (field; lra). assert (D * (0.997 * (E * dr)) <= D * den) by (apply Rmult_le_compat_l; lra). assert (0 <= D * (E * dr)) by (apply Rmult_le_pos; lra). lra. }
    assert (ET : forall s, 0 < s -> s <= bpow radix2 900 -> eta <= u * / 10000 * / s). { intros s S1 S2. assert (K := eta_small s (conj S1 S2)). apply (Rmult_le_reg_r s); [exact S1|]. rewrite Rmult_assoc, Rinv_l by lra. lra. }
    assert (EtaD : eta <= u * / 10000 * D). { rewrite <- (Rinv_inv D) at 1. apply ET; [lra|]. eapply Rle_trans; [apply DS|]. apply bpow_le. lia. }
    assert (EtaE : eta * E <= u * / 10000 * D). { assert (K := ET (E / D) ltac:(apply Rmult_lt_0_compat; lra) ltac:(apply Rle_trans with (bpow radix2 300 * bpow radix2 510); [apply Rmult_le_compat; lra|]; rewrite <- bpow_plus; apply bpow_le; lia)). rewrite Rinv_div in K. assert (K2 : eta * E <= u * / 10000 * (D / E) * E) by (apply Rmult_le_compat_r; lra). replace (u * / 10000 * (D / E) * E) with (u * / 10000 * D) in K2 by (field; lra). exact K2. }
    assert (R1 := round_error (q / den)). fold dep in R1. assert (R1E : Rabs (dep - q / den) * E <= (u * Rabs (q / den) + eta) * E) by (apply Rmult_le_compat_r; lra). assert (U1 : u * (Rabs (q / den) * E) <= u * (1.004 * D)) by (apply Rmult_le_compat_l; lra). assert (UDp : 0 <= u * D <= 0.0001 * D) by (split; [apply Rmult_le_pos; lra|apply Rmult_le_compat_r; lra]).
    assert (R1b : Rabs (dep - q / den) * E <= 1.005 * u * D) by lra. assert (US : u * D <= u * (2 * S)) by (apply Rmult_le_compat_l; lra). assert (US0 : 0 <= u * S) by (apply Rmult_le_pos; lra).
    assert (DEP : Rabs dep * E <= 1.01 * D). { replace dep with (q / den + (dep - q / den)) by ring. assert (T := Rabs_triang (q / den) (dep - q / den)). assert (T2 : Rabs (q / den + (dep - q / den)) * E <= (Rabs (q / den) + Rabs (dep - q / den)) * E) by (apply Rmult_le_compat_r; lra). lra. }
    (* dep against the exact quotient *)
    set (y := q / (E - pz)). assert (Y0 : Rabs y * E = D). { unfold y, Rdiv. rewrite EDR, Rabs_mult, (Rabs_pos_eq (/ _)) by (left; now apply Rinv_0_lt_compat). rewrite QD. field. lra. }
    assert (YD : Rabs (dep - y) * E <= 14 * u * S).
    { assert (F : Rabs (q / den - y) * E <= 11.4 * u * S). { assert (Eq : q / den - y = y * ((E * dr - den) / den)) by (unfold y; rewrite EDR; field; lra). rewrite Eq, Rabs_mult. replace (Rabs y * Rabs ((E * dr - den) / den) * E) with (Rabs y * E * Rabs ((E * dr - den) / den)) by ring. rewrite Y0.
        unfold Rdiv. rewrite Rabs_mult, (Rabs_pos_eq (/ den)) by (left; now apply Rinv_0_lt_compat). apply (Rmult_le_reg_r den); [exact dp|]. replace (D * (Rabs (E * dr - den) * / den) * den) with (D * Rabs (E * dr - den)) by (field; lra).
        assert (Z1 : D * Rabs (E * dr - den) <= D * (11.3 * u * E)) by (apply Rmult_le_compat_l; lra). assert (Z2 : 11.4 * u * S * (0.997 * (E * dr)) <= 11.4 * u * S * den) by (apply Rmult_le_compat_l; [lra|lra]). assert (Z3 : 0 <= u * S * (E * dr)) by (apply Rmult_le_pos; lra). rewrite SD in Z1 at 2. replace (S * dr * (11.3 * u * E)) with (11.3 * (u * S * (E * dr))) in Z1 by ring. lra. }
      replace (dep - y) with ((dep - q / den) + (q / den - y)) by ring. assert (T := Rabs_triang (dep - q / den) (q / den - y)). assert (T2 : Rabs (dep - q / den + (q / den - y)) * E <= (Rabs (dep - q / den) + Rabs (q / den - y)) * E) by (apply Rmult_le_compat_r; lra). lra. }
    assert (PD := Rabs_pos dep). assert (PY := Rabs_pos y). assert (PDY := Rabs_pos (dep - y)). assert (UE2 : u * E <= 0.0001 * E) by (apply Rmult_le_compat_r; lra). assert (GM : Rabs gm <= 1.001 * E) by (apply Rabs_le; lra).
    (* the product with a component no larger than E *)
    assert (Fin : forall c C e, Rabs c <= 1.001 * E -> Rabs C <= E -> Rabs (c - C) <= 9.1 * u * E -> e = y * C -> Rabs e <= D /\ Rabs (double (dep * c)) <= 1.2 * D /\ Rabs (double (dep * c) - e) <= 36 * u * S).
    { intros c C e Hc HC Hcc ->. assert (S1 : Rabs (dep * c) <= 1.012 * D). { rewrite Rabs_mult. apply Rle_trans with (Rabs dep * (1.001 * E)); [apply Rmult_le_compat_l; lra|]. lra. }
      assert (R2 := round_error (dep * c)). assert (V1 : u * Rabs (dep * c) <= u * (1.012 * D)) by (apply Rmult_le_compat_l; lra). assert (W1 : Rabs (double (dep * c) - dep * c) <= 1.02 * u * D) by lra.
      split; [rewrite Rabs_mult; apply Rle_trans with (Rabs y * E); [apply Rmult_le_compat_l; lra|lra]|]. split.
      - replace (double (dep * c)) with (dep * c + (double (dep * c) - dep * c)) by ring. eapply Rle_trans; [apply Rabs_triang|]. lra.
      - replace (double (dep * c) - y * C) with ((double (dep * c) - dep * c) + (dep * (c - C) + (dep - y) * C)) by ring. eapply Rle_trans; [apply Rabs_triang|]. eapply Rle_trans; [apply Rplus_le_compat_l, Rabs_triang|]. rewrite !Rabs_mult.
        assert (Q1 : Rabs dep * Rabs (c - C) <= Rabs dep * (9.1 * u * E)) by (apply Rmult_le_compat_l; lra). assert (Q2 : u * (Rabs dep * E) <= u * (1.01 * D)) by (apply Rmult_le_compat_l; lra). assert (Q3 : Rabs (dep - y) * Rabs C <= Rabs (dep - y) * E) by (apply Rmult_le_compat_l; lra). lra. }
    assert (B2 : bpow radix2 (-510) <= bpow radix2 (-505)) by (apply bpow_le; lia). split; [lra|]. split; [exact D2|]. split; [lra|].
    assert (F0 := Fin gm E (q * E / (E - pz)) GM ltac:(rewrite Rabs_pos_eq; lra) GE ltac:(unfold y, Rdiv; ring)). destruct F0 as (F1 & F2 & F3). split; [exact F1|]. split; [exact F2|]. split; [exact F3|].
    intros c Hc. assert (HcE : Rabs c <= E). { rewrite <- (Rabs_pos_eq E) by lra. apply Rsqr_le_abs_0. unfold Rsqr. lra. } apply (Fin c c); [lra|exact HcE| |unfold y, Rdiv; ring]. replace (c - c) with 0 by ring. rewrite Rabs_R0. assert (0 <= u * E) by (apply Rmult_le_pos; lra). lra.
  Qed.
End Charges2.

(** ** What a particle adds to the four arrays *)
Definition gm2 (p : pl2) : R := sq4_f double (m_ p) (pr_ p) (pf_ p) (pz_ p).
Definition dj2 (c : pl2 -> R) (p : pl2) : R := double (double (q_ p / double (gm2 p - pz_ p)) * c p).
Definition c2 (h : R) (p : pl2) : Z := cell2_f double h (r_ p).
Definition x2 (h : R) (p : pl2) : R := double (double (r_ p / h) - IZR (c2 h p)).
(** the mirrored part ([false]) and the direct one ([true]) *)
Definition marks2 (h sg : R) (f : pl2 -> R) (x : bool * pl2) : list (nat * R) :=
  let p := snd x in
  if fst x then map (fun k => (Z.to_nat (c2 h p + k), double (f p * weight_quadratic_f double (x2 h p) k))) (if (c2 h p =? 0)%Z then [0; 1] else [-1; 0; 1])%Z
  else if (c2 h p =? 0)%Z then [(1%nat, sg * double (f p * weight_quadratic_f double (x2 h p) (-1)))] else [].
Definition both (l : list pl2) : list (bool * pl2) := flat_map (fun p => [(false, p); (true, p)]) l.
Lemma one2_puts n h o p : (c2 h p < Z.of_nat n - 1)%Z -> let o' := deposit_particle_f double h n o p in let m := fun sg f => flat_map (marks2 h sg f) [(false, p); (true, p)] in
  d_rho o' = puts Nat.eqb (d_rho o) (m 1 (dj2 gm2)) /\ d_jr o' = puts Nat.eqb (d_jr o) (m (-1) (dj2 pr_)) /\ d_jf o' = puts Nat.eqb (d_jf o) (m (-1) (dj2 pf_)) /\ d_jz o' = puts Nat.eqb (d_jz o) (m 1 (dj2 pz_)).
Proof.
  intros Hc o' m. unfold o', deposit_particle_f. cbv zeta. fold (gm2 p). change (cell2_f double h (r_ p)) with (c2 h p). fold (x2 h p). assert (NE : (c2 h p =? Z.of_nat n - 1)%Z = false) by (apply Z.eqb_neq; lia). rewrite NE. cbn [andb].
  unfold m. cbn [flat_map app]. unfold marks2. cbn [fst snd]. destruct (c2 h p =? 0)%Z eqn:C0; cbn [map app fold_left add4_f d_rho d_jr d_jf d_jz]; repeat split; unfold puts; cbn [fold_left app fst snd]; rewrite ?Rmult_1_l; reflexivity.
Qed.
Lemma all2_puts n h l : (forall p, In p l -> (c2 h p < Z.of_nat n - 1)%Z) -> forall o, let o' := fold_left (deposit_particle_f double h n) l o in
  d_rho o' = puts Nat.eqb (d_rho o) (flat_map (marks2 h 1 (dj2 gm2)) (both l)) /\ d_jr o' = puts Nat.eqb (d_jr o) (flat_map (marks2 h (-1) (dj2 pr_)) (both l)) /\
  d_jf o' = puts Nat.eqb (d_jf o) (flat_map (marks2 h (-1) (dj2 pf_)) (both l)) /\ d_jz o' = puts Nat.eqb (d_jz o) (flat_map (marks2 h 1 (dj2 pz_)) (both l)).
Proof.
  induction l as [|p l IH]; intros Hl o o'; [repeat split|]. unfold o'. cbn [fold_left]. unfold both. cbn [flat_map]. rewrite !flat_map_app, !puts_app.
  destruct (one2_puts n h o p (Hl p (or_introl eq_refl))) as (E1 & E2 & E3 & E4). cbv zeta in E1, E2, E3, E4. rewrite <- E1, <- E2, <- E3, <- E4. apply (IH (fun q I => Hl q (or_intror I))).
Qed.
Lemma signed sg v : sg = 1 \/ sg = -1 -> is_double v -> is_double (sg * v).
Proof. intros [->| ->] H; [rewrite Rmult_1_l; exact H|]. unfold is_double in *. replace (-1 * v) with (- v) by ring. rewrite double_opp, H. reflexivity. Qed.
Lemma to_nat_eqb z i : (0 <= z)%Z -> Nat.eqb (Z.to_nat z) i = (z =? Z.of_nat i)%Z.
Proof. intros H. destruct (Nat.eqb_spec (Z.to_nat z) i); destruct (Z.eqb_spec z (Z.of_nat i)); try reflexivity; lia. Qed.
Lemma hits_direct c (v : Z -> R) i : (0 <= c)%Z ->
  hits Nat.eqb i (map (fun k => (Z.to_nat (c + k), v k)) (if (c =? 0)%Z then [0; 1] else [-1; 0; 1])%Z) = if near3 (Z.of_nat i - c) then [v (Z.of_nat i - c)%Z] else [].
Proof.
  intros Hc. unfold hits. destruct (Z.eqb_spec c 0) as [->|N]; cbn [map filter fst snd]; rewrite !to_nat_eqb by lia; unfold near3.
  - destruct (Z.eqb_spec (0 + 0) (Z.of_nat i)) as [E|E]; destruct (Z.eqb_spec (0 + 1) (Z.of_nat i)) as [E'|E']; try lia; cbn [map snd].
    + replace (Z.of_nat i - 0)%Z with 0%Z by lia. reflexivity.
    + replace (Z.of_nat i - 0)%Z with 1%Z by lia. reflexivity.
    + replace (Z.of_nat i - 0 <=? 1)%Z with false by (symmetry; apply Z.leb_gt; lia). rewrite andb_false_r. reflexivity.
  - destruct (Z.eqb_spec (c + -1) (Z.of_nat i)) as [E|E]; destruct (Z.eqb_spec (c + 0) (Z.of_nat i)) as [E'|E']; destruct (Z.eqb_spec (c + 1) (Z.of_nat i)) as [E''|E'']; try lia; cbn [map snd].
    + replace (Z.of_nat i - c)%Z with (-1)%Z by lia. reflexivity.
    + replace (Z.of_nat i - c)%Z with 0%Z by lia. reflexivity.
    + replace (Z.of_nat i - c)%Z with 1%Z by lia. reflexivity.
    + destruct (Z_le_gt_dec (Z.of_nat i - c) 1); [replace (-1 <=? Z.of_nat i - c)%Z with false by (symmetry; apply Z.leb_gt; lia); reflexivity|]. replace (Z.of_nat i - c <=? 1)%Z with false by (symmetry; apply Z.leb_gt; lia). rewrite andb_false_r. reflexivity.
Qed.
Lemma hits_mirror c (v : R) i : (0 <= c)%Z ->
  hits Nat.eqb i (if (c =? 0)%Z then [(1%nat, v)] else []) = if negb (i =? 0)%nat && near3 (- Z.of_nat i - c) then [v] else [].
Proof.
  intros Hc. unfold hits, near3. destruct (Z.eqb_spec c 0) as [->|N].
  - cbn [filter fst]. destruct (Nat.eqb_spec 1 i) as [<-|E]; [reflexivity|]. destruct (Nat.eqb_spec i 0) as [->|E']; [reflexivity|]. replace (-1 <=? - Z.of_nat i - 0)%Z with false by (symmetry; apply Z.leb_gt; lia). reflexivity.
  - destruct (Nat.eqb_spec i 0) as [->|E']; [reflexivity|]. replace (-1 <=? - Z.of_nat i - c)%Z with false by (symmetry; apply Z.leb_gt; lia). reflexivity.
Qed.
Section Cell2P.
  Variables (n : nat) (h : R).
  Hypotheses (Hh : ordinary_step h) (Hn : (Z.of_nat n <= 2 ^ 46)%Z).
  Lemma small_E2 : (40 + 6 * INR n) * u <= / 10.
  Proof.
    assert (A : INR n <= IZR (2 ^ 46)) by (rewrite INR_IZR_INZ; apply IZR_le; lia). assert (U := u_pos). assert (T := u_tiny). assert (V := u_small).
    replace (IZR (2 ^ 53)) with (128 * IZR (2 ^ 46)) in V by (rewrite <- mult_IZR; reflexivity). apply Rle_trans with ((40 + 6 * IZR (2 ^ 46)) * u); [apply Rmult_le_compat_r; lra|]. lra.
  Qed.
  Definition good (f F : pl2 -> R) (p : pl2) : Prop :=
    0 <= r_ p <= (INR n - 3) * h /\ (load2 p = 0 \/ bpow radix2 (-510) <= 1.2 * load2 p) /\ Rabs (f p) <= 1.2 * load2 p /\ Rabs (F p) <= load2 p /\ load2 p <= 2 * stretch2 p /\ Rabs (f p - F p) <= 36 * u * stretch2 p.
  Definition ex2 (sg : R) (F : pl2 -> R) (i : nat) (x : bool * pl2) : R :=
    if fst x then F (snd x) * spline2 (r_ (snd x) / h - INR i) else if (i =? 0)%nat then 0 else F (snd x) * (sg * spline2 (r_ (snd x) / h + INR i)).
  (** the charge at one node *)
  Lemma one_share f F p z : good f F p -> let v := if near3 (z - c2 h p) then double (f p * weight_quadratic_f double (x2 h p) (z - c2 h p)) else 0 in
    Rabs (v - F p * spline2 (r_ p / h - IZR z)) <= (40 + 6 * INR n) * u * (2 * stretch2 p).
  Proof.
    intros (R & B & Bf & BF & LS & Df) v. assert (U := u_pos). assert (T := u_tiny). assert (Hm : 0 <= INR n) by apply pos_INR. assert (SE := small_E2).
    destruct (place_close n h (r_ p) Hh Hn R) as [PX PC]. fold (c2 h p) in PX, PC. fold (x2 h p) in PX, PC. destruct (place_in_cell n h (r_ p) Hh ltac:(lia) R) as [_ X34]. fold (c2 h p) in X34. fold (x2 h p) in X34.
    assert (Un : 0 <= INR n * u) by (apply Rmult_le_pos; lra). assert (W := ext3_near (c2 h p) (x2 h p) (r_ p / h) z _ _ PX ltac:(lra) PC ltac:(lra)). set (x := x2 h p) in *. set (k := (z - c2 h p)%Z) in *. set (s := spline2 (r_ p / h - IZR z)) in *. assert (Sr := spline2_range (r_ p / h - IZR z)). fold s in Sr.
    set (D := load2 p) in *. set (St := stretch2 p) in *. assert (D0 : 0 <= D) by (assert (K := Rabs_pos (F p)); lra). assert (UD : 0 <= u * D) by (apply Rmult_le_pos; lra). assert (US : u * D <= u * (2 * St)) by (apply Rmult_le_compat_l; lra).
    assert (W01 : 0 <= ext3 (wt x) k <= 1). { unfold ext3. destruct (near3 k) eqn:N3; [|lra]. apply near3_in in N3. apply (wt_ap x k X34 N3). }
    assert (V : Rabs (v - f p * ext3 (wt x) k) <= 6.2 * u * D).
    { unfold v, ext3. destruct (near3 k) eqn:N3; [|rewrite Rmult_0_r, Rminus_0_r, Rabs_R0; lra]. apply near3_in in N3. destruct (wt_ap x k X34 N3) as [A W1].
      destruct B as [B|B]; [assert (f p = 0) as -> by (apply Rabs_le_inv in Bf; lra); rewrite !Rmult_0_l, double_0; replace (0 - 0) with 0 by ring; rewrite Rabs_R0; lra|].
      assert (K := times_charge_s 1 (1.2 * D) (f p) 4 (weight_quadratic_f double x k) (wt x k) 1 one_900 B Bf ltac:(lra) ltac:(apply Rabs_le; lra) ltac:(lra)). rewrite !Rmult_1_r in K. eapply Rle_trans; [apply K; exact A|]. lra. }
    clearbody v. set (w := ext3 (wt x) k) in *. replace (v - F p * s) with ((v - f p * w) + ((f p - F p) * w + F p * (w - s))) by ring. eapply Rle_trans; [apply Rabs_triang|]. eapply Rle_trans; [apply Rplus_le_compat_l, Rabs_triang|]. rewrite (Rabs_mult (f p - F p)), (Rabs_mult (F p)), (Rabs_pos_eq w) by lra.
    assert (K1 : Rabs (f p - F p) * w <= 36 * u * St * 1) by (apply Rmult_le_compat; try lra; apply Rabs_pos). assert (K2 : Rabs (F p) * Rabs (w - s) <= D * (2.5 * ((2 * INR n + 2) * u) + (INR n + 1) * u)) by (apply Rmult_le_compat; try lra; apply Rabs_pos).
    assert (K4 : INR n * (u * D) <= INR n * (u * (2 * St))) by (apply Rmult_le_compat_l; lra). lra.
  Qed.
  Lemma one_hit2 sg f F i x : sg = 1 \/ sg = -1 -> good f F (snd x) ->
    0 <= 2 * stretch2 (snd x) /\ Rabs (ex2 sg F i x) <= 1.5 * (2 * stretch2 (snd x)) /\ (length (hits Nat.eqb i (marks2 h sg f x)) <= 1)%nat /\ (forall v, In v (hits Nat.eqb i (marks2 h sg f x)) -> is_double v) /\
    Rabs (sumR (hits Nat.eqb i (marks2 h sg f x)) - ex2 sg F i x) <= (40 + 6 * INR n) * u * (2 * stretch2 (snd x)).
  Proof.
    intros Hs Hg. destruct x as [sd p]. cbn [snd] in *. assert (G := Hg). destruct G as (R & B & Bf & BF & LS & Df). assert (D0 : 0 <= load2 p) by (assert (K := Rabs_pos (F p)); lra). split; [lra|]. destruct (place_in_cell n h (r_ p) Hh ltac:(lia) R) as [[C0 _] _]. fold (c2 h p) in C0.
    assert (U := u_pos). assert (Hm : 0 <= INR n) by apply pos_INR. assert (RZ : 0 <= (40 + 6 * INR n) * u * (2 * stretch2 p)) by (apply Rmult_le_pos; [apply Rmult_le_pos; lra|lra]).
    assert (As : Rabs sg = 1) by (destruct Hs as [->| ->]; [rewrite Rabs_R1; reflexivity|rewrite Rabs_left; lra]).
    assert (Bd : forall s, 0 <= s <= 1 -> Rabs (F p * s) <= 1.5 * (2 * stretch2 p)). { intros s Sr. rewrite Rabs_mult, (Rabs_pos_eq s) by lra. assert (Rabs (F p) * s <= Rabs (F p) * 1) by (apply Rmult_le_compat_l; [apply Rabs_pos|lra]). lra. }
    unfold ex2, marks2. cbn [fst snd]. destruct sd.
    - rewrite (hits_direct (c2 h p) (fun k => double (f p * weight_quadratic_f double (x2 h p) k)) i C0). split; [apply Bd, spline2_range|]. assert (K := one_share f F p (Z.of_nat i) Hg). cbv zeta in K. rewrite <- INR_IZR_INZ in K.
      destruct (near3 (Z.of_nat i - c2 h p)); (split; [cbn; lia|]; split; [intros v Hv; cbn in Hv; try tauto; destruct Hv as [<-|[]]; apply double_double|]); cbn [sumR]; rewrite ?Rplus_0_r; exact K.
    - rewrite (hits_mirror (c2 h p) _ i C0). destruct (Nat.eqb_spec i 0) as [->|Ni]; cbn [negb andb].
      + rewrite Rabs_R0. split; [lra|]. split; [cbn; lia|]. split; [intros v []|]. cbn [sumR]. rewrite Rminus_0_r, Rabs_R0. exact RZ.
      + split; [rewrite (Rmult_comm sg), <- Rmult_assoc, Rabs_mult, As, Rmult_1_r; apply Bd, spline2_range|]. assert (K := one_share f F p (- Z.of_nat i) Hg). cbv zeta in K. rewrite opp_IZR, <- INR_IZR_INZ in K. replace (r_ p / h - - INR i) with (r_ p / h + INR i) in K by ring.
        destruct (near3 (- Z.of_nat i - c2 h p)) eqn:N3.
        * assert (Ei : (- Z.of_nat i - c2 h p = -1)%Z) by (apply near3_in in N3; cbn in N3; lia). rewrite Ei in K. split; [cbn; lia|]. split; [intros v Hv; cbn in Hv; destruct Hv as [<-|[]]; apply signed; [exact Hs|apply double_double]|].
          cbn [sumR]. rewrite Rplus_0_r. match type of K with Rabs (?a - F p * ?b) <= _ => replace (sg * a - F p * (sg * b)) with (sg * (a - F p * b)) by ring end. rewrite Rabs_mult, As, Rmult_1_l. exact K.
        * split; [cbn; lia|]. split; [intros v []|]. cbn [sumR]. match type of K with Rabs (0 - F p * ?b) <= _ => replace (0 - F p * (sg * b)) with (sg * (0 - F p * b)) by ring end. rewrite Rabs_mult, As, Rmult_1_l. exact K.
  Qed.
  Lemma both_sum (g : bool * pl2 -> R) l : sumR (map g (both l)) = sumR (map (fun p => g (false, p) + g (true, p)) l).
  Proof. induction l as [|p l IH]; [reflexivity|]. unfold both in *. cbn [flat_map app map sumR]. rewrite IH. ring. Qed.
  Lemma both_length l : length (both l) = (2 * length l)%nat.
  Proof. induction l as [|p l IH]; [reflexivity|]. unfold both in *. cbn [flat_map app length]. rewrite IH. lia. Qed.
  Lemma cell2p sg f F l i : sg = 1 \/ sg = -1 -> (2 * Z.of_nat (length l) <= 2 ^ 52)%Z -> (i < n)%nat -> (forall p, In p l -> good f F p) ->
    let r := puts Nat.eqb zeros (flat_map (marks2 h sg f) (both l)) i in let S := sumR (map stretch2 l) in
    Rabs (r - sumR (map (fun p => F p * node_share n sg (r_ p / h) i) l)) <= (160 + 24 * INR n + 26 * INR (length l)) * u * S /\ Rabs r <= 16 * S.
  Proof.
    intros Hs Hl Hi H r S. assert (U := u_pos). assert (Z0 : forall a : nat, is_double (zeros a)) by (intros a; apply double_0).
    assert (L : (Z.of_nat (length (both l)) <= 2 ^ 52)%Z) by (rewrite both_length; lia).
    assert (HB : forall x, In x (both l) -> good f F (snd x)). { intros [sd p] I. unfold both in I. apply in_flat_map in I. destruct I as (p' & I & [E|[E|[]]]); injection E as _ <-; now apply H. }
    destruct (cell_close Nat.eqb Nat.eqb_eq (marks2 h sg f) (ex2 sg F i) (fun x => 2 * stretch2 (snd x)) (40 + 6 * INR n) i (both l)) with (g := zeros) as [K1 K2].
    - assert (K := pos_INR n). lra.
    - apply small_E2.
    - exact L.
    - intros x Hx. apply (one_hit2 sg f F i x Hs (HB x Hx)).
    - exact Z0.
    - fold r in K1, K2. rewrite (both_sum (fun x => 2 * stretch2 (snd x))) in K1, K2. rewrite (both_sum (ex2 sg F i)) in K1. cbn [snd] in K1, K2. unfold zeros in K1, K2. rewrite Rabs_R0, !Rplus_0_l in K1. rewrite Rabs_R0, Rplus_0_l in K2. rewrite both_length, mult_INR in K1. replace (INR 2) with 2 in K1 by reflexivity.
      assert (E4 : sumR (map (fun p => 2 * stretch2 p + 2 * stretch2 p) l) = 4 * S). { unfold S. clear. induction l as [|p l IH]; cbn [map sumR]; [lra|]. rewrite IH. lra. } rewrite E4 in K1, K2.
      assert (EX : sumR (map (fun p => ex2 sg F i (false, p) + ex2 sg F i (true, p)) l) = sumR (map (fun p => F p * node_share n sg (r_ p / h) i) l)).
      { clear - H Hi Hh. induction l as [|p l IH]; cbn [map sumR]; [reflexivity|]. rewrite IH by (intros q I; apply H; now right). f_equal. destruct (H p (or_introl eq_refl)) as ((R0 & R1) & _). assert (P := step_pos _ Hh).
        assert (Q : 0 <= r_ p / h <= INR n - 3). { split; [apply Rmult_le_pos; [exact R0|left; now apply Rinv_0_lt_compat]|]. apply (Rmult_le_reg_r h); [exact P|]. unfold Rdiv. rewrite Rmult_assoc, Rinv_l by lra. lra. }
        unfold ex2, node_share. cbn [fst snd]. assert (N1 : INR (n - 1) = INR n - 1) by (rewrite minus_INR by lia; reflexivity). destruct (Nat.eqb_spec i (n - 1)) as [Ei|Ei]; [destruct (i =? 0)%nat; ring|].
        assert (I1 : INR i <= INR n - 2) by (replace 2 with (INR 2) by reflexivity; rewrite <- minus_INR by lia; apply le_INR; lia). rewrite (spline2_out (r_ p / h - (2 * INR (n - 1) - INR i))) by (rewrite Rabs_left; lra). destruct (i =? 0)%nat; ring. }
      rewrite EX in K1. assert (S0 : 0 <= S). { unfold S. clear - H. induction l as [|p l IH]; cbn [map sumR]; [lra|]. destruct (H p (or_introl eq_refl)) as (_ & _ & _ & BF & LS & _). assert (K := Rabs_pos (F p)). assert (K2 := IH (fun q I => H q (or_intror I))). lra. }
      split; [|lra]. eapply Rle_trans; [exact K1|]. assert (A1 := pos_INR n). assert (A2 := pos_INR (length l)). assert (M : 0 <= u * S) by (apply Rmult_le_pos; lra). assert (M2 : 0 <= INR (length l) * (u * S)) by (apply Rmult_le_pos; lra). lra.
  Qed.
End Cell2P.

(** Each node of the charge density of the 2D plasma and of its three currents, times the volume of the node, is the sum of the
    quadratic clouds of the particles at their true radii, up to rounding; the radial and azimuthal currents vanish at both ends and
    the current along z at the wall.  A particle weighs in the bound with its charge over the square of 1 - pz/gamma. *)
Theorem C75_2d_plasma_densities : forall h ppc n l, ordinary_step h -> (1 <= ppc)%nat -> (Z.of_nat ppc <= 2 ^ 50)%Z -> (3 <= n)%nat -> (Z.of_nat n <= 2 ^ 46)%Z -> (2 * Z.of_nat (length l) <= 2 ^ 52)%Z ->
  (forall p, In p l -> regular2 n h p) ->
  let d := per_volume_f double (cell_volume_f double h ppc n) (deposit2_f double h n l) in let v := cell_volume h ppc n in
  forall i, (i < n)%nat ->
  let bound := (520 + 24 * INR n + 26 * INR (length l)) * rounding * sumR (map (fun p => Rabs (q_ p) / (1 - pz_ p / gm_of p) ^ 2) l) + v i * underflow in
  Rabs (v i * d_rho d i - sumR (map (fun p => qs_charge p * node_share n 1 (r_ p / h) i) l)) <= bound /\
  Rabs (v i * d_jz d i - (if (i =? n - 1)%nat then 0 else sumR (map (fun p => qs_jz p * node_share n 1 (r_ p / h) i) l))) <= bound /\
  Rabs (v i * d_jr d i - (if (i =? 0)%nat || (i =? n - 1)%nat then 0 else sumR (map (fun p => q_ p * pr_ p / (gm_of p - pz_ p) * node_share n (-1) (r_ p / h) i) l))) <= bound /\
  Rabs (v i * d_jf d i - (if (i =? 0)%nat || (i =? n - 1)%nat then 0 else sumR (map (fun p => q_ p * pf_ p / (gm_of p - pz_ p) * node_share n (-1) (r_ p / h) i) l))) <= bound.
Proof.
  intros h ppc n l Hh P1 P2 H3 Hn Hc Hl d v i Hi bound. assert (U := u_pos). assert (HP := step_pos _ Hh).
  assert (Eb : bound = (520 + 24 * INR n + 26 * INR (length l)) * u * sumR (map stretch2 l) + v i * eta) by (unfold bound; rewrite rounding_u; reflexivity). rewrite Eb. clear Eb bound.
  assert (VR : rel 20 (cell_volume_f double h ppc n i) (v i)) by (now apply volume_rel). assert (V0 : 0 < v i) by apply VR.
  assert (Cl : forall p, In p l -> (c2 h p < Z.of_nat n - 1)%Z). { intros p Hp. destruct (Hl p Hp) as (_ & _ & _ & _ & R). destruct (place_in_cell n h (r_ p) Hh ltac:(lia) R) as [[_ C] _]. fold (c2 h p) in C. lia. }
  destruct (all2_puts n h l Cl zero_dens) as (E1 & E2 & E3 & E4). cbn [d_rho d_jr d_jf d_jz zero_dens] in E1, E2, E3, E4. set (o := fold_left (deposit_particle_f double h n) l zero_dens) in *.
  assert (Gd : forall p, In p l -> (good n h (dj2 gm2) qs_charge p) /\ forall c, (forall p, c p ^ 2 <= m_ p ^ 2 + pr_ p ^ 2 + pf_ p ^ 2 + pz_ p ^ 2) -> good n h (dj2 c) (fun p => q_ p * c p / (gm_of p - pz_ p)) p).
  { intros p Hp. destruct (Hl p Hp) as (Q & M & G & D & R). destruct Q as [Q|Q].
    - assert (L0 : load2 p = 0) by (unfold load2; rewrite Q, Rabs_R0; unfold Rdiv; ring). assert (S0 : stretch2 p = 0) by (unfold stretch2; rewrite Q, Rabs_R0; unfold Rdiv; ring).
      assert (Z0 : forall c, dj2 c p = 0) by (intros c; unfold dj2; rewrite Q; unfold Rdiv; rewrite Rmult_0_l, double_0, Rmult_0_l; apply double_0). unfold good. rewrite L0, S0.
      split; [|intros c _]; rewrite !Z0; unfold qs_charge; rewrite Q; unfold Rdiv; rewrite !Rmult_0_l, !Rmult_0_r, ?Rminus_0_r, Rabs_R0; repeat split; try lra.
    - unfold energy2 in G, D. destruct (charges2 (m_ p) (pr_ p) (pf_ p) (pz_ p) (q_ p) M G D Q) as (A1 & A2 & A3 & A4 & A5 & A6 & A7).
      change (Rabs (q_ p) / (1 - pz_ p / sqrt (m_ p ^ 2 + pr_ p ^ 2 + pf_ p ^ 2 + pz_ p ^ 2)) ^ 2) with (stretch2 p) in *. change (Rabs (q_ p) / (1 - pz_ p / sqrt (m_ p ^ 2 + pr_ p ^ 2 + pf_ p ^ 2 + pz_ p ^ 2))) with (load2 p) in *.
      split; [split; [exact R|]; split; [right; exact A1|]; split; [exact A5|]; split; [exact A4|]; split; [exact A2|exact A6]|]. intros c Hcc. destruct (A7 (c p) (Hcc p)) as (B1 & B2 & B3). split; [exact R|]. split; [right; exact A1|]. split; [exact B2|]. split; [exact B1|]. split; [exact A2|exact B3]. }
  assert (Fin : forall sg f F arr, sg = 1 \/ sg = -1 -> (forall p, In p l -> good n h f F p) -> arr = puts Nat.eqb zeros (flat_map (marks2 h sg f) (both l)) ->
    Rabs (v i * double (arr i / cell_volume_f double h ppc n i) - sumR (map (fun p => F p * node_share n sg (r_ p / h) i) l)) <= (520 + 24 * INR n + 26 * INR (length l)) * u * sumR (map stretch2 l) + v i * eta).
  { intros sg f F arr Hs Hg ->. destruct (cell2p n h Hh Hn sg f F l i Hs Hc Hi Hg) as [K1 K2]. cbv zeta in K1, K2. set (r := puts _ _ _ _) in *. clearbody r. assert (K3 := per_cell _ _ r VR). set (S := sumR (map stretch2 l)) in *. assert (S0 : 0 <= S) by (assert (K := Rabs_pos r); lra).
    match type of K1 with Rabs (r - ?e) <= _ => replace (v i * double (r / cell_volume_f double h ppc n i) - e) with ((v i * double (r / cell_volume_f double h ppc n i) - r) + (r - e)) by ring end. eapply Rle_trans; [apply Rabs_triang|].
    assert (K4 : u * Rabs r <= u * (16 * S)) by (apply Rmult_le_compat_l; lra). assert (M : 0 <= u * S) by (apply Rmult_le_pos; lra). lra. }
  assert (Zr : Rabs (v i * double (0 / cell_volume_f double h ppc n i) - 0) <= (520 + 24 * INR n + 26 * INR (length l)) * u * sumR (map stretch2 l) + v i * eta).
  { unfold Rdiv. rewrite Rmult_0_l, double_0, Rmult_0_r, Rminus_0_r, Rabs_R0. assert (S0 : 0 <= sumR (map stretch2 l)). { clear - Hl. induction l as [|p l IH]; cbn [map sumR]; [lra|]. assert (K2 := IH (fun q I => Hl q (or_intror I))). destruct (Hl p (or_introl eq_refl)) as (_ & _ & _ & D & _). assert (B := bpow_gt_0 radix2 (-40)).
      assert (0 <= stretch2 p); [|lra]. unfold stretch2. apply Rmult_le_pos; [apply Rabs_pos|]. left. apply Rinv_0_lt_compat, pow_lt. lra. }
    assert (EP := eta_pos). assert (A1 := pos_INR n). assert (A2 := pos_INR (length l)). apply Rplus_le_le_0_compat; apply Rmult_le_pos; try lra. apply Rmult_le_pos; lra. }
  unfold d, deposit2_f, per_volume_f, close_ends. fold o. cbn [d_rho d_jr d_jf d_jz]. unfold set_at.
  split; [apply (Fin 1 (dj2 gm2) qs_charge _ (or_introl eq_refl) (fun p Hp => proj1 (Gd p Hp)) E1)|]. split; [|split].
  - destruct (i =? n - 1)%nat; [exact Zr|]. apply (Fin 1 (dj2 pz_) qs_jz _ (or_introl eq_refl)); [|exact E4]. intros p Hp. apply (proj2 (Gd p Hp) pz_). intros q. nra.
  - rewrite orb_comm. destruct (i =? n - 1)%nat; [exact Zr|]. cbn [orb]. destruct (i =? 0)%nat; [exact Zr|]. apply (Fin (-1) (dj2 pr_) (fun p => q_ p * pr_ p / (gm_of p - pz_ p)) _ (or_intror eq_refl)); [|exact E2]. intros p Hp. apply (proj2 (Gd p Hp) pr_). intros q. nra.
  - rewrite orb_comm. destruct (i =? n - 1)%nat; [exact Zr|]. cbn [orb]. destruct (i =? 0)%nat; [exact Zr|]. apply (Fin (-1) (dj2 pf_) (fun p => q_ p * pf_ p / (gm_of p - pz_ p)) _ (or_intror eq_refl)); [|exact E3]. intros p Hp. apply (proj2 (Gd p Hp) pf_). intros q. nra.
Qed.
Print Assumptions C75_2d_plasma_densities.

(** A particle of charge -1 on the axis with pz/gamma = 3/5: three quarters of -5/2 go to the node on the axis. *)
Example C75_2d_plasma_case : let d := per_volume_f double (cell_volume_f double (1/2) 10 8) (deposit2_f double (1/2) 8 [mkPl 0 0 0 (3/4) (-1) 1 0]) in
  Rabs (cell_volume (1/2) 10 8 0%nat * d_rho d 0%nat - - (5/2) * (3/4)) <= 10000 * rounding.
Proof.
  set (p := mkPl 0 0 0 (3/4) (-1) 1 0). assert (E1 : gm_of p = 5/4) by (unfold gm_of; cbn [p m_ pr_ pf_ pz_]; replace (1 ^ 2 + 0 ^ 2 + 0 ^ 2 + (3/4) ^ 2) with ((5/4) ^ 2) by lra; apply sqrt_pow2; lra).
  assert (F : forall x, In x [p] -> regular2 8 (1/2) x).
  { intros x [<-|[]]. unfold regular2. change (energy2 p) with (gm_of p). rewrite E1. cbn [p q_ m_ pz_ r_]. replace (INR 8) with 8 by (cbn; lra). split; [right; rewrite Rabs_left by lra; apply Rle_trans with (bpow radix2 0); [apply bpow_le; lia|cbn; lra]|].
    split; [apply Rle_trans with (bpow radix2 0); [apply bpow_le; lia|cbn; lra]|]. split; [apply Rle_trans with (bpow radix2 1); [cbn; lra|apply bpow_le; lia]|]. split; [apply Rle_trans with (bpow radix2 (-2)); [apply bpow_le; lia|cbn; lra]|]. lra. }
  intros d. destruct (C75_2d_plasma_densities (1/2) 10 8 [p] case_step ltac:(lia) ltac:(cbn; lia) ltac:(lia) ltac:(cbn; lia) ltac:(cbn; lia) F 0%nat ltac:(lia)) as (K & _). fold d in K. cbn [map sumR length] in K. rewrite E1 in K. unfold qs_charge, node_share in K. rewrite E1 in K. cbn [p q_ pz_ r_ Nat.eqb Nat.sub INR] in K.
  assert (S0 : spline2 (0 / (1/2) - 0) = 3/4). { unfold spline2. replace (0 / (1/2) - 0) with 0 by field. rewrite Rabs_R0. destruct (Rle_dec 0 (1/2)); lra. } rewrite S0 in K. rewrite (spline2_out (0 / (1 / 2) - _)) in K by (rewrite Rabs_left; lra).
  rewrite (Rabs_left (-1)) in K by lra. assert (UN : underflow <= rounding * / 1000). { change (bpow radix2 (-1075) <= bpow radix2 (-53) * / 1000). change (-1075)%Z with (-53 + -1022)%Z. rewrite bpow_plus. apply Rmult_le_compat_l; [left; apply bpow_gt_0|]. apply Rle_trans with (bpow radix2 (-10)); [apply bpow_le; lia|]. change (bpow radix2 (-10)) with (/ 1024). lra. }
  destruct (volume_range (1/2) 10 8 0 ltac:(lra) ltac:(lia) ltac:(lia) ltac:(lia)) as [V0 V1]. replace (INR 8) with 8 in V1 by (cbn; lra). rewrite rounding_u in *. assert (U := u_pos). set (w := cell_volume (1/2) 10 8 0%nat) in *.
  assert (Q : w * underflow <= (10 * (1/2) ^ 2 * 8) * (u * / 1000)) by (apply Rmult_le_compat; try lra; left; apply bpow_gt_0).
  match type of K with Rabs ?e <= _ => match goal with |- Rabs ?g <= _ => replace g with e by field end end. eapply Rle_trans; [exact K|]. lra.
Qed.
