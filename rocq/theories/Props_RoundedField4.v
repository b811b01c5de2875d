(** Theorems C76: the field that a particle of the 2D beam feels, in binary64. *)
From Coq Require Import Reals ZArith List Bool Lra Lia Psatz FunctionalExtensionality.
From Flocq Require Import Core.
From Verif Require Import Float_Model Float_Proofs Beam2D_Model Beam2D_Spec Beam2D_Free BeamPush_Spec BeamPush_Proofs Shape_Model Shape_Spec Shape_Proofs RoundedBeam_Spec RoundedBeam_Model Props_RoundedBeam RoundedSum_Proofs RoundedWeight_Proofs RoundedDep_Model RoundedDep_Spec RoundedDep_Proofs Props_RoundedDep Props_RoundedDep2 RoundedCell_Proofs Props_RoundedCell Props_RoundedCell2 RoundedField_Model RoundedField_Proofs.
Import ListNotations.
Open Scope R_scope.

(** ** The distance from the axis *)
Lemma sqrt_near a b : 0 <= a -> 0 < b -> Rabs (sqrt a - sqrt b) <= Rabs (a - b) / sqrt b.
Proof.
  intros Ha Hb. assert (P := sqrt_lt_R0 b Hb). assert (Q := sqrt_pos a). assert (Sa := sqrt_sqrt a Ha). assert (Sb := sqrt_sqrt b ltac:(lra)).
  apply (Rmult_le_reg_r (sqrt b)); [exact P|]. unfold Rdiv. rewrite Rmult_assoc, Rinv_l, Rmult_1_r by lra.
  apply Rle_trans with (Rabs (sqrt a - sqrt b) * (sqrt a + sqrt b)); [apply Rmult_le_compat_l; [apply Rabs_pos|lra]|].
  rewrite <- (Rabs_pos_eq (sqrt a + sqrt b)) at 1 by lra. rewrite <- Rabs_mult. right. f_equal. rewrite <- Sa, <- Sb at 3. nra.
Qed.
Lemma radius_near x y : let r := sqrt (x ^ 2 + y ^ 2) in Rabs (radius_f x y - r) <= 4 * u * r + bpow radix2 (-400).
Proof.
  intros r. assert (U := u_pos). assert (T := u_tiny). set (A := x ^ 2 + y ^ 2) in *. assert (A0 : 0 <= A) by (unfold A; nra). unfold radius_f.
  assert (E1 := round_error (x * x)). assert (E2 := round_error (y * y)). rewrite (Rabs_pos_eq (x * x)) in E1 by nra. rewrite (Rabs_pos_eq (y * y)) in E2 by nra. assert (E3 := sum_error (double (x * x)) (double (y * y)) (double_double _) (double_double _)).
  assert (H0 := eta_pos). set (s := double (x * x) + double (y * y)) in *. set (S := double s) in *.
  assert (Sx : Rabs (s - A) <= u * A + 2 * eta). { unfold s, A. replace (double (x * x) + double (y * y) - (x ^ 2 + y ^ 2)) with ((double (x * x) - x * x) + (double (y * y) - y * y)) by ring. eapply Rle_trans; [apply Rabs_triang|]. replace (x ^ 2 + y ^ 2) with (x * x + y * y) by ring. lra. }
  assert (s1 : Rabs s <= A + u * A + 2 * eta). { replace s with ((s - A) + A) by ring. eapply Rle_trans; [apply Rabs_triang|]. rewrite (Rabs_pos_eq A) by exact A0. lra. }
  assert (SA : Rabs (S - A) <= 2.1 * u * A + 3 * eta). { replace (S - A) with ((S - s) + (s - A)) by ring. eapply Rle_trans; [apply Rabs_triang|]. assert (K : u * Rabs s <= u * (A + u * A + 2 * eta)) by (apply Rmult_le_compat_l; lra). assert (0 <= u * A) by (apply Rmult_le_pos; lra). assert (u * (u * A) <= 0.01 * (u * A)) by (apply Rmult_le_compat_r; lra). assert (u * eta <= 0.1 * eta) by (apply Rmult_le_compat_r; lra). lra. }
  assert (S0 : 0 <= S). { unfold S. apply (double_ge_int _ 0); [lia|]. unfold s. assert (K1 := double_ge_int (x * x) 0 ltac:(lia) ltac:(nra)). assert (K2 := double_ge_int (y * y) 0 ltac:(lia) ltac:(nra)). lra. }
  assert (Et : eta <= u * bpow radix2 (-1000)). { unfold eta. change u with (bpow radix2 (-53)). rewrite <- bpow_plus. apply bpow_le. lia. }
  assert (B0 := bpow_gt_0 radix2 (-1000)). assert (B4 := bpow_gt_0 radix2 (-400)). assert (R0 : 0 <= r) by apply sqrt_pos.
  assert (Rt : Rabs (sqrt S - r) <= 2.6 * u * r + 0.1 * bpow radix2 (-400)).
  { destruct (Rle_dec (10 * bpow radix2 (-1000)) A) as [L|L].
    - assert (K := sqrt_near S A S0 ltac:(lra)). fold r in K. assert (R1 : 0 < r) by (apply sqrt_lt_R0; lra). assert (RR : r * r = A) by (apply sqrt_sqrt; exact A0).
      apply Rle_trans with (2.6 * u * r); [|lra]. eapply Rle_trans; [exact K|]. apply (Rmult_le_reg_r r); [exact R1|]. unfold Rdiv. rewrite Rmult_assoc, Rinv_l, Rmult_1_r by lra. replace (2.6 * u * r * r) with (2.6 * (u * A)) by (rewrite <- RR; ring).
      assert (u * bpow radix2 (-1000) <= u * (/ 10 * A)) by (apply Rmult_le_compat_l; lra). lra.
    - apply Rnot_le_lt in L. assert (C : sqrt S <= 8 * bpow radix2 (-500) /\ r <= 8 * bpow radix2 (-500)).
      { assert (Q : sqrt (64 * bpow radix2 (-1000)) = 8 * bpow radix2 (-500)). { replace (64 * bpow radix2 (-1000)) with ((8 * bpow radix2 (-500)) * (8 * bpow radix2 (-500))) by (replace (-1000)%Z with (-500 + -500)%Z by lia; rewrite bpow_plus; ring). apply sqrt_square. assert (K := bpow_gt_0 radix2 (-500)). lra. }
        rewrite <- Q. assert (u * A <= 0.1 * A) by (apply Rmult_le_compat_r; lra). assert (u * bpow radix2 (-1000) <= 0.1 * bpow radix2 (-1000)) by (apply Rmult_le_compat_r; lra). split; apply sqrt_le_1_alt; [apply Rabs_le_inv in SA; lra|lra]. }
      assert (D : 8 * bpow radix2 (-500) <= 0.1 * bpow radix2 (-400)). { replace (-400)%Z with (-500 + 100)%Z by lia. rewrite bpow_plus. assert (K := bpow_gt_0 radix2 (-500)). assert (80 <= bpow radix2 100) by (apply Rle_trans with (bpow radix2 7); [change (bpow radix2 7) with 128; lra|apply bpow_le; lia]). nra. }
      assert (K := sqrt_pos S). assert (0 <= u * r) by (apply Rmult_le_pos; lra). apply Rabs_le. lra. }
  assert (E4 := round_error (sqrt S)). assert (K := sqrt_pos S). rewrite (Rabs_pos_eq (sqrt S)) in E4 by exact K.
  assert (Sq : sqrt S <= r + (2.6 * u * r + 0.1 * bpow radix2 (-400))) by (apply Rabs_le_inv in Rt; lra). assert (K1 : u * sqrt S <= u * (r + (2.6 * u * r + 0.1 * bpow radix2 (-400)))) by (apply Rmult_le_compat_l; lra).
  assert (0 <= u * r) by (apply Rmult_le_pos; lra). assert (u * (u * r) <= 0.01 * (u * r)) by (apply Rmult_le_compat_r; lra). assert (u * bpow radix2 (-400) <= 0.01 * bpow radix2 (-400)) by (apply Rmult_le_compat_r; lra).
  assert (E4' : eta <= 0.01 * bpow radix2 (-400)). { apply Rle_trans with (0.01 * bpow radix2 (-1000)); [|apply Rmult_le_compat_l; [lra|apply bpow_le; lia]]. eapply Rle_trans; [exact Et|]. apply Rmult_le_compat_r; lra. }
  replace (double (sqrt S) - r) with ((double (sqrt S) - sqrt S) + (sqrt S - r)) by ring. eapply Rle_trans; [apply Rabs_triang|]. lra.
Qed.

(** ** Sums over the nodes *)
Lemma sumR_seq n (f : nat -> R) : sumR (map f (seq 0 n)) = sumZ n (fun a => f (Z.to_nat a)).
Proof. induction n as [|n IH]; [reflexivity|]. rewrite seq_S, map_app, sumR_app, IH. cbn [map sumR sumZ Nat.add]. rewrite Nat2Z.id. ring. Qed.
Lemma sumR_close n c (w s H : nat -> R) e M : 0 <= e -> 0 <= M -> (forall k, (k < n)%nat -> Rabs (w k - s k) <= e) -> (forall k, (k < n)%nat -> Rabs (H k) <= M) ->
  (forall k, (k < n)%nat -> (Z.of_nat k <= c - 4 \/ c + 4 <= Z.of_nat k)%Z -> w k - s k = 0) ->
  Rabs (sumR (map (fun k => w k * H k) (seq 0 n)) - sumR (map (fun k => s k * H k) (seq 0 n))) <= 7 * e * M.
Proof.
  intros He HM Hw HH H0. rewrite !sumR_seq, sumZ_minus. eapply Rle_trans; [apply sumZ_abs|].
  apply Rle_trans with (sumZ n (fun a => M * Rabs (w (Z.to_nat a) - s (Z.to_nat a)))).
  - apply sumZ_le. intros a Ha. rewrite <- Rmult_minus_distr_r, Rabs_mult, Rmult_comm. apply Rmult_le_compat_r; [apply Rabs_pos|]. apply HH. lia.
  - rewrite sumZ_scal. replace (7 * e * M) with (M * (7 * e)) by ring. apply Rmult_le_compat_l; [exact HM|]. apply (sumZ_seven n c); [exact He|intros a Ha; apply Hw; lia|].
    intros a Ha Hc. rewrite (H0 (Z.to_nat a)) by (rewrite ?Z2Nat.id by lia; lia). apply Rabs_R0.
Qed.
Section Beam2.
  Variables (n : nat) (h dxi : R) (i : Z) (z M : R) (F G : list R).
  Hypotheses (Hh : ordinary_step h) (Hd : ordinary_step dxi) (Hn : (Z.of_nat n <= 2 ^ 46)%Z) (Hi : (0 <= i < 2 ^ 49)%Z) (Hz : in_layer dxi i z) (HM : bpow radix2 (-500) <= M).
  Hypotheses (LF : length F = n) (LG : length G = n) (BF : forall k, (k < n)%nat -> Rabs (nth k F 0) <= M) (BG : forall k, (k < n)%nat -> Rabs (nth k G 0) <= M).
  Definition hat_value (r : R) (H : nat -> R) : R := sumR (map (fun k => hat (r / h - INR k) * H k) (seq 0 n)).
  Lemma hat_value_lip r r' H B E : 0 <= B -> (forall k, (k < n)%nat -> Rabs (H k) <= B) -> Rabs (r / h - r' / h) <= E -> E <= 1 -> Rabs (hat_value r H - hat_value r' H) <= 7 * E * B.
  Proof.
    intros HB HH HE HE1. assert (E0 : 0 <= E) by (eapply Rle_trans; [apply Rabs_pos|exact HE]). assert (Fl := floorR_spec (r / h)). apply (sumR_close n (floorR (r / h))); try assumption.
    - intros k _. eapply Rle_trans; [apply hat_lip|]. replace (r / h - INR k - (r' / h - INR k)) with (r / h - r' / h) by ring. exact HE.
    - intros k _ Hk. apply Rabs_le_inv in HE. assert (O : forall t, Rabs t >= 1 -> hat t = 0) by (intros t Ht; unfold hat; apply Rmax_left; lra). rewrite INR_IZR_INZ. 
      destruct Hk as [Hk|Hk]; apply IZR_le in Hk; rewrite ?minus_IZR, ?plus_IZR in Hk; rewrite !O; try ring; first [rewrite Rabs_pos_eq by lra; lra|rewrite Rabs_left by lra; lra].
  Qed.
  Lemma one_field r : 0 <= r <= (INR n - 2) * h ->
    Rabs (interpolate_f F G (particle_weights_f r z (double (IZR (i + 1) * - dxi)) h dxi) - between h dxi (- (IZR (i + 1) * dxi)) F G r z) <= (14 * INR n + 2 * IZR i + 70) * u * M.
  Proof.
    intros Hr. assert (P := step_pos _ Hh). assert (M0 : 0 < M) by (assert (K := bpow_gt_0 radix2 (-500)); lra). assert (U := u_pos). assert (T := u_tiny). assert (UM : 0 <= u * M) by (apply Rmult_le_pos; lra).
    destruct (r_frac n h r Hh ltac:(lia) Hr) as (J0 & J1 & D01). assert (X := xi_frac dxi i z Hd Hi Hz). assert (Zn := zf_near dxi i z Hd Hi Hz). assert (Rd := fun k => radial n h Hh r k Hr). cbv zeta in Rd.
    unfold particle_weights_f. change (double (- double (double (IZR (i + 1) * - dxi) - z) / dxi)) with (zf dxi i z) in *. set (s := (z - - (IZR (i + 1) * dxi)) / dxi) in *. set (t := zf dxi i z) in *.
    set (j := floorR (double (r / h))) in *. set (d := double (double (r / h) - IZR j)) in *. clearbody t. set (j' := Z.to_nat j).
    set (H := fun k => t * nth k F 0 + (1 - t) * nth k G 0). assert (BH : forall k, (k < n)%nat -> Rabs (H k) <= 2 * M).
    { intros k Hk. unfold H. eapply Rle_trans; [apply Rabs_triang|]. rewrite !Rabs_mult. assert (A1 := BF k Hk). assert (A2 := BG k Hk). assert (T1 : Rabs t = t) by (apply Rabs_pos_eq; lra). assert (T2 : Rabs (1 - t) <= 2 - t) by (apply Rabs_le; lra). rewrite T1.
      assert (t * Rabs (nth k F 0) <= t * M) by (apply Rmult_le_compat_l; lra). assert (Rabs (1 - t) * Rabs (nth k G 0) <= (2 - t) * M) by (apply Rmult_le_compat; try apply Rabs_pos; assumption). lra. }
    (* the rounded sum *)
    pose (v := fun k : bool * bool => let a := if fst k then double (1 - t) else t in let b := if snd k then d else double (1 - d) in double (double (a * b) * at_ (if fst k then G else F) (j + if snd k then 1 else 0))).
    pose (V := fun k : bool * bool => let a := if fst k then 1 - t else t in let b := if snd k then d else 1 - d in a * b * at_ (if fst k then G else F) (j + if snd k then 1 else 0)).
    set (l4 := [(false, false); (false, true); (true, false); (true, true)]).
    assert (EQ : interpolate_f F G (j, double (t * double (1 - d)), double (t * d), double (double (1 - t) * double (1 - d)), double (double (1 - t) * d)) = fold_left (fun q k => double (q + v k)) l4 0).
    { unfold interpolate_f, l4. cbn [fold_left]. rewrite (Rplus_0_l (v (false, false))). replace (double (v (false, false))) with (v (false, false)) by (symmetry; apply double_double). unfold v. cbn [fst snd]. rewrite Z.add_0_r. reflexivity. }
    rewrite EQ. clear EQ.
    assert (At : forall k : bool * bool, Rabs (at_ (if fst k then G else F) (j + if snd k then 1 else 0)) <= M) by (intros [a b]; unfold at_; cbn [fst snd]; destruct a, b; first [apply BF|apply BG]; lia).
    assert (One : 0 < 1 <= bpow radix2 300) by (split; [lra|]; change 1 with (bpow radix2 0); apply bpow_le; lia). assert (HM' : bpow radix2 (-510) <= M) by (eapply Rle_trans; [|exact HM]; apply bpow_le; lia).
    assert (Near : forall k, In k l4 -> Rabs (v k - V k) <= 6.1 * u * M).
    { intros k _. unfold v, V. cbv zeta. set (a := if fst k then double (1 - t) else t). set (A := if fst k then 1 - t else t). set (b := if snd k then d else double (1 - d)). set (B := if snd k then d else 1 - d). specialize (At k). set (f := at_ _ _) in *. clearbody f.
      assert (Ha : approx 1.01 a A). { unfold a, A. destruct (fst k); [rd 1; [apply ap_refl|lra|apply Rabs_le; lra|lra]|eapply ap_weak; [|apply ap_refl]; lra]. } assert (Hb : approx 1.01 b B). { unfold b, B. destruct (snd k); [eapply ap_weak; [|apply ap_refl]; lra|rd 1; [apply ap_refl|lra|apply Rabs_le; lra|lra]]. }
      assert (HA : Rabs A <= 1.5) by (unfold A; destruct (fst k); apply Rabs_le; lra). assert (HB : Rabs B <= 1) by (unfold B; destruct (snd k); apply Rabs_le; lra).
      assert (BB : Rabs (A * B) <= 1.5) by (rewrite Rabs_mult; assert (P1 := Rabs_pos A); assert (P2 := Rabs_pos B); nra).
      assert (Q : approx (1.01 * 1 + 1.01 * 1.5 + / 1000) (a * b) (A * B)) by (apply ap_mul; try lra; assumption). assert (W : approx 4.5 (double (a * b)) (A * B)) by (rd 1.5; [exact Q|lra|exact BB|lra]).
      assert (K := times_charge_s 1 M f 4.5 _ _ 1.5 One HM' At ltac:(lra) BB ltac:(lra) ltac:(rewrite Rmult_1_r; exact W)). rewrite Rmult_1_r in K. rewrite (Rmult_comm _ f), (Rmult_comm _ f). eapply Rle_trans; [exact K|]. lra. }
    assert (Sz : sumR (map (fun k => Rabs (V k)) l4) <= 2 * M).
    { unfold l4. cbn [map sumR]. unfold V. cbn [fst snd]. rewrite !Rabs_mult. assert (A1 := At (false, false)). assert (A2 := At (false, true)). assert (A3 := At (true, false)). assert (A4 := At (true, true)). cbn [fst snd] in *.
      rewrite (Rabs_pos_eq t), (Rabs_pos_eq d), (Rabs_pos_eq (1 - d)) by lra. assert (T2 : Rabs (1 - t) <= 2 - t) by (apply Rabs_le; lra).
      assert (t * (1 - d) * Rabs (at_ F (j + 0)) <= t * (1 - d) * M) by (apply Rmult_le_compat_l; [apply Rmult_le_pos; lra|exact A1]). assert (t * d * Rabs (at_ F (j + 1)) <= t * d * M) by (apply Rmult_le_compat_l; [apply Rmult_le_pos; lra|exact A2]).
      assert (Rabs (1 - t) * (1 - d) * Rabs (at_ G (j + 0)) <= (2 - t) * (1 - d) * M) by (apply Rmult_le_compat; [apply Rmult_le_pos; [apply Rabs_pos|lra]|apply Rabs_pos|apply Rmult_le_compat_r; lra|exact A3]).
      assert (Rabs (1 - t) * d * Rabs (at_ G (j + 1)) <= (2 - t) * d * M) by (apply Rmult_le_compat; [apply Rmult_le_pos; [apply Rabs_pos|lra]|apply Rabs_pos|apply Rmult_le_compat_r; lra|exact A4]).
      replace (2 * M) with (t * (1 - d) * M + (t * d * M + ((2 - t) * (1 - d) * M + ((2 - t) * d * M + 0)))) by ring. lra. }
    assert (Cl := fold_close v V l4 6.1 M 2 ltac:(cbn; lia) ltac:(lra) ltac:(lra) (fun k _ => double_double _) Near Sz ltac:(lra)). change (length l4) with 4%nat in Cl. replace (INR 4) with 4 in Cl by (cbn; lra).
    (* the exact sum as one over all nodes *)
    set (w := fun k => if (j =? Z.of_nat k)%Z then 1 - d else if (j + 1 =? Z.of_nat k)%Z then d else 0) in *.
    assert (SV : sumR (map V l4) = sumR (map (fun k => w k * H k) (seq 0 n))).
    { rewrite (sumR_two _ n j').
      - unfold w, l4, V, H, at_, j'. cbn [map sumR fst snd]. rewrite Nat2Z.inj_succ, Z2Nat.id by lia. rewrite Z.eqb_refl. destruct (Z.eqb_spec j (Z.succ j)); [lia|]. destruct (Z.eqb_spec (j + 1) (Z.succ j)); [|lia]. rewrite Z.add_0_r. replace (Z.to_nat (j + 1)) with (Datatypes.S (Z.to_nat j)) by lia. ring.
      - unfold j'. lia.
      - intros k K1 K2. unfold w. destruct (Z.eqb_spec j (Z.of_nat k)); [unfold j' in *; lia|]. destruct (Z.eqb_spec (j + 1) (Z.of_nat k)); [unfold j' in *; lia|]. ring. }
    assert (N0 := pos_INR n). assert (Rn : 0 <= r / h) by (apply Rmult_le_pos; [lra|left; now apply Rinv_0_lt_compat]).
    assert (E1 := round_error (r / h)). rewrite (Rabs_pos_eq (r / h)) in E1 by exact Rn. assert (Et := eta_u).
    assert (Rq : r / h <= INR n) by (apply (Rmult_le_reg_r h); [exact P|]; unfold Rdiv; rewrite Rmult_assoc, Rinv_l by lra; lra).
    assert (Nu : INR n * u <= / 100). { assert (K : INR n <= IZR (2 ^ 46)) by (rewrite INR_IZR_INZ; now apply IZR_le). assert (V0 := u_small). replace (IZR (2 ^ 53)) with (128 * IZR (2 ^ 46)) in V0 by (rewrite <- mult_IZR; reflexivity). nra. }
    assert (E1' : Rabs (double (r / h) - r / h) <= 0.1). { assert (u * (r / h) <= u * INR n) by (apply Rmult_le_compat_l; lra). lra. } apply Rabs_le_inv in E1'. assert (Fl := floorR_spec (double (r / h))). fold j in Fl.
    assert (Wc := sumR_close n j w (fun k => hat (r / h - INR k)) H ((INR n + 1.1) * u) (2 * M) ltac:(apply Rmult_le_pos; lra) ltac:(lra) (fun k _ => Rd k) BH).
    assert (Wo : forall k, (k < n)%nat -> (Z.of_nat k <= j - 4 \/ j + 4 <= Z.of_nat k)%Z -> w k - hat (r / h - INR k) = 0).
    { intros k _ Hk. unfold w. destruct (Z.eqb_spec j (Z.of_nat k)); [lia|]. destruct (Z.eqb_spec (j + 1) (Z.of_nat k)); [lia|]. assert (O : forall q, Rabs q >= 1 -> hat q = 0) by (intros q Hq; unfold hat; apply Rmax_left; lra). rewrite INR_IZR_INZ.
      destruct Hk as [Hk|Hk]; apply IZR_le in Hk; rewrite ?minus_IZR, ?plus_IZR in Hk; rewrite !O; try ring; first [rewrite Rabs_pos_eq by lra; lra|rewrite Rabs_left by lra; lra]. }
    specialize (Wc Wo). rewrite <- SV in Wc.
    (* the longitudinal share *)
    assert (Bt : between h dxi (- (IZR (i + 1) * dxi)) F G r z = s * hat_value r (fun k => nth k F 0) + (1 - s) * hat_value r (fun k => nth k G 0)).
    { unfold between, hat_value. fold s. rewrite LF. clear. generalize (seq 0 n). induction l as [|k l IH]; cbn [map sumR]; [ring|]. rewrite IH. ring. }
    assert (Ht : sumR (map (fun k => hat (r / h - INR k) * H k) (seq 0 n)) = t * hat_value r (fun k => nth k F 0) + (1 - t) * hat_value r (fun k => nth k G 0)).
    { unfold hat_value, H. clear. generalize (seq 0 n). induction l as [|k l IH]; cbn [map sumR]; [ring|]. rewrite IH. ring. }
    assert (Hv : forall f : nat -> R, (forall k, (k < n)%nat -> Rabs (f k) <= M) -> Rabs (hat_value r f) <= M).
    { intros f Hf. unfold hat_value. set (jr := floorR (r / h)). assert (Fr := floorR_spec (r / h)). fold jr in Fr. assert (Jr : (0 <= jr)%Z) by (apply floorR_nonneg; exact Rn).
      assert (Rl : r / h <= INR n - 2) by (apply (Rmult_le_reg_r h); [exact P|]; unfold Rdiv; rewrite Rmult_assoc, Rinv_l by lra; lra). assert (Jn : (jr + 1 < Z.of_nat n)%Z) by (apply lt_IZR; rewrite plus_IZR, <- INR_IZR_INZ; lra).
      rewrite (sumR_two _ n (Z.to_nat jr)); [|lia|].
      - rewrite S_INR, INR_IZR_INZ, Z2Nat.id by exact Jr. set (p := r / h) in *. replace (hat (p - IZR jr)) with (1 - (p - IZR jr)) by (unfold hat, Rmax, Rabs; repeat destruct (Rle_dec _ _); repeat destruct (Rcase_abs _); lra).
        replace (hat (p - (IZR jr + 1))) with (p - IZR jr) by (unfold hat, Rmax, Rabs; repeat destruct (Rle_dec _ _); repeat destruct (Rcase_abs _); lra). assert (F1 := Hf (Z.to_nat jr) ltac:(lia)). assert (F2 := Hf (Datatypes.S (Z.to_nat jr)) ltac:(lia)).
        eapply Rle_trans; [apply Rabs_triang|]. rewrite !Rabs_mult, (Rabs_pos_eq (1 - (p - IZR jr))), (Rabs_pos_eq (p - IZR jr)) by lra. assert (Q01 : 0 <= p - IZR jr <= 1) by lra. set (q := p - IZR jr) in *. clearbody q.
        assert ((1 - q) * Rabs (f (Z.to_nat jr)) <= (1 - q) * M) by (apply Rmult_le_compat_l; lra). assert (q * Rabs (f (Datatypes.S (Z.to_nat jr))) <= q * M) by (apply Rmult_le_compat_l; lra). lra.
      - intros k K1 K2. assert (O : forall q, Rabs q >= 1 -> hat q = 0) by (intros q Hq; unfold hat; apply Rmax_left; lra). rewrite O; [ring|]. rewrite INR_IZR_INZ. destruct (Z_le_gt_dec (Z.of_nat k) jr) as [L|L].
        + assert (Lk : (Z.of_nat k <= jr - 1)%Z) by lia. apply IZR_le in Lk. rewrite minus_IZR in Lk. rewrite Rabs_pos_eq by lra. lra.
        + assert (Lk : (jr + 2 <= Z.of_nat k)%Z) by lia. apply IZR_le in Lk. rewrite plus_IZR in Lk. rewrite Rabs_left by lra. lra. }
    rewrite Ht in Wc. rewrite Bt. assert (VF := Hv _ BF). assert (VG := Hv _ BG). set (f := hat_value r (fun k => nth k F 0)) in *. set (g := hat_value r (fun k => nth k G 0)) in *. set (q := fold_left _ l4 0) in *. set (y := sumR (map V l4)) in *.
    assert (Fg : Rabs (f - g) <= 2 * M). { replace (f - g) with (f + - g) by ring. eapply Rle_trans; [apply Rabs_triang|]. rewrite Rabs_Ropp. lra. }
    assert (Lo : Rabs ((t - s) * (f - g)) <= (IZR i + 4) * u * (2 * M)) by (rewrite Rabs_mult; apply Rmult_le_compat; try apply Rabs_pos; assumption).
    replace (q - (s * f + (1 - s) * g)) with ((q - y) + ((y - (t * f + (1 - t) * g)) + (t - s) * (f - g))) by ring. eapply Rle_trans; [apply Rabs_triang|]. eapply Rle_trans; [apply Rplus_le_compat_l, Rabs_triang|]. lra.
  Qed.
End Beam2.

(** The six field components that a particle of the 2D beam at (x, y) feels are those of the layers above and below it,
    linear in xi and in the distance from the axis, to a relative error (of the largest value on the nodes) of a few units
    in the last place per node and per layer. *)
Theorem C76_2d_beam_field : forall n h dxi i x y z fl fu M, ordinary_step h -> ordinary_step dxi -> (Z.of_nat n <= 2 ^ 46)%Z -> (0 <= i < 2 ^ 49)%Z -> in_layer dxi i z ->
  sqrt (x ^ 2 + y ^ 2) <= (INR n - 3) * h -> bpow radix2 (-500) <= M -> nodes n fl -> nodes n fu ->
  (forall k f, (k < n)%nat -> In f [E_r; E_f; E_z; B_f; B_z] -> Rabs (nth k (f fl) 0) <= M /\ Rabs (nth k (f fu) 0) <= M) ->
  let '((ex, ey, ez), (bx, by_, bz)) := particle_fields_f (x, y, z) fl fu (border dxi (i + 1)) h dxi in
  let near v sg f := Rabs (v - sg * between h dxi (- (IZR (i + 1) * dxi)) (f fu) (f fl) (sqrt (x ^ 2 + y ^ 2)) z) <= (84 * INR n + 2 * IZR i + 100) * rounding * M in
  near ex 1 E_r /\ near ey 1 E_f /\ near ez 1 E_z /\ near bx (-1) E_f /\ near by_ 1 B_f /\ near bz 1 B_z.
Proof.
  intros n h dxi i x y z fl fu M Hh Hd Hn Hi Hz Hr HM NL NU HB. unfold particle_fields_f. cbn [vx vy vz fst snd]. cbv zeta.
  set (r := sqrt (x ^ 2 + y ^ 2)) in *. set (r' := radius_f x y). assert (Rn := radius_near x y). cbv zeta in Rn. fold r in Rn. fold r' in Rn. assert (R0 : 0 <= r) by apply sqrt_pos. assert (U := u_pos). assert (T := u_tiny). assert (P := step_pos _ Hh).
  assert (M0 : 0 < M) by (assert (K := bpow_gt_0 radix2 (-500)); lra). assert (UM : 0 <= u * M) by (apply Rmult_le_pos; lra). assert (N0 := pos_INR n).
  assert (Nu : INR n * u <= / 100). { assert (K : INR n <= IZR (2 ^ 46)) by (rewrite INR_IZR_INZ; now apply IZR_le). assert (V0 := u_small). replace (IZR (2 ^ 53)) with (128 * IZR (2 ^ 46)) in V0 by (rewrite <- mult_IZR; reflexivity). nra. }
  assert (Sm : bpow radix2 (-400) <= u * h). { destruct Hh as [Hh _]. apply Rle_trans with (u * bpow radix2 (-100)); [|apply Rmult_le_compat_l; lra]. rewrite <- bpow_plus. apply bpow_le. lia. }
  assert (Rh : r / h <= INR n - 3) by (apply (Rmult_le_reg_r h); [exact P|]; unfold Rdiv; rewrite Rmult_assoc, Rinv_l by lra; lra).
  assert (UH : 0 <= u * h) by (apply Rmult_le_pos; lra).
  assert (Re : Rabs (r' - r) <= (4 * INR n) * u * h). { eapply Rle_trans; [exact Rn|]. assert (u * r <= u * ((INR n - 3) * h)) by (apply Rmult_le_compat_l; lra). lra. }
  assert (Rd : Rabs (r' / h - r / h) <= 4 * INR n * u). { replace (r' / h - r / h) with ((r' - r) / h) by (field; lra). unfold Rdiv. rewrite Rabs_mult, (Rabs_pos_eq (/ h)) by (left; now apply Rinv_0_lt_compat). apply (Rmult_le_reg_r h); [exact P|]. rewrite Rmult_assoc, Rinv_l by lra. lra. }
  assert (R' : 0 <= r' <= (INR n - 2) * h). { split; [unfold r', radius_f; apply (double_ge_int _ 0); [lia|apply sqrt_pos]|]. apply Rabs_le_inv in Re. assert (INR n * u * h <= / 100 * h) by (apply Rmult_le_compat_r; lra). lra. }
  replace (border dxi (i + 1)) with (double (IZR (i + 1) * - dxi)) by (unfold border; f_equal; ring).
  assert (Main : forall f, In f [E_r; E_f; E_z; B_f; B_z] -> length (f fl) = n -> length (f fu) = n ->
    Rabs (interpolate_f (f fu) (f fl) (particle_weights_f r' z (double (IZR (i + 1) * - dxi)) h dxi) - between h dxi (- (IZR (i + 1) * dxi)) (f fu) (f fl) r z) <= (84 * INR n + 2 * IZR i + 100) * u * M).
  { intros f Hf LL LU. assert (BL : forall k, (k < n)%nat -> Rabs (nth k (f fl) 0) <= M) by (intros k Hk; apply (HB k f Hk Hf)). assert (BU : forall k, (k < n)%nat -> Rabs (nth k (f fu) 0) <= M) by (intros k Hk; apply (HB k f Hk Hf)).
    assert (One := one_field n h dxi i z M (f fu) (f fl) Hh Hd Hn Hi Hz HM LU LL BU BL r' R'). cbv zeta in One.
    assert (Zn := zf_near dxi i z Hd Hi Hz). assert (X := xi_frac dxi i z Hd Hi Hz). change (double (- double (double (IZR (i + 1) * - dxi) - z) / dxi)) with (zf dxi i z) in X. set (s := (z - - (IZR (i + 1) * dxi)) / dxi) in *.
    assert (I0 : IZR i * u <= 0.1). { assert (K : IZR i <= IZR (2 ^ 49)) by (apply IZR_le; lia). assert (V0 := u_small). replace (IZR (2 ^ 53)) with (16 * IZR (2 ^ 49)) in V0 by (rewrite <- mult_IZR; reflexivity). nra. }
    assert (S : - (0.2) <= s <= 1.7) by (apply Rabs_le_inv in Zn; lra).
    set (H := fun k => s * nth k (f fu) 0 + (1 - s) * nth k (f fl) 0). assert (BH : forall k, (k < n)%nat -> Rabs (H k) <= 2.4 * M).
    { intros k Hk. unfold H. specialize (BL k Hk). specialize (BU k Hk). eapply Rle_trans; [apply Rabs_triang|]. rewrite !Rabs_mult. assert (A0 : Rabs s + Rabs (1 - s) <= 2.4) by (unfold Rabs; repeat destruct (Rcase_abs _); lra).
      assert (Rabs s * Rabs (nth k (f fu) 0) <= Rabs s * M) by (apply Rmult_le_compat_l; [apply Rabs_pos|exact BU]). assert (Rabs (1 - s) * Rabs (nth k (f fl) 0) <= Rabs (1 - s) * M) by (apply Rmult_le_compat_l; [apply Rabs_pos|exact BL]).
      apply Rle_trans with ((Rabs s + Rabs (1 - s)) * M); [lra|]. apply Rmult_le_compat_r; lra. }
    assert (Bt : forall q, between h dxi (- (IZR (i + 1) * dxi)) (f fu) (f fl) q z = hat_value n h q H) by (intros q; unfold between, hat_value; fold s; rewrite LU; reflexivity).
    assert (Lip := hat_value_lip n h r' r H (2.4 * M) (4 * INR n * u) ltac:(lra) BH Rd ltac:(lra)). rewrite Bt in *.
    set (a := interpolate_f _ _ _) in *. replace (a - hat_value n h r H) with ((a - hat_value n h r' H) + (hat_value n h r' H - hat_value n h r H)) by ring. eapply Rle_trans; [apply Rabs_triang|]. 
    assert (0 <= INR n * u * M) by (apply Rmult_le_pos; [apply Rmult_le_pos; lra|lra]). lra. }
  change rounding with u. destruct NL as (L1 & L2 & L3 & L4 & L5). destruct NU as (K1 & K2 & K3 & K4 & K5).
  assert (A1 := Main E_r ltac:(cbn; auto) L1 K1). assert (A2 := Main E_f ltac:(cbn; auto) L2 K2). assert (A3 := Main E_z ltac:(cbn; auto 6) L3 K3). assert (A4 := Main B_f ltac:(cbn; auto 6) L4 K4). assert (A5 := Main B_z ltac:(cbn; auto 7) L5 K5).
  rewrite !Rmult_1_l. repeat split; try assumption.
  match goal with |- Rabs ?e <= _ => replace e with (- (interpolate_f (E_f fu) (E_f fl) (particle_weights_f r' z (double (IZR (i + 1) * - dxi)) h dxi) - between h dxi (- (IZR (i + 1) * dxi)) (E_f fu) (E_f fl) r z)) by ring end. rewrite Rabs_Ropp. exact A2.
Qed.

(** A particle at (3/4, 1), two and a half cells from the axis, in the middle of the first layer. *)
Definition case_upper : fields := mkF [0;1;2;3;4;5] [0;-1;-2;-3;0;0] [1;1;1;1;1;1] [0;0;2;4;0;0] [9;9;8;8;9;9].
Definition case_lower : fields := mkF [0;2;4;6;8;10] [0;1;0;0;0;0] [3;3;3;3;3;3] [0;0;0;0;0;0] [9;9;8;8;9;9].
Example C76_2d_beam_case :
  let '((ex, ey, ez), (bx, by_, bz)) := particle_fields_f (3/4, 1, - (1/4)) case_lower case_upper (border (1/2) 1) (1/2) (1/2) in
  let near v e := Rabs (v - e) <= 7000 * rounding in
  near ex (15/4) /\ near ey (- (5/4)) /\ near ez 2 /\ near bx (5/4) /\ near by_ (3/2) /\ near bz 8.
Proof.
  assert (B0 : border (1/2) 0 = 0) by (rewrite case_border by lia; lra). assert (B1 : border (1/2) 1 = - (1/2)) by (rewrite case_border by lia; lra).
  assert (Sq : sqrt ((3/4) ^ 2 + 1 ^ 2) = 5/4) by (replace ((3/4) ^ 2 + 1 ^ 2) with ((5/4) * (5/4)) by lra; apply sqrt_square; lra).
  assert (HB : forall k f, (k < 6)%nat -> In f [E_r; E_f; E_z; B_f; B_z] -> Rabs (nth k (f case_lower) 0) <= 10 /\ Rabs (nth k (f case_upper) 0) <= 10).
  { intros k f Hk Hf. do 6 (destruct k as [|k]; [repeat (destruct Hf as [<-|Hf]; [cbn; split; apply Rabs_le; lra|]); destruct Hf|]). lia. }
  assert (K := C76_2d_beam_field 6 (1/2) (1/2) 0 (3/4) 1 (- (1/4)) case_lower case_upper 10 case_step case_step ltac:(cbn; lia) ltac:(lia) ltac:(unfold in_layer; cbn [Z.add]; rewrite B0, B1; lra)
    ltac:(rewrite Sq; cbn; lra) ltac:(rewrite <- (Rabs_pos_eq 10) by lra; apply case_ordinary; rewrite Rabs_pos_eq; lra) ltac:(repeat split) ltac:(repeat split) HB).
  change (0 + 1)%Z with 1%Z in K. destruct (particle_fields_f _ _ _ _ _ _) as [[[ex ey] ez] [[bx by_] bz]]. cbv zeta in K. rewrite Sq in K. destruct K as (K1 & K2 & K3 & K4 & K5 & K6).
  assert (H0 : forall k, Rabs (5/4 / (1/2) - INR k) >= 1 -> hat (5/4 / (1/2) - INR k) = 0) by (intros k Hk; unfold hat; apply Rmax_left; lra).
  assert (H2 : hat (5/4 / (1/2) - INR 2) = 1/2). { replace (5/4 / (1/2) - INR 2) with (1/2) by (cbn; field). unfold hat. rewrite Rabs_pos_eq by lra. rewrite Rmax_right; lra. }
  assert (H3 : hat (5/4 / (1/2) - INR 3) = 1/2). { replace (5/4 / (1/2) - INR 3) with (- (1/2)) by (cbn; field). unfold hat. rewrite Rabs_left by lra. rewrite Rmax_right; lra. }
  assert (Hs : (- (1/4) - - (1 * (1/2))) / (1/2) = 1/2) by field.
  assert (Bt : forall F G, length F = 6%nat -> between (1/2) (1/2) (- (1 * (1/2))) F G (5/4) (- (1/4)) = (nth 2 F 0 + nth 3 F 0 + nth 2 G 0 + nth 3 G 0) / 4).
  { intros F G LF. unfold between. rewrite LF, Hs. cbn [seq map sumR]. rewrite H2, H3, !H0; [cbn; lra| | | |]; cbn; match goal with |- Rabs ?e >= 1 => first [assert (e <= -1) by lra; rewrite Rabs_left by lra; lra|assert (1 <= e) by lra; rewrite Rabs_pos_eq by lra; lra] end. }
  rewrite Bt in K1, K2, K3, K4, K5, K6 by reflexivity. cbn [nth case_upper case_lower E_r E_f E_z B_f B_z] in *. replace (INR 6) with 6 in * by (cbn; lra). assert (U := u_pos). rewrite rounding_u in *.
  cbv zeta. repeat split; (match goal with |- Rabs (?v - _) <= _ => match goal with H : Rabs (v - _) <= _ |- _ => apply Rabs_le; apply Rabs_le_inv in H; lra end end).
Qed.
Print Assumptions C76_2d_beam_field.
