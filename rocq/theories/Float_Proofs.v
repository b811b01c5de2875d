(** Lemmas for C66. *)
From Coq Require Import Reals ZArith Lia Lra Psatz.
From Flocq Require Import Core Relative.
From Verif Require Import Float_Model.
Open Scope R_scope.

Notation u := (bpow radix2 (-53)).
Lemma u_pos : 0 < u. Proof. apply bpow_gt_0. Qed.
Lemma u_small : u * IZR (2 ^ 53) = 1.
Proof. change (2 ^ 53)%Z with (Zpower radix2 53). rewrite IZR_Zpower by lia. rewrite <- bpow_plus. reflexivity. Qed.

(** x is y up to the rounding of m operations *)
Definition err (m : R) (x y : R) : Prop := y * (1 - 2 * m * u) <= x <= y * (1 + 2 * m * u).
Definition tiny : R := bpow radix2 (-1022).
Lemma tiny_pos : 0 < tiny. Proof. apply bpow_gt_0. Qed.

Lemma double_rel x : tiny <= x -> x * (1 - u) <= double x <= x * (1 + u).
Proof.
  intros H. assert (Hp := tiny_pos).
  assert (E : Rabs (double x - x) <= / 2 * bpow radix2 (- (53) + 1) * Rabs x).
  { unfold double. apply relative_error_N_FLT; [reflexivity|]. cbn. rewrite Rabs_pos_eq by lra. exact H. }
  replace (/ 2 * bpow radix2 (-(53) + 1)) with u in E.
  2:{ replace (-(53) + 1)%Z with (-53 + 1)%Z by lia. rewrite (bpow_plus radix2 (-53) 1). cbn [bpow Z.pow_pos]. change (IZR (Z.pow_pos radix2 1)) with 2. lra. }
  rewrite (Rabs_pos_eq x) in E by lra. apply Rabs_le_inv in E. lra.
Qed.
Lemma err_double m x y : 0 < y -> 0 <= m -> m <= IZR (2 ^ 50) -> tiny <= x -> err m x y -> err (m + 1) (double x) y.
Proof.
  intros Hy Hm HM Hx [A B]. assert (U := u_pos). assert (V := u_small). destruct (double_rel x Hx) as [C D].
  assert (M : 2 * m * u <= 1 / 4). { assert (IZR (2^53) = 8 * IZR (2^50)) by (rewrite <- mult_IZR; reflexivity). nra. }
  assert (Mp : 0 <= 2 * m * u) by nra. set (w := 2 * m * u) in *.
  assert (E : 2 * (m + 1) * u = w + 2 * u) by (unfold w; ring). unfold err. rewrite E. clearbody w.
  assert (Us : u <= 1). { assert (1 <= IZR (2^53)) by (apply IZR_le; lia). nra. }
  split.
  - apply Rle_trans with (x * (1 - u)); [|exact C]. apply Rle_trans with (y * (1 - w) * (1 - u)); [|apply Rmult_le_compat_r; lra].
    rewrite Rmult_assoc. apply Rmult_le_compat_l; [lra|]. nra.
  - apply Rle_trans with (x * (1 + u)); [exact D|]. apply Rle_trans with (y * (1 + w) * (1 + u)); [apply Rmult_le_compat_r; lra|].
    rewrite Rmult_assoc. apply Rmult_le_compat_l; [lra|]. nra.
Qed.
Lemma err_refl x : err 0 x x. Proof. unfold err. lra. Qed.
Lemma err_scale m c x y : 0 <= c -> err m x y -> err m (c * x) (c * y).
Proof. intros Hc [A B]. split; rewrite Rmult_assoc; apply Rmult_le_compat_l; auto. Qed.
Lemma err_plus m x y x' y' : err m x y -> err m x' y' -> err m (x + x') (y + y').
Proof. unfold err. intros A B. lra. Qed.
Lemma err_weak m m' x y : 0 <= y -> m <= m' -> err m x y -> err m' x y.
Proof.
  intros Hy H [A B]. assert (U := u_pos).
  assert (0 <= y * (2 * m' * u - 2 * m * u)) by (apply Rmult_le_pos; nra). split; lra.
Qed.
Lemma err_abs m x y : 0 <= y -> err m x y -> Rabs (x - y) <= y * (2 * m * u).
Proof. intros Hy [A B]. apply Rabs_le. lra. Qed.
Lemma err_div a A s S : 0 < A -> 0 < S -> err 1 a A -> err 1 s S -> err 3 (a / s) (A / S).
Proof.
  intros HA HS [A1 A2] [S1 S2]. assert (U := u_pos). assert (V := u_small).
  assert (Us : u <= 1 / 100). { assert (100 <= IZR (2^53)) by (apply IZR_le; lia). nra. }
  assert (0 < S * (1 - 2 * 1 * u)) by (apply Rmult_lt_0_compat; lra).
  assert (Sp : 0 < s) by lra. assert (Q : 0 < A / S) by (apply Rdiv_lt_0_compat; auto).
  assert (EA : A = A / S * S) by (field; lra). set (q := A / S) in *. clearbody q. subst A. split.
  - apply (Rmult_le_reg_r s); [exact Sp|]. replace (a / s * s) with a by (field; lra).
    apply Rle_trans with (q * (1 - 2 * 3 * u) * (S * (1 + 2 * 1 * u))); [apply Rmult_le_compat_l; [apply Rmult_le_pos; lra|exact S2]|].
    eapply Rle_trans; [|exact A1]. assert (0 <= q * S) by nra. nra.
  - apply (Rmult_le_reg_r s); [exact Sp|]. replace (a / s * s) with a by (field; lra). eapply Rle_trans; [exact A2|].
    apply Rle_trans with (q * (1 + 2 * 3 * u) * (S * (1 - 2 * 1 * u))); [|apply Rmult_le_compat_l; [apply Rmult_le_pos; lra|exact S1]].
    assert (0 <= q * S) by nra. nra.
Qed.

(** ** Rounding helpers *)
#[local] Instance prec53 : Prec_gt_0 53. Proof. reflexivity. Qed.
Lemma double_mono x y : x <= y -> double x <= double y.
Proof. intros H. unfold double. apply round_le; [typeclasses eauto..|exact H]. Qed.
Lemma double_opp x : double (- x) = - double x.
Proof. unfold double. apply round_NE_opp. Qed.
Lemma double_0 : double 0 = 0.
Proof. apply round_0. typeclasses eauto. Qed.
(** doubles: m * 2^e with |m| < 2^53 *)
Lemma double_exact m e : (Z.abs m < 2 ^ 53)%Z -> (-1074 <= e)%Z -> double (IZR m * bpow radix2 e) = IZR m * bpow radix2 e.
Proof.
  intros Hm He. apply round_generic; [typeclasses eauto|]. apply generic_format_FLT. exists (Float radix2 m e); auto.
Qed.
(** rounding of a number known to a quarter of a digit *)
Lemma double_is x m e : (2 ^ 52 <= m < 2 ^ 53)%Z -> (-1074 <= e)%Z -> bpow radix2 (e + 52) <= x < bpow radix2 (e + 53) ->
  Rabs (x * bpow radix2 (- e) - IZR m) < / 2 -> double x = IZR m * bpow radix2 e.
Proof.
  intros Hm He Hx H. unfold double, round, F2R, scaled_mantissa, cexp. 
  assert (M : mag radix2 x = (e + 53)%Z :> Z). { apply mag_unique_pos. replace (e + 53 - 1)%Z with (e + 52)%Z by lia. exact Hx. }
  rewrite M. unfold FLT_exp. replace (Z.max (e + 53 - 53) (-1074)) with e by lia. cbn [Fnum Fexp]. f_equal. f_equal. now apply Znearest_imp.
Qed.
Lemma int_format (n : Z) : (Z.abs n <= 2 ^ 53)%Z -> double (IZR n) = IZR n.
Proof.
  intros H. destruct (Z.eq_dec (Z.abs n) (2 ^ 53)) as [E|E].
  - assert (n = 2 * (n / 2))%Z. { destruct (Z.abs_eq_or_opp n) as [K|K]; rewrite K in E; [rewrite E; reflexivity|]. replace n with (- 2 ^ 53)%Z by lia. reflexivity. }
    rewrite H0, mult_IZR, Rmult_comm. change 2 with (bpow radix2 1). apply double_exact; lia.
  - replace (IZR n) with (IZR n * bpow radix2 0) by (cbn; ring). apply double_exact; lia.
Qed.

Lemma trunc_near n q : (1 <= n)%Z -> Rabs (q - IZR n) < / 2 -> Ztrunc q = n \/ Ztrunc q = (n - 1)%Z.
Proof.
  intros Hn H. apply Rabs_def2 in H. assert (1 <= IZR n) by (apply IZR_le; lia).
  rewrite Ztrunc_floor by lra. destruct (Rle_dec (IZR n) q).
  - left. apply Zfloor_imp. rewrite plus_IZR. lra.
  - right. apply Zfloor_imp. replace (n - 1 + 1)%Z with n by lia. rewrite minus_IZR. lra.
Qed.
(** rounding of a number known to less than half a digit, binary places k *)
Lemma double_dec x m k : (2 ^ 52 < m < 2 ^ 53)%Z -> (0 <= k <= 1074)%Z -> Rabs (x * IZR (2 ^ k) - IZR m) < / 2 -> double x = IZR m / IZR (2 ^ k).
Proof.
  intros Hm Hk H. assert (B : bpow radix2 k = IZR (2 ^ k)) by (symmetry; change (2 ^ k)%Z with (Zpower radix2 k); apply IZR_Zpower; lia).
  assert (P := bpow_gt_0 radix2 k). assert (I : bpow radix2 (- k) = / IZR (2 ^ k)) by (rewrite bpow_opp, B; reflexivity).
  assert (K : 0 < IZR (2 ^ k)) by (rewrite <- B; exact P). unfold Rdiv. rewrite <- I. apply double_is; try lia.
  - assert (E1 : bpow radix2 (- k + 52) = IZR (2 ^ 52) * / IZR (2 ^ k)) by (rewrite bpow_plus, I, Rmult_comm; reflexivity).
    assert (E2 : bpow radix2 (- k + 53) = IZR (2 ^ 53) * / IZR (2 ^ k)) by (rewrite bpow_plus, I, Rmult_comm; reflexivity).
    rewrite E1, E2. apply Rabs_def2 in H. assert (M1 : IZR (2 ^ 52) + 1 <= IZR m) by (rewrite <- (plus_IZR _ 1); apply IZR_le; lia).
    assert (M2 : IZR m + 1 <= IZR (2 ^ 53)) by (rewrite <- (plus_IZR _ 1); apply IZR_le; lia).
    assert (X : x = x * IZR (2 ^ k) * / IZR (2 ^ k)) by (field; lra). assert (Q : 0 < / IZR (2 ^ k)) by (apply Rinv_0_lt_compat; exact K).
    rewrite X. split; [apply Rmult_le_compat_r|apply Rmult_lt_compat_r]; lra.
  - rewrite Z.opp_involutive, B. exact H.
Qed.
Lemma err_div_gen m a A s S : 0 <= m <= IZR (2 ^ 40) -> 0 < A -> 0 < S -> err m a A -> err 1 s S -> err (m + 2) (a / s) (A / S).
Proof.
  intros Hm HA HS [A1 A2] [S1 S2]. assert (U := u_pos). assert (V := u_small).
  assert (Mu : 2 * (m + 2) * u <= 1 / 100). { assert (V' : IZR (2 ^ 53) = 8192 * IZR (2 ^ 40)) by (rewrite <- mult_IZR; reflexivity). assert (1 <= IZR (2^40)) by (apply IZR_le; lia). nra. }
  assert (Us : u <= 1 / 100) by nra.
  assert (0 < S * (1 - 2 * 1 * u)) by (apply Rmult_lt_0_compat; lra).
  assert (Sp : 0 < s) by lra. assert (Q : 0 < A / S) by (apply Rdiv_lt_0_compat; auto).
  assert (EA : A = A / S * S) by (field; lra). set (q := A / S) in *. clearbody q. subst A. set (v := 2 * (m + 2) * u) in *.
  assert (E : 2 * m * u = v - 4 * u) by (unfold v; ring). rewrite E in *. unfold err. fold v. assert (V0 : 0 <= v - 4 * u) by (rewrite <- E; nra). clearbody v. assert (QS : 0 <= q * S) by nra. split.
  - apply (Rmult_le_reg_r s); [exact Sp|]. replace (a / s * s) with a by (field; lra).
    apply Rle_trans with (q * (1 - v) * (S * (1 + 2 * 1 * u))); [apply Rmult_le_compat_l; [apply Rmult_le_pos; lra|exact S2]|].
    eapply Rle_trans; [|exact A1]. replace (q * (1 - v) * (S * (1 + 2 * 1 * u))) with (q * S * ((1 - v) * (1 + 2 * u))) by ring. apply Rmult_le_compat_l; [exact QS|]. nra.
  - apply (Rmult_le_reg_r s); [exact Sp|]. replace (a / s * s) with a by (field; lra). eapply Rle_trans; [exact A2|].
    apply Rle_trans with (q * (1 + v) * (S * (1 - 2 * 1 * u))); [|apply Rmult_le_compat_l; [apply Rmult_le_pos; lra|exact S1]].
    replace (q * (1 + v) * (S * (1 - 2 * 1 * u))) with (q * S * ((1 + v) * (1 - 2 * u))) by ring. apply Rmult_le_compat_l; [exact QS|]. nra.
Qed.
