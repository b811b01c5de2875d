(** Lemmas for C74: sums of rounded contributions added to arrays one rounding at a time. *)
From Coq Require Import Reals ZArith List Bool Lra Lia Psatz.
From Flocq Require Import Core Relative Plus_error.
From Verif Require Import Float_Model Float_Proofs Beam2D_Model Beam2D_Spec Shape_Model Shape_Spec Shape_Proofs RoundedBeam_Spec.
Import ListNotations.
Open Scope R_scope.

Local Instance prec53 : Prec_gt_0 53 := eq_refl.
Lemma u_is : / 2 * bpow radix2 (- (53) + 1) = u.
Proof. replace (-(53) + 1)%Z with (-53 + 1)%Z by lia. rewrite (bpow_plus radix2 (-53) 1). change (bpow radix2 1) with 2. lra. Qed.
Lemma u_tiny : u <= / 1000000000000.
Proof.
  assert (U := u_small). assert (P := u_pos). assert (K : 1000000000000 <= IZR (2 ^ 53)) by (apply IZR_le; lia).
  assert (u * 1000000000000 <= 1) by nra. lra.
Qed.
(** the smallest double, halved *)
Definition eta : R := bpow radix2 (-1075).
Lemma eta_pos : 0 < eta. Proof. apply bpow_gt_0. Qed.
Lemma round_error x : Rabs (double x - x) <= u * Rabs x + eta.
Proof.
  destruct (error_N_FLT radix2 (-1074) 53 eq_refl (fun n => negb (Z.even n)) x) as (e & d & He & Hd & _ & E). rewrite u_is in He.
  assert (Hd' : Rabs d <= eta). { unfold eta. replace (-1075)%Z with (-1074 + -1)%Z by lia. rewrite bpow_plus. change (bpow radix2 (-1)) with (/2). rewrite Rmult_comm. exact Hd. }
  unfold double. rewrite E. replace (x * (1 + e) + d - x) with (x * e + d) by ring. eapply Rle_trans; [apply Rabs_triang|]. rewrite Rabs_mult.
  assert (0 <= Rabs x) by apply Rabs_pos. nra.
Qed.
Lemma double_double x : is_double (double x).
Proof. unfold is_double, double. apply round_generic; [apply valid_rnd_N|]. apply generic_format_round; [apply FLT_exp_valid; reflexivity|apply valid_rnd_N]. Qed.
Lemma format_of x : is_double x -> generic_format radix2 (FLT_exp (-1074) 53) x.
Proof. intros H. rewrite <- H. apply generic_format_round; [apply FLT_exp_valid; reflexivity|apply valid_rnd_N]. Qed.
(** a sum of doubles never underflows *)
Lemma sum_error x y : is_double x -> is_double y -> Rabs (double (x + y) - (x + y)) <= u * Rabs (x + y).
Proof.
  intros Hx Hy. destruct (FLT_plus_error_N_ex radix2 (-1074) 53 (fun n => negb (Z.even n)) x y (format_of x Hx) (format_of y Hy)) as (e & He & E).
  unfold double. rewrite E. replace ((x + y) * (1 + e) - (x + y)) with (e * (x + y)) by ring. rewrite Rabs_mult. apply Rmult_le_compat_r; [apply Rabs_pos|].
  eapply Rle_trans; [exact He|]. unfold u_ro. rewrite u_is. assert (U := u_pos). apply (Rmult_le_reg_r (1 + u)); [lra|]. unfold Rdiv. rewrite Rmult_assoc, Rinv_l by lra. nra.
Qed.

(** ** Bookkeeping: total, sum of absolute values, contributions *)
Definition sum_abs (l : list R) : R := sumR (map Rabs l).
Lemma sumR_app a b : sumR (a ++ b) = sumR a + sumR b.
Proof. induction a as [|x a IH]; cbn; lra. Qed.
Lemma sum_abs_app a b : sum_abs (a ++ b) = sum_abs a + sum_abs b.
Proof. unfold sum_abs. rewrite map_app. apply sumR_app. Qed.
Lemma sum_abs_pos l : 0 <= sum_abs l.
Proof. unfold sum_abs. induction l as [|x l IH]; cbn; [lra|]. assert (K := Rabs_pos x). lra. Qed.
(** from total [t] and sum of absolute values [a] to [t'] and [a'] by adding the [vs] one by one *)
Definition added (t a : R) (vs : list R) (t' a' : R) : Prop :=
  Rabs (t' - t - sumR vs) <= (a + sum_abs vs) * ((1 + u) ^ length vs - 1) /\ a' <= (a + sum_abs vs) * (1 + u) ^ length vs.
Lemma pow_u_ge n : 1 <= (1 + u) ^ n.
Proof. apply pow_R1_Rle. assert (U := u_pos). lra. Qed.
Lemma added_nil t a : added t a [] t a.
Proof. unfold added. cbn. replace (t - t - 0) with 0 by ring. rewrite Rabs_R0. lra. Qed.
Lemma added_app t a x t1 a1 y t2 a2 : 0 <= a -> added t a x t1 a1 -> added t1 a1 y t2 a2 -> added t a (x ++ y) t2 a2.
Proof.
  intros Ha [H1 H2] [H3 H4]. unfold added. rewrite sumR_app, sum_abs_app, app_length, pow_add. rewrite <- (Rplus_assoc a).
  assert (P := pow_u_ge (length x)). assert (Q := pow_u_ge (length y)). set (p := (1 + u) ^ length x) in *. set (q := (1 + u) ^ length y) in *. clearbody p q.
  assert (Sx := sum_abs_pos x). assert (Sy := sum_abs_pos y). set (X := a + sum_abs x) in *. set (Y := sum_abs y) in *. assert (HX : 0 <= X) by (unfold X; lra).
  assert (B : (a1 + Y) <= X * p + Y * 1) by lra. clearbody X Y.
  split.
  - replace (t2 - t - (sumR x + sumR y)) with ((t2 - t1 - sumR y) + (t1 - t - sumR x)) by ring. eapply Rle_trans; [apply Rabs_triang|].
    assert (K1 : (a1 + Y) * (q - 1) <= (X * p + Y * 1) * (q - 1)) by (apply Rmult_le_compat_r; lra). 
    assert (K2 : 0 <= Y * (q * (p - 1))) by (apply Rmult_le_pos; [lra|apply Rmult_le_pos; lra]). nra.
  - assert (K1 : (a1 + Y) * q <= (X * p + Y * 1) * q) by (apply Rmult_le_compat_r; lra). assert (K2 : 0 <= Y * (q * (p - 1))) by (apply Rmult_le_pos; [lra|apply Rmult_le_pos; lra]). nra.
Qed.
Lemma added_one t a g v : is_double g -> is_double v -> Rabs g <= a -> added t a [v] (t - g + double (g + v)) (a - Rabs g + Rabs (double (g + v))).
Proof.
  intros Hg Hv Ha. assert (E := sum_error g v Hg Hv). assert (T := Rabs_triang g v). assert (U := u_pos). unfold added, sum_abs. cbn [sumR map length pow]. split.
  - replace (t - g + double (g + v) - t - (v + 0)) with (double (g + v) - (g + v)) by ring. nra.
  - assert (K : Rabs (double (g + v)) <= Rabs (g + v) + u * Rabs (g + v)). { replace (double (g + v)) with ((g + v) + (double (g + v) - (g + v))) by ring. eapply Rle_trans; [apply Rabs_triang|]. lra. }
    assert (0 <= Rabs v) by apply Rabs_pos. assert (0 <= Rabs g) by apply Rabs_pos. nra.
Qed.
Lemma pow_u_le n : (Z.of_nat n <= 2 ^ 52)%Z -> (1 + u) ^ n - 1 <= 2 * INR n * u.
Proof.
  intros H. assert (U := u_pos). induction n as [|n IH]; [cbn; lra|]. specialize (IH ltac:(lia)). rewrite S_INR. cbn [pow].
  assert (K : INR n * u <= / 2). { assert (INR n <= IZR (2 ^ 52)) by (rewrite INR_IZR_INZ; apply IZR_le; lia). assert (V := u_small). replace (IZR (2 ^ 53)) with (2 * IZR (2 ^ 52)) in V by (rewrite <- mult_IZR; reflexivity). nra. }
  assert (P := pow_u_ge n). nra.
Qed.

(** ** Arrays that are functions of one index, summed over a list of cells *)
Section Fun.
  Context {A : Type} (eqb : A -> A -> bool) (eqb_spec : forall a b, eqb a b = true <-> a = b).
  Definition put (g : A -> R) (c : A) (v : R) : A -> R := fun a => if eqb a c then double (g a + v) else g a.
  Definition puts (g : A -> R) (l : list (A * R)) : A -> R := fold_left (fun g cv => put g (fst cv) (snd cv)) l g.
  Lemma put_out cells g c v (f : R -> R) : ~ In c cells -> map (fun a => f (put g c v a)) cells = map (fun a => f (g a)) cells.
  Proof.
    intros H. apply map_ext_in. intros a Ha. unfold put. destruct (eqb a c) eqn:E; [|reflexivity]. apply eqb_spec in E. subst. contradiction.
  Qed.
  Lemma put_sum cells g c v (f : R -> R) : NoDup cells -> In c cells ->
    sumR (map (fun a => f (put g c v a)) cells) = sumR (map (fun a => f (g a)) cells) - f (g c) + f (double (g c + v)).
  Proof.
    induction 1 as [|x l Hx Hd IH]; intros Hin; [destruct Hin|]. cbn [map sumR]. destruct Hin as [->|Hin].
    - rewrite put_out by exact Hx. unfold put at 1. rewrite (proj2 (eqb_spec c c) eq_refl). lra.
    - rewrite IH by exact Hin. unfold put at 1. destruct (eqb x c) eqn:E; [apply eqb_spec in E; subst; contradiction|lra].
  Qed.
  Lemma part_le (cells : list A) (g : A -> R) c : In c cells -> Rabs (g c) <= sumR (map (fun a => Rabs (g a)) cells).
  Proof.
    assert (P : forall l, 0 <= sumR (map (fun a => Rabs (g a)) l)) by (induction l as [|x l IH]; cbn; [lra|assert (K := Rabs_pos (g x)); lra]).
    induction cells as [|x l IH]; intros H; [destruct H|]. cbn. destruct H as [->|H]; [specialize (P l); lra|]. specialize (IH H). assert (K := Rabs_pos (g x)). lra.
  Qed.
  Lemma puts_added cells : NoDup cells -> forall l g, (forall a, is_double (g a)) -> (forall c v, In (c, v) l -> In c cells /\ is_double v) ->
    (forall a, is_double (puts g l a)) /\ added (sumR (map g cells)) (sumR (map (fun a => Rabs (g a)) cells)) (map snd l) (sumR (map (puts g l) cells)) (sumR (map (fun a => Rabs (puts g l a)) cells)).
  Proof.
    intros Hd. induction l as [|[c v] l IH]; intros g Hg Hl; [split; [exact Hg|apply added_nil]|]. cbn [puts fold_left fst snd map].
    destruct (Hl c v (or_introl eq_refl)) as [Hc Hv].
    assert (Hg' : forall a, is_double (put g c v a)) by (intros a; unfold put; destruct (eqb a c); [apply double_double|apply Hg]).
    destruct (IH (put g c v) Hg' (fun c' v' I => Hl c' v' (or_intror I))) as [K1 K2]. split; [exact K1|].
    eapply (added_app _ _ [v]); [|apply (added_one _ _ (g c) v); [apply Hg|exact Hv|apply part_le; exact Hc]|].
    - assert (K := part_le cells g c Hc). assert (0 <= Rabs (g c)) by apply Rabs_pos. lra.
    - assert (E1 : sumR (map (put g c v) cells) = sumR (map g cells) - g c + double (g c + v)) by (apply (put_sum cells g c v (fun x => x)); assumption).
      rewrite <- E1, <- (put_sum cells g c v Rabs) by assumption. exact K2.
  Qed.
End Fun.
