(** Theorems C66: counting cells, layers and steps in floating point. *)
From Coq Require Import Reals ZArith List Lia Lra Psatz.
From Flocq Require Import Core.
From Verif Require Import Float_Model Float_Proofs Diag_Model Diag_Spec Diag_Proofs.
From Verif Require Config_Model Config_Spec Config_Proofs.
From Verif Require Import Beam2D_Model Beam2D_Spec Beam2D_Free Plasma2D_Model Plasma2D_Spec Plasma2D_Dep Plasma2D_Dens.
From Verif Require Beam2D_Ex.
Import ListNotations.
Open Scope R_scope.

(** Numbers far from overflow and underflow. *)
Definition ordinary (x : R) : Prop := bpow radix2 (-900) <= x <= bpow radix2 900.

Lemma ord_pos x : ordinary x -> 0 < x.
Proof. intros [H _]. eapply Rlt_le_trans; [apply bpow_gt_0|exact H]. Qed.
Lemma ord_tiny x : ordinary x -> 64 * tiny <= x.
Proof.
  intros [H _]. eapply Rle_trans; [|exact H]. unfold tiny. change 64 with (bpow radix2 6). rewrite <- bpow_plus. apply bpow_le. lia.
Qed.
Lemma ord_err x : ordinary x -> err 1 (double x) x.
Proof.
  intros H. replace 1 with (0 + 1) by ring. assert (T := ord_tiny x H). assert (P := tiny_pos). assert (X := ord_pos x H).
  apply err_double; try lra. apply err_refl.
Qed.
Lemma ord_double x : ordinary x -> 32 * tiny <= double x.
Proof.
  intros H. destruct (ord_err x H) as [A _]. assert (T := ord_tiny x H). assert (U := u_pos). assert (V := u_small).
  assert (Us : Float_Proofs.u <= 1 / 100). { assert (100 <= IZR (2^53)) by (apply IZR_le; lia). nra. }
  assert (P := tiny_pos). nra.
Qed.

(** The quotient of two options is the quotient of the written numbers up to four roundings. *)
Lemma quotient_err A S : ordinary A -> ordinary S -> 4 * tiny <= A / S -> err 4 (double (double A / double S)) (A / S).
Proof.
  intros HA HS HQ. assert (P := tiny_pos). assert (E := err_div _ _ _ _ (ord_pos _ HA) (ord_pos _ HS) (ord_err _ HA) (ord_err _ HS)).
  replace 4 with (3 + 1) by ring. apply err_double; try lra.
  - destruct E as [E _]. assert (U := u_pos). assert (V := u_small).
    assert (Us : Float_Proofs.u <= 1 / 100). { assert (100 <= IZR (2^53)) by (apply IZR_le; lia). nra. } nra.
  - exact E.
Qed.
Lemma eight_u : 8 * Float_Proofs.u * IZR (2 ^ 48) = 1 / 4.
Proof. assert (V := u_small). assert (IZR (2^53) = 32 * IZR (2^48)) by (rewrite <- mult_IZR; reflexivity). nra. Qed.
Lemma one_ok : 4 * tiny <= 1.
Proof. unfold tiny. change 4 with (bpow radix2 2). rewrite <- bpow_plus. change 1 with (bpow radix2 0). apply bpow_le. lia. Qed.
Lemma near_whole A S n : ordinary A -> ordinary S -> (1 <= n <= 2 ^ 48)%Z -> A = IZR n * S ->
  Rabs (double (double A / double S) - IZR n) < / 2.
Proof.
  intros HA HS Hn E. assert (Sp := ord_pos _ HS). assert (Q : A / S = IZR n) by (rewrite E; field; lra).
  assert (N : 1 <= IZR n) by (apply IZR_le; lia). assert (N' : IZR n <= IZR (2^48)) by (apply IZR_le; lia).
  assert (R := quotient_err A S HA HS). rewrite Q in R. assert (O := one_ok). specialize (R ltac:(lra)).
  apply err_abs in R; [|lra]. eapply Rle_lt_trans; [exact R|]. assert (U := u_pos). assert (W := eight_u). nra.
Qed.

(** A length written as n steps: int(length / step) is n or one less, for any decimals. *)
Theorem C66_count_is_at_most_one_short : forall length step n, ordinary length -> ordinary step -> (1 <= n <= 2 ^ 48)%Z -> length = IZR n * step ->
  whole_parts (double length) (double step) = n \/ whole_parts (double length) (double step) = (n - 1)%Z.
Proof. intros A S n HA HS Hn E. apply trunc_near; [lia|]. now apply near_whole. Qed.
Print Assumptions C66_count_is_at_most_one_short.

(** round(length / step), which the 3D code uses for the layers, is always n. *)
Theorem C66_rounded_count_is_exact : forall length step n, ordinary length -> ordinary step -> (1 <= n <= 2 ^ 48)%Z -> length = IZR n * step ->
  nearest_parts (double length) (double step) = n.
Proof. intros A S n HA HS Hn E. apply Znearest_imp. now apply near_whole. Qed.
Print Assumptions C66_rounded_count_is_exact.

(** A length that is not within one part in 2^50 of a whole number of steps is counted right by int(). *)
Theorem C66_count_of_broken_length : forall length step n, ordinary length -> ordinary step -> (0 <= n < 2 ^ 48)%Z -> 4 * tiny <= length / step ->
  IZR n * (1 + bpow radix2 (-50)) <= length / step -> length / step * (1 + bpow radix2 (-50)) < IZR (n + 1) ->
  whole_parts (double length) (double step) = n.
Proof.
  intros A S n HA HS Hn Hq L U. destruct (quotient_err A S HA HS Hq) as [E1 E2]. set (q := A / S) in *. set (d := double (double A / double S)) in *.
  assert (B : bpow radix2 (-50) = 8 * Float_Proofs.u). { change 8 with (bpow radix2 3). rewrite <- bpow_plus. reflexivity. }
  rewrite B in *. assert (P := u_pos). assert (T := tiny_pos). assert (V := u_small).
  assert (Us : Float_Proofs.u <= 1 / 100). { assert (100 <= IZR (2^53)) by (apply IZR_le; lia). nra. }
  assert (N : 0 <= IZR n) by (apply IZR_le; lia).
  assert (D : 0 <= d). { apply Rle_trans with (q * (1 - 2 * 4 * Float_Proofs.u)); [|exact E1]. apply Rmult_le_pos; lra. }
  unfold whole_parts, py_int. fold d. rewrite Ztrunc_floor by exact D. apply Zfloor_imp. split; [|nra].
  destruct (Rle_dec (IZR n) d) as [G|G]; [exact G|exfalso]. apply G. clear G.
  (* d is the rounding of something at least n *)
  unfold d. rewrite <- (int_format n) by lia. apply double_mono.
  destruct (err_div _ _ _ _ (ord_pos _ HA) (ord_pos _ HS) (ord_err _ HA) (ord_err _ HS)) as [F _]. fold q in F.
  eapply Rle_trans; [|exact F]. apply Rle_trans with (IZR n * (1 + 8 * Float_Proofs.u) * (1 - 2 * 3 * Float_Proofs.u)); [|apply Rmult_le_compat_r; lra].
  rewrite Rmult_assoc. rewrite <- (Rmult_1_r (IZR n)) at 1. apply Rmult_le_compat_l; [exact N|]. nra.
Qed.
Print Assumptions C66_count_of_broken_length.

(** When the step is itself a double (0.25, 0.5, 25, ...) and the length is n steps of it, the count is n. *)
Theorem C66_count_of_exact_steps_is_exact : forall step n, 0 < step -> (0 <= n <= 2 ^ 53)%Z ->
  whole_parts (IZR n * step) step = n.
Proof.
  intros s n Hs Hn. unfold whole_parts, py_int. replace (IZR n * s / s) with (IZR n) by (field; lra). rewrite int_format by lia. apply Ztrunc_IZR.
Qed.
Print Assumptions C66_count_of_exact_steps_is_exact.

(** ** One short happens: 0.3 in steps of 0.1 is counted as two, 5.1 in steps of the default 0.05 as 101. *)
Lemma tenth : double 0.1 = IZR 7205759403792794 / IZR (2 ^ 56).
Proof. apply double_dec; try lia. apply Rabs_def1; cbn; lra. Qed.
Lemma three_tenths : double 0.3 = IZR 5404319552844595 / IZR (2 ^ 54).
Proof. apply double_dec; try lia. apply Rabs_def1; cbn; lra. Qed.
Lemma twentieth : double 0.05 = IZR 7205759403792794 / IZR (2 ^ 57).
Proof. apply double_dec; try lia. apply Rabs_def1; cbn; lra. Qed.
Lemma five_one : double 5.1 = IZR 5742089524897382 / IZR (2 ^ 50).
Proof. apply double_dec; try lia. apply Rabs_def1; cbn; lra. Qed.
Lemma short_3 : whole_parts (double 0.3) (double 0.1) = 2%Z.
Proof.
  unfold whole_parts, py_int. rewrite tenth, three_tenths.
  rewrite (double_dec _ 6755399441055743 51); try lia; [|apply Rabs_def1; cbn; lra]. rewrite Ztrunc_floor by (cbn; lra). apply Zfloor_imp. cbn. lra.
Qed.
Lemma short_102 : whole_parts (double 5.1) (double 0.05) = 101%Z.
Proof.
  unfold whole_parts, py_int. rewrite twentieth, five_one.
  rewrite (double_dec _ 7177611906121727 46); try lia; [|apply Rabs_def1; cbn; lra]. rewrite Ztrunc_floor by (cbn; lra). apply Zfloor_imp. cbn. lra.
Qed.
Lemma bpow_lt1 e : (e < 0)%Z -> bpow radix2 e < 1.
Proof. intros H. change 1 with (bpow radix2 0). now apply bpow_lt. Qed.
Lemma ord_mid x : 1 / 1024 <= x <= 1024 -> ordinary x.
Proof.
  intros H. split.
  - apply Rle_trans with (bpow radix2 (-10)); [apply bpow_le; lia|]. cbn. lra.
  - apply Rle_trans with (bpow radix2 10); [cbn; lra|apply bpow_le; lia].
Qed.
(** The number of time steps, of 2D layers and of 2D cells is not the length divided by the step. *)
Theorem C66_count_is_exact_refuted :
  ~ (forall length step n, ordinary length -> ordinary step -> (1 <= n <= 2 ^ 48)%Z -> length = IZR n * step ->
       whole_parts (double length) (double step) = n).
Proof.
  intros H. specialize (H 0.3 0.1 3%Z (ord_mid 0.3 ltac:(lra)) (ord_mid 0.1 ltac:(lra)) ltac:(lia) ltac:(lra)). rewrite short_3 in H. discriminate.
Qed.
Print Assumptions C66_count_is_exact_refuted.

(** ** In 2D a cell counted short is not only missing: the initial plasma still fills the written width, so its
    outermost particle writes past the end of the arrays. *)
Lemma overrun_any w h n ppc : 0 < h -> (2 <= n)%nat -> (3 <= ppc)%nat -> IZR (Z.of_nat n) - 1 / 100 <= w / h < IZR (Z.of_nat n) ->
  exists p, In p (init_electrons w h ppc (fun _ => 1) 0) /\ d_rho (deposit2 h n [p]) n <> 0.
Proof.
  intros Hh Hn Hp Hq. assert (N : 2 <= INR n) by (apply (le_INR 2) in Hn; cbn in Hn; lra). rewrite <- INR_IZR_INZ in Hq.
  assert (F : floorR (w / h) = Z.of_nat (n - 1)). { apply Beam2D_Ex.floor_unique. rewrite <- INR_IZR_INZ, minus_INR by lia. cbn [INR]. lra. }
  assert (HP : 0 < PI) by apply PI_RGT_0. set (np := ((n - 1) * ppc)%nat).
  assert (NP : (1 <= np)%nat) by (unfold np; nia). assert (NP' : 1 <= INR np) by (apply (le_INR 1) in NP; cbn in NP; lra).
  set (dr := w / INR np). set (r := (INR (np - 1) + 0.5) * dr).
  assert (W : w = w / h * h) by (field; lra). set (q := w / h) in *. assert (Qp : 1 < q) by lra. clearbody q.
  assert (Wp : 0 < w) by (rewrite W; apply Rmult_lt_0_compat; lra).
  assert (Dr : 0 < dr) by (apply Rdiv_lt_0_compat; lra).
  assert (Hr : r = w - dr / 2). { unfold r, dr. rewrite minus_INR by lia. cbn [INR]. replace 0.5 with (1 / 2) by lra. field. lra. }
  assert (P3 : 3 <= INR ppc) by (apply (le_INR 3) in Hp; cbn in Hp; lra).
  assert (Nn : INR np = (INR n - 1) * INR ppc) by (unfold np; rewrite mult_INR, minus_INR by lia; reflexivity).
  assert (Dh : dr <= h * (2 / 3)).
  { apply (Rmult_le_reg_r (INR np)); [lra|]. unfold dr. replace (w / INR np * INR np) with w by (field; lra). rewrite W, Nn.
    assert (q <= (INR n - 1) * 2) by lra. assert ((INR n - 1) * 2 <= (INR n - 1) * INR ppc * (2 / 3)) by nra. nra. }
  assert (Rp : 0 < r) by (rewrite Hr; nra).
  set (p := mkPl r 0 0 0 (- (2 * PI * dr * r) * 1) (2 * PI * dr * r * 1) (if Rlt_dec 0 0 then 0 else 0)).
  assert (M : 0 < 2 * PI * dr * r) by (apply Rmult_lt_0_compat; [apply Rmult_lt_0_compat; [lra|exact Dr]|exact Rp]).
  exists p. split.
  - unfold init_electrons, place_particles. replace (w / h) with q by (rewrite W; field; lra). rewrite F, Nat2Z.id. fold np. fold dr. apply filter_In. split.
    + rewrite map_map. apply in_map_iff. exists (np - 1)%nat. split; [reflexivity|]. apply in_seq. lia.
    + destruct (Req_EM_T (q_ p) 0) as [e|e]; [|reflexivity]. unfold p in e. cbn [q_] in e. lra.
  - assert (m : m_ p <> 0) by (unfold p; cbn [m_]; lra).
    assert (RH : INR n - 1 / 2 <= r / h < INR n).
    { assert (E : r / h = q - dr / h / 2). { rewrite Hr. rewrite W at 1. field. lra. }
      assert (dr / h <= 2 / 3). { apply (Rmult_le_reg_r h); [lra|]. replace (dr / h * h) with dr by (field; lra). lra. }
      assert (0 < dr / h) by (apply Rdiv_lt_0_compat; lra). lra. }
    assert (C : cell2 h (r_ p) = Z.of_nat n). { apply Beam2D_Ex.floor_unique. rewrite <- INR_IZR_INZ. cbn [r_ p]. lra. }
    unfold deposit2, close_ends, set_at. cbn [d_rho fold_left]. unfold deposit_particle. fold (gm_of p). fold (dep_of p).
    rewrite (rest_charge p m eq_refl eq_refl eq_refl). rewrite C.
    replace (Z.of_nat n =? 0)%Z with false by (symmetry; apply Z.eqb_neq; lia). cbn [fold_left].
    replace (Z.of_nat n =? Z.of_nat n - 1)%Z with false by (symmetry; apply Z.eqb_neq; lia). cbn [andb].
    replace (Z.to_nat (Z.of_nat n + -1)) with (n - 1)%nat by lia. replace (Z.to_nat (Z.of_nat n + 0)) with n by lia. replace (Z.to_nat (Z.of_nat n + 1)) with (n + 1)%nat by lia.
    unfold add4, add_at, zero_dens, zeros. cbn [d_rho]. rewrite Nat.eqb_refl.
    replace (n =? n - 1)%nat with false by (symmetry; apply Nat.eqb_neq; lia). replace (n =? n + 1)%nat with false by (symmetry; apply Nat.eqb_neq; lia).
    cbn [weight_quadratic]. rewrite <- INR_IZR_INZ. cbn [r_ p]. set (x := r / h - INR n). assert (Hx : -1 / 2 <= x < 0) by (unfold x; lra).
    assert (0 < 3 / 4 - x ^ 2) by nra. assert (q_ p < 0) by (unfold p; cbn [q_]; lra). nra.
Qed.
Theorem C66_short_count_overruns_the_arrays : forall width step n ppc, ordinary width -> ordinary step -> (2 <= n <= 2 ^ 40)%Z -> (3 <= ppc)%nat ->
  width = IZR n * step -> let w := double width in let h := double step in whole_parts w h = (n - 1)%Z ->
  let array_length := S (Z.to_nat (whole_parts w h)) in
  exists p i, In p (init_electrons w h ppc (fun _ => 1) 0) /\ (array_length <= i)%nat /\ d_rho (deposit2 h array_length [p]) i <> 0.
Proof.
  intros W S0 n ppc HW HS Hn Hp E w h K len. assert (Sp := ord_pos _ HS). assert (Hh : 0 < h) by (assert (T := ord_double _ HS); assert (T' := tiny_pos); unfold h; lra).
  assert (Q : W / S0 = IZR n) by (rewrite E; field; lra). assert (N : 2 <= IZR n) by (apply IZR_le; lia). assert (N' : IZR n <= IZR (2 ^ 40)) by (apply IZR_le; lia).
  assert (D := err_div _ _ _ _ (ord_pos _ HW) Sp (ord_err _ HW) (ord_err _ HS)). rewrite Q in D. fold w h in D.
  assert (U := u_pos). assert (V := u_small). assert (V' : IZR (2 ^ 53) = 8192 * IZR (2 ^ 40)) by (rewrite <- mult_IZR; reflexivity).
  assert (L : len = Z.to_nat n) by (unfold len; rewrite K; lia).
  destruct (overrun_any w h (Z.to_nat n) ppc Hh ltac:(lia) Hp) as (p & P1 & P2).
  - rewrite Z2Nat.id by lia. destruct D as [D1 D2]. split.
    + eapply Rle_trans; [|exact D1]. assert (IZR n * (2 * 3 * Float_Proofs.u) <= 1 / 100) by nra. lra.
    + destruct (Rlt_dec (w / h) (IZR n)) as [G|G]; [exact G|exfalso]. apply Rnot_lt_le in G. apply double_mono in G. rewrite int_format in G by lia.
      unfold whole_parts, py_int in K. apply Ztrunc_le in G. rewrite Ztrunc_IZR, K in G. lia.
  - exists p, (Z.to_nat n). rewrite L. auto.
Qed.
Print Assumptions C66_short_count_overruns_the_arrays.
(** With the default transverse step of 0.05 a window of 5.1 does this. *)
Example C66_default_step_overruns : let w := double 5.1 in let h := double 0.05 in whole_parts w h = 101%Z /\
  exists p i, In p (init_electrons w h 10 (fun _ => 1) 0) /\ (102 <= i)%nat /\ d_rho (deposit2 h 102 [p]) i <> 0.
Proof.
  cbn zeta. split; [exact short_102|].
  assert (H := C66_short_count_overruns_the_arrays 5.1 0.05 102 10 (ord_mid 5.1 ltac:(lra)) (ord_mid 0.05 ltac:(lra)) ltac:(lia) ltac:(lia) ltac:(lra)). cbn zeta in H.
  rewrite short_102 in H. exact (H eq_refl).
Qed.

(** ** Running again with the settings that were written to runas.py *)
Import Config_Model.
(** In exact arithmetic a size already friendly to the FFT stays. *)
Theorem C66_adjusted_grid_is_kept : forall n, (0 <= n)%Z -> Config_Spec.fft_friendly n -> optimal_steps n = Some n.
Proof.
  intros n Hn F. destruct (optimal_steps n) as [m|] eqn:E.
  - destruct (Config_Proofs.optimal_steps_some n m E) as (_ & _ & _ & B & _). specialize (B n Hn F). f_equal. lia.
  - exfalso. apply (proj1 (Config_Proofs.optimal_steps_none n) E n Hn ltac:(lia) F).
Qed.
Print Assumptions C66_adjusted_grid_is_kept.

Lemma friendly_odd n : (0 <= n)%Z -> Config_Spec.fft_friendly n -> (n mod 2 = 1)%Z.
Proof.
  intros Hn F. apply Config_Proofs.good_size_spec in F; [|exact Hn]. unfold good_size in F. destruct (factorize (n - 1)); [|discriminate].
  apply andb_prop in F as [_ F]. apply Bool.negb_true_iff, Z.eqb_neq in F. assert (0 <= n mod 2 < 2)%Z by (apply Z.mod_pos_bound; lia). lia.
Qed.
(** In doubles the second run has the same number of cells or two less. *)
Lemma again n step : ordinary step -> (1 <= n <= 2 ^ 40)%Z ->
  let e := estimate_3d (written_width (stored_width n (double step))) (double step) in e = n \/ e = (n - 1)%Z.
Proof.
  intros HS Hn e. unfold e, estimate_3d, whole_parts, py_int, written_width, stored_width. clear e. apply trunc_near; [lia|].
  assert (N : 1 <= IZR n) by (apply IZR_le; lia). assert (N' : IZR n <= IZR (2 ^ 40)) by (apply IZR_le; lia).
  set (h := double step). assert (T := ord_double _ HS). fold h in T. assert (T' := tiny_pos). assert (U := u_pos). assert (V := u_small).
  assert (V' : IZR (2 ^ 53) = 8192 * IZR (2 ^ 40)) by (rewrite <- mult_IZR; reflexivity). assert (B40 : IZR (2 ^ 40) <= IZR (2 ^ 50)) by (apply IZR_le; lia).
  assert (Us : Float_Proofs.u <= 1 / 1000). { assert (1000 <= IZR (2^53)) by (apply IZR_le; lia). nra. }
  clearbody h. assert (K : 32 * tiny <= IZR n * h) by nra. assert (Kp : 0 < IZR n * h) by lra.
  assert (E1 : err (0 + 1) (double (IZR n * h)) (IZR n * h)). { apply err_double; try lra. apply err_refl. }
  replace (0 + 1) with 1 in E1 by ring.
  assert (E2 : err (1 + 1) (double (double (IZR n * h) / 2)) (/ 2 * (IZR n * h))).
  { apply err_double; try lra.
    - destruct E1 as [E1 _]. nra.
    - replace (double (IZR n * h) / 2) with (/ 2 * double (IZR n * h)) by field. apply err_scale; [lra|exact E1]. }
  replace (1 + 1) with 2 in E2 by ring.
  set (w := double (double (IZR n * h) / 2)) in *.
  assert (E3 : err (2 + 1) (double (2 * w)) (IZR n * h)).
  { assert (X : err 2 (2 * w) (IZR n * h)). { replace (IZR n * h) with (2 * (/ 2 * (IZR n * h))) by field. apply err_scale; [lra|exact E2]. }
    apply err_double; try lra; [|exact X]. destruct X as [X _]. nra. }
  replace (2 + 1) with 3 in E3 by ring. assert (Hh : 0 < h) by lra.
  assert (E4 := err_div_gen 3 _ _ h h ltac:(assert (4 <= IZR (2 ^ 40)) by (apply IZR_le; lia); lra) Kp Hh E3 (err_weak 0 1 h h ltac:(lra) ltac:(lra) (err_refl h))).
  replace (IZR n * h / h) with (IZR n) in E4 by (field; lra). replace (3 + 2) with 5 in E4 by ring.
  assert (E5 : err (5 + 1) (double (double (2 * w) / h)) (IZR n)).
  { apply err_double; try lra; [|exact E4]. destruct E4 as [E4 _]. assert (O := one_ok). nra. }
  apply err_abs in E5; [|lra]. eapply Rle_lt_trans; [exact E5|]. nra.
Qed.
Theorem C66_rerun_loses_at_most_two_cells : forall step n n', ordinary step -> (1 <= n <= 2 ^ 40)%Z -> Config_Spec.fft_friendly n ->
  optimal_steps (estimate_3d (written_width (stored_width n (double step))) (double step)) = Some n' -> n' = n \/ n' = (n - 2)%Z.
Proof.
  intros step n n' HS Hn F H. destruct (again n step HS Hn) as [E|E]; rewrite E in H.
  - rewrite (C66_adjusted_grid_is_kept n) in H; [left; congruence|lia|exact F].
  - destruct (Config_Proofs.optimal_steps_some _ _ H) as (F' & P & _ & B & _). specialize (B n ltac:(lia) F).
    assert (O := friendly_odd n ltac:(lia) F). assert (O' := friendly_odd n' P F').
    assert (n' = n \/ n' = n - 2 \/ n' = n - 1)%Z as [->|[->| ->]] by lia; auto.
    exfalso. rewrite Zminus_mod, O in O'. discriminate.
Qed.
Print Assumptions C66_rerun_loses_at_most_two_cells.

Lemma hundredth : double 0.01 = IZR 5764607523034235 / IZR (2 ^ 59).
Proof. apply double_dec; try lia. apply Rabs_def1; cbn; lra. Qed.
Lemma two_26 : double 2.26 = IZR 5089067578928660 / IZR (2 ^ 51).
Proof. apply double_dec; try lia. apply Rabs_def1; cbn; lra. Qed.
(** A window of 2.26 with step 0.01 is simulated with 451 cells; with the settings then written, with 449. *)
Theorem C66_rerun_keeps_the_grid_refuted :
  ~ (forall width step n n', ordinary width -> ordinary step -> optimal_steps (estimate_3d (double width) (double step)) = Some n ->
       optimal_steps (estimate_3d (written_width (stored_width n (double step))) (double step)) = Some n' -> n' = n).
Proof.
  intros H. assert (E1 : estimate_3d (double 2.26) (double 0.01) = 451%Z).
  { unfold estimate_3d, whole_parts, py_int. rewrite two_26, hundredth. rewrite (double_dec (2 * _) 5089067578928660 50); try lia; [|apply Rabs_def1; cbn; lra].
    rewrite (double_dec _ 7951668092076031 44); try lia; [|apply Rabs_def1; cbn; lra]. rewrite Ztrunc_floor by (cbn; lra). apply Zfloor_imp. cbn. lra. }
  assert (E2 : estimate_3d (written_width (stored_width 451 (double 0.01))) (double 0.01) = 450%Z).
  { unfold estimate_3d, whole_parts, py_int, written_width, stored_width. rewrite hundredth.
    rewrite (double_dec (IZR 451 * _) 5077808579860234 50); try lia; [|apply Rabs_def1; cbn; lra].
    rewrite (double_dec (_ / 2) 5077808579860234 51); try lia; [|apply Rabs_def1; cbn; lra].
    rewrite (double_dec (2 * _) 5077808579860234 50); try lia; [|apply Rabs_def1; cbn; lra].
    rewrite (double_dec _ 7934075906031615 44); try lia; [|apply Rabs_def1; cbn; lra]. rewrite Ztrunc_floor by (cbn; lra). apply Zfloor_imp. cbn. lra. }
  specialize (H 2.26 0.01 451%Z 449%Z (ord_mid 2.26 ltac:(lra)) (ord_mid 0.01 ltac:(lra))). rewrite E1, E2 in H.
  assert (G := H ltac:(vm_compute; reflexivity) ltac:(vm_compute; reflexivity)). discriminate.
Qed.
Print Assumptions C66_rerun_keeps_the_grid_refuted.

(** ** Output times.  The clock of the ranks is summed up in doubles and compared with multiples of a period; for an
    output period of k time steps and up to four million steps every k-th step is output, and no other. *)
Lemma two_40 : IZR (2 ^ 40) * (8192 * Float_Proofs.u) = 1.
Proof. assert (V := u_small). assert (V' : IZR (2 ^ 53) = 8192 * IZR (2 ^ 40)) by (rewrite <- mult_IZR; reflexivity). lra. Qed.
Lemma clock_err dt size rank j : ordinary dt -> (1 <= size)%nat -> INR j <= IZR (2 ^ 22) ->
  err (INR j + 2) (clock (double dt) size rank j) (INR (rank + 1 + j * size) * dt).
Proof.
  intros H Hs. assert (D := ord_err dt H). assert (T := ord_double dt H). assert (Tp := tiny_pos). assert (Dp := ord_pos dt H). assert (T4 := ord_tiny dt H).
  assert (B : IZR (2 ^ 22) + 2 <= IZR (2 ^ 50)) by (rewrite <- plus_IZR; apply IZR_le; lia).
  assert (PR : forall k, (1 <= k)%nat -> err 2 (double (double dt * IZR (Z.of_nat k))) (INR k * dt)).
  { intros k Hk. assert (1 <= INR k) by (apply (le_INR 1) in Hk; cbn in Hk; lra). replace 2 with (1 + 1) by ring. rewrite <- INR_IZR_INZ. apply err_double; try lra.
    - apply Rmult_lt_0_compat; lra.
    - nra.
    - rewrite Rmult_comm. apply err_scale; [lra|exact D]. }
  induction j as [|j IH]; intros Hj.
  - cbn [clock INR]. rewrite Nat.mul_0_l, Nat.add_0_r. replace (0 + 2) with 2 by ring. apply PR. lia.
  - assert (Hj' : INR j <= IZR (2 ^ 22)) by (rewrite S_INR in Hj; lra). specialize (IH Hj'). cbn [clock].
    assert (J : 0 <= INR j) by apply pos_INR. assert (Ps := PR size Hs). assert (S1 : 1 <= INR size) by (apply (le_INR 1) in Hs; cbn in Hs; lra).
    assert (Y : 1 <= INR (rank + 1 + j * size)) by (change 1 with (INR 1); apply le_INR; lia).
    apply (err_weak _ (INR j + 2)) in Ps; [|nra|lra]. assert (P := err_plus _ _ _ _ _ IH Ps).
    replace (INR (rank + 1 + S j * size) * dt) with (INR (rank + 1 + j * size) * dt + INR size * dt) by (rewrite <- Rmult_plus_distr_r, <- plus_INR; do 2 f_equal; lia).
    rewrite S_INR. replace (INR j + 1 + 2) with (INR j + 2 + 1) by ring. apply err_double; try lra; [nra| |exact P].
    destruct P as [P _]. eapply Rle_trans; [|exact P]. set (y := INR (rank + 1 + j * size) * dt + INR size * dt) in *.
    assert (Yt : 64 * tiny <= y) by (unfold y; nra). assert (W : 2 * (INR j + 2) * Float_Proofs.u <= 1 / 2).
    { assert (V := two_40). assert (IZR (2^40) = 262144 * IZR (2^22)) by (rewrite <- mult_IZR; reflexivity). assert (U := u_pos). assert (1 <= IZR (2^22)) by (apply IZR_le; lia). nra. }
    nra.
Qed.

Lemma due_in_doubles dt t k M : ordinary dt -> (1 <= k)%nat -> (1 <= M)%nat -> INR M <= IZR (2 ^ 22) ->
  err (IZR (2 ^ 22) + 2) t (INR M * dt) ->
  (exists m : Z, Rabs (t - IZR m * double (INR k * dt)) <= double dt / 2) <-> Nat.divide k M.
Proof.
  intros H Hk HM HM' E. assert (D := ord_err dt H). assert (Dp := ord_pos dt H). assert (U := u_pos). assert (V := two_40).
  assert (V' : IZR (2^40) = 262144 * IZR (2^22)) by (rewrite <- mult_IZR; reflexivity). assert (V22 : IZR (2^22) = 4194304) by reflexivity.
  assert (K : 1 <= INR k) by (apply (le_INR 1) in Hk; cbn in Hk; lra). assert (Mp : 1 <= INR M) by (apply (le_INR 1) in HM; cbn in HM; lra).
  assert (Q : err 1 (double (INR k * dt)) (INR k * dt)).
  { replace 1 with (0 + 1) by ring. assert (T4 := ord_tiny dt H). assert (Tp := tiny_pos). apply err_double; try lra; try nra; try apply err_refl. }
  set (P := double (INR k * dt)) in *. set (d := double dt) in *. clearbody P d.
  assert (Et : Rabs (t - INR M * dt) <= dt / 100).
  { eapply Rle_trans; [apply err_abs; [nra|exact E]|]. rewrite V22 in *. assert (INR M * (2 * (4194304 + 2) * Float_Proofs.u) <= 1 / 100) by nra. nra. }
  assert (Ed : 0.99 * dt <= d <= 1.01 * dt) by (destruct D; split; nra).
  split.
  - intros [m Hm]. destruct (Z.le_gt_cases m 0) as [Hz|Hz].
    { exfalso. apply IZR_le in Hz. assert (0 <= P) by (destruct Q; nra). apply Rabs_le_inv in Hm, Et. nra. }
    assert (Z1 : 1 <= IZR m) by (apply IZR_le; lia).
    assert (Pl : INR k * dt * 0.99 <= P) by (destruct Q; assert (0 <= INR k * dt) by nra; nra).
    assert (mk : IZR m * INR k <= 4 * INR M).
    { apply Rabs_le_inv in Hm, Et. apply (Rmult_le_reg_r dt); [lra|]. assert (IZR m * (INR k * dt * 0.99) <= IZR m * P) by (apply Rmult_le_compat_l; lra). nra. }
    assert (Ep : Rabs (IZR m * P - IZR m * INR k * dt) <= dt / 100).
    { apply (err_scale _ (IZR m)) in Q; [|lra]. eapply Rle_trans; [replace (IZR m * INR k * dt) with (IZR m * (INR k * dt)) by ring; apply err_abs; [repeat apply Rmult_le_pos; lra|exact Q]|].
      replace (IZR m * (INR k * dt)) with (IZR m * INR k * dt) by ring. rewrite V22 in *. assert (IZR m * INR k * (2 * 1 * Float_Proofs.u) <= 1 / 100) by nra. nra. }
    exists (Z.to_nat m). assert (X : Rabs (INR M - IZR m * INR k) < 1).
    { apply Rabs_le_inv in Hm, Et, Ep. apply Rabs_def1; apply (Rmult_lt_reg_r dt); lra. }
    rewrite !INR_IZR_INZ, <- mult_IZR, <- minus_IZR, <- abs_IZR in X. apply lt_IZR in X. nia.
  - intros [q Eq]. exists (Z.of_nat q). assert (Q0 : 0 <= INR q) by apply pos_INR. rewrite <- INR_IZR_INZ.
    assert (Em : INR M = INR q * INR k) by (rewrite Eq, mult_INR; reflexivity).
    apply (err_scale _ (INR q)) in Q; [|exact Q0]. apply err_abs in Q; [|apply Rmult_le_pos; nra].
    replace (INR q * (INR k * dt)) with (INR M * dt) in Q by (rewrite Em; ring).
    assert (Qs : INR M * dt * (2 * 1 * Float_Proofs.u) <= dt / 100). { rewrite V22 in *. assert (INR M * (2 * 1 * Float_Proofs.u) <= 1 / 100) by nra. nra. }
    apply Rabs_le_inv in Q, Et. apply Rabs_le. lra.
Qed.
Theorem C66_every_kth_step_is_output : forall dt size rank j k, ordinary dt -> (1 <= size)%nat -> (1 <= k)%nat ->
  let step := (rank + 1 + j * size)%nat in (Z.of_nat step <= 2 ^ 22)%Z ->
  (condition_check (clock (double dt) size rank j) (clamp_period (Every (double (INR k * dt))) (double dt)) (double dt) = true
   <-> Nat.divide k step).
Proof.
  intros dt size rank j k H Hs Hk M HM. assert (Dp : 0 < double dt) by (assert (T := ord_double dt H); assert (Tp := tiny_pos); lra).
  assert (M' : INR M <= IZR (2 ^ 22)) by (rewrite INR_IZR_INZ; now apply IZR_le).
  assert (J : INR j <= IZR (2 ^ 22)). { apply Rle_trans with (INR M); [|exact M']. apply le_INR. unfold M. nia. }
  assert (E := clock_err dt size rank j H Hs J). fold M in E. assert (X := ord_pos dt H).
  apply (err_weak _ (IZR (2 ^ 22) + 2)) in E; [|apply Rmult_le_pos; [apply pos_INR|lra]|lra].
  rewrite condition_due by exact Dp. unfold due.
  assert (Mx : Rmax (double (INR k * dt)) (double dt) = double (INR k * dt)).
  { apply Rmax_left, double_mono. assert (1 <= INR k) by (change 1 with (INR 1); apply le_INR; lia). nra. }
  rewrite Mx. apply due_in_doubles; auto; unfold M; lia.
Qed.
Print Assumptions C66_every_kth_step_is_output.
(** The same for the layers: with a saving period of k layers, every k-th layer. *)
Theorem C66_every_kth_layer_is_saved : forall dxi i k, ordinary dxi -> (1 <= k)%nat -> (Z.of_nat i <= 2 ^ 22)%Z ->
  (condition_check (layer_xi (double dxi) i) (Every (double (INR k * dxi))) (double dxi) = true <-> Nat.divide k i).
Proof.
  intros d i k H Hk Hi. assert (T := ord_double d H). assert (Tp := tiny_pos). assert (Dp : 0 < double d) by lra. assert (X := ord_pos d H). assert (T4 := ord_tiny d H).
  assert (K : 1 <= INR k) by (change 1 with (INR 1); apply le_INR; lia). assert (KD : INR k * d >= d) by nra.
  assert (Pm : double d <= double (INR k * d)) by (apply double_mono; lra).
  assert (C : condition_check (layer_xi (double d) i) (Every (double (INR k * d))) (double d) = true <-> due (Every (double (INR k * d))) (double d) (layer_xi (double d) i)).
  { rewrite <- condition_due by exact Dp. unfold clamp_period. destruct (Rlt_dec _ _); [lra|]. reflexivity. }
  rewrite C. unfold due. rewrite Rmax_left by exact Pm.
  assert (L : layer_xi (double d) i = - double (double d * INR i)). { unfold layer_xi. rewrite <- INR_IZR_INZ. replace (- double d * INR i) with (- (double d * INR i)) by ring. apply double_opp. } rewrite L.
  assert (Sym : (exists n, Rabs (- double (double d * INR i) - IZR n * double (INR k * d)) <= double d / 2) <->
                (exists n, Rabs (double (double d * INR i) - IZR n * double (INR k * d)) <= double d / 2)).
  { split; intros [n Hn]; exists (- n)%Z; rewrite opp_IZR; rewrite <- Rabs_Ropp;
      [replace (- (double (double d * INR i) - - IZR n * double (INR k * d))) with (- double (double d * INR i) - IZR n * double (INR k * d)) by ring
      |replace (- (- double (double d * INR i) - - IZR n * double (INR k * d))) with (double (double d * INR i) - IZR n * double (INR k * d)) by ring]; exact Hn. }
  rewrite Sym. destruct i as [|i].
  - split; [intros _; exists 0%nat; lia|intros _]. exists 0%Z. cbn [INR]. rewrite Rmult_0_r, double_0, Rmult_0_l, Rminus_0_r, Rabs_R0. lra.
  - assert (I1 : 1 <= INR (S i)) by (change 1 with (INR 1); apply le_INR; lia). assert (B2 : 1 <= IZR (2 ^ 22)) by (apply IZR_le; lia).
    apply due_in_doubles; auto; try lia; [rewrite INR_IZR_INZ; now apply IZR_le|].
    apply (err_weak 2); [nra|lra|]. replace 2 with (1 + 1) by ring. apply err_double; try lra; try nra.
    rewrite Rmult_comm. apply err_scale; [lra|apply ord_err; exact H].
Qed.
Print Assumptions C66_every_kth_layer_is_saved.
(** A clock that really rounds: steps of 0.1. *)
Example C66_nonvacuous : ordinary 0.1 /\ double 0.1 <> 0.1 /\
  condition_check (clock (double 0.1) 1 0 2) (clamp_period (Every (double (INR 3 * 0.1))) (double 0.1)) (double 0.1) = true.
Proof.
  split; [apply ord_mid; lra|]. split; [rewrite tenth; cbn; lra|].
  apply C66_every_kth_step_is_output; [apply ord_mid; lra|lia|lia|cbn; lia|exists 1%nat; reflexivity].
Qed.
