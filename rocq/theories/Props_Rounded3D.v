(** Theorems C69: the 3D plasma without a beam, in floating-point arithmetic. *)
From Coq Require Import Reals ZArith List Bool Lia Lra Psatz.
From Flocq Require Import Core.
From Verif Require Import Beam2D_Model Plasma2D_Model Shape_Model Plasma3D_Model Plasma3D_Spec Plasma3D_Quiet
  Filter3D_Proofs Rounded3D_Model Rounded3D_Proofs Rounded3D_Exact Float_Model Float_Proofs.
From Verif Require Props_Float.
Import ListNotations.
Open Scope R_scope.

(** ** C69.  In any arithmetic that keeps zero, treats the signs alike and rounds a rounded number to itself, a plasma
    without a beam stays exactly as it was created: no particle ever moves or gets a momentum, all fields are
    exactly zero, and the charges of electrons and ions cancel exactly in every cell, after every number of layers, for all
    positions (numbers of the machine, inside the walls), all charges and masses, mobile ions or a background, with or
    without the noise filter.  [rounding], [honest], [honest_average] are defined in Rounded3D_Proofs. *)
Theorem C69_quiet_in_any_rounding : forall rnd tr mx N h X b coeff decl force damp limit K x0 y0 q m mobile ion_mass beams,
  rounding rnd -> honest tr -> honest_average K (tr_average tr) ->
  (forall i j, (i < K)%nat -> (j < K)%nat -> rnd (x0 i j) = x0 i j /\ rnd (y0 i j) = y0 i j /\ Rabs (x0 i j) < b /\ Rabs (y0 i j) < b) ->
  Forall (fun b => (forall i j, fst b i j = 0) /\ (forall i j, snd b i j = 0)) beams ->
  let init := init_plasma_f rnd (Z.of_nat N) h K x0 y0 q m mobile ion_mass in
  let s := mkS3 N h X b coeff (snd init) decl force damp limit in
  let '(ps, flds, cur) := run3_f rnd tr mx s beams (fst init) in
  (forall i j, (i < K)%nat -> (j < K)%nat -> el ps i j = mkT (x0 i j) (y0 i j) 0 0 0 0 0 (q i j) (m i j) 0 0 /\
    (mobile = true -> io ps i j = mkT (x0 i j) (y0 i j) 0 0 0 0 0 (- q i j) (rnd (ion_mass * m i j)) 0 0)) /\
  (forall i j, Ex flds i j = 0 /\ Ey flds i j = 0 /\ Ez flds i j = 0 /\ Bx flds i j = 0 /\ By flds i j = 0 /\ Bz flds i j = 0 /\ Phi flds i j = 0) /\
  (forall i j, c_ro (r_e cur) i j + c_ro (r_i cur) i j = 0 /\ c_jx (r_e cur) i j = 0 /\ c_jx (r_i cur) i j = 0 /\
    c_jy (r_e cur) i j = 0 /\ c_jy (r_i cur) i j = 0 /\ c_jz (r_e cur) i j = 0 /\ c_jz (r_i cur) i j = 0).
Proof.
  intros rnd tr mx N h X b coeff decl force damp limit K x0 y0 q m mobile ion_mass beams Hr Ht Ha Hp HB init s.
  assert (C := init_curs_f rnd (Z.of_nat N) h K x0 y0 q m mobile ion_mass Hr). assert (O := init_opp rnd (Z.of_nat N) h K x0 y0 q m mobile ion_mass Hr).
  fold init in C, O. set (e0 := el (fst (fst (fst init)))). set (i0 := io (fst (fst (fst init)))).
  assert (EP : fst (fst (fst init)) = mkP3 K e0 i0) by (unfold e0, i0, init, init_plasma_f; destruct mobile; reflexivity). rewrite EP in C, O.
  assert (He : forall i j, (i < K)%nat -> (j < K)%nat -> unmoved (e0 i j) /\ inside rnd (u_b s) (e0 i j)).
  { intros i j Hi Hj. unfold e0, init, init_plasma_f. destruct mobile; cbn; (split; [repeat split; reflexivity|apply Hp; assumption]). }
  assert (Hi : forall i j, (i < K)%nat -> (j < K)%nat -> unmoved (i0 i j) /\ inside rnd (u_b s) (i0 i j)).
  { intros i j Hi Hj. unfold i0, init, init_plasma_f. destruct mobile; cbn; (split; [repeat split; reflexivity|apply Hp; assumption]). }
  assert (Hd : forall i j, (i < K)%nat -> (j < K)%nat -> t_cx (e0 i j) = 0 /\ t_cy (e0 i j) = 0).
  { intros i j _ _. unfold e0, init, init_plasma_f. destruct mobile; split; reflexivity. }
  assert (Q := quiet_run_f rnd Hr tr mx Ht s K e0 i0 Ha He Hi Hd C beams (fst init) HB).
  assert (Q0 : quiet_f rnd s K e0 i0 (fst init)).
  { split; [rewrite EP; split; [reflexivity|intros; split; reflexivity]|]. assert (Z : snd (fst init) = zero_cur3 /\ snd (fst (fst init)) = zero_fields3) by (unfold init, init_plasma_f; destruct mobile; split; reflexivity).
    destruct Z as [Z1 Z2]. rewrite Z1, Z2. split; [repeat split|]. split; [|now left].
    split; [|split; [|split]]; intros i j; cbn; unfold to_arr2, zero_grid; rewrite Rplus_0_r; apply Hr. }
  specialize (Q Q0). destruct (run3_f rnd tr mx s beams (fst init)) as [[ps flds] cur]. destruct Q as ([_ Q1] & (F1 & F2 & F3 & F4 & F5 & F6 & F7) & _ & Q4). cbn [fst snd] in *.
  split; [|split].
  - intros i j A B. destruct (Q1 i j A B) as [-> ->]. unfold e0, i0, init, init_plasma_f. destruct mobile; split; try reflexivity; discriminate.
  - intros i j. repeat split; auto.
  - intros i j. destruct Q4 as [->| ->]; [cbn; unfold zero_grid; repeat split; ring|]. cbn [u_n u_h u_ions s]. destruct O as (A & (B1 & B2 & B3) & (D1 & D2 & D3)).
    rewrite A, B1, B2, B3, D1, D2, D3. repeat split; ring.
Qed.
Print Assumptions C69_quiet_in_any_rounding.

(** Binary64 is such an arithmetic. *)
Theorem C69_binary64_is_a_rounding : rounding double.
Proof.
  split; [apply double_0|]. split; [apply double_opp|]. intros x. unfold double. apply round_generic; [apply valid_rnd_N|].
  apply generic_format_round; [apply FLT_exp_valid; reflexivity|apply valid_rnd_N].
Qed.
Print Assumptions C69_binary64_is_a_rounding.
(** So is exact arithmetic, with which the model is that of C47: the two models are of the same program. *)
Theorem C69_without_rounding_it_is_the_exact_model : rounding exact /\
  forall average s beams st, run3_f exact (exact_transforms (u_n s) average) (exact_matrices (u_n s) (u_h s) (u_coeff s)) s beams st = run3 average s beams st.
Proof. split; [repeat split|]. intros. apply run_exact. Qed.
Print Assumptions C69_without_rounding_it_is_the_exact_model.
(** The documented transforms turn zeros into zeros. *)
Theorem C69_transforms_keep_zeros : forall N K sigma, honest (exact_transforms N (gauss_average K sigma)) /\
  honest_average K (tr_average (exact_transforms N (gauss_average K sigma))).
Proof.
  intros N K sigma. split; [split; [|split]|].
  - intros a. apply dst2d_null.
  - intros a. apply dct2d_null.
  - intros a. apply mix2d_null.
  - intros a Ha. now apply gauss_null.
Qed.
Print Assumptions C69_transforms_keep_zeros.

(** *** The positions that the program computes are inside the walls that it computes *)
Lemma half_int k : (Z.abs k <= 2 ^ 52)%Z -> double (IZR k / 2) = IZR k / 2.
Proof.
  intros H. replace (IZR k / 2) with (IZR k * bpow radix2 (-1)) by (cbn; lra). apply double_exact; lia.
Qed.
Lemma grid_abs rnd (Hr : forall x, rnd (- x) = - rnd x) steps h f k : (k < grid_size steps f)%nat ->
  exists j, plasma_grid_f rnd steps h f k = rnd (j * rnd (h / INR f)) \/ plasma_grid_f rnd steps h f k = - rnd (j * rnd (h / INR f)).
Proof. intros _. unfold plasma_grid_f. destruct (Nat.odd f); destruct (_ <=? _)%nat; eexists; [left|right|left|right]; reflexivity. Qed.
Lemma grid_index steps h f k : (0 < f)%nat -> (k < grid_size steps f)%nat ->
  exists j, (j = 0 \/ 1 / 2 <= j) /\ j <= INR (Z.to_nat (steps / 2)) * INR f - 1 / 2 /\
    Rabs (plasma_grid_f double steps h f k) = Rabs (double (j * double (h / INR f))).
Proof.
  intros Hf. unfold grid_size, plasma_grid_f. rewrite <- mult_INR. set (hl := (Z.to_nat (steps / 2) * f)%nat). intros Hk.
  assert (G : forall a b : nat, (a + 1 <= b)%nat -> INR a <= INR b - 1) by (intros a b H; apply le_INR in H; rewrite plus_INR in H; cbn in H; lra).
  assert (I : forall a : nat, INR a = 0 \/ 1 <= INR a).
  { intros [|a]; [now left|]. right. rewrite S_INR. assert (P := pos_INR a). lra. }
  destruct (Nat.odd f).
  - destruct (Nat.leb_spec (hl - 1) k).
    + exists (INR (k - (hl - 1))). split; [destruct (I (k - (hl - 1))%nat); lra|]. split; [assert (E := G (k - (hl - 1))%nat hl ltac:(lia)); lra|reflexivity].
    + exists (INR (hl - 1 - k)). split; [destruct (I (hl - 1 - k)%nat); lra|]. split; [assert (E := G (hl - 1 - k)%nat hl ltac:(lia)); lra|apply Rabs_Ropp].
  - destruct (Nat.leb_spec hl k).
    + exists (0.5 + INR (k - hl)). split; [right; assert (P := pos_INR (k - hl)); lra|]. split; [assert (E := G (k - hl)%nat hl ltac:(lia)); lra|reflexivity].
    + exists (0.5 + INR (hl - 1 - k)). split; [right; assert (P := pos_INR (hl - 1 - k)); lra|]. split; [assert (E := G (hl - 1 - k)%nat hl ltac:(lia)); lra|apply Rabs_Ropp].
Qed.
Theorem C69_positions_are_inside_the_walls : forall N h pp bp f k,
  bpow radix2 (-900) <= h -> (0 < f)%nat -> (0 <= bp <= pp)%Z -> (0 <= Z.of_nat N - 2 * pp)%Z -> (Z.of_nat N * Z.of_nat f <= 2 ^ 48)%Z ->
  (k < grid_size (Z.of_nat N - 2 * pp) f)%nat ->
  let x := plasma_grid_f double (Z.of_nat N - 2 * pp) h f k in
  double x = x /\ Rabs x < wall_f double N h bp.
Proof.
  intros N h pp bp f k Hh Hf Hb Hs Hn Hk x. split.
  { unfold x, plasma_grid_f. destruct C69_binary64_is_a_rounding as (_ & O & I). destruct (Nat.odd f); destruct (_ <=? _)%nat; rewrite ?O, I; reflexivity. }
  destruct (grid_index _ h f k Hf Hk) as (j & Hj & Hj' & E). unfold x. rewrite E. clear E x Hk.
  set (sz := Z.to_nat ((Z.of_nat N - 2 * pp) / 2)) in *.
  assert (F : 1 <= INR f) by (change 1 with (INR 1); apply le_INR; lia).
  assert (Fu : INR f <= IZR (2 ^ 48)).
  { destruct (Z.eq_dec (Z.of_nat N) 0) as [N0|N0]; [|rewrite INR_IZR_INZ; apply IZR_le; nia].
    exfalso. assert (sz = 0%nat). { unfold sz. replace (Z.of_nat N - 2 * pp)%Z with 0%Z by lia. reflexivity. } rewrite H in Hj'. cbn in Hj'. destruct Hj; lra. }
  assert (Hp : 0 < h) by (eapply Rlt_le_trans; [apply bpow_gt_0|exact Hh]).
  (* the wall *)
  set (T := (Z.of_nat N - 2 * bp)%Z). assert (W : wall_f double N h bp = double (h * (IZR T / 2))).
  { unfold wall_f. rewrite (INR_IZR_INZ N), half_int by nia. replace (IZR (Z.of_nat N) / 2 - IZR bp) with (IZR T / 2) by (unfold T; rewrite minus_IZR, mult_IZR; field).
    rewrite half_int by (unfold T; nia). reflexivity. }
  rewrite W. clear W.
  assert (S : INR sz <= IZR T / 2).
  { unfold sz. rewrite INR_IZR_INZ, Z2Nat.id by (apply Z.div_pos; lia). assert (H := Z.mul_div_le (Z.of_nat N - 2 * pp) 2 ltac:(lia)).
    assert (H' : (2 * ((Z.of_nat N - 2 * pp) / 2) <= T)%Z) by (unfold T; lia). apply IZR_le in H'. rewrite mult_IZR in H'. lra. }
  assert (TF : IZR T / 2 * INR f <= IZR (2 ^ 47)).
  { assert (H : (T * Z.of_nat f <= 2 * 2 ^ 47)%Z) by (unfold T; change (2 * 2 ^ 47)%Z with (2 ^ 48)%Z; nia). apply IZR_le in H. rewrite !mult_IZR, <- INR_IZR_INZ in H. lra. }
  assert (U := u_pos). assert (V := u_small).
  assert (U47 : u * IZR (2 ^ 47) = 1 / 64). { assert (IZR (2 ^ 53) = 64 * IZR (2 ^ 47)) by (rewrite <- mult_IZR; reflexivity). nra. }
  assert (Us : u <= 1 / 100) by (assert (1000 <= IZR (2 ^ 47)) by (apply IZR_le; lia); nra).
  assert (S1 : 1 <= INR sz).
  { destruct (Nat.eq_dec sz 0) as [Z|Z]; [rewrite Z in Hj'; cbn in Hj'; destruct Hj; lra|]. change 1 with (INR 1). apply le_INR. lia. }
  set (t := IZR T / 2) in *. assert (Tp : 1 <= t) by lra.
  assert (TW : tiny * IZR (2 ^ 50) <= h).
  { eapply Rle_trans; [|exact Hh]. unfold tiny. change (2 ^ 50)%Z with (Zpower radix2 50). rewrite IZR_Zpower, <- bpow_plus by lia. apply bpow_le. lia. }
  assert (P := tiny_pos). assert (Q50 : IZR (2 ^ 50) = 4 * IZR (2 ^ 48)) by (rewrite <- mult_IZR; reflexivity).
  assert (Hq : 4 * tiny <= h / INR f).
  { apply (Rmult_le_reg_r (INR f)); [lra|]. replace (h / INR f * INR f) with h by (field; lra). eapply Rle_trans; [|exact TW]. rewrite Q50. nra. }
  assert (B : h * t * (1 - u) <= double (h * t)).
  { apply double_rel. eapply Rle_trans; [|apply Rmult_le_compat_l with (r1 := 1); lra]. assert (1 <= IZR (2 ^ 50)) by (apply IZR_le; lia). nra. }
  set (st := h / INR f) in *. assert (Est : h = st * INR f) by (unfold st; field; lra).
  destruct (double_rel st) as [D1 D2]; [lra|].
  assert (X : Rabs (double (j * double st)) <= j * st * ((1 + u) * (1 + u))).
  { destruct Hj as [->|Hj]; [rewrite !Rmult_0_l, double_0, Rabs_R0; lra|].
    assert (Ds : 2 * tiny <= double st) by (assert (st * u <= st * (1 / 100)) by (apply Rmult_le_compat_l; lra); lra).
    assert (J : tiny <= j * double st) by (assert (1 / 2 * (2 * tiny) <= j * double st) by (apply Rmult_le_compat; lra); lra). destruct (double_rel _ J) as [D3 D4].
    rewrite Rabs_pos_eq; [|assert (0 <= j * double st * (1 - u)) by (apply Rmult_le_pos; lra); lra].
    eapply Rle_trans; [exact D4|]. rewrite <- Rmult_assoc. apply Rmult_le_compat_r; [lra|]. rewrite Rmult_assoc. apply Rmult_le_compat_l; lra. }
  eapply Rle_lt_trans; [exact X|]. eapply Rlt_le_trans; [|exact B]. rewrite Est.
  replace (st * INR f * t * (1 - u)) with (st * (INR f * t * (1 - u))) by ring. replace (j * st * ((1 + u) * (1 + u))) with (st * (j * ((1 + u) * (1 + u)))) by ring.
  apply Rmult_lt_compat_l; [lra|].
  assert (J2 : j <= t * INR f - 1 / 2) by nra. assert (J0 : 0 <= j) by (destruct Hj; lra).
  set (z := t * INR f) in *. replace (INR f * t) with z by (unfold z; ring). assert (Z1 : z * u <= 1 / 64) by nra.
  clearbody z. assert (j * ((1 + u) * (1 + u)) <= (z - 1 / 2) * (1 + 3 * u)). { apply Rmult_le_compat; try nra. }
  nra.
Qed.
Print Assumptions C69_positions_are_inside_the_walls.

(** *** No division by zero: for a particle at rest whose mass is not below 2^-500, the denominators gamma_m,
    1 - pz / gamma_m and gamma_m - pz of the kernels (weights.py:46-50, move.py:109-131, 156-159) are not zero. *)
Theorem C69_no_division_by_zero : forall m, bpow radix2 (-500) <= m ->
  0 < gamma_a double m 0 0 0 /\ 0 < gamma_b double m 0 0 0 /\
  double (1 - double (0 / gamma_a double m 0 0 0)) = 1 /\ double (1 - double (0 / gamma_b double m 0 0 0)) = 1 /\
  0 < double (gamma_b double m 0 0 0 - 0).
Proof.
  intros m Hm. assert (D1 : double 1 = 1) by (apply (int_format 1); lia).
  assert (Z : f2 double 0 = 0) by (unfold f2; rewrite Rmult_0_l; apply double_0).
  assert (F : forall e, (-1074 <= e)%Z -> double (bpow radix2 e) = bpow radix2 e).
  { intros e He. replace (bpow radix2 e) with (IZR 1 * bpow radix2 e) by ring. apply double_exact; lia. }
  assert (Q : bpow radix2 (-1000) <= double (m * m)).
  { rewrite <- (F (-1000)%Z) by lia. apply double_mono. replace (-1000)%Z with (-500 + -500)%Z by lia. rewrite bpow_plus. assert (P := bpow_gt_0 radix2 (-500)). nra. }
  assert (I := proj2 (proj2 C69_binary64_is_a_rounding)).
  assert (G : bpow radix2 (-500) <= double (sqrt (double (m * m)))).
  { rewrite <- (F (-500)%Z) by lia. apply double_mono. rewrite <- (sqrt_square (bpow radix2 (-500))) by apply bpow_ge_0. apply sqrt_le_1_alt.
    rewrite <- bpow_plus. exact Q. }
  assert (E : gamma_a double m 0 0 0 = double (sqrt (double (m * m)))) by (unfold gamma_a; rewrite Z; unfold f2; rewrite !Rplus_0_r, !I; reflexivity).
  assert (E' : gamma_b double m 0 0 0 = double (sqrt (double (m * m)))) by (unfold gamma_b; rewrite Z; unfold f2; rewrite !Rplus_0_r, !I; reflexivity).
  rewrite E, E'. assert (P := bpow_gt_0 radix2 (-500)). unfold Rdiv. rewrite Rmult_0_l, double_0, !Rminus_0_r, I. repeat split; try exact D1; lra.
Qed.
Print Assumptions C69_no_division_by_zero.

(** ** C69 for the program as it is: binary64, and the positions and walls that it computes from the options.
    The window has N cells of size h, [pp] cells of padding around the plasma, [bp] around the walls; f particles per cell
    side; any charges and masses. *)
Theorem C69_quiet_in_binary64 : forall tr mx N h pp bp f X coeff decl force damp limit q m mobile ion_mass beams,
  let steps := (Z.of_nat N - 2 * pp)%Z in let K := grid_size steps f in
  honest tr -> honest_average K (tr_average tr) ->
  bpow radix2 (-900) <= h -> (0 < f)%nat -> (0 <= bp <= pp)%Z -> (0 <= steps)%Z -> (Z.of_nat N * Z.of_nat f <= 2 ^ 48)%Z ->
  Forall (fun b => (forall i j, fst b i j = 0) /\ (forall i j, snd b i j = 0)) beams ->
  let x0 := fun i j : nat => plasma_grid_f double steps h f i in let y0 := fun i j : nat => plasma_grid_f double steps h f j in
  let init := init_plasma_f double (Z.of_nat N) h K x0 y0 q m mobile ion_mass in
  let s := mkS3 N h X (wall_f double N h bp) coeff (snd init) decl force damp limit in
  let '(ps, flds, cur) := run3_f double tr mx s beams (fst init) in
  (forall i j, (i < K)%nat -> (j < K)%nat -> el ps i j = mkT (x0 i j) (y0 i j) 0 0 0 0 0 (q i j) (m i j) 0 0 /\
    (mobile = true -> io ps i j = mkT (x0 i j) (y0 i j) 0 0 0 0 0 (- q i j) (double (ion_mass * m i j)) 0 0)) /\
  (forall i j, Ex flds i j = 0 /\ Ey flds i j = 0 /\ Ez flds i j = 0 /\ Bx flds i j = 0 /\ By flds i j = 0 /\ Bz flds i j = 0 /\ Phi flds i j = 0) /\
  (forall i j, c_ro (r_e cur) i j + c_ro (r_i cur) i j = 0).
Proof.
  intros tr mx N h pp bp f X coeff decl force damp limit q m mobile ion_mass beams steps K Ht Ha Hh Hf Hb Hs Hn HB x0 y0 init s.
  assert (Q := C69_quiet_in_any_rounding double tr mx N h X (wall_f double N h bp) coeff decl force damp limit K x0 y0 q m mobile ion_mass beams
    C69_binary64_is_a_rounding Ht Ha). cbv zeta in Q. fold init s in Q.
  assert (P : forall i j, (i < K)%nat -> (j < K)%nat -> double (x0 i j) = x0 i j /\ double (y0 i j) = y0 i j /\ Rabs (x0 i j) < wall_f double N h bp /\ Rabs (y0 i j) < wall_f double N h bp).
  { intros i j Hi Hj. destruct (C69_positions_are_inside_the_walls N h pp bp f i Hh Hf Hb Hs Hn Hi) as [A B].
    destruct (C69_positions_are_inside_the_walls N h pp bp f j Hh Hf Hb Hs Hn Hj) as [C D]. auto. }
  specialize (Q P HB). destruct (run3_f double tr mx s beams (fst init)) as [[ps flds] cur]. destruct Q as (Q1 & Q2 & Q3).
  split; [exact Q1|]. split; [exact Q2|]. intros i j. apply Q3.
Qed.
Print Assumptions C69_quiet_in_binary64.
(** A window of 101 cells of 0.1, two particles per cell side, the paddings 15 and 10, mobile ions, noise filter on, three layers. *)
Example C69_case : let tr := exact_transforms 101 (gauss_average 140 3) in let mx := exact_matrices 101 (double 0.1) 1 in
  let x0 := fun i j : nat => plasma_grid_f double 71 (double 0.1) 2 i in let y0 := fun i j : nat => plasma_grid_f double 71 (double 0.1) 2 j in
  let init := init_plasma_f double 101 (double 0.1) 140 x0 y0 (fun _ _ => -0.0025) (fun _ _ => 0.0025) true 1836 in
  let s := mkS3 101 (double 0.1) (double 0.01) (wall_f double 101 (double 0.1) 10) 1 (snd init) true (double 0.3) (double 0.1) (double 0.001) in
  t_px (el (fst (fst (run3_f double tr mx s (repeat (zeros2, zeros2) 3) (fst init)))) 7 9) = 0 /\
  t_dx (io (fst (fst (run3_f double tr mx s (repeat (zeros2, zeros2) 3) (fst init)))) 7 9) = 0.
Proof.
  intros tr mx x0 y0 init s. destruct (C69_transforms_keep_zeros 101 140 3) as [T1 T2].
  assert (O : Props_Float.ordinary 0.1) by (apply Props_Float.ord_mid; lra).
  assert (H := C69_quiet_in_binary64 tr mx 101 (double 0.1) 15 10 2 (double 0.01) 1 true (double 0.3) (double 0.1) (double 0.001) (fun _ _ => -0.0025) (fun _ _ => 0.0025) true 1836
    (repeat (zeros2, zeros2) 3) T1 T2).
  cbv zeta in H.
  change (grid_size (Z.of_nat 101 - 2 * 15) 2) with 140%nat in H. change (Z.of_nat 101 - 2 * 15)%Z with 71%Z in H. change (Z.of_nat 101) with 101%Z in H.
  fold x0 y0 init s in H.
  assert (h1 : bpow radix2 (-900) <= double 0.1).
  { replace (bpow radix2 (-900)) with (double (bpow radix2 (-900))); [apply double_mono, O|]. replace (bpow radix2 (-900)) with (IZR 1 * bpow radix2 (-900)) by ring. apply double_exact; lia. }
  specialize (H h1 ltac:(lia) ltac:(lia) ltac:(lia) ltac:(lia)).
  assert (B : Forall (fun b : arr2 * arr2 => (forall i j, fst b i j = 0) /\ (forall i j, snd b i j = 0)) (repeat (zeros2, zeros2) 3)) by (repeat constructor). specialize (H B).
  destruct (run3_f double tr mx s _ (fst init)) as [[ps flds] cur]. destruct H as (H & _).
  destruct (H 7%nat 9%nat) as [E I]; [lia|lia|]. cbn [fst]. rewrite E, (I eq_refl). split; reflexivity.
Qed.
