(** Theorems C70: the 2D plasma without a beam, in floating-point arithmetic. *)
From Coq Require Import Reals ZArith List Bool Lia Lra Psatz.
From Flocq Require Import Core.
From Verif Require Import Beam2D_Model Plasma2D_Model Plasma2D_Spec Rounded3D_Model Rounded3D_Proofs Rounded3D_Exact Rounded2D_Model
  Rounded2D_Exact Rounded2D_Proofs Float_Model Float_Proofs Props_Rounded3D.
From Verif Require Beam2D_Free.
Import ListNotations.
Open Scope R_scope.

(** Everything about a particle but its age. *)
Definition facts (p : pl2) : R * R * R * R * R * R := (r_ p, pr_ p, pf_ p, pz_ p, q_ p, m_ p).
(** The solver for a window of width w; the declustering is off, there is no trapped-path-limit. *)
Definition quiet_solver (n : nat) (h w bz : R) (ppc : nat) (im : ions) (xi sens : R) (depth corr : nat) : solver2 :=
  mkS2 (mkC2 n h w bz) ppc im xi sens depth 0 false corr.

(** ** The square root of a rounded square: in binary64, sqrt(x ** 2) is x. *)
Theorem C70_square_root_of_square : forall x, double x = x -> bpow radix2 (-500) <= x -> double (sqrt (double (x * x))) = x.
Proof.
  intros x Fx Hx. assert (Px : 0 < x) by (eapply Rlt_le_trans; [apply bpow_gt_0|exact Hx]).
  set (e := (mag radix2 x - 53)%Z). set (m := Ztrunc (x * bpow radix2 (- e))).
  assert (Me : bpow radix2 (e + 52) <= x < bpow radix2 (e + 53)).
  { unfold e. replace (mag radix2 x - 53 + 52)%Z with (mag radix2 x - 1)%Z by lia. replace (mag radix2 x - 53 + 53)%Z with (mag radix2 x : Z) by lia.
    destruct (mag radix2 x) as [v Hv]. cbn. assert (H := Hv ltac:(lra)). rewrite Rabs_pos_eq in H by lra. exact H. }
  assert (E : (-553 <= e)%Z). { assert (H : bpow radix2 (-500) < bpow radix2 (e + 53)) by lra. apply lt_bpow in H. lia. }
  assert (Gf : generic_format radix2 (FLT_exp (-1074) 53) x) by (rewrite <- Fx; apply generic_format_round; [apply FLT_exp_valid; reflexivity|apply valid_rnd_N]).
  assert (Xm : x = IZR m * bpow radix2 e).
  { assert (H := Gf). unfold generic_format, F2R, scaled_mantissa, cexp in H. cbn [Fnum Fexp] in H. unfold FLT_exp in H.
    assert (K : Z.max (mag radix2 x - 53) (-1074) = e) by (unfold e in *; lia). rewrite !K in H. exact H. }
  assert (Pe := bpow_gt_0 radix2 e).
  assert (M1 : (2 ^ 52 <= m)%Z). { apply le_IZR. apply (Rmult_le_reg_r (bpow radix2 e)); [exact Pe|]. rewrite <- Xm. change (IZR (2 ^ 52)) with (bpow radix2 52). rewrite <- bpow_plus, Z.add_comm. apply Me. }
  assert (M2 : (m < 2 ^ 53)%Z). { apply lt_IZR. apply (Rmult_lt_reg_r (bpow radix2 e)); [exact Pe|]. rewrite <- Xm. change (IZR (2 ^ 53)) with (bpow radix2 53). rewrite <- bpow_plus, Z.add_comm. apply Me. }
  destruct (Z.eq_dec m (2 ^ 52)) as [Em|Em].
  - assert (X2 : x = bpow radix2 (52 + e)) by (rewrite Xm, Em, bpow_plus; reflexivity). assert (Sq : x * x = IZR 1 * bpow radix2 (52 + e + (52 + e))) by (rewrite X2, <- bpow_plus; ring).
    rewrite Sq, double_exact by lia. rewrite <- Sq, sqrt_square by lra. exact Fx.
  - assert (M3 : IZR (2 ^ 52) + 1 <= IZR m) by (rewrite <- (plus_IZR _ 1); apply IZR_le; lia). assert (M4 : IZR m + 1 <= IZR (2 ^ 53)) by (rewrite <- (plus_IZR _ 1); apply IZR_le; lia).
    assert (T : tiny <= x * x). { apply Rle_trans with (bpow radix2 (-500) * bpow radix2 (-500)); [rewrite <- bpow_plus; apply bpow_le; lia|]. apply Rmult_le_compat; auto; apply bpow_ge_0. }
    destruct (double_rel _ T) as [D1 D2]. set (y := double (x * x)) in *. assert (U := u_pos). assert (V := u_small).
    assert (Us : u <= 1 / 8) by (assert (8 <= IZR (2 ^ 53)) by (apply IZR_le; lia); nra).
    assert (Y0 : 0 <= y) by (assert (0 <= x * x * (1 - u)) by (apply Rmult_le_pos; nra); lra).
    assert (S1 : sqrt y <= x * (1 + u / 2)).
    { rewrite <- (sqrt_square (x * (1 + u / 2))) by (apply Rmult_le_pos; lra). apply sqrt_le_1_alt. eapply Rle_trans; [exact D2|].
      replace (x * (1 + u / 2) * (x * (1 + u / 2))) with (x * x * ((1 + u / 2) * (1 + u / 2))) by ring. apply Rmult_le_compat_l; nra. }
    assert (S2 : x * (1 - u / 2 - u * u / 2) <= sqrt y).
    { assert (W : 0 <= 1 - u / 2 - u * u / 2) by nra. rewrite <- (sqrt_square (x * (1 - u / 2 - u * u / 2))) by (apply Rmult_le_pos; lra). apply sqrt_le_1_alt. eapply Rle_trans; [|exact D1].
      replace (x * (1 - u / 2 - u * u / 2) * (x * (1 - u / 2 - u * u / 2))) with (x * x * ((1 - u / 2 - u * u / 2) * (1 - u / 2 - u * u / 2))) by ring. apply Rmult_le_compat_l; [nra|].
      clear - U Us. set (v := u) in *. clearbody v. assert (0 <= v * v) by nra. assert (v * v * v <= v * v / 8) by nra. assert (v * v * v * v <= v * v / 64) by nra. nra. }
    assert (B : sqrt y * bpow radix2 (- e) - IZR m < / 2 /\ - / 2 < sqrt y * bpow radix2 (- e) - IZR m).
    { assert (Q := bpow_gt_0 radix2 (- e)). assert (I : bpow radix2 e * bpow radix2 (- e) = 1) by (rewrite <- bpow_plus; replace (e + - e)%Z with 0%Z by lia; reflexivity).
      assert (XM : x * bpow radix2 (- e) = IZR m) by (rewrite Xm, Rmult_assoc, I; ring).
      assert (A1 : sqrt y * bpow radix2 (- e) <= IZR m * (1 + u / 2)) by (rewrite <- XM; replace (x * bpow radix2 (- e) * (1 + u / 2)) with (x * (1 + u / 2) * bpow radix2 (- e)) by ring; apply Rmult_le_compat_r; lra).
      assert (A2 : IZR m * (1 - u / 2 - u * u / 2) <= sqrt y * bpow radix2 (- e)) by (rewrite <- XM; replace (x * bpow radix2 (- e) * (1 - u / 2 - u * u / 2)) with (x * (1 - u / 2 - u * u / 2) * bpow radix2 (- e)) by ring; apply Rmult_le_compat_r; lra).
      assert (A3 : IZR m * u <= 1 - u) by nra. assert (0 <= IZR m) by (assert (0 <= IZR (2 ^ 52)) by (apply IZR_le; lia); lra). split; [nra|].
      assert (IZR m * (u * u) <= (1 - u) * u) by nra. nra. }
    rewrite Xm. apply double_is; [lia|lia| |apply Rabs_def1; tauto].
    assert (Q := bpow_gt_0 radix2 (- e)). assert (Z := Y0).
    assert (W : sqrt y = sqrt y * bpow radix2 (- e) * bpow radix2 e) by (rewrite Rmult_assoc, <- bpow_plus; replace (- e + e)%Z with 0%Z by lia; cbn; ring).
    rewrite W. rewrite !bpow_plus. rewrite (Rmult_comm (bpow radix2 e)), (Rmult_comm (bpow radix2 e) (bpow radix2 53)). change (bpow radix2 52) with (IZR (2 ^ 52)). change (bpow radix2 53) with (IZR (2 ^ 53)).
    split; [apply Rmult_le_compat_r|apply Rmult_lt_compat_r]; lra.
Qed.
Print Assumptions C70_square_root_of_square.

(** ** C70.  In any arithmetic that keeps zero, treats the signs alike and rounds a rounded number to itself: a plasma without
    a beam, created by the program with the declustering off, stays exactly as it is, for any number of layers: no
    particle moves or gets a momentum, all fields are exactly zero, the charges of electrons and ions cancel exactly
    on every node.  The arithmetic must give back x from sqrt(x ** 2) for the radii, no particle may be massless, and
    (for mobile ions) the charge q / gamma_m * gamma_m that the program deposits must be the same for an electron and its ion. *)
Definition deposited (rnd : R -> R) (q m : R) : R := let g := rnd (sqrt (rnd (m * m))) in rnd (rnd (q / g) * g).
Lemma sq4_rest rnd m : rounding rnd -> sq4_f rnd m 0 0 0 = rnd (sqrt (rnd (m * m))).
Proof. intros (Z & _ & I). unfold sq4_f, f2. rewrite !Rmult_0_l, Z, !Rplus_0_r, !I. reflexivity. Qed.
Lemma share_deposited rnd p : rounding rnd -> share rnd p = deposited rnd (q_ p) (m_ p).
Proof. intros Hr. unfold share, deposited. rewrite sq4_rest by exact Hr. rewrite Rminus_0_r. destruct Hr as (_ & _ & I). now rewrite I. Qed.
Lemma facts_ageless l l' : map ageless l' = map ageless l -> map facts l' = map facts l.
Proof.
  revert l'. induction l as [|p l IH]; intros [|p' l'] H; try discriminate; [reflexivity|]. cbn [map] in *. injection H as H0 H1. intros.
  f_equal; [unfold facts; congruence|auto].
Qed.
Theorem C70_quiet_in_any_rounding : forall rnd w h ppc coef mobile bz xi sens depth corr rb k fuel,
  rounding rnd -> 0 < h -> 0 <= w -> rnd xi = xi -> rnd (rnd 0.99999 * xi) < xi -> 0 <= sens -> (1 <= fuel)%nat -> (forall i, rb i = 0) ->
  let e := init_electrons_f rnd w h ppc coef in
  (forall p, In p e -> 0 <= r_ p <= w /\ rnd (r_ p) = r_ p /\ rnd (sqrt (rnd (r_ p * r_ p))) = r_ p /\ rnd (sqrt (rnd (m_ p * m_ p))) <> 0) ->
  (forall p mass, In p e -> mobile = Some mass -> let mi := rnd (mass * - q_ p) in rnd (sqrt (rnd (mi * mi))) <> 0 /\
    deposited rnd (- q_ p) mi = - deposited rnd (q_ p) (m_ p)) ->
  let n := S (cells_f rnd w h) in
  let '((ps, flds, cur), im) := init2_f rnd w h ppc coef mobile in
  exists ps' flds' cur',
    run_layers (step_dxi2_f rnd fuel (quiet_solver n h w bz ppc im xi sens depth corr) rb) k (ps, flds, cur) = Some (ps', flds', cur') /\
    map facts (electrons ps') = map facts (electrons ps) /\ map facts (ion_list ps') = map facts (ion_list ps) /\
    (forall i, f_er flds' i = 0 /\ f_ef flds' i = 0 /\ f_ez flds' i = 0 /\ f_bf flds' i = 0 /\ f_bz flds' i = 0) /\
    (forall i, d_rho (row_e cur') i + d_rho (row_i cur') i = 0 /\ d_jr (row_e cur') i = 0 /\ d_jr (row_i cur') i = 0 /\
      d_jf (row_e cur') i = 0 /\ d_jf (row_i cur') i = 0 /\ d_jz (row_e cur') i = 0 /\ d_jz (row_i cur') i = 0).
Proof.
  intros rnd w h ppc coef mobile bz xi sens depth corr rb k fuel Hr Hh Hw HX HX' Hs Hfu Hb e He Hi n.
  assert (R0 : Forall at_rest e).
  { unfold e, init_electrons_f. apply Forall_forall. intros p Hp. apply filter_In in Hp. destruct Hp as [Hp _]. apply in_map_iff in Hp. destruct Hp as (r & <- & _). repeat split. }
  rewrite Forall_forall in R0.
  assert (Re : forall c, g_rmax c = w -> Forall (resting2 rnd c) e).
  { intros c Hc. apply Forall_forall. intros p Hp. destruct (He p Hp) as (A & B & C & D). split; [now apply R0|]. rewrite Hc. repeat split; try tauto. now rewrite sq4_rest. }
  destruct (init2_f rnd w h ppc coef mobile) as [[[ps flds] cur] im] eqn:EI.
  set (s := quiet_solver n h w bz ppc im xi sens depth corr).
  set (J := compute_rhoj_f rnd (g_h (v_c s)) (v_ppc s) (g_n (v_c s)) (v_ions s) ps).
  assert (N0 : forall l, Forall2 (opposite2 rnd) e l -> opp_d (per_volume_f rnd (cell_volume_f rnd h ppc n) (deposit2_f rnd h n e)) (per_volume_f rnd (cell_volume_f rnd h ppc n) (deposit2_f rnd h n l))) by (intros l; apply deposit2_opp; exact Hr).
  assert (K : flds = zero_fields /\ all_rest rnd (v_c s) ps /\ opp_d (row_e J) (row_i J) /\ (cur = mkJ zero_dens zero_dens \/ (d_rho (row_i cur) = (fun i => - d_rho (row_e cur) i) /\
     cur = mkJ (mkD (d_rho (row_e cur)) zeros zeros zeros) (mkD (d_rho (row_i cur)) zeros zeros zeros)))).
  { unfold init2_f in EI. fold e in EI. destruct mobile as [mass|]; injection EI as <- <- <- <-; (split; [reflexivity|]).
    - split; [split; [now apply Re|]|split].
      + apply Forall_forall. intros p' Hp. apply in_map_iff in Hp. destruct Hp as (p & <- & Hp). destruct (He p Hp) as (A & B & C & D). destruct (Hi p mass Hp eq_refl) as (E & _).
        split; [repeat split|]. cbn [r_ m_ v_c s quiet_solver g_rmax]. repeat split; try tauto. now rewrite sq4_rest.
      + cbn. apply N0. assert (G : forall p, In p e -> opposite2 rnd p (mkPl (r_ p) 0 0 0 (- q_ p) (rnd (mass * - q_ p)) 0)).
        { intros p Hp. split; [reflexivity|]. split; [now apply R0|]. split; [repeat split|]. rewrite !share_deposited by exact Hr. apply (Hi p mass Hp eq_refl). }
        clear - G. induction e as [|p l IH]; cbn [map]; constructor; [apply G; now left|]. apply IH. intros q Hq. apply G. now right.
      + now left.
    - split; [split; [now apply Re|constructor]|split].
      + cbn. assert (G := N0 (map (fun p => mkPl (r_ p) (pr_ p) (pf_ p) (pz_ p) (- q_ p) (m_ p) 0) e)).
        assert (F : Forall2 (opposite2 rnd) e (map (fun p => mkPl (r_ p) (pr_ p) (pf_ p) (pz_ p) (- q_ p) (m_ p) 0) e)).
        { clear - R0 Hr. induction e as [|p l IH]; cbn [map]; constructor; [|apply IH; intros q Hq; apply R0; now right].
          assert (Q : at_rest p) by (apply R0; now left). split; [reflexivity|]. split; [exact Q|]. split; [exact Q|].
          unfold share. cbn [q_ m_]. destruct Hr as (_ & O & _). rewrite <- O. f_equal. rewrite Ropp_div, O. ring. }
        specialize (G F). destruct G as (_ & G & _). split; [intros i; reflexivity|]. split; [exact G|]. repeat split.
      + right. split; reflexivity. }
  destruct K as (-> & KR & KO & KC). assert (KN := opp_neutral rnd Hr _ _ KO).
  assert (OC : opp_d (row_e cur) (row_i cur)).
  { destruct KC as [->|[K1 ->]]; [repeat split; intros i; cbn; unfold zeros; try reflexivity; ring|]. cbn. split; [intros i; cbn; rewrite K1; reflexivity|repeat split]. }
  assert (Q0 : quiet2 rnd ps (ps, zero_fields, cur)).
  { split; [split; reflexivity|]. split; [repeat split|]. clear KC. destruct cur as [ce ci]. exact (opp_neutral rnd Hr ce ci OC). }
  assert (L : forall st, quiet2 rnd ps st -> opp_d (row_e (snd st)) (row_i (snd st)) -> exists st', run_layers (step_dxi2_f rnd fuel s rb) k st = Some st' /\ quiet2 rnd ps st' /\ opp_d (row_e (snd st')) (row_i (snd st'))).
  { induction k as [|k IH]; intros st Q O; [exists st; split; [reflexivity|split; assumption]|]. cbn [run_layers].
    destruct (layer_quiet rnd Hr s rb fuel ps Hfu Hh HX HX' Hs eq_refl eq_refl Hb KR KN (conj (proj2 (proj2 (proj1 (proj2 KO)))) (proj2 (proj2 (proj2 (proj2 KO))))) st Q) as (st' & -> & Q' & E).
    apply IH; [exact Q'|]. rewrite E. exact KO. }
  destruct (L _ Q0 OC) as ([[ps' f'] c'] & E & ([S1 S2] & F & _) & O). exists ps', f', c'. split; [exact E|]. split; [now apply facts_ageless|]. split; [now apply facts_ageless|].
  split; [intros i; destruct F as (F1 & F2 & F3 & F4 & F5); repeat split; auto|]. intros i. cbn [snd] in O. destruct O as (A & (B1 & B2 & B3) & (C1 & C2 & C3)).
  rewrite A, B1, B2, B3, C1, C2, C3. repeat split; ring.
Qed.
Print Assumptions C70_quiet_in_any_rounding.

Theorem C70_without_rounding_it_is_the_exact_model : rounding exact /\
  (forall fuel s rb st, step_dxi2_f exact fuel s rb st = step_dxi2 fuel s rb st) /\
  (forall w h ppc coef mass, (2 <= cells_f exact w h * ppc)%nat ->
    init2_f exact w h ppc coef None = init_background w h ppc coef 0 /\ init2_f exact w h ppc coef (Some mass) = init_mobile w h ppc coef 0 mass).
Proof. split; [repeat split|]. split; [exact step2_exact|exact init2_exact]. Qed.
Print Assumptions C70_without_rounding_it_is_the_exact_model.

(** ** binary64 *)
Lemma double_idem x : double (double x) = double x. Proof. destruct C69_binary64_is_a_rounding as (_ & _ & I). apply I. Qed.
Lemma double_bpow k : (-1074 <= k)%Z -> double (bpow radix2 k) = bpow radix2 k.
Proof. intros H. replace (bpow radix2 k) with (1 * bpow radix2 k) by ring. now apply (double_exact 1). Qed.
Lemma double_ge k x : (-1074 <= k)%Z -> bpow radix2 k <= x -> bpow radix2 k <= double x.
Proof. intros H L. rewrite <- (double_bpow k) by exact H. now apply double_mono. Qed.
Lemma bpow_mult_le a b x y : bpow radix2 a <= x -> bpow radix2 b <= y -> bpow radix2 (a + b) <= x * y.
Proof. intros A B. rewrite bpow_plus. apply Rmult_le_compat; auto; apply bpow_ge_0. Qed.
Lemma scale_exact x k : double x = x -> bpow radix2 (-500) <= x -> (-500 <= k)%Z -> double (bpow radix2 k * x) = bpow radix2 k * x.
Proof.
  intros Fx Hx Hk. assert (Px : 0 < x) by (eapply Rlt_le_trans; [apply bpow_gt_0|exact Hx]).
  assert (Gf : generic_format radix2 (FLT_exp (-1074) 53) x) by (rewrite <- Fx; apply generic_format_round; [apply FLT_exp_valid; reflexivity|apply valid_rnd_N]).
  assert (Mx : bpow radix2 (mag radix2 x - 1) <= x < bpow radix2 (mag radix2 x)).
  { destruct (mag radix2 x) as [v Hv]. cbn. assert (H := Hv ltac:(lra)). rewrite Rabs_pos_eq in H by lra. exact H. }
  assert (E : (-500 < mag radix2 x)%Z) by (apply (lt_bpow radix2); lra).
  assert (H := Gf). unfold generic_format, F2R, scaled_mantissa, cexp in H. cbn [Fnum Fexp] in H. unfold FLT_exp in H.
  assert (K : Z.max (mag radix2 x - 53) (-1074) = (mag radix2 x - 53)%Z) by lia. rewrite !K in H.
  set (e := (mag radix2 x - 53)%Z) in *. set (m := Ztrunc (x * bpow radix2 (- e))) in *.
  assert (M : (Z.abs m < 2 ^ 53)%Z).
  { apply lt_IZR. rewrite abs_IZR. apply (Rmult_lt_reg_r (bpow radix2 e)); [apply bpow_gt_0|].
    replace (Rabs (IZR m) * bpow radix2 e) with x. 2:{ rewrite <- (Rabs_pos_eq (bpow radix2 e)) by apply bpow_ge_0. rewrite <- Rabs_mult, <- H. symmetry. apply Rabs_pos_eq. lra. }
    change (IZR (2 ^ 53)) with (bpow radix2 53). rewrite <- bpow_plus. replace (53 + e)%Z with (mag radix2 x : Z) by (unfold e; lia). apply Mx. }
  rewrite H. replace (bpow radix2 k * (IZR m * bpow radix2 e)) with (IZR m * bpow radix2 (k + e)) by (rewrite bpow_plus; ring).
  apply double_exact; [exact M|unfold e; lia].
Qed.
(** A particle deposits exactly its charge. *)
Lemma deposited_own m : double m = m -> bpow radix2 (-500) <= m -> deposited double (- m) m = - m.
Proof.
  intros F H. assert (P : 0 < m) by (eapply Rlt_le_trans; [apply bpow_gt_0|exact H]). unfold deposited. rewrite C70_square_root_of_square by assumption.
  replace (- m / m) with (-1) by (field; lra). change (-1) with (- (1)). rewrite double_opp. rewrite (int_format 1) by (cbn; lia). replace (- (1) * m) with (- m) by ring. now rewrite double_opp, F.
Qed.
Lemma deposited_ion m k : double m = m -> bpow radix2 (-300) <= m -> (-200 <= k <= 200)%Z ->
  double (sqrt (double (double (bpow radix2 k * m) * double (bpow radix2 k * m)))) = bpow radix2 k * m /\ deposited double m (double (bpow radix2 k * m)) = m.
Proof.
  intros F H Hk. assert (P : 0 < m) by (eapply Rlt_le_trans; [apply bpow_gt_0|exact H]).
  assert (H5 : bpow radix2 (-500) <= m) by (eapply Rle_trans; [apply bpow_le|exact H]; lia).
  assert (SE : double (bpow radix2 k * m) = bpow radix2 k * m) by (apply scale_exact; auto; lia).
  assert (Bk := bpow_gt_0 radix2 k). assert (L : bpow radix2 (-500) <= bpow radix2 k * m).
  { eapply Rle_trans; [|apply (bpow_mult_le k (-300) (bpow radix2 k) m); [lra|exact H]]. apply bpow_le. lia. }
  assert (Sq : double (sqrt (double (double (bpow radix2 k * m) * double (bpow radix2 k * m)))) = bpow radix2 k * m).
  { rewrite !SE. apply C70_square_root_of_square; assumption. }
  split; [exact Sq|]. unfold deposited. rewrite Sq. replace (m / (bpow radix2 k * m)) with (bpow radix2 (- k)) by (rewrite bpow_opp; field; lra).
  rewrite double_bpow by lia. replace (bpow radix2 (- k) * (bpow radix2 k * m)) with m by (rewrite bpow_opp; field; lra). exact F.
Qed.
Lemma INR_bound k N : (Z.of_nat k <= N)%Z -> INR k <= IZR N. Proof. intros H. rewrite INR_IZR_INZ. now apply IZR_le. Qed.

(** The plasma the program creates, in binary64: positions inside the wall, ordinary masses, charge exactly minus mass. *)
Lemma created w h ppc coef : double w = w -> bpow radix2 (-100) <= w -> let np := (cells_f double w h * ppc)%nat in
  (2 <= np)%nat -> (Z.of_nat np <= 2 ^ 40)%Z -> (forall r, coef r = 0 \/ bpow radix2 (-16) <= coef r) ->
  forall p, In p (init_electrons_f double w h ppc coef) ->
    bpow radix2 (-141) <= r_ p <= w /\ double (r_ p) = r_ p /\ q_ p = - m_ p /\ bpow radix2 (-300) <= m_ p /\ double (m_ p) = m_ p.
Proof.
  intros Fw Hw np H2 H40 Hc p Hp. unfold init_electrons_f in Hp. apply filter_In in Hp. destruct Hp as [Hp Hq]. apply in_map_iff in Hp. destruct Hp as (r & <- & Hr). cbn [r_ q_ m_] in *.
  set (l := place_particles_f double w h ppc) in *. set (dr := double (w / INR np)) in *.
  assert (El : l = map (fun k => double ((INR k + 0.5) * dr)) (seq 0 np)) by reflexivity.
  assert (Nn : 2 <= INR np <= IZR (2 ^ 40)) by (split; [change 2 with (INR 2); apply le_INR; exact H2|apply INR_bound; exact H40]).
  assert (Bw : 0 < w) by (eapply Rlt_le_trans; [apply bpow_gt_0|exact Hw]).
  assert (Hdr : bpow radix2 (-140) <= w / INR np).
  { apply (Rmult_le_reg_r (INR np)); [lra|]. replace (w / INR np * INR np) with w by (field; lra). eapply Rle_trans; [|exact Hw].
    replace (-100)%Z with (-140 + 40)%Z by lia. rewrite bpow_plus. apply Rmult_le_compat_l; [apply bpow_ge_0|]. apply Nn. }
  assert (Ldr : bpow radix2 (-140) <= dr) by (apply double_ge; [lia|exact Hdr]).
  assert (Pdr : 0 < dr) by (eapply Rlt_le_trans; [apply bpow_gt_0|exact Ldr]).
  assert (Udr : dr <= w / INR np * (1 + u)) by (apply double_rel; eapply Rle_trans; [|exact Hdr]; apply bpow_le; lia).
  assert (U := u_pos). assert (V := u_small). assert (V' : IZR (2 ^ 53) = 8192 * IZR (2 ^ 40)) by (rewrite <- mult_IZR; reflexivity).
  assert (Hl : forall k, (k < np)%nat -> bpow radix2 (-141) <= double ((INR k + 0.5) * dr) <= w).
  { intros k Hk. assert (0 <= INR k) by apply pos_INR. assert (INR k <= INR np - 1) by (apply le_INR in Hk; rewrite S_INR in Hk; lra). split.
    - apply double_ge; [lia|]. apply Rle_trans with (/ 2 * bpow radix2 (-140)); [change (/ 2) with (bpow radix2 (-1)); rewrite <- bpow_plus; apply bpow_le; lia|].
      apply Rmult_le_compat; try lra. apply bpow_ge_0.
    - rewrite <- Fw. apply double_mono. apply Rle_trans with ((INR np - 0.5) * (w / INR np * (1 + u))); [apply Rmult_le_compat; lra|].
      replace ((INR np - 0.5) * (w / INR np * (1 + u))) with (w * ((INR np - 0.5) / INR np * (1 + u))) by (field; lra). rewrite <- (Rmult_1_r w) at 2. apply Rmult_le_compat_l; [lra|].
      apply (Rmult_le_reg_r (INR np)); [lra|]. replace ((INR np - 0.5) / INR np * (1 + u) * INR np) with ((INR np - 0.5) * (1 + u)) by (field; lra). nra. }
  assert (Hr' : exists k, (k < np)%nat /\ r = double ((INR k + 0.5) * dr)).
  { rewrite El in Hr. apply in_map_iff in Hr. destruct Hr as (k & <- & Hk). apply in_seq in Hk. exists k. split; [lia|reflexivity]. }
  destruct Hr' as (k & Hk & Er). assert (Br : bpow radix2 (-141) <= r <= w) by (rewrite Er; now apply Hl).
  assert (Sp : bpow radix2 (-141) <= spacing_f double l).
  { unfold spacing_f. rewrite El. rewrite !(nth_indep _ 0 (double ((INR 0 + 0.5) * dr))) by (rewrite map_length, seq_length; lia).
    rewrite !(map_nth (fun k => double ((INR k + 0.5) * dr))), !seq_nth by lia. cbn [plus]. apply double_ge; [lia|].
    assert (A : double ((INR 0 + 0.5) * dr) = bpow radix2 (-1) * dr).
    { replace ((INR 0 + 0.5) * dr) with (bpow radix2 (-1) * dr) by (cbn; lra). apply scale_exact; [apply double_idem| |lia]. eapply Rle_trans; [|exact Ldr]. apply bpow_le. lia. }
    assert (B : dr <= double ((INR 1 + 0.5) * dr)) by (apply Rle_trans with (double dr); [apply Req_le; symmetry; apply double_idem|]; apply double_mono; change (INR 1) with 1; nra).
    rewrite A. change (bpow radix2 (-1)) with (/ 2). assert (C : bpow radix2 (-141) = / 2 * bpow radix2 (-140)) by (change (/ 2) with (bpow radix2 (-1)); rewrite <- bpow_plus; reflexivity). lra. }
  set (mass := double (double (double (2 * pi_f double) * spacing_f double l) * r)) in *.
  assert (Ma : bpow radix2 (-280) <= mass).
  { unfold mass. apply double_ge; [lia|]. replace (-280)%Z with (-139 + -141)%Z by lia. apply bpow_mult_le; [|apply Br]. apply double_ge; [lia|]. replace (-139)%Z with (2 + -141)%Z by lia.
    apply bpow_mult_le; [|exact Sp]. apply double_ge; [lia|]. replace 2%Z with (1 + 1)%Z by lia. apply bpow_mult_le; [cbn; lra|]. unfold pi_f. apply double_ge; [lia|]. cbn. assert (P := PI_ineq 0). assert (2 <= PI) by (assert (PI2_3_2 := PI2_3_2); lra). lra. }
  assert (NZ : coef r <> 0). { intros E. rewrite E, !Rmult_0_r, double_0 in Hq. destruct (Req_EM_T 0 0); [discriminate|lra]. }
  assert (Cr : bpow radix2 (-16) <= coef r) by (destruct (Hc r); [contradiction|assumption]).
  split; [exact Br|]. split; [rewrite Er; apply double_idem|]. split; [rewrite Ropp_mult_distr_l_reverse, double_opp; reflexivity|]. split; [|apply double_idem].
  apply double_ge; [lia|]. apply Rle_trans with (bpow radix2 (-280 + -16)); [apply bpow_le; lia|]. now apply bpow_mult_le.
Qed.

(** ** C70 in binary64, for the states the program creates: a window at least 2^-100 wide, at most 2^40 particles, a
    density profile that is zero or at least 2^-16 (of the nominal density), ions as a background or as particles of mass 2^k. *)
Theorem C70_quiet_in_binary64 : forall w h ppc coef mobile bz xi sens depth corr rb k fuel,
  double w = w -> bpow radix2 (-100) <= w -> 0 < h -> double xi = xi -> bpow radix2 (-1000) <= xi -> 0 <= sens -> (1 <= fuel)%nat -> (forall i, rb i = 0) ->
  (2 <= cells_f double w h * ppc)%nat -> (Z.of_nat (cells_f double w h * ppc) <= 2 ^ 40)%Z -> (forall r, coef r = 0 \/ bpow radix2 (-16) <= coef r) ->
  (mobile = None \/ exists j, (-200 <= j <= 200)%Z /\ mobile = Some (bpow radix2 j)) ->
  let n := S (cells_f double w h) in
  let '((ps, flds, cur), im) := init2_f double w h ppc coef mobile in
  exists ps' flds' cur',
    run_layers (step_dxi2_f double fuel (quiet_solver n h w bz ppc im xi sens depth corr) rb) k (ps, flds, cur) = Some (ps', flds', cur') /\
    map facts (electrons ps') = map facts (electrons ps) /\ map facts (ion_list ps') = map facts (ion_list ps) /\
    (forall i, f_er flds' i = 0 /\ f_ef flds' i = 0 /\ f_ez flds' i = 0 /\ f_bf flds' i = 0 /\ f_bz flds' i = 0) /\
    (forall i, d_rho (row_e cur') i + d_rho (row_i cur') i = 0 /\ d_jr (row_e cur') i = 0 /\ d_jr (row_i cur') i = 0 /\
      d_jf (row_e cur') i = 0 /\ d_jf (row_i cur') i = 0 /\ d_jz (row_e cur') i = 0 /\ d_jz (row_i cur') i = 0).
Proof.
  intros w h ppc coef mobile bz xi sens depth corr rb k fuel Fw Hw Hh Fx Hx Hs Hfu Hb H2 H40 Hc Hm.
  assert (CR := created w h ppc coef Fw Hw H2 H40 Hc). assert (Bw : 0 < w) by (eapply Rlt_le_trans; [apply bpow_gt_0|exact Hw]).
  apply (C70_quiet_in_any_rounding double w h ppc coef mobile bz xi sens depth corr rb k fuel C69_binary64_is_a_rounding); auto; try lra.
  - assert (U := u_pos). assert (V := u_small). assert (Us : u <= 1 / 10000000) by (assert (10000000 <= IZR (2 ^ 53)) by (apply IZR_le; lia); nra).
    assert (Px : 0 < xi) by (eapply Rlt_le_trans; [apply bpow_gt_0|exact Hx]).
    assert (A : double 0.99999 <= 0.99999 * (1 + u)) by (apply double_rel; apply Rle_trans with (bpow radix2 (-1)); [apply bpow_le; lia|cbn; lra]).
    assert (B : / 2 <= double 0.99999) by (apply (double_ge (-1)); [lia|cbn; lra]).
    assert (C : double (double 0.99999 * xi) <= double 0.99999 * xi * (1 + u)).
    { apply double_rel. apply Rle_trans with (bpow radix2 (-1 + -1000)); [apply bpow_le; lia|]. apply bpow_mult_le; [cbn; lra|exact Hx]. }
    assert (D : double 0.99999 * (1 + u) <= 0.999995) by nra. nra.
  - intros p Hp. destruct (CR p Hp) as (A & B & C & D & E). assert (L := bpow_gt_0 radix2 (-141)). assert (L2 := bpow_gt_0 radix2 (-300)). split; [lra|]. split; [exact B|].
    split; [apply C70_square_root_of_square; [exact B|]; eapply Rle_trans; [|apply A]; apply bpow_le; lia|].
    rewrite C70_square_root_of_square; [lra|exact E|]. eapply Rle_trans; [|apply D]. apply bpow_le; lia.
  - intros p mass Hp Em. destruct (CR p Hp) as (A & B & C & D & E). destruct Hm as [Hm|(j & Hj & Hm)]; [congruence|]. rewrite Em in Hm. injection Hm as ->.
    assert (L2 := bpow_gt_0 radix2 (-300)). assert (Lj := bpow_gt_0 radix2 j).
    rewrite C, !Ropp_involutive. destruct (deposited_ion (m_ p) j E D Hj) as (F & G). cbv zeta. rewrite F. split; [nra|]. rewrite G, deposited_own; [ring|exact E|]. eapply Rle_trans; [|apply D]. apply bpow_le; lia.
Qed.
Print Assumptions C70_quiet_in_binary64.

(** Every particle the program creates falls into the arrays (n = cells + 1 nodes), if the width is a whole number of cells
    up to a quarter of one. *)
Theorem C70_particles_stay_in_the_arrays : forall w h ppc coef, double w = w -> bpow radix2 (-100) <= w -> 0 < h ->
  (2 <= cells_f double w h * ppc)%nat -> (Z.of_nat (cells_f double w h * ppc) <= 2 ^ 40)%Z -> (forall r, coef r = 0 \/ bpow radix2 (-16) <= coef r) ->
  w <= h * (INR (cells_f double w h) + 1 / 4) ->
  forall p, In p (init_electrons_f double w h ppc coef) -> (0 <= cell2_f double h (r_ p) <= Z.of_nat (cells_f double w h))%Z.
Proof.
  intros w h ppc coef Fw Hw Hh H2 H40 Hc HM p Hp. destruct (created w h ppc coef Fw Hw H2 H40 Hc p Hp) as ([A1 A2] & B & _). unfold cell2_f. set (r := r_ p) in *. set (M := cells_f double w h) in *.
  assert (Q := bpow_gt_0 radix2 (-141)). assert (MB : (Z.of_nat M <= 2 ^ 40)%Z) by (assert (1 <= ppc)%nat by (destruct ppc; lia); rewrite Nat2Z.inj_mul in H40; nia). assert (MI : 0 <= INR M <= IZR (2 ^ 40)) by (split; [apply pos_INR|now apply INR_bound]).
  assert (R1 : 0 <= r / h) by (apply Rmult_le_pos; [lra|apply Rlt_le, Rinv_0_lt_compat, Hh]).
  assert (R2 : r / h <= INR M + 1 / 4). { apply (Rmult_le_reg_r h); [exact Hh|]. replace (r / h * h) with r by (field; lra). nra. }
  set (Mz := Z.of_nat M) in *. assert (EM : INR M = IZR Mz) by apply INR_IZR_INZ. rewrite EM in *.
  assert (X : forall k, (0 <= k < 8)%Z -> double (IZR Mz + IZR k / 8) = IZR Mz + IZR k / 8).
  { intros k Hk. replace (IZR Mz + IZR k / 8) with (IZR (8 * Mz + k) * bpow radix2 (-3)) by (rewrite plus_IZR, mult_IZR; cbn; lra). apply double_exact; lia. }
  assert (D1 : double (r / h) <= IZR Mz + 2 / 8) by (rewrite <- (X 2%Z) by lia; apply double_mono; lra).
  assert (D0 : 0 <= double (r / h)) by (rewrite <- double_0; apply double_mono; exact R1).
  assert (D2 : double (double (r / h) + 0.5) <= IZR Mz + 6 / 8) by (rewrite <- (X 6%Z) by lia; apply double_mono; lra).
  assert (D3 : 0 <= double (double (r / h) + 0.5)) by (rewrite <- double_0; apply double_mono; lra).
  unfold floorR. set (y := double (double (r / h) + 0.5)) in *. destruct (archimed y) as [U1 U2].
  split; [apply Zlt_succ_le; replace (Z.succ (up y - 1)) with (up y) by lia; apply lt_IZR; lra|].
  apply Zlt_succ_le. apply lt_IZR. unfold Z.succ. rewrite minus_IZR, plus_IZR. lra.
Qed.
Print Assumptions C70_particles_stay_in_the_arrays.

(** ** Ions of the default mass, 1836: the charges do not cancel exactly.  An electron of charge -3 and the ion made from it
    (initialization.py:75-95) at r = 2, cells of width 1: the sum of the charges on node 1 is not zero. *)
Theorem C70_mobile_ions_cancel_exactly_refuted :
  let e := mkPl 2 0 0 0 (-3) 3 0 in let i := mkPl (r_ e) 0 0 0 (- q_ e) (double (1836 * - q_ e)) 0 in
  d_rho (deposit2_f double 1 5 [e]) 1%nat + d_rho (deposit2_f double 1 5 [i]) 1%nat = bpow radix2 (-54).
Proof.
  assert (I2 : double (2 / 1) = 2) by (replace (2 / 1) with 2 by field; apply (int_format 2); lia).
  assert (C2 : cell2_f double 1 2 = 2%Z).
  { unfold cell2_f. rewrite I2. replace (2 + 0.5) with (IZR 5 / 2) by lra. rewrite half_int by lia. unfold floorR. replace (up (5 / 2)) with 3%Z; [reflexivity|]. apply tech_up; lra. }
  assert (X0 : double (double (2 / 1) - 2) = 0) by (rewrite I2; replace (2 - 2) with 0 by ring; apply double_0).
  assert (W : weight_quadratic_f double 0 (-1) = 1 / 8).
  { cbn. unfold f2. replace (0 - 1 / 2) with (IZR (-1) / 2) by lra. rewrite half_int by lia. replace (IZR (-1) / 2 * (IZR (-1) / 2)) with (IZR 1 * bpow radix2 (-2)) by (cbn; lra). rewrite double_exact by lia.
    replace (IZR 1 * bpow radix2 (-2) / 2) with (IZR 1 * bpow radix2 (-3)) by (cbn; lra). rewrite double_exact by lia. cbn. lra. }
  assert (D : forall q m, d_rho (deposit2_f double 1 5 [mkPl 2 0 0 0 q m 0]) 1%nat = double (deposited double q m * (1 / 8))).
  { intros q m. unfold deposit2_f. cbn [fold_left close_ends d_rho]. unfold deposit_particle_f. cbn [r_ pr_ pf_ pz_ q_ m_]. rewrite !C2, X0. cbn [Z.eqb]. cbn [fold_left].
    rewrite W. rewrite !sq4_rest by exact C69_binary64_is_a_rounding. rewrite Rminus_0_r, double_idem. fold (deposited double q m).
    cbn. unfold add_at_f, zeros. change (Pos.to_nat 1) with 1%nat. change (Pos.to_nat 2) with 2%nat. change (Pos.to_nat 3) with 3%nat. cbn [Nat.eqb]. rewrite Rplus_0_l, double_idem. reflexivity. }
  cbv zeta. cbn [r_ q_]. rewrite !D. replace (- -3) with 3 by ring.
  assert (M : double (1836 * 3) = 5508) by (replace (1836 * 3) with (IZR 5508) by lra; apply int_format; lia). rewrite M.
  assert (S5 : forall k, (1 <= k <= 10000)%Z -> double (sqrt (double (IZR k * IZR k))) = IZR k).
  { intros k Hk. apply C70_square_root_of_square; [apply int_format; lia|]. apply Rle_trans with (bpow radix2 0); [apply bpow_le; lia|]. cbn. apply IZR_le. lia. }
  assert (E1 : deposited double (-3) 3 = -3).
  { apply deposited_own; [apply (int_format 3); lia|]. apply Rle_trans with (bpow radix2 0); [apply bpow_le; lia|]. cbn. lra. }
  assert (E2 : deposited double 3 5508 = IZR 6755399441055745 / IZR (2 ^ 51)).
  { unfold deposited. rewrite (S5 5508%Z) by lia. rewrite (double_dec (3 / 5508) 5023623113755325 63); [|lia|lia|].
    - apply double_dec; [lia|lia|]. apply Rabs_def1; cbn; lra.
    - apply Rabs_def1; cbn; lra. }
  rewrite E1, E2. replace (-3 * (1 / 8)) with (IZR (-3) * bpow radix2 (-3)) by (cbn; lra). rewrite double_exact by lia.
  replace (IZR 6755399441055745 / IZR (2 ^ 51) * (1 / 8)) with (IZR 6755399441055745 * bpow radix2 (-54)) by (cbn; lra). rewrite double_exact by lia. cbn. lra.
Qed.
Print Assumptions C70_mobile_ions_cancel_exactly_refuted.

(** ** The tridiagonal solver never divides by zero in binary64, whatever the particles and fields are: up to 2^22 cells,
    every pivot is at least 1, the last one at most -2^-52 (E_r) or exactly -1 (E_phi).  The factor the program passes is at least 1. *)
Definition pivot (rp pf : arr) (h : R) (i : nat) : R :=
  double (double (double (2 + double (pf i * double (h * h))) + double (1 / INR i ^ 2)) - double (double (1 - double (0.5 / INR i)) * fst (sweep_f double rp pf h (i - 1)))).
Lemma sweep_alpha rp pf h : (forall i, 0 <= pf i) -> forall i, (Z.of_nat i <= 2 ^ 22)%Z ->
  0 <= fst (sweep_f double rp pf h i) <= 1 /\ ((1 <= i)%nat -> 1 <= pivot rp pf h i).
Proof.
  intros Hp. assert (U := u_pos). assert (V := u_small). assert (D1 : double 1 = 1) by (apply (int_format 1); lia). assert (D0 := double_0).
  assert (U44 : u * 512 = bpow radix2 (-44)) by (change u with (bpow radix2 (-53)); replace 512 with (bpow radix2 9) by (cbn; lra); rewrite <- bpow_plus; reflexivity).
  assert (Us : u <= 1 / 1000000) by (assert (1000000 <= IZR (2 ^ 53)) by (apply IZR_le; lia); nra).
  induction i as [|i IH]; intros Hi; [split; [cbn; lra|lia]|].
  destruct (IH ltac:(lia)) as [[A0 A1] _]. clear IH. unfold pivot. replace (S i - 1)%nat with i by lia. cbn [sweep_f].
  destruct (sweep_f double rp pf h i) as [al be] eqn:E. cbn [fst] in *. clear E.
  set (x := INR (S i)) in *. assert (X1 : 1 <= x) by (unfold x; rewrite S_INR; assert (P := pos_INR i); lra).
  assert (X2 : x <= IZR (2 ^ 22)) by (apply INR_bound; exact Hi).
  assert (XX : x ^ 2 <= IZR (2 ^ 44)) .
  { replace (x ^ 2) with (x * x) by ring. replace (IZR (2 ^ 44)) with (IZR (2 ^ 22) * IZR (2 ^ 22)) by (rewrite <- mult_IZR; reflexivity). apply Rmult_le_compat; lra. }
  assert (X3 : 1 <= x ^ 2) by (replace (x ^ 2) with (x * x) by ring; nra).
  set (ep := 1 / x ^ 2). assert (Ep : bpow radix2 (-44) <= ep).
  { unfold ep. apply (Rmult_le_reg_r (x ^ 2)); [lra|]. replace (1 / x ^ 2 * x ^ 2) with 1 by (field; lra). apply Rle_trans with (bpow radix2 (-44) * IZR (2 ^ 44)); [apply Rmult_le_compat_l; [apply bpow_ge_0|exact XX]|].
    change (IZR (2 ^ 44)) with (bpow radix2 44). rewrite <- bpow_plus. cbn. lra. }
  assert (Ep1 : ep <= 1) by (unfold ep; apply (Rmult_le_reg_r (x ^ 2)); [lra|]; replace (1 / x ^ 2 * x ^ 2) with 1 by (field; lra); lra).
  assert (T0 : tiny <= 1 / 4) by (apply Rle_trans with (bpow radix2 (-2)); [apply bpow_le; lia|cbn; lra]).
  assert (Et : ep * (1 - u) <= double ep <= ep * (1 + u)) by (apply double_rel; eapply Rle_trans; [|exact Ep]; apply bpow_le; lia).
  set (t := double (0.5 / x)). assert (Ht : 0 <= t <= 1 / 2).
  { assert (0 <= 0.5 / x <= 0.5). { split; [apply Rmult_le_pos; [lra|apply Rlt_le, Rinv_0_lt_compat; lra]|]. apply (Rmult_le_reg_r x); [lra|]. replace (0.5 / x * x) with 0.5 by (field; lra). nra. }
    unfold t. split; [rewrite <- D0; apply double_mono; lra|]. rewrite <- (half_int 1) by lia. apply double_mono. lra. }
  assert (Ha : (1 + t) * (1 - u) <= double (1 + t) <= (1 + t) * (1 + u)) by (apply double_rel; lra).
  assert (Hc : (1 - t) * (1 - u) <= double (1 - t) <= (1 - t) * (1 + u)) by (apply double_rel; lra).
  set (f := double (pf (S i) * double (h * h))). assert (Hf : 0 <= f).
  { unfold f. rewrite <- D0. apply double_mono. apply Rmult_le_pos; [apply Hp|]. rewrite <- D0. apply double_mono. nra. }
  assert (Hb0 : 2 <= double (2 + f)) by (apply Rle_trans with (double 2); [rewrite (int_format 2) by lia; lra|apply double_mono; lra]).
  set (b := double (double (2 + f) + double ep)). assert (Hb : (2 + ep * (1 - u)) * (1 - u) <= b).
  { apply Rle_trans with (double (2 + ep * (1 - u))); [apply double_rel; nra|]. unfold b. apply double_mono. lra. }
  assert (Hca : double (double (1 - t) * al) <= (1 - t) * (1 + u)).
  { apply Rle_trans with (double (double (1 - t))); [apply double_mono; nra|rewrite double_idem; lra]. }
  set (ca := double (double (1 - t) * al)) in *. set (D := double (b - ca)).
  change (f2 double h) with (double (h * h)). change (double (pf (S i) * double (h * h))) with f. change (double (0.5 / x)) with t. change (1 / x ^ 2) with ep.
  assert (L : 1 + t + ep * (1 - 2 * u) - 4 * u <= b - ca) by nra.
  assert (EU : 512 * u <= ep) by (rewrite <- U44 in Ep; lra).
  assert (L1 : 1 <= b - ca) by nra.
  assert (HD : 1 <= D) by (apply Rle_trans with (double 1); [rewrite D1; lra|apply double_mono; exact L1]).
  assert (HD2 : (1 + t + ep * (1 - 2 * u) - 4 * u) * (1 - u) <= D).
  { destruct (double_rel (b - ca) ltac:(lra)) as [G _]. fold D in G. nra. }
  assert (K : double (1 + t) * (1 + u) <= D).
  { apply Rle_trans with ((1 + t) * (1 + u) * (1 + u)); [apply Rmult_le_compat_r; lra|]. eapply Rle_trans; [|exact HD2]. nra. }
  assert (Q : 0 <= double (1 / D)) by (rewrite <- D0; apply double_mono; apply Rmult_le_pos; [lra|apply Rlt_le, Rinv_0_lt_compat; lra]).
  assert (Q2 : double (1 + t) * double (1 / D) <= 1).
  { destruct (Rle_dec D 4) as [G|G].
    - assert (G1 : 1 / 4 <= 1 / D) by (apply (Rmult_le_reg_r D); [lra|]; replace (1 / D * D) with 1 by (field; lra); lra).
      destruct (double_rel (1 / D) ltac:(lra)) as [_ G2]. apply Rle_trans with (double (1 + t) * (1 / D * (1 + u))); [apply Rmult_le_compat_l; nra|].
      apply (Rmult_le_reg_r D); [lra|]. replace (double (1 + t) * (1 / D * (1 + u)) * D) with (double (1 + t) * (1 + u)) by (field; lra). lra.
    - assert (G1 : 1 / D <= 1 / 4) by (apply (Rmult_le_reg_r D); [lra|]; replace (1 / D * D) with 1 by (field; lra); lra).
      assert (G2 : double (1 / D) <= 1 / 4). { replace (1 / 4) with (bpow radix2 (-2)) in * by (cbn; lra). rewrite <- (double_bpow (-2)) by lia. apply double_mono. exact G1. }
      assert (double (1 + t) <= 2) by nra. nra. }
  split.
  - split; [rewrite <- D0; apply double_mono; apply Rmult_le_pos; [nra|exact Q]|]. apply Rle_trans with (double 1); [apply double_mono; exact Q2|rewrite D1; lra].
  - intros _. exact HD.
Qed.
Theorem C70_field_solver_never_divides_by_zero : forall rp pf h, (forall i, 0 <= pf i) ->
  (forall i, (1 <= i)%nat -> (Z.of_nat i <= 2 ^ 22)%Z -> 1 <= pivot rp pf h i) /\
  (forall nr, (2 <= nr)%nat -> (Z.of_nat nr <= 2 ^ 22)%Z -> let alpha := fst (sweep_f double rp pf h (nr - 1)) in let edge := double (INR nr - 1 / 2) in
     edge = INR nr - 1 / 2 /\ double (double (- INR nr / edge) - double (double (- (INR nr - 1) / edge) * alpha)) <= - bpow radix2 (-52) /\
     double (-1 - double (0 * alpha)) = -1) /\
  (forall rho jr jf jz i, 1 <= prev_factor_f double rho jr jf jz i).
Proof.
  intros rp pf h Hp. split; [intros i H1 H2; now apply (sweep_alpha rp pf h Hp i H2)|]. split.
  - intros nr H2 H22. cbv zeta. destruct (sweep_alpha rp pf h Hp (nr - 1) ltac:(lia)) as [[A0 A1] _]. set (al := fst _) in *.
    assert (En : INR nr - 1 / 2 = IZR (2 * Z.of_nat nr - 1) / 2) by (rewrite minus_IZR, mult_IZR, <- INR_IZR_INZ; field).
    assert (Ee : double (INR nr - 1 / 2) = INR nr - 1 / 2) by (rewrite En; apply half_int; lia). split; [exact Ee|]. rewrite Ee.
    assert (N1 : 2 <= INR nr) by (change 2 with (INR 2); apply le_INR; exact H2). assert (N2 : INR nr <= IZR (2 ^ 22)) by (apply INR_bound; exact H22).
    assert (D1 : double 1 = 1) by (apply (int_format 1); lia). assert (D0 := double_0).
    split; [|rewrite Rmult_0_l, D0, Rminus_0_r; apply (int_format (-1)); cbn; lia].
    set (y := INR nr - 1 / 2) in *. assert (Hy : 0 < y) by (unfold y; lra).
    assert (B1 : IZR (2 ^ 52 + 1) * bpow radix2 (-52) <= double (INR nr / y)).
    { rewrite <- (double_exact (2 ^ 52 + 1) (-52)) by lia. apply double_mono. apply (Rmult_le_reg_r y); [exact Hy|]. replace (INR nr / y * y) with (INR nr) by (field; lra).
      rewrite plus_IZR. change (IZR (2 ^ 52)) with (bpow radix2 52). rewrite Rmult_plus_distr_r, <- bpow_plus. change (bpow radix2 (52 + -52)) with 1.
      assert (bpow radix2 (-52) * IZR (2 ^ 22) = bpow radix2 (-30)) by (change (IZR (2 ^ 22)) with (bpow radix2 22); rewrite <- bpow_plus; reflexivity).
      assert (bpow radix2 (-30) <= 1 / 4) by (apply Rle_trans with (bpow radix2 (-2)); [apply bpow_le; lia|cbn; lra]). assert (P := bpow_gt_0 radix2 (-52)). unfold y. nra. }
    assert (B0 : 0 <= double ((INR nr - 1) / y) <= 1).
    { split; [rewrite <- D0; apply double_mono; apply Rmult_le_pos; [lra|apply Rlt_le, Rinv_0_lt_compat; lra]|]. apply Rle_trans with (double 1); [|rewrite D1; lra]. apply double_mono. apply (Rmult_le_reg_r y); [exact Hy|]. replace ((INR nr - 1) / y * y) with (INR nr - 1) by (field; lra). unfold y. lra. }
    replace (- INR nr / y) with (- (INR nr / y)) by (field; lra). replace (- (INR nr - 1) / y) with (- ((INR nr - 1) / y)) by (field; lra).
    rewrite (double_opp ((INR nr - 1) / y)), Ropp_mult_distr_l_reverse, (double_opp (double ((INR nr - 1) / y) * al)).
    assert (B2 : double (double ((INR nr - 1) / y) * al) <= 1) by (apply Rle_trans with (double 1); [apply double_mono; nra|rewrite D1; lra]).
    set (v := double (double ((INR nr - 1) / y) * al)) in *. rewrite (double_opp (INR nr / y)). apply Rle_trans with (double (- bpow radix2 (-52))); [|rewrite double_opp, double_bpow by lia; lra]. apply double_mono.
    rewrite plus_IZR in B1. change (IZR (2 ^ 52)) with (bpow radix2 52) in B1. rewrite Rmult_plus_distr_r, <- bpow_plus in B1. change (bpow radix2 (52 + -52)) with 1 in B1. lra.
  - intros rho jr jf jz i. unfold prev_factor_f. set (f := if Rlt_dec _ (double (rho i - 1)) then 0 else _). apply Rle_trans with (double 1); [rewrite (int_format 1) by lia; lra|]. apply double_mono. destruct (Rlt_dec f 0); lra.
Qed.
Print Assumptions C70_field_solver_never_divides_by_zero.

(** A case that meets the hypotheses: a window of 2 with cells of 1/2, ten particles per cell, uniform plasma. *)
Example C70_case : cells_f double 2 (1 / 2) = 4%nat /\ double 2 = 2 /\ bpow radix2 (-100) <= 2 /\ (2 <= cells_f double 2 (1 / 2) * 10)%nat /\
  (Z.of_nat (cells_f double 2 (1 / 2) * 10) <= 2 ^ 40)%Z /\ 2 <= 1 / 2 * (INR (cells_f double 2 (1 / 2)) + 1 / 4).
Proof.
  assert (C : cells_f double 2 (1 / 2) = 4%nat).
  { unfold cells_f. replace (2 / (1 / 2)) with (IZR 4) by field. rewrite int_format by lia. unfold floorR. replace (up 4) with 5%Z; [reflexivity|]. apply tech_up; lra. }
  rewrite C. split; [reflexivity|]. split; [apply (int_format 2); lia|]. split; [apply Rle_trans with (bpow radix2 0); [apply bpow_le; lia|cbn; lra]|]. split; [lia|]. split; [lia|]. cbn. lra.
Qed.
