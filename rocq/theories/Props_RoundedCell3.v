(** Theorems C75, continued: each cell of the 3D plasma densities in binary64. *)
From Coq Require Import Reals ZArith List Bool Lra Lia Psatz FunctionalExtensionality.
From Flocq Require Import Core.
From Verif Require Import Float_Model Float_Proofs Beam2D_Model Beam2D_Spec Beam2D_Free Beam3D_Model Beam3D_Spec Shape_Model Shape_Spec Shape_Proofs Plasma3D_Model Plasma3D_Spec Rounded3D_Model RoundedBeam_Spec RoundedBeam_Model Props_RoundedBeam RoundedSum_Proofs RoundedWeight_Proofs RoundedDep_Model RoundedDep_Spec RoundedDep_Proofs RoundedCell_Proofs Props_RoundedDep RoundedPlasma_Proofs Props_RoundedPlasma Props_RoundedCell.
Import ListNotations.
Open Scope R_scope.

(** the charge of a particle over the square of 1 - pz/gamma: how strongly its density reacts to an error of its momentum *)
Definition stretch3 (p : pt3) : R := Rabs (t_q p) / (1 - t_pz p / energy3 p) ^ 2.

(** ** The charge and the currents of a particle *)
Section Currents.
  Variables (m px py pz : R).
  Hypothesis Hm : bpow radix2 (-100) <= m.
  Let A := m ^ 2 + px ^ 2 + py ^ 2 + pz ^ 2.
  Hypothesis HG : sqrt A <= bpow radix2 300.
  Let g := gamma_a double m px py pz.
  Let sg := pz / sqrt A.
  Let d := double (1 - double (pz / g)).
  Hypothesis Hd : bpow radix2 (-40) <= 1 - sg.
  Variable q : R.
  Hypothesis Hq : bpow radix2 (-500) <= Rabs q.
  Let dr := 1 - sg.
  Let D := Rabs q / dr.
  Let S := Rabs q / dr ^ 2.
  Let dro := double (q / d).
  Lemma D_S : D = S * dr /\ 0 < S /\ 0 < D <= 2 * S.
  Proof.
    destruct (dr_pos m px py pz Hm Hd) as [A1 A2]. fold A in A1, A2. fold sg in A1, A2. fold dr in A1, A2. assert (K := D_pos m px py pz Hm Hd q Hq). fold A sg dr D in K.
    assert (E : D = S * dr) by (unfold D, S; field; lra). split; [exact E|]. assert (S0 : 0 < S) by (apply (Rmult_lt_reg_r dr); [exact A1|]; rewrite Rmult_0_l, <- E; exact K). split; [exact S0|]. split; [exact K|]. rewrite E. nra.
  Qed.
  Lemma dro_exact : Rabs (dro - q / dr) <= 15 * u * S.
  Proof.
    destruct D_S as (E & S0 & D0 & D1). assert (N := dro_near m px py pz Hm Hd q Hq). fold A g sg d dr dro D in N. assert (DA := d_ap m px py pz Hm). fold A g sg d dr in DA. assert (DN := d_near m px py pz Hm Hd). fold A g sg d dr in DN. destruct (dr_pos m px py pz Hm Hd) as [A1 A2]. fold A sg dr in A1, A2.
    assert (U := u_pos). assert (d0 : 0 < d) by lra. replace (dro - q / dr) with ((dro - q / d) + q / dr * ((dr - d) / d)) by (field; lra). eapply Rle_trans; [apply Rabs_triang|]. rewrite (Rabs_mult (q / dr)).
    assert (Q : Rabs (q / dr) = D) by (unfold Rdiv; rewrite Rabs_mult, (Rabs_pos_eq (/ dr)) by (left; now apply Rinv_0_lt_compat); reflexivity). rewrite Q.
    unfold approx in DA. rewrite Rabs_minus_sym in DA.
    assert (F : Rabs ((dr - d) / d) * dr <= 12.7 * u). { unfold Rdiv. rewrite Rabs_mult, (Rabs_pos_eq (/ d)) by (left; now apply Rinv_0_lt_compat). apply (Rmult_le_reg_r d); [exact d0|]. replace (Rabs (dr - d) * / d * dr * d) with (Rabs (dr - d) * dr) by (field; lra). assert (Rabs (dr - d) * dr <= (12.5 * u) * dr) by (apply Rmult_le_compat_r; lra). nra. }
    assert (F2 : D * Rabs ((dr - d) / d) <= S * (12.7 * u)). { rewrite E. replace (S * dr * Rabs ((dr - d) / d)) with (S * (Rabs ((dr - d) / d) * dr)) by ring. apply Rmult_le_compat_l; lra. }
    assert (0 <= u * S) by nra. assert (u * D <= u * (2 * S)) by (apply Rmult_le_compat_l; lra). lra.
  Qed.
  (** any component of the momentum *)
  Variable c : R.
  Hypothesis Hc : c ^ 2 <= A.
  Let dj := double (c * double (dro / g)).
  Lemma v_range : Rabs (c / sqrt A) <= 1.
  Proof.
    assert (P := G_pos m px py pz Hm). fold A in P. unfold Rdiv. rewrite Rabs_mult, (Rabs_pos_eq (/ _)) by (left; now apply Rinv_0_lt_compat). apply (Rmult_le_reg_r (sqrt A)); [exact P|]. rewrite Rmult_assoc, Rinv_l, Rmult_1_l, Rmult_1_r by lra.
    rewrite <- sqrt_Rsqr_abs. apply sqrt_le_1_alt. unfold Rsqr. lra.
  Qed.
  Lemma dj_near : Rabs (dj - dro * (c / sqrt A)) <= 13 * u * D.
  Proof.
    destruct (g_inv m px py pz Hm) as [Pg K]. fold A g in Pg, K. assert (P := G_pos m px py pz Hm). fold A in P. assert (PD := D_pos m px py pz Hm Hd q Hq). fold A sg dr D in PD. assert (R := v_range). assert (DS := dro_size m px py pz Hm Hd q Hq). fold A g sg d dr dro D in DS. assert (SC := D_scale m px py pz Hm Hd q Hq). fold A sg dr D in SC.
    set (v := c / sqrt A) in *.
    assert (B : Rabs (dro / D) <= 1.1). { unfold Rdiv. rewrite Rabs_mult, (Rabs_pos_eq (/ D)) by lra. apply (Rmult_le_reg_r D); [exact PD|]. rewrite Rmult_assoc, Rinv_l by lra. lra. }
    assert (A1 : approx 11.3 (double (dro / g) * (sqrt A / D)) (dro / D)).
    { assert (M : approx (0 * 1 + 9.2 * 1.1 + / 1000) (dro / g * (sqrt A / D)) (dro / D)).
      { replace (dro / g * (sqrt A / D)) with (dro / D * (sqrt A / g)) by (field; lra). replace (dro / D) with (dro / D * 1) at 2 by ring. apply (ap_mul 0 9.2 (dro / D) (dro / D) _ 1 1.1 1); try lra; try assumption; try (rewrite Rabs_R1; lra); apply ap_refl. }
      rds (sqrt A / D) 1.1; [exact M| |lra|exact B|lra].
      split; [apply Rmult_lt_0_compat; [exact P|lra]|]. apply Rle_trans with (bpow radix2 300 * bpow radix2 510); [apply Rmult_le_compat; lra|]. rewrite <- bpow_plus. apply bpow_le. lia. }
    assert (B2 : Rabs (v * (dro / D)) <= 1.1) by (rewrite Rabs_mult; assert (Q1 := Rabs_pos v); assert (Q2 := Rabs_pos (dro / D)); nra).
    assert (A2 : approx 12.6 (dj * / D) (v * (dro / D))).
    { unfold dj. assert (M : approx (0 * 1.1 + 11.3 * 1 + / 1000) (c * double (dro / g) * / D) (v * (dro / D))).
      { replace (c * double (dro / g) * / D) with (v * (double (dro / g) * (sqrt A / D))) by (unfold v; field; lra). apply (ap_mul 0 11.3 v v _ _ 1 1.1); try lra; try assumption; apply ap_refl. }
      rds (/ D) 1.1; [exact M| |lra|exact B2|lra]. split; [lra|]. eapply Rle_trans; [apply SC|]. apply bpow_le. lia. }
    unfold approx in A2. replace (dj - dro * v) with ((dj * / D - v * (dro / D)) * D) by (field; lra). rewrite Rabs_mult, (Rabs_pos_eq D) by lra. apply Rmult_le_compat_r; [lra|]. assert (U := u_pos). lra.
  Qed.
  Lemma dj_exact : Rabs (dj - q / dr * (c / sqrt A)) <= 42 * u * S /\ Rabs dj <= 1.2 * D.
  Proof.
    assert (K := dj_near). assert (L := dro_size m px py pz Hm Hd q Hq). fold A g sg d dr dro D in L. assert (X := dro_exact). assert (R := v_range). destruct D_S as (E & S0 & D0 & D1). assert (U := u_tiny). assert (UP := u_pos). set (v := c / sqrt A) in *. assert (Q2 := Rabs_pos v).
    split.
    - replace (dj - q / dr * v) with ((dj - dro * v) + (dro - q / dr) * v) by ring. eapply Rle_trans; [apply Rabs_triang|]. rewrite (Rabs_mult (dro - q / dr)). assert (Q := Rabs_pos (dro - q / dr)). assert (Rabs (dro - q / dr) * Rabs v <= 15 * u * S * 1) by (apply Rmult_le_compat; lra). assert (0 <= u * S) by nra. assert (u * D <= u * (2 * S)) by (apply Rmult_le_compat_l; lra). lra.
    - assert (T := Rabs_triang (dro * v) (dj - dro * v)). replace (dro * v + (dj - dro * v)) with dj in T by ring. rewrite Rabs_mult in T. assert (Q := Rabs_pos dro). assert (Rabs dro * Rabs v <= Rabs dro * 1) by (apply Rmult_le_compat_l; lra). assert (13 * u * D <= 0.01 * D) by (apply Rmult_le_compat_r; lra). lra.
  Qed.
End Currents.

(** ** What a particle adds to the four arrays *)
Definition gam (p : pt3) : R := gamma_a double (t_m p) (t_px p) (t_py p) (t_pz p).
Definition dro_f (p : pt3) : R := double (t_q p / double (1 - double (t_pz p / gam p))).
Definition dj_f (c : pt3 -> R) (p : pt3) : R := double (c p * double (dro_f p / gam p)).
Definition px_h (h : R) (p : pt3) : R := x_h_f h (double (t_x0 p + t_dx p)).
Definition py_h (h : R) (p : pt3) : R := x_h_f h (double (t_y0 p + t_dy p)).
Definition drops (n : Z) (h : R) (f : pt3 -> R) (p : pt3) : list ((Z * Z) * R) :=
  if Req_EM_T (t_q p) 0 then [] else map (fun k => ((cell n (px_h h p) + fst k, cell n (py_h h p) + snd k)%Z, share3p h (px_h h p) (py_h h p) (f p) k)) pairs.
Lemma deposit_one_puts n h x_h y_h d g : flat (deposit_one_f double n h x_h y_h d g) = puts eqz (flat g) (map (fun k => ((cell n x_h + fst k, cell n y_h + snd k)%Z, share3p h x_h y_h d k)) pairs).
Proof.
  unfold deposit_one_f. cbv zeta. rewrite (fold_pairs (fun g kx ky => add_cell_f double g (cell n x_h + kx) (cell n y_h + ky) (double (d * double (double (double (weight4_f double (loc_f double x_h) kx / h) * weight4_f double (loc_f double y_h) ky) / h))))).
  exact (flat_puts (fun k => (cell n x_h + fst k)%Z) (fun k => (cell n y_h + snd k)%Z) (share3p h x_h y_h d) pairs g).
Qed.
Lemma plasma_puts n h l : forall o, let o' := fold_left (deposit_plasma_one_f double n h) l o in
  flat (c_ro o') = puts eqz (flat (c_ro o)) (flat_map (drops n h dro_f) l) /\ flat (c_jx o') = puts eqz (flat (c_jx o)) (flat_map (drops n h (dj_f t_px)) l) /\
  flat (c_jy o') = puts eqz (flat (c_jy o)) (flat_map (drops n h (dj_f t_py)) l) /\ flat (c_jz o') = puts eqz (flat (c_jz o)) (flat_map (drops n h (dj_f t_pz)) l).
Proof.
  induction l as [|p l IH]; intros o o'; [repeat split|]. cbn [flat_map]. rewrite !puts_app. unfold o'. cbn [fold_left].
  assert (E : let o1 := deposit_plasma_one_f double n h o p in flat (c_ro o1) = puts eqz (flat (c_ro o)) (drops n h dro_f p) /\ flat (c_jx o1) = puts eqz (flat (c_jx o)) (drops n h (dj_f t_px) p) /\
    flat (c_jy o1) = puts eqz (flat (c_jy o)) (drops n h (dj_f t_py) p) /\ flat (c_jz o1) = puts eqz (flat (c_jz o)) (drops n h (dj_f t_pz) p)).
  { unfold deposit_plasma_one_f, drops. destruct (Req_EM_T (t_q p) 0); [repeat split|]. rewrite half_double. cbv zeta. cbn [c_ro c_jx c_jy c_jz]. repeat split; apply deposit_one_puts. }
  cbv zeta in E. destruct E as (E1 & E2 & E3 & E4). rewrite <- E1, <- E2, <- E3, <- E4. apply IH.
Qed.

Section Cell3P.
  Variables (N : nat) (h : R).
  Hypotheses (Hh : ordinary_step h) (HN : (Z.of_nat N <= 2 ^ 46)%Z).
  Lemma small_E3 : (43 + 3 * INR N) * u <= / 10.
  Proof.
    assert (A : INR N <= IZR (2 ^ 46)) by (rewrite INR_IZR_INZ; apply IZR_le; lia). assert (U := u_pos). assert (T := u_tiny). assert (V := u_small).
    replace (IZR (2 ^ 53)) with (128 * IZR (2 ^ 46)) in V by (rewrite <- mult_IZR; reflexivity). 
    apply Rle_trans with ((43 + 3 * IZR (2 ^ 46)) * u); [apply Rmult_le_compat_r; lra|]. lra.
  Qed.
  (** the position, rounded as well *)
  Lemma place_near x : off_edge 5 (Z.of_nat N) h x -> Rabs (x_h_f h (double x) - (x / h + 1/2)) <= (1.5 * INR N + 0.8) * u.
  Proof.
    intros X. assert (SE := small_E3). assert (Hm : 0 <= INR N) by apply pos_INR. assert (U := u_pos). assert (Ph := step_pos _ Hh). assert (Nu : INR N * u <= / 10) by lra.
    assert (Ed : forall k y, (0 <= k)%Z -> off_edge k (Z.of_nat N) h y -> Rabs y <= INR N / 2 * h).
    { intros k y Hk Hy. unfold off_edge in Hy. eapply Rle_trans; [exact Hy|]. apply Rmult_le_compat_r; [lra|]. assert (IZR (2 * (Z.of_nat N / 2)) <= IZR (Z.of_nat N)) by (apply IZR_le, Z.mul_div_le; lia). rewrite mult_IZR in H. rewrite INR_IZR_INZ. assert (0 <= IZR k) by (apply IZR_le; lia). lra. }
    assert (X4 := off_edge_double N h x Hh ltac:(lia) X). assert (E1 := x_h_near h _ _ Ph (Ed 4%Z _ ltac:(lia) X4) Hm Nu). assert (Bx := Ed 5%Z _ ltac:(lia) X).
    assert (E2 := round_error x). assert (Es := eta_step _ Hh). assert (K : Rabs (double x / h - x / h) <= (INR N / 2 + 0.1) * u).
    { replace (double x / h - x / h) with ((double x - x) * / h) by (field; lra). rewrite Rabs_mult, (Rabs_pos_eq (/ h)) by (left; now apply Rinv_0_lt_compat). apply (Rmult_le_reg_r h); [exact Ph|]. rewrite Rmult_assoc, Rinv_l, Rmult_1_r by lra.
      assert (u * Rabs x <= u * (INR N / 2 * h)) by (apply Rmult_le_compat_l; lra). assert (0 < u * h) by (apply Rmult_lt_0_compat; lra). lra. }
    replace (x_h_f h (double x) - (x / h + 1/2)) with ((x_h_f h (double x) - (double x / h + 1/2)) + (double x / h - x / h)) by ring. eapply Rle_trans; [apply Rabs_triang|]. lra.
  Qed.
  Lemma one_drop f F p a b : (t_q p = 0 -> F p = 0) -> 0 <= stretch3 p ->
    (t_q p <> 0 -> bpow radix2 (-510) <= 1.2 * load3 p /\ Rabs (f p) <= 1.2 * load3 p /\ Rabs (F p) <= load3 p /\ load3 p <= 2 * stretch3 p /\ Rabs (f p - F p) <= 42 * u * stretch3 p /\ off_edge 5 (Z.of_nat N) h (t_x0 p + t_dx p) /\ off_edge 5 (Z.of_nat N) h (t_y0 p + t_dy p)) ->
    let ex := F p * shape (Z.of_nat N) h (t_x0 p + t_dx p) (t_y0 p + t_dy p) a b / h ^ 2 in
    0 <= 2 * stretch3 p / h ^ 2 /\ Rabs ex <= 1.5 * (2 * stretch3 p / h ^ 2) /\ (length (hits eqz (a, b) (drops (Z.of_nat N) h f p)) <= 1)%nat /\
    (forall v, In v (hits eqz (a, b) (drops (Z.of_nat N) h f p)) -> is_double v) /\
    Rabs (sumR (hits eqz (a, b) (drops (Z.of_nat N) h f p)) - ex) <= (43 + 3 * INR N) * u * (2 * stretch3 p / h ^ 2).
  Proof.
    intros HF HS Hp ex. assert (U := u_pos). assert (T := u_tiny). assert (Ph := step_pos _ Hh). destruct (h_scale h Hh) as [S1 S2]. assert (I2 : 0 < / h ^ 2) by (apply Rinv_0_lt_compat; lra). assert (Hm : 0 <= INR N) by apply pos_INR.
    assert (Z0 : 0 <= 2 * stretch3 p / h ^ 2) by (apply Rmult_le_pos; lra). split; [exact Z0|]. unfold drops. destruct (Req_EM_T (t_q p) 0) as [E|NE].
    - unfold ex. rewrite (HF E). unfold Rdiv. rewrite !Rmult_0_l, Rabs_R0. cbn. rewrite Rminus_0_r, Rabs_R0. repeat split; try lia; try tauto; try (apply Rmult_le_pos; try lra; exact Z0).
    - destruct (Hp NE) as (B & Bf & BF & LS & Df & X & Y). rewrite pair_hits. assert (EX := place_near _ X). assert (EY := place_near _ Y). fold (px_h h p) in EX. fold (py_h h p) in EY. assert (SE := small_E3).
      set (xh := px_h h p) in *. set (yh := py_h h p) in *. assert (Se : (1.5 * INR N + 0.8) * u <= 1) by lra.
      assert (WX := ext_near (Z.of_nat N) xh a _ _ EX Se). assert (WY := ext_near (Z.of_nat N) yh b _ _ EY Se).
      set (wx := ext (weight4 (loc_f double xh)) (a - cell (Z.of_nat N) xh)) in *. set (wy := ext (weight4 (loc_f double yh)) (b - cell (Z.of_nat N) yh)) in *.
      assert (RE : forall w k, (forall j, In j places -> 0 <= weight4 w j <= 1) -> 0 <= ext (weight4 w) k <= 1). { intros w k Hw. unfold ext. destruct (near5 k) eqn:E; [apply Hw; now apply near5_in|lra]. }
      assert (RW : forall X j, In j places -> 0 <= weight4 (loc_f double X) j <= 1). { intros X0 j Hj. assert (P1 := w4_pos _ j (loc_f_in X0) Hj). assert (P2 := w4_le _ j (loc_f_in X0) Hj). rewrite Rabs_pos_eq in P2 by exact P1. lra. }
      assert (RX : 0 <= wx <= 1) by (apply RE, RW). assert (RY : 0 <= wy <= 1) by (apply RE, RW).
      assert (SX := spline_range (IZR (a - Z.of_nat N / 2) - (t_x0 p + t_dx p) / h)). assert (SY := spline_range (IZR (b - Z.of_nat N / 2) - (t_y0 p + t_dy p) / h)).
      unfold ex, shape. set (sx := spline4 (IZR (a - Z.of_nat N / 2) - (t_x0 p + t_dx p) / h)) in *. set (sy := spline4 (IZR (b - Z.of_nat N / 2) - (t_y0 p + t_dy p) / h)) in *. set (S := stretch3 p) in *. set (D := load3 p) in *.
      assert (Sxy : 0 <= sx * sy <= 1) by nra. assert (Wxy : 0 <= wx * wy <= 1) by nra. assert (D0 : 0 <= D) by (assert (K := Rabs_pos (F p)); lra).
      split; [|split; [destruct (near5 _ && near5 _); cbn; lia|split; [destruct (near5 _ && near5 _); intros v Hv; [destruct Hv as [<-|[]]; apply double_double|destruct Hv]|]]].
      + unfold Rdiv. rewrite Rabs_mult, (Rabs_pos_eq (/ h ^ 2)) by lra. rewrite <- (Rmult_assoc 1.5). apply Rmult_le_compat_r; [lra|]. rewrite Rabs_mult, (Rabs_pos_eq (sx * sy)) by lra. assert (Rabs (F p) * (sx * sy) <= Rabs (F p) * 1) by (apply Rmult_le_compat_l; [apply Rabs_pos|lra]). lra.
      + set (v := sumR (if near5 (a - cell (Z.of_nat N) xh) && near5 (b - cell (Z.of_nat N) yh) then [share3p h xh yh (f p) (a - cell (Z.of_nat N) xh, b - cell (Z.of_nat N) yh)%Z] else [])).
        assert (H1 : Rabs (v * h ^ 2 - f p * (wx * wy)) <= 15 * u * D).
        { unfold v, wx, wy, ext. destruct (near5 (a - cell (Z.of_nat N) xh)) eqn:N1; destruct (near5 (b - cell (Z.of_nat N) yh)) eqn:N2; cbn [andb sumR].
          - rewrite Rplus_0_r. unfold share3p. cbn [fst snd]. assert (In3 : In (a - cell (Z.of_nat N) xh, b - cell (Z.of_nat N) yh)%Z pairs) by (apply in_prod; now apply near5_in). destruct (pair_ap xh yh _ In3) as [_ B1]. cbn [fst snd] in B1.
            assert (PW := plasma_w_ap h xh yh _ Hh In3). cbn [fst snd] in PW. set (W := weight4 (loc_f double xh) (a - cell (Z.of_nat N) xh) * weight4 (loc_f double yh) (b - cell (Z.of_nat N) yh)) in *.
            assert (AW : Rabs W <= 1) by (apply Rabs_le; lra). eapply Rle_trans; [apply (times_charge_s (h ^ 2) (1.2 * D) (f p) 11.4 _ W 1 S2 B Bf); [lra|exact AW|lra|exact PW]|]. assert (0 <= u * D) by (apply Rmult_le_pos; lra). lra.
          - rewrite !Rmult_0_r, Rmult_0_l, Rminus_0_r, Rabs_R0. assert (0 <= u * D) by (apply Rmult_le_pos; lra). lra.
          - rewrite !Rmult_0_l, Rmult_0_r, Rminus_0_r, Rabs_R0. assert (0 <= u * D) by (apply Rmult_le_pos; lra). lra.
          - rewrite !Rmult_0_l, Rmult_0_r, Rminus_0_r, Rabs_R0. assert (0 <= u * D) by (apply Rmult_le_pos; lra). lra. }
        clearbody v. assert (P3 := product3 wx wy 1 sx sy 1 _ _ 0 RX RY SX SY ltac:(rewrite Rabs_R1; lra) WX WY ltac:(replace (1 - 1) with 0 by ring; rewrite Rabs_R0; lra)). rewrite !Rmult_1_r in P3.
        assert (P4 : Rabs (wx * wy - sx * sy) <= (6 + 3 * INR N) * u). { replace (wx * wy - sx * sy) with ((wx - sx) * wy + sx * (wy - sy)) by ring. eapply Rle_trans; [apply Rabs_triang|]. rewrite !Rabs_mult, (Rabs_pos_eq wy), (Rabs_pos_eq sx) by lra.
          assert (Rabs (wx - sx) * wy <= (2.1 * u + (1.5 * INR N + 0.8) * u) * 1) by (apply Rmult_le_compat; try lra; apply Rabs_pos). assert (sx * Rabs (wy - sy) <= 1 * (2.1 * u + (1.5 * INR N + 0.8) * u)) by (apply Rmult_le_compat; try lra; apply Rabs_pos). lra. }
        assert (H2 : Rabs (v * h ^ 2 - F p * (sx * sy)) <= (43 + 3 * INR N) * u * (2 * S)).
        { replace (v * h ^ 2 - F p * (sx * sy)) with ((v * h ^ 2 - f p * (wx * wy)) + ((f p - F p) * (wx * wy) + F p * (wx * wy - sx * sy))) by ring. eapply Rle_trans; [apply Rabs_triang|]. eapply Rle_trans; [apply Rplus_le_compat_l, Rabs_triang|]. rewrite (Rabs_mult (f p - F p)), (Rabs_mult (F p)), (Rabs_pos_eq (wx * wy)) by lra.
          assert (K1 : Rabs (f p - F p) * (wx * wy) <= 42 * u * S * 1) by (apply Rmult_le_compat; try lra; apply Rabs_pos). assert (K2 : Rabs (F p) * Rabs (wx * wy - sx * sy) <= D * ((6 + 3 * INR N) * u)) by (apply Rmult_le_compat; try lra; apply Rabs_pos).
          assert (K3 : u * D <= u * (2 * S)) by (apply Rmult_le_compat_l; lra). assert (0 <= u * D) by (apply Rmult_le_pos; lra). assert (K4 : INR N * (u * D) <= INR N * (u * (2 * S))) by (apply Rmult_le_compat_l; lra). lra. }
        replace (v - F p * (sx * sy) / h ^ 2) with ((v * h ^ 2 - F p * (sx * sy)) * / h ^ 2) by (field; lra). rewrite Rabs_mult, (Rabs_pos_eq (/ h ^ 2)) by lra. unfold Rdiv. rewrite <- (Rmult_assoc ((43 + 3 * INR N) * u)). apply Rmult_le_compat_r; lra.
  Qed.
End Cell3P.
Lemma stretch_scale h (l : list pt3) : sumR (map (fun p => 2 * stretch3 p / h ^ 2) l) = 2 * sumR (map stretch3 l) / h ^ 2.
Proof. induction l as [|p l IH]; cbn [map sumR]; [unfold Rdiv; ring|]. rewrite IH. unfold Rdiv. ring. Qed.
Lemma ex_scale h (F : pt3 -> R) (l : list pt3) : sumR (map (fun p => F p / h ^ 2) l) = sumR (map F l) / h ^ 2.
Proof. induction l as [|p l IH]; cbn [map sumR]; [unfold Rdiv; ring|]. rewrite IH. unfold Rdiv. ring. Qed.
Lemma cell3p N h f F l a b : ordinary_step h -> (Z.of_nat N <= 2 ^ 46)%Z -> (Z.of_nat (length l) <= 2 ^ 52)%Z ->
  (forall p, In p l -> (t_q p = 0 -> F p = 0) /\ 0 <= stretch3 p /\
    (t_q p <> 0 -> bpow radix2 (-510) <= 1.2 * load3 p /\ Rabs (f p) <= 1.2 * load3 p /\ Rabs (F p) <= load3 p /\ load3 p <= 2 * stretch3 p /\ Rabs (f p - F p) <= 42 * u * stretch3 p /\ off_edge 5 (Z.of_nat N) h (t_x0 p + t_dx p) /\ off_edge 5 (Z.of_nat N) h (t_y0 p + t_dy p))) ->
  Rabs (h ^ 2 * puts eqz (flat zero_grid) (flat_map (drops (Z.of_nat N) h f) l) (a, b) - sumR (map (fun p => F p * shape (Z.of_nat N) h (t_x0 p + t_dx p) (t_y0 p + t_dy p) a b) l))
    <= (90 + 6 * INR N + 7 * INR (length l)) * u * sumR (map stretch3 l).
Proof.
  intros Hh HN Hl H. assert (U := u_pos). destruct (h_scale h Hh) as [_ S2]. assert (Ph := step_pos _ Hh). assert (I2 : 0 < / h ^ 2) by (apply Rinv_0_lt_compat; lra).
  destruct (cell_close eqz eqz_spec (drops (Z.of_nat N) h f) (fun p => F p * shape (Z.of_nat N) h (t_x0 p + t_dx p) (t_y0 p + t_dy p) a b / h ^ 2) (fun p => 2 * stretch3 p / h ^ 2) (43 + 3 * INR N) (a, b) l) with (g := flat zero_grid) as [K _].
  - assert (K := pos_INR N). lra.
  - apply small_E3; assumption.
  - exact Hl.
  - intros p Hp. destruct (H p Hp) as (H1 & H2 & H3). apply (one_drop N h Hh HN f F p a b H1 H2 H3).
  - intros [x y]. apply double_0.
  - assert (XS := ex_scale h (fun p => F p * shape (Z.of_nat N) h (t_x0 p + t_dx p) (t_y0 p + t_dy p) a b) l). cbv beta in XS. rewrite stretch_scale, XS in K. clear XS. set (r := puts eqz _ _ _) in *. clearbody r. unfold flat, zero_grid in K. cbn [fst snd] in K. rewrite Rabs_R0, !Rplus_0_l in K.
    set (X := sumR (map (fun p => F p * shape (Z.of_nat N) h (t_x0 p + t_dx p) (t_y0 p + t_dy p) a b) l)) in *. set (S := sumR (map stretch3 l)) in *.
    assert (S0 : 0 <= S). { unfold S. clear - H. induction l as [|p l IH]; cbn; [lra|]. destruct (H p (or_introl eq_refl)) as (_ & K & _). assert (K2 := IH (fun q I => H q (or_intror I))). lra. }
    replace (h ^ 2 * r - X) with (h ^ 2 * (r - X / h ^ 2)) by (field; lra). rewrite Rabs_mult, (Rabs_pos_eq (h ^ 2)) by lra.
    apply Rle_trans with (h ^ 2 * ((43 + 3 * INR N + 3.2 * INR (length l)) * u * (2 * S / h ^ 2))); [apply Rmult_le_compat_l; lra|]. replace (h ^ 2 * ((43 + 3 * INR N + 3.2 * INR (length l)) * u * (2 * S / h ^ 2))) with ((43 + 3 * INR N + 3.2 * INR (length l)) * u * (2 * S)) by (unfold Rdiv; set (t := (43 + 3 * INR N + 3.2 * INR (length l)) * u); field; lra).
    assert (K1 := pos_INR N). assert (K2 := pos_INR (length l)). assert (M : 0 <= u * S) by (apply Rmult_le_pos; lra). assert (M2 : 0 <= INR (length l) * (u * S)) by (apply Rmult_le_pos; lra). lra.
Qed.

(** Each cell of the charge density of the 3D plasma and of its three currents is the sum of the quartic clouds of the particles at
    their true positions, up to rounding.  A particle weighs in the bound with its charge over the square of 1 - pz/gamma. *)
Theorem C75_3d_plasma_densities : forall N h l, ordinary_step h -> (Z.of_nat N <= 2 ^ 46)%Z -> (Z.of_nat (length l) <= 2 ^ 52)%Z ->
  (forall p, In p l -> regular3 (Z.of_nat N) h p) ->
  let o := deposit_plasma_f double (Z.of_nat N) h l in
  let cloud p a b := shape (Z.of_nat N) h (t_x0 p + t_dx p) (t_y0 p + t_dy p) a b in
  let bound := (90 + 6 * INR N + 7 * INR (length l)) * rounding * sumR (map (fun p => Rabs (t_q p) / (1 - vz_of p) ^ 2) l) in
  forall a b,
  Rabs (h ^ 2 * c_ro o a b - sumR (map (fun p => rho_of p * cloud p a b) l)) <= bound /\
  Rabs (h ^ 2 * c_jx o a b - sumR (map (fun p => rho_of p * vx_of p * cloud p a b) l)) <= bound /\
  Rabs (h ^ 2 * c_jy o a b - sumR (map (fun p => rho_of p * vy_of p * cloud p a b) l)) <= bound /\
  Rabs (h ^ 2 * c_jz o a b - sumR (map (fun p => rho_of p * vz_of p * cloud p a b) l)) <= bound.
Proof.
  intros N h l Hh HN Hl H o cloud bound a b. assert (U := u_pos).
  assert (P : let o' := deposit_plasma_f double (Z.of_nat N) h l in flat (c_ro o') = puts eqz (flat zero_grid) (flat_map (drops (Z.of_nat N) h dro_f) l) /\ flat (c_jx o') = puts eqz (flat zero_grid) (flat_map (drops (Z.of_nat N) h (dj_f t_px)) l) /\
    flat (c_jy o') = puts eqz (flat zero_grid) (flat_map (drops (Z.of_nat N) h (dj_f t_py)) l) /\ flat (c_jz o') = puts eqz (flat zero_grid) (flat_map (drops (Z.of_nat N) h (dj_f t_pz)) l)) by exact (plasma_puts (Z.of_nat N) h l zero_dens3).
  cbv zeta in P. fold o in P. destruct P as (P1 & P2 & P3 & P4).
  change (c_ro o a b) with (flat (c_ro o) (a, b)). change (c_jx o a b) with (flat (c_jx o) (a, b)). change (c_jy o a b) with (flat (c_jy o) (a, b)). change (c_jz o a b) with (flat (c_jz o) (a, b)). rewrite P1, P2, P3, P4.
  assert (SP : forall p, In p l -> 0 <= stretch3 p). { intros p Hp. unfold stretch3. destruct (H p Hp) as [E|(_ & _ & _ & D & _)]; [rewrite E, Rabs_R0; unfold Rdiv; lra|]. assert (B := bpow_gt_0 radix2 (-40)). apply Rmult_le_pos; [apply Rabs_pos|]. left. apply Rinv_0_lt_compat, pow_lt. lra. }
  assert (Ro : forall p, In p l -> t_q p <> 0 -> bpow radix2 (-510) <= 1.2 * load3 p /\ Rabs (dro_f p) <= 1.2 * load3 p /\ Rabs (rho_of p) = load3 p /\ load3 p <= 2 * stretch3 p /\ Rabs (dro_f p - rho_of p) <= 42 * u * stretch3 p /\ off_edge 5 (Z.of_nat N) h (t_x0 p + t_dx p) /\ off_edge 5 (Z.of_nat N) h (t_y0 p + t_dy p)).
  { intros p Hp Nz. destruct (H p Hp) as [E|(Q & M & G & D & X & Y)]; [contradiction|]. unfold energy3 in G, D.
    assert (DS := D_S (t_m p) (t_px p) (t_py p) (t_pz p) M D (t_q p) Q). assert (DX := dro_exact (t_m p) (t_px p) (t_py p) (t_pz p) M D (t_q p) Q). assert (DZ := dro_size (t_m p) (t_px p) (t_py p) (t_pz p) M D (t_q p) Q). assert (DB := D_big (t_m p) (t_px p) (t_py p) (t_pz p) M D (t_q p) Q).
    change (Rabs (t_q p) / (1 - t_pz p / sqrt (t_m p ^ 2 + t_px p ^ 2 + t_py p ^ 2 + t_pz p ^ 2)) ^ 2) with (stretch3 p) in *. change (Rabs (t_q p) / (1 - t_pz p / sqrt (t_m p ^ 2 + t_px p ^ 2 + t_py p ^ 2 + t_pz p ^ 2))) with (load3 p) in *.
    change (double (t_q p / double (1 - double (t_pz p / gamma_a double (t_m p) (t_px p) (t_py p) (t_pz p))))) with (dro_f p) in *. change (t_q p / (1 - t_pz p / sqrt (t_m p ^ 2 + t_px p ^ 2 + t_py p ^ 2 + t_pz p ^ 2))) with (rho_of p) in *.
    destruct DS as (_ & S0 & D0 & D1). assert (B := bpow_gt_0 radix2 (-505)). assert (B2 : bpow radix2 (-510) <= bpow radix2 (-505)) by (apply bpow_le; lia). assert (0 <= u * stretch3 p) by (apply Rmult_le_pos; lra).
    split; [lra|]. split; [lra|]. split; [|split; [lra|split; [lra|split; assumption]]].
    unfold rho_of, load3, Rdiv. rewrite Rabs_mult. f_equal. apply Rabs_pos_eq. left. apply Rinv_0_lt_compat. assert (B3 := bpow_gt_0 radix2 (-40)). refine (Rlt_le_trans _ _ _ B3 D). }
  assert (Cur : forall c V, (forall p, c p ^ 2 <= t_m p ^ 2 + t_px p ^ 2 + t_py p ^ 2 + t_pz p ^ 2) -> (forall p, V p = c p / Plasma3D_Spec.energy3 p) -> forall p, In p l -> (t_q p = 0 -> rho_of p * V p = 0) /\ 0 <= stretch3 p /\
    (t_q p <> 0 -> bpow radix2 (-510) <= 1.2 * load3 p /\ Rabs (dj_f c p) <= 1.2 * load3 p /\ Rabs (rho_of p * V p) <= load3 p /\ load3 p <= 2 * stretch3 p /\ Rabs (dj_f c p - rho_of p * V p) <= 42 * u * stretch3 p /\ off_edge 5 (Z.of_nat N) h (t_x0 p + t_dx p) /\ off_edge 5 (Z.of_nat N) h (t_y0 p + t_dy p))).
  { intros c V Hc HV p Hp. split; [intros E; unfold rho_of; rewrite E; unfold Rdiv; ring|]. split; [now apply SP|]. intros Nz. destruct (Ro p Hp Nz) as (R1 & R2 & R3 & R4 & R5 & X & Y). destruct (H p Hp) as [E|(Q & M & G & D & _)]; [contradiction|]. unfold energy3 in G, D.
    assert (DJ := dj_exact (t_m p) (t_px p) (t_py p) (t_pz p) M G D (t_q p) Q (c p) (Hc p)). assert (VR := v_range (t_m p) (t_px p) (t_py p) (t_pz p) M (c p) (Hc p)).
    change (Rabs (t_q p) / (1 - t_pz p / sqrt (t_m p ^ 2 + t_px p ^ 2 + t_py p ^ 2 + t_pz p ^ 2)) ^ 2) with (stretch3 p) in *. change (Rabs (t_q p) / (1 - t_pz p / sqrt (t_m p ^ 2 + t_px p ^ 2 + t_py p ^ 2 + t_pz p ^ 2))) with (load3 p) in *.
    change (double (c p * double (double (t_q p / double (1 - double (t_pz p / gamma_a double (t_m p) (t_px p) (t_py p) (t_pz p)))) / gamma_a double (t_m p) (t_px p) (t_py p) (t_pz p)))) with (dj_f c p) in *. change (t_q p / (1 - t_pz p / sqrt (t_m p ^ 2 + t_px p ^ 2 + t_py p ^ 2 + t_pz p ^ 2))) with (rho_of p) in *.
    change (c p / sqrt (t_m p ^ 2 + t_px p ^ 2 + t_py p ^ 2 + t_pz p ^ 2)) with (c p / Plasma3D_Spec.energy3 p) in *. rewrite <- HV in DJ, VR. destruct DJ as [J1 J2]. assert (L0 : 0 <= load3 p) by (rewrite <- R3; apply Rabs_pos).
    repeat split; try assumption. rewrite Rabs_mult, R3. assert (load3 p * Rabs (V p) <= load3 p * 1) by (apply Rmult_le_compat_l; lra). lra. }
  assert (Eb : bound = (90 + 6 * INR N + 7 * INR (length l)) * u * sumR (map stretch3 l)) by (unfold bound; rewrite rounding_u; reflexivity). rewrite Eb. unfold cloud. clear Eb bound cloud.
  split; [|split; [|split]].
  - apply (cell3p N h dro_f rho_of l a b Hh HN Hl). intros p Hp. split; [intros E; unfold rho_of; rewrite E; unfold Rdiv; ring|]. split; [now apply SP|]. intros Nz. destruct (Ro p Hp Nz) as (R1 & R2 & R3 & R4 & R5 & X & Y). repeat split; try assumption. lra.
  - apply (cell3p N h (dj_f t_px) (fun p => rho_of p * vx_of p) l a b Hh HN Hl). apply (Cur t_px vx_of); [intros p; nra|reflexivity].
  - apply (cell3p N h (dj_f t_py) (fun p => rho_of p * vy_of p) l a b Hh HN Hl). apply (Cur t_py vy_of); [intros p; nra|reflexivity].
  - apply (cell3p N h (dj_f t_pz) (fun p => rho_of p * vz_of p) l a b Hh HN Hl). apply (Cur t_pz vz_of); [intros p; nra|reflexivity].
Qed.

(** A particle of charge -1 on the axis with pz/gamma = 3/5, and a lost one: the density is -5/2 of the cloud, the current -3/2. *)
Definition case_cell3 : list pt3 := [mkT (1/4) 0 (- (1/4)) 0 0 0 (3/4) (-1) 1 0 0; mkT 7 7 0 0 0 0 0 0 1 0 0].
Example C75_3d_plasma_case : let o := deposit_plasma_f double 15 (1/2) case_cell3 in
  Rabs (1/4 * c_ro o 7%Z 7%Z - - (5/2) * (115 / 192) ^ 2) <= 2000 * rounding /\ Rabs (1/4 * c_jz o 7%Z 7%Z - - (3/2) * (115 / 192) ^ 2) <= 2000 * rounding.
Proof.
  assert (E1 : Plasma3D_Spec.energy3 (mkT (1/4) 0 (- (1/4)) 0 0 0 (3/4) (-1) 1 0 0) = 5/4) by (unfold Plasma3D_Spec.energy3; cbn [t_m t_px t_py t_pz]; replace (1 ^ 2 + 0 ^ 2 + 0 ^ 2 + (3/4) ^ 2) with ((5/4) ^ 2) by lra; apply sqrt_pow2; lra).
  assert (F : forall p, In p case_cell3 -> regular3 15 (1/2) p).
  { intros p [<-|[<-|[]]]; [right|left; reflexivity]. change (energy3 (mkT (1/4) 0 (- (1/4)) 0 0 0 (3/4) (-1) 1 0 0)) with (Plasma3D_Spec.energy3 (mkT (1/4) 0 (- (1/4)) 0 0 0 (3/4) (-1) 1 0 0)). rewrite E1. cbn [t_m t_q t_pz t_x0 t_dx t_y0 t_dy].
    split; [rewrite Rabs_left by lra; apply Rle_trans with (bpow radix2 0); [apply bpow_le; lia|cbn; lra]|]. split; [apply Rle_trans with (bpow radix2 0); [apply bpow_le; lia|cbn; lra]|]. split; [apply Rle_trans with (bpow radix2 1); [cbn; lra|apply bpow_le; lia]|].
    split; [apply Rle_trans with (bpow radix2 (-2)); [apply bpow_le; lia|cbn; lra]|]. unfold off_edge. change (15 / 2)%Z with 7%Z. replace (1 / 4 + - (1 / 4)) with 0 by ring. rewrite Rplus_0_l, Rabs_R0. split; lra. }
  cbv zeta. destruct (C75_3d_plasma_densities 15 (1/2) case_cell3 case_step ltac:(cbn; lia) ltac:(cbn; lia) F 7%Z 7%Z) as (K1 & _ & _ & K4). change (Z.of_nat 15) with 15%Z in *. set (o := deposit_plasma_f double 15 (1/2) case_cell3) in *. clearbody o.
  unfold case_cell3 in K1, K4. cbn [map sumR] in K1, K4. assert (V1 : vz_of (mkT (1/4) 0 (- (1/4)) 0 0 0 (3/4) (-1) 1 0 0) = 3/5) by (unfold vz_of; rewrite E1; cbn [t_pz]; lra). assert (R1 : rho_of (mkT (1/4) 0 (- (1/4)) 0 0 0 (3/4) (-1) 1 0 0) = - (5/2)) by (unfold rho_of; rewrite E1; cbn [t_pz t_q]; field).
  assert (R2 : rho_of (mkT 7 7 0 0 0 0 0 0 1 0 0) = 0) by (unfold rho_of; cbn [t_q]; unfold Rdiv; ring). rewrite R1, R2, V1 in *. cbn [t_q t_x0 t_dx t_y0 t_dy length] in *. unfold shape in *. change (7 - 15 / 2)%Z with 0%Z in *.
  assert (S : spline4 (0 - (1 / 4 + - (1 / 4)) / (1 / 2)) = 115 / 192). { replace (0 - (1 / 4 + - (1 / 4)) / (1/2)) with 0 by field. rewrite <- (Rminus_0_r 0) at 1. rewrite <- (w4_spline 0 0 ltac:(lra) ltac:(cbn; auto)). cbn. lra. }
  assert (S2 : spline4 (0 - (0 + 0) / (1 / 2)) = 115 / 192). { replace (0 - (0 + 0) / (1/2)) with (0 - (1 / 4 + - (1 / 4)) / (1 / 2)) by field. exact S. } rewrite S, S2 in *. rewrite (Rabs_left (-1)), Rabs_R0 in * by lra.
  replace (INR 15) with 15 in * by (cbn; lra). replace (INR 2) with 2 in * by (cbn; lra). rewrite rounding_u in *. assert (U := u_pos). assert (V2 : 0 / (1 - vz_of (mkT 7 7 0 0 0 0 0 0 1 0 0)) ^ 2 = 0) by (unfold Rdiv; ring). rewrite V2 in *.
  split; [match type of K1 with Rabs ?e <= _ => match goal with |- Rabs ?g <= _ => replace g with e by field end end; eapply Rle_trans; [exact K1|]|match type of K4 with Rabs ?e <= _ => match goal with |- Rabs ?g <= _ => replace g with e by field end end; eapply Rle_trans; [exact K4|]]; lra.
Qed.
Print Assumptions C75_3d_plasma_densities.
