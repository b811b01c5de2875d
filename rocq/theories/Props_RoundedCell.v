(** Theorems C75: each cell of the 3D beam density in binary64. *)
From Coq Require Import Reals ZArith List Bool Lra Lia Psatz FunctionalExtensionality.
From Flocq Require Import Core.
From Verif Require Import Float_Model Float_Proofs Beam2D_Model Beam2D_Spec Beam2D_Free Beam3D_Model Beam3D_Spec Shape_Model Shape_Spec Shape_Proofs Rounded3D_Model RoundedBeam_Spec RoundedBeam_Model Props_RoundedBeam RoundedSum_Proofs RoundedWeight_Proofs RoundedDep_Model RoundedDep_Spec RoundedDep_Proofs RoundedCell_Proofs Props_RoundedDep.
Import ListNotations.
Open Scope R_scope.

Lemma eta_u : eta <= / 10000 * u.
Proof. assert (K := eta_small 1 ltac:(split; [lra|]; change 1 with (bpow radix2 0); apply bpow_le; lia)). lra. Qed.
Lemma eta_step d : ordinary_step d -> eta <= / 10000 * u * d.
Proof.
  intros [A _]. apply Rle_trans with (/ 10000 * u * bpow radix2 (-100)); [|apply Rmult_le_compat_l; [assert (U := u_pos); lra|exact A]].
  unfold eta. replace (/ 10000 * u * bpow radix2 (-100)) with (u * bpow radix2 (-100) * / 10000) by ring. change u with (bpow radix2 (-53)). rewrite <- bpow_plus. change (-1075)%Z with (-53 + -100 + -922)%Z. rewrite bpow_plus. apply Rmult_le_compat_l; [left; apply bpow_gt_0|].
  apply Rle_trans with (bpow radix2 (-14)); [apply bpow_le; lia|]. change (bpow radix2 (-14)) with (/ 16384). lra.
Qed.
(** the position in cells *)
Lemma x_h_near h x n : 0 < h -> Rabs x <= n / 2 * h -> 0 <= n -> n * u <= / 10 -> Rabs (x_h_f h x - (x / h + 1/2)) <= (n + 0.7) * u.
Proof.
  intros Hh Hx Hn Hnu. assert (U := u_pos). assert (T := u_tiny). assert (Et := eta_u). assert (B : Rabs (x / h) <= n / 2).
  { unfold Rdiv at 1. rewrite Rabs_mult, (Rabs_pos_eq (/ h)) by (left; now apply Rinv_0_lt_compat). apply (Rmult_le_reg_r h); [exact Hh|]. rewrite Rmult_assoc, Rinv_l, Rmult_1_r by lra. exact Hx. }
  unfold x_h_f. set (y := x / h) in *. clearbody y. assert (E1 := round_error y). assert (E2 := round_error (double y + 0.5)).
  assert (K1 : u * Rabs y <= u * (n / 2)) by (apply Rmult_le_compat_l; lra). assert (D : Rabs (double y + 0.5) <= n / 2 + 0.6).
  { replace (double y + 0.5) with ((double y - y) + (y + 0.5)) by ring. eapply Rle_trans; [apply Rabs_triang|]. assert (K := Rabs_triang y 0.5). rewrite (Rabs_pos_eq 0.5) in K by lra. lra. }
  assert (K2 : u * Rabs (double y + 0.5) <= u * (n / 2 + 0.6)) by (apply Rmult_le_compat_l; lra).
  replace (double (double y + 0.5) - (y + 1 / 2)) with ((double (double y + 0.5) - (double y + 0.5)) + (double y - y)) by lra. eapply Rle_trans; [apply Rabs_triang|]. lra.
Qed.
(** the distance from the front of the layer, in steps *)
Lemma xi_loc_near dxi i x : ordinary_step dxi -> (0 <= i < 2 ^ 49)%Z -> in_layer dxi i x -> Rabs (xi_loc_f dxi i x - (- dxi * IZR i - x) / dxi) <= (IZR i + 3) * u.
Proof.
  intros H Hi [A B]. assert (P := step_pos _ H). assert (L := layer_length dxi i H Hi). assert (U := u_pos). assert (T := u_tiny). assert (Et := eta_u). assert (Ed := eta_step _ H). unfold xi_loc_f.
  replace (- dxi * IZR i) with (- (IZR i * dxi)) in * by ring. assert (Eb : double (- (IZR i * dxi)) = border dxi i) by reflexivity. rewrite Eb.
  assert (E0 := round_error (- (IZR i * dxi))). rewrite Eb, Rabs_Ropp in E0. assert (I0 : 0 <= IZR i) by (apply IZR_le; lia). rewrite (Rabs_pos_eq (IZR i * dxi)) in E0 by (apply Rmult_le_pos; lra).
  set (d := border dxi i - x) in *. assert (Hd : 0 <= d <= 5/4 * dxi) by (unfold d; lra). assert (E1 := round_error d). rewrite (Rabs_pos_eq d) in E1 by lra.
  assert (Q := quotient_32 dxi d H Hd). set (s := double d) in *. assert (E2 := round_error (s / dxi)).
  assert (S1 : Rabs (s / dxi - d / dxi) <= 1.3 * u). { replace (s / dxi - d / dxi) with ((s - d) * / dxi) by (field; lra). rewrite Rabs_mult, (Rabs_pos_eq (/ dxi)) by (left; now apply Rinv_0_lt_compat). apply (Rmult_le_reg_r dxi); [exact P|]. rewrite Rmult_assoc, Rinv_l, Rmult_1_r by lra. assert (u * d <= u * (5/4 * dxi)) by (apply Rmult_le_compat_l; lra). assert (0 < u * dxi) by (apply Rmult_lt_0_compat; lra). lra. }
  assert (S0 : Rabs (d / dxi - (- (IZR i * dxi) - x) / dxi) <= (IZR i + 0.1) * u). { replace (d / dxi - (- (IZR i * dxi) - x) / dxi) with ((border dxi i - - (IZR i * dxi)) * / dxi) by (unfold d; field; lra). rewrite Rabs_mult, (Rabs_pos_eq (/ dxi)) by (left; now apply Rinv_0_lt_compat). apply (Rmult_le_reg_r dxi); [exact P|]. rewrite Rmult_assoc, Rinv_l, Rmult_1_r by lra. assert (0 < u * dxi) by (apply Rmult_lt_0_compat; lra). lra. }
  assert (Dd : 0 <= d / dxi <= 5/4). { split; [apply Rmult_le_pos; [lra|left; now apply Rinv_0_lt_compat]|]. apply (Rmult_le_reg_r dxi); [exact P|]. unfold Rdiv at 1. rewrite Rmult_assoc, Rinv_l by lra. lra. }
  assert (S2 : Rabs (s / dxi) <= 1.3). { replace (s / dxi) with ((s / dxi - d / dxi) + d / dxi) by ring. eapply Rle_trans; [apply Rabs_triang|]. rewrite (Rabs_pos_eq (d / dxi)) by lra. lra. }
  assert (u * Rabs (s / dxi) <= u * 1.3) by (apply Rmult_le_compat_l; lra).
  replace (double (s / dxi) - (- (IZR i * dxi) - x) / dxi) with ((double (s / dxi) - s / dxi) + ((s / dxi - d / dxi) + (d / dxi - (- (IZR i * dxi) - x) / dxi))) by ring. eapply Rle_trans; [apply Rabs_triang|]. eapply Rle_trans; [apply Rplus_le_compat_l, Rabs_triang|]. lra.
Qed.
(** where a particle belongs: a share of its charge on its own layer's sheet ([place] 0) and the rest on the next ([place] 1) *)
Definition due (n : Z) (h dxi : R) (i : Z) (place : Z) (p : part3) (a b : Z) : R := b_q p * weight1 (dist_from_top dxi i p) place * shape n h (b_x p) (b_y p) a b.
Definition marks (n : Z) (h dxi : R) (i : Z) (place : Z) (p : part3) : list ((Z * Z) * R) :=
  map (fun k => ((cell n (x_h_f h (b_x p)) + fst k, cell n (x_h_f h (b_y p)) + snd k)%Z, share3 (x_h_f h (b_x p)) (x_h_f h (b_y p)) (xi_loc_f dxi i (b_xi p)) (b_q p) place k)) pairs.
Lemma deposit3_puts n h dxi i l : forall g0 g1, let o := deposit3_f n h dxi i l (g0, g1) in
  flat (fst o) = puts eqz (flat g0) (flat_map (marks n h dxi i 0) l) /\ flat (snd o) = puts eqz (flat g1) (flat_map (marks n h dxi i 1) l).
Proof.
  induction l as [|p l IH]; intros g0 g1 o; [split; reflexivity|]. cbn [flat_map]. rewrite !puts_app. unfold marks at 1 3. rewrite <- !deposit_beam_puts.
  exact (IH _ _).
Qed.
Section Cell3.
  Variables (N : nat) (h dxi : R) (i : Z).
  Hypotheses (Hh : ordinary_step h) (Hd : ordinary_step dxi) (HN : (Z.of_nat N <= 2 ^ 46)%Z) (Hi : (0 <= i < 2 ^ 49)%Z).
  Lemma small_E : (29 + 3 * INR N + IZR i) * u <= / 10.
  Proof.
    assert (A : INR N <= IZR (2 ^ 46)) by (rewrite INR_IZR_INZ; apply IZR_le; lia). assert (B : IZR i <= IZR (2 ^ 49)) by (apply IZR_le; lia). assert (U := u_pos). assert (T := u_tiny). assert (V := u_small).
    replace (IZR (2 ^ 53)) with (128 * IZR (2 ^ 46)) in V by (rewrite <- mult_IZR; reflexivity). replace (IZR (2 ^ 49)) with (8 * IZR (2 ^ 46)) in B by (rewrite <- mult_IZR; reflexivity).
    assert (C : 29 + 3 * INR N + IZR i <= 29 + 11 * IZR (2 ^ 46)) by lra. apply Rle_trans with ((29 + 11 * IZR (2 ^ 46)) * u); [apply Rmult_le_compat_r; lra|]. lra.
  Qed.
  Lemma one_hit place p a b : In place [0; 1]%Z -> fits3 N h dxi i p ->
    Rabs (due (Z.of_nat N) h dxi i place p a b) <= 1.5 * Rabs (b_q p) /\ (length (hits eqz (a, b) (marks (Z.of_nat N) h dxi i place p)) <= 1)%nat /\
    (forall v, In v (hits eqz (a, b) (marks (Z.of_nat N) h dxi i place p)) -> is_double v) /\
    Rabs (sumR (hits eqz (a, b) (marks (Z.of_nat N) h dxi i place p)) - due (Z.of_nat N) h dxi i place p a b) <= (29 + 3 * INR N + IZR i) * u * Rabs (b_q p).
  Proof.
    intros Hp (Q & L & X & Y). assert (U := u_pos). assert (T := u_tiny). assert (Ph := step_pos _ Hh). assert (Q0 := Rabs_pos (b_q p)). assert (Hm : 0 <= INR N) by apply pos_INR. assert (I0 : 0 <= IZR i) by (apply IZR_le; lia). assert (SE := small_E).
    assert (Nu : INR N * u <= / 10) by nra. assert (Iu : (IZR i + 3) * u <= / 10) by nra.
    assert (Ed : forall x, off_edge 4 (Z.of_nat N) h x -> Rabs x <= INR N / 2 * h).
    { intros x Hx. unfold off_edge in Hx. eapply Rle_trans; [exact Hx|]. apply Rmult_le_compat_r; [lra|]. assert (IZR (2 * (Z.of_nat N / 2)) <= IZR (Z.of_nat N)) by (apply IZR_le, Z.mul_div_le; lia). rewrite mult_IZR in H. rewrite INR_IZR_INZ. lra. }
    assert (EX := x_h_near h _ _ Ph (Ed _ X) Hm Nu). assert (EY := x_h_near h _ _ Ph (Ed _ Y) Hm Nu). assert (EZ := xi_loc_near dxi i _ Hd Hi L). assert (R0 := xi_loc_range dxi i _ Hd Hi L).
    unfold marks. rewrite pair_hits. set (xh := x_h_f h (b_x p)) in *. set (yh := x_h_f h (b_y p)) in *. set (z := xi_loc_f dxi i (b_xi p)) in *. set (q := b_q p) in *. fold (dist_from_top dxi i p) in EZ.
    assert (WX := ext_near (Z.of_nat N) xh a _ _ EX ltac:(nra)). assert (WY := ext_near (Z.of_nat N) yh b _ _ EY ltac:(nra)).
    set (wx := ext (weight4 (loc_f double xh)) (a - cell (Z.of_nat N) xh)) in *. set (wy := ext (weight4 (loc_f double yh)) (b - cell (Z.of_nat N) yh)) in *.
    assert (RE : forall w k, (forall j, In j places -> 0 <= weight4 w j <= 1) -> 0 <= ext (weight4 w) k <= 1). { intros w k Hw. unfold ext. destruct (near5 k) eqn:E; [apply Hw; now apply near5_in|lra]. }
    assert (RW : forall X j, In j places -> 0 <= weight4 (loc_f double X) j <= 1). { intros X0 j Hj. assert (P1 := w4_pos _ j (loc_f_in X0) Hj). assert (P2 := w4_le _ j (loc_f_in X0) Hj). rewrite Rabs_pos_eq in P2 by exact P1. lra. }
    assert (RX : 0 <= wx <= 1) by (apply RE, RW). assert (RY : 0 <= wy <= 1) by (apply RE, RW).
    assert (W1 : Rabs (weight1 z place) <= 1.5 /\ Rabs (weight1 z place - weight1 (dist_from_top dxi i p) place) <= (IZR i + 3) * u).
    { destruct Hp as [<-|[<-|[]]]; cbn [weight1]; [split; [apply Rabs_le; lra|exact EZ]|]. split; [apply Rabs_le; lra|]. replace (1 - z - (1 - dist_from_top dxi i p)) with (- (z - dist_from_top dxi i p)) by ring. rewrite Rabs_Ropp. exact EZ. }
    destruct W1 as [W1 W2]. assert (SX := spline_range (IZR (a - Z.of_nat N / 2) - b_x p / h)). assert (SY := spline_range (IZR (b - Z.of_nat N / 2) - b_y p / h)).
    assert (P3 := product3 wx wy (weight1 z place) _ _ _ _ _ _ RX RY SX SY W1 WX WY W2). 
    assert (DB : Rabs (weight1 (dist_from_top dxi i p) place) <= 1.5).
    { apply Rabs_le_inv in EZ. assert (D0 : -0.1 <= dist_from_top dxi i p <= 1.37).
      { split; [lra|]. unfold dist_from_top. destruct L as [L1 L2]. assert (LL := layer_length dxi i Hd Hi). assert (Pd := step_pos _ Hd). apply (Rmult_le_reg_r dxi); [exact Pd|]. unfold Rdiv. rewrite Rmult_assoc, Rinv_l by lra.
        assert (E0 := round_error (- (IZR i * dxi))). assert (Eb : double (- (IZR i * dxi)) = border dxi i) by reflexivity. rewrite Eb, Rabs_Ropp in E0. rewrite (Rabs_pos_eq (IZR i * dxi)) in E0 by (apply Rmult_le_pos; lra). apply Rabs_le_inv in E0. assert (Est := eta_step _ Hd).
        assert (K : u * (IZR i * dxi) <= / 10 * dxi) by (rewrite <- Rmult_assoc; apply Rmult_le_compat_r; nra). assert (K2 : / 10000 * u * dxi <= / 10000 * dxi) by (apply Rmult_le_compat_r; lra). lra. }
      destruct Hp as [<-|[<-|[]]]; cbn [weight1]; apply Rabs_le; lra. }
    unfold due, shape. fold q.
    set (sx := spline4 (IZR (a - Z.of_nat N / 2) - b_x p / h)) in *. set (sy := spline4 (IZR (b - Z.of_nat N / 2) - b_y p / h)) in *. set (s := weight1 (dist_from_top dxi i p) place) in *.
    split; [|split; [destruct (near5 _ && near5 _); cbn; lia|split; [destruct (near5 _ && near5 _); intros v Hv; [destruct Hv as [<-|[]]; apply double_double|destruct Hv]|]]].
    - rewrite !Rabs_mult, (Rabs_pos_eq sx), (Rabs_pos_eq sy) by lra. assert (0 <= sx * sy <= 1) by nra. assert (K : Rabs q * Rabs s <= Rabs q * 1.5) by (apply Rmult_le_compat_l; lra). assert (0 <= Rabs q * Rabs s) by (apply Rmult_le_pos; [lra|apply Rabs_pos]). nra.
    - assert (H1 : Rabs (sumR (if near5 (a - cell (Z.of_nat N) xh) && near5 (b - cell (Z.of_nat N) yh) then [share3 xh yh z q place (a - cell (Z.of_nat N) xh, b - cell (Z.of_nat N) yh)%Z] else []) - q * (wx * wy * weight1 z place)) <= 17 * u * Rabs q).
      { unfold wx, wy, ext. destruct (near5 (a - cell (Z.of_nat N) xh)) eqn:N1; destruct (near5 (b - cell (Z.of_nat N) yh)) eqn:N2; cbn [andb sumR].
        - rewrite Rplus_0_r. exact (share3_near xh yh z q place (a - cell (Z.of_nat N) xh, b - cell (Z.of_nat N) yh)%Z Q R0 Hp ltac:(apply in_prod; now apply near5_in)).
        - rewrite Rmult_0_r, Rmult_0_l, Rmult_0_r, Rminus_0_r, Rabs_R0. assert (0 <= u * Rabs q) by (apply Rmult_le_pos; lra). lra.
        - rewrite !Rmult_0_l, Rmult_0_r, Rminus_0_r, Rabs_R0. assert (0 <= u * Rabs q) by (apply Rmult_le_pos; lra). lra.
        - rewrite !Rmult_0_l, Rmult_0_r, Rminus_0_r, Rabs_R0. assert (0 <= u * Rabs q) by (apply Rmult_le_pos; lra). lra. }
      match type of H1 with Rabs (?A - ?B) <= _ => replace (A - q * s * (sx * sy)) with ((A - B) + q * (wx * wy * weight1 z place - sx * sy * s)) by ring end. eapply Rle_trans; [apply Rabs_triang|]. rewrite (Rabs_mult q).
      assert (K := Rmult_le_compat_l _ _ _ Q0 P3). assert (0 <= u * Rabs q) by (apply Rmult_le_pos; lra). lra.
  Qed.
  Lemma cell3 place l g a b : In place [0; 1]%Z -> doubles g -> (Z.of_nat (length l) <= 2 ^ 52)%Z -> (forall p, In p l -> fits3 N h dxi i p) ->
    let r := puts eqz (flat g) (flat_map (marks (Z.of_nat N) h dxi i place) l) (a, b) in
    Rabs (r - (g a b + sumR (map (fun p => due (Z.of_nat N) h dxi i place p a b) l))) <= (29 + 3 * INR N + IZR i + 3.2 * INR (length l)) * u * (Rabs (g a b) + sizes3 l) /\ Rabs r <= 4 * (Rabs (g a b) + sizes3 l).
  Proof.
    intros Hp Hg Hl Hf r. apply (cell_close eqz eqz_spec (marks (Z.of_nat N) h dxi i place) (fun p => due (Z.of_nat N) h dxi i place p a b) (fun p => Rabs (b_q p)) (29 + 3 * INR N + IZR i) (a, b) l).
    - assert (K := pos_INR N). assert (I0 : 0 <= IZR i) by (apply IZR_le; lia). lra.
    - apply small_E.
    - exact Hl.
    - intros p Hin. split; [apply Rabs_pos|]. apply one_hit; auto.
    - intros [a' b']. apply Hg.
  Qed.
End Cell3.

(** Each cell of the 3D beam density is the sum of the quartic clouds at the true positions, up to rounding; so is what is kept for the
    next layer.  The bound grows with the number of cells and of the layer (positions are rounded relative to the window) and with
    the number of particles of the layer. *)
Theorem C75_3d_beam_density : forall N h h2 dxi rho_l l i rho next,
  ordinary_step h -> near_square h h2 -> ordinary_step dxi -> (Z.of_nat N <= 2 ^ 46)%Z -> (0 <= i < 2 ^ 49)%Z -> (Z.of_nat (length l) <= 2 ^ 52)%Z ->
  (forall a b, is_double (rho_l a b)) ->
  (forall p, In p l -> ordinary (b_q p) /\ in_layer dxi i (b_xi p) /\ off_edge 4 (Z.of_nat N) h (b_x p) /\ off_edge 4 (Z.of_nat N) h (b_y p)) ->
  layout3_f (Z.of_nat N) h h2 dxi rho_l l i = (rho, next) -> forall a b,
  Rabs (h ^ 2 * rho a b - (rho_l a b + sumR (map (fun p => b_q p * dist_from_top dxi i p * shape (Z.of_nat N) h (b_x p) (b_y p) a b) l)))
    <= (50 + 3 * INR N + IZR i + 4 * INR (length l)) * rounding * (Rabs (rho_l a b) + sum_sizes (map b_q l)) + h ^ 2 * underflow /\
  Rabs (next a b - sumR (map (fun p => b_q p * (1 - dist_from_top dxi i p) * shape (Z.of_nat N) h (b_x p) (b_y p) a b) l))
    <= (50 + 3 * INR N + IZR i + 4 * INR (length l)) * rounding * sum_sizes (map b_q l).
Proof.
  intros N h h2 dxi rho_l l i rho next Hh Hn Hd HN Hi Hl Hr Hf E a b. rewrite rounding_u. change underflow with eta.
  assert (E' : rho = (fun a b => double (fst (deposit3_f (Z.of_nat N) h dxi i l (rho_l, zero_grid)) a b / h2)) /\ next = snd (deposit3_f (Z.of_nat N) h dxi i l (rho_l, zero_grid))).
  { unfold layout3_f in E. destruct l; [injection E as <- <-; split; reflexivity|]. destruct (deposit3_f _ _ _ _ _ _) as [r0 r1]. injection E as <- <-. split; reflexivity. }
  destruct E' as [-> ->]. clear E. set (o := deposit3_f (Z.of_nat N) h dxi i l (rho_l, zero_grid)).
  assert (D0 : flat (fst o) = puts eqz (flat rho_l) (flat_map (marks (Z.of_nat N) h dxi i 0) l)) by exact (proj1 (deposit3_puts (Z.of_nat N) h dxi i l rho_l zero_grid)).
  assert (D1 : flat (snd o) = puts eqz (flat zero_grid) (flat_map (marks (Z.of_nat N) h dxi i 1) l)) by exact (proj2 (deposit3_puts (Z.of_nat N) h dxi i l rho_l zero_grid)).
  change (fst o a b) with (flat (fst o) (a, b)). change (snd o a b) with (flat (snd o) (a, b)). rewrite D0, D1.
  assert (Z0 : doubles zero_grid) by (intros x y; apply double_0).
  destruct (cell3 N h dxi i Hh Hd HN Hi 0 l rho_l a b ltac:(cbn; auto) Hr Hl Hf) as [A0 B0]. destruct (cell3 N h dxi i Hh Hd HN Hi 1 l zero_grid a b ltac:(cbn; auto) Z0 Hl Hf) as [A1 _].
  set (r0 := puts eqz (flat rho_l) (flat_map (marks (Z.of_nat N) h dxi i 0) l) (a, b)) in *. set (r1 := puts eqz (flat zero_grid) (flat_map (marks (Z.of_nat N) h dxi i 1) l) (a, b)) in *. clearbody r0 r1. clear D0 D1 o.
  unfold sum_sizes. rewrite (map_map b_q Rabs). change (sumR (map (fun x => Rabs (b_q x)) l)) with (sizes3 l). assert (S0 := sizes3_pos l).
  unfold due in A0, A1. cbn [weight1] in A0, A1. unfold zero_grid at 1 2 in A1. rewrite Rabs_R0, !Rplus_0_l in A1.
  assert (U := u_pos). assert (Kn := pos_INR N). assert (Kl := pos_INR (length l)). assert (Ki : 0 <= IZR i) by (apply IZR_le; lia). assert (G := Rabs_pos (rho_l a b)).
  assert (M0 : 0 <= u * (Rabs (rho_l a b) + sizes3 l)) by (apply Rmult_le_pos; lra). assert (M1 : 0 <= INR (length l) * (u * (Rabs (rho_l a b) + sizes3 l))) by (apply Rmult_le_pos; lra).
  assert (M2 : 0 <= u * sizes3 l) by (apply Rmult_le_pos; lra). assert (M3 : 0 <= INR (length l) * (u * sizes3 l)) by (apply Rmult_le_pos; lra). split.
  - assert (D := divided h h2 r0 Hh Hn). match type of A0 with Rabs (r0 - ?e) <= _ => replace (h ^ 2 * double (r0 / h2) - e) with ((h ^ 2 * double (r0 / h2) - r0) + (r0 - e)) by ring end. eapply Rle_trans; [apply Rabs_triang|].
    assert (K : 4 * u * Rabs r0 <= 4 * u * (4 * (Rabs (rho_l a b) + sizes3 l))) by (apply Rmult_le_compat_l; lra). lra.
  - eapply Rle_trans; [exact A1|]. lra.
Qed.

(** Over two layers: the sheet of a layer holds the shares of its own particles and of those of the layer ahead. *)
Theorem C75_3d_beam_sheet : forall N h h2 dxi rho_l l l' i rho0 next rho next',
  ordinary_step h -> near_square h h2 -> ordinary_step dxi -> (Z.of_nat N <= 2 ^ 46)%Z -> (0 <= i)%Z -> (i + 1 < 2 ^ 49)%Z -> (Z.of_nat (length l) <= 2 ^ 52)%Z -> (Z.of_nat (length l') <= 2 ^ 52)%Z ->
  (forall a b, is_double (rho_l a b)) ->
  each_layer (fun i p => ordinary (b_q p) /\ in_layer dxi i (b_xi p) /\ off_edge 4 (Z.of_nat N) h (b_x p) /\ off_edge 4 (Z.of_nat N) h (b_y p)) i [l; l'] ->
  layout3_f (Z.of_nat N) h h2 dxi rho_l l i = (rho0, next) -> layout3_f (Z.of_nat N) h h2 dxi next l' (i + 1) = (rho, next') -> forall a b,
  Rabs (h ^ 2 * rho a b - (sumR (map (fun p => b_q p * (1 - dist_from_top dxi i p) * shape (Z.of_nat N) h (b_x p) (b_y p) a b) l) +
                           sumR (map (fun p => b_q p * dist_from_top dxi (i + 1) p * shape (Z.of_nat N) h (b_x p) (b_y p) a b) l')))
    <= (260 + 15 * INR N + 5 * IZR i + 16 * (INR (length l) + INR (length l'))) * rounding * (sum_sizes (map b_q l) + sum_sizes (map b_q l')) + h ^ 2 * underflow.
Proof.
  intros N h h2 dxi rho_l l l' i rho0 next rho next' Hh Hn Hd HN Hi Hi' Hl Hl' Hr Hf E E' a b. destruct Hf as (F & F' & _). assert (Hi0 : (0 <= i < 2 ^ 49)%Z) by lia.
  assert (En : next = snd (deposit3_f (Z.of_nat N) h dxi i l (rho_l, zero_grid))). { unfold layout3_f in E. destruct l; [injection E as <- <-; reflexivity|]. destruct (deposit3_f _ _ _ _ _ _) as [r0 r1]. injection E as <- <-. reflexivity. }
  assert (Z0 : doubles zero_grid) by (intros x y; apply double_0).
  assert (Dn : forall x y, is_double (next x y)). { rewrite En. apply (deposit3_moved N h dxi Hh Hd ltac:(lia) i l Hi0 F rho_l zero_grid Hr Z0). }
  destruct (cell3 N h dxi i Hh Hd HN Hi0 1 l zero_grid a b ltac:(cbn; auto) Z0 Hl F) as [_ B].
  assert (D1 : flat next = puts eqz (flat zero_grid) (flat_map (marks (Z.of_nat N) h dxi i 1) l)) by (rewrite En; exact (proj2 (deposit3_puts (Z.of_nat N) h dxi i l rho_l zero_grid))).
  rewrite <- D1 in B. unfold flat, zero_grid in B. cbn [fst snd] in B. rewrite Rabs_R0, Rplus_0_l in B.
  destruct (C75_3d_beam_density N h h2 dxi rho_l l i rho0 next Hh Hn Hd HN Hi0 Hl Hr F E a b) as [_ K]. destruct (C75_3d_beam_density N h h2 dxi next l' (i + 1) rho next' Hh Hn Hd HN ltac:(lia) Hl' Dn F' E' a b) as [K' _].
  rewrite rounding_u in *. unfold sum_sizes in *. rewrite (map_map b_q Rabs l) in *. rewrite (map_map b_q Rabs l') in *. change (sumR (map (fun x => Rabs (b_q x)) l)) with (sizes3 l) in *. change (sumR (map (fun x => Rabs (b_q x)) l')) with (sizes3 l') in *.
  assert (S0 := sizes3_pos l). assert (S1 := sizes3_pos l'). assert (U := u_pos). assert (Kn := pos_INR N). assert (Kl := pos_INR (length l)). assert (Kl' := pos_INR (length l')). assert (Ki : 0 <= IZR i) by (apply IZR_le; lia). rewrite plus_IZR in K'.
  match type of K with Rabs (_ - ?x) <= _ => match type of K' with Rabs (_ - (_ + ?y)) <= _ => replace (h ^ 2 * rho a b - (x + y)) with ((h ^ 2 * rho a b - (next a b + y)) + (next a b - x)) by ring end end.
  eapply Rle_trans; [apply Rabs_triang|]. set (n := INR N) in *. set (k := INR (length l)) in *. set (k' := INR (length l')) in *. set (j := IZR i) in *. set (A := sizes3 l) in *. set (A' := sizes3 l') in *.
  assert (G : (50 + 3 * n + (j + 1) + 4 * k') * u * (Rabs (next a b) + A') <= (50 + 3 * n + (j + 1) + 4 * k') * u * (4 * A + A')) by (apply Rmult_le_compat_l; [apply Rmult_le_pos; lra|lra]).
  assert (M : forall c d, 0 <= c -> 0 <= d -> 0 <= c * (u * d)) by (intros; apply Rmult_le_pos; [lra|apply Rmult_le_pos; lra]).
  assert (M1 := M 1 A Rle_0_1 S0). assert (M2 := M 1 A' Rle_0_1 S1). assert (M3 := M n A Kn S0). assert (M4 := M n A' Kn S1). assert (M5 := M j A Ki S0). assert (M6 := M j A' Ki S1). assert (M7 := M k A Kl S0). assert (M8 := M k A' Kl S1). assert (M9 := M k' A Kl' S0). assert (M10 := M k' A' Kl' S1). lra.
Qed.

(** A particle in the middle of the first layer, on the axis: half of its charge goes to this sheet, 115/192 squared of that to the central cell. *)
Example C75_3d_beam_case : exists rho next, layout3_f 11 (1/2) (1/4) (1/2) zero_grid [mk3 (- (1/4)) 0 0 0 0 1000 1 1 1 0 1] 0 = (rho, next) /\
  Rabs ((1/4) * rho 5%Z 5%Z - 1 / 2 * (115 / 192) ^ 2) <= 100 * rounding.
Proof.
  destruct (layout3_f 11 (1/2) (1/4) (1/2) zero_grid [mk3 (- (1/4)) 0 0 0 0 1000 1 1 1 0 1] 0) as [rho next] eqn:E. exists rho, next. split; [reflexivity|].
  assert (B0 : border (1/2) 0 = 0) by (rewrite case_border by lia; lra). assert (B1 : border (1/2) 1 = - (1/2)) by (rewrite case_border by lia; lra).
  assert (F : forall p, In p [mk3 (- (1/4)) 0 0 0 0 1000 1 1 1 0 1] -> ordinary (b_q p) /\ in_layer (1/2) 0 (b_xi p) /\ off_edge 4 11 (1/2) (b_x p) /\ off_edge 4 11 (1/2) (b_y p)).
  { intros p [<-|[]]. cbn [b_q b_xi b_x b_y]. unfold in_layer, off_edge. change (11 / 2)%Z with 5%Z. cbn [Z.add]. rewrite B0, B1. split; [right; apply case_ordinary; rewrite Rabs_pos_eq; lra|]. split; [lra|]. split; rewrite Rabs_R0; lra. }
  destruct (C75_3d_beam_density 11 (1/2) (1/4) (1/2) zero_grid [mk3 (- (1/4)) 0 0 0 0 1000 1 1 1 0 1] 0 rho next case_step case_square case_step ltac:(cbn; lia) ltac:(lia) ltac:(cbn; lia) ltac:(intros; apply double_0) F E 5%Z 5%Z) as [K _].
  cbn [map sumR length b_q b_x b_y] in K. unfold dist_from_top, shape, zero_grid, sum_sizes in K. cbn [b_xi map sumR] in K. change (5 - Z.of_nat 11 / 2)%Z with 0%Z in K. rewrite Rabs_R0, (Rabs_pos_eq 1) in K by lra.
  assert (S : spline4 (0 - 0 / (1 / 2)) = 115 / 192). { replace (0 - 0 / (1/2)) with 0 by lra. rewrite <- (Rminus_0_r 0) at 1. rewrite <- (w4_spline 0 0 ltac:(lra) ltac:(cbn; auto)). cbn. lra. }
  rewrite S in K. replace (INR 11) with 11 in K by (cbn; lra). replace (INR 1) with 1 in K by reflexivity. assert (UN : underflow <= rounding) by (apply bpow_le; lia).
  match type of K with Rabs ?e <= _ => replace (1 / 4 * rho 5%Z 5%Z - 1 / 2 * (115 / 192) ^ 2) with e by lra end. eapply Rle_trans; [exact K|]. assert (U := u_pos). rewrite rounding_u in *. lra.
Qed.

Print Assumptions C75_3d_beam_density.
Print Assumptions C75_3d_beam_sheet.
