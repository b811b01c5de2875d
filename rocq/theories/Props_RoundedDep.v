(** Theorems C74: the charge on the grids in binary64. *)
From Coq Require Import Reals ZArith List Bool Lra Lia Psatz FunctionalExtensionality.
From Flocq Require Import Core.
From Verif Require Import Float_Model Float_Proofs Beam2D_Model Beam2D_Spec Beam2D_Free Beam3D_Model Beam3D_Spec Shape_Model Shape_Spec Shape_Proofs Rounded3D_Model RoundedBeam_Spec RoundedBeam_Model Props_RoundedBeam RoundedSum_Proofs RoundedWeight_Proofs RoundedDep_Model RoundedDep_Spec RoundedDep_Proofs.
Import ListNotations.
Open Scope R_scope.

Lemma rounding_u : rounding = u. Proof. reflexivity. Qed.
Lemma ordinary_fine h : ordinary_step h -> fine_step h.
Proof. intros [A B]. split; [eapply Rle_trans; [|exact A]|eapply Rle_trans; [exact B|]]; apply bpow_le; lia. Qed.
Lemma step_pos h : ordinary_step h -> 0 < h.
Proof. intros [A _]. assert (K := bpow_gt_0 radix2 (-100)). lra. Qed.
(** computed layers are at most 5/4 long *)
Lemma layer_length dxi i : ordinary_step dxi -> (0 <= i < 2 ^ 49)%Z -> border dxi i - border dxi (i + 1) <= 5 / 4 * dxi.
Proof.
  intros H Hi. assert (F := ordinary_fine _ H). assert (P := step_pos _ H). assert (A := border_near dxi i F ltac:(lia)). assert (B := border_near dxi (i + 1) F ltac:(lia)). rewrite !border2_border in A. rewrite !border2_border in B.
  rewrite plus_IZR in B. assert (K : 0 <= IZR i <= IZR (2 ^ 49)) by (split; apply IZR_le; lia). assert (V := u_small). replace (IZR (2 ^ 53)) with (16 * IZR (2 ^ 49)) in V by (rewrite <- mult_IZR; reflexivity).
  assert (U := u_pos). assert (T := u_tiny). assert (G : IZR i * u <= 1 / 16) by nra. assert (G2 : dxi * (IZR i * u) <= dxi * (1 / 16)) by (apply Rmult_le_compat_l; lra). assert (G3 : dxi * u <= dxi * (1 / 1000)) by (apply Rmult_le_compat_l; lra). lra.
Qed.
Lemma double_32 x : 0 <= x <= 3 / 2 -> 0 <= double x <= 3 / 2.
Proof.
  intros H. split; [apply (double_ge_int _ 0); [lia|lra]|]. assert (E : double (3 / 2) = 3 / 2) by (replace (3 / 2) with (3 * bpow radix2 (-1)) by (change (bpow radix2 (-1)) with (/ 2); lra); apply (double_exact 3); lia).
  rewrite <- E. apply double_mono. lra.
Qed.
Lemma quotient_32 dxi d : ordinary_step dxi -> 0 <= d <= 5 / 4 * dxi -> 0 <= double (double d / dxi) <= 3 / 2.
Proof.
  intros H Hd. assert (P := step_pos _ H). assert (U := u_tiny). apply double_32.
  assert (D0 : 0 <= double d) by (apply (double_ge_int _ 0); [lia|lra]). assert (E := round_error d). rewrite (Rabs_pos_eq d) in E by lra.
  assert (T : eta <= dxi * (1 / 10)).
  { apply Rle_trans with (bpow radix2 (-100) * (1 / 10)); [|apply Rmult_le_compat_r; [lra|apply H]]. unfold eta. change (-1075)%Z with (-100 + -975)%Z. rewrite bpow_plus. apply Rmult_le_compat_l; [left; apply bpow_gt_0|].
    apply Rle_trans with (bpow radix2 (-4)); [apply bpow_le; lia|]. change (bpow radix2 (-4)) with (/ 16). lra. }
  assert (D : double d <= 3 / 2 * dxi). { apply Rabs_le_inv in E. assert (u * d <= / 100 * d) by (apply Rmult_le_compat_r; lra). lra. }
  split; [apply Rmult_le_pos; [exact D0|left; now apply Rinv_0_lt_compat]|]. apply (Rmult_le_reg_r dxi); [exact P|]. unfold Rdiv at 1. rewrite Rmult_assoc, Rinv_l by lra. lra.
Qed.
Lemma xi_loc_range dxi i x : ordinary_step dxi -> (0 <= i < 2 ^ 49)%Z -> in_layer dxi i x -> 0 <= xi_loc_f dxi i x <= 3 / 2.
Proof.
  intros H Hi [A B]. unfold xi_loc_f. replace (- dxi * IZR i) with (- (IZR i * dxi)) by ring. fold (border dxi i). apply quotient_32; [exact H|]. assert (L := layer_length dxi i H Hi). lra.
Qed.
Lemma off_edge_cells N h x : ordinary_step h -> (Z.of_nat N <= 2 ^ 50)%Z -> off_edge 4 (Z.of_nat N) h x -> on_cells N (x_h_f h x).
Proof.
  intros Hh HN He k Hk. assert (P := step_pos _ Hh). unfold off_edge in He. set (m := (Z.of_nat N / 2)%Z) in *. assert (M : (2 * m <= Z.of_nat N)%Z) by (unfold m; assert (K := Z.mul_div_le (Z.of_nat N) 2); lia).
  assert (M0 : (0 <= m)%Z) by (unfold m; apply Z.div_pos; lia). apply Rabs_le_inv in He. assert (Q : - IZR (m - 4) <= x / h <= IZR (m - 4)).
  { rewrite minus_IZR. split; apply (Rmult_le_reg_r h); try exact P; unfold Rdiv; rewrite Rmult_assoc, Rinv_l by lra; lra. }
  rewrite <- opp_IZR in Q. assert (Q1 : IZR (- (m - 4)) <= double (x / h) <= IZR (m - 4)) by (split; [apply double_ge_int|apply double_le_int]; try lia; lra).
  assert (Q2 : IZR (- (m - 4)) <= x_h_f h x <= IZR (m - 3)). { unfold x_h_f. split; [apply double_ge_int|apply double_le_int]; try lia; [lra|]. rewrite !minus_IZR in *. lra. }
  assert (F := floorR_spec (x_h_f h x)). unfold cell. fold m. assert (F1 : (- (m - 4) <= floorR (x_h_f h x) <= m - 3)%Z).
  { split; [|apply le_IZR; lra]. assert (- (m - 4) < floorR (x_h_f h x) + 1)%Z by (apply lt_IZR; rewrite plus_IZR; lra). lia. }
  cbn [places In] in Hk. destruct Hk as [<-|[<-|[<-|[<-|[<-|[]]]]]]; lia.
Qed.

Section Layers3.
  Variables (N : nat) (h h2 dxi : R).
  Hypotheses (Hh : ordinary_step h) (Hd : ordinary_step dxi) (HN : (Z.of_nat N <= 2 ^ 50)%Z).
  Definition fits3 (i : Z) (p : part3) : Prop := ordinary (b_q p) /\ in_layer dxi i (b_xi p) /\ off_edge 4 (Z.of_nat N) h (b_x p) /\ off_edge 4 (Z.of_nat N) h (b_y p).
  Definition sizes3 (l : list part3) : R := sumR (map (fun p => Rabs (b_q p)) l).
  Lemma sizes3_pos l : 0 <= sizes3 l.
  Proof. unfold sizes3. induction l as [|p l IH]; cbn; [lra|]. assert (K := Rabs_pos (b_q p)). lra. Qed.
  Lemma deposit3_moved i l : (0 <= i < 2 ^ 49)%Z -> (forall p, In p l -> fits3 i p) -> forall g0 g1, doubles g0 -> doubles g1 ->
    let o := deposit3_f (Z.of_nat N) h dxi i l (g0, g1) in
    doubles (fst o) /\ doubles (snd o) /\
    moved (50 * length l) (total_charge3 l) (sizes3 l) (gsum N g0 + gsum N g1) (gsum_sizes N g0 + gsum_sizes N g1) (gsum N (fst o) + gsum N (snd o)) (gsum_sizes N (fst o) + gsum_sizes N (snd o)).
  Proof.
    intros Hi. induction l as [|p l IH]; intros Hl g0 g1 H0 H1 o; [split; [exact H0|]; split; [exact H1|]; apply moved_nil|].
    destruct (Hl p (or_introl eq_refl)) as (Q & L & X & Y).
    destruct (beam_both N h dxi i p g0 g1 H0 H1 Q (xi_loc_range dxi i _ Hd Hi L) (off_edge_cells N h _ Hh HN X) (off_edge_cells N h _ Hh HN Y)) as (D0 & D1 & M).
    specialize (IH (fun q I => Hl q (or_intror I)) _ _ D0 D1). cbv zeta in IH. rewrite <- surjective_pairing in IH. change (deposit3_f (Z.of_nat N) h dxi i l (deposit3_f (Z.of_nat N) h dxi i [p] (g0, g1))) with o in IH.
    destruct IH as (E0 & E1 & M'). split; [exact E0|]. split; [exact E1|]. replace (50 * length (p :: l))%nat with (50 + 50 * length l)%nat by (cbn [length]; lia).
    assert (P0 := sizes_pos N g0). assert (P1 := sizes_pos N g1). eapply (moved_app 50 _ (b_q p) (total_charge3 l) (Rabs (b_q p)) (sizes3 l)); [lra|exact M|exact M'].
  Qed.
  (** the sheets before they are divided by h2 *)
  Lemma layouts3_moved : forall ls i rho_l, (0 <= i)%Z -> (i + Z.of_nat (length ls) <= 2 ^ 49)%Z -> doubles rho_l -> each_layer fits3 i ls ->
    exists es, let '(rs, e) := layouts3_f (Z.of_nat N) h h2 dxi rho_l ls i in rs = map (fun g a b => double (g a b / h2)) es /\ length es = length ls /\
      moved (50 * length (concat ls)) (total_charge3 (concat ls)) (sizes3 (concat ls)) (gsum N rho_l) (gsum_sizes N rho_l)
        (sumR (map (gsum N) es) + gsum N e) (sumR (map (gsum_sizes N) es) + gsum_sizes N e).
  Proof.
    induction ls as [|l ls IH]; intros i rho_l Hi Hn Hr Hf; cbn [layouts3_f].
    - exists []. split; [reflexivity|]. split; [reflexivity|]. cbn [map sumR concat length Nat.mul]. rewrite !Rplus_0_l. apply moved_nil.
    - cbn [length] in Hn. destruct Hf as [Hl Hf]. destruct (deposit3_moved i l ltac:(lia) Hl rho_l zero_grid Hr ltac:(intros a b; apply double_0)) as (D0 & D1 & M).
      assert (Z0 : gsum N zero_grid = 0) by (unfold gsum; rewrite <- (sumZ_0 N) at 1; apply sumZ_ext; intros; apply sumZ_0).
      assert (Z1 : gsum_sizes N zero_grid = 0) by (unfold gsum_sizes; rewrite <- Z0; apply gsum_ext; intros a b; unfold zero_grid; apply Rabs_R0).
      rewrite Z0, Z1, !Rplus_0_r in M.
      assert (E : layout3_f (Z.of_nat N) h h2 dxi rho_l l i = ((fun a b => double (fst (deposit3_f (Z.of_nat N) h dxi i l (rho_l, zero_grid)) a b / h2)), snd (deposit3_f (Z.of_nat N) h dxi i l (rho_l, zero_grid)))).
      { unfold layout3_f. destruct l; [reflexivity|]. destruct (deposit3_f _ _ _ _ _ _) as [r0 r1]. reflexivity. }
      rewrite E. clear E. set (o := deposit3_f (Z.of_nat N) h dxi i l (rho_l, zero_grid)) in *.
      destruct (IH (i + 1)%Z (snd o) ltac:(lia) ltac:(lia) D1 Hf) as (es & K). destruct (layouts3_f (Z.of_nat N) h h2 dxi (snd o) ls (i + 1)) as [r e]. destruct K as (K1 & K2 & K3).
      exists (fst o :: es). split; [cbn [map]; now rewrite K1|]. split; [cbn [length]; now rewrite K2|]. cbn [concat map sumR]. rewrite app_length, Nat.mul_add_distr_l.
      unfold total_charge3, sizes3. rewrite !map_app, !sumR_app. eapply moved_app; [apply sizes_pos|exact M|].
      apply (moved_more _ _ _ _ _ _ _ (gsum N (fst o)) (gsum_sizes N (fst o)) (sizes_pos N (fst o))) in K3. replace (gsum N (fst o) + gsum N (snd o)) with (gsum N (snd o) + gsum N (fst o)) by ring.
      replace (gsum_sizes N (fst o) + gsum_sizes N (snd o)) with (gsum_sizes N (snd o) + gsum_sizes N (fst o)) by ring.
      replace (gsum N (fst o) + sumR (map (gsum N) es) + gsum N e) with (sumR (map (gsum N) es) + gsum N e + gsum N (fst o)) by ring.
      replace (gsum_sizes N (fst o) + sumR (map (gsum_sizes N) es) + gsum_sizes N e) with (sumR (map (gsum_sizes N) es) + gsum_sizes N e + gsum_sizes N (fst o)) by ring. exact K3.
  Qed.
End Layers3.
(** division by h2 *)
Lemma divided h h2 x : ordinary_step h -> near_square h h2 -> Rabs (h ^ 2 * double (x / h2) - x) <= 4 * u * Rabs x + h ^ 2 * eta.
Proof.
  intros Hh Hn. assert (P := step_pos _ Hh). assert (U := u_pos). assert (T := u_tiny). unfold near_square in Hn. rewrite rounding_u in Hn. set (H := h ^ 2) in *. assert (HP : 0 < H) by (unfold H; apply pow_lt; exact P). clearbody H.
  apply Rabs_le_inv in Hn. assert (H2 : 0 < h2) by nra. assert (E := round_error (x / h2)). 
  assert (R1 : Rabs (H / h2 - 1) <= 2.1 * u). { replace (H / h2 - 1) with ((H - h2) / h2) by (field; lra). unfold Rdiv. rewrite Rabs_mult, (Rabs_pos_eq (/ h2)) by (left; now apply Rinv_0_lt_compat).
    apply (Rmult_le_reg_r h2); [exact H2|]. rewrite Rmult_assoc, Rinv_l, Rmult_1_r by lra. apply Rabs_le. nra. }
  replace (H * double (x / h2) - x) with (H * (double (x / h2) - x / h2) + x * (H / h2 - 1)) by (field; lra). eapply Rle_trans; [apply Rabs_triang|]. rewrite !Rabs_mult, (Rabs_pos_eq H) by lra.
  assert (X := Rabs_pos x). assert (K1 : H * Rabs (double (x / h2) - x / h2) <= H * (u * Rabs (x / h2) + eta)) by (apply Rmult_le_compat_l; lra).
  assert (K2 : H * Rabs (x / h2) <= 1.1 * Rabs x). { rewrite <- (Rabs_pos_eq H) at 1 by lra. rewrite <- Rabs_mult. replace (H * (x / h2)) with (x * (H / h2)) by (field; lra). rewrite Rabs_mult. apply Rabs_le_inv in R1.
    assert (Rabs (H / h2) <= 1.1) by (apply Rabs_le; lra). nra. }
  assert (K3 : Rabs x * Rabs (H / h2 - 1) <= Rabs x * (2.1 * u)) by (apply Rmult_le_compat_l; lra). assert (K4 : u * (H * Rabs (x / h2)) <= u * (1.1 * Rabs x)) by (apply Rmult_le_compat_l; lra). assert (0 <= u * Rabs x) by nra. lra.
Qed.
Lemma sumZ_abs n f : Rabs (sumZ n f) <= sumZ n (fun k => Rabs (f k)).
Proof. induction n as [|n IH]; cbn; [rewrite Rabs_R0; lra|]. eapply Rle_trans; [apply Rabs_triang|]. lra. Qed.
Lemma sumZ_mono n f g : (forall k, f k <= g k) -> sumZ n f <= sumZ n g.
Proof. intros H. induction n as [|n IH]; cbn; [lra|]. specialize (H (Z.of_nat n)). lra. Qed.
Lemma sumZ_const n c : sumZ n (fun _ => c) = INR n * c.
Proof. induction n as [|n IH]; [cbn; lra|]. cbn [sumZ]. rewrite IH, S_INR. lra. Qed.
Lemma gsum_divided N h h2 g : ordinary_step h -> near_square h h2 -> Rabs (h ^ 2 * gsum N (fun a b => double (g a b / h2)) - gsum N g) <= 4 * u * gsum_sizes N g + INR N ^ 2 * (h ^ 2 * eta).
Proof.
  intros Hh Hn. rewrite <- gsum_scal. replace (gsum N (fun a b => h ^ 2 * double (g a b / h2)) - gsum N g) with (gsum N (fun a b => (h ^ 2 * double (g a b / h2)) + (-1) * g a b)) by (rewrite gsum_plus, (gsum_scal N (-1)); ring).
  unfold gsum at 1. eapply Rle_trans; [apply sumZ_abs|]. apply Rle_trans with (sumZ N (fun a => sumZ N (fun b => 4 * u * Rabs (g a b) + h ^ 2 * eta))).
  - apply sumZ_mono. intros a. eapply Rle_trans; [apply sumZ_abs|]. apply sumZ_mono. intros b. replace (h ^ 2 * double (g a b / h2) + -1 * g a b) with (h ^ 2 * double (g a b / h2) - g a b) by ring. now apply divided.
  - change (gsum N (fun a b => 4 * u * Rabs (g a b) + h ^ 2 * eta) <= 4 * u * gsum_sizes N g + INR N ^ 2 * (h ^ 2 * eta)). rewrite (gsum_plus N (fun a b => 4 * u * Rabs (g a b)) (fun _ _ => h ^ 2 * eta)), (gsum_scal N (4 * u) (fun a b => Rabs (g a b))). unfold gsum_sizes, gsum at 2. rewrite (sumZ_ext N _ (fun _ => INR N * (h ^ 2 * eta))), sumZ_const by (intros; apply sumZ_const). cbn [pow]. lra.
Qed.
Lemma gsums_divided N h h2 es : ordinary_step h -> near_square h h2 ->
  Rabs (h ^ 2 * sumR (map (gsum N) (map (fun g a b => double (g a b / h2)) es)) - sumR (map (gsum N) es)) <= 4 * u * sumR (map (gsum_sizes N) es) + INR (length es) * (INR N ^ 2 * (h ^ 2 * eta)).
Proof.
  intros Hh Hn. induction es as [|g es IH]; [cbn; rewrite Rmult_0_r, Rminus_0_r, Rabs_R0; lra|]. cbn [map sumR length]. rewrite S_INR. assert (K := gsum_divided N h h2 g Hh Hn).
  match goal with |- Rabs ?e <= _ => replace e with ((h ^ 2 * gsum N (fun a b => double (g a b / h2)) - gsum N g) + (h ^ 2 * sumR (map (gsum N) (map (fun g a b => double (g a b / h2)) es)) - sumR (map (gsum N) es))) by ring end.
  eapply Rle_trans; [apply Rabs_triang|]. lra.
Qed.

(** The charge of the beam reaches the density grids in 3D, up to rounding: the charge that the densities of any number of layers
    stand for, with what waits for the next layer, is the charge deposited. *)
Theorem C74_3d_beam_charge : forall N h h2 dxi rho_l ls i rs e,
  ordinary_step h -> near_square h h2 -> ordinary_step dxi -> (Z.of_nat N <= 2 ^ 50)%Z -> (0 <= i)%Z -> (i + Z.of_nat (length ls) <= 2 ^ 49)%Z ->
  (50 * Z.of_nat (length (concat ls)) <= 2 ^ 52)%Z -> (forall a b, is_double (rho_l a b)) ->
  each_layer (fun i p => ordinary (b_q p) /\ in_layer dxi i (b_xi p) /\ off_edge 4 (Z.of_nat N) h (b_x p) /\ off_edge 4 (Z.of_nat N) h (b_y p)) i ls ->
  layouts3_f (Z.of_nat N) h h2 dxi rho_l ls i = (rs, e) ->
  Rabs ((h ^ 2 * sumR (map (gsum N) rs) + gsum N e) - (gsum N rho_l + total_charge3 (concat ls)))
    <= (900 + 210 * INR (length (concat ls))) * rounding * (gsum_sizes N rho_l + sum_sizes (map b_q (concat ls))) + INR (length ls) * INR N ^ 2 * h ^ 2 * underflow.
Proof.
  intros N h h2 dxi rho_l ls i rs e Hh Hn Hd HN Hi Hl Hc Hr Hf E. rewrite rounding_u.
  destruct (layouts3_moved N h h2 dxi Hh Hd HN ls i rho_l Hi Hl Hr Hf) as (es & K). rewrite E in K. destruct K as (-> & L & M).
  assert (P := sizes_pos N rho_l). assert (PS := sizes3_pos (concat ls)). destruct (moved_total (50 * length (concat ls)) _ _ _ _ _ _ P PS ltac:(lia) M) as [A B].
  assert (D := gsums_divided N h h2 es Hh Hn). rewrite L in D. unfold sum_sizes. rewrite (map_map b_q Rabs). change (sumR (map (fun x => Rabs (b_q x)) (concat ls))) with (sizes3 (concat ls)).
  set (a := gsum_sizes N rho_l) in *. set (S := sizes3 (concat ls)) in *. set (Q := total_charge3 (concat ls)) in *. change eta with underflow in D.
  assert (Pe := sizes_pos N e). assert (U := u_pos). rewrite mult_INR in A. replace (INR 50) with 50 in A by (cbn; lra). set (k := INR (length (concat ls))) in *. assert (Hk : 0 <= k) by apply pos_INR.
  match type of D with Rabs (?x - ?y) <= _ => replace (x + gsum N e - (gsum N rho_l + Q)) with ((x - y) + (y + gsum N e - gsum N rho_l - Q)) by ring end.
  eapply Rle_trans; [apply Rabs_triang|]. assert (F : 4 * u * sumR (map (gsum_sizes N) es) <= 4 * u * (4.2 * (a + S))) by (apply Rmult_le_compat_l; lra).
  assert (G : 0 <= u * (a + S)) by (apply Rmult_le_pos; lra). assert (G2 : 0 <= k * (u * (a + S))) by (apply Rmult_le_pos; lra). lra.
Qed.


(** A beam that meets the conditions: three particles in two layers. *)
Lemma case_step : ordinary_step (1 / 2).
Proof. unfold ordinary_step. replace (1/2) with (bpow radix2 (-1)) by (change (bpow radix2 (-1)) with (/ 2); lra). split; apply bpow_le; lia. Qed.
Lemma case_square : near_square (1 / 2) (1 / 4).
Proof. unfold near_square. replace (1 / 4 - (1 / 2) ^ 2) with 0 by lra. rewrite Rabs_R0. assert (U := u_pos). rewrite rounding_u. lra. Qed.
Lemma case_ordinary q : 1 / 100 <= Rabs q -> bpow radix2 (-500) <= Rabs q.
Proof. intros H. apply Rle_trans with (bpow radix2 (-7)); [apply bpow_le; lia|]. change (bpow radix2 (-7)) with (/ 128). lra. Qed.
Definition case_layers3 : list (list part3) :=
  [[mk3 (- (1/4)) (1/3) (- (1/10)) 0 0 1000 1 1 1 0 1; mk3 (- (1/2)) (1/2) 0 0 0 1000 1 (-3) 2 0 1]; [mk3 (- (3/4)) (- (1/2)) (1/7) 0 0 1000 1 (1/7) 3 0 1]].
Example C74_3d_beam_case : each_layer (fun i p => ordinary (b_q p) /\ in_layer (1/2) i (b_xi p) /\ off_edge 4 11 (1/2) (b_x p) /\ off_edge 4 11 (1/2) (b_y p)) 0 case_layers3 /\
  exists rs e, layouts3_f 11 (1/2) (1/4) (1/2) zero_grid case_layers3 0 = (rs, e) /\ length rs = 2%nat /\
  Rabs ((1/4) * sumR (map (gsum 11) rs) + gsum 11 e - (1 - 3 + 1/7)) <= 100000 * rounding.
Proof.
  assert (A : each_layer (fun i p => ordinary (b_q p) /\ in_layer (1/2) i (b_xi p) /\ off_edge 4 11 (1/2) (b_x p) /\ off_edge 4 11 (1/2) (b_y p)) 0 case_layers3).
  { assert (B0 : border (1/2) 0 = 0) by (rewrite case_border by lia; lra). assert (B1 : border (1/2) 1 = - (1/2)) by (rewrite case_border by lia; lra). assert (B2 : border (1/2) 2 = -1) by (rewrite case_border by lia; lra).
    unfold case_layers3. cbn [each_layer In Z.add Pos.add Pos.succ]. unfold in_layer, off_edge. change (11 / 2)%Z with 5%Z. cbn [Z.add Pos.add Pos.succ]. rewrite B0, B1, B2. split; [|split; [|exact I]].
    - intros p [<-|[<-|[]]]; cbn [b_q b_xi b_x b_y]; (split; [right; apply case_ordinary; apply Rle_trans with 1; [lra|]; first [rewrite Rabs_pos_eq by lra; lra|rewrite Rabs_left by lra; lra]|]); split; [lra| |lra|]; split; apply Rabs_le; lra.
    - intros p [<-|[]]; cbn [b_q b_xi b_x b_y]. split; [right; apply case_ordinary; rewrite Rabs_pos_eq; lra|]. split; [lra|]. split; apply Rabs_le; lra. }
  split; [exact A|]. destruct (layouts3_f 11 (1/2) (1/4) (1/2) zero_grid case_layers3 0) as [rs e] eqn:E. exists rs, e. split; [reflexivity|].
  split; [destruct (layouts3_moved 11 (1/2) (1/4) (1/2) case_step case_step ltac:(cbn; lia) case_layers3 0 zero_grid ltac:(lia) ltac:(cbn; lia) ltac:(intros a b; apply double_0) A) as (es & K); change (Z.of_nat 11) with 11%Z in K; rewrite E in K; destruct K as (-> & L & _); now rewrite map_length|].
  assert (K := C74_3d_beam_charge 11 (1/2) (1/4) (1/2) zero_grid case_layers3 0 rs e case_step case_square case_step ltac:(cbn; lia) ltac:(lia) ltac:(cbn; lia) ltac:(cbn; lia) ltac:(intros a b; apply double_0) A E).
  assert (Z0 : gsum 11 zero_grid = 0) by (unfold gsum; rewrite <- (sumZ_0 11) at 1; apply sumZ_ext; intros; apply sumZ_0). assert (Z1 : gsum_sizes 11 zero_grid = 0) by (unfold gsum_sizes; rewrite <- Z0; apply gsum_ext; intros a b; unfold zero_grid; apply Rabs_R0).
  rewrite Z0, Z1 in K. unfold total_charge3, sum_sizes, case_layers3 in K. cbn [concat app map sumR b_q length] in K. rewrite (Rabs_pos_eq 1), (Rabs_left (-3)), (Rabs_pos_eq (1/7)) in K by lra.
  replace ((1 / 2) ^ 2 * sumR (map (gsum 11) rs) + gsum 11 e - (0 + (1 + (-3 + (1 / 7 + 0))))) with (1 / 4 * sumR (map (gsum 11) rs) + gsum 11 e - (1 - 3 + 1 / 7)) in K by lra. eapply Rle_trans; [exact K|].
  replace (INR 3) with 3 by (cbn; lra). replace (INR 2) with 2 by reflexivity. replace (INR 11) with 11 by (cbn; lra). assert (UN : underflow <= rounding) by (apply bpow_le; lia). assert (U := u_pos). rewrite rounding_u in *. lra.
Qed.

Print Assumptions C74_3d_beam_charge.
