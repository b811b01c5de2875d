(** Theorem C74, continued: the charge of the 3D plasma on the grids in binary64. *)
From Coq Require Import Reals ZArith List Bool Lra Lia Psatz FunctionalExtensionality.
From Flocq Require Import Core.
From Verif Require Import Float_Model Float_Proofs Beam2D_Model Beam2D_Spec Beam2D_Free Beam3D_Model Beam3D_Spec Shape_Model Shape_Spec Shape_Proofs Plasma3D_Model Rounded3D_Model RoundedBeam_Spec RoundedBeam_Model Props_RoundedBeam RoundedSum_Proofs RoundedWeight_Proofs RoundedDep_Model RoundedDep_Spec RoundedDep_Proofs Props_RoundedDep RoundedPlasma_Proofs.
Import ListNotations.
Open Scope R_scope.

Lemma half_double : half double = 0.5.
Proof.
  unfold half. replace (1 / 2) with (1 * bpow radix2 (-1)) by (change (bpow radix2 (-1)) with (/ 2); lra). rewrite (double_exact 1) by lia. change (bpow radix2 (-1)) with (/ 2). lra.
Qed.
(** rounding the position costs less than a cell *)
Lemma off_edge_double N h x : ordinary_step h -> (Z.of_nat N <= 2 ^ 50)%Z -> off_edge 5 (Z.of_nat N) h x -> off_edge 4 (Z.of_nat N) h (double x).
Proof.
  intros Hh HN He. assert (P := step_pos _ Hh). unfold off_edge in *. set (m := (Z.of_nat N / 2)%Z) in *. assert (M : (2 * m <= Z.of_nat N)%Z) by (unfold m; assert (K := Z.mul_div_le (Z.of_nat N) 2); lia).
  assert (M0 : (0 <= m)%Z) by (unfold m; apply Z.div_pos; lia). assert (M1 : 0 <= IZR m <= IZR (2 ^ 49)) by (split; apply IZR_le; lia).
  assert (V := u_small). replace (IZR (2 ^ 53)) with (16 * IZR (2 ^ 49)) in V by (rewrite <- mult_IZR; reflexivity). assert (U := u_pos). assert (G : IZR m * u <= 1 / 16) by nra.
  assert (E := round_error x). assert (T : eta <= h * (1 / 10)).
  { apply Rle_trans with (bpow radix2 (-100) * (1 / 10)); [|apply Rmult_le_compat_r; [lra|apply Hh]]. unfold eta. change (-1075)%Z with (-100 + -975)%Z. rewrite bpow_plus. apply Rmult_le_compat_l; [left; apply bpow_gt_0|].
    apply Rle_trans with (bpow radix2 (-4)); [apply bpow_le; lia|]. change (bpow radix2 (-4)) with (/ 16). lra. }
  assert (X := Rabs_pos x). assert (B : u * Rabs x <= u * (IZR m * h)) by (apply Rmult_le_compat_l; [lra|]; nra). assert (G2 : h * (IZR m * u) <= h * (1 / 16)) by (apply Rmult_le_compat_l; lra).
  assert (T2 := Rabs_triang x (double x - x)). replace (x + (double x - x)) with (double x) in T2 by ring. nra.
Qed.
Definition loads (l : list pt3) : R := sumR (map load3 l).
Lemma energy_split p : energy3 p = sqrt (t_m p ^ 2 + t_px p ^ 2 + t_py p ^ 2 + t_pz p ^ 2). Proof. reflexivity. Qed.
Lemma load3_pos n h p : regular3 n h p -> 0 <= load3 p.
Proof.
  unfold load3. intros [E|(_ & _ & _ & D & _)]; [rewrite E, Rabs_R0; unfold Rdiv; lra|]. assert (P := bpow_gt_0 radix2 (-40)). apply Rmult_le_pos; [apply Rabs_pos|left; apply Rinv_0_lt_compat; lra].
Qed.
Lemma loads_pos n h l : (forall p, In p l -> regular3 n h p) -> 0 <= loads l.
Proof. intros H. unfold loads. induction l as [|p l IH]; cbn; [lra|]. assert (K := load3_pos n h p (H p (or_introl eq_refl))). assert (K2 := IH (fun q I => H q (or_intror I))). lra. Qed.
Lemma moved_zero t a : moved 25 0 0 t a t a.
Proof. destruct (moved_nil t a) as (v & L & A). exists v. split; [lia|exact A]. Qed.

Section Plasma3.
  Variables (N : nat) (h : R).
  Hypotheses (Hh : ordinary_step h) (HN : (Z.of_nat N <= 2 ^ 50)%Z).
  Lemma one_moved p o : regular3 (Z.of_nat N) h p -> doubles (c_ro o) -> doubles (c_jz o) ->
    let o' := deposit_plasma_one_f double (Z.of_nat N) h o p in
    doubles (c_ro o') /\ doubles (c_jz o') /\ exists Qr Qj, Rabs (Qr - Qj - t_q p) <= 30 * u * load3 p /\
    moved 25 Qr (1.2 * load3 p) (h ^ 2 * gsum N (c_ro o)) (h ^ 2 * gsum_sizes N (c_ro o)) (h ^ 2 * gsum N (c_ro o')) (h ^ 2 * gsum_sizes N (c_ro o')) /\
    moved 25 Qj (1.2 * load3 p) (h ^ 2 * gsum N (c_jz o)) (h ^ 2 * gsum_sizes N (c_jz o)) (h ^ 2 * gsum N (c_jz o')) (h ^ 2 * gsum_sizes N (c_jz o')).
  Proof.
    intros Hp Hr Hj o'. unfold o', deposit_plasma_one_f. destruct (Req_EM_T (t_q p) 0) as [E|NE].
    - split; [exact Hr|]. split; [exact Hj|]. exists 0, 0. assert (L0 : load3 p = 0) by (unfold load3; rewrite E, Rabs_R0; unfold Rdiv; lra). rewrite L0, E, !Rmult_0_r, !Rminus_0_r, Rabs_R0. split; [lra|]. split; apply moved_zero.
    - destruct Hp as [Z|(Q & M & G & D & X & Y)]; [contradiction|]. rewrite half_double. fold (x_h_f h (double (t_x0 p + t_dx p))). fold (x_h_f h (double (t_y0 p + t_dy p))).
      assert (CX := off_edge_cells N h _ Hh HN (off_edge_double N h _ Hh HN X)). assert (CY := off_edge_cells N h _ Hh HN (off_edge_double N h _ Hh HN Y)). cbv zeta. cbn [c_ro c_jz].
      unfold energy3 in G, D. assert (C := charge_kept (t_m p) (t_px p) (t_py p) (t_pz p) M G D (t_q p) Q). assert (R := dro_size (t_m p) (t_px p) (t_py p) (t_pz p) M D (t_q p) Q). assert (J := djz_size (t_m p) (t_px p) (t_py p) (t_pz p) M G D (t_q p) Q). assert (B := D_big (t_m p) (t_px p) (t_py p) (t_pz p) M D (t_q p) Q).
      change (Rabs (t_q p) / (1 - t_pz p / sqrt (t_m p ^ 2 + t_px p ^ 2 + t_py p ^ 2 + t_pz p ^ 2))) with (load3 p) in *.
      set (g := gamma_a double (t_m p) (t_px p) (t_py p) (t_pz p)) in *. set (dro := double (t_q p / double (1 - double (t_pz p / g)))) in *. set (djz := double (t_pz p * double (dro / g))) in *.
      assert (P := bpow_gt_0 radix2 (-505)). assert (B2 : bpow radix2 (-510) <= 1.2 * load3 p) by (assert (bpow radix2 (-510) <= bpow radix2 (-505)) by (apply bpow_le; lia); lra).
      destruct (plasma_one_moved N h _ _ dro (1.2 * load3 p) (c_ro o) Hh B2 ltac:(lra) Hr CX CY) as [D1 M1]. destruct (plasma_one_moved N h _ _ djz (1.2 * load3 p) (c_jz o) Hh B2 ltac:(lra) Hj CX CY) as [D2 M2].
      split; [exact D1|]. split; [exact D2|]. exists dro, djz. split; [exact C|]. split; [exact M1|exact M2].
  Qed.
  Lemma all_moved l : (forall p, In p l -> regular3 (Z.of_nat N) h p) -> forall o, doubles (c_ro o) -> doubles (c_jz o) ->
    let o' := fold_left (deposit_plasma_one_f double (Z.of_nat N) h) l o in
    exists Qr Qj, Rabs (Qr - Qj - sumR (map t_q l)) <= 30 * u * loads l /\
    moved (25 * length l) Qr (1.2 * loads l) (h ^ 2 * gsum N (c_ro o)) (h ^ 2 * gsum_sizes N (c_ro o)) (h ^ 2 * gsum N (c_ro o')) (h ^ 2 * gsum_sizes N (c_ro o')) /\
    moved (25 * length l) Qj (1.2 * loads l) (h ^ 2 * gsum N (c_jz o)) (h ^ 2 * gsum_sizes N (c_jz o)) (h ^ 2 * gsum N (c_jz o')) (h ^ 2 * gsum_sizes N (c_jz o')).
  Proof.
    induction l as [|p l IH]; intros Hl o Hr Hj o'.
    - exists 0, 0. unfold loads. cbn [map sumR length Nat.mul fold_left] in *. rewrite !Rmult_0_r, !Rminus_0_r, Rabs_R0. split; [lra|]. split; apply moved_nil.
    - destruct (one_moved p o (Hl p (or_introl eq_refl)) Hr Hj) as (D1 & D2 & Qr & Qj & C & M1 & M2). destruct (IH (fun q I => Hl q (or_intror I)) _ D1 D2) as (Qr' & Qj' & C' & M1' & M2'). cbv zeta in M1', M2'.
      assert (H2 : 0 <= h ^ 2) by apply pow2_ge_0. exists (Qr + Qr'), (Qj + Qj'). replace (25 * length (p :: l))%nat with (25 + 25 * length l)%nat by (cbn [length]; lia). unfold loads in *. cbn [map sumR fold_left] in *. rewrite !Rmult_plus_distr_l.
      split; [|split; (eapply moved_app; [apply Rmult_le_pos; [exact H2|apply sizes_pos]| |]; [first [exact M1|exact M2]|first [exact M1'|exact M2']])].
      replace (Qr + Qr' - (Qj + Qj') - (t_q p + sumR (map t_q l))) with ((Qr - Qj - t_q p) + (Qr' - Qj' - sumR (map t_q l))) by ring. eapply Rle_trans; [apply Rabs_triang|]. lra.
  Qed.
End Plasma3.

(** The charge density of the 3D plasma minus its current along z stands for the charge of the particles, up to rounding. *)
Theorem C74_3d_plasma_charge : forall N h l, ordinary_step h -> (Z.of_nat N <= 2 ^ 50)%Z -> (25 * Z.of_nat (length l) <= 2 ^ 52)%Z ->
  (forall p, In p l -> regular3 (Z.of_nat N) h p) ->
  let o := deposit_plasma_f double (Z.of_nat N) h l in
  Rabs (h ^ 2 * (gsum N (c_ro o) - gsum N (c_jz o)) - sumR (map t_q l)) <= (2100 + 252 * INR (length l)) * rounding * sumR (map load3 l).
Proof.
  intros N h l Hh HN Hc Hl o. rewrite rounding_u. fold (loads l).
  assert (ZD : doubles zero_grid) by (intros a b; apply double_0).
  destruct (all_moved N h Hh HN l Hl zero_dens3 ZD ZD) as (Qr & Qj & C & M1 & M2). fold (deposit_plasma_f double (Z.of_nat N) h l) in M1, M2. fold o in M1, M2. cbn [c_ro c_jz zero_dens3] in M1, M2.
  assert (Z0 : gsum N zero_grid = 0) by (unfold gsum; rewrite <- (sumZ_0 N) at 1; apply sumZ_ext; intros; apply sumZ_0).
  assert (Z1 : gsum_sizes N zero_grid = 0) by (unfold gsum_sizes; rewrite <- Z0; apply gsum_ext; intros a b; unfold zero_grid; apply Rabs_R0).
  rewrite Z0, Z1, !Rmult_0_r in M1, M2. assert (LP := loads_pos _ _ _ Hl). 
  destruct (moved_total (25 * length l) _ (1.2 * loads l) _ _ _ _ (Rle_refl 0) ltac:(lra) ltac:(lia) M1) as [A1 _]. destruct (moved_total (25 * length l) _ (1.2 * loads l) _ _ _ _ (Rle_refl 0) ltac:(lra) ltac:(lia) M2) as [A2 _].
  rewrite Rminus_0_r, Rplus_0_l in A1, A2. rewrite mult_INR in A1, A2. replace (INR 25) with 25 in A1, A2 by (cbn; lra). set (k := INR (length l)) in *. assert (Hk : 0 <= k) by apply pos_INR. set (L := loads l) in *. assert (U := u_pos).
  replace (h ^ 2 * (gsum N (c_ro o) - gsum N (c_jz o)) - sumR (map t_q l)) with ((h ^ 2 * gsum N (c_ro o) - Qr) - (h ^ 2 * gsum N (c_jz o) - Qj) + (Qr - Qj - sumR (map t_q l))) by ring.
  eapply Rle_trans; [apply Rabs_triang|]. eapply Rle_trans; [apply Rplus_le_compat_r; eapply Rle_trans; [apply Rabs_triang|]; rewrite Rabs_Ropp; apply Rle_refl|].
  assert (G : 0 <= u * L) by (apply Rmult_le_pos; lra). assert (G2 : 0 <= k * (u * L)) by (apply Rmult_le_pos; lra). lra.
Qed.


(** Particles that meet the conditions: one moves with the wave at pz/gamma = 3/5, one is lost. *)
Definition case_plasma3 : list pt3 := [mkT (1/4) (- (1/8)) (1/100) 0 0 0 (3/4) (-1) 1 0 0; mkT 7 7 0 0 0 0 0 0 1 0 0; mkT 0 0 0 0 0 0 0 (1/3) 1 0 0].
Example C74_3d_plasma_case : (forall p, In p case_plasma3 -> regular3 15 (1/2) p) /\
  let o := deposit_plasma_f double 15 (1/2) case_plasma3 in Rabs (1/4 * (gsum 15 (c_ro o) - gsum 15 (c_jz o)) - (-1 + 1/3)) <= 10000 * rounding.
Proof.
  assert (E1 : energy3 (mkT (1/4) (- (1/8)) (1/100) 0 0 0 (3/4) (-1) 1 0 0) = 5/4) by (unfold energy3; cbn [t_m t_px t_py t_pz]; replace (1 ^ 2 + 0 ^ 2 + 0 ^ 2 + (3/4) ^ 2) with ((5/4) ^ 2) by lra; apply sqrt_pow2; lra).
  assert (E2 : energy3 (mkT 0 0 0 0 0 0 0 (1/3) 1 0 0) = 1) by (unfold energy3; cbn [t_m t_px t_py t_pz]; replace (1 ^ 2 + 0 ^ 2 + 0 ^ 2 + 0 ^ 2) with (1 ^ 2) by lra; apply sqrt_pow2; lra).
  assert (S1 : bpow radix2 (-100) <= 1) by (change 1 with (bpow radix2 0); apply bpow_le; lia). assert (S2 : 2 <= bpow radix2 300) by (change 2 with (bpow radix2 1); apply bpow_le; lia). assert (S3 : bpow radix2 (-40) <= / 4) by (change (/ 4) with (bpow radix2 (-2)); apply bpow_le; lia).
  assert (A : forall p, In p case_plasma3 -> regular3 15 (1/2) p).
  { intros p [<-|[<-|[<-|[]]]].
    - right. rewrite E1. unfold off_edge. change (15 / 2)%Z with 7%Z. cbn [t_q t_m t_pz t_x0 t_dx t_y0 t_dy]. split; [apply case_ordinary; rewrite Rabs_left; lra|]. split; [exact S1|]. split; [lra|]. split; [lra|]. split; apply Rabs_le; lra.
    - left. reflexivity.
    - right. rewrite E2. unfold off_edge. change (15 / 2)%Z with 7%Z. cbn [t_q t_m t_pz t_x0 t_dx t_y0 t_dy]. split; [apply case_ordinary; rewrite Rabs_pos_eq; lra|]. split; [exact S1|]. split; [lra|]. split; [lra|]. split; apply Rabs_le; lra. }
  split; [exact A|]. assert (K := C74_3d_plasma_charge 15 (1/2) case_plasma3 case_step ltac:(cbn; lia) ltac:(cbn; lia) A). cbv zeta in *. change (Z.of_nat 15) with 15%Z in K. set (o := deposit_plasma_f double 15 (1/2) case_plasma3) in *.
  unfold case_plasma3 in K. cbn [map sumR t_q length] in K. unfold load3 in K. rewrite E1, E2 in K. cbn [t_q t_pz] in K. rewrite (Rabs_left (-1)), Rabs_R0, (Rabs_pos_eq (1/3)) in K by lra.
  match type of K with Rabs ?a <= _ => replace a with (1/4 * (gsum 15 (c_ro o) - gsum 15 (c_jz o)) - (-1 + 1/3)) in K by lra end. eapply Rle_trans; [exact K|]. replace (INR 3) with 3 by (cbn; lra). assert (U := u_pos). rewrite rounding_u in *.
  replace (- -1 / (1 - 3 / 4 / (5 / 4)) + (0 / (1 - 0 / energy3 (mkT 7 7 0 0 0 0 0 0 1 0 0)) + (1 / 3 / (1 - 0 / 1) + 0))) with (5/2 + 1/3) by (assert (Z : forall X, 0 / X = 0) by (intros; unfold Rdiv; ring); rewrite !Z; field). lra.
Qed.

Print Assumptions C74_3d_plasma_charge.
