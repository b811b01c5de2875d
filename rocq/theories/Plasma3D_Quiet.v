(** Lemmas for C47, C48: the plasma without a beam, and the initial density. *)
From Coq Require Import Reals ZArith List Bool Lra Lia Psatz.
From Verif Require Import Beam2D_Model Beam2D_Spec Beam2D_Free Plasma2D_Model Plasma2D_Ode Plasma2D_Dens Shape_Model Shape_Spec Shape_Proofs
  Plasma3D_Model Plasma3D_Spec Plasma3D_Move Plasma3D_Push Spectral Fields3D_Proofs.
Import ListNotations.
Open Scope R_scope.

(** ** Zero sources give zero fields, everywhere *)
Definition null (a : arr2) : Prop := forall i j, a i j = 0.
Lemma dst1_null M x : (forall n, x n = 0) -> forall k, dst_1 M x k = 0.
Proof. intros H k. unfold dst_1. rewrite sumN_zero; [ring|]. intros. rewrite H. ring. Qed.
Lemma dct1_null M x : (forall n, x n = 0) -> forall k, dct_1 M x k = 0.
Proof. intros H k. unfold dct_1. rewrite !H, sumN_zero; [ring|]. intros. rewrite H. ring. Qed.
Lemma dst2d_null M a : null a -> null (dst2d M a).
Proof. intros H i j. unfold dst2d, ax0, ax1. apply dst1_null. intros. apply dst1_null. intros. apply H. Qed.
Lemma dct2d_null M a : null a -> null (dct2d M a).
Proof. intros H i j. unfold dct2d, ax0, ax1. apply dct1_null. intros. apply dct1_null. intros. apply H. Qed.
Lemma mix2d_null M N a : null a -> null (mix2d M N a).
Proof. intros H i j. unfold mix2d, ax0, ax1. apply dct1_null. intros. apply dst1_null. intros. apply H. Qed.
Lemma times_null a b : null a -> null (times a b).
Proof. intros H i j. unfold times. rewrite H. ring. Qed.
Lemma times_null_r a b : null b -> null (times a b).
Proof. intros H i j. unfold times. rewrite H. ring. Qed.
Lemma pad_null N a : null a -> null (pad N a).
Proof. intros H i j. unfold pad. destruct (_ || _)%bool; auto. Qed.
Lemma pad_rows_null N a : null a -> null (pad_rows N a).
Proof. intros H i j. unfold pad_rows. destruct (_ || _)%bool; auto. Qed.
Lemma solve_mixed_null N h c a : null a -> null (solve_mixed N h c a).
Proof. intros H. unfold solve_mixed. apply pad_rows_null, mix2d_null, times_null_r, mix2d_null. intros i j. apply H. Qed.
Definition null_curs (c : curs) : Prop := null (s_ro c) /\ null (s_jx c) /\ null (s_jy c) /\ null (s_jz c).
Definition null_fields (f : fields3) : Prop := null (Ex f) /\ null (Ey f) /\ null (Ez f) /\ null (Bx f) /\ null (By f) /\ null (Bz f) /\ null (Phi f).
Lemma Ez_null N h c : null_curs c -> null (calculate_Ez N h c).
Proof. intros (A & B & C & D). unfold calculate_Ez. apply pad_null, dst2d_null, times_null, dst2d_null. intros i j. rewrite !B, !C. unfold Rdiv. ring. Qed.
Lemma Phi_null N h c : null_curs c -> null (calculate_Phi N h c).
Proof. intros (A & B & C & D). unfold calculate_Phi. apply pad_null, dst2d_null, times_null, dst2d_null. intros i j. unfold inner. rewrite A, D. ring. Qed.
Lemma Bz_null N h c : null_curs c -> null (calculate_Bz N h c).
Proof.
  intros (A & B & C & D). unfold calculate_Bz. set (u := dct2d _ _). assert (U : null u).
  { unfold u. apply dct2d_null, times_null, dct2d_null. intros i j. rewrite !pad_null by (intros a b; rewrite ?B, ?C; ring). unfold Rdiv. ring. }
  intros i j. rewrite U. unfold mean2. rewrite sumN_zero; [unfold Rdiv; ring|]. intros. apply sumN_zero. intros. apply U.
Qed.
Lemma d_null N h a : null a -> null (d_dx N h a) /\ null (d_dy N h a).
Proof. intros H. split; intros i j; unfold d_dx, d_dy, on_inner; destruct (_ || _)%bool; rewrite ?H; unfold Rdiv; ring. Qed.
Lemma transverse_null N h X c f rb rbp cf cp : null_fields f -> null rb -> null rbp -> null_curs cf -> null_curs cp ->
  let '(ex, ey, bx, b_y) := calculate_Ex_Ey_Bx_By N h X c f rb rbp cf cp in null ex /\ null ey /\ null bx /\ null b_y.
Proof.
  intros (F1 & F2 & F3 & F4 & F5 & F6 & F7) R1 R2 (A & B & C & D) (A' & B' & C' & D'). unfold calculate_Ex_Ey_Bx_By.
  assert (RH : null (fun i j => (s_ro cf i j + rb i j + s_ro cp i j + rbp i j) / 2)) by (intros i j; rewrite A, A', R1, R2; field).
  assert (JH : null (fun i j => (s_jz cf i j + rb i j + s_jz cp i j + rbp i j) / 2)) by (intros i j; rewrite D, D', R1, R2; field).
  destruct (d_null N h _ RH) as [X1 X2]. destruct (d_null N h _ JH) as [X3 X4].
  assert (T : forall a, null a -> null (transpose a)) by (intros a Ha i j; apply Ha).
  split; [|split; [|split]].
  - apply T, solve_mixed_null, T. intros i j. rewrite X1, B, B', F1. unfold Rdiv. ring.
  - apply solve_mixed_null. intros i j. rewrite X2, C, C', F2. unfold Rdiv. ring.
  - apply solve_mixed_null. intros i j. rewrite X4, C, C', F4. unfold Rdiv. ring.
  - apply T, solve_mixed_null, T. intros i j. rewrite X3, B, B', F5. unfold Rdiv. ring.
Qed.
Lemma fields_null N h X c f fp rb rbp cp cf : null_fields f -> null_fields fp -> null rb -> null rbp -> null_curs (sum_sorts cf) -> null_curs (sum_sorts cp) ->
  let '(full, half) := compute_fields3 N h X c f fp rb rbp cp cf in null_fields full /\ null_fields half.
Proof.
  intros F FP R1 R2 C1 C2. unfold compute_fields3. pose proof (transverse_null N h X c f rb rbp _ _ F R1 R2 C1 C2) as T.
  destruct (calculate_Ex_Ey_Bx_By _ _ _ _ _ _ _ _ _) as [[[ex ey] bx] b_y]. destruct T as (T1 & T2 & T3 & T4).
  destruct FP as (F1 & F2 & F3 & F4 & F5 & F6 & F7).
  pose proof (Ez_null N h _ C1) as E1. pose proof (Bz_null N h _ C1) as E2. pose proof (Phi_null N h _ C1) as E3.
  split; (split; [|split; [|split; [|split; [|split; [|split]]]]]); cbn [Ex Ey Ez Bx By Bz Phi]; auto; intros i j;
    rewrite ?T1, ?T2, ?T3, ?T4, ?E1, ?E2, ?F1, ?F2, ?F3, ?F4, ?F5, ?F6; try ring; field.
Qed.

(** ** A particle at rest in zero field stays *)
Definition resting (p : pt3) : Prop := t_px p = 0 /\ t_py p = 0 /\ t_pz p = 0.
Lemma gather_null n h x y F : null F -> gather_at n h x y F = 0.
Proof.
  intros H. unfold gather_at. rewrite gather_val by (intros; ring). unfold places. cbn [fold_right]. rewrite !H. ring.
Qed.
Lemma smart_rest n h b X f p : null_fields f -> resting p -> within b p -> move_smart1 n h b X f p p = p.
Proof.
  intros (F1 & F2 & F3 & F4 & F5 & F6 & F7) (P1 & P2 & P3) [W1 W2]. unfold at_x, at_y in *. unfold move_smart1. destruct (Req_EM_T (t_q p) 0); [reflexivity|].
  replace ((t_dx p + t_dx p) / 2) with (t_dx p) by field. replace ((t_dy p + t_dy p) / 2) with (t_dy p) by field.
  rewrite !no_reflect by lra. cbn [orb]. unfold fields_at3. rewrite !gather_null by auto. rewrite P1, P2, P3.
  assert (K : forall q, force3 (t_m p) (t_q p) X (0, 0, 0, 0, 0, 0) q = (0, 0, 0)).
  { intros [[a c] d]. unfold force3. f_equal; [f_equal|]; ring. }
  rewrite !K. unfold half_kick. replace (0 + 0 / 2) with 0 by field. unfold finish3.
  replace (0 / (gamma3 (t_m p) 0 0 0 - 0) * X) with 0 by (unfold Rdiv; ring). rewrite !Rplus_0_r. unfold reflect_off. rewrite !no_reflect by lra. cbn [snd orb].
  apply Rabs_def2 in W1, W2.
  destruct (Rle_dec b (t_x0 p + t_dx p)); [lra|]. destruct (Rle_dec (t_x0 p + t_dx p) (- b)); [lra|].
  destruct (Rle_dec b (t_y0 p + t_dy p)); [lra|]. destruct (Rle_dec (t_y0 p + t_dy p) (- b)); [lra|]. cbn [orb].
  destruct p; cbn in *. subst. f_equal; ring.
Qed.
Lemma free_rest X p : resting p -> move_free1 X p = p.
Proof. intros (A & B & _). now apply free_absorbed. Qed.
Lemma layer_rest n h b X f1 f2 f3 p : null_fields f1 -> null_fields f2 -> null_fields f3 -> resting p -> within b p -> layer1 n h b X f1 f2 f3 p = p.
Proof. intros. unfold layer1. rewrite free_rest by auto. now rewrite !smart_rest by auto. Qed.

(** ** The whole plasma *)
Lemma ravel_ext {X} K (a a' : nat -> nat -> X) : (forall i j, (i < K)%nat -> (j < K)%nat -> a i j = a' i j) -> ravel K a = ravel K a'.
Proof.
  intros H. unfold ravel. assert (G : forall l, (forall i, In i l -> (i < K)%nat) -> 
    flat_map (fun i => map (fun j => a i j) (seq 0 K)) l = flat_map (fun i => map (fun j => a' i j) (seq 0 K)) l).
  { induction l as [|i l IH]; intros Hl; [reflexivity|]. cbn [flat_map]. rewrite IH by (intros; apply Hl; now right). f_equal.
    apply map_ext_in. intros j Hj. apply in_seq in Hj. apply H; [apply Hl; now left|lia]. }
  apply G. intros i Hi. apply in_seq in Hi. lia.
Qed.
Lemma rest_currents p : resting p -> rho_of p = t_q p /\ vx_of p = 0 /\ vy_of p = 0 /\ vz_of p = 0.
Proof.
  intros (A & B & C). unfold rho_of, vx_of, vy_of, vz_of. rewrite A, B, C. unfold Rdiv. rewrite !Rmult_0_l, Rminus_0_r, Rinv_1. repeat split; ring.
Qed.
Lemma sumR_0 {X} (f : X -> R) l : (forall p, In p l -> f p = 0) -> sumR (map f l) = 0.
Proof. induction l as [|p l IH]; intros H; cbn [map sumR]; [reflexivity|]. rewrite H by now left. rewrite IH by (intros; apply H; now right). ring. Qed.
Lemma deposit_rest n h l a b : h <> 0 -> (forall p, In p l -> resting p) -> let o := deposit_plasma n h l in
  c_ro o a b = cell_sum n h t_q l a b /\ c_jx o a b = 0 /\ c_jy o a b = 0 /\ c_jz o a b = 0.
Proof.
  intros Hh Hr. cbn zeta. destruct (deposit_plasma_val n h l a b Hh) as (A & B & C & D). rewrite A, B, C, D. unfold cell_sum.
  split; [apply sumR_map_ext; intros p Hp; destruct (rest_currents p (Hr p Hp)) as (-> & _); reflexivity|].
  split; [|split]; apply sumR_0; intros p Hp; destruct (rest_currents p (Hr p Hp)) as (_ & E1 & E2 & E3); rewrite ?E1, ?E2, ?E3; unfold Rdiv; ring.
Qed.

Section Quiet.
  Variables (average : arr2 -> arr2) (s : solver3) (K : nat) (e0 i0 : nat -> nat -> pt3).
  Definition grid_null (a : arr2) : Prop := forall i j, (i < K)%nat -> (j < K)%nat -> a i j = 0.
  Hypothesis Hav : forall a, grid_null a -> grid_null (average a).
  Hypothesis He : forall i j, (i < K)%nat -> (j < K)%nat -> resting (e0 i j) /\ within (u_b s) (e0 i j).
  Hypothesis Hi : forall i j, (i < K)%nat -> (j < K)%nat -> resting (i0 i j) /\ within (u_b s) (i0 i j).
  Hypothesis Hd : forall i j, (i < K)%nat -> (j < K)%nat -> t_dx (e0 i j) = 0 /\ t_dy (e0 i j) = 0 /\ t_cx (e0 i j) = 0 /\ t_cy (e0 i j) = 0.
  Definition same_parts (ps : parts3) : Prop := K_ ps = K /\ forall i j, (i < K)%nat -> (j < K)%nat -> el ps i j = e0 i j /\ io ps i j = i0 i j.
  Hypothesis Hc : null_curs (sum_sorts (compute_rhoj3 (Z.of_nat (u_n s)) (u_h s) (u_ions s) (mkP3 K e0 i0))).
  Lemma rhoj_same ps : same_parts ps -> compute_rhoj3 (Z.of_nat (u_n s)) (u_h s) (u_ions s) ps = compute_rhoj3 (Z.of_nat (u_n s)) (u_h s) (u_ions s) (mkP3 K e0 i0).
  Proof.
    intros [HK H]. unfold compute_rhoj3. cbn [K_ el io]. rewrite HK. rewrite (ravel_ext K (el ps) e0) by (intros; now apply H).
    rewrite (ravel_ext K (io ps) i0) by (intros; now apply H). reflexivity.
  Qed.
  Lemma free_parts ps : same_parts ps -> same_parts (move_free s ps).
  Proof.
    intros [HK H]. split; [exact HK|]. intros i j A B. destruct (H i j A B) as [E1 E2]. destruct (He i j A B) as [R1 _]. destruct (Hi i j A B) as [R2 _].
    unfold move_free, map_sorts. cbn [el io]. rewrite E1, free_rest by auto. split; [reflexivity|]. destruct (u_ions s); [exact E2|]. rewrite E2. now apply free_rest.
  Qed.
  Lemma smart_parts f pp ps : null_fields f -> same_parts pp -> same_parts ps -> same_parts (move_smart s f pp ps).
  Proof.
    intros F [_ P] [HK H]. split; [exact HK|]. intros i j A B. destruct (H i j A B) as [E1 E2]. destruct (P i j A B) as [E3 E4].
    destruct (He i j A B) as [R1 W1]. destruct (Hi i j A B) as [R2 W2]. unfold move_smart. cbn [el io]. rewrite E1, E3, smart_rest by auto.
    split; [reflexivity|]. destruct (u_ions s); [exact E2|]. rewrite E2, E4. now apply smart_rest.
  Qed.
  Lemma inhom1_null d j : d j = 0 -> inhomogeneity1 K d j = 0.
  Proof.
    intros H. unfold inhomogeneity1. assert (N : nz (d j) = false) by (unfold nz; destruct (Req_EM_T (d j) 0); [reflexivity|contradiction]).
    destruct (Nat.eqb_spec j 0) as [->|]; [now rewrite N|]. destruct (Nat.eqb_spec j (K - 1)) as [->|]; [now rewrite N|now rewrite N].
  Qed.
  Lemma inhom_null a : grid_null a -> grid_null (inhomogeneity K a).
  Proof. intros H i j A B. unfold inhomogeneity, ax1, ax0. rewrite !inhom1_null by now apply H. field. Qed.
  Lemma change_null X coef damp dmax c cp cx cy : grid_null c -> grid_null cp -> grid_null (momentum_change K X coef damp dmax c cp cx cy).
  Proof.
    intros H H' i j A B. unfold momentum_change, ax0, ax1, spread1. rewrite (H i j), (H' i j) by auto.
    assert (P : forall b v, (b = true -> v = 0) -> (if b : bool then v / 4 else 0) = 0) by (intros [] v Hv; [rewrite Hv by reflexivity; field|reflexivity]).
    rewrite !P; [destruct (_ && _)%bool, (_ && _)%bool; field| | | |]; intros E; rewrite ?andb_true_iff, ?Nat.leb_le, ?Nat.ltb_lt in E; rewrite H by lia; ring.
  Qed.
  Lemma filter_parts ps pp : same_parts ps -> same_parts pp ->
    same_parts (mkP3 (K_ ps) (noise_filter average (K_ ps) (u_xi s) (u_force s) (u_damp s) (u_limit s) (el ps) (el pp)) (io ps)).
  Proof.
    intros [HK H] [_ P]. split; [exact HK|]. intros i j A B. cbn [el io]. split; [|now apply H]. rewrite HK. unfold noise_filter.
    set (dx := inhomogeneity K (fun i j => t_dx (el ps i j))). set (dy := inhomogeneity K (fun i j => t_dy (el ps i j))).
    assert (DX : grid_null dx) by (apply inhom_null; intros a b Ha Hb; destruct (H a b Ha Hb) as [-> _]; now apply Hd).
    assert (DY : grid_null dy) by (apply inhom_null; intros a b Ha Hb; destruct (H a b Ha Hb) as [-> _]; now apply Hd).
    assert (CX : grid_null (fun i j => dx i j - average dx i j)) by (intros a b Ha Hb; rewrite DX, (Hav dx DX) by auto; ring).
    assert (CY : grid_null (fun i j => dy i j - average dy i j)) by (intros a b Ha Hb; rewrite DY, (Hav dy DY) by auto; ring).
    rewrite !change_null; auto; try (intros a b Ha Hb; destruct (P a b Ha Hb) as [-> _]; now apply Hd).
    cbn beta. rewrite (CX i j A B), (CY i j A B), !Rplus_0_r. destruct (H i j A B) as [-> _]. destruct (Hd i j A B) as (_ & _ & C1 & C2).
    destruct (e0 i j); cbn in *. now subst.
  Qed.
  Definition quiet (st : state3) : Prop := same_parts (fst (fst st)) /\ null_fields (snd (fst st)) /\ null_curs (sum_sorts (snd st)).
  Lemma quiet_step rf rp st : null rf -> null rp -> quiet st -> quiet (step_dxi3 average s rf rp st).
  Proof.
    destruct st as [[pp fp] cp]. intros R1 R2 (P & F & C). cbn [fst snd] in P, F, C. unfold step_dxi3.
    set (rhoj := compute_rhoj3 _ _ _). set (p1 := move_smart s fp pp (move_free s pp)).
    assert (P1 : same_parts p1) by (apply smart_parts; auto; now apply free_parts).
    assert (J : forall ps, same_parts ps -> null_curs (sum_sorts (rhoj ps))) by (intros ps Hps; unfold rhoj; rewrite rhoj_same by auto; exact Hc).
    set (fh1 := snd (compute_fields3 _ _ _ _ _ _ _ _ _ (rhoj p1))).
    assert (N1 : null_fields fh1).
    { unfold fh1. pose proof (fields_null (u_n s) (u_h s) (u_xi s) (u_coeff s) fp fp rf rp cp (rhoj p1) F F R1 R2 (J _ P1) C) as G.
      destruct (compute_fields3 _ _ _ _ _ _ _ _ _ _) as [a b]. apply G. }
    set (p2 := move_smart s fh1 pp p1). assert (P2 : same_parts p2) by now apply smart_parts.
    pose proof (fields_null (u_n s) (u_h s) (u_xi s) (u_coeff s) fh1 fp rf rp cp (rhoj p2) N1 F R1 R2 (J _ P2) C) as G.
    destruct (compute_fields3 _ _ _ _ _ _ _ _ _ (rhoj p2)) as [ff fh2]. destruct G as [N2 N3].
    set (p3 := move_smart s fh2 pp p2). assert (P3 : same_parts p3) by now apply smart_parts.
    set (p4 := if u_decl s then _ else p3). assert (P4 : same_parts p4) by (unfold p4; destruct (u_decl s); [now apply filter_parts|exact P3]).
    split; [exact P4|]. split; [exact N2|]. cbn [snd]. now apply J.
  Qed.
  Lemma quiet_run beams st : Forall (fun b => null (fst b) /\ null (snd b)) beams -> quiet st -> quiet (run3 average s beams st).
  Proof.
    intros H. revert st. induction H as [|[rf rp] l [A B] _ IH]; intros st Q; [exact Q|]. cbn [run3]. apply IH. now apply quiet_step.
  Qed.
End Quiet.

(** ** The initial grid is inside the wall *)
Lemma grid_within steps h f k : 0 < h -> (0 < f)%nat -> (k < grid_size steps f)%nat -> Rabs (plasma_grid steps h f k) < h * INR (Z.to_nat (steps / 2)).
Proof.
  intros Hh Hf. unfold grid_size, plasma_grid. set (sz := Z.to_nat (steps / 2)). set (half := (sz * f)%nat). intros Hk.
  assert (F : 0 < INR f) by (apply lt_0_INR; lia). assert (E : h * INR sz = INR half * (h / INR f)) by (unfold half; rewrite mult_INR; field; lra). rewrite E.
  assert (D : 0 < h / INR f) by (apply Rdiv_lt_0_compat; lra). destruct (Nat.odd f).
  - rewrite minus_INR by lia. change (INR 1) with 1. assert (H1 : INR k + 1 <= 2 * INR half - 1).
    { replace 2 with (INR 2) by reflexivity. rewrite <- mult_INR. replace (INR (2 * half) - 1) with (INR (2 * half - 1)) by (rewrite minus_INR by lia; reflexivity).
      rewrite <- S_INR. apply le_INR. lia. }
    assert (0 <= INR k) by apply pos_INR. rewrite Rabs_mult, (Rabs_right (h / INR f)) by lra. apply Rmult_lt_compat_r; [lra|]. apply Rabs_def1; lra.
  - assert (H1 : INR k + 1 <= 2 * INR half).
    { replace 2 with (INR 2) by reflexivity. rewrite <- mult_INR, <- S_INR. apply le_INR. lia. }
    assert (0 <= INR k) by apply pos_INR. rewrite Rabs_mult, (Rabs_right (h / INR f)) by lra. apply Rmult_lt_compat_r; [lra|]. apply Rabs_def1; lra.
Qed.
Lemma half_below_wall N h pp bp : 0 < h -> (0 <= Z.of_nat N - 2 * pp)%Z -> (bp <= pp)%Z -> h * INR (Z.to_nat ((Z.of_nat N - 2 * pp) / 2)) <= wall N h bp.
Proof.
  intros Hh Hs Hb. unfold wall. apply Rmult_le_compat_l; [lra|]. rewrite INR_IZR_INZ, Z2Nat.id by (apply Z.div_pos; lia).
  rewrite (INR_IZR_INZ N). set (M := Z.of_nat N) in *. assert (H := Z.mul_div_le (M - 2 * pp) 2 ltac:(lia)). apply IZR_le in H, Hb. rewrite mult_IZR, minus_IZR, mult_IZR in H. lra.
Qed.

Section InitQuiet.
  Variables (N : nat) (h : R) (pp bp : Z) (f : nat) (coef : R -> R -> R) (mobile : bool) (ion_mass : R).
  Hypothesis Hh : 0 < h. Hypothesis Hf : (0 < f)%nat. Hypothesis Hs : (0 <= Z.of_nat N - 2 * pp)%Z. Hypothesis Hb : (bp <= pp)%Z.
  Let st := fst (init_plasma3 N h pp f coef mobile ion_mass).
  Let im := snd (init_plasma3 N h pp f coef mobile ion_mass).
  Let K := grid_size (Z.of_nat N - 2 * pp) f.
  Lemma init_K : K_ (fst (fst st)) = K.
  Proof. unfold st, init_plasma3. destruct mobile; reflexivity. Qed.
  Lemma init_rest i j : (i < K)%nat -> (j < K)%nat -> 
    (resting (el (fst (fst st)) i j) /\ within (wall N h bp) (el (fst (fst st)) i j)) /\ (resting (io (fst (fst st)) i j) /\ within (wall N h bp) (io (fst (fst st)) i j)).
  Proof.
    intros Hi Hj. assert (A := grid_within _ h f i Hh Hf Hi). assert (B := grid_within _ h f j Hh Hf Hj). assert (C := half_below_wall N h pp bp Hh Hs Hb).
    assert (W : within (wall N h bp) (init_electrons3 (Z.of_nat N - 2 * pp) h f coef i j)).
    { unfold within, at_x, at_y, init_electrons3. cbn [t_x0 t_y0 t_dx t_dy]. rewrite !Rplus_0_r. lra. }
    unfold st, init_plasma3. destruct mobile; cbn [fst snd el io]; split; split; try exact W; try (repeat split; reflexivity).
  Qed.
  Lemma init_curs : null_curs (sum_sorts (compute_rhoj3 (Z.of_nat N) h im (fst (fst st)))).
  Proof.
    assert (Hh' : h <> 0) by lra.
    set (e := init_electrons3 (Z.of_nat N - 2 * pp) h f coef).
    assert (R1 : forall p, In p (ravel K e) -> resting p) by (intros p Hp; apply ravel_In in Hp; destruct Hp as (i & j & _ & _ & ->); repeat split; reflexivity).
    unfold st, im, init_plasma3. fold K. fold e. destruct mobile; cbn [fst snd].
    - set (io' := fun a b : nat => _). assert (R2 : forall p, In p (ravel K io') -> resting p) by (intros p Hp; apply ravel_In in Hp; destruct Hp as (i & j & _ & _ & ->); repeat split; reflexivity).
      unfold compute_rhoj3. cbn [K_ el io]. unfold null_curs, sum_sorts, to_arr2. cbn [s_ro s_jx s_jy s_jz r_e r_i].
      assert (Q : forall a b, cell_sum (Z.of_nat N) h t_q (ravel K io') a b = - cell_sum (Z.of_nat N) h t_q (ravel K e) a b).
      { intros a b. unfold cell_sum. assert (M : ravel K io' = map (fun p => mkT (t_x0 p) (t_y0 p) 0 0 0 0 0 (- t_q p) (ion_mass * t_m p) 0 0) (ravel K e)).
        { unfold ravel. generalize (seq 0 K) at 2 4. induction l as [|i l IH]; [reflexivity|]. cbn [flat_map]. rewrite map_app, IH. f_equal. rewrite map_map. apply map_ext. reflexivity. }
        rewrite M, map_map. match goal with |- _ = - ?S => replace (- S) with (-1 * S) by ring end. rewrite <- sumR_map_scal. apply sumR_map_ext. intros p Hp.
        cbn [t_q]. unfold at_x, at_y. cbn [t_x0 t_y0 t_dx t_dy]. apply ravel_In in Hp. destruct Hp as (i & j & _ & _ & ->). unfold e, init_electrons3. cbn [t_x0 t_y0 t_dx t_dy t_q]. unfold Rdiv. ring. }
      split; [|split; [|split]]; intros i j;
      destruct (deposit_rest (Z.of_nat N) h (ravel K e) (Z.of_nat i) (Z.of_nat j) Hh' R1) as (A1 & A2 & A3 & A4);
      destruct (deposit_rest (Z.of_nat N) h (ravel K io') (Z.of_nat i) (Z.of_nat j) Hh' R2) as (B1 & B2 & B3 & B4);
      rewrite ?A1, ?A2, ?A3, ?A4, ?B1, ?B2, ?B3, ?B4, ?Q; ring.
    - unfold compute_rhoj3. cbn [K_ el io]. unfold null_curs, sum_sorts, to_arr2. cbn [s_ro s_jx s_jy s_jz r_e r_i c_ro c_jx c_jy c_jz].
      split; [intros i j; ring|]. split; [|split]; intros i j; unfold zero_grid;
      destruct (deposit_rest (Z.of_nat N) h (ravel K e) (Z.of_nat i) (Z.of_nat j) Hh' R1) as (A1 & A2 & A3 & A4); rewrite ?A2, ?A3, ?A4; ring.
  Qed.
  Theorem quiet_plasma average s beams : (forall a, grid_null K a -> grid_null K (average a)) ->
    u_n s = N -> u_h s = h -> u_b s = wall N h bp -> u_ions s = im -> Forall (fun b => null (fst b) /\ null (snd b)) beams ->
    quiet K (el (fst (fst st))) (io (fst (fst st))) (run3 average s beams st).
  Proof.
    intros Hav E1 E2 E3 E4 HB. apply quiet_run; auto.
    - intros i j A B. rewrite E3. now apply init_rest.
    - intros i j A B. rewrite E3. now apply init_rest.
    - intros i j _ _. unfold st, init_plasma3. destruct mobile; repeat split; reflexivity.
    - rewrite E1, E2, E4. rewrite <- init_K. replace (mkP3 _ _ _) with (fst (fst st)) by (destruct (fst (fst st)); reflexivity). apply init_curs.
    - unfold quiet. split; [split; [apply init_K|auto]|]. unfold st, init_plasma3. destruct mobile; cbn [fst snd]; split; (repeat split; intros i j; try reflexivity); cbn; unfold zeros2, to_arr2, zero_cur3, zero_dens3, zero_grid; cbn; ring.
  Qed.
End InitQuiet.

(** ** C48: the density of the initial plasma *)
Lemma sumZ_sumN n f : sumZ n f = sumN n (fun i => f (Z.of_nat i)).
Proof. induction n as [|n IH]; [reflexivity|]. cbn [sumZ sumN]. now rewrite IH. Qed.
(** one point per cell, at offset t *)
Lemma column_one sz (u : Z) t : 0 <= t < 1 -> (Z.abs u <= Z.of_nat sz - 3)%Z -> sumN (2 * sz) (fun m => spline4 (IZR u - (INR m - INR sz + t))) = 1.
Proof.
  intros Ht Hu. rewrite <- (spline_sum (2 * sz) 1 (IZR u - t)).
  - rewrite sumZ_sumN. apply sumN_ext. intros m _. rewrite <- spline_even. f_equal.
    replace (Z.of_nat (2 * sz) / 2)%Z with (Z.of_nat sz) by (rewrite Nat2Z.inj_mul; apply (Z.div_unique _ 2 _ 0); lia).
    rewrite minus_IZR, <- !INR_IZR_INZ. field.
  - unfold inside. replace (Z.of_nat (2 * sz) / 2)%Z with (Z.of_nat sz) by (rewrite Nat2Z.inj_mul; apply (Z.div_unique _ 2 _ 0); lia).
    replace (Z.of_nat (2 * sz) - 1 - Z.of_nat sz)%Z with (Z.of_nat sz - 1)%Z by lia. rewrite minus_IZR.
    assert (H1 : (u <= Z.of_nat sz - 3)%Z) by lia. assert (H2 : (- (Z.of_nat sz) + 3 <= u)%Z) by lia. apply IZR_le in H1, H2. rewrite minus_IZR in H1. rewrite plus_IZR, opp_IZR in H2. lra.
Qed.
Lemma sumN_shift n F : sumN (S n) F = F 0%nat + sumN n (fun i => F (S i)).
Proof. induction n as [|n IH]; [cbn; ring|]. rewrite sumN_S, IH, (sumN_S n). ring. Qed.
Lemma sumN_const n c : sumN n (fun _ => c) = INR n * c.
Proof. induction n as [|n IH]; [cbn; ring|]. rewrite sumN_S, IH, S_INR. ring. Qed.
Lemma grid_fill steps h f (u : Z) : 0 < h -> (0 < f)%nat -> (Z.abs u <= steps / 2 - 3)%Z ->
  sumN (grid_size steps f) (fun i => spline4 (IZR u - plasma_grid steps h f i / h)) = INR f.
Proof.
  intros Hh Hf Hu. unfold grid_size, plasma_grid. set (sz := Z.to_nat (steps / 2)).
  assert (Hz : (Z.abs u <= Z.of_nat sz - 3)%Z) by (unfold sz; rewrite Z2Nat.id by lia; exact Hu).
  assert (F : 0 < INR f) by (apply lt_0_INR; lia).
  destruct (Nat.odd f) eqn:O.
  - set (G := fun i => spline4 (IZR u - (INR i - INR (sz * f)) / INR f)).
    assert (E : sumN (2 * (sz * f) - 1) (fun i => spline4 (IZR u - (INR i - INR (sz * f - 1)) * (h / INR f) / h)) = sumN (2 * (sz * f)) G).
    { replace (2 * (sz * f))%nat with (S (2 * (sz * f) - 1)) at 2 by nia. rewrite sumN_shift. unfold G at 1. change (INR 0) with 0.
      rewrite spline_out, Rplus_0_l.
      - apply sumN_ext. intros i _. unfold G. f_equal. rewrite S_INR, minus_INR by nia. cbn [INR]. field. lra.
      - rewrite mult_INR. replace (IZR u - (0 - INR sz * INR f) / INR f) with (IZR u + INR sz) by (field; lra).
        assert (H2 : (3 <= u + Z.of_nat sz)%Z) by lia. apply IZR_le in H2. rewrite plus_IZR, <- INR_IZR_INZ in H2. rewrite Rabs_right; lra. }
    rewrite E. replace (2 * (sz * f))%nat with ((2 * sz) * f)%nat by lia. rewrite sumN_mul. unfold G.
    rewrite (sumN_ext f _ (fun _ => 1)); [rewrite sumN_const; ring|]. intros r Hr. rewrite <- (column_one sz u (INR r / INR f)).
    + apply sumN_ext. intros m _. f_equal. rewrite plus_INR, !mult_INR. field. lra.
    + apply lt_INR in Hr. split; [apply Rmult_le_pos; [apply pos_INR|apply Rlt_le, Rinv_0_lt_compat; lra]|]. apply (Rmult_lt_reg_r (INR f)); [lra|]. unfold Rdiv. rewrite Rmult_assoc, Rinv_l by lra. lra.
    + exact Hz.
  - replace (2 * (sz * f))%nat with ((2 * sz) * f)%nat by lia. rewrite sumN_mul.
    rewrite (sumN_ext f _ (fun _ => 1)); [rewrite sumN_const; ring|]. intros r Hr. rewrite <- (column_one sz u ((INR r + 1 / 2) / INR f)).
    + apply sumN_ext. intros m _. f_equal. rewrite plus_INR, !mult_INR. replace 0.5 with (1 / 2) by lra. field. lra.
    + assert (Hr' : INR r + 1 <= INR f) by (rewrite <- S_INR; apply le_INR; lia). assert (0 <= INR r) by apply pos_INR.
      split; [apply Rmult_le_pos; [lra|apply Rlt_le, Rinv_0_lt_compat; lra]|]. apply (Rmult_lt_reg_r (INR f)); [lra|]. unfold Rdiv. rewrite Rmult_assoc, Rinv_l by lra. lra.
    + exact Hz.
Qed.
Lemma sumR_app l1 l2 : sumR (l1 ++ l2) = sumR l1 + sumR l2.
Proof. induction l1 as [|x l IH]; cbn; [ring|rewrite IH; ring]. Qed.
Lemma sumR_ravel {X} K (a : nat -> nat -> X) g : sumR (map g (ravel K a)) = sumN K (fun i => sumN K (fun j => g (a i j))).
Proof.
  rewrite <- sumR_seq. unfold ravel. generalize (seq 0 K) at 2 3. induction l as [|i l IH]; [reflexivity|]. cbn [flat_map map sumR].
  rewrite map_app, sumR_app, IH, map_map, sumR_seq. reflexivity.
Qed.
Lemma initial_density N h steps f coef c (a b : Z) : 0 < h -> (0 < f)%nat ->
  (Z.abs (a - Z.of_nat N / 2) <= steps / 2 - 3)%Z -> (Z.abs (b - Z.of_nat N / 2) <= steps / 2 - 3)%Z ->
  (forall x y, Rabs (x / h - IZR (a - Z.of_nat N / 2)) < 5 / 2 -> Rabs (y / h - IZR (b - Z.of_nat N / 2)) < 5 / 2 -> coef x y = c) ->
  c_ro (deposit_plasma (Z.of_nat N) h (ravel (grid_size steps f) (init_electrons3 steps h f coef))) a b = - c.
Proof.
  intros Hh Hf Ha Hb Hc. set (K := grid_size steps f).
  assert (R1 : forall p, In p (ravel K (init_electrons3 steps h f coef)) -> resting p) by (intros p Hp; apply ravel_In in Hp; destruct Hp as (i & j & _ & _ & ->); repeat split; reflexivity).
  destruct (deposit_rest (Z.of_nat N) h _ a b ltac:(lra) R1) as (E & _). rewrite E. unfold cell_sum. rewrite sumR_ravel.
  assert (F : 0 < INR f) by (apply lt_0_INR; lia).
  set (u := (a - Z.of_nat N / 2)%Z) in *. set (v := (b - Z.of_nat N / 2)%Z) in *.
  rewrite (sumN_ext K _ (fun i => spline4 (IZR u - plasma_grid steps h f i / h) * (- c / INR f))).
  { rewrite (sumN_ext K _ (fun i => (- c / INR f) * spline4 (IZR u - plasma_grid steps h f i / h))) by (intros; ring).
    rewrite sumN_scal. unfold K. rewrite grid_fill by auto. field. lra. }
  intros i _. rewrite (sumN_ext K _ (fun j => (spline4 (IZR u - plasma_grid steps h f i / h) * (- c / INR f ^ 2)) * spline4 (IZR v - plasma_grid steps h f j / h))).
  { rewrite sumN_scal. unfold K. rewrite grid_fill by auto. field. lra. }
  intros j _. unfold shape, at_x, at_y, init_electrons3. cbn [t_q t_x0 t_y0 t_dx t_dy]. rewrite !Rplus_0_r. fold u v.
  set (x := plasma_grid steps h f i). set (y := plasma_grid steps h f j).
  destruct (Rlt_dec (Rabs (x / h - IZR u)) (5 / 2)) as [A|A]; [destruct (Rlt_dec (Rabs (y / h - IZR v)) (5 / 2)) as [B|B]|].
  - rewrite Hc by auto. field. split; lra.
  - rewrite (spline_out (IZR v - y / h)); [field; split; lra|]. rewrite Rabs_minus_sym. lra.
  - rewrite (spline_out (IZR u - x / h)); [field; split; lra|]. rewrite Rabs_minus_sym. lra.
Qed.
