(** Lemmas for C69: the 3D plasma layer with rounded arithmetic. *)
From Coq Require Import Reals ZArith List Bool Lra Lia FunctionalExtensionality.
From Verif Require Import Beam2D_Model Plasma2D_Model Shape_Model Plasma3D_Model Plasma3D_Spec Plasma3D_Quiet Rounded3D_Model.
Import ListNotations.
Open Scope R_scope.

(** ** A rounding: 0 is kept, the sign does not matter, and rounding twice is rounding once *)
Definition rounding (rnd : R -> R) : Prop := rnd 0 = 0 /\ (forall x, rnd (- x) = - rnd x) /\ (forall x, rnd (rnd x) = rnd x).
(** What the transforms make of an array of zeros *)
Definition keeps_zero (t : arr2 -> arr2) : Prop := forall a, null a -> null (t a).
Definition honest (tr : transforms) : Prop := keeps_zero (tr_dst2d tr) /\ keeps_zero (tr_dct2d tr) /\ keeps_zero (tr_mix2d tr).
Definition honest_average (K : nat) (av : arr2 -> arr2) : Prop :=
  forall a, (forall i j, (i < K)%nat -> (j < K)%nat -> a i j = 0) -> forall i j, (i < K)%nat -> (j < K)%nat -> av a i j = 0.

Section R.
  Variable rnd : R -> R.
  Hypothesis Hr : rounding rnd.
  Lemma r0 : rnd 0 = 0. Proof. apply Hr. Qed.
  Lemma rn x : rnd (- x) = - rnd x. Proof. apply Hr. Qed.
  Lemma r_add0 : rnd (0 + 0) = 0. Proof. rewrite Rplus_0_r. apply r0. Qed.
  Lemma r_sub0 : rnd (0 - 0) = 0. Proof. rewrite Rminus_0_r. apply r0. Qed.
  Lemma r_mul0 x : rnd (0 * x) = 0. Proof. rewrite Rmult_0_l. apply r0. Qed.
  Lemma r_mul0r x : rnd (x * 0) = 0. Proof. rewrite Rmult_0_r. apply r0. Qed.
  Lemma r_div0 x : rnd (0 / x) = 0. Proof. unfold Rdiv. rewrite Rmult_0_l. apply r0. Qed.
  Hint Rewrite r0 r_add0 r_sub0 r_mul0 r_mul0r r_div0 Ropp_0 : zr.

  (** *** Deposits of opposite charges are opposite *)
  Definition opp_grid (g g' : grid) : Prop := forall a b, g' a b = - g a b.
  Lemma add_opp g g' ix iy v v' : opp_grid g g' -> v' = - v -> opp_grid (add_cell_f rnd g ix iy v) (add_cell_f rnd g' ix iy v').
  Proof.
    intros H -> a b. unfold add_cell_f. rewrite !H. destruct (a =? ix)%Z; [|reflexivity]. destruct (b =? iy)%Z; [|reflexivity].
    rewrite <- rn. f_equal. ring.
  Qed.
  Lemma fold_opp {X} (f f' : grid -> X -> grid) l g g' : (forall g g' x, opp_grid g g' -> opp_grid (f g x) (f' g' x)) -> opp_grid g g' ->
    opp_grid (fold_left f l g) (fold_left f' l g').
  Proof. intros Hf. revert g g'. induction l as [|x l IH]; intros g g' H; [exact H|]. cbn [fold_left]. apply IH, Hf, H. Qed.
  Lemma deposit_opp n h xh yh d d' g g' : opp_grid g g' -> d' = - d -> opp_grid (deposit_one_f rnd n h xh yh d g) (deposit_one_f rnd n h xh yh d' g').
  Proof.
    intros H ->. unfold deposit_one_f. apply fold_opp; [|exact H]. intros g1 g1' kx H1. apply fold_opp; [|exact H1]. intros g2 g2' ky H2.
    apply add_opp; [exact H2|]. rewrite <- rn. f_equal. ring.
  Qed.
  Definition null_grid (g : grid) : Prop := forall a b, g a b = 0.
  Lemma null_add g ix iy : null_grid g -> null_grid (add_cell_f rnd g ix iy 0).
  Proof. intros H a b. unfold add_cell_f. rewrite !H. autorewrite with zr. destruct (a =? ix)%Z, (b =? iy)%Z; reflexivity. Qed.
  Lemma fold_null {X} (f : grid -> X -> grid) l g : (forall g x, null_grid g -> null_grid (f g x)) -> null_grid g -> null_grid (fold_left f l g).
  Proof. intros Hf. revert g. induction l as [|x l IH]; intros g H; [exact H|]. cbn [fold_left]. apply IH, Hf, H. Qed.
  Lemma deposit_null n h xh yh g : null_grid g -> null_grid (deposit_one_f rnd n h xh yh 0 g).
  Proof.
    intros H. unfold deposit_one_f. apply fold_null; [|exact H]. intros g1 kx H1. apply fold_null; [|exact H1]. intros g2 ky H2.
    autorewrite with zr. now apply null_add.
  Qed.

  (** Two particles at the same place, at rest, with opposite charges *)
  Definition opposite (p p' : pt3) : Prop := t_x0 p' = t_x0 p /\ t_y0 p' = t_y0 p /\ t_dx p' = t_dx p /\ t_dy p' = t_dy p /\
    resting p /\ resting p' /\ t_q p' = - t_q p.
  Definition opp_dens (o o' : dens3) : Prop := opp_grid (c_ro o) (c_ro o') /\
    (null_grid (c_jx o) /\ null_grid (c_jy o) /\ null_grid (c_jz o)) /\ (null_grid (c_jx o') /\ null_grid (c_jy o') /\ null_grid (c_jz o')).
  Lemma deposit_plasma_opp n h l l' o o' : Forall2 opposite l l' -> opp_dens o o' ->
    opp_dens (fold_left (deposit_plasma_one_f rnd n h) l o) (fold_left (deposit_plasma_one_f rnd n h) l' o').
  Proof.
    intros H. revert o o'. induction H as [|p p' l l' Hp _ IH]; intros o o' Ho; [exact Ho|]. cbn [fold_left]. apply IH. clear IH.
    destruct Hp as (E1 & E2 & E3 & E4 & (P1 & P2 & P3) & (Q1 & Q2 & Q3) & E5). destruct Ho as (A & (B1 & B2 & B3) & (C1 & C2 & C3)).
    unfold deposit_plasma_one_f. rewrite E1, E2, E3, E4, E5, P1, P2, P3, Q1, Q2, Q3.
    destruct (Req_EM_T (t_q p) 0) as [Z|Z]; destruct (Req_EM_T (- t_q p) 0) as [Z'|Z']; try lra; [repeat split; assumption|].
    autorewrite with zr. split; [|split; (split; [|split]); cbn [c_jx c_jy c_jz]; now apply deposit_null].
    cbn [c_ro]. apply deposit_opp; [exact A|]. rewrite <- rn. f_equal. unfold Rdiv. ring.
  Qed.

  (** *** A particle at rest in zero field stays *)
  Lemma gather_null_f n h x y F : null F -> gather_at_f rnd n h x y F = 0.
  Proof.
    intros H. unfold gather_at_f, places. cbn [fold_left]. rewrite !H. autorewrite with zr. reflexivity.
  Qed.
  (** strictly inside the walls, at a position that is a number of the machine *)
  Definition inside (b : R) (p : pt3) : Prop := rnd (t_x0 p) = t_x0 p /\ rnd (t_y0 p) = t_y0 p /\ Rabs (t_x0 p) < b /\ Rabs (t_y0 p) < b.
  Definition unmoved (p : pt3) : Prop := resting p /\ t_dx p = 0 /\ t_dy p = 0.
  Lemma no_reflect_f b x : Rabs x < b -> reflect1_f rnd b x = (x, false).
  Proof. intros H. apply Rabs_def2 in H. unfold reflect1_f. destruct (Rlt_dec b x); [lra|]. destruct (Rlt_dec x (- b)); [lra|reflexivity]. Qed.
  Lemma force_null m q X p : force3_f rnd m q X (0, 0, 0, 0, 0, 0) p = (0, 0, 0).
  Proof. destruct p as [[a c] d]. unfold force3_f. autorewrite with zr. reflexivity. Qed.
  Lemma smart_rest_f n h b X f p : null_fields f -> unmoved p -> inside b p -> move_smart1_f rnd n h b X f p p = p.
  Proof.
    intros (F1 & F2 & F3 & F4 & F5 & F6 & F7) ((P1 & P2 & P3) & D1 & D2) (G1 & G2 & W1 & W2). unfold move_smart1_f. destruct (Req_EM_T (t_q p) 0); [reflexivity|].
    rewrite D1, D2. autorewrite with zr. rewrite !Rplus_0_r, G1, G2. rewrite !no_reflect_f by assumption. cbn [orb]. unfold fields_at3_f. rewrite !gather_null_f by auto.
    rewrite !force_null, P1, P2, P3. unfold half_kick_f. autorewrite with zr. unfold finish3_f. rewrite D1, D2. autorewrite with zr. unfold reflect_off_f. rewrite !Rplus_0_r, G1, G2.
    rewrite !no_reflect_f by assumption. cbn [snd orb]. rewrite !Rplus_0_r, G1, G2. apply Rabs_def2 in W1, W2.
    destruct (Rle_dec b (t_x0 p)); [lra|]. destruct (Rle_dec (t_x0 p) (- b)); [lra|].
    destruct (Rle_dec b (t_y0 p)); [lra|]. destruct (Rle_dec (t_y0 p) (- b)); [lra|]. cbn [orb]. rewrite P1, P2, P3. autorewrite with zr.
    destruct p; cbn in *. subst. reflexivity.
  Qed.
  Lemma free_rest_f X p : unmoved p -> move_free1_f rnd X p = p.
  Proof.
    intros ((P1 & P2 & P3) & D1 & D2). unfold move_free1_f. destruct (Req_EM_T (t_m p) 0); [reflexivity|]. rewrite P1, P2, D1, D2. autorewrite with zr.
    destruct p; cbn in *. subst. reflexivity.
  Qed.

  (** *** Zero sources give zero fields *)
  Variables (tr : transforms) (mx : matrices).
  Hypothesis Ht : honest tr.
  Lemma times_null_f a b : null a -> null (times_f rnd a b).
  Proof. intros H i j. unfold times_f. rewrite H. apply r_mul0. Qed.
  Lemma times_null_rf a b : null b -> null (times_f rnd a b).
  Proof. intros H i j. unfold times_f. rewrite H. apply r_mul0r. Qed.
  Lemma solve_mixed_null_f N a : null a -> null (solve_mixed_f rnd tr mx N a).
  Proof. intros H. destruct Ht as (_ & _ & T). unfold solve_mixed_f. apply pad_rows_null, T, times_null_rf, T. intros i j. apply H. Qed.
  Lemma Ez_null_f N h c : null_curs c -> null (calculate_Ez_f rnd tr mx N h c).
  Proof.
    intros (A & B & C & D). destruct Ht as (T & _ & _). unfold calculate_Ez_f. apply pad_null, T, times_null_f, T. intros i j. rewrite !B, !C.
    autorewrite with zr. reflexivity.
  Qed.
  Lemma Phi_null_f N c : null_curs c -> null (calculate_Phi_f rnd tr mx N c).
  Proof.
    intros (A & B & C & D). destruct Ht as (T & _ & _). unfold calculate_Phi_f. apply pad_null, T, times_null_f, T. intros i j. unfold inner. rewrite A, D.
    autorewrite with zr. reflexivity.
  Qed.
  Lemma sum_f_null n f : (forall i, f i = 0) -> sum_f rnd n f = 0.
  Proof. intros H. induction n as [|n IH]; [reflexivity|]. cbn [sum_f]. rewrite IH, H. apply r_add0. Qed.
  Lemma Bz_null_f N h c : null_curs c -> null (calculate_Bz_f rnd tr mx N h c).
  Proof.
    intros (A & B & C & D). destruct Ht as (_ & T & _). unfold calculate_Bz_f. set (u := tr_dct2d tr _). assert (U : null u).
    { unfold u. apply T, times_null_f, T. intros i j. rewrite !pad_null by (intros a b; rewrite ?B, ?C; apply r_sub0). autorewrite with zr. reflexivity. }
    intros i j. rewrite U. unfold mean2_f. rewrite sum_f_null; [autorewrite with zr; reflexivity|]. intros. apply sum_f_null. intros. apply U.
  Qed.
  Lemma d_null_f N h a : null a -> null (d_dx_f rnd N h a) /\ null (d_dy_f rnd N h a).
  Proof. intros H. split; intros i j; unfold d_dx_f, d_dy_f, on_inner; destruct (_ || _)%bool; rewrite ?H; autorewrite with zr; reflexivity. Qed.
  Lemma transverse_null_f N h X c f rb rbp cf cp : null_fields f -> null rb -> null rbp -> null_curs cf -> null_curs cp ->
    let '(ex, ey, bx, b_y) := calculate_Ex_Ey_Bx_By_f rnd tr mx N h X c f rb rbp cf cp in null ex /\ null ey /\ null bx /\ null b_y.
  Proof.
    intros (F1 & F2 & F3 & F4 & F5 & F6 & F7) R1 R2 (A & B & C & D) (A' & B' & C' & D'). unfold calculate_Ex_Ey_Bx_By_f.
    set (RH := fun i j => rnd (rnd (rnd (rnd (s_ro cf i j + rb i j) + s_ro cp i j) + rbp i j) / 2)).
    set (JH := fun i j => rnd (rnd (rnd (rnd (s_jz cf i j + rb i j) + s_jz cp i j) + rbp i j) / 2)).
    assert (HR : null RH) by (intros i j; unfold RH; rewrite A, A', R1, R2; autorewrite with zr; reflexivity).
    assert (HJ : null JH) by (intros i j; unfold JH; rewrite D, D', R1, R2; autorewrite with zr; reflexivity).
    destruct (d_null_f N h _ HR) as [X1 X2]. destruct (d_null_f N h _ HJ) as [X3 X4].
    assert (T : forall a, null a -> null (transpose a)) by (intros a Ha i j; apply Ha).
    split; [|split; [|split]].
    - apply T, solve_mixed_null_f, T. intros i j. rewrite X1, B, B', F1. autorewrite with zr. reflexivity.
    - apply solve_mixed_null_f. intros i j. rewrite X2, C, C', F2. autorewrite with zr. reflexivity.
    - apply solve_mixed_null_f. intros i j. rewrite X4, C, C', F4. autorewrite with zr. reflexivity.
    - apply T, solve_mixed_null_f, T. intros i j. rewrite X3, B, B', F5. autorewrite with zr. reflexivity.
  Qed.
  Lemma fields_null_f N h X c f fp rb rbp cp cf : null_fields f -> null_fields fp -> null rb -> null rbp -> null_curs (sum_sorts_f rnd cf) -> null_curs (sum_sorts_f rnd cp) ->
    let '(full, half) := compute_fields3_f rnd tr mx N h X c f fp rb rbp cp cf in null_fields full /\ null_fields half.
  Proof.
    intros F FP R1 R2 C1 C2. unfold compute_fields3_f. pose proof (transverse_null_f N h X c f rb rbp _ _ F R1 R2 C1 C2) as T.
    destruct (calculate_Ex_Ey_Bx_By_f _ _ _ _ _ _ _ _ _ _ _ _) as [[[ex ey] bx] b_y]. destruct T as (T1 & T2 & T3 & T4).
    destruct FP as (F1 & F2 & F3 & F4 & F5 & F6 & F7).
    pose proof (Ez_null_f N h _ C1) as E1. pose proof (Bz_null_f N h _ C1) as E2. pose proof (Phi_null_f N _ C1) as E3.
    split; (split; [|split; [|split; [|split; [|split; [|split]]]]]); cbn [Ex Ey Ez Bx By Bz Phi]; auto; intros i j;
      rewrite ?T1, ?T2, ?T3, ?T4, ?E1, ?E2, ?F1, ?F2, ?F3, ?F4, ?F5, ?F6; autorewrite with zr; reflexivity.
  Qed.

  (** *** The whole plasma *)
  Variables (s : solver3) (K : nat) (e0 i0 : nat -> nat -> pt3).
  Hypothesis Hav : honest_average K (tr_average tr).
  Hypothesis He : forall i j, (i < K)%nat -> (j < K)%nat -> unmoved (e0 i j) /\ inside (u_b s) (e0 i j).
  Hypothesis Hi : forall i j, (i < K)%nat -> (j < K)%nat -> unmoved (i0 i j) /\ inside (u_b s) (i0 i j).
  Hypothesis Hd : forall i j, (i < K)%nat -> (j < K)%nat -> t_cx (e0 i j) = 0 /\ t_cy (e0 i j) = 0.
  Let rhoj := compute_rhoj3_f rnd (Z.of_nat (u_n s)) (u_h s) (u_ions s).
  Hypothesis Hc : null_curs (sum_sorts_f rnd (rhoj (mkP3 K e0 i0))).
  Notation same_parts := (same_parts K e0 i0).
  Lemma rhoj_same_f ps : same_parts ps -> rhoj ps = rhoj (mkP3 K e0 i0).
  Proof.
    intros [HK H]. unfold rhoj, compute_rhoj3_f. cbn [K_ el io]. rewrite HK. rewrite (ravel_ext K (el ps) e0) by (intros; now apply H).
    rewrite (ravel_ext K (io ps) i0) by (intros; now apply H). reflexivity.
  Qed.
  Lemma free_parts_f ps : same_parts ps -> same_parts (move_free_f rnd s ps).
  Proof.
    intros [HK H]. split; [exact HK|]. intros i j A B. destruct (H i j A B) as [E1 E2]. destruct (He i j A B) as [R1 _]. destruct (Hi i j A B) as [R2 _].
    unfold move_free_f, map_sorts. cbn [el io]. rewrite E1, free_rest_f by auto. split; [reflexivity|]. destruct (u_ions s); [exact E2|]. rewrite E2. now apply free_rest_f.
  Qed.
  Lemma smart_parts_f f pp ps : null_fields f -> same_parts pp -> same_parts ps -> same_parts (move_smart_f rnd s f pp ps).
  Proof.
    intros F [_ P] [HK H]. split; [exact HK|]. intros i j A B. destruct (H i j A B) as [E1 E2]. destruct (P i j A B) as [E3 E4].
    destruct (He i j A B) as [R1 W1]. destruct (Hi i j A B) as [R2 W2]. unfold move_smart_f. cbn [el io]. rewrite E1, E3, smart_rest_f by auto.
    split; [reflexivity|]. destruct (u_ions s); [exact E2|]. rewrite E2, E4. now apply smart_rest_f.
  Qed.
  Notation grid_null := (grid_null K).
  Lemma inhom1_null_f d j : d j = 0 -> inhomogeneity1_f rnd K d j = 0.
  Proof.
    intros H. unfold inhomogeneity1_f. assert (N : nz (d j) = false) by (unfold nz; destruct (Req_EM_T (d j) 0); [reflexivity|contradiction]).
    destruct (Nat.eqb_spec j 0) as [->|]; [now rewrite N|]. destruct (Nat.eqb_spec j (K - 1)) as [->|]; [now rewrite N|now rewrite N].
  Qed.
  Lemma inhom_null_f a : grid_null a -> grid_null (inhomogeneity_f rnd K a).
  Proof. intros H i j A B. unfold inhomogeneity_f, ax1, ax0. rewrite !inhom1_null_f by now apply H. autorewrite with zr. reflexivity. Qed.
  Lemma kicked_null X coef damp dmax c cp cx cy i j : grid_null c -> grid_null cp -> (i < K)%nat -> (j < K)%nat -> kicked_f rnd K X coef damp dmax c cp cx cy 0 i j = 0.
  Proof.
    intros H H' A B. unfold kicked_f. rewrite (H i j), (H' i j) by auto. autorewrite with zr.
    assert (W : forall a b, (a < K)%nat -> (b < K)%nat -> c a b = 0) by (intros; now apply H).
    assert (P1 : forall b : bool, (if b then 0 else 0) = 0) by (intros []; reflexivity).
    destruct ((1 <=? i)%nat && (i <? K - 1)%nat); destruct (Nat.leb_spec 2 i); destruct (Nat.ltb_spec i K); try lia; cbn [andb];
      rewrite ?(W (i - 1)%nat j) by lia; autorewrite with zr;
      (destruct (Nat.ltb_spec i (K - 2)); rewrite ?(W (i + 1)%nat j) by lia; autorewrite with zr);
      (destruct ((1 <=? j)%nat && (j <? K - 1)%nat); destruct (Nat.leb_spec 2 j); destruct (Nat.ltb_spec j K); try lia; cbn [andb];
      rewrite ?(W i (j - 1)%nat) by lia; autorewrite with zr;
      (destruct (Nat.ltb_spec j (K - 2)); rewrite ?(W i (j + 1)%nat) by lia; autorewrite with zr)); reflexivity.
  Qed.
  Lemma filter_parts_f ps pp : same_parts ps -> same_parts pp ->
    same_parts (mkP3 (K_ ps) (noise_filter_f rnd tr (K_ ps) (u_xi s) (u_force s) (u_damp s) (u_limit s) (el ps) (el pp)) (io ps)).
  Proof.
    intros [HK H] [_ P]. split; [exact HK|]. intros i j A B. cbn [el io]. split; [|now apply H]. rewrite HK. unfold noise_filter_f.
    set (dx := inhomogeneity_f rnd K (fun i j => t_dx (el ps i j))). set (dy := inhomogeneity_f rnd K (fun i j => t_dy (el ps i j))).
    assert (DX : grid_null dx) by (apply inhom_null_f; intros a b Ha Hb; destruct (H a b Ha Hb) as [-> _]; now apply He).
    assert (DY : grid_null dy) by (apply inhom_null_f; intros a b Ha Hb; destruct (H a b Ha Hb) as [-> _]; now apply He).
    assert (CX : grid_null (fun i j => rnd (dx i j - tr_average tr dx i j))) by (intros a b Ha Hb; rewrite DX, (Hav dx DX) by auto; apply r_sub0).
    assert (CY : grid_null (fun i j => rnd (dy i j - tr_average tr dy i j))) by (intros a b Ha Hb; rewrite DY, (Hav dy DY) by auto; apply r_sub0).
    destruct (H i j A B) as [-> _]. destruct (He i j A B) as [((P1 & P2 & P3) & _) _]. rewrite P1, P2.
    rewrite !kicked_null; auto; try (intros a b Ha Hb; destruct (P a b Ha Hb) as [-> _]; now apply Hd).
    rewrite (CX i j A B), (CY i j A B). destruct (Hd i j A B) as (C1 & C2).
    destruct (e0 i j); cbn in *. now subst.
  Qed.
  Definition quiet_f (st : state3) : Prop := same_parts (fst (fst st)) /\ null_fields (snd (fst st)) /\ null_curs (sum_sorts_f rnd (snd st)) /\
    (snd st = zero_cur3 \/ snd st = rhoj (mkP3 K e0 i0)).
  Lemma quiet_step_f rf rp st : null rf -> null rp -> quiet_f st -> quiet_f (step_dxi3_f rnd tr mx s rf rp st).
  Proof.
    destruct st as [[pp fp] cp]. intros R1 R2 (P & F & C & _). cbn [fst snd] in P, F, C. unfold step_dxi3_f. change (compute_rhoj3_f rnd (Z.of_nat (u_n s)) (u_h s) (u_ions s)) with rhoj.
    set (p1 := move_smart_f rnd s fp pp (move_free_f rnd s pp)).
    assert (P1 : same_parts p1) by (apply smart_parts_f; auto; now apply free_parts_f).
    assert (J : forall ps, same_parts ps -> null_curs (sum_sorts_f rnd (rhoj ps))) by (intros ps Hps; rewrite rhoj_same_f by auto; exact Hc).
    set (fh1 := snd (compute_fields3_f _ _ _ _ _ _ _ _ _ _ _ _ (rhoj p1))).
    assert (N1 : null_fields fh1).
    { unfold fh1. pose proof (fields_null_f (u_n s) (u_h s) (u_xi s) (u_coeff s) fp fp rf rp cp (rhoj p1) F F R1 R2 (J _ P1) C) as G.
      destruct (compute_fields3_f _ _ _ _ _ _ _ _ _ _ _ _ _) as [a b]. apply G. }
    set (p2 := move_smart_f rnd s fh1 pp p1). assert (P2 : same_parts p2) by now apply smart_parts_f.
    pose proof (fields_null_f (u_n s) (u_h s) (u_xi s) (u_coeff s) fh1 fp rf rp cp (rhoj p2) N1 F R1 R2 (J _ P2) C) as G.
    destruct (compute_fields3_f _ _ _ _ _ _ _ _ _ _ _ _ (rhoj p2)) as [ff fh2]. destruct G as [N2 N3].
    set (p3 := move_smart_f rnd s fh2 pp p2). assert (P3 : same_parts p3) by now apply smart_parts_f.
    set (p4 := if u_decl s then mkP3 (K_ p3) (noise_filter_f rnd tr (K_ p3) (u_xi s) (u_force s) (u_damp s) (u_limit s) (el p3) (el pp)) (io p3) else p3). assert (P4 : same_parts p4) by (unfold p4; destruct (u_decl s); [now apply filter_parts_f|exact P3]).
    split; [exact P4|]. split; [exact N2|]. cbn [snd]. split; [now apply J|]. right. now apply rhoj_same_f.
  Qed.
  Lemma quiet_run_f beams st : Forall (fun b => null (fst b) /\ null (snd b)) beams -> quiet_f st -> quiet_f (run3_f rnd tr mx s beams st).
  Proof.
    intros H. revert st. induction H as [|[rf rp] l [A B] _ IH]; intros st Q; [exact Q|]. cbn [run3_f]. apply IH. now apply quiet_step_f.
  Qed.
End R.

(** ** The initial state *)
Section Init.
  Variables (rnd : R -> R) (n : Z) (h : R) (K : nat) (x0 y0 q m : arr2) (mobile : bool) (ion_mass : R).
  Hypothesis Hr : rounding rnd.
  Let st := fst (init_plasma_f rnd n h K x0 y0 q m mobile ion_mass).
  Let im := snd (init_plasma_f rnd n h K x0 y0 q m mobile ion_mass).
  Let c := compute_rhoj3_f rnd n h im (fst (fst st)).
  Lemma ravel_forall2 (P : pt3 -> pt3 -> Prop) (a b : nat -> nat -> pt3) : (forall i j, P (a i j) (b i j)) -> Forall2 P (ravel K a) (ravel K b).
  Proof.
    intros H. unfold ravel. assert (R : forall i l, Forall2 P (map (fun j => a i j) l) (map (fun j => b i j) l)).
    { intros i l. induction l as [|j l IH]; cbn [map]; constructor; auto. }
    generalize (seq 0 K) at 2 4. induction l as [|i l IH]; cbn [flat_map]; [constructor|]. apply Forall2_app; auto.
  Qed.
  Lemma init_opp : opp_dens (r_e c) (r_i c).
  Proof.
    assert (Z : opp_dens zero_dens3 zero_dens3) by (repeat split; intros a b; cbn; unfold zero_grid; ring).
    unfold c, im, st, init_plasma_f. destruct mobile; cbn [fst snd]; unfold compute_rhoj3_f; cbn [r_e r_i K_ el io].
    - unfold deposit_plasma_f. apply deposit_plasma_opp; [exact Hr| |exact Z]. apply ravel_forall2. intros i j. repeat split.
    - set (e := ravel K _). assert (D : opp_dens (deposit_plasma_f rnd n h e) (deposit_plasma_f rnd n h (map (fun p => mkT (t_x0 p) (t_y0 p) (t_dx p) (t_dy p) (t_px p) (t_py p) (t_pz p) (- t_q p) (t_m p) (t_cx p) (t_cy p)) e))).
      { unfold deposit_plasma_f. apply deposit_plasma_opp; [exact Hr| |exact Z]. assert (E : Forall resting e).
        { unfold e. apply Forall_forall. intros p Hp. unfold ravel in Hp. apply in_flat_map in Hp. destruct Hp as (i & _ & Hp). apply in_map_iff in Hp. destruct Hp as (j & <- & _). repeat split. }
        clear - E. induction E as [|p l Hp _ IH]; cbn [map]; constructor; auto. repeat split; try apply Hp. }
      destruct D as (_ & J & _). split; [intros a b; reflexivity|]. split; [exact J|]. repeat split.
  Qed.
  Lemma init_curs_f : null_curs (sum_sorts_f rnd c).
  Proof.
    destruct init_opp as (A & (B1 & B2 & B3) & (C1 & C2 & C3)).
    split; [|split; [|split]]; intros i j; unfold sum_sorts_f, to_arr2; cbn [s_ro s_jx s_jy s_jz]; rewrite ?A, ?B1, ?B2, ?B3, ?C1, ?C2, ?C3.
    - rewrite Rplus_opp_r. apply Hr.
    - rewrite Rplus_0_r. apply Hr.
    - rewrite Rplus_0_r. apply Hr.
    - rewrite Rplus_0_r. apply Hr.
  Qed.
End Init.
