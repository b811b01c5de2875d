(** Lemmas for C70: the 2D plasma layer with rounded arithmetic. *)
From Coq Require Import Reals ZArith List Bool Lra Lia.
From Verif Require Import Beam2D_Model Plasma2D_Model Rounded3D_Model Rounded3D_Proofs Rounded2D_Model.
Import ListNotations.
Open Scope R_scope.

Definition null1 (a : arr) : Prop := forall i, a i = 0.
(** the particle without its age *)
Definition ageless (p : pl2) : pl2 := mkPl (r_ p) (pr_ p) (pf_ p) (pz_ p) (q_ p) (m_ p) 0.
Lemma ageless_inv p p' : ageless p = ageless p' -> r_ p = r_ p' /\ pr_ p = pr_ p' /\ pf_ p = pf_ p' /\ pz_ p = pz_ p' /\ q_ p = q_ p' /\ m_ p = m_ p'.
Proof. unfold ageless. intros H. injection H. intros. now repeat split. Qed.

Section R.
  Variable rnd : R -> R.
  Hypothesis Hr : rounding rnd.
  Local Notation r0' := (r0 rnd Hr).
  Lemma z_0 : rnd 0 = 0. Proof. apply Hr. Qed.
  Lemma z_add : rnd (0 + 0) = 0. Proof. rewrite Rplus_0_r. apply Hr. Qed.
  Lemma z_sub : rnd (0 - 0) = 0. Proof. rewrite Rminus_0_r. apply Hr. Qed.
  Lemma z_mul x : rnd (0 * x) = 0. Proof. rewrite Rmult_0_l. apply Hr. Qed.
  Lemma z_mulr x : rnd (x * 0) = 0. Proof. rewrite Rmult_0_r. apply Hr. Qed.
  Lemma z_div x : rnd (0 / x) = 0. Proof. unfold Rdiv. rewrite Rmult_0_l. apply Hr. Qed.
  Lemma z_diag x : rnd (x - x) = 0. Proof. rewrite Rminus_diag_eq by reflexivity. apply Hr. Qed.
  Hint Rewrite z_0 z_add z_sub z_mul z_mulr z_div Ropp_0 : zr.
  Ltac zr := autorewrite with zr.

  (** *** Fields of null sources *)
  Lemma fwd_null y h i : null1 y -> cumtrapz_fwd_f rnd y h i = 0.
  Proof. intros H. induction i as [|i IH]; [reflexivity|]. cbn [cumtrapz_fwd_f]. rewrite IH, !H. zr. reflexivity. Qed.
  Lemma bwd_null n y h : null1 y -> null1 (cumtrapz_bwd_f rnd n y h).
  Proof. intros H i. unfold cumtrapz_bwd_f. induction (n - 1 - i)%nat as [|k IH]; [reflexivity|]. cbn [cumtrapz_bwd_from_f]. rewrite IH, !H. zr. reflexivity. Qed.
  Lemma sweep_null f k h i : null1 f -> snd (sweep_f rnd f k h i) = 0.
  Proof.
    intros H. induction i as [|i IH]; [reflexivity|]. cbn [sweep_f]. destruct (sweep_f rnd f k h i) as [a b]. cbn [snd] in *. rewrite IH, H. zr. reflexivity.
  Qed.
  Lemma solve_null n f k h bs : null1 f -> null1 (tridiagonal_solve_f rnd n f k h bs).
  Proof.
    intros H i. unfold tridiagonal_solve_f. set (nr := (n - 1)%nat). induction (nr - i)%nat as [|j IH]; cbn [back_from_f].
    - assert (S := sweep_null f k h (nr - 1) H). destruct (sweep_f rnd f k h (nr - 1)) as [a b]. cbn [snd] in S. rewrite S, H. zr. reflexivity.
    - assert (SN := sweep_null f k h (nr - S j) H). destruct (sweep_f rnd f k h (nr - S j)) as [a b]. cbn [snd] in SN. rewrite SN, IH. zr. reflexivity.
  Qed.
  Lemma sum1_null n f : null1 f -> sum_f rnd n f = 0.
  Proof. intros H. induction n as [|n IH]; [reflexivity|]. cbn [sum_f]. rewrite IH, H. zr. reflexivity. Qed.
  Definition null_f2 (f : fields2) : Prop := null1 (f_er f) /\ null1 (f_ef f) /\ null1 (f_ez f) /\ null1 (f_bf f) /\ null1 (f_bz f).
  Definition neutral (c : currents2) : Prop := null1 (total_f rnd c d_rho) /\ null1 (total_f rnd c d_jr) /\ null1 (total_f rnd c d_jf) /\ null1 (total_f rnd c d_jz).
  Lemma avg_null a b : null1 a -> null1 b -> null1 (avg_f rnd a b).
  Proof. intros A B i. unfold avg_f. rewrite A, B. zr. reflexivity. Qed.
  Lemma avg_fields_null a b : null_f2 a -> null_f2 b -> null_f2 (avg_fields_f rnd a b).
  Proof. intros (A1 & A2 & A3 & A4 & A5) (B1 & B2 & B3 & B4 & B5). repeat split; cbn; now apply avg_null. Qed.
  Lemma fields_null n h fn f rb cp cn X : null_f2 fn -> null_f2 f -> null1 rb -> neutral cp -> neutral cn ->
    null_f2 (fst (compute_fields_f rnd n h fn f rb cp cn X)) /\ null_f2 (snd (compute_fields_f rnd n h fn f rb cp cn X)).
  Proof.
    intros Hn Hf Hb (P1 & P2 & P3 & P4) (C1 & C2 & C3 & C4). destruct (avg_fields_null fn f Hn Hf) as (A1 & A2 & A3 & A4 & A5).
    assert (N : null_f2 (fst (compute_fields_f rnd n h fn f rb cp cn X))).
    { unfold compute_fields_f. cbn [fst].
      match goal with |- null_f2 (mkF2 ?e _ _ _ _) => assert (E : null1 e) end.
      { unfold compute_e_r_f. apply solve_null. intros i. destruct (i =? 0)%nat; [reflexivity|]. destruct (i =? n - 1)%nat; rewrite ?C1, ?C2, ?P2, ?A1, ?Hb; zr; reflexivity. }
      split; [exact E|]. split; [|split; [|split]]; cbn [f_ef f_ez f_bf f_bz].
      - unfold compute_e_phi_f. apply solve_null. intros i. destruct (i =? 0)%nat; [reflexivity|]. destruct (i =? n - 1)%nat; rewrite ?C3, ?P3, ?A2; zr; reflexivity.
      - now apply bwd_null.
      - intros i. unfold compute_b_phi_f. rewrite E. rewrite fwd_null by (intros j; rewrite C1, C4; zr; reflexivity). destruct (i =? 0)%nat; zr; reflexivity.
      - assert (B : null1 (cumtrapz_bwd_f rnd n (fun i => - total_f rnd cn d_jf i) h)) by (apply bwd_null; intros j; rewrite C3; apply Ropp_0).
        intros i. unfold compute_b_z_f. rewrite B. rewrite sum1_null by (intros j; rewrite B; zr; reflexivity). zr. reflexivity. }
    split; [exact N|]. unfold compute_fields_f in *. cbn [fst snd] in *. now apply avg_fields_null.
  Qed.

  (** *** Deposits: opposite charges give opposite densities, particles at rest give no currents *)
  Definition opp1 (a b : arr) : Prop := forall i, b i = - a i.
  Definition opp_d (o o' : dens) : Prop := opp1 (d_rho o) (d_rho o') /\ (null1 (d_jr o) /\ null1 (d_jf o) /\ null1 (d_jz o)) /\ (null1 (d_jr o') /\ null1 (d_jf o') /\ null1 (d_jz o')).
  Definition at_rest (p : pl2) : Prop := pr_ p = 0 /\ pf_ p = 0 /\ pz_ p = 0.
  (** same place, opposite charge, both at rest, and charge / gamma_m * gamma_m is opposite too (the masses differ) *)
  Definition share (p : pl2) : R := rnd (rnd (q_ p / rnd (sq4_f rnd (m_ p) 0 0 0 - 0)) * sq4_f rnd (m_ p) 0 0 0).
  Definition opposite2 (p p' : pl2) : Prop := r_ p' = r_ p /\ at_rest p /\ at_rest p' /\ share p' = - share p.
  Lemma add4_opp o o' i w sg d : opp_d o o' -> opp_d (add4_f rnd o i w sg d 0 0 0) (add4_f rnd o' i w sg (- d) 0 0 0).
  Proof.
    intros (A & (B1 & B2 & B3) & (C1 & C2 & C3)). unfold add4_f. split; [|split; (split; [|split])]; cbn; intros k; unfold add_at_f; zr; rewrite ?B1, ?B2, ?B3, ?C1, ?C2, ?C3, ?Rmult_0_r; zr; try (destruct (k =? i)%nat; reflexivity).
    rewrite A. destruct (k =? i)%nat; [|reflexivity]. destruct Hr as (_ & O & _). rewrite <- O. replace (- d * w) with (- (d * w)) by ring. rewrite O. f_equal. ring.
  Qed.
  Lemma fold_opp2 (X : Type) (f f' : dens -> X -> dens) l o o' : (forall o o' x, opp_d o o' -> opp_d (f o x) (f' o' x)) -> opp_d o o' ->
    opp_d (fold_left f l o) (fold_left f' l o').
  Proof. intros Hf. revert o o'. induction l as [|x l IH]; intros o o' H; [exact H|]. cbn [fold_left]. apply IH, Hf, H. Qed.
  Lemma particle_opp h n o o' p p' : opp_d o o' -> opposite2 p p' -> opp_d (deposit_particle_f rnd h n o p) (deposit_particle_f rnd h n o' p').
  Proof.
    intros Ho (E & (P1 & P2 & P3) & (Q1 & Q2 & Q3) & S). unfold deposit_particle_f. rewrite E, P1, P2, P3, Q1, Q2, Q3. zr. fold (share p) (share p'). rewrite S.
    apply fold_opp2; [|destruct (_ =? 0)%Z; [now apply add4_opp|exact Ho]]. intros a b x H. now apply add4_opp.
  Qed.
  Lemma list_opp h n l l' : Forall2 opposite2 l l' -> forall o o', opp_d o o' -> opp_d (fold_left (deposit_particle_f rnd h n) l o) (fold_left (deposit_particle_f rnd h n) l' o').
  Proof. induction 1 as [|p p' l l' Hp _ IH]; intros o o' H; [exact H|]. cbn [fold_left]. apply IH. now apply particle_opp. Qed.
  Lemma deposit2_opp h n v l l' : Forall2 opposite2 l l' -> opp_d (per_volume_f rnd v (deposit2_f rnd h n l)) (per_volume_f rnd v (deposit2_f rnd h n l')).
  Proof.
    intros H. assert (Z : opp_d zero_dens zero_dens) by (repeat split; intros k; cbn; unfold zeros; try ring; reflexivity).
    destruct (list_opp h n l l' H _ _ Z) as (A & (B1 & B2 & B3) & (C1 & C2 & C3)). unfold deposit2_f, close_ends, per_volume_f.
    split; [|split; (split; [|split])]; cbn; intros k.
    - rewrite A. destruct Hr as (_ & O & _). rewrite <- O. f_equal. unfold Rdiv. ring.
    - unfold set_at. destruct (k =? n - 1)%nat; zr; [reflexivity|]. destruct (k =? 0)%nat; rewrite ?B1; zr; reflexivity.
    - unfold set_at. destruct (k =? n - 1)%nat; zr; [reflexivity|]. destruct (k =? 0)%nat; rewrite ?B2; zr; reflexivity.
    - unfold set_at. destruct (k =? n - 1)%nat; rewrite ?B3; zr; reflexivity.
    - unfold set_at. destruct (k =? n - 1)%nat; zr; [reflexivity|]. destruct (k =? 0)%nat; rewrite ?C1; zr; reflexivity.
    - unfold set_at. destruct (k =? n - 1)%nat; zr; [reflexivity|]. destruct (k =? 0)%nat; rewrite ?C2; zr; reflexivity.
    - unfold set_at. destruct (k =? n - 1)%nat; rewrite ?C3; zr; reflexivity.
  Qed.
  Lemma opp_neutral a b : opp_d a b -> neutral (mkJ a b).
  Proof.
    intros (A & (B1 & B2 & B3) & (C1 & C2 & C3)). repeat split; intros i; unfold total_f; cbn [row_e row_i]; rewrite ?A, ?B1, ?B2, ?B3, ?C1, ?C2, ?C3; zr; try reflexivity.
    rewrite Rplus_opp_r. apply Hr.
  Qed.
  Lemma deposit_ageless h n l l' : map ageless l = map ageless l' -> deposit2_f rnd h n l = deposit2_f rnd h n l'.
  Proof.
    intros H. unfold deposit2_f. f_equal. generalize zero_dens. revert l' H. induction l as [|p l IH]; intros [|p' l'] H o; try discriminate; [reflexivity|].
    cbn [map] in H. injection H as H0 H1. intros. cbn [fold_left]. replace (deposit_particle_f rnd h n o p') with (deposit_particle_f rnd h n o p); [apply IH; assumption|].
    unfold deposit_particle_f. rewrite H0. subst. reflexivity || (repeat match goal with E : _ = _ |- _ => rewrite E; clear E end; reflexivity).
  Qed.

  (** *** A particle at rest in zero fields stays *)
  Definition resting2 (c : pcfg2) (p : pl2) : Prop := at_rest p /\ 0 <= r_ p <= g_rmax c /\ rnd (r_ p) = r_ p /\ rnd (sqrt (rnd (r_ p * r_ p))) = r_ p /\
    sq4_f rnd (m_ p) 0 0 0 <> 0.
  Definition no_force2 (f : fields2) : Prop := null1 (f_er f) /\ null1 (f_ef f) /\ null1 (f_ez f) /\ null1 (f_bf f).
  Lemma at_null c f r : no_force2 f -> exists b, fields_at_f rnd c f zeros r = (0, 0, 0, 0, b).
  Proof.
    intros (H1 & H2 & H3 & H4). unfold fields_at_f. set (cell := cell2_f rnd (g_h c) r). set (x := rnd (rnd (r / g_h c) - IZR cell)).
    assert (N : noise_at_f rnd (g_n c) zeros cell x (g_h c) = 0).
    { unfold noise_at_f, zeros. destruct (_ <=? _)%Z; [reflexivity|]. destruct (_ =? _)%Z; [reflexivity|]. destruct (Req_EM_T 0 0); [reflexivity|contradiction]. }
    rewrite N. unfold interpolate2_f. destruct (_ <=? _)%Z; [exists 0; zr; reflexivity|]. destruct (cell =? 0)%Z; eexists; rewrite ?H1, ?H2, ?H3, ?H4; zr; reflexivity.
  Qed.
  Lemma kick_null q b dl gm : kick_f rnd q (0, 0, 0, 0, b) dl gm 0 0 0 = (0, 0, 0).
  Proof. unfold kick_f. zr. reflexivity. Qed.
  Lemma one_rest c f X p : no_force2 f -> resting2 c p -> exists p', move_one2_f rnd c f zeros X p = (p', 0) /\ ageless p' = ageless p.
  Proof.
    intros Hf ((P1 & P2 & P3) & Hp & G1 & G2 & G3). unfold move_one2_f. rewrite P1, P2, P3. destruct (Req_EM_T (sq4_f rnd (m_ p) 0 0 0) 0) as [E|_]; [contradiction|]. zr.
    rewrite Rplus_0_r, G1. assert (B : beyond (g_rmax c) (r_ p) = false) by (unfold beyond; destruct (Rlt_dec _ _); [reflexivity|]; destruct (Rlt_dec _ _); [lra|reflexivity]).
    assert (F : fold_r_f rnd (g_rmax c) (r_ p) = r_ p) by (unfold fold_r_f; destruct (Rlt_dec _ _); [lra|]; destruct (Rlt_dec _ _); [lra|reflexivity]).
    assert (O : outside (g_rmax c) (r_ p) = false) by (unfold outside; destruct (Rlt_dec _ _); [lra|]; destruct (Rlt_dec _ _); [lra|reflexivity]).
    rewrite B, F, O. destruct (at_null c f (r_ p) Hf) as [b ->]. unfold push_half_f. rewrite kick_null. zr. destruct (Req_EM_T (sq4_f rnd (m_ p) 0 0 0) 0) as [E|_]; [contradiction|].
    rewrite kick_null. unfold finish_f. zr. rewrite Rplus_0_r, G1. unfold f2. zr. rewrite Rplus_0_r. destruct Hr as (_ & _ & I). rewrite I, G2, B, F, O.
    rewrite z_diag. rewrite Rabs_R0, !(Rmax_left 0 0) by lra. destruct (Rlt_dec (r_ p) 0); [lra|]. eexists. split; [reflexivity|]. unfold ageless. cbn.
    rewrite P1, P2, P3. destruct (Req_EM_T (r_ p) 0); zr; reflexivity.
  Qed.
  Lemma ageless_resting c p p' : ageless p' = ageless p -> resting2 c p -> resting2 c p'.
  Proof.
    intros H. apply ageless_inv in H. destruct H as (E1 & E2 & E3 & E4 & E5 & E6). unfold resting2, at_rest. rewrite E1, E2, E3, E4, E6. exact (fun H => H).
  Qed.
  Lemma sub_rest fuel c f X p : no_force2 f -> 0 < g_h c -> rnd X = X -> rnd (rnd 0.99999 * X) < X -> resting2 c p -> (1 <= fuel)%nat ->
    exists p', sub_loop_f rnd fuel (move_one2_f rnd c f zeros) (g_h c) X p 0 X = Some p' /\ ageless p' = ageless p.
  Proof.
    intros Hf Hh HX HX' Hp Hfu. destruct fuel as [|fuel]; [lia|]. cbn [sub_loop_f]. destruct (Rle_dec 0 _); [|exists p; split; reflexivity].
    destruct (Req_EM_T (q_ p) 0); [exists p; split; reflexivity|]. destruct (one_rest c f X p Hf Hp) as (p' & -> & E). destruct (Rle_dec (g_h c) 0); [lra|].
    rewrite Rplus_0_l, HX. exists p'. split; [|exact E]. destruct fuel; cbn [sub_loop_f]; (destruct (Rle_dec X _); [lra|reflexivity]).
  Qed.
  Lemma list_rest fuel c f X l : no_force2 f -> 0 < g_h c -> rnd X = X -> rnd (rnd 0.99999 * X) < X -> Forall (resting2 c) l -> (1 <= fuel)%nat ->
    exists l', move_list_f rnd fuel c f zeros X l = Some l' /\ map ageless l' = map ageless l.
  Proof.
    intros Hf Hh HX HX' Hl Hfu. unfold move_list_f. assert (Hf' : no_force2 (add_bz_f rnd c f)) by exact Hf.
    induction Hl as [|p l Hp _ IH]; [exists []; split; reflexivity|]. cbn [map_opt]. destruct (sub_rest fuel c _ X p Hf' Hh HX HX' Hp Hfu) as (p' & -> & E).
    destruct IH as (l' & IH & El). cbn [bind]. rewrite IH. cbn [bind]. exists (p' :: l'). split; [reflexivity|]. cbn [map]. now rewrite E, El.
  Qed.
  Definition same_ps (ps ps' : particles2) : Prop := map ageless (electrons ps') = map ageless (electrons ps) /\ map ageless (ion_list ps') = map ageless (ion_list ps).
  Definition all_rest (c : pcfg2) (ps : particles2) : Prop := Forall (resting2 c) (electrons ps) /\ Forall (resting2 c) (ion_list ps).
  Lemma move_rest fuel c f X ps : no_force2 f -> 0 < g_h c -> rnd X = X -> rnd (rnd 0.99999 * X) < X -> all_rest c ps -> (1 <= fuel)%nat ->
    exists ps', move_particles2_f rnd fuel c f zeros X ps = Some ps' /\ same_ps ps ps'.
  Proof.
    intros Hf Hh HX HX' [He Hi] Hfu. unfold move_particles2_f. destruct (list_rest fuel c f X _ Hf Hh HX HX' He Hfu) as (l & -> & El).
    destruct (list_rest fuel c f X _ Hf Hh HX HX' Hi Hfu) as (l' & E & El'). cbn [bind]. rewrite E. cbn [bind]. eexists. split; [reflexivity|]. split; assumption.
  Qed.
  Lemma rhoj_same h ppc n im ps ps' : same_ps ps ps' -> compute_rhoj_f rnd h ppc n im ps' = compute_rhoj_f rnd h ppc n im ps.
  Proof. intros [A B]. unfold compute_rhoj_f. rewrite (deposit_ageless h n _ _ A). destruct im; [reflexivity|]. now rewrite (deposit_ageless h n _ _ B). Qed.

  (** *** The layer *)
  Variables (s : solver2) (rb : arr) (fuel : nat) (ps0 : particles2).
  Let J := compute_rhoj_f rnd (g_h (v_c s)) (v_ppc s) (g_n (v_c s)) (v_ions s).
  Hypothesis Hfu : (1 <= fuel)%nat.
  Hypothesis Hh : 0 < g_h (v_c s).
  Hypothesis HX : rnd (v_xi s) = v_xi s.
  Hypothesis HX' : rnd (rnd 0.99999 * v_xi s) < v_xi s.
  Hypothesis Hsens : 0 <= v_sens s.
  Hypothesis Hpl : v_path_lim s = 0.
  Hypothesis Hnoise : v_noise s = false.
  Hypothesis Hb : null1 rb.
  Hypothesis Hps : all_rest (v_c s) ps0.
  Hypothesis HJ : neutral (J ps0).
  Hypothesis HJz : null1 (d_jz (row_e (J ps0))) /\ null1 (d_jz (row_i (J ps0))).
  Definition quiet2 (st : pstate) : Prop := let '(ps, f, c) := st in same_ps ps0 ps /\ null_f2 f /\ neutral c.
  Lemma same_rest ps : same_ps ps0 ps -> all_rest (v_c s) ps.
  Proof.
    intros [A B]. destruct Hps as [C D].
    assert (G : forall l l', map ageless l' = map ageless l -> Forall (resting2 (v_c s)) l -> Forall (resting2 (v_c s)) l').
    { induction l as [|p l IH]; intros [|p' l'] E F; try discriminate; constructor; cbn [map] in E; injection E as E1 E2; intros; inversion F; subst.
      - eapply ageless_resting; [|eassumption]. unfold ageless. congruence.
      - now apply IH. }
    split; eapply G; eauto.
  Qed.
  Lemma same_trans ps ps' : same_ps ps0 ps -> same_ps ps ps' -> same_ps ps0 ps'.
  Proof. intros [A B] [C D]. split; congruence. Qed.
  Lemma noise_null c : noise_amplitude_f rnd (g_n (v_c s)) c (v_noise s) = zeros.
  Proof. unfold noise_amplitude_f. rewrite Hnoise. reflexivity. Qed.
  Lemma null_force f : null_f2 f -> no_force2 f. Proof. intros (A & B & C & D & E). now repeat split. Qed.
  Lemma predict_quiet st : quiet2 st -> exists ps', predict_f rnd fuel s (v_xi s) st = Some (ps', J ps0) /\ same_ps ps0 ps'.
  Proof.
    destruct st as [[ps f] c]. intros (A & B & C). unfold predict_f. rewrite noise_null.
    destruct (move_rest fuel (v_c s) f (v_xi s) ps (null_force f B) Hh HX HX' (same_rest ps A) Hfu) as (ps' & -> & E). cbn [option_map].
    exists ps'. assert (F := same_trans _ _ A E). split; [|exact F]. f_equal. f_equal. unfold J. now apply rhoj_same.
  Qed.
  Lemma correct_quiet k st new : quiet2 st -> same_ps ps0 (fst (fst new)) -> null_f2 (snd (fst new)) -> snd new = J ps0 ->
    exists new', correct_f rnd fuel s rb (v_xi s) k st new = Some new' /\ same_ps ps0 (fst (fst new')) /\ null_f2 (snd (fst new')) /\ snd new' = J ps0.
  Proof.
    destruct st as [[ps f] c]. intros (A & B & C). revert new. induction k as [|k IH]; intros [[pn fn] cn] P F E; [eexists; split; [reflexivity|auto]|]. cbn [fst snd] in P, F, E.
    cbn [correct_f]. assert (N := fields_null (g_n (v_c s)) (g_h (v_c s)) fn f rb c cn (v_xi s) F B Hb C). rewrite E in N. specialize (N HJ). rewrite E.
    destruct (compute_fields_f rnd _ _ fn f rb c (J ps0) (v_xi s)) as [fn' fa]. cbn [fst snd] in N. destruct N as [N1 N2]. rewrite noise_null.
    destruct (move_rest fuel (v_c s) fa (v_xi s) ps (null_force fa N2) Hh HX HX' (same_rest ps A) Hfu) as (ps' & -> & S). cbn [bind].
    assert (S' := same_trans _ _ A S). apply IH; cbn [fst snd]; auto. unfold J. now apply rhoj_same.
  Qed.
  Lemma max_null n f : null1 f -> max_upto n f = 0.
  Proof. intros H. induction n as [|n IH]; [reflexivity|]. cbn [max_upto]. rewrite IH, H. apply Rmax_left. lra. Qed.
  Lemma layer_quiet st : quiet2 st -> exists st', step_dxi2_f rnd fuel s rb st = Some st' /\ quiet2 st' /\ snd st' = J ps0.
  Proof.
    intros Q. unfold step_dxi2_f. destruct (Req_EM_T (v_path_lim s) 0); [|contradiction]. assert (L : forall F, (1 <= F)%nat -> exists st', step_loop_f rnd pstate (need2_f rnd fuel s) (adv2_f rnd fuel s rb) (v_depth s) F 0 (fun _ => 0%Z) (v_xi s) st = Some st' /\ quiet2 st' /\ snd st' = J ps0); [|now apply L].
    intros [|fu] HF; [lia|]. cbn [step_loop_f]. destruct (predict_quiet st Q) as (ps' & P & S).
    assert (N : need2_f rnd fuel s (v_xi s) st = Some false).
    { unfold need2_f. rewrite P. cbn [option_map snd]. unfold charge_move_f. destruct HJz as [Z1 Z2].
      rewrite !max_null by (intros i; rewrite ?Z1, ?Z2; zr; apply Rabs_R0). rewrite Rmax_left by lra. destruct (Rlt_dec (v_sens s) 0); [lra|reflexivity]. }
    rewrite N. cbn [bind andb].
    assert (A : exists st', adv2_f rnd fuel s rb (v_xi s) st = Some st' /\ same_ps ps0 (fst (fst st')) /\ null_f2 (snd (fst st')) /\ snd st' = J ps0).
    { destruct st as [[ps f] c]. unfold adv2_f. rewrite P. cbn [bind fst snd]. apply correct_quiet; cbn [fst snd]; auto. destruct Q as (_ & F & _). exact F. }
    destruct A as ([[pf ff] cf] & -> & A1 & A2 & A3). cbn [bind fst snd unwind_f Nat.eqb] in *. eexists. split; [reflexivity|]. split; [|exact A3].
    split; [exact A1|]. split; [exact A2|]. rewrite A3. exact HJ.
  Qed.
End R.
