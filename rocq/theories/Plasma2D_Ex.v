(** Corollaries and concrete instances for Props_Plasma2D. *)
From Coq Require Import Reals ZArith List Bool Lra Lia Psatz.
From Verif Require Import Beam2D_Model Beam2D_Spec Beam2D_Free Beam2D_Push Beam2D_Total Beam2D_Ex Plasma2D_Model Plasma2D_Spec Plasma2D_Ode Plasma2D_Dep Plasma2D_Move Plasma2D_Init Plasma2D_Dens.
Import ListNotations.
Open Scope R_scope.

(** ** C25 *)
Lemma rhoj_nodes h ppc n l i : 0 < h -> (2 <= n)%nat -> (forall p, In p l -> inside2 h n p) -> (i < n)%nat ->
  let v := cell_volume h ppc n in let d := per_volume v (deposit2 h n l) in
  v i * d_rho d i = sumR (map (fun p => qs_charge p * node_share n 1 (r_ p / h) i) l) /\
  v i * d_jz d i = (if (i =? n - 1)%nat then 0 else sumR (map (fun p => qs_jz p * node_share n 1 (r_ p / h) i) l)) /\
  v i * d_jr d i = (if (i =? 0)%nat || (i =? n - 1)%nat then 0 else sumR (map (fun p => q_ p * pr_ p / (gm_of p - pz_ p) * node_share n (-1) (r_ p / h) i) l)) /\
  v i * d_jf d i = (if (i =? 0)%nat || (i =? n - 1)%nat then 0 else sumR (map (fun p => q_ p * pf_ p / (gm_of p - pz_ p) * node_share n (-1) (r_ p / h) i) l)).
Proof.
  intros Hh Hn Hin Hi v d. subst d. pose proof (volume_pos h ppc n i Hh Hn Hi) as Hv. fold v in Hv.
  destruct (deposit_all h n l zero_dens i Hh Hn Hin Hi) as (A & B & C & D). cbn zeta in *. unfold zero_dens, zeros in A, B, C, D. cbn [d_rho d_jr d_jf d_jz] in A, B, C, D.
  assert (V : forall x, v i * (x / v i) = x) by (intros; field; lra).
  unfold per_volume, deposit2, close_ends, zero_dens, zeros. cbn [d_rho d_jr d_jf d_jz]. rewrite !V. unfold set_at.
  repeat split.
  - rewrite A, Rplus_0_l. apply sumR_ext. intros p _. unfold qs_charge, dep_of, Rdiv. ring.
  - destruct (i =? n - 1)%nat; [reflexivity|]. rewrite B, Rplus_0_l. apply sumR_ext. intros p _. unfold qs_jz, dep_of, Rdiv. ring.
  - destruct (i =? n - 1)%nat; [now rewrite orb_true_r|]. rewrite orb_false_r. destruct (i =? 0)%nat; [reflexivity|]. rewrite C, Rplus_0_l. apply sumR_ext. intros p _. unfold dep_of, Rdiv. ring.
  - destruct (i =? n - 1)%nat; [now rewrite orb_true_r|]. rewrite orb_false_r. destruct (i =? 0)%nat; [reflexivity|]. rewrite D, Rplus_0_l. apply sumR_ext. intros p _. unfold dep_of, Rdiv. ring.
Qed.
Lemma rhoj_total h ppc n l : 0 < h -> (2 <= n)%nat -> (forall p, In p l -> inside2 h n p) ->
  let v := cell_volume h ppc n in grid_total n v (d_rho (per_volume v (deposit2 h n l))) = total_of qs_charge l.
Proof.
  intros Hh Hn Hin v. unfold grid_total.
  rewrite (sumN_ext n _ (fun i => sumR (map (fun p => qs_charge p * node_share n 1 (r_ p / h) i) l))).
  - rewrite (sumN_sumR n (fun p i => qs_charge p * node_share n 1 (r_ p / h) i)). apply sumR_ext. intros p Hp. rewrite sumN_scal, share_total; auto. ring.
  - intros i Hi. now destruct (rhoj_nodes h ppc n l i Hh Hn Hin Hi) as (A & _).
Qed.
Lemma far_share h n p : 0 < h -> (2 <= n)%nat -> 0 <= r_ p -> r_ p / h < INR n - 5 / 2 -> node_share n 1 (r_ p / h) (n - 1) = 0.
Proof.
  intros Hh Hn H0 H. unfold node_share. assert (0 <= r_ p / h) by (apply Rmult_le_pos; [auto|apply Rlt_le, Rinv_0_lt_compat; auto]).
  assert (N : INR (n - 1) = INR n - 1) by (rewrite minus_INR by lia; cbn; lra). rewrite N, Nat.eqb_refl.
  rewrite (sp_outI (r_ p / h - (INR n - 1))) by lra. rewrite (sp_outI (r_ p / h + (INR n - 1))) by lra. destruct (_ =? _)%nat; ring.
Qed.
Lemma rhoj_total_minus h ppc n l : 0 < h -> (2 <= n)%nat -> (forall p, In p l -> 0 <= r_ p /\ r_ p / h < INR n - 5 / 2 /\ m_ p <> 0) ->
  let v := cell_volume h ppc n in let d := per_volume v (deposit2 h n l) in
  grid_total n v (fun i => d_rho d i - d_jz d i) = total_of q_ l.
Proof.
  intros Hh Hn Hin v d.
  assert (Hins : forall p, In p l -> inside2 h n p) by (intros p Hp; destruct (Hin p Hp) as (A & B & _); split; lra).
  unfold grid_total, total_of.
  rewrite (sumN_ext n _ (fun i => sumR (map (fun p => q_ p * node_share n 1 (r_ p / h) i) l))).
  - rewrite (sumN_sumR n (fun p i => q_ p * node_share n 1 (r_ p / h) i)). apply sumR_ext. intros p Hp. rewrite sumN_scal, share_total; auto. ring.
  - intros i Hi. destruct (rhoj_nodes h ppc n l i Hh Hn Hins Hi) as (A & B & _). cbn zeta in *. fold v in A, B. fold d in A, B.
    rewrite Rmult_minus_distr_l, A, B.
    assert (J : (if (i =? n - 1)%nat then 0 else sumR (map (fun p => qs_jz p * node_share n 1 (r_ p / h) i) l)) = sumR (map (fun p => qs_jz p * node_share n 1 (r_ p / h) i) l)).
    { destruct (Nat.eqb_spec i (n - 1)) as [->|]; [|reflexivity]. rewrite (sumR_ext _ (fun _ => 0)); [clear; induction l; cbn; lra|].
      intros p Hp. destruct (Hin p Hp) as (X & Y & _). rewrite far_share by auto. ring. }
    rewrite J. clear J A B Hins. revert Hin. induction l as [|p l IH]; intros Hin; cbn [map sumR]; [lra|].
    rewrite <- IH by (intros q Hq; apply Hin; now right). destruct (Hin p (or_introl eq_refl)) as (_ & _ & Hm).
    replace (qs_charge p) with (q_ p + qs_jz p); [ring|]. unfold qs_charge, qs_jz. pose proof (gm_gt p Hm). field. lra.
Qed.
Lemma rhoj_outside h n l i : 0 < h -> (2 <= n)%nat -> (forall p, In p l -> inside2 h n p) -> (n <= i)%nat ->
  let d := deposit2 h n l in d_rho d i = 0 /\ d_jr d i = 0 /\ d_jf d i = 0 /\ d_jz d i = 0.
Proof.
  intros Hh Hn Hin Hi d. subst d. destruct (deposit_all_outside h n l zero_dens i Hh Hn Hin Hi) as (A & B & C & D). cbn zeta in *.
  unfold deposit2, close_ends, set_at. cbn [d_rho d_jr d_jf d_jz].
  replace (i =? n - 1)%nat with false by (symmetry; apply Nat.eqb_neq; lia). replace (i =? 0)%nat with false by (symmetry; apply Nat.eqb_neq; lia).
  rewrite A, B, C, D. repeat split; reflexivity.
Qed.

(** A window that ends 0.6 of a cell after the last node: the outermost particle of the initial
    plasma writes at index n. *)
Lemma overrun : exists p, In p (init_electrons 2.6 1 10 (fun _ => 1) 0) /\ d_rho (deposit2 1 3 [p]) 3%nat <> 0.
Proof.
  assert (F : floorR (2.6 / 1) = 2%Z) by (apply floor_unique; lra).
  assert (HP : 0 < PI) by apply PI_RGT_0.
  set (r := (INR 19 + 0.5) * (2.6 / INR 20)). assert (Hr : r = 2.535) by (unfold r; rewrite !INR_IZR_INZ; change (Z.of_nat 19) with 19%Z; change (Z.of_nat 20) with 20%Z; lra).
  set (p := mkPl r 0 0 0 (- (2 * PI * (2.6 / INR 20) * r) * 1) (2 * PI * (2.6 / INR 20) * r * 1) (if Rlt_dec 0 0 then 0 else 0)).
  exists p. assert (D20 : 2.6 / INR 20 = 0.13) by (rewrite INR_IZR_INZ; change (Z.of_nat 20) with 20%Z; lra).
  assert (Hq : q_ p < 0) by (unfold p; cbn [q_]; rewrite D20, Hr; nra).
  split.
  - unfold init_electrons, place_particles. rewrite F. change (Z.to_nat 2 * 10)%nat with 20%nat. apply filter_In. split.
    + rewrite map_map. apply in_map_iff. exists 19%nat. split; [reflexivity|]. apply in_seq. lia.
    + destruct (Req_EM_T (q_ p) 0); [lra|reflexivity].
  - assert (m : m_ p <> 0) by (unfold p; cbn [m_]; rewrite D20, Hr; nra).
    unfold deposit2, close_ends, set_at. cbn [d_rho fold_left]. unfold deposit_particle. fold (gm_of p). fold (dep_of p).
    rewrite (rest_charge p m eq_refl eq_refl eq_refl).
    assert (C : cell2 1 (r_ p) = 3%Z) by (apply floor_unique; cbn [r_ p]; rewrite Hr; lra). rewrite C.
    change (3 =? 0)%Z with false. cbn [fold_left]. change (3 =? Z.of_nat 3 - 1)%Z with false. cbn [andb].
    change (Z.to_nat (3 + -1)) with 2%nat. change (Z.to_nat (3 + 0)) with 3%nat. change (Z.to_nat (3 + 1)) with 4%nat.
    unfold add4, add_at, zero_dens, zeros. cbn [d_rho Nat.eqb weight_quadratic]. cbn [r_ p]. rewrite Hr. nra.
Qed.

(** ** Layers without a beam *)
Definition same_particle (p p' : pl2) : Prop :=
  r_ p' = r_ p /\ pr_ p' = pr_ p /\ pf_ p' = pf_ p /\ pz_ p' = pz_ p /\ q_ p' = q_ p /\ m_ p' = m_ p.
Lemma same_refl p : same_particle p p. Proof. repeat split. Qed.
Lemma same_trans a b d : same_particle a b -> same_particle b d -> same_particle a d.
Proof. intros (A1 & A2 & A3 & A4 & A5 & A6) (B1 & B2 & B3 & B4 & B5 & B6). repeat split; congruence. Qed.
Lemma older_same X l : Forall2 same_particle l (map (older X) l).
Proof. induction l as [|p l IH]; cbn [map]; constructor; auto. repeat split. Qed.
Definition unchanged (n : nat) (st st' : pstate) : Prop :=
  Forall2 same_particle (electrons (parts st)) (electrons (parts st')) /\
  Forall2 same_particle (ion_list (parts st)) (ion_list (parts st')) /\
  quiet_on n (snd (fst st')) /\ still n (snd st').
Lemma F2_refl {X} (P : X -> X -> Prop) : (forall x, P x x) -> forall l, Forall2 P l l.
Proof. intros H. induction l; constructor; auto. Qed.
Lemma run_calm fuel s rb k : grid_ok (v_c s) -> (1 <= fuel)%nat -> 0 < v_xi s -> 0 <= v_sens s -> v_path_lim s = 0 -> v_noise s = false ->
  (forall i, (i < g_n (v_c s))%nat -> rb i = 0) -> forall st, calm s st ->
  exists st', run_layers (step_dxi2 fuel s rb) k st = Some st' /\ unchanged (g_n (v_c s)) st st'.
Proof.
  intros Hgo Hfu HX Hs Hp Hn Hb. induction k as [|k IH]; intros st C; cbn [run_layers].
  - exists st. split; [reflexivity|]. destruct st as [[ps f] cur]. destruct C as (_ & Q & S & _).
    split; [apply F2_refl, same_refl|]. split; [apply F2_refl, same_refl|]. auto.
  - destruct (step_calm fuel s rb st Hgo Hfu HX Hs Hp Hn Hb C) as (f' & cur' & E & C' & _). rewrite E.
    destruct (IH _ C') as (st' & E' & (U1 & U2 & U3)). exists st'. split; [exact E'|]. cbn [parts fst snd older_all electrons ion_list] in *.
    split; [|split; [|exact U3]]; (eapply F2_trans; [apply same_trans|apply older_same|eassumption]).
Qed.
(** The solver that belongs to an initial plasma *)
Definition solver_of (w h : R) (ppc : nat) (im : ions) (bz xi sens : R) (depth corr : nat) (noise : bool) : solver2 :=
  mkS2 (mkC2 (S (Z.to_nat (floorR (w / h)))) h w bz) ppc im xi sens depth 0 noise corr.
Lemma calm_background w h ppc coef bz xi sens depth corr noise : 0 < h -> h <= w -> (1 <= ppc)%nat -> w / h - IZR (floorR (w / h)) < 1 / 2 ->
  let '(st, im) := init_background w h ppc coef 0 in calm (solver_of w h ppc im bz xi sens depth corr noise) st.
Proof.
  intros Hh Hw Hp Hf. destruct (neutral_background w h ppc coef 0 Hh Hw Hp Hf _ eq_refl) as [A B].
  destruct (init_background w h ppc coef 0) as [[[ps f] cur] im] eqn:E. cbn [fst snd parts] in A, B. unfold calm, solver_of. cbn [v_c g_n g_h v_ppc v_ions].
  unfold init_background in E. injection E as E1 E2 E3 E4. split; [|split; [|split; [exact B|exact A]]].
  - intros p H. subst ps. cbn [electrons ion_list] in H. destruct H as [H|[]]. apply in_electrons in H; auto. unfold resting. cbn [g_rmax]. repeat split; try tauto; lra.
  - subst f. intros i _. repeat split.
Qed.
Lemma calm_mobile w h ppc coef mass bz xi sens depth corr noise : 0 < h -> h <= w -> (1 <= ppc)%nat -> w / h - IZR (floorR (w / h)) < 1 / 2 -> mass <> 0 ->
  let '(st, im) := init_mobile w h ppc coef 0 mass in calm (solver_of w h ppc im bz xi sens depth corr noise) st.
Proof.
  intros Hh Hw Hp Hf Hm. destruct (neutral_mobile w h ppc coef 0 Hh Hw Hp Hf _ mass eq_refl Hm) as [A B].
  pose proof (ions_rest w h ppc coef 0 Hh Hw Hp Hf _ mass eq_refl Hm) as I.
  destruct (init_mobile w h ppc coef 0 mass) as [[[ps f] cur] im] eqn:E. cbn [fst snd parts] in A, B. unfold calm, solver_of. cbn [v_c g_n g_h v_ppc v_ions].
  unfold init_mobile in E. injection E as E1 E2 E3 E4. split; [|split; [|split; [exact B|exact A]]].
  - intros p H. subst ps. cbn [electrons ion_list] in H. destruct H as [H|H].
    + apply in_electrons in H; auto. unfold resting. cbn [g_rmax]. repeat split; try tauto; lra.
    + unfold resting. pose proof H as H'. apply (I p) in H'. destruct H' as (_ & Q). apply in_map_iff in H. destruct H as (e & <- & He). apply in_electrons in He; auto.
      cbn [g_rmax]. split; [tauto|]. split; [tauto|]. split; [tauto|]. split; [tauto|]. cbn [r_]. lra.
  - subst f. intros i _. repeat split.
Qed.

(** ** Three cells, two particles per cell: the density at the wall is not 1 *)
Lemma wall_density : d_rho (per_volume (cell_volume 1 2 4) (deposit2 1 4 (init_electrons (INR 3 * 1) 1 2 (fun _ => 1) 0))) 3%nat = - (82.5 / 83).
Proof.
  rewrite uniform_dens by (try lra; lia). pose proof PI_RGT_0.
  assert (E : sumN (3 * 2) (fun k => rho_k 2 k * node_share 4 1 (rho_k 2 k) 3) = 82.5 / 32).
  { assert (Sh : forall k, (k < 6)%nat -> node_share 4 1 (rho_k 2 k) 3 = spline2 (rho_k 2 k - 3)).
    { intros k Hk. unfold node_share. cbn [Nat.eqb Nat.sub INR]. replace (1 + 1 + 1) with 3 by lra.
      assert (0 < rho_k 2 k) by (apply (rho_k_range 3 2); lia). rewrite (sp_outI (rho_k 2 k + 3)) by lra. ring. }
    cbn [Nat.mul Nat.add sumN]. rewrite !Sh by lia. unfold rho_k. cbn [INR]. 
    rewrite (sp_outI ((0 + / 2) / (1 + 1) - 3)), (sp_outI ((1 + / 2) / (1 + 1) - 3)), (sp_outI ((1 + 1 + / 2) / (1 + 1) - 3)),
      (sp_neg ((1 + 1 + 1 + / 2) / (1 + 1) - 3)), (sp_neg ((1 + 1 + 1 + 1 + / 2) / (1 + 1) - 3)), (sp_midI ((1 + 1 + 1 + 1 + 1 + / 2) / (1 + 1) - 3)) by lra. lra. }
  cbn [Nat.mul Nat.add] in E |- *. rewrite E. unfold cell_volume. cbn [Nat.eqb Nat.sub INR]. 
  replace (82.5) with (825 / 10) by lra. field. lra.
Qed.

(** ** Declustering moves a resting plasma *)
Lemma dens_ne0 : d_rho (per_volume (cell_volume 1 1 4) (deposit2 1 4 (init_electrons (INR 3 * 1) 1 1 (fun _ => 1) 0))) 0%nat = - (16 / 15) /\
  d_rho (per_volume (cell_volume 1 1 4) (deposit2 1 4 (init_electrons (INR 3 * 1) 1 1 (fun _ => 1) 0))) 1%nat = - (192 / 195) /\
  d_rho (per_volume (cell_volume 1 1 4) (deposit2 1 4 (init_electrons (INR 3 * 1) 1 1 (fun _ => 1) 0))) 2%nat = -1.
Proof.
  pose proof PI_RGT_0. rewrite !uniform_dens by (try lra; lia).
  assert (R0 : rho_k 1 0 = 1 / 2) by (unfold rho_k; cbn; lra). assert (R1 : rho_k 1 1 = 3 / 2) by (unfold rho_k; cbn; lra). assert (R2 : rho_k 1 2 = 5 / 2) by (unfold rho_k; cbn; lra).
  assert (E : forall i, sumN (3 * 1) (fun k => rho_k 1 k * node_share 4 1 (rho_k 1 k) i) = 1 / 2 * node_share 4 1 (1 / 2) i + 3 / 2 * node_share 4 1 (3 / 2) i + 5 / 2 * node_share 4 1 (5 / 2) i).
  { intros i. cbn [Nat.mul Nat.add sumN]. rewrite R0, R1, R2. lra. }
  cbn [Nat.mul Nat.add] in E |- *. rewrite !E. unfold node_share. cbn [Nat.eqb Nat.sub INR]. unfold cell_volume. cbn [Nat.eqb Nat.sub INR].
  rewrite ?(sp_midI (1 / 2 - 0)), ?(sp_midI (1 / 2 - 1)), ?(sp_outI (1 / 2 + 1)), ?(sp_neg (1 / 2 - (1 + 1))), ?(sp_outI (1 / 2 + (1 + 1))),
    ?(sp_outI (1 / 2 - (2 * (1 + 1 + 1) - 0))), ?(sp_outI (1 / 2 - (2 * (1 + 1 + 1) - 1))), ?(sp_outI (1 / 2 - (2 * (1 + 1 + 1) - (1 + 1)))) by lra.
  rewrite ?(sp_pos (3 / 2 - 0)), ?(sp_midI (3 / 2 - 1)), ?(sp_outI (3 / 2 + 1)), ?(sp_midI (3 / 2 - (1 + 1))), ?(sp_outI (3 / 2 + (1 + 1))),
    ?(sp_outI (3 / 2 - (2 * (1 + 1 + 1) - 0))), ?(sp_outI (3 / 2 - (2 * (1 + 1 + 1) - 1))), ?(sp_outI (3 / 2 - (2 * (1 + 1 + 1) - (1 + 1)))) by lra.
  rewrite ?(sp_outI (5 / 2 - 0)), ?(sp_pos (5 / 2 - 1)), ?(sp_outI (5 / 2 + 1)), ?(sp_midI (5 / 2 - (1 + 1))), ?(sp_outI (5 / 2 + (1 + 1))),
    ?(sp_outI (5 / 2 - (2 * (1 + 1 + 1) - 0))), ?(sp_outI (5 / 2 - (2 * (1 + 1 + 1) - 1))), ?(sp_neg (5 / 2 - (2 * (1 + 1 + 1) - (1 + 1)))) by lra.
  repeat split; field; lra.
Qed.
(** a resting particle under a radial force, staying inside *)
Lemma pushed c f amp X p ex bz : 0 < X -> 0 < m_ p -> pr_ p = 0 -> pf_ p = 0 -> pz_ p = 0 -> 0 <= r_ p <= g_rmax c ->
  fields_at c f amp (r_ p) = (ex, 0, 0, 0, bz) -> bz = 0 ->
  let d := q_ p * X * ex in 0 < r_ p + d / 2 * (X / sq4 (m_ p) (d / 2) 0 0) <= g_rmax c ->
  pr_ (fst (move_one2 c f amp X p)) = d.
Proof.
  intros HX Hm H1 H2 H3 Hr Hf -> d Hin. unfold move_one2. rewrite H1, H2, H3 in *.
  assert (G : sq4 (m_ p) 0 0 0 = m_ p) by (unfold sq4; replace (m_ p ^ 2 + 0 ^ 2 + 0 ^ 2 + 0 ^ 2) with (m_ p ^ 2) by ring; apply sqrt_pow2; lra). rewrite G.
  destruct (Req_EM_T (m_ p) 0) as [E|_]; [lra|]. replace (r_ p + 0 * (X / (m_ p - 0)) / 2) with (r_ p) by lra.
  assert (B' : forall x, 0 <= x <= g_rmax c -> beyond (g_rmax c) x = false /\ fold_r (g_rmax c) x = x /\ outside (g_rmax c) x = false).
  { intros x Hx. unfold beyond, fold_r, outside. destruct (Rlt_dec x 0); [lra|]. destruct (Rlt_dec _ x); [lra|auto]. }
  destruct (B' _ Hr) as (-> & -> & ->). rewrite Hf. unfold push_half, kick.
  assert (Kx : q_ p * (X / (m_ p - 0)) * (m_ p * ex + 0 * 0 - 0 * 0) = d) by (unfold d; field; lra).
  assert (Ky : q_ p * (X / (m_ p - 0)) * (m_ p * 0 - 0 * 0 - 0 * 0) = 0) by ring.
  assert (Kz : q_ p * (X / (m_ p - 0)) * (m_ p * 0 + 0 * 0 + 0 * 0) = 0) by ring. rewrite Kx, Ky, Kz.
  replace (0 + d / 2) with (d / 2) by lra. replace (0 + 0 / 2) with 0 by lra. set (g := sq4 (m_ p) (d / 2) 0 0) in *.
  assert (Hg : 0 < g). { unfold g, sq4. apply sqrt_lt_R0. pose proof (pow2_ge_0 (d / 2)). pose proof (pow_lt (m_ p) 2 Hm). lra. }
  destruct (Req_EM_T g 0) as [E|_]; [lra|]. replace (g - 0) with g by lra.
  replace (q_ p * (X / g) * (g * ex + 0 * 0 - 0 * 0)) with d by (unfold d; field; lra).
  replace (q_ p * (X / g) * (g * 0 - 0 * 0 - d / 2 * 0)) with 0 by ring. replace (q_ p * (X / g) * (g * 0 + d / 2 * 0 + 0 * 0)) with 0 by ring.
  unfold finish. replace (0 + d / 2) with (d / 2) by lra. replace ((0 + 0 / 2) * (X / g)) with 0 by lra.
  set (x := r_ p + d / 2 * (X / g)) in *. replace (sqrt (x ^ 2 + 0 ^ 2)) with x.
  2: { replace (x ^ 2 + 0 ^ 2) with (x ^ 2) by ring. rewrite sqrt_pow2; lra. }
  destruct (B' x ltac:(lra)) as (-> & -> & ->). destruct (Req_EM_T x 0); [lra|]. destruct (Rlt_dec x 0); [lra|]. cbn [fst pr_]. field. lra.
Qed.
Definition decl_cur : currents2 := snd (fst (init_background (INR 3 * 1) 1 1 (fun _ => 1) 0)).
Definition decl_cfg : pcfg2 := mkC2 4 1 3 0.
Lemma decl_amp : noise_amplitude 4 decl_cur true 1%nat = (4 * - (192 / 195) - 2 * (- (16 / 15) + -1)) / 4.
Proof.
  destruct dens_ne0 as (A & B & C). unfold noise_amplitude, decl_cur, init_background. cbn [fst snd row_e row_i d_rho Nat.eqb Nat.sub].
  assert (F : floorR (INR 3 * 1 / 1) = 3%Z) by (apply (floor_M 1 3); lra). rewrite F. change (S (Z.to_nat 3)) with 4%nat.
  unfold compute_rhoj. cbn [row_e electrons]. rewrite A, B, C. lra.
Qed.
Lemma declustering_moves : exists p, In p (init_electrons (INR 3 * 1) 1 1 (fun _ => 1) 0) /\
  pr_ (fst (move_one2 decl_cfg zero_fields (noise_amplitude 4 decl_cur true) 0.01 p)) <> 0.
Proof.
  pose proof PI_RGT_0 as HP. exists (upart 1 1 0 0). split.
  - rewrite (uniform_list 1 3 1 0) by (try lra; lia). apply in_map. apply in_seq. cbn. lia.
  - assert (R0 : rho_k 1 0 = 1 / 2) by (unfold rho_k; cbn; lra).
    set (p := upart 1 1 0 0). assert (Er : r_ p = 1 / 2) by (unfold p, upart; cbn [r_]; rewrite R0; lra).
    assert (Em : m_ p = PI) by (unfold p, upart; cbn [m_]; rewrite R0; cbn [INR]; field).
    assert (Eq : q_ p = - PI) by (unfold p, upart; cbn [q_]; rewrite R0; cbn [INR]; field).
    assert (C : cell2 1 (r_ p) = 1%Z) by (apply floor_unique; rewrite Er; lra).
    set (a := noise_amplitude 4 decl_cur true 1%nat). assert (Ha : 0 < a < 1) by (unfold a; rewrite decl_amp; lra).
    set (ex := - (a * (PI / (PI ^ 2 + 1)))).
    assert (Hf : fields_at decl_cfg zero_fields (noise_amplitude 4 decl_cur true) (r_ p) = (ex, 0, 0, 0, 0)).
    { unfold fields_at. cbn [g_h g_n decl_cfg]. rewrite C, Er. replace (1 / 2 / 1 - 1) with (- (1 / 2)) by lra.
      assert (I : interpolate2 4 1 (- (1 / 2)) zero_fields = (0, 0, 0, 0, 0)).
      { unfold interpolate2. cbn [Z.leb Z.eqb Z.of_nat Z.compare Pos.compare Pos.compare_cont Pos.of_succ_nat Pos.succ Z.sub Z.add Z.opp Z.pos_sub Pos.pred_double Pos.eqb].
        unfold zero_fields, zeros. cbn [f_er f_ef f_ez f_bf f_bz]. repeat apply f_equal2; ring. }
      rewrite I. assert (Nz : noise_at 4 (noise_amplitude 4 decl_cur true) 1 (- (1 / 2)) 1 = ex).
      { unfold noise_at. change (Z.of_nat 4 <=? 1)%Z with false. change (1 =? 0)%Z with false. cbv iota. change (Z.to_nat 1) with 1%nat. fold a.
        destruct (Req_EM_T a 0); [lra|]. replace (PI * - (1 / 2)) with (- (PI / 2)) by lra. rewrite sin_neg, cos_neg, sin_PI2, cos_PI2. unfold ex. field. nra. }
      rewrite Nz, Rplus_0_l. reflexivity. }
    assert (Q1 : 0 < PI / (PI ^ 2 + 1) < 1).
    { split; [apply Rmult_lt_0_compat; [auto|apply Rinv_0_lt_compat; nra]|]. apply (Rmult_lt_reg_r (PI ^ 2 + 1)); [nra|].
      replace (PI / (PI ^ 2 + 1) * (PI ^ 2 + 1)) with PI by (field; nra). nra. }
    assert (Hex : -1 < ex < 0) by (unfold ex; nra).
    set (d := q_ p * 0.01 * ex). pose proof PI_4 as P4. assert (Hd : 0 < d < 0.04) by (unfold d; rewrite Eq; nra).
    rewrite (pushed decl_cfg zero_fields _ 0.01 p ex 0); auto; try lra; try reflexivity.
    + fold d. lra.
    + cbn [g_rmax decl_cfg]. rewrite Er. lra.
    + fold d. cbn [g_rmax decl_cfg]. rewrite Er. set (g := sq4 _ _ _ _).
      assert (Hg : PI <= g). { unfold g, sq4. rewrite Em. rewrite <- (sqrt_pow2 PI) at 1 by lra. apply sqrt_le_1_alt. pose proof (pow2_ge_0 (d / 2)). lra. }
      pose proof PI2_1 as P2. assert (G2 : 1 < g) by lra. assert (I : 0 < / g < 1) by (split; [apply Rinv_0_lt_compat; lra|rewrite <- Rinv_1; apply Rinv_lt_contravar; lra]).
      unfold Rdiv. nra.
Qed.
