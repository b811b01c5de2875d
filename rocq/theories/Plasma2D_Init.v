(** Lemmas for C29 and for the whole 2D plasma layer: initial density, equilibrium, totality. *)
From Coq Require Import Reals ZArith List Bool Lra Lia Psatz.
From Verif Require Import Beam2D_Model Beam2D_Spec Beam2D_Free Beam2D_Push Beam2D_Total Beam2D_Ex Plasma2D_Model Plasma2D_Spec Plasma2D_Ode Plasma2D_Dep Plasma2D_Move.
Import ListNotations.
Open Scope R_scope.

(** ** One layer never fails and never loses a particle *)
Definition kept (c : pcfg2) (p p' : pl2) : Prop :=
  (0 <= r_ p <= g_rmax c -> 0 <= r_ p' <= g_rmax c) /\ m_ p' = m_ p /\ (q_ p' = q_ p \/ q_ p' = 0).
Lemma kept_trans c a b d : kept c a b -> kept c b d -> kept c a d.
Proof. intros (A1 & A2 & A3) (B1 & B2 & B3). repeat split; try tauto; try (now apply B1, A1); try congruence. destruct B3; [|now right]. destruct A3; [left|right]; congruence. Qed.
Definition kept_all (c : pcfg2) (a b : particles2) : Prop :=
  Forall2 (kept c) (electrons a) (electrons b) /\ Forall2 (kept c) (ion_list a) (ion_list b).
Lemma map_opt_F2 {X Y} (f : X -> option Y) (P : X -> Y -> Prop) : (forall x y, f x = Some y -> P x y) ->
  forall l l', map_opt f l = Some l' -> Forall2 P l l'.
Proof.
  intros H. induction l as [|x l IH]; cbn [map_opt]; intros l' E; [injection E as <-; constructor|].
  destruct (f x) as [y|] eqn:Ey; cbn [bind] in E; [|discriminate]. destruct (map_opt f l) as [l1|]; cbn [option_map] in E; [|discriminate].
  injection E as <-. constructor; auto.
Qed.
Lemma move_list_ok fuel c f amp X l l' : 0 < g_rmax c -> 0 < X -> move_list fuel c f amp X l = Some l' ->
  Forall2 (fun p p' => kept c p p' /\ exists ds, Steps (move_one2 c (add_bz c f) amp) (g_h c) X p ds p' /\ Forall (size_ok X) ds /\
     (q_ p' = 0 \/ sumR ds = X)) l l'.
Proof.
  intros HR HX. apply map_opt_F2. intros p p' E. rewrite sub_loop_start in E by auto.
  destruct (sub_loop_ok _ _ _ HX _ _ 0%nat 0%nat p' ltac:(lia) ltac:(cbn; lia) E) as (ds & A & B & C & D).
  replace (INR 0 * (X / 2 ^ 0)) with 0 in * by (cbn; lra).
  split.
  - eapply (Steps_inv _ _ _ (fun x => kept c p x)); [|exact A|].
    + intros d x K. eapply kept_trans; [exact K|]. destruct (move_one2_cases c (add_bz c f) amp d x HR) as (G1 & G2 & G3).
      repeat split; auto; try lra. destruct G3 as [G3|G3]; [now left|right; apply G3].
    + repeat split; auto; lra.
  - exists ds. repeat split; auto. destruct C as [C|C]; [now left|right; lra].
Qed.
Definition enough : nat := 14 + 2 ^ 14.
Lemma move_list_total fuel c f amp X l : (enough <= fuel)%nat -> 0 < X -> exists l', move_list fuel c f amp X l = Some l'.
Proof.
  intros Hf HX. apply map_opt_some. intros p _. rewrite sub_loop_start by auto. apply sub_loop_fuel; auto; try lia.
Qed.
Lemma F2_impl {X Y} (P Q : X -> Y -> Prop) l l' : (forall x y, P x y -> Q x y) -> Forall2 P l l' -> Forall2 Q l l'.
Proof. intros H F. induction F; constructor; auto. Qed.
Lemma move_particles2_ok fuel c f amp X ps ps' : 0 < g_rmax c -> 0 < X ->
  move_particles2 fuel c f amp X ps = Some ps' -> kept_all c ps ps'.
Proof.
  intros HR HX. unfold move_particles2. destruct (move_list _ _ _ _ _ (electrons ps)) as [e|] eqn:E; cbn [bind]; [|discriminate].
  destruct (move_list _ _ _ _ _ (ion_list ps)) as [i|] eqn:I; cbn [bind]; [|discriminate]. intros G. injection G as <-.
  split; cbn [electrons ion_list]; (eapply F2_impl; [|eapply move_list_ok; eauto]); intros x y K; apply K.
Qed.
Lemma move_particles2_total fuel c f amp X ps : (enough <= fuel)%nat -> 0 < X ->
  exists ps', move_particles2 fuel c f amp X ps = Some ps'.
Proof.
  intros Hf HX. unfold move_particles2. destruct (move_list_total fuel c f amp X (electrons ps) Hf HX) as (e & ->).
  destruct (move_list_total fuel c f amp X (ion_list ps) Hf HX) as (i & ->). cbn. eauto.
Qed.
Lemma predict_total fuel s X st : (enough <= fuel)%nat -> 0 < X -> exists ps cur, predict fuel s X st = Some (ps, cur).
Proof.
  intros Hf HX. unfold predict. destruct st as [[ps f] cur].
  destruct (move_particles2_total fuel (v_c s) f (noise_amplitude (g_n (v_c s)) cur (v_noise s)) X ps Hf HX) as (ps' & ->). cbn. eauto.
Qed.
Definition parts (st : pstate) : particles2 := fst (fst st).
Lemma predict_kept fuel s X st ps cur : 0 < g_rmax (v_c s) -> 0 < X -> predict fuel s X st = Some (ps, cur) -> kept_all (v_c s) (parts st) ps.
Proof.
  intros HR HX. unfold predict. destruct st as [[ps0 f] cur0]. destruct (move_particles2 _ _ _ _ _ _) as [ps1|] eqn:E; cbn [option_map]; [|discriminate].
  intros G. injection G as <- _. eapply move_particles2_ok; eauto.
Qed.
Lemma correct_total fuel s rb X k : (enough <= fuel)%nat -> 0 < X -> forall st new, exists st', correct fuel s rb X k st new = Some st'.
Proof.
  intros Hf HX. induction k as [|k IH]; intros st new; cbn [correct]; [eauto|].
  destruct st as [[ps f] cur], new as [[x fn] cn]. destruct (compute_fields _ _ _ _ _ _ _ _) as [fn' fa].
  destruct (move_particles2_total fuel (v_c s) fa (noise_amplitude (g_n (v_c s)) cn (v_noise s)) X ps Hf HX) as (ps' & ->). cbn [bind]. apply IH.
Qed.
Lemma correct_kept fuel s rb X k : 0 < g_rmax (v_c s) -> 0 < X -> forall st new st', kept_all (v_c s) (parts st) (parts new) ->
  correct fuel s rb X k st new = Some st' -> kept_all (v_c s) (parts st) (parts st').
Proof.
  intros HR HX. induction k as [|k IH]; intros st new st' K; cbn [correct]; [intros E; injection E as <-; auto|].
  destruct st as [[ps f] cur], new as [[x fn] cn]. destruct (compute_fields _ _ _ _ _ _ _ _) as [fn' fa].
  destruct (move_particles2 _ _ _ _ _ _) as [ps1|] eqn:E; cbn [bind]; [|discriminate]. apply IH. cbn. eapply move_particles2_ok; eauto.
Qed.
Lemma F2_trans {X} (P : X -> X -> Prop) : (forall a b c, P a b -> P b c -> P a c) -> forall l1 l2 l3, Forall2 P l1 l2 -> Forall2 P l2 l3 -> Forall2 P l1 l3.
Proof. intros H l1 l2 l3 F. revert l3. induction F; intros l3 G; inversion G; subst; constructor; eauto. Qed.
Lemma kept_all_trans c a b d : kept_all c a b -> kept_all c b d -> kept_all c a d.
Proof. intros [A1 A2] [B1 B2]. split; eapply F2_trans; eauto using kept_trans. Qed.
Lemma kept_all_refl c a : kept_all c a a.
Proof. assert (K : forall l, Forall2 (kept c) l l) by (induction l; constructor; auto; repeat split; auto; lra). split; apply K. Qed.
Lemma adv2_kept fuel s rb X st st' : 0 < g_rmax (v_c s) -> 0 < X -> adv2 fuel s rb X st = Some st' -> kept_all (v_c s) (parts st) (parts st').
Proof.
  intros HR HX. unfold adv2. destruct st as [[ps f] cur] eqn:Es. destruct (predict _ _ _ _) as [[ps1 c1]|] eqn:E; cbn [bind fst snd]; [|discriminate].
  intros G. pose proof (predict_kept fuel s X (ps, f, cur) ps1 c1 HR HX E) as K. exact (correct_kept fuel s rb X (v_corr s) HR HX (ps, f, cur) (ps1, f, c1) st' K G).
Qed.

Definition layer_fuel (D : nat) : nat := (10 ^ D * (D + 1) + D)%nat.
Lemma step_dxi2_total fuel s rb st : (enough <= fuel)%nat -> (layer_fuel (v_depth s) <= fuel)%nat -> 0 < v_xi s -> v_path_lim s = 0 ->
  exists st', step_dxi2 fuel s rb st = Some st'.
Proof.
  intros Hf Hl HX Hp. unfold step_dxi2. destruct (Req_EM_T _ _); [|lra].
  assert (G : forall fl d cnt xi st, (d <= v_depth s)%nat -> good cnt d -> xi = v_xi s / 10 ^ d ->
    (left (v_depth s) cnt d * Z.of_nat (v_depth s + 1) + Z.of_nat (v_depth s - d) <= Z.of_nat fl)%Z ->
    exists s', step_loop pstate (fun x st => if Rlt_dec 0 x then need2 fuel s x st else Some false)
       (fun x st => if Rlt_dec 0 x then adv2 fuel s rb x st else Some st) (v_depth s) fl d cnt xi st = Some s').
  { apply step_loop_fuel.
    - intros x t. destruct (Rlt_dec 0 x) as [P|P]; [|discriminate]. unfold need2. destruct (predict_total fuel s x t Hf P) as (a & b & ->). discriminate.
    - intros x t. destruct (Rlt_dec 0 x) as [P|P]; [|discriminate]. unfold adv2. destruct t as [[ps f] cur].
      destruct (predict_total fuel s x (ps, f, cur) Hf P) as (a & b & ->). cbn [bind].
      destruct (correct_total fuel s rb x (v_corr s) Hf P (ps, f, cur) (fst (a, b), f, snd (a, b))) as (z & ->). discriminate. }
  (* the guards x > 0 always hold *)
  assert (Same : forall fl d cnt xi st, 0 < xi -> step_loop pstate (fun x st => if Rlt_dec 0 x then need2 fuel s x st else Some false)
       (fun x st => if Rlt_dec 0 x then adv2 fuel s rb x st else Some st) (v_depth s) fl d cnt xi st
     = step_loop pstate (need2 fuel s) (adv2 fuel s rb) (v_depth s) fl d cnt xi st).
  { induction fl as [|fl IH]; intros d cnt xi t Hxi; [reflexivity|]. cbn [step_loop]. destruct (Rlt_dec 0 xi); [|lra].
    destruct (need2 fuel s xi t); cbn [bind]; [|reflexivity]. destruct (b && _).
    - apply IH. apply Rmult_lt_0_compat; lra.
    - destruct (adv2 fuel s rb xi t); cbn [bind]; [|reflexivity].
      assert (U : forall d cnt x, 0 < x -> 0 < snd (unwind d cnt x)).
      { clear. induction d as [|d IH]; intros cnt x Hx; cbn [unwind]; [auto|]. destruct (_ =? _)%Z; [|auto]. apply IH. lra. }
      specialize (U d cnt xi Hxi). destruct (unwind d cnt xi) as [[d' cnt'] xi']. cbn [snd] in U. destruct (d' =? 0)%nat; auto. }
  rewrite <- Same by auto. apply G.
  - lia.
  - intros k Hk. lia.
  - cbn. field.
  - unfold left. cbn [below]. rewrite Nat.sub_0_r. unfold layer_fuel in Hl. apply inj_le in Hl.
    rewrite Nat2Z.inj_add, Nat2Z.inj_mul, Nat2Z.inj_pow in Hl. cbn [Z.add]. exact Hl.
Qed.
Lemma step_dxi2_substeps fuel s rb st st' : step_dxi2 fuel s rb st = Some st' ->
  exists ds, Advances (need2 fuel s) (adv2 fuel s rb) (v_xi s / 10 ^ v_depth s) st ds st' /\
    Forall (fun x => exists k, (k <= v_depth s)%nat /\ x = v_xi s / 10 ^ k) ds /\ sumR ds = v_xi s.
Proof.
  unfold step_dxi2. destruct (Req_EM_T _ _); [|discriminate]. intros E.
  eapply (step_loop_ok pstate (need2 fuel s) (adv2 fuel s rb) (v_depth s) (v_xi s)) in E; [|lia| |cbn; field].
  - destruct E as (ds & A & B & C). exists ds. repeat split; auto. rewrite C. unfold left, fin. cbn [below]. rewrite Nat.sub_0_r, Z.add_0_l, <- pow_IZR.
    field. apply pow_nonzero. lra.
  - intros k Hk. lia.
Qed.
Lemma step_dxi2_kept fuel s rb st st' : 0 < g_rmax (v_c s) -> 0 < v_xi s -> step_dxi2 fuel s rb st = Some st' ->
  kept_all (v_c s) (parts st) (parts st').
Proof.
  intros HR HX E. destruct (step_dxi2_substeps _ _ _ _ _ E) as (ds & A & B & _). clear E.
  induction A; [apply kept_all_refl|]. inversion B as [|? ? (k & _ & Hd) B']; subst. eapply kept_all_trans; [|apply IHA; auto].
  assert (0 < v_xi s / 10 ^ k) by (apply Rmult_lt_0_compat; [auto|apply Rinv_0_lt_compat, pow_lt; lra]).
  eapply adv2_kept; [auto| |eassumption]. auto.
Qed.

(** ** Nothing happens without a beam *)
Definition resting (c : pcfg2) (p : pl2) : Prop := m_ p <> 0 /\ pr_ p = 0 /\ pf_ p = 0 /\ pz_ p = 0 /\ 0 <= r_ p <= g_rmax c.
Definition still (n : nat) (cur : currents2) : Prop := forall i, (i < n)%nat ->
  total cur d_rho i = 0 /\ d_jr (row_e cur) i = 0 /\ d_jr (row_i cur) i = 0 /\ d_jf (row_e cur) i = 0 /\ d_jf (row_i cur) i = 0
  /\ d_jz (row_e cur) i = 0 /\ d_jz (row_i cur) i = 0.
Definition older (X : R) (p : pl2) : pl2 := mkPl (r_ p) (pr_ p) (pf_ p) (pz_ p) (q_ p) (m_ p) (age_ p - (if Req_EM_T (q_ p) 0 then 0 else X)).
Lemma sub_rest fuel c f X p : grid_ok c -> no_force (g_n c) f -> 0 < X -> resting c p -> (1 <= fuel)%nat ->
  sub_loop fuel (move_one2 c (add_bz c f) (fun _ => 0)) (g_h c) X p 0 X = Some (older X p).
Proof.
  intros Hgo Hf HX (Hm & H1 & H2 & H3 & Hr) Hfu. destruct fuel as [|fuel]; [lia|]. cbn [sub_loop].
  destruct (Rle_dec 0 (0.99999 * X)); [|lra]. unfold older. destruct (Req_EM_T (q_ p) 0).
  { f_equal. destruct p; cbn. f_equal. lra. }
  assert (Hf' : no_force (g_n c) (add_bz c f)) by (intros i; apply (Hf i)).
  rewrite (rest_step c (add_bz c f) X p Hgo Hf' HX Hm H1 H2 H3 Hr). destruct (Rle_dec (g_h c) 0); [destruct Hgo; lra|].
  assert (E : forall fl q, sub_loop fl (move_one2 c (add_bz c f) (fun _ => 0)) (g_h c) X q (0 + X) X = Some q).
  { intros fl q. destruct fl; cbn [sub_loop]; (destruct (Rle_dec (0 + X) (0.99999 * X)); [lra|reflexivity]). }
  rewrite E, H1, H2, H3. reflexivity.
Qed.
Definition older_all X ps := mkP2 (map (older X) (electrons ps)) (map (older X) (ion_list ps)).
Lemma move_rest fuel c f X ps : grid_ok c -> no_force (g_n c) f -> 0 < X -> (1 <= fuel)%nat ->
  (forall p, In p (electrons ps) \/ In p (ion_list ps) -> resting c p) ->
  move_particles2 fuel c f (fun _ => 0) X ps = Some (older_all X ps).
Proof.
  intros Hgo Hf HX Hfu Hr.
  assert (L : forall l, (forall p, In p l -> resting c p) -> move_list fuel c f (fun _ => 0) X l = Some (map (older X) l)).
  { unfold move_list. induction l as [|p l IH]; intros H; [reflexivity|]. cbn [map_opt map].
    rewrite sub_rest; auto; [|apply H; now left]. cbn [bind]. rewrite IH; [reflexivity|]. intros q Hq. apply H. now right. }
  unfold move_particles2. rewrite L by auto. cbn [bind]. rewrite L by auto. reflexivity.
Qed.
Lemma rhoj_older h ppc n im X ps : compute_rhoj h ppc n im (older_all X ps) = compute_rhoj h ppc n im ps.
Proof.
  assert (D : forall l o, fold_left (deposit_particle h n) (map (older X) l) o = fold_left (deposit_particle h n) l o).
  { induction l as [|p l IH]; intros o; [reflexivity|]. cbn [map fold_left]. rewrite IH. reflexivity. }
  unfold compute_rhoj, deposit2, older_all. cbn [electrons ion_list]. rewrite !D. reflexivity.
Qed.
Lemma sweep_zero k h n f : (forall i, (i < n)%nat -> f i = 0) -> forall i, (i < n)%nat -> snd (sweep f k h i) = 0.
Proof.
  intros Hf. induction i as [|i IH]; intros Hi; [reflexivity|]. cbn [sweep]. specialize (IH ltac:(lia)). destruct (sweep f k h i) as [a b]. cbn [snd] in *.
  rewrite IH, (Hf (S i)) by auto. ring.
Qed.
Lemma tri_zero n f k h b i : (2 <= n)%nat -> (forall j, (j < n)%nat -> f j = 0) -> tridiagonal_solve n f k h b i = 0.
Proof.
  intros Hn Hf. unfold tridiagonal_solve. destruct b as [b0 b1]. cbn [fst snd].
  set (nr := (n - 1)%nat). assert (Hnr : (nr < n)%nat) by (unfold nr; lia).
  generalize (nr - i)%nat. intros m. induction m as [|m IH]; cbn [back_from].
  - pose proof (sweep_zero k h n f Hf (nr - 1) ltac:(lia)) as S0. destruct (sweep f k h (nr - 1)) as [a b]. cbn [snd] in S0. rewrite S0, Hf by auto.
    unfold Rdiv. ring.
  - pose proof (sweep_zero k h n f Hf (nr - S m) ltac:(lia)) as S0. destruct (sweep f k h (nr - S m)) as [a b]. cbn [snd] in S0. rewrite S0, IH. ring.
Qed.
Lemma fwd_zero y h n : (forall i, (i < n)%nat -> y i = 0) -> forall i, (i < n)%nat -> cumtrapz_fwd y h i = 0.
Proof. intros H. induction i as [|i IH]; intros Hi; [reflexivity|]. cbn [cumtrapz_fwd]. rewrite IH, !H by lia. lra. Qed.
Lemma bwd_zero y h n : (2 <= n)%nat -> (forall i, (i < n)%nat -> y i = 0) -> forall i, cumtrapz_bwd n y h i = 0.
Proof.
  intros Hn H i. unfold cumtrapz_bwd. generalize (n - 1 - i)%nat. intros m. induction m as [|m IH]; [reflexivity|]. cbn [cumtrapz_bwd_from].
  rewrite IH, !H by lia. lra.
Qed.
(** fields of a neutral resting plasma, on the nodes *)
Definition quiet_on (n : nat) (f : fields2) : Prop := forall i, (i < n)%nat -> f_er f i = 0 /\ f_ef f i = 0 /\ f_ez f i = 0 /\ f_bf f i = 0 /\ f_bz f i = 0.
Lemma quiet_no_force n f : quiet_on n f -> no_force n f.
Proof. intros H i Hi. specialize (H i Hi). tauto. Qed.
Lemma fields_quiet n h fn f rb cp cn X : (2 <= n)%nat -> quiet_on n fn -> quiet_on n f -> (forall i, (i < n)%nat -> rb i = 0) -> still n cp -> still n cn ->
  quiet_on n (fst (compute_fields n h fn f rb cp cn X)) /\ quiet_on n (snd (compute_fields n h fn f rb cp cn X)).
Proof.
  intros Hn Q1 Q2 Hb S1 S2.
  assert (TR : forall i, (i < n)%nat -> total cn d_rho i = 0) by (intros i Hi; apply (S2 i Hi)).
  assert (JR : forall i, (i < n)%nat -> total cn d_jr i = 0) by (intros i Hi; unfold total; destruct (S2 i Hi) as (_ & -> & -> & _); lra).
  assert (JRp : forall i, (i < n)%nat -> total cp d_jr i = 0) by (intros i Hi; unfold total; destruct (S1 i Hi) as (_ & -> & -> & _); lra).
  assert (JF : forall i, (i < n)%nat -> total cn d_jf i = 0) by (intros i Hi; unfold total; destruct (S2 i Hi) as (_ & _ & _ & -> & -> & _); lra).
  assert (JFp : forall i, (i < n)%nat -> total cp d_jf i = 0) by (intros i Hi; unfold total; destruct (S1 i Hi) as (_ & _ & _ & -> & -> & _); lra).
  assert (JZ : forall i, (i < n)%nat -> total cn d_jz i = 0) by (intros i Hi; unfold total; destruct (S2 i Hi) as (_ & _ & _ & _ & _ & -> & ->); lra).
  assert (Q : quiet_on n (fst (compute_fields n h fn f rb cp cn X))).
  { intros i Hi. unfold compute_fields. cbn [fst f_er f_ef f_ez f_bf f_bz].
    assert (Er : compute_e_r n (fun i => total cn d_rho i + rb i) (total cn d_jr) (total cp d_jr) (f_er (avg_fields fn f))
        (prev_factor (d_rho (row_e cn)) (d_jr (row_e cn)) (d_jf (row_e cn)) (d_jz (row_e cn))) h X i = 0).
    { unfold compute_e_r, tridiagonal_solve_neumann_like. apply tri_zero; auto. intros j Hj.
      destruct (Nat.eqb_spec j 0); [reflexivity|]. destruct (Nat.eqb_spec j (n - 1)).
      - rewrite !TR, !Hb by lia. lra.
      - cbn [avg_fields f_er]. unfold avg. destruct (Q1 j Hj) as (-> & _). destruct (Q2 j Hj) as (-> & _).
        rewrite !TR, !Hb, JR, JRp by lia. unfold Rdiv. ring. }
    split; [exact Er|]. split; [|split; [|split]].
    - unfold compute_e_phi, tridiagonal_solve_dirichlet. apply tri_zero; auto. intros j Hj.
      destruct (Nat.eqb_spec j 0); [reflexivity|]. destruct (Nat.eqb_spec j (n - 1)); [reflexivity|].
      cbn [avg_fields f_ef]. unfold avg. destruct (Q1 j Hj) as (_ & -> & _). destruct (Q2 j Hj) as (_ & -> & _).
      rewrite JF, JFp by lia. unfold Rdiv. ring.
    - unfold compute_e_z. apply bwd_zero; auto.
    - unfold compute_b_phi. match goal with |- ?a - ?b = 0 => assert (Ea : a = 0) by exact Er; rewrite Ea end. rewrite (fwd_zero _ h n) by (auto; intros j Hj; rewrite TR, JZ by auto; ring).
      destruct (i =? 0)%nat; unfold Rdiv; ring.
    - unfold compute_b_z. assert (B : forall j, cumtrapz_bwd n (fun i => - total cn d_jf i) h j = 0).
      { apply bwd_zero; auto. intros j Hj. rewrite JF by auto. lra. }
      rewrite B, sumN_zero by (intros; rewrite B; ring). unfold Rdiv. ring. }
  split; [exact Q|]. change (snd (compute_fields n h fn f rb cp cn X)) with (avg_fields (fst (compute_fields n h fn f rb cp cn X)) f).
  revert Q. generalize (fst (compute_fields n h fn f rb cp cn X)). intros g Q i Hi. cbn [avg_fields f_er f_ef f_ez f_bf f_bz]. unfold avg.
  destruct (Q i Hi) as (-> & -> & -> & -> & ->). destruct (Q2 i Hi) as (-> & -> & -> & -> & ->). repeat split; lra.
Qed.
(** The state of an undisturbed layer of the solver [s]: everything at rest, no fields, and the
    densities are those of the particles and cancel. *)
Definition calm (s : solver2) (st : pstate) : Prop :=
  let '(ps, f, cur) := st in
  (forall p, In p (electrons ps) \/ In p (ion_list ps) -> resting (v_c s) p) /\ quiet_on (g_n (v_c s)) f /\
  still (g_n (v_c s)) cur /\ still (g_n (v_c s)) (compute_rhoj (g_h (v_c s)) (v_ppc s) (g_n (v_c s)) (v_ions s) ps).
Lemma noise_off n cur : noise_amplitude n cur false = fun _ => 0.
Proof. reflexivity. Qed.
Lemma correct_calm fuel s rb X k st : grid_ok (v_c s) -> (1 <= fuel)%nat -> 0 < X -> v_noise s = false -> (forall i, (i < g_n (v_c s))%nat -> rb i = 0) -> calm s st ->
  let '(ps, f, cur) := st in forall fn cn, quiet_on (g_n (v_c s)) fn -> still (g_n (v_c s)) cn ->
  exists fn' cn', correct fuel s rb X k st (older_all X ps, fn, cn) = Some (older_all X ps, fn', cn') /\ quiet_on (g_n (v_c s)) fn' /\ still (g_n (v_c s)) cn' /\
   (cn = compute_rhoj (g_h (v_c s)) (v_ppc s) (g_n (v_c s)) (v_ions s) ps -> cn' = cn).
Proof.
  intros Hgo Hfu HX Hn Hb C. destruct st as [[ps f] cur]. destruct C as (Hr & Hq & Hs & Hs'). cbv beta iota zeta.
  induction k as [|k IH]; intros fn cn Qf Sc; cbn [correct]; [eauto 10|].
  destruct (compute_fields _ _ fn f rb cur cn X) as [fn' fa] eqn:E.
  destruct (fields_quiet (g_n (v_c s)) (g_h (v_c s)) fn f rb cur cn X (proj1 Hgo) Qf Hq Hb Hs Sc) as [A B]. rewrite E in A, B. cbn [fst snd] in A, B.
  rewrite Hn, noise_off, move_rest; auto using quiet_no_force. cbn [bind]. rewrite rhoj_older.
  destruct (IH fn' (compute_rhoj (g_h (v_c s)) (v_ppc s) (g_n (v_c s)) (v_ions s) ps) A Hs') as (f2 & c2 & E2 & Q2 & S2 & R2).
  exists f2, c2. split; [exact E2|]. split; [exact Q2|]. split; [exact S2|]. intros ->. auto.
Qed.
Lemma still_no_charge n X cur : (forall i, (i < n)%nat -> d_jz (row_e cur) i = 0 /\ d_jz (row_i cur) i = 0) -> charge_move n X cur = 0.
Proof.
  intros H. unfold charge_move.
  assert (Z : forall g, (forall i, (i < n)%nat -> g i = 0) -> max_upto n g = 0).
  { clear. intros g. induction n as [|n IH]; intros H; [reflexivity|]. cbn [max_upto]. rewrite IH, H by auto. apply Rmax_left. lra. }
  rewrite !Z.
  - apply Rmax_left. lra.
  - intros i Hi. destruct (H i Hi) as [_ ->]. rewrite Rmult_0_r. apply Rabs_R0.
  - intros i Hi. destruct (H i Hi) as [-> _]. rewrite Rmult_0_r. apply Rabs_R0.
Qed.
Lemma step_calm fuel s rb st : grid_ok (v_c s) -> (1 <= fuel)%nat -> 0 < v_xi s -> 0 <= v_sens s -> v_path_lim s = 0 -> v_noise s = false ->
  (forall i, (i < g_n (v_c s))%nat -> rb i = 0) -> calm s st ->
  exists f' cur', step_dxi2 fuel s rb st = Some (older_all (v_xi s) (parts st), f', cur') /\ calm s (older_all (v_xi s) (parts st), f', cur') /\
    cur' = compute_rhoj (g_h (v_c s)) (v_ppc s) (g_n (v_c s)) (v_ions s) (parts st).
Proof.
  intros Hgo Hfu HX Hsens Hp Hn Hb C. destruct st as [[ps f] cur]. pose proof C as (Hr & Hq & Hs & Hs').
  unfold step_dxi2. destruct (Req_EM_T _ _); [|lra]. destruct fuel as [|fuel]; [lia|]. cbn [step_loop].
  assert (P : predict (S fuel) s (v_xi s) (ps, f, cur) = Some (older_all (v_xi s) ps, compute_rhoj (g_h (v_c s)) (v_ppc s) (g_n (v_c s)) (v_ions s) ps)).
  { unfold predict. rewrite Hn, noise_off, move_rest; auto using quiet_no_force. cbn [option_map]. now rewrite rhoj_older. }
  unfold need2 at 1. rewrite P. cbn [option_map snd bind]. rewrite still_no_charge by (intros i Hi; destruct (Hs' i Hi) as (_ & _ & _ & _ & _ & A & B); auto).
  destruct (Rlt_dec (v_sens s) 0); [lra|]. cbn [andb]. unfold adv2. rewrite P. cbn [bind fst snd].
  destruct (correct_calm (S fuel) s rb (v_xi s) (v_corr s) (ps, f, cur) Hgo Hfu HX Hn Hb C f _ Hq Hs') as (f2 & c2 & -> & Q2 & S2 & R2).
  cbn [bind unwind Nat.eqb]. exists f2, c2. split; [reflexivity|]. split; [|now apply R2].
  cbn [parts fst]. split; [|split; [exact Q2|split; [exact S2|rewrite rhoj_older; exact Hs']]].
  intros p H.
  assert (Hin : exists p0, p = older (v_xi s) p0 /\ (In p0 (electrons ps) \/ In p0 (ion_list ps)))
    by (destruct H as [H|H]; cbn [older_all electrons ion_list] in H; apply in_map_iff in H; destruct H as (p0 & <- & ?); eauto).
  destruct Hin as (p0 & -> & Hin). exact (Hr p0 Hin).
Qed.
