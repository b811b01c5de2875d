(** Proofs for C63: the 2D layer of the code is the scheme of Layer2D_Spec. *)
From Coq Require Import Reals ZArith List Bool Lia Lra Psatz.
From Verif Require Import Beam2D_Model Beam2D_Spec Plasma2D_Model Plasma2D_Spec Plasma2D_Ode Plasma2D_Dep Plasma2D_Move Plasma2D_Init Plasma2D_Ex
  Plasma2D_Push_Spec Plasma2D_Push Props_Plasma2D Layer2D_Spec.
Import ListNotations.
Open Scope R_scope.

(** ** One step of one particle *)
Lemma push_full c p ex ey ez b_y b_z r_pred X p0 : 0 < g_rmax c -> m_ p <> 0 ->
  let E := V ex ey ez in let B := V (- ey) b_y b_z in
  let d := gain (q_ p) (m_ p) X E B p0 in
  let h := middle (q_ p) (m_ p) X E B p0 in
  let dt := X / (energy (m_ p) h - vz h) in
  let x := r_ p + (vx p0 + vx d / 2) * dt in let y := (vy p0 + vy d / 2) * dt in
  let rn := sqrt (x ^ 2 + y ^ 2) in
  let res := push_half c p (ex, ey, ez, b_y, b_z) r_pred X (vx p0, vy p0, vz p0) (X / (energy (m_ p) p0 - vz p0)) (energy (m_ p) p0) in
  let p' := fst res in
  (rn <= 2 * g_rmax c -> snd res = largest3 (Rabs (r_ p - rn)) (Rabs (r_ p - r_pred)) (Rabs (rn - r_pred))) /\
  (rn <= g_rmax c -> r_ p' = rn /\ q_ p' = q_ p /\ m_ p' = m_ p /\ pz_ p' = vz p0 + vz d /\
       (0 < rn -> pr_ p' * rn = (vx p0 + vx d) * x + (vy p0 + vy d) * y /\ pf_ p' * rn = (vy p0 + vy d) * x - (vx p0 + vx d) * y) /\
       (rn = 0 -> pr_ p' = vx p0 + vx d /\ pf_ p' = 0)) /\
  (g_rmax c < rn <= 2 * g_rmax c -> r_ p' = 2 * g_rmax c - rn /\ pr_ p' = 0 /\ pf_ p' = 0 /\ pz_ p' = 0 /\ q_ p' = q_ p /\ m_ p' = m_ p) /\
  (2 * g_rmax c < rn -> removed c p p' /\ snd res = 0).
Proof.
  intros HR Hm E B d h dt x y rn res p'. subst p' res. unfold push_half.
  pose proof (kick_impulse (q_ p) (m_ p) X ex ey ez b_y b_z p0 Hm) as K1. fold E B in K1.
  destruct (kick (q_ p) (ex, ey, ez, b_y, b_z) _ _ (vx p0) (vy p0) (vz p0)) as [[k1 k2] k3] eqn:EK. cbn [vec_of] in K1.
  assert (Hh : h = V (vx p0 + k1 / 2) (vy p0 + k2 / 2) (vz p0 + k3 / 2)).
  { unfold h, middle. rewrite <- K1. unfold vadd, vscale. cbn. f_equal; lra. }
  assert (Eh : sq4 (m_ p) (vx p0 + k1 / 2) (vy p0 + k2 / 2) (vz p0 + k3 / 2) = energy (m_ p) h) by (rewrite Hh; reflexivity).
  rewrite Eh. replace (vz p0 + k3 / 2) with (vz h) by (rewrite Hh; reflexivity).
  replace (vx p0 + k1 / 2) with (vx h) by (rewrite Hh; reflexivity). replace (vy p0 + k2 / 2) with (vy h) by (rewrite Hh; reflexivity).
  pose proof (energy_gt (m_ p) h Hm) as G. destruct (Req_EM_T (energy (m_ p) h) (vz h)) as [X0|_]; [lra|]. fold dt.
  pose proof (kick_impulse (q_ p) (m_ p) X ex ey ez b_y b_z h Hm) as K2. fold E B dt in K2.
  change (impulse (q_ p) (m_ p) X E B h) with d in K2.
  destruct (kick (q_ p) (ex, ey, ez, b_y, b_z) dt _ (vx h) (vy h) (vz h)) as [[d1 d2] d3] eqn:EK2. cbn [vec_of] in K2.
  assert (D1 : d1 = vx d) by (rewrite <- K2; reflexivity). assert (D2 : d2 = vy d) by (rewrite <- K2; reflexivity).
  assert (D3 : d3 = vz d) by (rewrite <- K2; reflexivity). rewrite D1, D2, D3. clear d1 d2 d3 D1 D2 D3 EK2 K2 EK K1 Hh Eh k1 k2 k3.
  unfold finish. fold x y. fold rn. assert (P : 0 <= rn) by apply sqrt_pos.
  destruct (fold_beyond (g_rmax c) rn HR) as [F Bq]. destruct (Rlt_dec rn 0) as [|_]; [lra|].
  split; [|split; [|split]].
  - intros L. assert (Eo : outside (g_rmax c) (fold_r (g_rmax c) rn) = false) by (apply outside_iff; destruct F as [[? ->]|[[? ->]|[? ->]]]; lra).
    rewrite Eo. reflexivity.
  - intros L. destruct (beyond (g_rmax c) rn) eqn:Eb; [pose proof (proj1 Bq eq_refl); lra|].
    assert (Fr : fold_r (g_rmax c) rn = rn) by (destruct F as [[_ ->]|[[? _]|[? _]]]; lra).
    rewrite Fr. rewrite (proj2 (outside_iff (g_rmax c) rn) ltac:(lra)). cbn [fst r_ pr_ pf_ pz_ q_ m_ age_]. clearbody d rn x y.
    destruct (Req_EM_T rn 0); repeat split; intros; try reflexivity; try lra; field; lra.
  - intros L. assert (Eb : beyond (g_rmax c) rn = true) by (apply Bq, L). rewrite Eb.
    assert (Fr : fold_r (g_rmax c) rn = 2 * g_rmax c - rn) by (destruct F as [[? _]|[[? _]|[_ ->]]]; lra). rewrite Fr.
    rewrite (proj2 (outside_iff (g_rmax c) (2 * g_rmax c - rn)) ltac:(lra)). cbn [fst r_ pr_ pf_ pz_ q_ m_ age_]. repeat split.
  - intros L. assert (Fr : fold_r (g_rmax c) rn = 2 * g_rmax c - rn) by (destruct F as [[? _]|[[? _]|[_ ->]]]; lra). rewrite Fr.
    destruct (outside (g_rmax c) (2 * g_rmax c - rn)) eqn:Eo; [unfold removed; cbn; auto 10|]. apply outside_iff in Eo. lra.
Qed.

Definition grid_ok (c : pcfg2) : Prop := 0 < g_rmax c /\ 0 < g_h c /\ (3 <= g_n c)%nat /\ g_rmax c / g_h c < INR (g_n c) - 1 / 2.
Lemma grid_in c r : grid_ok c -> 0 <= r <= g_rmax c -> r / g_h c < INR (g_n c) - 1 / 2.
Proof.
  intros (HR & Hh & _ & Hg) Hr. apply Rle_lt_trans with (g_rmax c / g_h c); [|exact Hg]. apply Rmult_le_compat_r; [apply Rlt_le, Rinv_0_lt_compat, Hh|lra].
Qed.
Lemma interp_const n h r g b : 0 < h -> (2 <= n)%nat -> 0 <= r -> r / h < INR n - 1 / 2 ->
  interpolated n 1 h r (fun i => g i + b) = interpolated n 1 h r g + b.
Proof.
  intros Hh Hn Hr Hi. unfold interpolated.
  rewrite (sumN_ext n _ (fun i => node_share n 1 (r / h) i * g i + b * node_share n 1 (r / h) i)) by (intros; ring).
  rewrite sumN_plus, sumN_scal. pose proof (share_total h n (mkPl r 0 0 0 0 0 0) Hh Hn (conj Hr Hi)) as S. cbn [r_] in S. rewrite S. ring.
Qed.
Lemma ripple_noise n h amp r : 0 < h -> 0 <= r -> noise_at n amp (cell2 h r) (r / h - IZR (cell2 h r)) h = ripple_field n h amp r.
Proof.
  intros Hh Hr. assert (K : (0 <= cell2 h r)%Z).
  { pose proof (cell2_spec h r) as S. cbn zeta in S. assert (0 <= r / h) by (apply Rmult_le_pos; [lra|apply Rlt_le, Rinv_0_lt_compat, Hh]).
    apply Z.nlt_ge. intros L. assert (cell2 h r <= -1)%Z by lia. apply IZR_le in H0. lra. }
  unfold noise_at, ripple_field. replace (r / h + 1 / 2) with (r / h + 0.5) by lra. change (Int_part (r / h + 0.5)) with (cell2 h r). set (k := cell2 h r) in *.
  destruct (Z.leb_spec (Z.of_nat n) k).
  - destruct (Z.ltb_spec k (Z.of_nat n)); [lia|]. now rewrite andb_false_r.
  - destruct (Z.ltb_spec k (Z.of_nat n)); [|lia]. rewrite andb_true_r.
    destruct (Z.eqb_spec k 0) as [->|]; [reflexivity|]. destruct (Z.ltb_spec 0 k) as [L|L]; [|lia].
    destruct (Req_EM_T (amp (Z.to_nat k)) 0) as [E|E]; [rewrite E; ring|reflexivity].
Qed.
Lemma stepped_ok c f amp X p : grid_ok c -> 0 < m_ p ->
  let res := move_one2 c (add_bz c f) amp X p in stepped c f amp X p (fst res) (snd res).
Proof.
  intros Hc Hm res. destruct Hc as (HR & Hh & Hn & Hg) eqn:Ec. clear Ec. assert (Gc : grid_ok c) by (repeat split; auto).
  assert (Hm0 : m_ p <> 0) by lra. pose proof (gm_gt p Hm0) as G.
  unfold stepped. set (rp := r_ p + pr_ p * (X / (gm_of p - pz_ p)) / 2). exists (fold_r (g_rmax c) rp).
  destruct (fold_beyond (g_rmax c) rp HR) as [F Bq]. split; [exact F|].
  set (rh := fold_r (g_rmax c) rp) in *.
  assert (Er : res = if beyond (g_rmax c) rp then
      if outside (g_rmax c) rh then (killed c p (m_ p * (X / m_ p)), Rabs (r_ p - rp))
      else push_half c p (fields_at c (add_bz c f) amp rh) rp X (0, 0, 0) (X / m_ p) (m_ p)
    else if outside (g_rmax c) rh then (killed c p (gm_of p * (X / (gm_of p - pz_ p))), Rabs (r_ p - rp))
      else push_half c p (fields_at c (add_bz c f) amp rh) rp X (pr_ p, pf_ p, pz_ p) (X / (gm_of p - pz_ p)) (gm_of p)).
  { unfold res, move_one2. change (sq4 (m_ p) (pr_ p) (pf_ p) (pz_ p)) with (gm_of p). destruct (Req_EM_T (gm_of p) (pz_ p)) as [X0|_]; [lra|]. reflexivity. }
  clearbody res. split; intros Hrh.
  - assert (O : outside (g_rmax c) rh = true) by (destruct (outside (g_rmax c) rh) eqn:Eo; auto; apply outside_iff in Eo; contradiction).
    rewrite O in Er. assert (exists a, res = (killed c p a, Rabs (r_ p - rp))) as (a & ->) by (destruct (beyond _ _); eauto).
    unfold removed. cbn. auto 10.
  - rewrite (proj2 (outside_iff _ _) Hrh) in Er.
    pose proof (fields_interpolated c (add_bz c f) amp rh Hh ltac:(lia) (proj1 Hrh) (grid_in c rh Gc Hrh)) as Fi. cbv zeta in Fi.
    rewrite ripple_noise in Fi by lra. cbn [add_bz f_er f_ef f_ez f_bf f_bz] in Fi. rewrite interp_const in Fi by (auto; try lia; try lra; apply grid_in; auto).
    rewrite Fi in Er. clear Fi.
    set (p0 := if Rlt_dec (g_rmax c) rp then V 0 0 0 else V (pr_ p) (pf_ p) (pz_ p)).
    exists p0. split; [intros L; unfold p0; destruct (Rlt_dec _ _); [lra|reflexivity]|]. split; [intros L; unfold p0; destruct (Rlt_dec _ _); [reflexivity|lra]|].
    set (ex := _ + _ : R) in Er. set (ey := interpolated _ (-1) _ _ (f_ef f)) in Er. set (ez := interpolated _ _ _ _ (f_ez f)) in Er.
    set (b_y := interpolated _ _ _ _ (f_bf f)) in Er. set (b_z := interpolated _ _ _ _ (f_bz f) + _) in Er.
    assert (Er' : res = push_half c p (ex, ey, ez, b_y, b_z) rp X (vx p0, vy p0, vz p0) (X / (energy (m_ p) p0 - vz p0)) (energy (m_ p) p0)).
    { rewrite Er. unfold p0. destruct (Rlt_dec (g_rmax c) rp) as [L|L].
      - rewrite (proj2 Bq L). cbn [vx vy vz]. assert (Em : energy (m_ p) (V 0 0 0) = m_ p).
        { unfold energy. cbn [vx vy vz]. replace (m_ p ^ 2 + 0 ^ 2 + 0 ^ 2 + 0 ^ 2) with (m_ p ^ 2) by ring. apply sqrt_pow2. lra. }
        rewrite Em, Rminus_0_r. reflexivity.
      - destruct (beyond (g_rmax c) rp); [exfalso; apply L; now apply Bq|]. reflexivity. }
    rewrite Er'. exact (push_full c p ex ey ez b_y b_z rp X p0 HR Hm0).
Qed.

(** ** All steps of one particle, all particles *)
Lemma moved_ok c f amp X : grid_ok c -> 0 < X -> forall fuel p d cur p', 0 < m_ p ->
  sub_loop fuel (move_one2 c (add_bz c f) amp) (g_h c) X p d cur = Some p' -> moved (stepped c f amp) (g_h c) X cur d p p'.
Proof.
  intros Hc HX. induction fuel as [|fuel IH]; intros p d cur p' Hm E; cbn [sub_loop] in E.
  - destruct (Rle_dec d _) as [L|L]; [|injection E as <-; apply Mv_stop; right; lra].
    destruct (Req_EM_T _ _) as [Q|Q]; [injection E as <-; apply Mv_stop; auto|discriminate].
  - destruct (Rle_dec d _) as [L|L]; [|injection E as <-; apply Mv_stop; right; lra].
    destruct (Req_EM_T _ _) as [Q|Q]; [injection E as <-; apply Mv_stop; auto|].
    pose proof (stepped_ok c f amp cur p Hc Hm) as S. cbv zeta in S.
    pose proof (move_one2_cases c (add_bz c f) amp cur p (proj1 Hc)) as (_ & Em & _).
    destruct (move_one2 c (add_bz c f) amp cur p) as [p1 path] eqn:E1. cbn [fst snd] in *.
    destruct (Rle_dec (g_h c) path) as [H1|H1]; [destruct (Rlt_dec 0.0001 (cur / X)) as [H2|H2]|].
    + eapply Mv_halve; eauto.
    + eapply Mv_go; eauto; [right; lra|]. apply IH; auto. lra.
    + eapply Mv_go; eauto; [left; lra|]. apply IH; auto. lra.
Qed.
Lemma map_opt_F2 {A B} (f : A -> option B) (P : A -> B -> Prop) : forall l l', (forall a b, In a l -> f a = Some b -> P a b) -> map_opt f l = Some l' -> Forall2 P l l'.
Proof.
  induction l as [|a l IH]; intros l' H E; cbn in E; [injection E as <-; constructor|].
  destruct (f a) as [b|] eqn:Fa; [|discriminate]. destruct (map_opt f l) as [t|] eqn:Ft; [|discriminate]. cbn in E. injection E as <-.
  constructor; [apply H; auto; now left|]. apply IH; auto. intros; apply H; auto. now right.
Qed.
Lemma all_moved_ok fuel c f amp X ps ps' : grid_ok c -> 0 < X -> (forall p, In p (electrons ps ++ ion_list ps) -> 0 < m_ p) ->
  move_particles2 fuel c f amp X ps = Some ps' -> all_moved c f amp X ps ps'.
Proof.
  intros Hc HX Hm E. unfold move_particles2, move_list in E.
  destruct (map_opt _ (electrons ps)) as [e|] eqn:Ee; [|discriminate]. cbn [bind] in E.
  destruct (map_opt _ (ion_list ps)) as [i|] eqn:Ei; [|discriminate]. cbn [bind] in E. injection E as <-.
  split; cbn [electrons ion_list].
  - eapply map_opt_F2; [|exact Ee]. intros a b Ha Hab. apply (moved_ok c f amp X Hc HX fuel); auto. apply Hm, in_or_app. auto.
  - eapply map_opt_F2; [|exact Ei]. intros a b Ha Hab. apply (moved_ok c f amp X Hc HX fuel); auto. apply Hm, in_or_app. auto.
Qed.

(** ** Densities and ripples *)
Lemma ring_volume h ppc n j : cell_volume h ppc n j = ring h ppc n j.
Proof.
  unfold cell_volume, ring. destruct (j =? n - 1)%nat; [reflexivity|]. destruct j as [|[|j]]; cbn [Nat.eqb].
  - unfold Rdiv. ring.
  - cbn [INR]. unfold Rdiv. ring.
  - reflexivity.
Qed.
Lemma carries_ok h ppc n l : 0 < h -> (2 <= n)%nat -> (forall p, In p l -> inside2 h n p) ->
  sort_carries h ppc n l (per_volume (cell_volume h ppc n) (deposit2 h n l)).
Proof.
  intros Hh Hn Hin i Hi. destruct (rhoj_nodes h ppc n l i Hh Hn Hin Hi) as (A & B & C & D). rewrite <- ring_volume.
  assert (K : forall (g g' : pl2 -> R) sg, (forall p, g p = g' p) -> sumR (map (fun p => g p * node_share n sg (r_ p / h) i) l) = sumR (map (fun p => g' p * node_share n sg (r_ p / h) i) l)).
  { intros g g' sg Eg. apply sumR_ext. intros p _. now rewrite Eg. }
  repeat split.
  - rewrite A. apply K. intros p. reflexivity.
  - rewrite B. destruct (_ =? _)%nat; [reflexivity|]. apply K. reflexivity.
  - rewrite C. reflexivity.
  - rewrite D. reflexivity.
Qed.
Definition inside_all (s : solver2) (ps : particles2) : Prop := forall p, In p (electrons ps ++ ion_list ps) -> 0 <= r_ p <= g_rmax (v_c s).
Lemma carried_ok s ps : grid_ok (v_c s) -> inside_all s ps -> carried2 s ps (compute_rhoj (g_h (v_c s)) (v_ppc s) (g_n (v_c s)) (v_ions s) ps).
Proof.
  intros Hc Hi. assert (Hin : forall p, In p (electrons ps ++ ion_list ps) -> inside2 (g_h (v_c s)) (g_n (v_c s)) p).
  { intros p Hp. specialize (Hi p Hp). split; [lra|]. now apply grid_in. }
  destruct Hc as (HR & Hh & Hn & Hg). unfold carried2, compute_rhoj. cbn [row_e row_i]. split.
  - apply carries_ok; auto; [lia|]. intros p Hp. apply Hin, in_or_app. auto.
  - destruct (v_ions s); [intros i _; repeat split|]. apply carries_ok; auto; [lia|]. intros p Hp. apply Hin, in_or_app. auto.
Qed.
Lemma ripples_ok n on cur : (3 <= n)%nat -> ripples n on cur (noise_amplitude n cur on).
Proof.
  intros Hn. unfold ripples, noise_amplitude. split; intros ->; [reflexivity|]. repeat split.
  - cbn. lra.
  - intros i Hi. destruct (Nat.eqb_spec i 0); [lia|]. destruct (Nat.eqb_spec i (n - 1)); [lia|].
    replace (i + 1)%nat with (S i) by lia. field.
  - rewrite Nat.eqb_refl. destruct (Nat.eqb_spec (n - 1) 0); [lia|]. replace (S (n - 2)) with (n - 1)%nat by lia.
    replace (n - 2 - 1)%nat with (n - 3)%nat by lia. field.
Qed.
Lemma stiffness_ok d i : prev_factor (d_rho d) (d_jr d) (d_jf d) (d_jz d) i = stiffness d i.
Proof.
  unfold prev_factor, stiffness. set (ne := d_rho d i - 1). set (v2 := _ / ne ^ 2). destruct (Rlt_dec (-0.1) ne); [destruct (Rlt_dec 0 0); lra|].
  destruct (Rle_dec (1 - v2) 0), (Rle_dec 1 v2); try lra; [destruct (Rlt_dec 0 0); lra|].
  set (g := 1 / sqrt (1 - v2)). destruct (Rlt_dec (3 * (g - 1) - 5) 0); unfold Rmax; destruct (Rle_dec _ _); lra.
Qed.
Lemma fields_ok n h X fn f rb cp cn : (2 <= n)%nat -> 0 < h ->
  fields_of2 n h X fn f rb cp cn (fst (compute_fields n h fn f rb cp cn X)) (snd (compute_fields n h fn f rb cp cn X)).
Proof.
  intros Hn Hh. unfold fields_of2.
  split; [|split; [|split; [|split; [|split]]]].
  - destruct (C24_radial_electric_field n h X fn f rb cp cn Hn Hh) as (_ & A & B & C). split; [exact A|]. split; [exact B|].
    intros i Hi. rewrite <- stiffness_ok. exact (C i Hi).
  - exact (C24_azimuthal_electric_field n h X fn f rb cp cn Hn Hh).
  - exact (C24_longitudinal_electric_field n h X fn f rb cp cn Hn Hh).
  - destruct (C24_azimuthal_magnetic_field n h X fn f rb cp cn Hn Hh) as (A & B). split; [exact A|]. intros i _. exact (B i).
  - exact (C24_longitudinal_magnetic_field n h X fn f rb cp cn Hn Hh).
  - intros F HF i _. destruct (C24_second_result_is_the_average n h X fn f rb cp cn i) as (A1 & A2 & A3 & A4 & A5).
    cbn in HF. intuition; subst F; auto.
Qed.

(** ** Guess and corrections *)
Lemma inside_kept s ps ps' : kept_all (v_c s) ps ps' -> calm2 s ps -> calm2 s ps'.
Proof.
  intros [K1 K2] Hc p' Hp'. apply in_app_or in Hp'.
  assert (G : forall l l', Forall2 (kept (v_c s)) l l' -> In p' l' -> exists p, In p l /\ kept (v_c s) p p').
  { clear. induction 1; intros I; [destruct I|]; destruct I as [->|I]; [exists x; split; [now left|auto]|]. destruct (IHForall2 I) as (p & A & B). exists p. split; [now right|auto]. }
  assert (exists p, In p (electrons ps ++ ion_list ps) /\ kept (v_c s) p p') as (p & Hp & K).
  { destruct Hp' as [I|I]; [destruct (G _ _ K1 I) as (p & A & B)|destruct (G _ _ K2 I) as (p & A & B)]; exists p; split; auto; apply in_or_app; auto. }
  destruct (Hc p Hp) as [M Rr]. unfold kept in K. intuition; try congruence; try lra.
Qed.
Lemma guessed_ok fuel s X st ps1 c1 : grid_ok (v_c s) -> 0 < X -> calm2 s (parts st) -> predict fuel s X st = Some (ps1, c1) -> guessed s X st ps1 c1.
Proof.
  intros Hc HX Hi E. pose proof (predict_kept fuel s X st ps1 c1 (proj1 Hc) HX E) as K. destruct st as [[ps f] cur]. cbn [parts fst] in *.
  unfold predict in E. destruct (move_particles2 _ _ _ _ _ _) as [ps'|] eqn:Em; [|discriminate]. cbn in E. injection E as <- <-.
  eexists. split; [apply ripples_ok, Hc|]. split; [eapply all_moved_ok; eauto; intros p Hp; apply (Hi p Hp)|].
  apply carried_ok; auto. intros p Hp. exact (proj2 (inside_kept s ps ps' K Hi p Hp)).
Qed.
Lemma corrected_ok fuel s rb X st : grid_ok (v_c s) -> 0 < X -> calm2 s (parts st) -> forall k new st',
  correct fuel s rb X k st new = Some st' -> times (corrected s rb X st) k new st'.
Proof.
  intros Hc HX Hi. induction k as [|k IH]; intros new st' E; cbn [correct] in E; [injection E as <-; constructor|].
  destruct st as [[ps f] cur], new as [[x fn] cn]. cbn [parts fst] in *.
  pose proof (fields_ok (g_n (v_c s)) (g_h (v_c s)) X fn f rb cur cn ltac:(destruct Hc as (_ & _ & ? & _); lia) (proj1 (proj2 Hc))) as Hf.
  destruct (compute_fields _ _ _ _ _ _ _ _) as [fn' fa]. cbn [fst snd] in Hf.
  destruct (move_particles2 _ _ _ _ _ _) as [ps1|] eqn:Em; cbn [bind] in E; [|discriminate].
  eapply Ti_S; [|apply IH; exact E]. exists fa, (noise_amplitude (g_n (v_c s)) cn (v_noise s)).
  split; [exact Hf|]. split; [apply ripples_ok, Hc|]. split; [eapply all_moved_ok; eauto; intros p Hp; apply (Hi p Hp)|].
  apply carried_ok; auto. intros p Hp. exact (proj2 (inside_kept s ps ps1 (move_particles2_ok _ _ _ _ _ _ _ (proj1 Hc) HX Em) Hi p Hp)).
Qed.
Lemma piece_ok fuel s rb X st st' : grid_ok (v_c s) -> 0 < X -> calm2 s (parts st) -> adv2 fuel s rb X st = Some st' ->
  piece s rb X st st' /\ calm2 s (parts st').
Proof.
  intros Hc HX Hi E. split; [|eapply inside_kept; [|exact Hi]; eapply adv2_kept; eauto; apply Hc].
  unfold adv2 in E. destruct st as [[ps f] cur] eqn:Es. destruct (predict _ _ _ _) as [[ps1 c1]|] eqn:Ep; cbn [bind fst snd] in E; [|discriminate].
  exists ps1, c1. split; [eapply guessed_ok; eauto|]. eapply corrected_ok; eauto.
Qed.
Lemma max_upto_lt n f a : a < max_upto n f <-> (a < 0 \/ exists i, (i < n)%nat /\ a < f i).
Proof.
  induction n as [|n IH]; cbn [max_upto]; [split; [auto|intros [L|(i & Hi & _)]; [auto|lia]]|].
  unfold Rmax. destruct (Rle_dec _ _) as [L|L].
  - split; [intros H; right; exists n; split; auto|]. intros [H|(i & Hi & H)]; [apply Rlt_le_trans with (max_upto n f); [apply IH; auto|auto]|].
    destruct (Nat.eq_dec i n) as [->|Ne]; auto. apply Rlt_le_trans with (max_upto n f); auto. apply IH. right. exists i. split; [lia|auto].
  - rewrite IH. split; [intros [H|(i & Hi & H)]; [auto|right; exists i; split; [lia|auto]]|].
    intros [H|(i & Hi & H)]; [auto|]. destruct (Nat.eq_dec i n) as [->|Ne]; [|right; exists i; split; [lia|auto]].
    apply IH. lra.
Qed.
Lemma need_ok fuel s X st b : grid_ok (v_c s) -> 0 < X -> calm2 s (parts st) -> need2 fuel s X st = Some b ->
  if b then coarse s X st else fine s X st.
Proof.
  intros Hc HX Hi E. unfold need2 in E. destruct (predict fuel s X st) as [[ps1 c1]|] eqn:Ep; cbn [option_map snd] in E; [|discriminate].
  pose proof (guessed_ok fuel s X st ps1 c1 Hc HX Hi Ep) as G.
  assert (N : v_sens s < charge_move (g_n (v_c s)) X c1 <-> moves_much s X c1).
  { unfold charge_move, moves_much. destruct Hc as (_ & _ & Hn & _).
    assert (M : forall a x y, a < Rmax x y <-> a < x \/ a < y) by (intros; unfold Rmax; destruct (Rle_dec x y); split; intros; lra).
    rewrite M, !max_upto_lt. split.
    - intros [[H|(i & Hn' & H)]|[H|(i & Hn' & H)]]; [exists 0%nat; split; [lia|]|exists i; auto|exists 0%nat; split; [lia|]|exists i; auto].
      + left. pose proof (Rabs_pos (X * d_jz (row_e c1) 0%nat)). lra.
      + left. pose proof (Rabs_pos (X * d_jz (row_e c1) 0%nat)). lra.
    - intros (i & Hn' & [H|H]); [left|right]; right; exists i; auto. }
  injection E as <-. destruct (Rlt_dec _ _) as [L|L]; [exists ps1, c1; split; auto; now apply N|exists ps1, c1; split; auto]. intros H. apply L. now apply N.
Qed.

(** ** The substep bookkeeping *)
Section Cover.
  Variable St : Type.
  Variable need : R -> St -> option bool.
  Variable adv : R -> St -> option St.
  Variable D : nat.
  Variable Inv : St -> Prop.
  Variables co fi : R -> St -> Prop.
  Variable pc : R -> St -> St -> Prop.
  Hypothesis Hneed : forall X s b, 0 < X -> Inv s -> need X s = Some b -> if b then co X s else fi X s.
  Hypothesis Hadv : forall X s s', 0 < X -> Inv s -> adv X s = Some s' -> pc X s s' /\ Inv s'.
  Fixpoint resume (d : nat) (cnt : nat -> Z) (xi : R) (s s' : St) : Prop :=
    match d with
    | O => s = s'
    | S d0 => exists s1, chained co fi pc (Z.to_nat (cnt d - 1)) (D - d) xi s s1 /\ resume d0 cnt (xi * 10) s1 s'
    end.
  Lemma resume_ext d : forall cnt cnt' xi s s', (forall k, (1 <= k <= d)%nat -> cnt k = cnt' k) -> resume d cnt xi s s' -> resume d cnt' xi s s'.
  Proof.
    induction d as [|d IH]; intros cnt cnt' xi s s' H; cbn [resume]; [auto|]. intros (s1 & A & B). exists s1. rewrite <- (H (S d)) by lia.
    split; auto. eapply IH; [|exact B]. intros; apply H; lia.
  Qed.
  Lemma resume_unwind d : forall cnt xi s s', (forall k, (1 <= k <= d)%nat -> (1 <= cnt k)%Z) ->
    let '(d', cnt', xi') := unwind d cnt xi in
    let cnt2 := fun k => if (k =? d')%nat then (cnt' k - 1)%Z else cnt' k in
    ((d' = 0)%nat -> s = s') -> ((1 <= d')%nat -> exists s1, covered co fi pc (D - d') xi' s s1 /\ resume d' cnt2 xi' s1 s') ->
    resume d cnt xi s s'.
  Proof.
    induction d as [|d IH]; intros cnt xi s s' Hg; cbn [unwind].
    - intros H _. now apply H.
    - destruct (Z.eqb_spec (cnt (S d)) 1) as [E|E].
      + specialize (IH (fun k => if (k =? S d)%nat then 0%Z else cnt k) (xi * 10) s s').
        destruct (unwind d _ _) as [[d' cnt'] xi']. cbn zeta in *. intros H1 H2. cbn [resume]. exists s. rewrite E. split; [constructor|].
        eapply resume_ext; [|apply IH; auto].
        * intros k Hk. cbn. destruct (Nat.eqb_spec k (S d)); [lia|reflexivity].
        * intros k Hk. cbn. destruct (Nat.eqb_spec k (S d)); [lia|]. apply Hg. lia.
      + cbn zeta. intros _ H2. destruct (H2 ltac:(lia)) as (s1 & A & B). cbn [resume] in *. rewrite Nat.eqb_refl in B. destruct B as (s2 & B & C).
        exists s2. split.
        * assert (G : (2 <= cnt (S d))%Z) by (specialize (Hg (S d)); lia).
          replace (Z.to_nat (cnt (S d) - 1)) with (S (Z.to_nat (cnt (S d) - 1 - 1))) by lia. econstructor; eauto.
        * eapply resume_ext; [|exact C]. intros k Hk. cbn. destruct (Nat.eqb_spec k (S d)); [lia|reflexivity].
  Qed.
  Lemma unwind_pos d : forall cnt x, 0 < x -> 0 < snd (unwind d cnt x).
  Proof. induction d as [|d IH]; intros cnt x Hx; cbn [unwind]; [auto|]. destruct (_ =? _)%Z; [|auto]. apply IH. lra. Qed.
  Lemma unwind_good d : forall cnt xi, (forall k, (1 <= k <= d)%nat -> (1 <= cnt k)%Z) ->
    let '(d', cnt', _) := unwind d cnt xi in
    (d' <= d)%nat /\ forall k, (1 <= k <= d')%nat -> (1 <= (if (k =? d')%nat then cnt' k - 1 else cnt' k))%Z.
  Proof.
    induction d as [|d IH]; intros cnt xi Hg; cbn [unwind]; [split; auto; intros; lia|].
    destruct (Z.eqb_spec (cnt (S d)) 1) as [E|E].
    - specialize (IH (fun k => if (k =? S d)%nat then 0%Z else cnt k) (xi * 10)). destruct (unwind d _ _) as [[d' cnt'] xi'].
      destruct IH as [A B]; [|split; auto]. intros k Hk. cbn. destruct (Nat.eqb_spec k (S d)); [lia|]. apply Hg. lia.
    - split; auto. intros k Hk. destruct (Nat.eqb_spec k (S d)) as [->|]; [specialize (Hg (S d)); lia|apply Hg; lia].
  Qed.
  Lemma loop_covered fuel : forall d cnt xi s s', (d <= D)%nat -> (forall k, (1 <= k <= d)%nat -> (1 <= cnt k)%Z) -> 0 < xi -> Inv s ->
    step_loop St need adv D fuel d cnt xi s = Some s' -> exists s1, covered co fi pc (D - d) xi s s1 /\ resume d cnt xi s1 s'.
  Proof.
    induction fuel as [|fuel IH]; intros d cnt xi s s' Hd Hg Hx Hi E; cbn [step_loop] in E; [discriminate|].
    destruct (need xi s) as [nd|] eqn:N; [|discriminate]. cbn [bind] in E. pose proof (Hneed xi s nd Hx Hi N) as Hn.
    destruct (nd && (d <? D)%nat) eqn:B.
    - apply andb_prop in B. destruct B as [-> B]. apply Nat.ltb_lt in B.
      apply IH in E; [|lia| |lra|auto].
      + cbn [resume] in E. rewrite Nat.eqb_refl in E. destruct E as (s1 & A & s2 & A2 & A3). exists s2. split.
        * replace (D - d)%nat with (S (D - S d)) by lia. apply Co_ten; auto.
          change 10%nat with (S (Z.to_nat (10 - 1))). econstructor; eauto.
        * replace (xi / 10 * 10) with xi in A3 by field. eapply resume_ext; [|exact A3]. intros k Hk. cbn. destruct (Nat.eqb_spec k (S d)); [lia|reflexivity].
      + intros k Hk. destruct (Nat.eqb_spec k (S d)); [lia|]. apply Hg. lia.
    - destruct (adv xi s) as [s1|] eqn:A; cbn [bind] in E; [|discriminate]. destruct (Hadv xi s s1 Hx Hi A) as [Hp Hi1].
      exists s1. split.
      + apply Co_piece; auto. destruct nd; [|auto]. cbn in B. apply Nat.ltb_ge in B. left. lia.
      + pose proof (resume_unwind d cnt xi s1 s' Hg) as Ru. pose proof (unwind_pos d cnt xi Hx) as Up. pose proof (unwind_good d cnt xi Hg) as Ug.
        destruct (unwind d cnt xi) as [[d' cnt'] xi']. cbn zeta in *. cbn [snd] in Up. destruct Ug as [Ug1 Ug2].
        apply Ru.
        * intros ->. cbn in E. now injection E.
        * intros L. destruct (Nat.eqb_spec d' 0); [lia|]. apply IH in E; auto. lia.
  Qed.
End Cover.

Lemma layer_ok fuel s rb st st' : grid_ok (v_c s) -> 0 < v_xi s -> calm2 s (parts st) -> step_dxi2 fuel s rb st = Some st' ->
  layer2 s rb st st' /\ calm2 s (parts st').
Proof.
  intros Hc HX Hi E. split; [|eapply inside_kept; [|exact Hi]; eapply step_dxi2_kept; eauto; apply Hc].
  unfold step_dxi2 in E. destruct (Req_EM_T _ _); [|discriminate].
  eapply (loop_covered pstate (need2 fuel s) (adv2 fuel s rb) (v_depth s) (fun st => calm2 s (parts st)) (coarse s) (fine s) (piece s rb)) in E; auto.
  - cbn [resume] in E. destruct E as (s1 & A & <-). rewrite Nat.sub_0_r in A. exact A.
  - intros X t b H1 H2 H3. eapply need_ok; eauto.
  - intros X t t' H1 H2 H3. eapply piece_ok; eauto.
  - lia.
  - intros k Hk. lia.
Qed.
