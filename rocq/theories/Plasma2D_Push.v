(** Lemmas for C26: the 2D plasma step in given fields. *)
From Coq Require Import Reals ZArith List Bool Lra Lia Psatz.
From Verif Require Import Beam2D_Model Beam2D_Spec Plasma2D_Model Plasma2D_Spec Plasma2D_Ode Plasma2D_Dep Plasma2D_Move Plasma2D_Push_Spec.
Import ListNotations.
Open Scope R_scope.

Lemma energy_gt m p : m <> 0 -> vz p < energy m p.
Proof.
  intros H. unfold energy. apply Rle_lt_trans with (Rabs (vz p)); [apply Rle_abs|]. rewrite <- sqrt_Rsqr_abs. apply sqrt_lt_1.
  - apply Rle_0_sqr.
  - nra.
  - unfold Rsqr. assert (0 < m ^ 2) by nra. nra.
Qed.
Lemma energy_pos m p : m <> 0 -> 0 < energy m p.
Proof. intros H. unfold energy. apply sqrt_lt_R0. assert (0 < m ^ 2) by nra. nra. Qed.
Lemma delay_eq m X p : m <> 0 -> delay m X p = energy m p * (X / (energy m p - vz p)).
Proof.
  intros H. unfold delay, velocity, vscale. cbn. pose proof (energy_gt m p H). pose proof (energy_pos m p H). field. repeat split; try lra.
Qed.
Definition vec_of (t : R * R * R) : vec := let '(a, b, d) := t in V a b d.
Lemma kick_impulse q m X ex ey ez b_y b_z p : m <> 0 ->
  vec_of (kick q (ex, ey, ez, b_y, b_z) (X / (energy m p - vz p)) (energy m p) (vx p) (vy p) (vz p)) =
  impulse q m X (V ex ey ez) (V (- ey) b_y b_z) p.
Proof.
  intros H. unfold impulse. rewrite delay_eq by exact H. pose proof (energy_gt m p H). pose proof (energy_pos m p H).
  unfold kick, vec_of, lorentz, velocity, vscale, vadd, cross. cbn. f_equal; field; lra.
Qed.

Lemma fold_beyond R0 r : 0 < R0 -> mirrored R0 r (fold_r R0 r) /\ (beyond R0 r = true <-> R0 < r).
Proof.
  intros H. unfold mirrored, fold_r, beyond. destruct (Rlt_dec r 0); [|destruct (Rlt_dec R0 r)]; split; try lra; split; intros; try lra; try congruence; reflexivity.
Qed.
Lemma outside_iff R0 r : outside R0 r = false <-> 0 <= r <= R0.
Proof. unfold outside. destruct (Rlt_dec r 0); [|destruct (Rlt_dec R0 r)]; split; intros; try congruence; lra. Qed.

(** the step from the fields *)
Lemma push_ok c p ex ey ez b_y b_z r_pred X p0 : 0 < g_rmax c -> m_ p <> 0 ->
  let E := V ex ey ez in let B := V (- ey) b_y b_z in
  let d := gain (q_ p) (m_ p) X E B p0 in
  let h := middle (q_ p) (m_ p) X E B p0 in
  let dt := X / (energy (m_ p) h - vz h) in
  let x := r_ p + (vx p0 + vx d / 2) * dt in let y := (vy p0 + vy d / 2) * dt in
  let rn := sqrt (x ^ 2 + y ^ 2) in
  let p' := fst (push_half c p (ex, ey, ez, b_y, b_z) r_pred X (vx p0, vy p0, vz p0) (X / (energy (m_ p) p0 - vz p0)) (energy (m_ p) p0)) in
  (rn <= g_rmax c ->
     r_ p' = rn /\ q_ p' = q_ p /\ m_ p' = m_ p /\ age_ p' = age_ p - delay (m_ p) X h /\ pz_ p' = vz p0 + vz d /\
     (0 < rn -> pr_ p' * rn = (vx p0 + vx d) * x + (vy p0 + vy d) * y /\ pf_ p' * rn = (vy p0 + vy d) * x - (vx p0 + vx d) * y)) /\
  (g_rmax c < rn -> pr_ p' = 0 /\ pf_ p' = 0 /\ pz_ p' = 0 /\
     (rn <= 2 * g_rmax c -> r_ p' = 2 * g_rmax c - rn /\ q_ p' = q_ p) /\ (2 * g_rmax c < rn -> q_ p' = 0)) /\
  snd (push_half c p (ex, ey, ez, b_y, b_z) r_pred X (vx p0, vy p0, vz p0) (X / (energy (m_ p) p0 - vz p0)) (energy (m_ p) p0)) =
    (if Rlt_dec (2 * g_rmax c) rn then 0 else Rmax (Rmax (Rabs (r_ p - rn)) (Rabs (r_ p - r_pred))) (Rabs (rn - r_pred))).
Proof.
  intros HR Hm E B d h dt x y rn p'. subst p'. unfold push_half.
  pose proof (kick_impulse (q_ p) (m_ p) X ex ey ez b_y b_z p0 Hm) as K1. fold E B in K1.
  destruct (kick (q_ p) (ex, ey, ez, b_y, b_z) _ _ (vx p0) (vy p0) (vz p0)) as [[k1 k2] k3] eqn:EK. cbn [vec_of] in K1.
  assert (Hh : h = V (vx p0 + k1 / 2) (vy p0 + k2 / 2) (vz p0 + k3 / 2)).
  { unfold h, middle. rewrite <- K1. unfold vadd, vscale. cbn. f_equal; lra. }
  assert (Eh : sq4 (m_ p) (vx p0 + k1 / 2) (vy p0 + k2 / 2) (vz p0 + k3 / 2) = energy (m_ p) h) by (rewrite Hh; reflexivity).
  rewrite Eh. replace (vz p0 + k3 / 2) with (vz h) by (rewrite Hh; reflexivity).
  replace (vx p0 + k1 / 2) with (vx h) by (rewrite Hh; reflexivity). replace (vy p0 + k2 / 2) with (vy h) by (rewrite Hh; reflexivity).
  pose proof (energy_gt (m_ p) h Hm) as G. destruct (Req_EM_T (energy (m_ p) h) (vz h)) as [X0|_]; [lra|]. fold dt.
  pose proof (kick_impulse (q_ p) (m_ p) X ex ey ez b_y b_z h Hm) as K2. fold E B dt in K2.
  change (impulse (q_ p) (m_ p) X E B h) with d in K2.
  destruct (kick (q_ p) (ex, ey, ez, b_y, b_z) dt _ (vx h) (vy h) (vz h)) as [[d1 d2] d3] eqn:EK2. cbn [vec_of] in K2.
  assert (D1 : d1 = vx d) by (rewrite <- K2; reflexivity). assert (D2 : d2 = vy d) by (rewrite <- K2; reflexivity).
  assert (D3 : d3 = vz d) by (rewrite <- K2; reflexivity). rewrite D1, D2, D3. clear d1 d2 d3 D1 D2 D3 EK2 K2 EK K1 Hh Eh k1 k2 k3.
  unfold finish. fold x y. fold rn. assert (P : 0 <= rn) by apply sqrt_pos.
  rewrite (delay_eq (m_ p) X h Hm). fold dt.
  destruct (fold_beyond (g_rmax c) rn HR) as [F Bq]. destruct (Rlt_dec rn 0) as [|_]; [lra|].
  split; [|split].
  - intros L. destruct (beyond (g_rmax c) rn) eqn:Eb; [pose proof (proj1 Bq eq_refl); lra|].
    assert (Fr : fold_r (g_rmax c) rn = rn) by (destruct F as [[_ ->]|[[? _]|[? _]]]; lra).
    rewrite Fr. rewrite (proj2 (outside_iff (g_rmax c) rn) ltac:(lra)). cbn [fst r_ pr_ pf_ pz_ q_ m_ age_]. clearbody d rn x y. repeat split; try reflexivity.
    + destruct (Req_EM_T rn 0); [lra|]. field. lra.
    + destruct (Req_EM_T rn 0); [lra|]. field. lra.
  - intros L. assert (Eb : beyond (g_rmax c) rn = true) by (apply Bq, L). rewrite Eb.
    assert (Fr : fold_r (g_rmax c) rn = 2 * g_rmax c - rn) by (destruct F as [[? _]|[[? _]|[_ ->]]]; lra). rewrite Fr.
    destruct (outside (g_rmax c) (2 * g_rmax c - rn)) eqn:Eo.
    + cbn [fst killed r_ pr_ pf_ pz_ q_ m_ age_]. repeat split; auto; intros; exfalso; assert (0 <= 2 * g_rmax c - rn <= g_rmax c -> False) as N by
        (intros Q; apply outside_iff in Q; congruence); apply N; lra.
    + cbn [fst r_ pr_ pf_ pz_ q_ m_ age_]. apply outside_iff in Eo. repeat split; intros; auto; lra.
  - destruct (Rlt_dec (2 * g_rmax c) rn) as [L|L].
    + assert (Fr : fold_r (g_rmax c) rn = 2 * g_rmax c - rn) by (destruct F as [[? _]|[[? _]|[_ ->]]]; lra). rewrite Fr.
      destruct (outside (g_rmax c) (2 * g_rmax c - rn)) eqn:Eo; [reflexivity|]. apply outside_iff in Eo. lra.
    + assert (Eo : outside (g_rmax c) (fold_r (g_rmax c) rn) = false) by (apply outside_iff; destruct F as [[? ->]|[[? ->]|[? ->]]]; lra).
      rewrite Eo. reflexivity.
Qed.

(** fields on the particle *)
Lemma interp_shares n c h r sg (g : nat -> R) : 0 < h -> (2 <= n)%nat -> 0 <= r -> r / h < INR n - 1 / 2 -> c = cell2 h r ->
  let x := r / h - IZR c in
  interpolated n sg h r g =
  (x - 0.5) * (0.5 * (x - 0.5)) * (if (c =? 0)%Z then sg * g 1%nat else g (Z.to_nat c - 1)%nat) + (0.75 - x ^ 2) * g (Z.to_nat c)
  + (x + 0.5) * (0.5 * (x + 0.5)) * g (if (c =? Z.of_nat n - 1)%Z then (Z.to_nat c - 1)%nat else (Z.to_nat c + 1)%nat).
Proof.
  intros Hh Hn Hr Hin Ec x.
  assert (Hc : (0 <= c <= Z.of_nat n - 1)%Z).
  { rewrite Ec. exact (cell2_range h n (mkPl r 0 0 0 0 1 0) (conj Hr Hin) Hh). }
  pose proof (cell2_spec h r) as Hx. cbn zeta in Hx. rewrite <- Ec in Hx. fold x in Hx.
  set (rho := r / h) in *.
  assert (SP : forall j, spline2 (rho - IZR j) = if (j =? c - 1)%Z then weight_quadratic x (-1) else if (j =? c)%Z then weight_quadratic x 0
                          else if (j =? c + 1)%Z then weight_quadratic x 1 else 0) by (intros j; now apply spline_at).
  set (w1 := weight_quadratic x (-1)) in *. set (w2 := weight_quadratic x 0) in *. set (w3 := weight_quadratic x 1) in *.
  replace ((x - 0.5) * (0.5 * (x - 0.5))) with w1 by (unfold w1; cbn [weight_quadratic]; lra).
  replace (0.75 - x ^ 2) with w2 by (unfold w2; cbn [weight_quadratic]; lra).
  replace ((x + 0.5) * (0.5 * (x + 0.5))) with w3 by (unfold w3; cbn [weight_quadratic]; lra).
  set (a := if (c =? 0)%Z then 1%nat else (Z.to_nat c - 1)%nat). set (s := if (c =? 0)%Z then sg else 1). set (b := Z.to_nat c).
  set (d := if (c =? Z.of_nat n - 1)%Z then (b - 1)%nat else (b + 1)%nat).
  replace (if (c =? 0)%Z then sg * g 1%nat else g (b - 1)%nat) with (s * g a) by (unfold s, a, b; destruct (c =? 0)%Z; lra).
  unfold interpolated.
  rewrite (sumN_ext n _ (fun k => ((if (k =? a)%nat then w1 * (s * g a) else 0) + (if (k =? b)%nat then w2 * g b else 0)) + (if (k =? d)%nat then w3 * g d else 0))).
  - rewrite !sumN_plus, !sumN_one; [lra| | |]; unfold a, b, d, b.
    + destruct (Z.eqb_spec c (Z.of_nat n - 1)); lia.
    + lia.
    + destruct (Z.eqb_spec c 0); lia.
  - intros i Hi. unfold node_share. change (r / h) with rho.
    replace (rho + INR i) with (rho - IZR (- Z.of_nat i)) by (rewrite opp_IZR, <- INR_IZR_INZ; lra).
    replace (rho - (2 * INR (n - 1) - INR i)) with (rho - IZR (2 * Z.of_nat (n - 1) - Z.of_nat i))
      by (rewrite minus_IZR, mult_IZR, <- !INR_IZR_INZ; lra).
    rewrite (INR_IZR_INZ i), !SP. unfold a, d, s, b.
    destruct (Z.eqb_spec c 0); destruct (Z.eqb_spec c (Z.of_nat n - 1)); try lia;
    destruct (Nat.eqb_spec i 0); destruct (Nat.eqb_spec i (n - 1)); try lia;
    destruct (Nat.eqb_spec i (Z.to_nat c)); try lia;
    repeat match goal with |- context [(?a =? ?b)%nat] => destruct (Nat.eqb_spec a b); try lia end;
    repeat match goal with |- context [(?a =? ?b)%Z] => destruct (Z.eqb_spec a b); try lia end;
    repeat match goal with |- context [g ?j] => tryif constr_eq j i then fail else replace (g j) with (g i) by (f_equal; lia) end; ring.
Qed.
Lemma fields_interpolated c f amp r : 0 < g_h c -> (2 <= g_n c)%nat -> 0 <= r -> r / g_h c < INR (g_n c) - 1 / 2 ->
  let I := fun sg F => interpolated (g_n c) sg (g_h c) r F in
  let k := cell2 (g_h c) r in
  fields_at c f amp r = (I (-1) (f_er f) + noise_at (g_n c) amp k (r / g_h c - IZR k) (g_h c), I (-1) (f_ef f), I 1 (f_ez f), I (-1) (f_bf f), I 1 (f_bz f)).
Proof.
  intros Hh Hn Hr Hin I k. unfold I. rewrite !(interp_shares (g_n c) k (g_h c) r) by auto.
  assert (Hc : (0 <= k <= Z.of_nat (g_n c) - 1)%Z) by exact (cell2_range (g_h c) (g_n c) (mkPl r 0 0 0 0 1 0) (conj Hr Hin) Hh).
  unfold fields_at. fold k. unfold interpolate2. destruct (Z.leb_spec (Z.of_nat (g_n c)) k); [lia|].
  assert (P : forall a b d e g a' b' d' e' g' : R, a = a' -> b = b' -> d = d' -> e = e' -> g = g' -> (a, b, d, e, g) = (a', b', d', e', g')) by (intros; subst; reflexivity).
  destruct (Z.eqb_spec k (Z.of_nat (g_n c) - 1)), (Z.eqb_spec k 0); try lia; apply P; try ring;
    replace (Z.to_nat k + 1)%nat with 1%nat by lia; ring.
Qed.
Lemma fields_beyond_grid c f amp r : 0 < g_h c -> INR (g_n c) - 1 / 2 <= r / g_h c -> fields_at c f amp r = (0, 0, 0, 0, 0).
Proof.
  intros Hh H. unfold fields_at. set (k := cell2 _ _).
  assert (Hk : (Z.of_nat (g_n c) <= k)%Z).
  { pose proof (cell2_spec (g_h c) r) as S. cbn zeta in S. fold k in S. apply Z.nlt_ge. intros L.
    assert (L' : (k <= Z.of_nat (g_n c) - 1)%Z) by lia. apply IZR_le in L'. rewrite minus_IZR, <- INR_IZR_INZ in L'. lra. }
  unfold interpolate2, noise_at. destruct (Z.leb_spec (Z.of_nat (g_n c)) k); [|lia]. repeat apply f_equal2; lra.
Qed.
(** the declustering field: its divergence (with 1/r taken at the node) is amp * cos *)
Lemma noise_divergence n amp c h x : (0 < c < Z.of_nat n)%Z ->
  derivable_pt_lim (fun t => noise_at n amp c t h) x (amp (Z.to_nat c) * h * cos (PI * x) - noise_at n amp c x h / IZR c).
Proof.
  intros Hc. unfold noise_at. destruct (Z.leb_spec (Z.of_nat n) c); [lia|]. destruct (Z.eqb_spec c 0); [lia|].
  destruct (Req_EM_T (amp (Z.to_nat c)) 0) as [Ea|Ea].
  - rewrite Ea. replace (0 * h * cos (PI * x) - 0 / IZR c) with 0 by (unfold Rdiv; ring). apply derivable_pt_lim_const.
  - assert (C : 0 < IZR c) by (apply IZR_lt; lia). assert (D : PI ^ 2 + 1 / IZR c ^ 2 <> 0).
    { assert (0 < 1 / IZR c ^ 2) by (apply Rdiv_lt_0_compat; [lra|nra]). pose proof PI_RGT_0. nra. }
    set (A := amp (Z.to_nat c)) in *. set (K := PI ^ 2 + 1 / IZR c ^ 2) in *.
    assert (L : derivable_pt_lim (fun t => PI * t) x PI).
    { pose proof (derivable_pt_lim_scal id PI x 1 (derivable_pt_lim_id x)) as H0. rewrite Rmult_1_r in H0. exact H0. }
    pose proof (derivable_pt_lim_comp _ sin x _ _ L (derivable_pt_lim_sin (PI * x))) as S.
    pose proof (derivable_pt_lim_comp _ cos x _ _ L (derivable_pt_lim_cos (PI * x))) as Q.
    pose proof (derivable_pt_lim_scal _ (A * h * PI / K) x _ S) as S'. pose proof (derivable_pt_lim_scal _ (A * h / IZR c / K) x _ Q) as Q'.
    pose proof (derivable_pt_lim_plus _ _ x _ _ S' Q') as T.
    replace (A * h * cos (PI * x) - A * h * ((PI * sin (PI * x) + cos (PI * x) / IZR c) / K) / IZR c)
      with (A * h * PI / K * (cos (PI * x) * PI) + A * h / IZR c / K * (- sin (PI * x) * PI)).
    + eapply derivable_pt_lim_ext; [|exact T]. intros t. unfold plus_fct, mult_real_fct, comp. field. split; lra.
    + field_simplify_eq; [|split; lra]. unfold K. field. lra.
Qed.
(** the path bounds the radial motion *)
Lemma finish_path c p rp p0 d dl gm : 0 < g_rmax c -> 0 <= r_ p <= g_rmax c -> let z := finish c p rp p0 d dl gm in
  q_ (fst z) <> 0 -> Rabs (r_ (fst z) - r_ p) <= snd z.
Proof.
  intros HR Hr z. subst z. unfold finish. destruct p0 as [[a b] e], d as [[a' b'] e'].
  set (rn := sqrt _). assert (P : 0 <= rn) by apply sqrt_pos.
  set (mx := Rmax (Rmax _ _) _). assert (M : Rabs (r_ p - rn) <= mx) by (unfold mx; eapply Rle_trans; [|apply Rmax_l]; apply Rmax_l).
  destruct (fold_beyond (g_rmax c) rn HR) as [F _].
  destruct (outside _ _) eqn:Eo; cbn [fst snd killed q_]; [congruence|]. intros _. cbn [r_]. apply outside_iff in Eo.
  eapply Rle_trans; [|exact M]. destruct F as [[F1 F2]|[[F1 F2]|[F1 F2]]]; rewrite F2.
  - rewrite Rabs_minus_sym. lra.
  - lra.
  - rewrite (Rabs_left1 (r_ p - rn)) by lra. apply Rabs_le. lra.
Qed.
Lemma move_path c f amp X p : 0 < g_rmax c -> 0 <= r_ p <= g_rmax c ->
  q_ (fst (move_one2 c f amp X p)) <> 0 -> Rabs (r_ (fst (move_one2 c f amp X p)) - r_ p) <= snd (move_one2 c f amp X p).
Proof.
  intros HR Hr. unfold move_one2. destruct (Req_EM_T _ _); [cbn; congruence|].
  assert (P : forall e rp p0 dl gm, q_ (fst (push_half c p e rp X p0 dl gm)) <> 0 ->
    Rabs (r_ (fst (push_half c p e rp X p0 dl gm)) - r_ p) <= snd (push_half c p e rp X p0 dl gm)).
  { intros e rp [[a b] d] dl gm. unfold push_half. destruct (kick _ _ _ _ _ _ _) as [[u v] w].
    destruct (Req_EM_T _ _); [cbn; congruence|]. now apply finish_path. }
  destruct (beyond _ _); destruct (outside _ _); try (cbn; congruence); apply P.
Qed.
