(** C68: the named profiles and energy spectra of a beam segment. *)
From Coq Require Import Reals ZArith List Bool String Lra Lia.
From Verif Require Import Beam2D_Model BeamGen_Model BeamGen_Spec.
Import ListNotations.
Local Open Scope list_scope.
Local Open Scope R_scope.

(** The profile called [name] has these values at the head, in the middle and at the tail of a segment of any length. *)
Definition profile (name : string) (head middle tail : R) : Prop :=
  exists f, xishape_of name = Some f /\ forall l, 0 < l -> f 0 l = head /\ f (l / 2) l = middle /\ f l l = tail.
(** It rises (falls) strictly from distance a*l to b*l behind the head. *)
Definition rising (name : string) (a b : R) : Prop :=
  exists f, xishape_of name = Some f /\ forall l x y, 0 < l -> a * l <= x -> x < y -> y <= b * l -> f x l < f y l.
Definition falling (name : string) (a b : R) : Prop :=
  exists f, xishape_of name = Some f /\ forall l x y, 0 < l -> a * l <= x -> x < y -> y <= b * l -> f y l < f x l.
(** Two profiles are each other's mirror image. *)
Definition mirrored (n n' : string) : Prop :=
  exists f f', xishape_of n = Some f /\ xishape_of n' = Some f' /\ forall l x, 0 < l -> f' x l = f (l - x) l.

Theorem C68_names name :
  (xishape_of name <> None <-> In name ["cos"; "c"; "t"; "T"; "l"; "half-cos"; "h"; "b"; "gaussian"; "g"]%string) /\
  (eshape_of name <> None <-> In name ["monoenergetic"; "m"; "uniform"; "u"; "linear"; "l"; "gaussian"; "g"; "2"; "3"; "4"; "5"; "6"; "7"; "8"; "9"]%string).
Proof.
  split; split.
  - unfold xishape_of, is_name. cbn [existsb]. intros H.
    repeat match type of H with context [String.eqb name ?s] => let E := fresh in destruct (String.eqb name s) eqn:E; [apply String.eqb_eq in E; subst; cbn; tauto|] end. cbn in H. congruence.
  - intros H. cbn in H. repeat (destruct H as [<-|H]; [discriminate|]). destruct H.
  - unfold eshape_of, is_name. cbn [existsb]. intros H.
    repeat match type of H with context [String.eqb name ?s] => let E := fresh in destruct (String.eqb name s) eqn:E; [apply String.eqb_eq in E; subst; cbn; tauto|] end. cbn in H. congruence.
  - intros H. cbn in H. repeat (destruct H as [<-|H]; [discriminate|]). destruct H.
Qed.
Print Assumptions C68_names.
Theorem C68_short_names : (xishape_of "c" = xishape_of "cos" /\ xishape_of "h" = xishape_of "half-cos" /\ xishape_of "g" = xishape_of "gaussian" /\
  eshape_of "m" = eshape_of "monoenergetic" /\ eshape_of "u" = eshape_of "uniform" /\ eshape_of "l" = eshape_of "linear" /\ eshape_of "g" = eshape_of "gaussian")%string.
Proof. repeat split; reflexivity. Qed.
Print Assumptions C68_short_names.

Lemma ratio_half l : 0 < l -> PI * (l / 2) / l = PI / 2.
Proof. intros. field. lra. Qed.
Theorem C68_profile_values :
  profile "cos" 0 1 0 /\ profile "t" 0 (1 / 2) 1 /\ profile "T" 1 (1 / 2) 0 /\ profile "l" 1 1 1 /\ profile "half-cos" 0 (1 / 2) 1 /\ profile "b" 1 (1 / 2) 0.
Proof.
  repeat split; (eexists; split; [reflexivity|]); intros l Hl; cbn beta; repeat split; try (field; lra); try lra.
  - replace (2 * PI * 0 / l) with 0 by (field; lra). rewrite cos_0. lra.
  - replace (2 * PI * (l / 2) / l) with PI by (field; lra). rewrite cos_PI. lra.
  - replace (2 * PI * l / l) with (2 * PI) by (field; lra). rewrite cos_2PI. lra.
  - replace (PI * 0 / l) with 0 by (field; lra). rewrite cos_0. lra.
  - rewrite ratio_half, cos_PI2 by exact Hl. lra.
  - replace (PI * l / l) with PI by (field; lra). rewrite cos_PI. lra.
  - replace (PI * 0 / l) with 0 by (field; lra). rewrite cos_0. lra.
  - rewrite ratio_half, cos_PI2 by exact Hl. lra.
  - replace (PI * l / l) with PI by (field; lra). rewrite cos_PI. lra.
Qed.
Print Assumptions C68_profile_values.

Lemma frac_lt l x y : 0 < l -> x < y -> x / l < y / l.
Proof. intros. unfold Rdiv. apply Rmult_lt_compat_r; [now apply Rinv_0_lt_compat|assumption]. Qed.
Lemma frac_lo l a x : 0 < l -> a * l <= x -> a <= x / l.
Proof. intros. apply Rmult_le_reg_r with l; [assumption|]. unfold Rdiv. rewrite Rmult_assoc, Rinv_l by lra. lra. Qed.
Lemma frac_hi l b x : 0 < l -> x <= b * l -> x / l <= b.
Proof. intros. apply Rmult_le_reg_r with l; [assumption|]. unfold Rdiv. rewrite Rmult_assoc, Rinv_l by lra. lra. Qed.
Lemma frac_pi l x : PI * x / l = PI * (x / l).
Proof. unfold Rdiv. ring. Qed.
Lemma frac_2pi l x : 2 * PI * x / l = 2 * PI * (x / l).
Proof. unfold Rdiv. ring. Qed.
Theorem C68_profile_slopes :
  rising "t" 0 1 /\ falling "T" 0 1 /\ rising "half-cos" 0 1 /\ falling "b" 0 1 /\ rising "cos" 0 (1 / 2) /\ falling "cos" (1 / 2) 1 /\ falling "gaussian" 0 1.
Proof.
  assert (P := PI_RGT_0).
  assert (D : forall u v, 0 <= u -> u < v -> v <= 1 -> cos (PI * v) < cos (PI * u)).
  { intros u v H1 H2 H3. apply cos_decreasing_1; nra. }
  repeat split; (eexists; split; [reflexivity|]); intros l x y Hl Hx Hxy Hy; cbn beta; assert (F := frac_lt l x y Hl Hxy); assert (A := frac_lo l _ x Hl Hx); assert (B := frac_hi l _ y Hl Hy); try lra.
  - rewrite !frac_pi. specialize (D (x / l) (y / l)). lra.
  - rewrite !frac_pi. specialize (D (x / l) (y / l)). lra.
  - rewrite !frac_2pi. specialize (D (2 * (x / l)) (2 * (y / l))). replace (2 * PI * (x / l)) with (PI * (2 * (x / l))) by ring. replace (2 * PI * (y / l)) with (PI * (2 * (y / l))) by ring. lra.
  - rewrite !frac_2pi. assert (cos (2 * PI * (x / l)) < cos (2 * PI * (y / l))) by (apply cos_increasing_1; nra). lra.
  - assert (exp (- 18 * (y / l) ^ 2) < exp (- 18 * (x / l) ^ 2)) by (apply exp_increasing; nra). lra.
Qed.
Print Assumptions C68_profile_slopes.
Theorem C68_profile_mirrors : mirrored "t" "T" /\ mirrored "half-cos" "b" /\ mirrored "cos" "cos" /\ mirrored "l" "l".
Proof.
  repeat split; (do 2 eexists; split; [reflexivity|]; split; [reflexivity|]); intros l x Hl; cbn beta; try (field; lra); try reflexivity.
  - replace (PI * (l - x) / l) with (PI - PI * x / l) by (field; lra). rewrite cos_minus, cos_PI, sin_PI. lra.
  - replace (2 * PI * (l - x) / l) with (2 * PI - 2 * PI * x / l) by (field; lra). rewrite cos_minus, cos_2PI, sin_2PI. lra.
Qed.
Print Assumptions C68_profile_mirrors.
(** Linear profiles are straight lines. *)
Theorem C68_linear_profiles : forall l x, 0 < l ->
  (exists f, xishape_of "t" = Some f /\ f x l = x / l) /\ (exists f, xishape_of "T" = Some f /\ f x l = (l - x) / l).
Proof. intros l x Hl. split; eexists; (split; [reflexivity|]); cbn beta; field; lra. Qed.
Print Assumptions C68_linear_profiles.
(** A gaussian segment starts at half the amplitude and only falls: it is not a bell and never reaches its amplitude. *)
Theorem C68_gaussian_reaches_amplitude_refuted :
  exists f, xishape_of "gaussian" = Some f /\ forall l x, 0 < l -> f x l <= 1 / 2 /\ (0 <= x <= l -> f x l = 1 / 2 -> x = 0).
Proof.
  eexists. split; [reflexivity|]. intros l x Hl. cbn beta.
  assert (Z : forall z, z <= 0 -> exp z <= 1) by (intros z [H| ->]; [left; rewrite <- exp_0; now apply exp_increasing|rewrite exp_0; lra]). split.
  - specialize (Z (- 18 * (x / l) ^ 2)). assert (0 <= (x / l) ^ 2) by apply pow2_ge_0. lra.
  - intros Hx E. assert (exp (- 18 * (x / l) ^ 2) = exp 0) by (rewrite exp_0; lra). apply exp_inv in H.
    assert (S : (x / l) ^ 2 = 0) by lra. assert (x / l = 0) by nra. apply (f_equal (fun z => z * l)) in H0. unfold Rdiv in H0. rewrite Rmult_assoc, Rinv_l in H0 by lra. lra.
Qed.
Print Assumptions C68_gaussian_reaches_amplitude_refuted.

(** Longitudinal momenta of n particles at distance dxi behind the head of a segment of length l. *)
Definition momenta (name : string) (g : rng) (p : nat) (energy espread dxi l : R) (n : nat) (v : list R) : Prop :=
  exists e p', eshape_of name = Some e /\ eshape_value e g p energy espread dxi l n = Some (v, p').
Theorem C68_energy_spectra : forall g p energy espread dxi l n v, unit_contract g -> 0 < l ->
  (momenta "monoenergetic" g p energy espread dxi l n v -> v = repeat energy n) /\
  (momenta "uniform" g p energy espread dxi l n v -> List.length v = n /\ forall x, In x v -> Rmin energy espread <= x <= Rmax energy espread) /\
  (momenta "linear" g p energy espread dxi l n v -> v = repeat (espread + (energy - espread) * (dxi / l)) n) /\
  (momenta "gaussian" g p energy espread dxi l n v -> 0 <= espread /\ v = map (fun i => energy + espread * normal_draw g (p + i)) (seq 0 n)).
Proof.
  intros g p energy espread dxi l n v Hu Hl. repeat split.
  - intros (e & p' & E & V). injection E as <-. cbn in V. congruence.
  - destruct H as (e & p' & E & V). injection E as <-. cbn in V. injection V as <- _. unfold uniform, random_sample. now rewrite !map_length, seq_length.
  - destruct H as (e & p' & E & V). injection E as <-. cbn in V. injection V as <- _. unfold uniform, random_sample in H0. rewrite map_map in H0. apply in_map_iff in H0 as (i & <- & _).
    assert (U := Hu (p + i)%nat). unfold Rmin. destruct (Rle_dec energy espread); nra.
  - destruct H as (e & p' & E & V). injection E as <-. cbn in V. injection V as <- _. unfold uniform, random_sample in H0. rewrite map_map in H0. apply in_map_iff in H0 as (i & <- & _).
    assert (U := Hu (p + i)%nat). unfold Rmax. destruct (Rle_dec energy espread); nra.
  - intros (e & p' & E & V). injection E as <-. cbn in V. injection V as <- _. f_equal. field. lra.
  - destruct H as (e & p' & E & V). injection E as <-. cbn in V. unfold normal in V. destruct (Rlt_dec espread 0); [discriminate|lra].
  - destruct H as (e & p' & E & V). injection E as <-. cbn in V. unfold normal in V. destruct (Rlt_dec espread 0); [discriminate|]. congruence.
Qed.
Print Assumptions C68_energy_spectra.
(** The spectrum called k (2 to 9) has k equally spaced levels, from one given energy to the other... *)
Theorem C68_energy_levels : forall g p energy espread dxi l n v k, (2 <= k <= 9)%Z ->
  momenta (nth (Z.to_nat k) [""; ""; "2"; "3"; "4"; "5"; "6"; "7"; "8"; "9"] ""%string)%string g p energy espread dxi l n v ->
  exists j, (0 <= j < k)%Z /\ v = repeat (espread + IZR j * ((energy - espread) / IZR (k - 1))) n.
Proof.
  intros g p energy espread dxi l n v k Hk (e & p' & E & V). exists (randint g p k). split; [apply Z.mod_pos_bound; lia|].
  assert (e = EMulti k) as ->.
  { assert (C : (k = 2 \/ k = 3 \/ k = 4 \/ k = 5 \/ k = 6 \/ k = 7 \/ k = 8 \/ k = 9)%Z) by lia. repeat (destruct C as [->|C]; [injection E as <-; reflexivity|]). subst. injection E as <-. reflexivity. }
  cbn in V. injection V as <- _. rewrite minus_IZR. assert (IZR k - 1 <> 0). { assert (2 <= IZR k) by (apply (IZR_le 2); lia). lra. }
  replace (espread + IZR (randint g p k) * ((energy - espread) / (IZR k - 1))) with (espread + IZR (randint g p k) * (energy - espread) / (IZR k - 1)) by (field; assumption).
  induction n; cbn; [reflexivity|]. now f_equal.
Qed.
Print Assumptions C68_energy_levels.
(** ... but one level is drawn for the whole layer, so the particles of a layer do not share out among the levels. *)
Theorem C68_levels_within_a_layer_refuted : forall g p energy espread dxi l n v,
  momenta "5" g p energy espread dxi l n v -> forall x y, In x v -> In y v -> x = y.
Proof.
  intros g p energy espread dxi l n v H x y Hx Hy. destruct (C68_energy_levels g p energy espread dxi l n v 5 ltac:(lia) H) as (j & _ & ->).
  apply repeat_spec in Hx, Hy. congruence.
Qed.
Print Assumptions C68_levels_within_a_layer_refuted.
Example C68_nonvacuous : let g := mkRng (fun _ => 1 / 2) (fun _ => 0) (fun _ => 3%Z) in unit_contract g /\
  momenta "5" g 0 1000 200 1 2 3 [800; 800; 800] /\ momenta "uniform" g 0 1000 200 1 2 2 [600; 600] /\ momenta "linear" g 0 1000 200 1 2 1 [600].
Proof.
  cbn zeta. split; [intros i; cbn; lra|]. repeat split; do 2 eexists; (split; [reflexivity|]); cbn; repeat f_equal; try lra.
  all: unfold randint; cbn; lra.
Qed.
