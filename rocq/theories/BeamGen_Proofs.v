(** Proofs about the beam generator model. *)
From Coq Require Import Reals ZArith List Bool String Permutation Sorted Lra Lia Psatz.
From Verif Require Import Beam2D_Model Beam2D_Spec Beam2D_Free BeamGen_Model BeamGen_Spec.
Import ListNotations.
Local Open Scope list_scope.
Local Open Scope R_scope.

(** * Segments *)
Lemma fold_lengths l a : fold_left (fun x s => x + s_length s) l a = a + lengths l.
Proof.
  unfold lengths. revert a. induction l as [|s l IH]; intros a; simpl; [lra|]. rewrite IH. lra.
Qed.
Lemma total_lengths b : total_length b = lengths (b_segments b).
Proof. unfold total_length. rewrite fold_lengths. lra. Qed.
Lemma lengths_app l m : lengths (l ++ m) = lengths l + lengths m.
Proof. unfold lengths. induction l as [|s l IH]; simpl; lra. Qed.
Lemma lengths_cons s l : lengths (s :: l) = s_length s + lengths l.
Proof. reflexivity. Qed.
Lemma lengths_nonneg l : lengths_positive l -> 0 <= lengths l.
Proof.
  induction l as [|s l IH]; intros H; [unfold lengths; simpl; lra|].
  rewrite lengths_cons. assert (0 < s_length s) by (apply H; now left).
  assert (0 <= lengths l) by (apply IH; intros t Ht; apply H; now right). lra.
Qed.
Lemma get_segment_sound segs : forall start0 xi s st,
  get_segment segs start0 xi = Some (s, st) ->
  exists before after, segs = before ++ s :: after /\ st = start0 - lengths before /\
                       st - s_length s < xi < st.
Proof.
  induction segs as [|a segs IH]; intros start0 xi s st H; [discriminate|].
  simpl in H.
  assert (N : get_segment segs (start0 - s_length a) xi = Some (s, st) ->
              exists before after, a :: segs = before ++ s :: after /\ st = start0 - lengths before /\
                                   st - s_length s < xi < st).
  { intros G. apply IH in G as (bf & af & -> & -> & B). exists (a :: bf), af.
    rewrite lengths_cons. split; [reflexivity|]. split; [lra|lra]. }
  destruct (Rlt_dec 0 (start0 - xi)) as [A|A]; [destruct (Rlt_dec (start0 - xi) (s_length a)) as [B|B]|]; auto.
  injection H as <- <-. exists [], segs. unfold lengths; simpl. repeat split; lra.
Qed.
Lemma get_segment_complete segs : forall start0 xi s st before after,
  lengths_positive segs -> segs = before ++ s :: after -> st = start0 - lengths before ->
  st - s_length s < xi < st -> get_segment segs start0 xi = Some (s, st).
Proof.
  intros start0 xi s st before. revert segs start0.
  induction before as [|a before IH]; intros segs start0 after HP -> -> HX.
  - unfold lengths in *; simpl in *. rewrite Rminus_0_r in *.
    destruct (Rlt_dec 0 (start0 - xi)); [|lra]. destruct (Rlt_dec (start0 - xi) (s_length s)); [reflexivity|lra].
  - cbn [app get_segment]. rewrite lengths_cons in *.
    assert (0 <= lengths before).
    { apply lengths_nonneg. intros t Ht. apply HP. right. apply in_or_app. now left. }
    assert (0 < s_length a) by (apply HP; now left).
    assert (0 < s_length s) by lra.
    destruct (Rlt_dec 0 (start0 - xi)); [|lra]. destruct (Rlt_dec (start0 - xi) (s_length a)); [lra|].
    eapply IH; eauto; [|lra]. intros t Ht. apply HP. now right.
Qed.
Lemma get_segment_iff segs xi s st :
  lengths_positive segs -> (get_segment segs 0 xi = Some (s, st) <-> occupies segs s st xi).
Proof.
  intros HP. split.
  - intros H. apply get_segment_sound in H as (bf & af & -> & -> & B).
    exists bf, af. repeat split; lra.
  - intros (bf & af & E & -> & B). eapply get_segment_complete; eauto. lra.
Qed.
Lemma occupies_bounds segs s st xi : lengths_positive segs -> occupies segs s st xi -> - lengths segs < xi < 0.
Proof.
  intros HP (bf & af & -> & -> & B). rewrite lengths_app, lengths_cons.
  assert (0 <= lengths bf) by (apply lengths_nonneg; intros t Ht; apply HP, in_or_app; now left).
  assert (0 <= lengths af) by (apply lengths_nonneg; intros t Ht; apply HP, in_or_app; right; now right).
  lra.
Qed.
Lemma some_segment segs : forall start0 xi,
  start0 - lengths segs < xi < start0 ->
  (forall before after, segs = before ++ after -> xi <> start0 - lengths before) ->
  exists s st, get_segment segs start0 xi = Some (s, st).
Proof.
  induction segs as [|a segs IH]; intros start0 xi H NB.
  - unfold lengths in H; simpl in H. lra.
  - rewrite lengths_cons in H. cbn [get_segment].
    destruct (Rlt_dec 0 (start0 - xi)); [|lra].
    destruct (Rlt_dec (start0 - xi) (s_length a)); [eauto|].
    apply IH.
    + assert (xi <> start0 - lengths [a]) by (apply (NB [a] segs); reflexivity).
      unfold lengths in H0; simpl in H0. lra.
    + intros bf af E. specialize (NB (a :: bf) af). rewrite lengths_cons in NB.
      intros F. apply NB; [now rewrite E|lra].
Qed.
Lemma split_lengths (bf af b2 a2 : list segment) s :
  lengths_positive (bf ++ af) -> bf ++ af = b2 ++ s :: a2 ->
  lengths bf <= lengths b2 \/ lengths b2 + s_length s <= lengths bf.
Proof.
  revert b2. induction bf as [|a bf IH]; intros b2 HP E.
  - left. unfold lengths at 1. simpl. apply lengths_nonneg. intros t Ht. apply HP. simpl in *. rewrite E.
    apply in_or_app. now left.
  - destruct b2 as [|c b2]; simpl in E; injection E as -> E.
    + right. rewrite lengths_cons. unfold lengths at 1. simpl.
      assert (0 <= lengths bf); [|lra]. apply lengths_nonneg. intros t Ht. apply HP. right.
      apply in_or_app. now left.
    + rewrite !lengths_cons. destruct (IH b2) as [H|H]; auto; try lra.
      intros t Ht. apply HP. now right.
Qed.
Lemma boundary_none segs xi : lengths_positive segs -> boundary segs xi -> get_segment segs 0 xi = None.
Proof.
  intros HP (bf & af & E & X).
  destruct (get_segment segs 0 xi) as [[s st]|] eqn:G; [|reflexivity]. exfalso.
  apply get_segment_iff in G; [|assumption]. destruct G as (b2 & a2 & E2 & -> & B).
  rewrite E in HP, E2. destruct (split_lengths _ _ _ _ _ HP E2); lra.
Qed.
Lemma outside_none segs xi : lengths_positive segs -> 0 <= xi \/ xi <= - lengths segs -> get_segment segs 0 xi = None.
Proof.
  intros HP H. destruct (get_segment segs 0 xi) as [[s st]|] eqn:G; [|reflexivity]. exfalso.
  apply get_segment_iff in G; [|assumption]. apply occupies_bounds in G; auto. lra.
Qed.
Lemma initial_current_at b s st xi : lengths_positive (b_segments b) -> occupies (b_segments b) s st xi ->
  initial_current b xi = wanted_current b s st xi.
Proof.
  intros HP HO. unfold initial_current. rewrite (proj2 (get_segment_iff _ _ _ _ HP) HO).
  destruct HO as (bf & af & _ & _ & B). unfold segment_initial_current, wanted_current, segment_current.
  destruct (Rlt_dec (st - xi) 0); [lra|]. destruct (Rlt_dec (s_length s) (st - xi)); [lra|]. ring.
Qed.

(** * Layers *)
Lemma ceil_spec x : IZR (ceilR x) - 1 < x <= IZR (ceilR x).
Proof. unfold ceilR. rewrite opp_IZR. destruct (floorR_spec (- x)). lra. Qed.
Lemma lt_ceil (i : nat) x : (i < Z.to_nat (ceilR x))%nat <-> INR i < x.
Proof.
  destruct (ceil_spec x) as [A B]. rewrite INR_IZR_INZ. split; intros H.
  - assert (Z.of_nat i <= ceilR x - 1)%Z by lia. apply IZR_le in H0. rewrite minus_IZR in H0. lra.
  - apply Nat2Z.inj_lt. assert (Z.of_nat i < ceilR x)%Z.
    { apply lt_IZR. lra. }
    rewrite Z2Nat.id; lia.
Qed.
Definition layer_count (b : beam_shape) (step : R) : nat :=
  Z.to_nat (ceilR ((- total_length b - - step / 2) / - step)).
Lemma layer_count_spec b step i : 0 < step -> ((i < layer_count b step)%nat <-> beam_layer b step i).
Proof.
  intros HS. unfold layer_count, beam_layer, layer_centre. rewrite lt_ceil, total_lengths.
  replace ((- lengths (b_segments b) - - step / 2) / - step) with ((lengths (b_segments b) - step / 2) / step)
    by (field; lra).
  split; intros H.
  - apply Rmult_lt_compat_r with (r := step) in H; [|assumption].
    replace ((lengths (b_segments b) - step / 2) / step * step) with (lengths (b_segments b) - step / 2) in H
      by (field; lra). nra.
  - apply Rmult_lt_reg_r with step; [assumption|].
    replace ((lengths (b_segments b) - step / 2) / step * step) with (lengths (b_segments b) - step / 2)
      by (field; lra). nra.
Qed.
Lemma currents_eq b step : rigid_beam_current b step =
  map (fun i => initial_current b (layer_centre step i)) (seq 0 (layer_count b step)).
Proof.
  unfold rigid_beam_current, arange, layer_count. rewrite map_map. apply map_ext. intros i.
  f_equal. unfold layer_centre. lra.
Qed.

(** * Lists *)
Lemma zip_length {A B C} (f : A -> B -> C) l m : List.length l = List.length m ->
  List.length (zip_with f l m) = List.length l.
Proof. revert m; induction l as [|x l IH]; intros [|y m] H; simpl in *; try lia. rewrite IH; lia. Qed.
Lemma zip_in {A B C} (f : A -> B -> C) l m q : In q (zip_with f l m) ->
  exists x y, In x l /\ In y m /\ q = f x y.
Proof.
  revert m; induction l as [|x l IH]; intros [|y m] H; simpl in H; try contradiction.
  destruct H as [<-|H].
  - exists x, y. simpl; auto.
  - apply IH in H as (a & b & Ha & Hb & ->). exists a, b. simpl; auto.
Qed.
Lemma random_sample_length g p n : List.length (random_sample g p n) = n.
Proof. unfold random_sample. now rewrite map_length, seq_length. Qed.
Lemma uniform_length g p lo hi n : List.length (uniform g p lo hi n) = n.
Proof. unfold uniform. now rewrite map_length, random_sample_length. Qed.
Lemma normal_length g p mu s n v : normal g p mu s n = Some v -> List.length v = n.
Proof.
  unfold normal. destruct (Rlt_dec s 0); [discriminate|]. intros [= <-]. now rewrite map_length, seq_length.
Qed.
Lemma random_sample_in g p n u : unit_contract g -> In u (random_sample g p n) -> 0 <= u < 1.
Proof. intros HG H. apply in_map_iff in H as (i & <- & _). apply HG. Qed.
Lemma uniform_in g p lo hi n x : unit_contract g -> In x (uniform g p lo hi n) ->
  exists u, 0 <= u < 1 /\ x = lo + (hi - lo) * u.
Proof.
  intros HG H. apply in_map_iff in H as (u & <- & Hu). exists u. split; [eapply random_sample_in; eauto|reflexivity].
Qed.
Lemma gauss2d_length g p ra s rm n l p' : gauss2d g p ra s rm n = Some (l, p') -> List.length l = n.
Proof.
  unfold gauss2d. destruct (Req_EM_T ra 0); [discriminate|].
  destruct (normal g (p + n) 0 s n) eqn:A; [|discriminate].
  destruct (normal g (p + n + n) 0 s n) eqn:B; [|discriminate]. intros [= <- _].
  apply normal_length in A. apply normal_length in B.
  rewrite zip_length; rewrite map_length, random_sample_length; auto. rewrite zip_length; lia.
Qed.
Lemma gauss3d_length g p ra s rm n xs ys l p' : gauss3d g p ra s rm n xs ys = Some (l, p') -> List.length l = n.
Proof.
  unfold gauss3d. destruct (Req_EM_T ra 0); [discriminate|].
  destruct (normal g (p + n + n) 0 s n) eqn:A; [|discriminate].
  destruct (normal g (p + n + n + n) 0 s n) eqn:B; [|discriminate]. intros [= <- _].
  apply normal_length in A. apply normal_length in B.
  assert (E : List.length (zip_with (fun r phi => (r * cos phi + xs, r * sin phi + ys))
     (map (gauss_radius ra rm) (random_sample g p n)) (uniform g (p + n) 0 (2 * PI) n)) = n).
  { rewrite zip_length; rewrite map_length, random_sample_length; auto. now rewrite uniform_length. }
  rewrite zip_length; rewrite E; auto. rewrite zip_length; lia.
Qed.
Lemma eshape_length e g p en es d l n v p' : eshape_value e g p en es d l n = Some (v, p') -> List.length v = n.
Proof.
  destruct e; simpl; intros H; try (injection H as <- _); rewrite ?repeat_length, ?uniform_length, ?map_length; auto.
  - destruct (normal g p en es n) eqn:A; [|discriminate]. injection H as <- _. eapply normal_length; eauto.
  - apply repeat_length.
Qed.

(** * Radii *)
Lemma cut_pos radius r_max : radius <> 0 -> r_max <> 0 -> 0 < 1 - exp (- r_max ^ 2 / (2 * radius ^ 2)) < 1.
Proof.
  intros H1 H2. split.
  - assert (exp (- r_max ^ 2 / (2 * radius ^ 2)) < 1); [|lra]. rewrite <- exp_0. apply exp_increasing.
    assert (0 < r_max ^ 2 / (2 * radius ^ 2)).
    { apply Rdiv_lt_0_compat; [|assert (0 < radius ^ 2)]; try (rewrite <- Rsqr_pow2; now apply Rsqr_pos_lt). lra. }
    unfold Rdiv in *. lra.
  - assert (H := exp_pos (- r_max ^ 2 / (2 * radius ^ 2))). lra.
Qed.
Lemma exp_radius radius r_max u : radius <> 0 -> r_max <> 0 -> 0 <= u < 1 ->
  exp (- gauss_radius radius r_max u ^ 2 / (2 * radius ^ 2)) = 1 - u * (1 - exp (- r_max ^ 2 / (2 * radius ^ 2))).
Proof.
  intros H1 H2 HU. destruct (cut_pos radius r_max H1 H2) as [A B].
  unfold gauss_radius. set (a := 1 - exp (- r_max ^ 2 / (2 * radius ^ 2))) in *.
  assert (0 < 1 - u * a <= 1) by nra.
  assert (L : ln (1 - u * a) <= 0).
  { rewrite <- ln_1. destruct (Req_dec (1 - u * a) 1) as [->|]; [lra|]. left. apply ln_increasing; lra. }
  rewrite Rpow_mult_distr.
  replace (sqrt (-2 * ln (1 - u * a)) ^ 2) with (-2 * ln (1 - u * a))
    by (rewrite <- Rsqr_pow2, Rsqr_sqrt; lra).
  replace (- (radius ^ 2 * (-2 * ln (1 - u * a))) / (2 * radius ^ 2)) with (ln (1 - u * a)) by (field; auto).
  apply exp_ln. lra.
Qed.
Lemma radius_nonneg radius r_max u : 0 < radius -> 0 <= gauss_radius radius r_max u.
Proof. intros H. unfold gauss_radius. apply Rmult_le_pos; [lra|apply sqrt_pos]. Qed.
Lemma exp_sq_inj radius x y : 0 < radius -> 0 <= x -> 0 <= y ->
  exp (- x ^ 2 / (2 * radius ^ 2)) < exp (- y ^ 2 / (2 * radius ^ 2)) -> y < x.
Proof.
  intros H0 H1 H2 H. apply exp_lt_inv in H.
  assert (P : 0 < 2 * radius ^ 2) by nra.
  apply (Rmult_lt_compat_r _ _ _ P) in H.
  replace (- x ^ 2 / (2 * radius ^ 2) * (2 * radius ^ 2)) with (- x ^ 2) in H by (field; lra).
  replace (- y ^ 2 / (2 * radius ^ 2) * (2 * radius ^ 2)) with (- y ^ 2) in H by (field; lra). nra.
Qed.
Lemma radius_below radius r_max u : 0 < radius -> 0 < r_max -> 0 <= u < 1 -> gauss_radius radius r_max u < r_max.
Proof.
  intros H1 H2 HU. apply (exp_sq_inj radius); try lra; [now apply radius_nonneg|].
  rewrite exp_radius by lra. destruct (cut_pos radius r_max) as [A B]; try lra. nra.
Qed.
Lemma radius_cdf radius r_max u : 0 < radius -> 0 < r_max -> 0 <= u < 1 ->
  cut_gauss_cdf radius r_max (gauss_radius radius r_max u) = u.
Proof.
  intros H1 H2 HU. unfold cut_gauss_cdf. rewrite exp_radius by lra.
  destruct (cut_pos radius r_max) as [A B]; try lra. field. lra.
Qed.
Lemma cdf_range radius r_max x : 0 < radius -> 0 < r_max -> 0 <= x < r_max -> 0 <= cut_gauss_cdf radius r_max x < 1.
Proof.
  intros H1 H2 HX. unfold cut_gauss_cdf. destruct (cut_pos radius r_max) as [A B]; try lra.
  assert (P : 0 < 2 * radius ^ 2) by nra.
  assert (E : forall y, exp (- y ^ 2 / (2 * radius ^ 2)) <= 1).
  { intros y. rewrite <- exp_0. destruct (Req_dec y 0) as [->|NZ].
    - right. f_equal. field. lra.
    - left. apply exp_increasing. assert (0 < y ^ 2 / (2 * radius ^ 2)); [|unfold Rdiv in *; lra].
      apply Rdiv_lt_0_compat; [|assumption]. rewrite <- Rsqr_pow2. now apply Rsqr_pos_lt. }
  split.
  - apply Rmult_le_pos; [specialize (E x); lra|]. left. now apply Rinv_0_lt_compat.
  - apply Rmult_lt_reg_r with (1 - exp (- r_max ^ 2 / (2 * radius ^ 2))); [assumption|].
    unfold Rdiv at 1. rewrite Rmult_assoc, Rinv_l by lra. rewrite Rmult_1_r, Rmult_1_l.
    assert (exp (- r_max ^ 2 / (2 * radius ^ 2)) < exp (- x ^ 2 / (2 * radius ^ 2))); [|lra].
    apply exp_increasing. apply Rmult_lt_reg_r with (2 * radius ^ 2); [assumption|].
    replace (- r_max ^ 2 / (2 * radius ^ 2) * (2 * radius ^ 2)) with (- r_max ^ 2) by (field; lra).
    replace (- x ^ 2 / (2 * radius ^ 2) * (2 * radius ^ 2)) with (- x ^ 2) by (field; lra). nra.
Qed.
Lemma radius_onto radius r_max x : 0 < radius -> 0 < r_max -> 0 <= x < r_max ->
  gauss_radius radius r_max (cut_gauss_cdf radius r_max x) = x.
Proof.
  intros H1 H2 HX. assert (HU := cdf_range radius r_max x H1 H2 HX).
  set (u := cut_gauss_cdf radius r_max x) in *.
  assert (E : exp (- gauss_radius radius r_max u ^ 2 / (2 * radius ^ 2)) = exp (- x ^ 2 / (2 * radius ^ 2))).
  { rewrite exp_radius by lra. unfold u, cut_gauss_cdf. destruct (cut_pos radius r_max) as [A B]; try lra.
    field. lra. }
  assert (N := radius_nonneg radius r_max u H1).
  destruct (Rtotal_order (gauss_radius radius r_max u) x) as [L|[|L]]; auto; exfalso.
  - apply exp_inv in E.
    assert (P : 0 < 2 * radius ^ 2) by nra. apply (f_equal (fun z => z * (2 * radius ^ 2))) in E.
    replace (- gauss_radius radius r_max u ^ 2 / (2 * radius ^ 2) * (2 * radius ^ 2)) with (- gauss_radius radius r_max u ^ 2) in E by (field; lra).
    replace (- x ^ 2 / (2 * radius ^ 2) * (2 * radius ^ 2)) with (- x ^ 2) in E by (field; lra). nra.
  - apply exp_inv in E.
    assert (P : 0 < 2 * radius ^ 2) by nra. apply (f_equal (fun z => z * (2 * radius ^ 2))) in E.
    replace (- gauss_radius radius r_max u ^ 2 / (2 * radius ^ 2) * (2 * radius ^ 2)) with (- gauss_radius radius r_max u ^ 2) in E by (field; lra).
    replace (- x ^ 2 / (2 * radius ^ 2) * (2 * radius ^ 2)) with (- x ^ 2) in E by (field; lra). nra.
Qed.
Lemma radius_mono radius r_max u v : 0 < radius -> 0 < r_max -> 0 <= u -> u < v -> v < 1 ->
  gauss_radius radius r_max u < gauss_radius radius r_max v.
Proof.
  intros H1 H2 H3 H4 H5. apply (exp_sq_inj radius); try (apply radius_nonneg); auto.
  rewrite !exp_radius by lra. destruct (cut_pos radius r_max) as [A B]; try lra. nra.
Qed.
