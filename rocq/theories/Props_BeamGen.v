(** C35, C36, C37, C53, C54: the beam generator. *)
From Coq Require Import Reals ZArith List Bool String Permutation Sorted Lra Lia Psatz.
From Verif Require Import Beam2D_Model Beam2D_Spec Beam2D_Free BeamGen_Model BeamGen_Spec BeamGen_Proofs BeamGen_Beam
  BeamGen_Dict BeamGen_Ex.
Import ListNotations.
Local Open Scope list_scope.
Local Open Scope R_scope.

(** * C36: the beam shape *)
Theorem C36_total_length b : total_length b = lengths (b_segments b).
Proof. apply total_lengths. Qed.
Print Assumptions C36_total_length.

(** Every point inside the beam that is not the end of a segment lies in exactly one segment; that is
    the one found, and the current there is the one the user asked for. *)
Theorem C36_each_point_in_one_segment b xi :
  lengths_positive (b_segments b) -> - lengths (b_segments b) < xi < 0 -> ~ boundary (b_segments b) xi ->
  exists s start,
    occupies (b_segments b) s start xi /\
    (forall s' start', occupies (b_segments b) s' start' xi -> s' = s /\ start' = start) /\
    get_segment (b_segments b) 0 xi = Some (s, start) /\
    initial_current b xi = wanted_current b s start xi.
Proof.
  intros HP HX NB. destruct (some_segment (b_segments b) 0 xi) as (s & st & E); [lra| |].
  - intros bf af EB F. apply NB. exists bf, af. split; [assumption|lra].
  - assert (HO : occupies (b_segments b) s st xi) by (now apply get_segment_iff).
    exists s, st. split; [assumption|]. split; [|split; [assumption|now apply initial_current_at]].
    intros s' st' HO'. apply get_segment_iff in HO'; [|assumption]. rewrite E in HO'. injection HO' as <- <-. auto.
Qed.
Print Assumptions C36_each_point_in_one_segment.
Example C36_each_point_ex : exists b xi, List.length (b_segments b) = 2%nat /\
  lengths_positive (b_segments b) /\ - lengths (b_segments b) < xi < 0 /\ ~ boundary (b_segments b) xi.
Proof.
  exists (mkShape 1 10 [flat_segment 1 0; flat_segment (-1) 0]), (-3 / 2). simpl.
  split; [reflexivity|]. split; [intros s [<-|[<-|[]]]; simpl; lra|]. unfold lengths; simpl. split; [lra|].
  intros (bf & af & E & X). destruct bf as [|? [|? [|? bf]]]; simpl in E; unfold lengths in X; simpl in X; try lra.
  - injection E as <- _. simpl in X. lra.
  - injection E as <- <- _. simpl in X. lra.
  - discriminate.
Qed.

(** Outside the beam there is no segment and no current. *)
Theorem C36_outside b xi :
  lengths_positive (b_segments b) -> 0 <= xi \/ xi <= - lengths (b_segments b) ->
  get_segment (b_segments b) 0 xi = None /\ initial_current b xi = 0.
Proof. intros HP H. unfold initial_current. rewrite outside_none by assumption. auto. Qed.
Print Assumptions C36_outside.

(** The end of a segment belongs to no segment, so "every xi inside the beam belongs to a segment" is
    false as soon as there are two of them: the current drops to zero there. *)
Theorem C36_boundaries_uncovered b xi :
  lengths_positive (b_segments b) -> boundary (b_segments b) xi ->
  get_segment (b_segments b) 0 xi = None /\ initial_current b xi = 0.
Proof. intros HP H. unfold initial_current. rewrite boundary_none by assumption. auto. Qed.
Print Assumptions C36_boundaries_uncovered.
Theorem C36_every_point_refuted :
  ~ (forall segs xi, lengths_positive segs -> - lengths segs < xi < 0 ->
       exists s start, get_segment segs 0 xi = Some (s, start)).
Proof.
  intros H. destruct (H [flat_segment 1 0; flat_segment 1 0] (-1)) as (s & st & E).
  - intros t [<-|[<-|[]]]; simpl; lra.
  - unfold lengths; simpl; lra.
  - rewrite boundary_none in E; [discriminate| |].
    + intros t [<-|[<-|[]]]; simpl; lra.
    + exists [flat_segment 1 0], [flat_segment 1 0]. split; [reflexivity|unfold lengths; simpl; lra].
Qed.
Print Assumptions C36_every_point_refuted.

(** Every named longitudinal shape stays between 0 and 1 inside the segment. *)
Theorem C36_shapes_between_0_and_1 name f dxi l :
  xishape_of name = Some f -> 0 < l -> 0 <= dxi <= l -> 0 <= f dxi l <= 1.
Proof.
  intros H HL HD.
  assert (Q : 0 <= dxi / l <= 1).
  { split; [apply Rmult_le_pos; [lra|left; now apply Rinv_0_lt_compat]|].
    apply Rmult_le_reg_r with l; [assumption|]. unfold Rdiv. rewrite Rmult_assoc, Rinv_l by lra. lra. }
  unfold xishape_of in H.
  repeat match type of H with (if ?c then _ else _) = _ => destruct c; [injection H as <-|] end; try discriminate.
  - destruct (COS_bound (2 * PI * dxi / l)). lra.
  - lra.
  - lra.
  - lra.
  - destruct (COS_bound (PI * dxi / l)). lra.
  - destruct (COS_bound (PI * dxi / l)). lra.
  - change (dxi / l * (dxi / l * 1)) with ((dxi / l) ^ 2). assert (E := exp_pos (- 18 * (dxi / l) ^ 2)).
    assert (exp (- 18 * (dxi / l) ^ 2) <= 1).
    { rewrite <- exp_0. assert (A : - 18 * (dxi / l) ^ 2 <= 0) by nra.
      destruct A as [A| ->]; [left; now apply exp_increasing|lra]. }
    lra.
Qed.
Print Assumptions C36_shapes_between_0_and_1.
Example C36_shapes_ex : exists f, xishape_of "half-cos" = Some f /\ f 0 1 = 0 /\ f 1 1 = 1.
Proof.
  exists (fun dxi l => 0.5 * (1 - cos (PI * dxi / l))). split; [reflexivity|]. split.
  - replace (PI * 0 / 1) with 0 by field. rewrite cos_0. lra.
  - replace (PI * 1 / 1) with PI by field. rewrite cos_PI. lra.
Qed.

(** * C35: the generated beam *)
(** Ids 1..n, each once; non-increasing xi; whatever the draws. *)
Theorem C35_ids_and_order argsort c b g beam :
  argsort_contract argsort -> generate_beam_array argsort c b g = Some beam ->
  Permutation (map g_id beam) (seq 1 (List.length beam)) /\
  StronglySorted (fun p q => g_xi q <= g_xi p) beam.
Proof. intros HA HB. split; [eapply whole_ids|eapply whole_sorted]; eauto. Qed.
Print Assumptions C35_ids_and_order.

(** Every particle lies in a layer of the beam; each layer contains exactly the whole part of
    (particles per layer) * |current of the layer / beam current| particles. *)
Theorem C35_layers argsort c b g beam :
  argsort_contract argsort -> unit_contract g -> 0 < gc_step c -> 0 < half_width c -> 0 < b_ppl b ->
  segments_ok (b_segments b) ->
  generate_beam_array argsort c b g = Some beam ->
  (forall q, In q beam -> exists i, beam_layer b (gc_step c) i /\ in_layer (gc_step c) i (g_xi q)) /\
  (forall i, beam_layer b (gc_step c) i ->
     exists s start n, occupies (b_segments b) s start (layer_centre (gc_step c) i) /\
       whole_part (b_ppl b * Rabs (wanted_current b s start (layer_centre (gc_step c) i) / b_current b)) n /\
       counts (fun q => in_layer (gc_step c) i (g_xi q)) beam n).
Proof.
  intros HA HG HS HW HP HSEG HB. destruct (whole_layers argsort c b g beam HA HG HS HW HP HSEG HB) as [A B].
  split; [exact A|]. intros i Hi. destruct (B i Hi) as (s & st & n & H1 & H2 & H3 & _). eauto 6.
Qed.
Print Assumptions C35_layers.
Example C35_layers_ex : forall three, exists beam,
  argsort_contract isort /\ unit_contract ex_rng /\ segments_ok (b_segments (flat_beam 1 0)) /\
  generate_beam_array isort (ex_config three) (flat_beam 1 0) ex_rng = Some beam /\
  counts (fun q => in_layer (1 / 2) 1 (g_xi q)) beam 3.
Proof.
  intros three. destruct (flat_generates three 1 0 isort ex_rng) as [beam HB]. exists beam.
  split; [exact isort_contract|]. split; [exact ex_rng_unit|]. split; [apply flat_ok|]. split; [exact HB|].
  assert (W : 0 < half_width (ex_config three)) by (destruct three; unfold half_width; simpl; lra).
  destruct (C35_layers isort (ex_config three) (flat_beam 1 0) ex_rng beam isort_contract ex_rng_unit) as [_ B];
    auto; try (simpl; lra); [apply flat_ok|].
  destruct (B 1%nat) as (s & st & n & HO & HWP & HC).
  { unfold beam_layer, layer_centre, lengths. simpl. lra. }
  assert (n = 3)%nat; [|now subst].
  destruct HO as (bf & af & E & _ & _). destruct bf as [|? [|? ?]]; simpl in E; try discriminate.
  injection E as <- _. unfold whole_part, wanted_current in HWP. simpl in HWP.
  replace (1 * 1 * 1 / 1) with 1 in HWP by field. rewrite Rabs_R1 in HWP.
  assert (A1 : INR n <= 3) by lra. assert (A2 : 3 < INR (S n)) by (rewrite S_INR; lra).
  replace 3 with (INR 3) in A1, A2 by (simpl; lra).
  apply INR_le in A1. apply INR_lt in A2. lia.
Qed.

(** Hence the charge of a layer is the wanted one up to one particle: with elementary charge
    e = 2|I|/N a layer of current J holds n*e with 0 <= 2|J| - n*e < e, every particle carrying e. *)
Theorem C35_layer_charge argsort c b g beam i :
  argsort_contract argsort -> unit_contract g -> 0 < gc_step c -> 0 < half_width c -> 0 < b_ppl b ->
  segments_ok (b_segments b) -> generate_beam_array argsort c b g = Some beam ->
  beam_layer b (gc_step c) i ->
  exists n e J, counts (fun q => in_layer (gc_step c) i (g_xi q)) beam n /\
    J = initial_current b (layer_centre (gc_step c) i) /\ e = 2 * Rabs (b_current b) / b_ppl b /\
    0 <= 2 * Rabs J - INR n * e < e /\ (forall q, In q beam -> in_layer (gc_step c) i (g_xi q) -> Rabs (g_qn q) = e).
Proof.
  intros HA HG HS HW HP HSEG HB Hi.
  assert (HC : b_current b <> 0).
  { unfold generate_beam_array in HB. destruct (Req_EM_T (gc_step c) 0); [discriminate|].
    destruct (Req_EM_T (b_ppl b) 0); [discriminate|]. destruct (Req_EM_T (b_current b) 0); [discriminate|]. assumption. }
  destruct (whole_layers argsort c b g beam HA HG HS HW HP HSEG HB) as [_ B].
  destruct (B i Hi) as (s & st & n & HO & HWP & HCN & HGOOD).
  exists n, (2 * Rabs (b_current b) / b_ppl b), (initial_current b (layer_centre (gc_step c) i)).
  split; [assumption|]. split; [reflexivity|]. split; [reflexivity|].
  rewrite (initial_current_at b s st _ (segments_ok_len _ HSEG) HO).
  set (J := wanted_current b s st (layer_centre (gc_step c) i)) in *.
  assert (AC := Rabs_pos_lt _ HC).
  assert (E : Rabs (2 * b_current b / b_ppl b) = 2 * Rabs (b_current b) / b_ppl b).
  { unfold Rdiv. rewrite !Rabs_mult, (Rabs_right 2) by lra. rewrite (Rabs_right (/ b_ppl b)); [reflexivity|].
    apply Rle_ge. left. now apply Rinv_0_lt_compat. }
  split.
  - unfold whole_part in HWP. unfold Rdiv in HWP at 1 2. rewrite Rabs_mult, Rabs_inv in HWP.
    set (e := 2 * Rabs (b_current b) / b_ppl b).
    assert (EP : 0 < e) by (apply Rdiv_lt_0_compat; lra).
    assert (F : b_ppl b * (Rabs J * / Rabs (b_current b)) * e = 2 * Rabs J) by (unfold e; field; lra).
    assert (G1 : INR n * e <= b_ppl b * (Rabs J * / Rabs (b_current b)) * e) by (apply Rmult_le_compat_r; lra).
    assert (G2 : b_ppl b * (Rabs J * / Rabs (b_current b)) * e < (INR n + 1) * e) by (apply Rmult_lt_compat_r; lra).
    lra.
  - intros q Hq HIN. destruct (HGOOD q Hq HIN) as (_ & _ & _ & QN). rewrite QN, E.
    assert (0 <= 2 * Rabs (b_current b) / b_ppl b) by (left; apply Rdiv_lt_0_compat; lra).
    destruct (Rlt_dec (b_current b) 0); [rewrite Rabs_Ropp|]; apply Rabs_right; lra.
Qed.
Print Assumptions C35_layer_charge.

(** Generation succeeds for every description with positive lengths whose draws are possible, provided
    no layer centre coincides with the end of a segment... *)
Theorem C35_succeeds argsort c b g :
  0 < gc_step c -> 0 < b_ppl b -> b_current b <> 0 -> lengths_positive (b_segments b) ->
  (forall s, In s (b_segments b) -> drawable s) ->
  (forall i, beam_layer b (gc_step c) i -> ~ boundary (b_segments b) (layer_centre (gc_step c) i)) ->
  exists beam, generate_beam_array argsort c b g = Some beam.
Proof. apply no_boundary_succeeds. Qed.
Print Assumptions C35_succeeds.
(** ... and always fails if one does. *)
Theorem C35_fails_on_boundary argsort c b g i :
  0 < gc_step c -> lengths_positive (b_segments b) -> beam_layer b (gc_step c) i ->
  boundary (b_segments b) (layer_centre (gc_step c) i) ->
  generate_beam_array argsort c b g = None.
Proof.
  intros HS HL HI HB. unfold generate_beam_array.
  destruct (Req_EM_T (gc_step c) 0); [reflexivity|]. destruct (Req_EM_T (b_ppl b) 0); [reflexivity|].
  destruct (Req_EM_T (b_current b) 0); [reflexivity|].
  rewrite currents_eq, (gen_layers_fails c b g (layer_count b (gc_step c)) i 0 0); [reflexivity| |].
  - apply layer_count_spec in HI; [lia|assumption].
  - intros p. unfold gen_layer. cbv zeta. rewrite layer_xi_eq, boundary_none by assumption. reflexivity.
Qed.
Print Assumptions C35_fails_on_boundary.
Example C35_fails_ex : (* step 2, two segments of length 1: the first layer's centre is the junction *)
  forall argsort three g, generate_beam_array argsort (mkGC 2 three 10) (mkShape 1 3 [flat_segment 1 0; flat_segment 1 0]) g = None.
Proof.
  intros. apply C35_fails_on_boundary with 0%nat; simpl; [lra| | |].
  - intros s [<-|[<-|[]]]; simpl; lra.
  - unfold beam_layer, layer_centre, lengths; simpl; lra.
  - exists [flat_segment 1 0], [flat_segment 1 0]. split; [reflexivity|]. unfold layer_centre, lengths; simpl. lra.
Qed.

(** A particle may lie outside the segment that produced it, even behind the end of the beam: only the
    centre of its layer is in the segment. *)
Theorem C35_particles_inside_beam_refuted :
  ~ (forall argsort c b g beam, argsort_contract argsort -> unit_contract g -> 0 < gc_step c -> 0 < half_width c ->
       0 < b_ppl b -> segments_ok (b_segments b) -> generate_beam_array argsort c b g = Some beam ->
       forall q, In q beam -> - lengths (b_segments b) <= g_xi q).
Proof.
  intros H.
  (* one segment of length 1, step 3/2: one layer [-3/2, 0), the first draw 0 gives xi = -3/2 *)
  set (g := mkRng (fun _ => 0) (fun _ => 0) (fun _ => 0%Z)).
  set (c := mkGC (3 / 2) false 10).
  assert (HG : unit_contract g) by (intros i; simpl; lra).
  assert (BL : forall i, beam_layer (flat_beam 1 0) (3 / 2) i -> i = 0%nat).
  { intros i Hi. unfold beam_layer, layer_centre, lengths in Hi. simpl in Hi. destruct i as [|i]; [reflexivity|].
    rewrite S_INR in Hi. assert (0 <= INR i) by apply pos_INR. lra. }
  destruct (C35_succeeds isort c (flat_beam 1 0) g) as [beam HB]; simpl; try lra.
  - intros s [<-|[]]; simpl; lra.
  - apply flat_drawable.
  - intros i Hi (bf & af & E & X). apply BL in Hi as ->. unfold layer_centre in X; simpl in X.
    destruct bf as [|s [|? ?]]; simpl in E.
    + unfold lengths in X; simpl in X; lra.
    + injection E as <- _. unfold lengths in X; simpl in X; lra.
    + destruct l; discriminate.
  - destruct (C35_layers isort c (flat_beam 1 0) g beam isort_contract HG) as [_ B]; simpl; auto; try lra;
      [unfold half_width; simpl; lra|apply flat_ok|].
    destruct (B 0%nat) as (s & st & n & HO & HWP & HCN).
    { unfold beam_layer, layer_centre, lengths; simpl; lra. }
    destruct HO as (bf & af & E & _ & _). destruct bf as [|? [|? ?]]; simpl in E; try discriminate.
    injection E as <- _. unfold whole_part, wanted_current in HWP. simpl in HWP.
    replace (1 * 1 * 1 / 1) with 1 in HWP by field. rewrite Rabs_R1 in HWP.
    destruct beam as [|q beam].
    { inversion HCN; subst. simpl in HWP. lra. }
    assert (X : g_xi q = - (3 / 2)).
    { destruct (generated_shape _ _ _ _ _ isort_contract HB) as (ps & GL & PE & _).
      assert (Hq : In q (q :: beam)) by (now left). apply (Permutation_in _ PE) in Hq.
      apply In_no_id in Hq as (q' & Hq' & E). injection E as E _ _ _ _. rewrite <- E. clear E.
      rewrite currents_eq in GL. apply gen_layers_split in GL as (Ls & EC & LL & HL).
      rewrite EC in Hq'. apply in_concat in Hq' as (l & Hl & Hql). apply In_nth_error in Hl as [k Hk].
      assert (KL : (k < layer_count (flat_beam 1 0) (3 / 2))%nat).
      { rewrite map_length, seq_length in LL. simpl in LL. rewrite <- LL. apply nth_error_Some. now rewrite Hk. }
      assert (k = 0%nat) by (apply BL, layer_count_spec; [lra|assumption]). subst k.
      destruct (HL 0%nat (initial_current (flat_beam 1 0) (layer_centre (3 / 2) 0))) as (l' & p1 & p2 & A & GLY).
      { simpl gc_step. destruct (layer_count (flat_beam 1 0) (3 / 2)); [lia|reflexivity]. }
      rewrite Hk in A. injection A as <-.
      unfold gen_layer in GLY. cbv zeta in GLY.
      repeat match type of GLY with
      | match ?x with _ => _ end = Some _ => destruct x; try discriminate
      | (if ?x then _ else _) = Some _ => destruct x; try discriminate
      | (let (_, _) := ?x in _) = Some _ => destruct x; try discriminate
      end.
      injection GLY as <- _.
      apply zip_in in Hql as (x & f & Hx & Hf & ->). apply zip_in in Hf as (t & pz & Ht & Hpz & ->).
      cbn [g_xi]. unfold uniform in Hx. apply in_map_iff in Hx as (u & <- & Hu).
      unfold random_sample in Hu. apply in_map_iff in Hu as (j & <- & _). simpl. lra. }
    specialize (H isort c (flat_beam 1 0) g (q :: beam) isort_contract HG).
    assert (- lengths (b_segments (flat_beam 1 0)) <= g_xi q); [|unfold lengths in H0; simpl in H0; lra].
    apply H; simpl; auto; try lra; [unfold half_width; simpl; lra|apply flat_ok].
Qed.
Print Assumptions C35_particles_inside_beam_refuted.
(** What does hold: at most half a step outside the segment. *)
Theorem C35_half_step_from_segment argsort c b g beam q :
  argsort_contract argsort -> unit_contract g -> 0 < gc_step c -> 0 < half_width c -> 0 < b_ppl b ->
  segments_ok (b_segments b) -> generate_beam_array argsort c b g = Some beam -> In q beam ->
  exists s start before after, b_segments b = before ++ s :: after /\ start = - lengths before /\
    start - s_length s - gc_step c / 2 < g_xi q < start + gc_step c / 2.
Proof.
  intros HA HG HS HW HP HSEG HB Hq.
  destruct (whole_layers argsort c b g beam HA HG HS HW HP HSEG HB) as [A B].
  destruct (A q Hq) as (i & HI & HIN). destruct (B i HI) as (s & st & n & (bf & af & E & -> & X) & _).
  exists s, (- lengths bf), bf, af. split; [assumption|]. split; [reflexivity|].
  unfold layer_centre in X. unfold in_layer in HIN. nra.
Qed.
Print Assumptions C35_half_step_from_segment.

(** * C53: the attributes of the particles *)
(** Each particle of a layer has the transverse and energy distribution of the segment its layer's centre
    is in: radius below the cut-off, momenta from that segment's spread, energy from its energy shape. *)
Theorem C53_particles_follow_their_segment argsort c b g beam i :
  argsort_contract argsort -> unit_contract g -> 0 < gc_step c -> 0 < half_width c -> 0 < b_ppl b ->
  segments_ok (b_segments b) -> generate_beam_array argsort c b g = Some beam ->
  beam_layer b (gc_step c) i ->
  exists s start, occupies (b_segments b) s start (layer_centre (gc_step c) i) /\
    forall q, In q beam -> in_layer (gc_step c) i (g_xi q) -> particle_ok c b g s start i q.
Proof.
  intros HA HG HS HW HP HSEG HB Hi.
  destruct (whole_layers argsort c b g beam HA HG HS HW HP HSEG HB) as [_ B].
  destruct (B i Hi) as (s & st & n & HO & _ & _ & HGOOD). exists s, st. split; [assumption|].
  intros q Hq HIN. now apply HGOOD.
Qed.
Print Assumptions C53_particles_follow_their_segment.
(** Charge-to-mass ratio: that of the segment with the sign of the layer's current; charge: the sign of
    the beam's current. *)
Theorem C53_charge_and_ratio argsort c b g beam i :
  argsort_contract argsort -> unit_contract g -> 0 < gc_step c -> 0 < half_width c -> 0 < b_ppl b ->
  segments_ok (b_segments b) -> generate_beam_array argsort c b g = Some beam ->
  beam_layer b (gc_step c) i ->
  exists s start J, occupies (b_segments b) s start (layer_centre (gc_step c) i) /\
    J = wanted_current b s start (layer_centre (gc_step c) i) /\
    forall q, In q beam -> in_layer (gc_step c) i (g_xi q) ->
      (0 < J -> g_qm q = / s_mcr s) /\ (J <= 0 -> g_qm q = - / s_mcr s) /\
      (0 < b_current b -> 0 < g_qn q) /\ (b_current b < 0 -> g_qn q < 0).
Proof.
  intros HA HG HS HW HP HSEG HB Hi.
  destruct (whole_layers argsort c b g beam HA HG HS HW HP HSEG HB) as [_ B].
  destruct (B i Hi) as (s & st & n & HO & _ & _ & HGOOD).
  exists s, st, (wanted_current b s st (layer_centre (gc_step c) i)). split; [assumption|]. split; [reflexivity|].
  intros q Hq HIN. destruct (HGOOD q Hq HIN) as (_ & _ & QM & QN). rewrite QM, QN.
  assert (AP : b_current b <> 0 -> 0 < Rabs (2 * b_current b / b_ppl b)).
  { intros N. apply Rabs_pos_lt. intros K. apply N. apply (f_equal (fun z => z * (b_ppl b / 2))) in K.
    replace (2 * b_current b / b_ppl b * (b_ppl b / 2)) with (b_current b) in K by (field; lra). lra. }
  destruct (Rlt_dec 0 (wanted_current b s st (layer_centre (gc_step c) i))); destruct (Rlt_dec (b_current b) 0);
    repeat split; intros; try lra; try reflexivity; assert (0 < Rabs (2 * b_current b / b_ppl b)) by (apply AP; lra); lra.
Qed.
Print Assumptions C53_charge_and_ratio.
(** So a segment of the opposite sign (negative amplitude) is deposited with the wrong sign of charge. *)
Theorem C53_charge_sign_refuted :
  ~ (forall argsort c b g beam i, argsort_contract argsort -> unit_contract g -> 0 < gc_step c -> 0 < half_width c ->
       0 < b_ppl b -> segments_ok (b_segments b) -> generate_beam_array argsort c b g = Some beam ->
       beam_layer b (gc_step c) i -> initial_current b (layer_centre (gc_step c) i) < 0 ->
       forall q, In q beam -> in_layer (gc_step c) i (g_xi q) -> g_qn q < 0).
Proof.
  intros H. destruct (flat_generates false (-1) 0 isort ex_rng) as [beam HB].
  assert (HI : beam_layer (flat_beam (-1) 0) (1 / 2) 0) by (unfold beam_layer, layer_centre, lengths; simpl; lra).
  assert (W : 0 < half_width (ex_config false)) by (unfold half_width; simpl; lra).
  destruct (whole_layers isort (ex_config false) (flat_beam (-1) 0) ex_rng beam isort_contract ex_rng_unit) as [_ B];
    auto; try (simpl; lra); [apply flat_ok|].
  destruct (B 0%nat HI) as (s & st & n & HO & HWP & HC & HGOOD).
  assert (OC := initial_current_at (flat_beam (-1) 0) s st _ (segments_ok_len _ (flat_ok _ _)) HO).
  destruct HO as (bf & af & E & _ & _). destruct bf as [|? [|? ?]]; simpl in E; try discriminate.
  injection E as <- _. unfold wanted_current in *. simpl in *.
  unfold whole_part in HWP. replace (1 * -1 * 1 / 1) with (-1) in HWP by field.
  rewrite Rabs_left in HWP by lra.
  assert (exists q, In q beam /\ in_layer (1 / 2) 0 (g_xi q)) as (q & Hq & HIN).
  { destruct n as [|n]; [simpl in HWP; lra|]. clear - HC. remember (S n) as m eqn:EM. revert n EM.
    induction HC as [|a l k HP HC IH|a l k HP HC IH]; intros n EM; [discriminate| |].
    - exists a. split; [now left|assumption].
    - destruct (IH n EM) as (q & ? & ?). exists q. split; [now right|assumption]. }
  specialize (H isort (ex_config false) (flat_beam (-1) 0) ex_rng beam 0%nat isort_contract ex_rng_unit).
  assert (L : g_qn q < 0).
  { apply H; auto; try (simpl; lra); try apply flat_ok. }
  destruct (HGOOD q Hq HIN) as (_ & _ & _ & QN). rewrite QN in L. simpl in L. destruct (Rlt_dec 1 0) as [K|K]; [lra|].
  assert (P := Rabs_pos (2 * 1 / 3)). lra.
Qed.
Print Assumptions C53_charge_sign_refuted.

(** * C37: transverse positions *)
(** The map from draws to radii is the inverse of the distribution function of the cut Gaussian: it is
    onto [0, r_max), increasing, and undoes the distribution function. *)
Theorem C37_radius_is_inverse_cdf radius r_max :
  0 < radius -> 0 < r_max ->
  (forall u, 0 <= u < 1 -> 0 <= gauss_radius radius r_max u < r_max /\
                           cut_gauss_cdf radius r_max (gauss_radius radius r_max u) = u) /\
  (forall r, 0 <= r < r_max -> 0 <= cut_gauss_cdf radius r_max r < 1 /\
                               gauss_radius radius r_max (cut_gauss_cdf radius r_max r) = r) /\
  (forall u v, 0 <= u -> u < v -> v < 1 -> gauss_radius radius r_max u < gauss_radius radius r_max v).
Proof.
  intros H1 H2. split; [|split].
  - intros u HU. split; [split; [now apply radius_nonneg|now apply radius_below]|now apply radius_cdf].
  - intros r HR. split; [now apply cdf_range|now apply radius_onto].
  - intros. now apply radius_mono.
Qed.
Print Assumptions C37_radius_is_inverse_cdf.

Lemma zip_nth {A B C} (f : A -> B -> C) l m k q : nth_error (zip_with f l m) k = Some q ->
  exists x y, nth_error l k = Some x /\ nth_error m k = Some y /\ q = f x y.
Proof.
  revert m k; induction l as [|x l IH]; intros [|y m] [|k] H; simpl in H; try discriminate.
  - injection H as <-. exists x, y. auto.
  - apply IH in H as (a & b & ? & ? & ->). exists a, b. auto.
Qed.
Lemma sample_nth g p n k u : nth_error (random_sample g p n) k = Some u -> u = unit_draw g (p + k) /\ (k < n)%nat.
Proof.
  unfold random_sample. rewrite nth_error_map. intros H.
  destruct (nth_error (seq 0 n) k) as [j|] eqn:E; [|discriminate]. simpl in H. injection H as <-.
  assert (L : (k < n)%nat). { rewrite <- (seq_length n 0). apply nth_error_Some. now rewrite E. }
  apply nth_error_nth with (d := 0%nat) in E. rewrite seq_nth in E by assumption. subst j. auto.
Qed.
(** The k-th particle of a layer has the radius whose distribution function is the k-th draw; in 3D the
    azimuth is 2*pi times the corresponding draw of the second group, around the segment's shifted axis. *)
Theorem C37_draws_2d g p radius sigma r_max n l p' k t :
  unit_contract g -> 0 < radius -> 0 < r_max -> gauss2d g p radius sigma r_max n = Some (l, p') ->
  nth_error l k = Some t -> exists r p_r M, t = T2 r p_r M /\ cut_gauss_cdf radius r_max r = unit_draw g (p + k).
Proof.
  intros HG H1 H2 H Ht. unfold gauss2d in H. destruct (Req_EM_T radius 0); [discriminate|].
  unfold normal in H. destruct (Rlt_dec sigma 0); [discriminate|]. injection H as <- _.
  apply zip_nth in Ht as (r & f & Hr & Hf & ->). apply zip_nth in Hf as (pr & pf & _ & _ & ->).
  rewrite nth_error_map in Hr. destruct (nth_error (random_sample g p n) k) as [u|] eqn:E; [|discriminate].
  simpl in Hr. injection Hr as <-. apply sample_nth in E as [-> _]. do 3 eexists. split; [reflexivity|].
  apply radius_cdf; auto.
Qed.
Print Assumptions C37_draws_2d.
Theorem C37_draws_3d g p radius sigma r_max n xs ys l p' k t :
  unit_contract g -> 0 < radius -> 0 < r_max -> gauss3d g p radius sigma r_max n xs ys = Some (l, p') ->
  nth_error l k = Some t ->
  exists r px py, t = T3 (xs + r * cos (2 * PI * unit_draw g (p + n + k))) (ys + r * sin (2 * PI * unit_draw g (p + n + k))) px py /\
    0 <= r < r_max /\ cut_gauss_cdf radius r_max r = unit_draw g (p + k).
Proof.
  intros HG H1 H2 H Ht. unfold gauss3d in H. destruct (Req_EM_T radius 0); [discriminate|].
  unfold normal in H. destruct (Rlt_dec sigma 0); [discriminate|]. injection H as <- _.
  apply zip_nth in Ht as (xy & f & Hxy & Hf & ->). apply zip_nth in Hf as (px & py & _ & _ & ->).
  apply zip_nth in Hxy as (r & phi & Hr & Hphi & ->).
  rewrite nth_error_map in Hr. destruct (nth_error (random_sample g p n) k) as [u|] eqn:E; [|discriminate].
  simpl in Hr. injection Hr as <-. apply sample_nth in E as [-> _].
  unfold uniform in Hphi. rewrite nth_error_map in Hphi.
  destruct (nth_error (random_sample g (p + n) n) k) as [v|] eqn:E; [|discriminate].
  simpl in Hphi. injection Hphi as <-. apply sample_nth in E as [-> _].
  exists (gauss_radius radius r_max (unit_draw g (p + k))), px, py. cbn [fst snd].
  replace (0 + (2 * PI - 0) * unit_draw g (p + n + k)) with (2 * PI * unit_draw g (p + n + k)) by ring.
  split; [f_equal; ring|]. split; [split; [now apply radius_nonneg|apply radius_below; auto]|].
  apply radius_cdf; auto.
Qed.
Print Assumptions C37_draws_3d.
Example C37_draws_ex : exists l p', gauss3d ex_rng 0 1 0.1 9 2 0 0 = Some (l, p') /\ List.length l = 2%nat.
Proof.
  unfold gauss3d, normal. destruct (Req_EM_T 1 0); [lra|]. destruct (Rlt_dec 0.1 0); [lra|].
  do 2 eexists. split; [reflexivity|]. reflexivity.
Qed.
(** An unshifted beam is inside the window, whatever the draws. *)
Theorem C37_inside_window argsort c b g beam q :
  argsort_contract argsort -> unit_contract g -> 0 < gc_step c -> 0 < half_width c -> 0 < b_ppl b ->
  segments_ok (b_segments b) -> generate_beam_array argsort c b g = Some beam ->
  (forall s, In s (b_segments b) -> s_xshift s = 0 /\ s_yshift s = 0) ->
  In q beam ->
  match g_tr q with
  | T2 r _ _ => 0 <= r < half_width c
  | T3 x y _ _ => sqrt (x ^ 2 + y ^ 2) < half_width c
  end.
Proof.
  intros HA HG HS HW HP HSEG HB HSH Hq.
  destruct (whole_layers argsort c b g beam HA HG HS HW HP HSEG HB) as [A B].
  destruct (A q Hq) as (i & HI & HIN). destruct (B i HI) as (s & st & n & HO & _ & _ & HGOOD).
  destruct (HGOOD q Hq HIN) as (_ & (_ & RB & _) & _).
  assert (HIS : In s (b_segments b)) by (destruct HO as (bf & af & -> & _); apply in_or_app; right; now left).
  destruct (HSH s HIS) as [E1 E2]. rewrite E1, E2 in RB.
  assert (M : Rmax (9 / 10 * half_width c) (half_width c - 1) < half_width c) by (apply Rmax_lub_lt; lra).
  destruct (g_tr q) as [r pr m|x y px py]; simpl in RB.
  - lra.
  - replace (x ^ 2 + y ^ 2) with ((x - 0) * ((x - 0) * 1) + (y - 0) * ((y - 0) * 1)) by ring. lra.
Qed.
Print Assumptions C37_inside_window.
(** With a shift nothing keeps the 3D beam in the window: all of it can be generated outside. *)
Theorem C37_shifted_inside_window_refuted :
  ~ (forall argsort c b g beam q, argsort_contract argsort -> unit_contract g -> 0 < gc_step c -> 0 < half_width c ->
       0 < b_ppl b -> segments_ok (b_segments b) -> generate_beam_array argsort c b g = Some beam ->
       In q beam -> forall x y px py, g_tr q = T3 x y px py -> Rabs x <= half_width c).
Proof.
  intros H. destruct (flat_generates true 1 20 isort ex_rng) as [beam HB].
  assert (HI : beam_layer (flat_beam 1 20) (1 / 2) 0) by (unfold beam_layer, layer_centre, lengths; simpl; lra).
  assert (W : 0 < half_width (ex_config true)) by (unfold half_width; simpl; lra).
  destruct (whole_layers isort (ex_config true) (flat_beam 1 20) ex_rng beam isort_contract ex_rng_unit) as [_ B];
    auto; try (simpl; lra); [apply flat_ok|].
  destruct (B 0%nat HI) as (s & st & n & HO & HWP & HC & HGOOD).
  destruct HO as (bf & af & E & _ & _). destruct bf as [|? [|? ?]]; simpl in E; try discriminate.
  injection E as <- _. unfold wanted_current in *. simpl in HWP.
  unfold whole_part in HWP. replace (1 * 1 * 1 / 1) with 1 in HWP by field. rewrite Rabs_R1 in HWP.
  destruct beam as [|q beam]; [inversion HC; subst; simpl in HWP; lra|].
  assert (exists q', In q' (q :: beam) /\ in_layer (1 / 2) 0 (g_xi q')) as (q' & Hq & HIN).
  { destruct n as [|n]; [simpl in HWP; lra|]. clear - HC. remember (S n) as m eqn:EM. revert n EM.
    induction HC as [|a l k HP HC IH|a l k HP HC IH]; intros n EM; [discriminate| |].
    - exists a. split; [now left|assumption].
    - destruct (IH n EM) as (z & ? & ?). exists z. split; [now right|assumption]. }
  destruct (HGOOD q' Hq HIN) as (_ & (SG & RB & _) & _).
  destruct (g_tr q') as [r pr m|x y px py] eqn:ET; simpl in SG; [discriminate|].
  assert (L : Rabs x <= half_width (ex_config true)).
  { apply (H isort (ex_config true) (flat_beam 1 20) ex_rng (q :: beam) q' isort_contract ex_rng_unit) with y px py;
      auto; try (simpl; lra). apply flat_ok. }
  unfold half_width in *. simpl in L, RB.
  assert (XB : Rabs (x - 20) < 9 / 2).
  { eapply Rle_lt_trans; [|eapply Rlt_le_trans; [apply RB|apply Rmax_lub; lra]].
    rewrite <- sqrt_Rsqr_abs. apply sqrt_le_1_alt. unfold Rsqr.
    assert (0 <= (y - 0) * ((y - 0) * 1)) by nra. nra. }
  apply Rabs_def2 in XB. assert (x <= Rabs x) by apply Rle_abs. lra.
Qed.
Print Assumptions C37_shifted_inside_window_refuted.

(** * C54: the description dictionary *)
(** There is one segment per dictionary other than 'default', in order; its parameters are its own, else
    those of a 'default' dictionary placed before it, else the built-in ones. *)
Theorem C54_segments three d b seed :
  describe_beam three (Some d) = Some (b, seed) -> segment_entries d <> [] ->
  List.length (b_segments b) = List.length (segment_entries d) /\
  forall d1 name dict d2, d = d1 ++ (name, BDict dict) :: d2 -> name <> "default"%string ->
    exists s, nth_error (b_segments b) (List.length (segment_entries d1)) = Some s /\
              described_by (builtin_segment ++ defaults_in d1 ++ dict) s.
Proof.
  intros H NE. unfold describe_beam in H.
  apply obind_some in H as (sp & ES & H). apply obind_some in H as (cur & EC & H).
  apply obind_some in H as (ppl & EP & H). apply obind_some in H as (sd & ED & H).
  apply obind_some in H as ([f' segs'] & EF & H). apply obind_some in H as (segs & EG & H).
  injection H as <- <-. cbn [b_segments snd fst] in *.
  destruct (user_keys_spec d _ _ _ _ builtin_segment represents_builtin_segment EF) as (_ & new & E & LN & D).
  simpl in E. subst segs'.
  assert (segs = new).
  { destruct new; [destruct (segment_entries d); [congruence|discriminate]|]. now injection EG as <-. }
  subst segs. split; [assumption|exact D].
Qed.
Print Assumptions C54_segments.
(** Without segment dictionaries the beam is one segment with the default parameters. *)
Theorem C54_no_segments three d b seed :
  describe_beam three (Some d) = Some (b, seed) -> segment_entries d = [] ->
  exists s, b_segments b = [s] /\ described_by (builtin_segment ++ defaults_in d) s.
Proof.
  intros H NE. unfold describe_beam in H.
  apply obind_some in H as (sp & ES & H). apply obind_some in H as (cur & EC & H).
  apply obind_some in H as (ppl & EP & H). apply obind_some in H as (sd & ED & H).
  apply obind_some in H as ([f' segs'] & EF & H). apply obind_some in H as (segs & EG & H).
  injection H as <- <-. cbn [b_segments snd fst] in *.
  destruct (user_keys_spec d _ _ _ _ builtin_segment represents_builtin_segment EF) as (R1 & new & E & LN & D).
  simpl in E. subst segs'. rewrite NE in LN. destruct new; [|discriminate].
  apply obind_some in EG as (s & MS & EG). injection EG as <-. exists s. split; [reflexivity|].
  eapply make_segment_described; eauto.
Qed.
Print Assumptions C54_no_segments.
(** Current, particles per layer and seed are the user's, else 0.05, 2000 and 1; in 3D the current is
    multiplied by 2 * 3.1415926535897932. *)
Theorem C54_shape_values three d b seed :
  describe_beam three (Some d) = Some (b, seed) ->
  exists cur, binding (builtin_shape ++ filter (fun kv => is_name ["current"; "particles_in_layer"; "rng_seed"]%string (fst kv)) (plain_entries d))
                      "current" (PNum cur) /\
    b_current b = (if three then cur * (2 * 3.1415926535897932) else cur) /\
    binding (builtin_shape ++ filter (fun kv => is_name ["current"; "particles_in_layer"; "rng_seed"]%string (fst kv)) (plain_entries d))
            "particles_in_layer" (PNum (b_ppl b)) /\
    binding (builtin_shape ++ filter (fun kv => is_name ["current"; "particles_in_layer"; "rng_seed"]%string (fst kv)) (plain_entries d))
            "rng_seed" (PNum seed).
Proof.
  intros H. unfold describe_beam in H.
  apply obind_some in H as (sp & ES & H). apply obind_some in H as (cur & EC & H).
  apply obind_some in H as (ppl & EP & H). apply obind_some in H as (sd & ED & H).
  apply obind_some in H as ([f' segs'] & EF & H). apply obind_some in H as (segs & EG & H).
  injection H as <- <-. unfold user_shape_params in ES.
  destruct (user_shape_spec d _ _ _ represents_builtin_shape ES) as (m & R1 & -> & _).
  exists cur. cbn [b_current b_ppl]. repeat split; eauto using get_num_binding.
Qed.
Print Assumptions C54_shape_values.
(** A misspelt top-level parameter is rejected. *)
Theorem C54_unknown_parameter_rejected three d k v :
  In (k, BVal v) d -> ~ In k ["current"; "particles_in_layer"; "rng_seed"]%string ->
  describe_beam three (Some d) = None.
Proof.
  intros HIN HK. unfold describe_beam.
  assert (EK : is_shape_key k = false).
  { destruct (is_shape_key k) eqn:E; [|reflexivity]. exfalso. apply HK. now apply is_name_in. }
  destruct (user_shape_params d) as [sp|]; [|reflexivity]. cbn [obind].
  destruct (get_num sp "current"); [|reflexivity]. cbn [obind].
  destruct (get_num sp "particles_in_layer"); [|reflexivity]. cbn [obind].
  destruct (get_num sp "rng_seed"); [|reflexivity]. cbn [obind].
  now rewrite (unknown_key_fails d k v HIN EK).
Qed.
Print Assumptions C54_unknown_parameter_rejected.
(** A misspelt parameter inside a segment dictionary is silently ignored. *)
Theorem C54_unknown_segment_parameter_rejected_refuted :
  ~ (forall three name k v d, name <> "default"%string -> ~ In k (map fst builtin_segment) ->
       In (name, BDict d) [(name, BDict d)] -> In (k, v) d ->
       describe_beam three (Some [(name, BDict d)]) = None).
Proof.
  intros H. specialize (H false "first" "lenght" (PNum 7) [("lenght", PNum 7)])%string.
  assert (E : describe_beam false (Some [("first", BDict [("lenght", PNum 7)])])%string = None).
  { apply H; [discriminate| |now left|now left]. simpl.
    intros K. repeat match type of K with _ \/ _ => destruct K as [K|K]; [discriminate|] end. contradiction. }
  discriminate.
Qed.
Print Assumptions C54_unknown_segment_parameter_rejected_refuted.
Example C54_ex : exists b seed s1 s2, describe_beam true
    (Some [("head", BDict [("length", PNum 2)]); ("default", BDict [("radius", PNum 3)]);
           ("tail", BDict [("ampl", PNum (-1))]); ("current", BVal (PNum 0.1))])%string = Some (b, seed) /\
  b_segments b = [s1; s2] /\ s_radius s1 = 1 /\ s_length s1 = 2 /\ s_radius s2 = 3 /\ s_ampl s2 = -1 /\ seed = 1.
Proof. do 4 eexists. split; [reflexivity|]. split; [reflexivity|]. simpl. auto. Qed.
