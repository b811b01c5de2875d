(** C10-C16 (and the layer condition of C08) for the axisymmetric beam code. *)
From Coq Require Import Reals ZArith List Bool Permutation Sorting.Sorted Lra Lia.
From Verif Require Import Beam2D_Model Beam2D_Spec Beam2D_Proofs Beam2D_Push Beam2D_Free Beam2D_Dep
  Beam2D_Total Beam2D_Ex.
Import ListNotations.
Open Scope R_scope.

(** C10.  Asked for consecutive layers i, i+1, ..., the source answers request number k with exactly
    the particles of that layer (the first layer is closed at its top), in order of decreasing xi,
    and the declared size is the number of particles. *)
Theorem C10_each_layer_gets_its_particles : forall sort_xi beam dxi i n,
  sort_xi_ok sort_xi -> 0 < dxi -> IZR (i + Z.of_nat n) * dxi <= 99999 ->
  (forall p, In p beam -> xi p <= - (IZR i * dxi)) ->
  exists sl src', ask (new_source sort_xi beam) dxi i n = Some (sl, src') /\
    length sl = n /\
    forall k, (k < n)%nat ->
      let x := filter (fun p => if Nat.eqb k 0 then in_xi_layer_top dxi i p
                                else in_xi_layer dxi (i + Z.of_nat k) p) (sort_xi beam) in
      nth k sl (0%nat, []) = (length x, map fresh x).
Proof. exact source_delivers. Qed.
Print Assumptions C10_each_layer_gets_its_particles.

(** Together the slices contain every particle not behind the last requested layer exactly once, in
    order of non-increasing xi. *)
Theorem C10_delivered_exactly_once : forall sort_xi beam dxi i n,
  sort_xi_ok sort_xi -> 0 < dxi -> IZR (i + Z.of_nat n) * dxi <= 99999 -> (0 < n)%nat ->
  (forall p, In p beam -> xi p <= - (IZR i * dxi)) ->
  exists sl src', ask (new_source sort_xi beam) dxi i n = Some (sl, src') /\
    Permutation (concat (map snd sl))
      (map fresh (filter (fun p => if Rle_dec (- (IZR (i + Z.of_nat n) * dxi)) (xi p) then true else false) beam)) /\
    StronglySorted (fun a b => xi (pt b) <= xi (pt a)) (concat (map snd sl)).
Proof. exact delivered_exactly_once. Qed.
Print Assumptions C10_delivered_exactly_once.

(** The sorting hypotheses can be met, and a beam spread over three layers meets the others. *)
Example C10_nonvacuous : sort_xi_ok isort /\ sort_bool_ok bsort /\
  (forall p, In p [mkPart (-0.5) 1 1 0 0 1 1 1; mkPart (-2.5) 1 1 0 0 1 1 2; mkPart 0 1 1 0 0 1 1 3] -> xi p <= - (IZR 0 * 1)) /\
  IZR (0 + Z.of_nat 3) * 1 <= 99999.
Proof.
  split; [exact isort_ok|]. split; [exact bsort_ok|]. split.
  - intros p [<-|[<-|[<-|[]]]]; cbn; lra.
  - cbn. lra.
Qed.

(** C11.  The wanted property fails: one particle ahead of the first requested layer makes every
    later request come back empty, whatever the rest of the beam. *)
Theorem C11_particle_ahead_blocks_everything : forall sort_xi beam dxi i n p,
  sort_xi_ok sort_xi -> 0 < dxi -> In p beam -> - (IZR i * dxi) < xi p ->
  exists s, ask (new_source sort_xi beam) dxi i n = Some (repeat (0%nat, []) n, s).
Proof. exact particle_ahead_blocks. Qed.
Print Assumptions C11_particle_ahead_blocks_everything.

Theorem C11_particles_behind_still_delivered_refuted :
  ~ (forall sort_xi beam dxi n, sort_xi_ok sort_xi -> 0 < dxi -> IZR (Z.of_nat n) * dxi <= 99999 ->
      exists sl s, ask (new_source sort_xi beam) dxi 0 n = Some (sl, s) /\
        forall k p, (0 < k < n)%nat -> In p beam -> in_xi_layer dxi (Z.of_nat k) p = true ->
          In (fresh p) (snd (nth k sl (0%nat, [])))).
Proof.
  intros H. pose (p := mkPart (-1.5) 1 1 0 0 1 1 2%Z). pose (a := mkPart 1 1 1 0 0 1 1 1%Z).
  destruct (H isort [a; p] 1 2%nat isort_ok Rlt_0_1 ltac:(cbn; lra)) as (sl & s & E & D).
  destruct (particle_ahead_blocks isort [a; p] 1 0%Z 2%nat a isort_ok Rlt_0_1 (or_introl eq_refl) ltac:(cbn; lra)) as (s' & E').
  rewrite E in E'. injection E' as -> ->.
  specialize (D 1%nat p ltac:(lia) (or_intror (or_introl eq_refl))). apply D.
  unfold in_xi_layer, p. cbn. destruct (Rle_dec _ _); [|lra]. destruct (Rlt_dec _ _); [reflexivity|lra].
Qed.
Print Assumptions C11_particles_behind_still_delivered_refuted.

(** C12.  Whatever order argsort returns, splitting a moved layer gives an exact partition. *)
Theorem C12_split_is_exact_partition : forall sort_bool l xi_end ls st mv, sort_bool_ok sort_bool ->
  split_beam_slice sort_bool l xi_end = (ls, st, mv) ->
  Permutation (ls ++ st ++ mv) l /\
  (forall b, In b ls <-> In b l /\ lost b = true) /\
  (forall b, In b st <-> In b l /\ lost b = false /\ rem b = 0%nat /\ xi_end <= xi (pt b)) /\
  (forall b, In b mv <-> In b l /\ lost b = false /\ ((0 < rem b)%nat \/ xi (pt b) < xi_end)).
Proof.
  intros sb l xe ls st mv Hok E. split; [eapply split_perm; eauto|].
  destruct (split_spec _ _ _ _ _ _ Hok E) as (P1 & P2 & P3).
  assert (M : forall b, moving_b xe b = true <-> (0 < rem b)%nat \/ xi (pt b) < xe).
  { intros b. unfold moving_b. rewrite orb_true_iff, Nat.ltb_lt. destruct (Rlt_dec _ _); intuition discriminate. }
  assert (Q : forall (x y : list bpart) b, Permutation x y -> (In b x <-> In b y)).
  { intros x y b Hp. split; apply Permutation_in; auto. now apply Permutation_sym. }
  split; [|split]; intros b.
  - rewrite (Q _ _ b P1), filter_In. reflexivity.
  - rewrite (Q _ _ b P2), filter_In, andb_true_iff, !negb_true_iff. split; intros (? & ? & Hm); repeat split; auto.
    + destruct (rem b) eqn:Er; auto. exfalso. assert (X : moving_b xe b = true) by (apply M; lia). congruence.
    + destruct (Rle_dec xe (xi (pt b))); auto. exfalso. assert (X : moving_b xe b = true) by (apply M; lra). congruence.
    + destruct (moving_b xe b) eqn:X; auto. exfalso. apply M in X. destruct Hm as [Hr Hx]. destruct X; [lia|lra].
  - rewrite (Q _ _ b P3), filter_In, andb_true_iff, !negb_true_iff, M. reflexivity.
Qed.
Print Assumptions C12_split_is_exact_partition.

(** C13.  After any number of layers, every particle the source held is (with its id, charge and
    charge-to-mass ratio) in exactly one of: drained, lost, waiting in the current layer, not yet
    handed out.  Drained particles have been advanced by substeps that add up to one time step. *)
Theorem C13_no_particle_created_or_dropped :
  forall sort_bool, sort_bool_ok sort_bool ->
  forall Pl plasma pl_fields h c src0, 0 <= xi_step c ->
  forall n i s' rho prev pl, time_step c <> 0 ->
    xi_loop sort_bool Pl plasma pl_fields h c n i (mkLS Pl src0 [] [] [] rho prev pl) = Some s' ->
    Permutation (idents (undelivered src0))
      (idents (concat (ls_drain Pl s') ++ ls_lost Pl s' ++ ls_move Pl s' ++ undelivered (ls_src Pl s'))) /\
    (forall b, In b (ls_lost Pl s') -> lost b = true) /\
    (forall b, In b (concat (ls_drain Pl s')) -> lost b = false /\ rem b = 0%nat /\
       IZR (i + Z.of_nat n - 1) * - xi_step c <= xi (pt b) /\
       exists m p, In (fresh p) (undelivered src0) /\ history h c m (fresh p) b /\
         ident b = ident (fresh p) /\ INR m * dt b = time_step c) /\
    (forall b, In b (ls_move Pl s') -> lost b = false /\
       ((0 < rem b)%nat \/ xi (pt b) < IZR (i + Z.of_nat n - 1) * - xi_step c)).
Proof. exact loop_conservation. Qed.
Print Assumptions C13_no_particle_created_or_dropped.

(** The loop does not fail when all particles lie on the radial grid. *)
Theorem C13_loop_succeeds : forall sort_bool Pl plasma pl_fields c src0 N, sort_bool_ok sort_bool ->
  0 < xi_step c -> 0 < r_step c -> time_step c <> 0 -> 0 <= sub_energy c ->
  (forall p, In p (s_parts src0) -> q_m p <> 0 /\ 0 <= rad p < r_step c * INR (N - 1)) ->
  exists h0, forall h, (h0 <= h)%nat -> forall n i rho prev pl, length rho = N ->
  exists s', xi_loop sort_bool Pl plasma pl_fields h c n i (mkLS Pl src0 [] [] [] rho prev pl) = Some s'.
Proof. exact xi_loop_total. Qed.
Print Assumptions C13_loop_succeeds.

(** A run in which a particle is really handed out, moved through two layers and drained. *)
Example C13_nonvacuous :
  let start := mkLS unit (new_source isort [late_part]) [] [] [] (repeat 0 6) (repeat 0 6) tt in
  exists s3, xi_loop bsort unit (fun _ _ _ => tt) (fun _ => late_fields) 0 late_cfg 3 0 start = Some s3 /\
    ls_drain unit s3 = [[late_out]] /\ pt late_out <> late_part.
Proof.
  destruct (late_loop isort bsort isort_ok bsort_ok) as (_ & s3 & E & D). exists s3. split; [exact E|]. split; [exact D|].
  unfold late_out, late_end, late_part. cbn. intros H. injection H. lra.
Qed.

(** C14.  The substep of a newly received particle. *)
Theorem C14_substep_is_least_dyadic_fraction : forall c p, q_m p <> 0 -> 0 < sub_energy c ->
  exists h0, forall h, (h0 <= h)%nat -> exists k b, prepare h c (fresh p) = Some b /\ pt b = p /\ lost b = false /\
    dt b = time_step c / 2 ^ k /\ rem b = (2 ^ k)%nat /\ INR (rem b) * dt b = time_step c /\
    1 / 2 ^ k <= sqrt (sqrt (1 / q_m p ^ 2 + p_z p ^ 2) / sub_energy c) /\
    (forall j, (j < k)%nat -> sqrt (sqrt (1 / q_m p ^ 2 + p_z p ^ 2) / sub_energy c) < 1 / 2 ^ j).
Proof.
  intros c p Hq He. destruct (substep_fuel (q_m p) (p_z p) (sub_energy c) Hq He) as (n0 & Hn). exists n0. intros h Hh.
  destruct (Hn h Hh) as (k & Hl & Hle & Hmin). exists k.
  exists (mkB p (1 / 2 ^ k * time_step c) (Z.to_nat (floorR (1 / (1 / 2 ^ k)))) false).
  assert (P2 : forall j, 0 < 2 ^ j) by (intros; apply pow_lt; lra). pose proof (P2 k) as Pk.
  assert (Er : Z.to_nat (floorR (1 / (1 / 2 ^ k))) = (2 ^ k)%nat) by (rewrite floor_pow2; lia).
  cbn [pt lost dt rem]. rewrite Er. repeat split; auto.
  - unfold prepare. cbn [fresh dt pt]. destruct (Req_EM_T 0 0); [|lra]. destruct (Req_EM_T (sub_energy c) 0); [lra|].
    rewrite Hl. cbn. now rewrite Er.
  - field. lra.
  - rewrite pow_INR. replace (INR 2) with 2 by (cbn; lra). field. lra.
  - intros j Hj. destruct Hmin as [->|Hm]; [lia|]. unfold max_sub_dt in Hm. eapply Rlt_le_trans; [exact Hm|].
    apply Rmult_le_compat_l; [lra|]. apply Rinv_le_contravar; auto. apply Rle_pow; [lra|lia].
Qed.
Print Assumptions C14_substep_is_least_dyadic_fraction.

(** With substepping off the whole time step is one substep; and a particle that already has a
    substep (one that fell from the previous layer) keeps it and its remaining count. *)
Theorem C14_kept_between_layers : forall h c b b', dt b <> 0 -> prepare h c b = Some b' -> b' = b.
Proof. exact prepare_again. Qed.
Print Assumptions C14_kept_between_layers.

(** Any history that leaves no substeps to do has advanced the particle by exactly one time step. *)
Theorem C14_drained_means_one_time_step : forall h c n p b, time_step c <> 0 ->
  history h c n (fresh p) b -> rem b = 0%nat -> INR n * dt b = time_step c.
Proof. exact history_time. Qed.
Print Assumptions C14_drained_means_one_time_step.

Example C14_nonvacuous : q_m late_part <> 0 /\ 0 < sub_energy (mkP 1 1 5 0 0.4 2).
Proof. cbn. split; lra. Qed.

(** C15.  A particle not flagged lost has made some number n of completed substeps, each with its
    midpoint in the layer and inside the wall, and then stopped because no substeps remain or
    because the next midpoint would be behind the layer. *)
Theorem C15_substeps_stay_in_layer_and_wall : forall c fk1 fk xi_end b, lost b = false ->
  lost (push_particle c fk1 fk xi_end b) = false ->
  let b' := push_particle c fk1 fk xi_end b in
  exists n, substeps c fk1 fk xi_end n b b' /\ (n + rem b' = rem b)%nat /\
    (rem b' = 0%nat \/ vz (half_position (pt b') (dt b')) < xi_end) /\
    (0 < max_radius c -> (0 < n)%nat -> 0 <= rad (pt b') < lost_boundary c /\ lost_boundary c < max_radius c) /\
    (q_m (pt b) <> 0 -> 0 < dt b -> (0 < n)%nat -> xi (pt b') < xi (pt b)).
Proof.
  intros c fk1 fk xe b H1 H2 b'. destruct (push_run c fk1 fk xe b H1 H2) as (n & Hs & Hr & Hd).
  exists n. split; [exact Hs|]. split; [exact Hr|]. split; [exact Hd|]. split.
  - intros Hm Hn. split; [eapply substeps_wall; eauto|]. now apply lost_boundary_pos.
  - intros Hq Ht Hn. now apply (substeps_xi _ _ _ _ _ _ _ Hs Hq Ht).
Qed.
Print Assumptions C15_substeps_stay_in_layer_and_wall.

(** Without fields the particle moves along the straight line: radius, longitudinal position,
    longitudinal momentum, angular momentum and transverse momentum are those of free motion. *)
Theorem C15_free_motion_is_straight : forall c fk1 fk xe n b b', substeps c fk1 fk xe n b b' ->
  no_field fk1 -> no_field fk -> magnetic_field c = 0 -> q_m (pt b) <> 0 -> 0 < rad (pt b) ->
  (forall k, (k <= n)%nat -> 0 < line_x (pt b) (INR k * dt b) ^ 2 + line_y (pt b) (INR k * dt b) ^ 2) ->
  let p := pt b in let p' := pt b' in let t := INR n * dt b in
  rad p' ^ 2 = line_x p t ^ 2 + line_y p t ^ 2 /\ 0 < rad p' /\
  xi p' = xi p + t * (p_z p / gamma_m p - 1) /\
  p_z p' = p_z p /\ ang p' = ang p /\
  rad p' * p_r p' = line_x p t * p_r p + line_y p t * (ang p / rad p) /\
  p_r p' ^ 2 + (ang p' / rad p') ^ 2 = p_r p ^ 2 + (ang p / rad p) ^ 2 /\ q_m p' = q_m p.
Proof.
  intros c fk1 fk xe n b b' Hs F1 F2 Hm Hq Hr Hpos p p' t.
  destruct (free_line c fk1 fk xe n b b' Hs F1 F2 Hm Hq Hr Hpos) as (A1 & A2 & A3 & A4 & A5 & A6 & A7 & A8).
  repeat split; auto.
Qed.
Print Assumptions C15_free_motion_is_straight.

(** The two radial cells read for a particle inside the wall are on the grid (of
    int(max_radius/r_step) + 1 cells), provided the radial step is at most 1 and at most a tenth of
    the radius. *)
Theorem C15_field_lookup_in_range : forall c r,
  0 < r_step c -> r_step c <= 1 -> r_step c <= 0.1 * max_radius c -> 0 <= r -> r < lost_boundary c ->
  let j := floorR (r / r_step c) in
  (0 <= j)%Z /\ (j + 1 < floorR (max_radius c / r_step c) + 1)%Z.
Proof. exact lookup_in_range. Qed.
Print Assumptions C15_field_lookup_in_range.

Example C15_nonvacuous : lost late_mid = false /\
  push_particle late_cfg late_fields late_fields (-2) late_mid = late_out /\ late_out <> late_mid /\
  0 < r_step (mkP 0.5 1 5 0 1 0) <= 0.1 * max_radius (mkP 0.5 1 5 0 1 0).
Proof.
  split; [reflexivity|]. split; [exact late_push2|]. split; [|cbn; lra].
  unfold late_out, late_mid, late_end, late_part. intros H. injection H. lra.
Qed.

(** C16.  Bilinear weights: unit sum, first moments in r and xi reproduced, nonnegative inside the
    layer. *)
Theorem C16_weights : forall r x xe h d j a00 a01 a10 a11, 0 < h -> d <> 0 ->
  particle_weights r x xe h d = (j, a00, a01, a10, a11) ->
  a00 + a01 + a10 + a11 = 1 /\
  (a00 + a10) * IZR j + (a01 + a11) * IZR (j + 1) = r / h /\
  (a00 + a01) * (xe + d) + (a10 + a11) * xe = x /\
  (xe <= x <= xe + d -> 0 < d -> 0 <= a00 /\ 0 <= a01 /\ 0 <= a10 /\ 0 <= a11) /\
  (x = xe + d -> a10 = 0 /\ a11 = 0) /\ (x = xe -> a00 = 0 /\ a01 = 0).
Proof.
  intros r x xe h d j a00 a01 a10 a11 Hh Hd E.
  destruct (weights_spec _ _ _ _ _ _ _ _ _ _ Hh Hd E) as (E1 & E2 & E3 & E4). repeat (split; [assumption|]).
  unfold particle_weights in E. injection E as Ej E00 E01 E10 E11. split; intros ->; subst.
  - replace (- (xe - (xe + d)) / d) with 1 by (field; auto). split; ring.
  - replace (- (xe - xe) / d) with 0 by (field; auto). split; ring.
Qed.
Print Assumptions C16_weights.

(** The density of a layer is the cloud-in-cell sum over the particles of this layer plus what the
    previous layer left for it, divided by the cell volumes; what is left for the next layer is the
    complementary sum. *)
Theorem C16_density_is_cloud_in_cell : forall h d rho_l l i rho next, 0 < h -> 0 < d ->
  (forall b, In b l -> 0 <= rad (pt b)) ->
  layout_beam_layer h d rho_l l i = Some (rho, next) ->
  let xe := - (IZR (i + 1) * d) in
  length rho = length rho_l /\ length next = length rho_l /\
  (forall k, (k < length rho_l)%nat ->
     nth k rho 0 = (nth k rho_l 0 + cic_upper h d xe l k) / (match k with O => h ^ 2 / 6 | _ => INR k * h ^ 2 end)) /\
  (forall k, nth k next 0 = cic_lower h d xe l k).
Proof. exact layout_spec. Qed.
Print Assumptions C16_density_is_cloud_in_cell.

(** Charge conservation of one call. *)
Theorem C16_charge_conserved : forall h d rho_l l i rho next, 0 < h ->
  layout_beam_layer h d rho_l l i = Some (rho, next) ->
  layer_charge h 0 rho + sumR next = sumR rho_l + total_charge l.
Proof. exact layout_charge. Qed.
Print Assumptions C16_charge_conserved.

(** No access outside the arrays for particles on the grid. *)
Theorem C16_no_access_outside : forall h d rho_l l i, 0 < h -> (forall b, In b l -> on_grid h (length rho_l) b) ->
  exists rho next, layout_beam_layer h d rho_l l i = Some (rho, next).
Proof. exact layout_some. Qed.
Print Assumptions C16_no_access_outside.

Example C16_nonvacuous : on_grid 1 6 (fresh late_part) /\ 0 <= rad (pt (fresh late_part)).
Proof. unfold on_grid. cbn. split; [split|]; lra. Qed.

(** C08 rests on the condition that what is drained at iteration i+1 lies in layer i.  The 2D pusher
    does not guarantee it: a particle whose half-step falls behind the layer waits for the next one,
    where a strong accelerating field can bring it to the end of the time step in the layer it came
    from.  A multi-process run then hands it over in the wrong layer. *)
Theorem C08_drained_in_its_layer_refuted :
  ~ (forall sort_xi sort_bool c fl beam n s s' b,
      sort_xi_ok sort_xi -> sort_bool_ok sort_bool -> 0 < xi_step c -> 0 < r_step c -> 0 < time_step c ->
      (forall p, In p beam -> xi p <= 0 /\ q_m p <> 0 /\ on_grid (r_step c) 6 (fresh p)) ->
      let loop := fun k => xi_loop sort_bool unit (fun _ _ _ => tt) (fun _ => fl) 0 c k 0
                   (mkLS unit (new_source sort_xi beam) [] [] [] (repeat 0 6) (repeat 0 6) tt) in
      loop n = Some s -> loop (S n) = Some s' ->
      In b (concat (ls_drain unit s')) -> ~ In b (concat (ls_drain unit s)) ->
      in_xi_layer_top (xi_step c) (Z.of_nat n - 1) (pt b) = true).
Proof.
  intros H. destruct (late_loop isort bsort isort_ok bsort_ok) as ((s2 & E2 & D2) & (s3 & E3 & D3)).
  specialize (H isort bsort late_cfg late_fields [late_part] 2%nat s2 s3 late_out isort_ok bsort_ok
    ltac:(cbn; lra) ltac:(cbn; lra) ltac:(cbn; lra)).
  assert (X : in_xi_layer_top (xi_step late_cfg) (Z.of_nat 2 - 1) (pt late_out) = true).
  { apply H; auto.
    - intros p [<-|[]]. unfold on_grid. cbn. repeat split; lra.
    - rewrite D3. cbn. auto.
    - rewrite D2. cbn. auto. }
  unfold in_xi_layer_top in X. cbn [late_out pt late_end xi xi_step late_cfg] in X.
  change (Z.of_nat 2 - 1)%Z with 1%Z in X. change (1 + 1)%Z with 2%Z in X.
  destruct (Rle_dec _ _) in X; [|lra]. destruct (Rle_dec _ _) in X; [lra|discriminate].
Qed.
Print Assumptions C08_drained_in_its_layer_refuted.
