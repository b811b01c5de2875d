(** Theorems C17-C21, C45, C46: beam files and the 3D beam. *)
From Coq Require Import Reals ZArith List Bool Permutation Sorting.Sorted Lra Lia Psatz.
From Verif Require Import Beam2D_Model Beam2D_Spec Beam2D_Proofs Beam2D_Push Beam2D_Dep Beam2D_Ex Shape_Model Shape_Spec Shape_Proofs Beam3D_Model Beam3D_Spec Beam3D_Proofs Beam3D_Run Beam3D_Upd Beam3D_Ex.
Import ListNotations.
Open Scope R_scope.

(** C17.  3D: everything that is saved comes back (dt and remaining_steps are not saved and restart
    at 0). *)
Theorem C17_3d_save_then_load : forall l, (forall p, In p l -> b_dt p = 0 /\ b_rem p = 0%nat) ->
  load_beam3d (save_beam3d l) = Some l.
Proof.
  intros l H. rewrite load_save3. f_equal. rewrite <- (map_id l) at 2. apply map_ext_in. intros p Hp. destruct (H p Hp) as [A B].
  destruct p; cbn in *; subst; reflexivity.
Qed.
Print Assumptions C17_3d_save_then_load.

Theorem C17_3d_restart_resets_only_substeps : forall l, exists l', load_beam3d (save_beam3d l) = Some l' /\
  Forall2 (fun p q => b_xi q = b_xi p /\ b_x q = b_x p /\ b_y q = b_y p /\ b_px q = b_px p /\ b_py q = b_py p /\ b_pz q = b_pz p /\
     b_qm q = b_qm p /\ b_q q = b_q p /\ b_id q = b_id p /\ b_dt q = 0 /\ b_rem q = 0%nat) l l'.
Proof.
  intros l. eexists. split; [apply load_save3|]. induction l as [|p l IH]; cbn [map]; constructor; auto. cbn. auto 15.
Qed.
Print Assumptions C17_3d_restart_resets_only_substeps.

(** 2D: the file written cannot be read at all (the momentum columns have other names). *)
Theorem C17_2d_save_then_load_refuted : ~ (forall l, load_beam2d (save_beam2d l) = Some l).
Proof. intros H. specialize (H []). discriminate. Qed.
Print Assumptions C17_2d_save_then_load_refuted.
Theorem C17_2d_saved_beam_never_loads : forall l, load_beam2d (save_beam2d l) = None.
Proof. exact load_save2. Qed.
Print Assumptions C17_2d_saved_beam_never_loads.

Example C17_nonvacuous : exists p, b_dt p = 0 /\ b_rem p = 0%nat /\ b_xi p <> 0.
Proof. exists (mk3 (-1) 1 2 3 4 5 1 1 1 0 0). cbn. repeat split; lra. Qed.

(** C18.  With everything strictly behind the front of the first layer, n requests give each
    particle in the layer containing its xi, and the rest stays in the source. *)
Theorem C18_each_layer_gets_its_particles : forall sort3 beam dxi i n, sort3_ok sort3 -> 0 < dxi ->
  (forall p, In p beam -> b_xi p < - (IZR i * dxi)) ->
  exists sl rest, ask3 dxi (new_source3 sort3 beam) i n = (sl, rest) /\ length sl = n /\
    (forall k p, (k < n)%nat -> (In p (nth k sl []) <-> In p beam /\ xi_in dxi (i + Z.of_nat k) p)) /\
    (forall p, In p rest <-> In p beam /\ b_xi p < - (IZR (i + Z.of_nat n) * dxi)) /\
    Permutation (concat sl ++ rest) beam.
Proof.
  intros s beam dxi i n Hs Hd Ht. destruct (Hs beam) as [Hp Hss].
  assert (Hin : forall p, In p (s beam) <-> In p beam) by (intros p; split; apply Permutation_in; auto; now apply Permutation_sym).
  destruct (ask3_spec dxi Hd n i (s beam) Hss) as [A B]; [intros p Hp'; apply Ht; now apply Hin|].
  unfold new_source3. destruct (ask3 dxi (s beam) i n) as [sl rest] eqn:E. cbn [fst snd] in *. exists sl, rest. split; [reflexivity|].
  subst sl. split; [now rewrite map_length, seq_length|]. split; [|split].
  - intros k p Hk. rewrite (nth_indep _ [] (filter (in_layer3 dxi (i + Z.of_nat 0)) (s beam))) by (now rewrite map_length, seq_length).
    rewrite (map_nth (fun k => filter (in_layer3 dxi (i + Z.of_nat k)) (s beam))), seq_nth by auto. cbn [Nat.add].
    rewrite filter_In, Hin, in_layer3_iff. tauto.
  - intros p. subst rest. rewrite filter_In, Hin. unfold ltop. destruct (Rlt_dec _ _); intuition discriminate.
  - rewrite <- Hp.
    assert (K : forall n i l sl r, ask3 dxi l i n = (sl, r) -> concat sl ++ r = l).
    { clear. induction n as [|n IH]; intros i l sl r E; cbn [ask3] in E; [injection E as <- <-; reflexivity|].
      destruct (get_layer3 dxi l i) as [a l1] eqn:G. destruct (ask3 dxi l1 (i + 1) n) as [r0 s2] eqn:E2. injection E as <- <-.
      cbn [concat]. rewrite <- app_assoc, (IH _ _ _ _ E2). pose proof (get_layer3_perm dxi l i) as P. rewrite G in P. exact P. }
    now rewrite (K _ _ _ _ _ E).
Qed.
Print Assumptions C18_each_layer_gets_its_particles.

Example C18_nonvacuous : sort3_ok isort3 /\ (forall p, In p [w_part 0 0; mk3 (-2.5) 0 0 0 0 0 1 1 1 0 0] -> b_xi p < - (IZR 0 * 1)).
Proof. split; [exact isort3_ok|]. intros p [<-|[<-|[]]]; cbn; lra. Qed.

(** A particle exactly at the front of the first layer (or ahead of it) makes the source hand out the
    wrong particles: as many as the layer holds, but counted from the front of the beam. *)
Theorem C18_particle_at_the_front_refuted :
  ~ (forall sort3 beam dxi i, sort3_ok sort3 -> 0 < dxi -> (forall p, In p beam -> b_xi p <= - (IZR i * dxi)) ->
      forall p, xi_in dxi i p -> In p beam -> In p (fst (get_layer3 dxi (new_source3 sort3 beam) i))).
Proof.
  intros H. set (a := mk3 0 0 0 0 0 0 1 1 1 0 0). set (b := mk3 (-0.5) 0 0 0 0 0 1 1 2 0 0).
  assert (Hb : forall p, In p [a; b] -> b_xi p <= - (IZR 0 * 1)) by (intros p [<-|[<-|[]]]; cbn; lra).
  specialize (H isort3 [a; b] 1 0%Z isort3_ok Rlt_0_1 Hb b ltac:(unfold xi_in; cbn; lra) (or_intror (or_introl eq_refl))).
  assert (S : isort3 [a; b] = [a; b]). { unfold isort3, ins3. cbn [a b b_xi]. destruct (Rle_dec _ _); [reflexivity|lra]. }
  assert (A : in_layer3 1 0 a = false).
  { destruct (in_layer3 1 0 a) eqn:E; auto. apply in_layer3_iff in E. unfold xi_in in E. cbn in E. lra. }
  assert (B : in_layer3 1 0 b = true) by (apply in_layer3_iff; unfold xi_in; cbn; lra).
  unfold new_source3 in H. rewrite S in H. unfold get_layer3 in H. cbn [filter] in H. rewrite A, B in H.
  cbn in H. destruct H as [H|[]]. unfold a, b in H. injection H. lra.
Qed.
Print Assumptions C18_particle_at_the_front_refuted.

(** C19.  What one call of the mover does to one particle. *)
Theorem C19_mover_classifies : forall u c idx fk fk1 p q l m f, move_one3 u c idx fk fk1 p = (q, (l, m, f)) ->
  ident3 q = ident3 p /\
  (m = true <-> l = false /\ f = false) /\
  (l = false -> exists n, substeps3 u c idx fk fk1 n p q /\ (n + b_rem q = b_rem p)%nat) /\
  (m = true -> b_rem q = 0%nat /\ - (IZR (idx + 1) * c_dxi c) <= match u with CPU => b_x q | GPU => b_xi q end) /\
  (l = false -> f = true -> ((0 < b_rem q)%nat /\ snd (half3 q) < - (IZR (idx + 1) * c_dxi c)) \/
     (b_rem q = 0%nat /\ match u with CPU => b_x q | GPU => b_xi q end < - (IZR (idx + 1) * c_dxi c))) /\
  (l = true -> b_rem q = 0%nat /\ lost_radius c ^ 2 <= b_x q ^ 2 + b_y q ^ 2 /\ b_id q = (- b_id p)%Z).
Proof. exact move_one3_spec. Qed.
Print Assumptions C19_mover_classifies.

(** Over a whole xi loop: the particles of the beam are all accounted for, and anything extra is a
    copy of a lost one. *)
Theorem C19_nothing_vanishes : forall Pl plasma pl_fields u h c src n i s' rho prev pl,
  run3 Pl plasma pl_fields u h c n i (mkS3 Pl src [] 0 [] [] rho prev pl) = Some s' ->
  exists d, Permutation (map ident3 (s_drain Pl s' ++ s_lost Pl s' ++ s_move Pl s' ++ s_src Pl s')) (map ident3 src ++ map ident3 d) /\
    incl d (s_lost Pl s').
Proof.
  intros Pl plasma pf u h c src n i s' rho prev pl E. destruct (run3_perm _ _ _ _ _ _ _ _ _ _ E) as (d & P & I & _).
  exists d. split; [exact P|exact I].
Qed.
Print Assumptions C19_nothing_vanishes.

(** Without losses the accounting is exact. *)
Theorem C19_exact_without_losses : forall Pl plasma pl_fields u h c src n i s' rho prev pl,
  run3 Pl plasma pl_fields u h c n i (mkS3 Pl src [] 0 [] [] rho prev pl) = Some s' -> s_lost Pl s' = [] ->
  Permutation (map ident3 (s_drain Pl s' ++ s_move Pl s' ++ s_src Pl s')) (map ident3 src).
Proof.
  intros Pl plasma pf u h c src n i s' rho prev pl E L. destruct (run3_perm _ _ _ _ _ _ _ _ _ _ E) as (d & P & I & _).
  rewrite L in I. destruct d as [|x d]; [|exfalso; apply (I x); now left]. unfold everything in P. rewrite L in P. cbn in P. now rewrite app_nil_r in P.
Qed.
Print Assumptions C19_exact_without_losses.

(** A drained particle that is not marked lost got there from a particle of the source by completed
    substeps only, one full time step of them. *)
Theorem C19_drained_made_one_time_step : forall Pl plasma pl_fields u h c src n i s' rho prev pl b,
  run3 Pl plasma pl_fields u h c n i (mkS3 Pl src [] 0 [] [] rho prev pl) = Some s' ->
  (forall p, In p src -> (0 < b_id p)%Z) -> In b (s_drain Pl s') -> (0 < b_id b)%Z ->
  exists m p, In p src /\ history3 u h c m p b /\ ident3 b = ident3 p /\ b_id b = b_id p /\ b_rem b = 0%nat /\
    INR m * b_dt b = c_time_step c.
Proof.
  intros Pl plasma pf u h c src n i s' rho prev pl b E Hid Hb Hpos.
  pose proof (run3_sane Pl plasma pf u h c src n i _ s' (sane_start Pl u h c src rho prev pl) E) as (_ & _ & _ & _ & HD).
  destruct (HD b Hb) as [Hr [(m & p & Hp & Hh)|(_ & _ & (p & Hp & Hi))]].
  - destruct (history3_time _ _ _ _ _ _ Hh) as (A & A' & k & B & C). exists m, p. repeat (split; [assumption|]).
    rewrite Hr, Nat.add_0_r in C. rewrite C, B, pow_INR. change (INR 2) with 2. field. apply pow_nonzero. lra.
  - specialize (Hid p Hp). lia.
Qed.
Print Assumptions C19_drained_made_one_time_step.

Theorem C19_loop_succeeds : forall Pl plasma pl_fields u c src, 0 < c_energy c -> (forall p, In p src -> b_qm p <> 0) ->
  exists h0, forall h, (h0 <= h)%nat -> forall n i rho prev pl,
  exists s', run3 Pl plasma pl_fields u h c n i (mkS3 Pl src [] 0 [] [] rho prev pl) = Some s'.
Proof.
  intros Pl plasma pf u c src He Hq. destruct (run3_total Pl plasma pf u c src He Hq) as (h0 & H). exists h0.
  intros h Hh n i rho prev pl. apply H; auto. apply sane_start.
Qed.
Print Assumptions C19_loop_succeeds.

(** Completed substeps never move a particle forward, keep it inside the wall, and in field-free space
    move it on a straight line at constant momentum. *)
Theorem C19_never_forward_and_inside : forall u c idx fk fk1 n p q, substeps3 u c idx fk fk1 n p q -> (0 < n)%nat ->
  b_qm p <> 0 -> 0 < b_dt p -> b_xi q < b_xi p /\ b_x q ^ 2 + b_y q ^ 2 < lost_radius c ^ 2.
Proof.
  intros u c idx fk fk1 n p q Hs Hn Hq Hd. split; [apply (substeps3_xi _ _ _ _ _ _ _ _ Hs Hq Hd); auto|eapply substeps3_wall; eauto].
Qed.
Print Assumptions C19_never_forward_and_inside.

Theorem C19_free_motion_is_straight : forall u c idx fk fk1 n p q, substeps3 u c idx fk fk1 n p q ->
  no_field3 fk -> no_field3 fk1 -> let t := INR n * b_dt p in
  b_px q = b_px p /\ b_py q = b_py p /\ b_pz q = b_pz p /\
  b_x q = b_x p + t * (b_px p / gam3 p) /\ b_y q = b_y p + t * (b_py p / gam3 p) /\
  b_xi q = b_xi p + t * (b_pz p / gam3 p - 1).
Proof.
  intros u c idx fk fk1 n p q Hs H1 H2. induction Hs as [p|n p q Hr Hx Hw Hw' Hs IH]; cbn zeta in *.
  - cbn [INR]. repeat split; ring.
  - destruct IH as (I1 & I2 & I3 & I4 & I5 & I6).
    destruct (advance_free u c idx fk fk1 p H1 H2) as (A & B & C & D & E & F). destruct (advance_keeps u c idx fk fk1 p) as (Q & T & _).
    assert (G : gam3 (advance u c idx fk fk1 p) = gam3 p) by (unfold gam3; now rewrite Q, A, B, C).
    rewrite G, T, A, B, C, ?D, ?E, ?F in *. rewrite S_INR. repeat split; try congruence; rewrite ?I4, ?I5, ?I6; lra.
Qed.
Print Assumptions C19_free_motion_is_straight.

(** The wanted trichotomy fails on both processors: one particle is both lost and fallen ... *)
Theorem C19_exactly_one_of_three_refuted : forall u,
  ~ (forall c idx fk fk1 p q l m f, 0 < c_h c -> 0 < c_dxi c -> b_qm p <> 0 -> 0 < b_dt p -> xi_in (c_dxi c) idx p ->
       move_one3 u c idx fk fk1 p = (q, (l, m, f)) ->
       (l, m, f) = (true, false, false) \/ (l, m, f) = (false, true, false) \/ (l, m, f) = (false, false, true)).
Proof.
  intros u H. specialize (H w_cfg 0%Z no_fields no_fields (w_part 1 1) _ _ _ _ ltac:(cbn; lra) ltac:(cbn; lra) ltac:(cbn; lra)
    ltac:(cbn; lra) ltac:(unfold xi_in; cbn; lra) (w_move u)). intuition discriminate.
Qed.
Print Assumptions C19_exactly_one_of_three_refuted.

(** ... so that on the GPU a particle that hit the wall is handed to the next time step all the same *)
Theorem C19_lost_particles_are_not_drained_refuted :
  ~ (forall Pl plasma pl_fields u h c src n i s' rho prev pl b,
       (forall p, In p src -> xi_in (c_dxi c) i p /\ b_qm p <> 0 /\ b_x p ^ 2 + b_y p ^ 2 < lost_radius c ^ 2) ->
       run3 Pl plasma pl_fields u h c n i (mkS3 Pl src [] 0 [] [] rho prev pl) = Some s' ->
       In b (s_drain Pl s') -> b_x b ^ 2 + b_y b ^ 2 < lost_radius c ^ 2).
Proof.
  intros H. destruct w_run as (s & E & D & _).
  specialize (H unit (fun _ _ _ => tt) (fun _ => no_fields) GPU 0%nat w_cfg [w_part 0 0] 3%nat 0%Z s zero_grid zero_grid tt (neg_id w_after)).
  assert (P : forall p, In p [w_part 0 0] -> xi_in (c_dxi w_cfg) 0 p /\ b_qm p <> 0 /\ b_x p ^ 2 + b_y p ^ 2 < lost_radius w_cfg ^ 2).
  { intros p [<-|[]]. rewrite w_radius. unfold xi_in. cbn. repeat split; lra. }
  specialize (H P E). rewrite D in H. specialize (H (or_introl eq_refl)). rewrite w_radius in H. cbn in H. lra.
Qed.
Print Assumptions C19_lost_particles_are_not_drained_refuted.

(** ... and on the CPU, where x is compared with the layer boundary instead of xi, a particle that
    finished its step inside the layer is not drained; no particle left of the window depth ever is. *)
Theorem C19_finished_in_layer_is_drained_refuted :
  ~ (forall c idx fk fk1 p q l m f, 0 < c_h c -> 0 < c_dxi c -> b_qm p <> 0 -> 0 < b_dt p -> xi_in (c_dxi c) idx p ->
       move_one3 CPU c idx fk fk1 p = (q, (l, m, f)) -> l = false -> b_rem q = 0%nat -> xi_in (c_dxi c) idx q -> m = true).
Proof.
  intros H. specialize (H w_cfg 0%Z no_fields no_fields (l_part 1 (-0.1)) (l_part 0 (-0.2)) _ _ _ ltac:(cbn; lra) ltac:(cbn; lra) ltac:(cbn; lra)
    ltac:(cbn; lra) ltac:(unfold xi_in; cbn; lra) l_move eq_refl eq_refl ltac:(unfold xi_in; cbn; lra)). discriminate.
Qed.
Print Assumptions C19_finished_in_layer_is_drained_refuted.

Theorem C19_cpu_drains_only_right_of_window_depth : forall Pl plasma pl_fields h c src n i s' rho prev pl b, 0 <= c_dxi c ->
  run3 Pl plasma pl_fields CPU h c n i (mkS3 Pl src [] 0 [] [] rho prev pl) = Some s' ->
  In b (s_drain Pl s') -> - (IZR (i + Z.of_nat n) * c_dxi c) <= b_x b.
Proof.
  intros Pl plasma pf h c src n i s' rho prev pl b Hd E.
  apply (cpu_drain_x Pl plasma pf h c Hd n i (mkS3 Pl src [] 0 [] [] rho prev pl) s'); auto. intros q [].
Qed.
Print Assumptions C19_cpu_drains_only_right_of_window_depth.

Example C19_nonvacuous : exists s, run3 unit (fun _ _ _ => tt) (fun _ => no_fields) GPU 0 w_cfg 3 0 (mkS3 unit [w_part 0 0] [] 0 [] [] zero_grid zero_grid tt) = Some s /\
  s_drain unit s <> [] /\ substeps3 CPU w_cfg 0 no_fields no_fields 1 (l_part 1 (-0.1)) (l_part 0 (-0.2)) /\ b_qm (l_part 1 (-0.1)) <> 0 /\ 0 < b_dt (l_part 1 (-0.1)).
Proof.
  destruct w_run as (s & E & D & _). exists s. split; [exact E|]. split; [rewrite D; discriminate|]. split; [|cbn; split; lra].
  destruct (move_one3_spec _ _ _ _ _ _ _ _ _ _ l_move) as (_ & _ & R & _). destruct (R eq_refl) as (n & Hs & Hn). cbn in Hn.
  replace n with 1%nat in Hs by lia. exact Hs.
Qed.

(** C20.  The density returned for a layer and the part carried to the next one, exactly. *)
Theorem C20_density_is_spline_cloud : forall n h dxi rho_l l idx rho next, 0 < h -> layout3 n h dxi rho_l l idx = (rho, next) -> forall a b,
  rho a b = (rho_l a b + sumR (map (fun p => b_q p * dist_from_top dxi idx p * shape n h (b_x p) (b_y p) a b) l)) / h ^ 2 /\
  next a b = sumR (map (fun p => b_q p * (1 - dist_from_top dxi idx p) * shape n h (b_x p) (b_y p) a b) l).
Proof. exact layout3_val. Qed.
Print Assumptions C20_density_is_spline_cloud.

(** Charge is conserved over any number of layers. *)
Theorem C20_charge_conserved : forall N h dxi rho_l ls i rs e, 0 < h -> layouts (Z.of_nat N) h dxi rho_l ls i = (rs, e) ->
  (forall l p, In l ls -> In p l -> on_grid3 (Z.of_nat N) h p) ->
  h ^ 2 * sumR (map (gsum N) rs) + gsum N e = gsum N rho_l + total_charge3 (concat ls).
Proof. intros N h dxi rho_l ls i rs e Hh. now apply layouts_charge. Qed.
Print Assumptions C20_charge_conserved.

(** Nothing is written outside the array for particles inside the wall, on a fine enough grid. *)
Theorem C20_writes_stay_on_grid : forall c x y, 0 < c_h c -> c_h c <= 0.4 -> (50 <= c_n c)%Z ->
  x ^ 2 + y ^ 2 < lost_radius c ^ 2 -> forall kx ky, In kx places -> In ky places ->
  (0 <= cell (c_n c) (x / c_h c + 0.5) + kx < c_n c)%Z /\ (0 <= cell (c_n c) (y / c_h c + 0.5) + ky < c_n c)%Z.
Proof.
  intros c x y H1 H2 H3 H4 kx ky Hx Hy. destruct (lookup3_in_range c x y H1 H2 H3 H4) as [A B]. split; apply inside_cell; auto.
Qed.
Print Assumptions C20_writes_stay_on_grid.

(** On a coarse grid the wall lets particles write past the array. *)
Theorem C20_writes_stay_on_any_grid_refuted :
  ~ (forall c x y, 0 < c_h c -> (5 <= c_n c)%Z -> x ^ 2 + y ^ 2 < lost_radius c ^ 2 ->
      forall kx, In kx places -> (0 <= cell (c_n c) (x / c_h c + 0.5) + kx < c_n c)%Z).
Proof.
  intros H. specialize (H w_cfg 9.4 0 ltac:(cbn; lra) ltac:(cbn; lia) ltac:(rewrite w_radius; lra) 2%Z ltac:(cbn; auto 10)).
  unfold cell, w_cfg in H. cbn [c_n c_h] in H. rewrite (floor_unique (9.4 / 1 + 0.5) 9) in H by lra. change (21 / 2)%Z with 10%Z in H. lia.
Qed.
Print Assumptions C20_writes_stay_on_any_grid_refuted.

(** The wanted share (all of it on the layer where the particle is) is mirrored in the layer. *)
Theorem C20_particle_on_next_layer_leaves_this_one_refuted :
  ~ (forall n h dxi p idx rho next, 0 < h -> 0 < dxi -> b_xi p = - (IZR (idx + 1) * dxi) -> on_grid3 n h p ->
      layout3 n h dxi zero_grid [p] idx = (rho, next) -> forall a b, rho a b = 0).
Proof.
  intros H. set (p := mk3 (-1) 0 0 0 0 0 1 1 1 0 0). destruct (layout3 21 1 1 zero_grid [p] 0) as [rho next] eqn:E.
  assert (G : on_grid3 21 1 p) by (unfold on_grid3, inside, p; cbn; lra).
  specialize (H 21%Z 1 1 p 0%Z rho next Rlt_0_1 Rlt_0_1 ltac:(cbn; lra) G E 10%Z 10%Z).
  destruct (layout3_val _ _ _ _ _ _ _ _ Rlt_0_1 E 10%Z 10%Z) as [A _]. rewrite A in H. unfold zero_grid, dist_from_top, p in H. cbn [map sumR b_q b_xi b_x b_y] in H.
  unfold shape in H. change (10 - 21 / 2)%Z with 0%Z in H. replace (0 - 0 / 1) with 0 in H by field.
  assert (S : spline4 0 = 115 / 192). { unfold spline4. tp. lra. }
  rewrite S in H. lra.
Qed.
Print Assumptions C20_particle_on_next_layer_leaves_this_one_refuted.

Theorem C20_centre_of_charge_is_mirrored : forall n h dxi p idx, 0 < h -> 0 < dxi ->
  forall rho next a b, layout3 n h dxi zero_grid [p] idx = (rho, next) ->
  let top := - (IZR idx * dxi) in
  h ^ 2 * rho a b * top + next a b * (top - dxi) =
  b_q p * shape n h (b_x p) (b_y p) a b * (2 * top - dxi - b_xi p).
Proof.
  intros n h dxi p idx Hh Hd rho next a b E top. destruct (layout3_val _ _ _ _ _ _ _ _ Hh E a b) as [-> ->].
  unfold zero_grid, dist_from_top, top. cbn [map sumR]. field. split; lra.
Qed.
Print Assumptions C20_centre_of_charge_is_mirrored.

Example C20_nonvacuous : on_grid3 (Z.of_nat 21) 1 (mk3 (-0.4) (-3) 2 0 0 0 1 1 1 0 0) /\
  1 ^ 2 + 2 ^ 2 < lost_radius (mkC3 64 0.25 1 1 1) ^ 2.
Proof.
  split; [unfold on_grid3, inside; cbn; lra|]. assert (7 <= lost_radius (mkC3 64 0.25 1 1 1)).
  { unfold lost_radius. cbn [c_h c_n]. apply Rle_trans with (0.25 * 64 / 2 - 1); [lra|apply Rmax_r]. } nra.
Qed.

(** C21.  A field affine in x, y on each layer is gathered exactly across the beam ... *)
Theorem C21_transverse_interpolation_exact : forall c idx x y z fk fk1 a0 a1 a2 b0 b1 b2, c_h c <> 0 ->
  (forall a b, fk a b = a0 + a1 * coord c a + a2 * coord c b) ->
  (forall a b, fk1 a b = b0 + b1 * coord c a + b2 * coord c b) ->
  let s := (layer_xi c idx - z) / c_dxi c in
  interp3 c (IZR idx * - c_dxi c) x y z fk fk1 =
  - s * (a0 + a1 * x + a2 * y) + (1 + s) * (b0 + b1 * x + b2 * y).
Proof. exact interp3_affine. Qed.
Print Assumptions C21_transverse_interpolation_exact.

(** ... but along xi the value is that of the position one layer further back *)
Theorem C21_longitudinally_one_layer_behind : forall c idx x y z fk fk1 k0 kx ky kz, c_h c <> 0 -> c_dxi c <> 0 ->
  (forall a b, fk a b = k0 + kx * coord c a + ky * coord c b + kz * layer_xi c idx) ->
  (forall a b, fk1 a b = k0 + kx * coord c a + ky * coord c b + kz * layer_xi c (idx + 1)) ->
  interp3 c (IZR idx * - c_dxi c) x y z fk fk1 = k0 + kx * x + ky * y + kz * (z - c_dxi c).
Proof.
  intros c idx x y z fk fk1 k0 kx ky kz Hh Hd H1 H2.
  rewrite (interp3_affine c idx x y z fk fk1 (k0 + kz * layer_xi c idx) kx ky (k0 + kz * layer_xi c (idx + 1)) kx ky Hh)
    by (intros; rewrite ?H1, ?H2; ring).
  unfold layer_xi. rewrite plus_IZR. field. auto.
Qed.
Print Assumptions C21_longitudinally_one_layer_behind.

Theorem C21_field_at_a_layer_is_that_layers_field_refuted :
  ~ (forall c idx x y fk fk1 v0 v1, 0 < c_h c -> 0 < c_dxi c -> (forall a b, fk a b = v0) -> (forall a b, fk1 a b = v1) ->
      interp3 c (IZR idx * - c_dxi c) x y (layer_xi c (idx + 1)) fk fk1 = v1).
Proof.
  intros H. specialize (H w_cfg 0%Z 0 0 (fun _ _ => 0) (fun _ _ => 1) 0 1 ltac:(cbn; lra) ltac:(cbn; lra) ltac:(auto) ltac:(auto)).
  rewrite (interp3_affine w_cfg 0 0 0 _ (fun _ _ => 0) (fun _ _ => 1) 0 0 0 1 0 0 ltac:(cbn; lra)) in H by (intros; ring).
  unfold layer_xi, w_cfg in H. cbn in H. lra.
Qed.
Print Assumptions C21_field_at_a_layer_is_that_layers_field_refuted.

(** A field that does not depend on position is seen exactly. *)
Theorem C21_uniform_field_exact : forall u c idx fk fk1 p e, c_h c <> 0 -> no_magnetic fk -> no_magnetic fk1 ->
  (forall a b, Ex fk a b = vx e /\ Ey fk a b = vy e /\ Ez fk a b = vz e) ->
  (forall a b, Ex fk1 a b = vx e /\ Ey fk1 a b = vy e /\ Ez fk1 a b = vz e) ->
  let q := advance u c idx fk fk1 p in let s := Rsgn (b_qm p) in
  b_px q = b_px p + s * b_dt p * vx e /\ b_py q = b_py p + s * b_dt p * vy e /\ b_pz q = b_pz p + s * b_dt p * vz e.
Proof. exact advance_uniform. Qed.
Print Assumptions C21_uniform_field_exact.

Example C21_nonvacuous : no_magnetic (mkF3 (fun _ _ => 1) (fun _ _ => 2) (fun _ _ => 3) zero_grid zero_grid zero_grid) /\ c_h w_cfg <> 0 /\ c_dxi w_cfg <> 0.
Proof. split; [intros a b; cbn; auto|]. cbn. split; lra. Qed.

(** C45.  A magnetic field alone does not change the energy of a beam particle: true on the GPU ... *)
Theorem C45_magnetic_field_keeps_energy_gpu : forall c idx fk fk1 n p q, substeps3 GPU c idx fk fk1 n p q ->
  no_electric fk -> no_electric fk1 -> norm2 (p_of q) = norm2 (p_of p) /\ gam3 q = gam3 p.
Proof.
  intros c idx fk fk1 n p q Hs H1 H2.
  assert (G : forall a b, b_qm a = b_qm b -> norm2 (p_of a) = norm2 (p_of b) -> gam3 a = gam3 b).
  { intros a b Q N. unfold gam3. f_equal. rewrite Q. unfold norm2, p_of, vx, vy, vz in N. cbn in N. cbn. lra. }
  assert (K : norm2 (p_of q) = norm2 (p_of p) /\ b_qm q = b_qm p).
  { induction Hs as [|n p q Hr Hx Hw Hw' Hs [IH1 IH2]]; [auto|]. rewrite IH1, IH2. split; [now apply advance_gpu_energy|apply advance_keeps]. }
  destruct K. auto.
Qed.
Print Assumptions C45_magnetic_field_keeps_energy_gpu.

(** ... on the CPU every substep adds (dt |v x B|)^2 to the squared momentum, so it fails. *)
Theorem C45_magnetic_field_heats_cpu : forall c idx fk fk1 p, no_electric fk -> no_electric fk1 -> b_qm p <> 0 ->
  let b := snd (fields_at c idx (half3 p) fk fk1) in
  let v := (b_px p / gam3 p, b_py p / gam3 p, b_pz p / gam3 p) in
  norm2 (p_of (advance CPU c idx fk fk1 p)) = norm2 (p_of p) + (b_dt p) ^ 2 * norm2 (vcross v b).
Proof. exact advance_cpu_energy. Qed.
Print Assumptions C45_magnetic_field_heats_cpu.

Definition uniform_Bz : fields3 := mkF3 zero_grid zero_grid zero_grid zero_grid zero_grid (fun _ _ => 1).
Lemma uniform_Bz_ok : no_electric uniform_Bz. Proof. intros a b. cbn. auto. Qed.
Theorem C45_magnetic_field_keeps_energy_cpu_refuted :
  ~ (forall c idx fk fk1 p, 0 < c_h c -> 0 < c_dxi c -> no_electric fk -> no_electric fk1 -> b_qm p <> 0 -> 0 < b_dt p ->
       norm2 (p_of (advance CPU c idx fk fk1 p)) = norm2 (p_of p)).
Proof.
  intros H. set (p := mk3 (-0.1) 0 0 1 0 0 1 1 1 0.1 1).
  specialize (H w_cfg 0%Z uniform_Bz uniform_Bz p ltac:(cbn; lra) ltac:(cbn; lra) uniform_Bz_ok uniform_Bz_ok ltac:(cbn; lra) ltac:(cbn; lra)).
  rewrite (advance_cpu_energy w_cfg 0 uniform_Bz uniform_Bz p uniform_Bz_ok uniform_Bz_ok ltac:(cbn; lra)) in H.
  assert (B : snd (fields_at w_cfg 0 (half3 p) uniform_Bz uniform_Bz) = (0, 0, 1)).
  { unfold fields_at. cbn [snd]. rewrite !interp3_zero by (intros; reflexivity).
    rewrite (interp3_const w_cfg 0 _ _ _ (Bz uniform_Bz) (Bz uniform_Bz) 1) by (cbn; auto; lra). reflexivity. }
  rewrite B in H. unfold norm2, vcross, p, p_of, vx, vy, vz in H. cbn [fst snd b_px b_py b_pz b_dt] in H.
  assert (G : 0 < gam3 (mk3 (-0.1) 0 0 1 0 0 1 1 1 0.1 1)).
  { pose proof (gam_gt 1 1 0 0 ltac:(lra)) as G. pose proof (Rabs_pos 0). unfold gam in G. unfold gam3. cbn [b_qm b_px b_py b_pz]. lra. }
  set (g := gam3 _) in *. assert (0 < 1 / g) by (apply Rdiv_lt_0_compat; lra). set (w := 1 / g) in *. unfold Rdiv in H. rewrite !Rmult_0_l in H. nra.
Qed.
Print Assumptions C45_magnetic_field_keeps_energy_cpu_refuted.

(** 2D pusher: the same explicit update, the same heating. *)
Theorem C45_magnetic_field_heats_2d : forall c p d b, q_m p <> 0 ->
  let pv := fst (beam_to_vec p) in let v := vscale (/ sqrt ((1 / q_m p) ^ 2 + vsq pv)) pv in
  vsq (snd (substep c p d ((0, 0, 0), b))) =
  vsq pv + d ^ 2 * vsq (vcross v (vx b, vy b, vz b + magnetic_field c)).
Proof.
  intros c p d b Hq. cbn zeta. unfold substep. destruct (beam_to_vec p) as [[[px py] pz] x]. cbn [fst snd].
  assert (S : Rsgn (q_m p) ^ 2 = 1). { unfold Rsgn. destruct (Rlt_dec _ _); [ring|]. destruct (Rlt_dec _ _); [ring|lra]. }
  set (s := Rsgn (q_m p)) in *. clearbody s. set (g := / sqrt _). set (B := vz b + magnetic_field c).
  unfold vsq, vcross, cross, vadd, vscale, vx, vy, vz. cbn [fst snd].
  transitivity (px ^ 2 + py ^ 2 + pz ^ 2 + s ^ 2 * d ^ 2 * ((g * py * B - g * pz * snd (fst b)) ^ 2 +
    (g * pz * fst (fst b) - g * px * B) ^ 2 + (g * px * snd (fst b) - g * py * fst (fst b)) ^ 2)); [field|rewrite S; ring].
Qed.
Print Assumptions C45_magnetic_field_heats_2d.

Example C45_nonvacuous : no_electric uniform_Bz /\ ~ no_field3 uniform_Bz.
Proof. split; [exact uniform_Bz_ok|]. intros H. specialize (H 0%Z 0%Z). cbn in H. lra. Qed.

(** C46.  The rotation of the GPU pusher is the implicit midpoint one (Higuera-Cary), and for a
    particle with |q/m| = 1 the factor it uses is exactly the Lorentz factor of the midpoint. *)
Theorem C46_rotation_is_implicit_midpoint : forall pm t, let r := hc_rotate pm t in
  let s := (vx pm + vx r, vy pm + vy r, vz pm + vz r) in
  vx r - vx pm = vx (vcross s t) /\ vy r - vy pm = vy (vcross s t) /\ vz r - vz pm = vz (vcross s t).
Proof. exact hc_rotate_implicit. Qed.
Print Assumptions C46_rotation_is_implicit_midpoint.

Theorem C46_midpoint_factor_for_unit_mass : forall qm pm b, qm ^ 2 = 1 ->
  let g := hc_gamma qm pm b in
  let r := hc_rotate pm (vx b / g, vy b / g, vz b / g) in
  g = sqrt ((1 / qm) ^ 2 + norm2 ((vx pm + vx r) / 2, (vy pm + vy r) / 2, (vz pm + vz r) / 2)).
Proof.
  intros qm pm b Hq g r. assert (Hz : qm <> 0) by (intros ->; lra).
  pose proof (hc_gamma_defect qm pm b Hz) as D. destruct (hc_gamma_sq qm pm b Hz) as [P _].
  replace ((1 / qm) ^ 2) with 1 in D by (replace ((1 / qm) ^ 2) with (1 / qm ^ 2) by (field; auto); rewrite Hq; field).
  assert (Hb : 0 <= norm2 b) by (unfold norm2; pose proof (pow2_ge_0 (vx b)); pose proof (pow2_ge_0 (vy b)); pose proof (pow2_ge_0 (vz b)); lra).
  assert (E : mid_gamma2 qm pm b = g ^ 2). { fold g in D. assert (0 < g ^ 2) by (apply pow2_gt_0; unfold g; lra). nra. }
  unfold mid_gamma2 in E. fold g in E. fold r in E. rewrite E. rewrite <- Rsqr_pow2, sqrt_Rsqr; auto. unfold g. lra.
Qed.
Print Assumptions C46_midpoint_factor_for_unit_mass.

(** For any other mass the factor is off by exactly this, so the property fails (e.g. for protons). *)
Theorem C46_factor_defect : forall qm pm b, qm <> 0 ->
  let g := hc_gamma qm pm b in
  let r := hc_rotate pm (vx b / g, vy b / g, vz b / g) in
  ((1 / qm) ^ 2 + norm2 ((vx pm + vx r) / 2, (vy pm + vy r) / 2, (vz pm + vz r) / 2) - g ^ 2) * (g ^ 2 + norm2 b)
  = norm2 b * ((1 / qm) ^ 2 - 1).
Proof. exact hc_gamma_defect. Qed.
Print Assumptions C46_factor_defect.

Theorem C46_midpoint_factor_refuted :
  ~ (forall qm pm b, qm <> 0 -> let g := hc_gamma qm pm b in let r := hc_rotate pm (vx b / g, vy b / g, vz b / g) in
      g = sqrt ((1 / qm) ^ 2 + norm2 ((vx pm + vx r) / 2, (vy pm + vy r) / 2, (vz pm + vz r) / 2))).
Proof.
  intros H. specialize (H (1/1836) (0, 0, 0) (0, 0, 1) ltac:(lra)). cbn zeta in H.
  pose proof (hc_gamma_defect (1/1836) (0, 0, 0) (0, 0, 1) ltac:(lra)) as D. unfold mid_gamma2 in D.
  set (M := (1 / (1/1836)) ^ 2 + norm2 _) in *.
  assert (HM : 0 <= M). { unfold M. unfold norm2. match goal with |- 0 <= ?a ^ 2 + (?b ^ 2 + ?c ^ 2 + ?d ^ 2) => pose proof (pow2_ge_0 a); pose proof (pow2_ge_0 b); pose proof (pow2_ge_0 c); pose proof (pow2_ge_0 d) end. lra. }
  assert (E : hc_gamma (1 / 1836) (0, 0, 0) (0, 0, 1) ^ 2 = M). { rewrite H. rewrite <- Rsqr_pow2. now apply Rsqr_sqrt. }
  rewrite E in D. assert (N : norm2 (0, 0, 1) = 1) by (unfold norm2, vx, vy, vz; cbn [fst snd]; ring). rewrite N in D. lra.
Qed.
Print Assumptions C46_midpoint_factor_refuted.

Example C46_nonvacuous : (-1) ^ 2 = 1. Proof. ring. Qed.
