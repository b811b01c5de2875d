(** Theorems C59: one time step couples beam and plasma layer by layer. *)
From Coq Require Import Reals ZArith List Bool Lia Lra Permutation Sorting.Sorted.
From Verif Require Import Beam2D_Model Beam2D_Spec Beam2D_Proofs Beam2D_Push Beam2D_Ex Shape_Model Shape_Spec Beam3D_Model Beam3D_Spec Beam3D_Proofs Beam3D_Run Beam3D_Ex
  Causal_Proofs Coupling_Spec Coupling_Proofs.
From Verif Require Beam2D_Total.
Import ListNotations.
Open Scope R_scope.

(** C59, 2D.  After n layers the plasma is what the plasma solver makes of the densities of the
    charge clouds of the beam as given, layer after layer, each layer being given its own density and
    that of the layer ahead.  Any plasma solver. *)
Theorem C59_2d_plasma_sees_the_beam_layer_by_layer : forall sort_xi sort_bool Pl plasma pl_fields halvings c n i beam carry prev (pl : Pl) s,
  sort_xi_ok sort_xi -> 0 < r_step c -> 0 < xi_step c -> IZR (i + Z.of_nat n) * xi_step c <= 99999 ->
  (forall p, In p beam -> xi p <= - (IZR i * xi_step c) /\ 0 <= rad p) ->
  xi_loop sort_bool Pl plasma pl_fields halvings c n i (mkLS Pl (new_source sort_xi beam) [] [] [] carry prev pl) = Some s ->
  ls_plasma Pl s = plasma_after plasma pl prev carry (r_step c) (xi_step c) i beam n /\
  ls_prev Pl s = match n with O => prev | S k => density_row (r_step c) (xi_step c) i beam carry k end.
Proof.
  intros sort_xi sort_bool Pl plasma pl_fields h c n i beam carry prev pl s Hs Hr Hd Hl Hb H.
  destruct (loop_feed _ _ _ _ _ _ _ _ _ _ H) as (sl & src & A & t & Fd & ->). cbn [ls_src] in A.
  rewrite (ask_slices sort_xi beam (xi_step c) i n sl src Hs Hd Hl ltac:(intros; apply Hb; auto) A) in Fd.
  assert (E : map (fun k => map fresh (filter (layer2 (xi_step c) i k) (sort_xi beam))) (seq 0 n) = map (layer_of (xi_step c) i (sort_xi beam)) (seq 0 n)).
  { apply map_ext. intros k. unfold layer_of, layer2. f_equal. apply filter_ext. intros p. now destruct k. }
  rewrite E in Fd.
  assert (Hrad : forall p, In p (sort_xi beam) -> 0 <= rad p) by (intros p Hp; apply Hb; eapply Permutation_in; [apply Hs|exact Hp]).
  destruct (feed_wake_spec sort_bool Pl plasma pl_fields h c i (sort_xi beam) carry prev pl (new_source sort_xi beam) Hr Hd Hrad n t Fd) as (W1 & W2 & _).
  cbn [with_src ls_plasma ls_prev]. rewrite W1, W2. unfold plasma_after. split.
  - f_equal. apply map_ext. intros k. apply density_row_perm. apply Hs.
  - destruct n; auto. apply density_row_perm. apply Hs.
Qed.
Print Assumptions C59_2d_plasma_sees_the_beam_layer_by_layer.

(** Every particle delivered was in some layer i + k of the beam, and its flight, in the fields the
    plasma had at the ends of each layer it passed, leads exactly to the particle delivered; a
    particle still to be moved is on such a flight too. *)
Theorem C59_2d_particles_fly_in_the_wake : forall sort_xi sort_bool Pl plasma pl_fields halvings c n i beam carry prev (pl : Pl) s,
  sort_xi_ok sort_xi -> sort_bool_ok sort_bool -> 0 < r_step c -> 0 < xi_step c -> time_step c <> 0 -> IZR (i + Z.of_nat n) * xi_step c <= 99999 ->
  (forall p, In p beam -> xi p <= - (IZR i * xi_step c) /\ 0 <= rad p) ->
  xi_loop sort_bool Pl plasma pl_fields halvings c n i (mkLS Pl (new_source sort_xi beam) [] [] [] carry prev pl) = Some s ->
  let F := fun k => pl_fields (plasma_after plasma pl prev carry (r_step c) (xi_step c) i beam k) in
  (forall b, In b (concat (ls_drain Pl s)) -> exists p k l m, In p beam /\ In (fresh p) (layer_of (xi_step c) i beam k) /\ (k <= l)%nat /\ (S l < n)%nat /\
     flight halvings c i F p k l m b /\ rem b = 0%nat /\ bottom (xi_step c) i l <= xi (pt b) /\ INR m * dt b = time_step c) /\
  (forall b, In b (ls_move Pl s) ->
     (exists p k, n = S k /\ b = fresh p /\ In p beam /\ In (fresh p) (layer_of (xi_step c) i beam k)) \/
     (exists p k l m, n = S (S l) /\ In p beam /\ In (fresh p) (layer_of (xi_step c) i beam k) /\ (k <= l)%nat /\
        flight halvings c i F p k l m b /\ ((0 < rem b)%nat \/ xi (pt b) < bottom (xi_step c) i l))).
Proof.
  intros sort_xi sort_bool Pl plasma pl_fields h c n i beam carry prev pl s Hs Hok Hr Hd Ht Hl Hb H FF.
  destruct (loop_feed _ _ _ _ _ _ _ _ _ _ H) as (sl & src & A & t & Fd & ->). cbn [ls_src] in A.
  rewrite (ask_slices sort_xi beam (xi_step c) i n sl src Hs Hd Hl ltac:(intros; apply Hb; auto) A) in Fd.
  assert (E : map (fun k => map fresh (filter (layer2 (xi_step c) i k) (sort_xi beam))) (seq 0 n) = map (layer_of (xi_step c) i (sort_xi beam)) (seq 0 n)).
  { apply map_ext. intros k. unfold layer_of, layer2. f_equal. apply filter_ext. intros p. now destruct k. }
  rewrite E in Fd.
  assert (Hrad : forall p, In p (sort_xi beam) -> 0 <= rad p) by (intros p Hp; apply Hb; eapply Permutation_in; [apply Hs|exact Hp]).
  destruct (feed_flights sort_bool Hok Pl plasma pl_fields h c i (sort_xi beam) carry prev pl (new_source sort_xi beam) Hr Hd Hrad n Ht t Fd) as (M & D).
  assert (EF : F Pl plasma pl_fields c i (sort_xi beam) carry prev pl = FF).
  { apply FunctionalExtensionality.functional_extensionality. intros k. unfold F, FF, plasma_after. do 2 f_equal. apply map_ext. intros j. apply density_row_perm. apply Hs. }
  unfold done in D. unfold waiting in M. rewrite EF in *.
  assert (In1 : forall p k, In (fresh p) (layer_of (xi_step c) i (sort_xi beam) k) -> In p beam /\ In (fresh p) (layer_of (xi_step c) i beam k)).
  { intros p k Hp. assert (Q : In (fresh p) (layer_of (xi_step c) i beam k)) by (eapply Permutation_in; [apply layer_of_perm; apply Hs|exact Hp]).
    split; auto. unfold layer_of in Q. apply in_map_iff in Q. destruct Q as (q & Eq & Q). injection Eq as ->. apply filter_In in Q. apply Q. }
  assert (G : forall p k l m b, flight h c i FF p k l m b -> (k <= l)%nat) by (induction 1; lia).
  cbn [with_src ls_move ls_drain]. split; intros b Hbb.
  - destruct (D b Hbb) as (k & l & p & m & Hn & Hi & Hf & Hlo & Hrem & Hx). exists p, k, l, m. destruct (In1 _ _ Hi). repeat (split; [eauto; fail|]).
    eapply flight_time; eauto.
  - destruct (M b Hbb) as [(k & p & Hn & -> & Hi)|(k & l & p & m & Hn & Hi & Hf & Hlo & Hc)]; destruct (In1 _ _ Hi).
    + left. exists p, k. auto.
    + right. exists p, k, l, m. repeat (split; [eauto; fail|]). auto.
Qed.
Print Assumptions C59_2d_particles_fly_in_the_wake.

(** The flight of a particle through given layers in given fields is unique. *)
Theorem C59_2d_flight_is_unique : forall h c i F p k l m b m' b', flight h c i F p k l m b -> flight h c i F p k l m' b' -> m' = m /\ b' = b.
Proof. intros. eapply flight_det; eauto. Qed.
Print Assumptions C59_2d_flight_is_unique.

(** C59, 3D, on both processors. *)
Theorem C59_3d_plasma_sees_the_beam_layer_by_layer : forall sort3 Pl plasma pl_fields u halvings c n i beam carry prev (pl : Pl) s,
  sort3_ok sort3 -> 0 < c_h c -> 0 < c_dxi c -> (forall p, In p beam -> b_xi p < - (IZR i * c_dxi c)) ->
  run3 Pl plasma pl_fields u halvings c n i (mkS3 Pl (new_source3 sort3 beam) [] 0 [] [] carry prev pl) = Some s ->
  s_pl Pl s = plasma_after3 plasma pl prev carry (c_n c) (c_h c) (c_dxi c) i beam n /\
  s_prev Pl s = match n with O => prev | S k => beam_density3 (c_n c) (c_h c) (c_dxi c) i beam carry k end.
Proof.
  intros sort3 Pl plasma pl_fields u h c n i beam carry prev pl s Hs Hh Hd Hb H.
  destruct (loop_feed3 _ _ _ _ _ _ _ _ _ _ H) as (t & Fd & ->). cbn [s_src] in Fd. unfold new_source3 in Fd at 1.
  destruct (ask3_spec (c_dxi c) Hd n i (sort3 beam)) as [S1 _]; [apply Hs|intros p Hp; apply Hb; eapply Permutation_in; [apply Hs|exact Hp]|]. rewrite S1 in Fd.
  destruct (feed3_wake_spec Pl plasma pl_fields u h c i (sort3 beam) carry prev pl (new_source3 sort3 beam) Hh n t Fd) as (W1 & W2 & _).
  cbn [with_src3 s_pl s_prev]. rewrite W1, W2. unfold plasma_after3. split.
  - f_equal. apply map_ext. intros k. apply beam_density3_perm. apply Hs.
  - destruct n; auto. apply beam_density3_perm. apply Hs.
Qed.
Print Assumptions C59_3d_plasma_sees_the_beam_layer_by_layer.

(** A delivered particle has flown through the wake, or is the copy of a lost particle (C18). *)
Theorem C59_3d_particles_fly_in_the_wake : forall sort3 Pl plasma pl_fields u halvings c n i beam carry prev (pl : Pl) s,
  sort3_ok sort3 -> 0 < c_h c -> 0 < c_dxi c -> (forall p, In p beam -> b_xi p < - (IZR i * c_dxi c)) ->
  run3 Pl plasma pl_fields u halvings c n i (mkS3 Pl (new_source3 sort3 beam) [] 0 [] [] carry prev pl) = Some s ->
  let F := fun k => pl_fields (plasma_after3 plasma pl prev carry (c_n c) (c_h c) (c_dxi c) i beam k) in
  let copy_of_lost := fun b => (exists b', In b' (s_lost Pl s) /\ ident3 b' = ident3 b) /\ b_rem b = 0%nat /\ (exists p, In p beam /\ b_id b = (- b_id p)%Z) in
  (forall b, In b (s_drain Pl s) -> copy_of_lost b \/
     exists p k l m, In p (layer_of3 (c_dxi c) i beam k) /\ (k <= l)%nat /\ (S l < n)%nat /\
     flight3 u halvings c i F p k l m b /\ b_rem b = 0%nat /\ bottom (c_dxi c) i l <= compared u b /\ INR m * b_dt b = c_time_step c) /\
  (forall b, In b (s_move Pl s) -> copy_of_lost b \/ (exists k, n = S k /\ In b (layer_of3 (c_dxi c) i beam k)) \/
     (exists p k l m, n = S (S l) /\ In p (layer_of3 (c_dxi c) i beam k) /\ (k <= l)%nat /\
        flight3 u halvings c i F p k l m b /\ ((0 < b_rem b)%nat \/ compared u b < bottom (c_dxi c) i l))).
Proof.
  intros sort3 Pl plasma pl_fields u h c n i beam carry prev pl s Hs Hh Hd Hb H FF ghost3.
  destruct (loop_feed3 _ _ _ _ _ _ _ _ _ _ H) as (t & Fd & Es). cbn [s_src] in Fd. unfold new_source3 in Fd at 1.
  destruct (ask3_spec (c_dxi c) Hd n i (sort3 beam)) as [S1 _]; [apply Hs|intros p Hp; apply Hb; eapply Permutation_in; [apply Hs|exact Hp]|]. rewrite S1 in Fd.
  destruct (feed3_flights Pl plasma pl_fields u h c i (sort3 beam) carry prev pl (new_source3 sort3 beam) Hh n t Fd) as (FL & MA & MF & D).
  assert (EF : F3 Pl plasma pl_fields c i (sort3 beam) carry prev pl = FF).
  { apply FunctionalExtensionality.functional_extensionality. intros k. unfold F3, FF, plasma_after3. do 2 f_equal. apply map_ext. intros j. apply beam_density3_perm. apply Hs. }
  unfold done3 in D. unfold fallen3 in MF. rewrite EF in *.
  assert (In0 : forall p, In p (sort3 beam) -> In p beam) by (intros p Hp; eapply Permutation_in; [apply Hs|exact Hp]).
  assert (In1 : forall p k, In p (layer_of3 (c_dxi c) i (sort3 beam) k) -> In p (layer_of3 (c_dxi c) i beam k)).
  { intros p k Hp. unfold layer_of3 in *. apply filter_In in Hp. apply filter_In. split; [apply In0|]; apply Hp. }
  assert (G : forall p k l m b, flight3 u h c i FF p k l m b -> (k <= l)%nat) by (induction 1; lia).
  assert (GH : forall b, ghost (sort3 beam) (s_lost Pl t) b -> ghost3 b).
  { intros b ((b' & I & E) & R & (p & Hp & Ep)). unfold ghost3. rewrite Es. cbn [with_src3 s_lost]. split; [eauto|]. split; [auto|]. exists p. auto. }
  rewrite Es. cbn [with_src3 s_move s_drain]. split; intros b Hbb.
  - destruct (D b Hbb) as [(k & l & p & m & Hn & Hi & Hf & Hrem & Hx)|Hg]; [right|left; auto]. exists p, k, l, m. repeat (split; [eauto; fail|]).
    eapply flight3_time; eauto.
  - rewrite <- (firstn_skipn (length (s_move Pl t) - s_fell Pl t) (s_move Pl t)) in Hbb. apply in_app_or in Hbb. destruct Hbb as [Hbb|Hbb].
    + right. left. destruct (MA b Hbb) as (k & -> & Hk). exists k. auto.
    + destruct (MF b Hbb) as [(k & l & p & m & Hn & Hi & Hf & Hc)|Hg]; [right; right|left; auto]. exists p, k, l, m. repeat (split; [eauto; fail|]). auto.
Qed.
Print Assumptions C59_3d_particles_fly_in_the_wake.

Theorem C59_3d_flight_is_unique : forall u h c i F p k l m b m' b', flight3 u h c i F p k l m b -> flight3 u h c i F p k l m' b' -> m' = m /\ b' = b.
Proof. intros. eapply flight3_det; eauto. Qed.
Print Assumptions C59_3d_flight_is_unique.

(** The hypotheses are met: a particle is delivered after three layers, and its charge is in the
    density of the first layer. *)
Example C59_2d_nonvacuous :
  let start := mkLS unit (new_source isort [late_part]) [] [] [] (repeat 0 6) (repeat 0 6) tt in
  (exists s, xi_loop bsort unit (fun _ _ _ => tt) (fun _ => late_fields) 0 late_cfg 3 0 start = Some s /\ In late_out (concat (ls_drain unit s))) /\
  (forall p, In p [late_part] -> xi p <= - (IZR 0 * xi_step late_cfg) /\ 0 <= rad p) /\ time_step late_cfg <> 0 /\
  beam_density 1 1 0 [late_part] (repeat 0 6) 0 1 = 0.1.
Proof.
  split; [|split; [|split]].
  - destruct (late_loop isort bsort isort_ok bsort_ok) as (_ & s3 & E & D). exists s3. split; [exact E|]. rewrite D. cbn. auto.
  - intros p [<-|[]]. cbn. lra.
  - cbn. lra.
  - unfold beam_density, layer_of. cbn [filter]. unfold in_xi_layer_top. cbn [xi late_part].
    destruct (Rle_dec _ _) as [|N]; [|exfalso; apply N; cbn; lra]. destruct (Rle_dec _ _) as [|N]; [|exfalso; apply N; cbn; lra].
    unfold cic_upper, bottom, ring_volume, hat. cbn [map sumR fresh pt q_norm xi rad nth repeat]. change (0 + Z.of_nat 0 + 1)%Z with 1%Z.
    unfold late_part. cbn [INR xi rad q_norm]. replace (1 / 1 - 1) with 0 by lra. rewrite Rabs_R0, Rmax_right by lra. lra.
Qed.
Example C59_3d_nonvacuous : exists s, run3 unit (fun _ _ _ => tt) (fun _ => no_fields) GPU 0 w_cfg 3 0 (mkS3 unit (new_source3 isort3 [w_part 0 0]) [] 0 [] [] zero_grid zero_grid tt) = Some s /\
  sort3_ok isort3 /\ b_xi (w_part 0 0) < - (IZR 0 * c_dxi w_cfg).
Proof. destruct w_run as (s & E & _). exists s. split; [exact E|]. split; [exact isort3_ok|]. cbn. lra. Qed.
Definition slow_cfg : cfg3 := mkC3 21 1 2 1 1.
Definition slow : part3 := mk3 (-0.5) 0 0 0 0 0 1 1 7%Z 0 0.
Example C59_3d_flight_nonvacuous : forall u, exists q, flight3 u 0 slow_cfg 0 (fun _ => no_fields) slow 0 0 1 q /\ b_rem q = 0%nat /\ bottom (c_dxi slow_cfg) 0 0 <= compared u q /\ b_xi q = -1.5.
Proof.
  intros u. set (p := mk3 (-0.5) 0 0 0 0 0 1 1 7%Z 1 1).
  assert (G : gam 1 0 0 0 = 1) by (unfold gam; replace ((1 / 1) ^ 2 + 0 ^ 2 + 0 ^ 2 + 0 ^ 2) with 1 by field; apply sqrt_1).
  assert (L : lost_radius slow_cfg = 9.5) by (unfold lost_radius, slow_cfg; cbn [c_h c_n]; rewrite Rmax_right; lra).
  assert (N : no_field3 no_fields) by (intros a b; cbn; auto 10).
  destruct (advance_free u slow_cfg 0 no_fields no_fields p N N) as (_ & _ & _ & X & Y & Z).
  unfold gam3 in X, Y, Z. fold (gam (b_qm p) (b_px p) (b_py p) (b_pz p)) in X, Y, Z. cbn [p b_qm b_px b_py b_pz b_x b_y b_xi b_dt] in X, Y, Z. rewrite G in X, Y, Z. fold p in X, Y, Z.
  assert (H : half3 p = (0, 0, -1)).
  { unfold half3, p. cbn [b_qm b_px b_py b_pz b_x b_y b_xi b_dt]. rewrite G. f_equal; [f_equal|]; lra. }
  destruct (advance_keeps u slow_cfg 0 no_fields no_fields p) as (_ & _ & R). cbn in R.
  exists (advance u slow_cfg 0 no_fields no_fields p). split; [|split; [exact R|split; [|rewrite Z; lra]]].
  - eapply (Fl3_first u 0 slow_cfg 0 (fun _ => no_fields) slow 0 1 p).
    + pose proof (w_start 0 0) as W. unfold start3 in W |- *. cbn [slow slow_cfg c_energy c_time_step b_qm b_pz w_cfg w_part] in W |- *.
      destruct (halve_loop 0 1 (max_sub_dt 1 0 1)) as [d|]; [|discriminate]. cbn [option_map] in W |- *. injection W as W1 W2. unfold p, slow. cbn [b_xi b_x b_y b_px b_py b_pz b_qm b_q b_id]. now rewrite W1, W2.
    + split; [|left; exact R]. change (0 + Z.of_nat 0)%Z with 0%Z. constructor; [cbn; lia|rewrite H; cbn; lra|rewrite H, L; cbn [fst snd]; lra|rewrite X, Y, L; lra|constructor].
  - unfold bottom, compared. destruct u; rewrite ?X, ?Z; cbn; lra.
Qed.
