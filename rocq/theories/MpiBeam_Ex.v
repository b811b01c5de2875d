(** Concrete runs for C08: a particle at rest that stays behind the moving window. *)
From Coq Require Import Reals ZArith List Bool Lia Lra Permutation Sorting.Sorted.
From Verif Require Import Beam2D_Model Beam2D_Spec Beam2D_Proofs Beam2D_Dep Beam2D_Ex Shape_Model Shape_Spec Beam3D_Model Beam3D_Spec Beam3D_Proofs Beam3D_Run Beam3D_Ex Causal_Proofs.
From Verif Require Import Ring Ring_Proofs Mpi_Model Mpi_Spec Mpi_Proofs Mpi_Ref Mpi_Sched Mpi_Run MpiBeam_Model MpiBeam_Proofs.
Import ListNotations.
Open Scope R_scope.

(** ** 2D: one layer per time step *)
Definition rest (x : R) : part := mkPart x 1 0 0 0 1 1 7%Z.
Definition rest_cfg : pcfg := mkP 1 1 10 0 1 0.
Definition still : fields := mkF [] [] [] [] [].
Definition rest_done (x : R) : bpart := mkB (rest x) 1 0 false.

Lemma interp_nil w : interpolate [] [] w = 0.
Proof.
  unfold interpolate, at_. destruct w as [[[[j a] b] c'] d].
  assert (N : forall k, nth k (@nil R) 0 = 0) by (intros [|k]; reflexivity). rewrite !N. ring.
Qed.
Lemma rest_push xe x : xe <= x - 1 / 2 -> push_particle rest_cfg still still xe (mkB (rest x) 1 1 false) = rest_done (x - 1).
Proof.
  intros H. assert (S1 : sqrt ((1 / 1) ^ 2 + vsq (0, 0 / 1, 0)) = 1).
  { unfold vsq, vx, vy, vz. cbn [fst snd]. replace ((1 / 1) ^ 2 + (0 ^ 2 + (0 / 1) ^ 2 + 0 ^ 2)) with 1 by field. apply sqrt_1. }
  assert (Hh : half_position (rest x) 1 = (1, 0, x - 1 / 2)).
  { unfold half_position, beam_to_vec. cbn [p_r ang rad p_z q_m xi rest]. rewrite S1. rewrite vscale3, vadd3. unfold vx, vy, vz. cbn [fst snd]. apply vec_eq; field. }
  unfold push_particle. cbn [rem push_loop pt dt]. rewrite Hh.
  assert (LB : lost_boundary rest_cfg = 9) by (unfold lost_boundary; cbn [max_radius rest_cfg]; rewrite Rmax_left; lra).
  rewrite LB. unfold in_layer at 1. cbn [vz snd]. unfold vz. cbn [snd]. destruct (Rle_dec xe (x - 1 / 2)) as [_|]; [|lra]. cbn [negb].
  unfold is_lost at 1, vx, vy. cbn [fst snd]. destruct (Rle_dec (9 ^ 2) (1 ^ 2 + 0 ^ 2)); [lra|].
  unfold particle_fields. cbn [E_r E_f E_z B_f B_z still]. rewrite !interp_nil.
  assert (Sb : substep rest_cfg (rest x) 1 ((0, 0, 0), (- 0, 0, 0)) = ((1, 0, x - 1), (0, 0, 0))).
  { unfold substep, beam_to_vec. cbn [p_r ang rad p_z q_m xi rest]. rewrite S1. unfold vx, vy, vz. cbn [fst snd magnetic_field rest_cfg].
    set (ph := vadd _ (vscale (1 / 2 * _) _)).
    assert (P : ph = (0, 0, 0)).
    { unfold ph. rewrite vscale3, cross3, vadd3, vscale3, vadd3. apply vec_eq; field. }
    rewrite P. unfold vsq, vadd, vscale, vx, vy, vz. cbn [fst snd]. replace ((1 / 1) ^ 2 + (0 ^ 2 + 0 ^ 2 + 0 ^ 2)) with 1 by field. rewrite sqrt_1.
    f_equal; apply vec_eq; field. }
  rewrite Sb. unfold is_lost, vx, vy. cbn [fst snd]. destruct (Rle_dec (9 ^ 2) (1 ^ 2 + 0 ^ 2)); [lra|].
  unfold beam_to_vec. cbn [push_loop]. unfold vec_to_beam, rest_done, rest, vx, vy, vz. cbn [fst snd magnetic_field rest_cfg q_m q_norm pid pt ang dt lost].
  replace (sqrt (1 ^ 2 + 0 ^ 2)) with 1.
  2: { replace (1 ^ 2 + 0 ^ 2) with (1 ^ 2) by lra. now rewrite sqrt_pow2 by lra. }
  destruct (Req_EM_T 0 0); [|lra]. do 2 f_equal; lra.
Qed.
Lemma rest_move1 i x : - IZR i <= x - 1 / 2 -> x - 1 < - IZR i ->
  move_beam_layer bsort 0 rest_cfg [fresh (rest x)] i still still = Some ([], [], [rest_done (x - 1)]).
Proof.
  intros H1 H2. unfold move_beam_layer. cbn [map_opt]. unfold prepare, fresh. cbn [dt].
  destruct (Req_EM_T 0 0); [|lra]. change (sub_energy rest_cfg) with 0. destruct (Req_EM_T 0 0); [|lra].
  change (time_step rest_cfg) with 1. cbn [bind option_map map pt rem lost].
  rewrite rest_push by (cbn; lra). rewrite (split_single _ _ _ bsort_ok). unfold moving_b, rest_done. cbn [lost rem pt rest xi Nat.ltb Nat.leb orb].
  cbn [xi_step rest_cfg]. destruct (Rlt_dec _ _); [reflexivity|lra].
Qed.
Lemma rest_move2 i x : - IZR i <= x ->
  move_beam_layer bsort 0 rest_cfg [rest_done x] i still still = Some ([], [rest_done x], []).
Proof.
  intros H. unfold move_beam_layer. cbn [map_opt]. unfold prepare, rest_done at 1. cbn [dt].
  destruct (Req_EM_T 1 0); [lra|]. cbn [bind option_map map]. unfold push_particle. cbn [rest_done rem push_loop].
  fold (rest_done x). rewrite (split_single _ _ _ bsort_ok). unfold moving_b, rest_done. cbn [lost rem pt rest xi Nat.ltb Nat.leb orb].
  cbn [xi_step rest_cfg]. destruct (Rlt_dec _ _); [lra|reflexivity].
Qed.
Lemma rest_move0 i : move_beam_layer bsort 0 rest_cfg [] i still still = Some ([], [], []).
Proof. unfold move_beam_layer. cbn. now rewrite (split_nil _ _ bsort_ok). Qed.

Notation rkern := (kern2 bsort unit (fun _ _ _ => tt) (fun _ => still) 0 rest_cfg).
Lemma rest_kern mv rho prev i b l m d : length rho = 6%nat -> (forall p, In p b -> rad p = 1) ->
  move_beam_layer bsort 0 rest_cfg mv (Z.of_nat i) still still = Some (l, m, d) ->
  exists rho' prev', length rho' = 6%nat /\ rkern (Some (mv, rho, prev, tt)) i b = (Some (map fresh b ++ d, rho', prev', tt), map pt m).
Proof.
  intros Hl Hb M. destruct (layout_some (r_step rest_cfg) (xi_step rest_cfg) rho (map fresh b) (Z.of_nat i)) as (r1 & r2 & E).
  - cbn. lra.
  - intros q Hq. apply in_map_iff in Hq. destruct Hq as (p & <- & Hp). unfold on_grid. cbn [fresh pt r_step rest_cfg]. rewrite (Hb p Hp), Hl. cbn. lra.
  - exists r2, r1. split.
    + assert (G : forall q, In q (map fresh b) -> 0 <= rad (pt q)).
      { intros q Hq. apply in_map_iff in Hq. destruct Hq as (p & <- & Hp). cbn [fresh pt]. rewrite (Hb p Hp). lra. }
      assert (H1 : 0 < r_step rest_cfg) by (cbn; lra). assert (H2 : 0 < xi_step rest_cfg) by (cbn; lra).
      destruct (layout_spec _ _ _ _ _ _ _ H1 H2 G E) as (_ & L2 & _). congruence.
    + cbn [kern2]. rewrite E, M. reflexivity.
Qed.

(** the rest particle of layer k *)
Definition at_layer (k : nat) : part := rest (- (INR k + 1 / 2)).
Lemma at_next k : rest (- (INR k + 1 / 2) - 1) = at_layer (S k).
Proof. unfold at_layer. rewrite S_INR. f_equal. lra. Qed.
Ltac emp Hx := let r := fresh "r" in let p := fresh "p" in let L := fresh "L" in let E := fresh "E" in
  destruct Hx as (r & p & L & E).
Lemma rest_out0 : run_kernel part (sig2 unit) rkern (kinit2 unit 6 (fun _ => tt) 1) 0 [[at_layer 0]; []; []; []] = [[]; []; [at_layer 1]; []].
Proof.
  unfold kinit2.
  assert (R1 : forall k p, In p [at_layer k] -> rad p = 1) by (intros k p [<-|[]]; reflexivity).
  assert (R0 : forall p, In p (@nil part) -> rad p = 1) by (intros p []).
  emp (rest_kern [] (repeat 0 6) (repeat 0 6) 0 [at_layer 0] _ _ _ eq_refl (R1 0%nat) (rest_move0 _)).
  cbn [run_kernel]. rewrite E. cbn [map app plus].
  emp (rest_kern [fresh (at_layer 0)] r p 1 [] _ _ _ L R0 (rest_move1 1 (- (INR 0 + 1 / 2)) ltac:(cbn; lra) ltac:(cbn; lra))).
  rewrite E0. cbn [map app plus].
  emp (rest_kern [rest_done (- (INR 0 + 1 / 2) - 1)] r0 p0 2 [] _ _ _ L0 R0 (rest_move2 2 (- (INR 0 + 1 / 2) - 1) ltac:(cbn; lra))).
  rewrite E1. cbn [map app plus].
  emp (rest_kern [] r1 p1 3 [] _ _ _ L1 R0 (rest_move0 _)).
  rewrite E2. cbn [map]. cbn [rest_done pt]. rewrite at_next. reflexivity.
Qed.
Lemma rest_out1 : run_kernel part (sig2 unit) rkern (kinit2 unit 6 (fun _ => tt) 2) 0 [[]; [at_layer 1]; []; []] = [[]; []; []; [at_layer 2]].
Proof.
  unfold kinit2.
  assert (R1 : forall k p, In p [at_layer k] -> rad p = 1) by (intros k p [<-|[]]; reflexivity).
  assert (R0 : forall p, In p (@nil part) -> rad p = 1) by (intros p []).
  emp (rest_kern [] (repeat 0 6) (repeat 0 6) 0 [] _ _ _ eq_refl R0 (rest_move0 _)).
  cbn [run_kernel]. rewrite E. cbn [map app plus].
  emp (rest_kern [] r p 1 [at_layer 1] _ _ _ L (R1 1%nat) (rest_move0 _)).
  rewrite E0. cbn [map app plus].
  emp (rest_kern [fresh (at_layer 1)] r0 p0 2 [] _ _ _ L0 R0 (rest_move1 2 (- (INR 1 + 1 / 2)) ltac:(cbn; lra) ltac:(cbn; lra))).
  rewrite E1. cbn [map app plus].
  emp (rest_kern [rest_done (- (INR 1 + 1 / 2) - 1)] r1 p1 3 [] _ _ _ L1 R0 (rest_move2 3 (- (INR 1 + 1 / 2) - 1) ltac:(cbn; lra))).
  rewrite E2. cbn [map]. cbn [rest_done pt]. rewrite at_next. reflexivity.
Qed.
Lemma at_layer_in k j : layer2 1 0 j (at_layer k) = (j =? k)%nat.
Proof.
  destruct (Nat.eqb_spec j k) as [->|Hn].
  - unfold layer2, in_xi_layer_top, in_xi_layer, at_layer. cbn [rest xi].
    assert (Hk : IZR (Z.of_nat k) = INR k) by (now rewrite <- INR_IZR_INZ).
    destruct (Nat.eqb_spec k 0) as [->|].
    + cbn. destruct (Rle_dec _ _); [|lra]. destruct (Rle_dec _ _); [reflexivity|lra].
    + rewrite Z.add_0_l, plus_IZR, Hk. destruct (Rle_dec _ _); [|lra]. destruct (Rlt_dec _ _); [reflexivity|lra].
  - destruct (layer2 1 0 j (at_layer k)) eqn:E; auto. exfalso. apply Hn.
    apply (disjoint2 rest_cfg ltac:(cbn; lra) j k (at_layer k)); cbn [xi_step rest_cfg]; auto.
    unfold layer2, in_xi_layer_top, in_xi_layer, at_layer. cbn [rest xi].
    assert (Hk : IZR (Z.of_nat k) = INR k) by (now rewrite <- INR_IZR_INZ).
    destruct (Nat.eqb_spec k 0) as [->|].
    + cbn. destruct (Rle_dec _ _); [|lra]. destruct (Rle_dec _ _); [reflexivity|lra].
    + rewrite Z.add_0_l, plus_IZR, Hk. destruct (Rle_dec _ _); [|lra]. destruct (Rlt_dec _ _); [reflexivity|lra].
Qed.
Lemma rest_slices k : (k < 4)%nat -> slices part source (get_slice2 1) (new_source isort [at_layer k]) 0 4 = map (fun i => if (i =? k)%nat then [at_layer k] else []) (seq 0 4).
Proof.
  intros Hk. pose proof (cut2 isort rest_cfg 4 isort_ok ltac:(cbn; lra) ltac:(cbn; lra) [at_layer k]
    ltac:(intros a [<-|[]]; exists k; cbn [xi_step rest_cfg]; rewrite at_layer_in; apply Nat.eqb_refl)) as C. cbn [xi_step rest_cfg] in C.
  apply (nth_ext _ _ [] []); [now rewrite slices_length, map_length, seq_length|].
  intros i Hi. rewrite slices_length in Hi. specialize (C i Hi). cbn [filter] in C. rewrite at_layer_in in C.
  rewrite (nth_indep (map _ _) [] (if (0 =? k)%nat then [at_layer k] else [])) by (now rewrite map_length, seq_length).
  rewrite (map_nth (fun i => if (i =? k)%nat then [at_layer k] else [])), seq_nth by auto. cbn [plus].
  destruct (i =? k)%nat.
  - now apply Permutation_length_1_inv, Permutation_sym.
  - now apply Permutation_nil, Permutation_sym.
Qed.

(** ** 3D: a particle at rest on the axis, two layers, time step [t] *)
Definition s_cfg (t : R) : cfg3 := mkC3 21 1 1 t 1.
Definition s_part (x : R) : part3 := mk3 x 0 0 0 0 0 1 1 7%Z 0 0.
Definition s_go (t x : R) (r : nat) : part3 := mk3 x 0 0 0 0 0 1 1 7%Z t r.
Lemma s_radius t : lost_radius (s_cfg t) = 9.5.
Proof. unfold lost_radius, s_cfg. cbn [c_h c_n]. rewrite Rmax_right; lra. Qed.
Lemma s_advance u t idx x : advance u (s_cfg t) idx no_fields no_fields (s_go t x 1) = s_go t (x - t) 0.
Proof.
  pose proof (advance_free u (s_cfg t) idx no_fields no_fields (s_go t x 1) no_fields_ok no_fields_ok) as (A & B & C & D & E & F).
  assert (G : gam3 (s_go t x 1) = 1) by exact l_gam. rewrite G in *.
  unfold advance in *. destruct (update u (s_go t x 1) _) as [p' x']. cbn [b_px b_py b_pz b_x b_y b_xi b_dt s_go] in *.
  rewrite A, B, C, D, E, F. unfold s_go. cbn [b_qm b_q b_id b_rem]. f_equal; try reflexivity; lra.
Qed.
Lemma s_move u t x : -1 <= x - t / 2 -> u = CPU \/ -1 <= x - t ->
  move_one3 u (s_cfg t) 0 no_fields no_fields (s_go t x 1) = (s_go t (x - t) 0, (false, true, false)).
Proof.
  intros H1 H2. assert (Hh : half3 (s_go t x 1) = (0, 0, x - t / 2)).
  { unfold half3, s_go. cbn [b_qm b_px b_py b_pz b_x b_y b_xi b_dt]. rewrite l_gam. apply vec_eq; field. }
  unfold move_one3. change (b_rem (s_go t x 1)) with 1%nat.
  rewrite loop3_S; [|reflexivity|rewrite Hh; cbn; lra|rewrite Hh, s_radius; cbn [fst snd]; lra].
  rewrite s_advance. cbn zeta. cbn [s_go b_x b_y]. unfold is_lost3. rewrite s_radius. destruct (Rle_dec _ _) as [L|L]; [lra|].
  cbn [loop3 b_rem Nat.eqb orb andb b_x b_xi]. unfold not_in_layer. cbn [s_cfg c_dxi].
  destruct u; destruct (Rlt_dec _ _) as [L'|L']; cbn [negb andb]; try reflexivity; exfalso; cbn in L'; destruct H2 as [H2|H2]; try discriminate; lra.
Qed.
Lemma s_start t x : start3 0 (c_energy (s_cfg t)) (c_time_step (s_cfg t)) (s_part x) = Some (s_go t x 1).
Proof.
  unfold start3. cbn [halve_loop s_part b_qm b_pz s_cfg c_energy c_time_step]. unfold max_sub_dt.
  replace (1 / 1 ^ 2 + 0 ^ 2) with 1 by field. rewrite sqrt_1. replace (1 / 1) with 1 by field. rewrite sqrt_1.
  destruct (Rlt_dec 1 1); [lra|]. cbn [option_map]. unfold s_go. cbn. do 2 f_equal; [ring|].
  rewrite (floor_unique (1 / 1) 1) by lra. reflexivity.
Qed.
Notation skern u t := (kern3 unit (fun _ _ _ => tt) (fun _ => no_fields) u 0 (s_cfg t)).
Lemma s_run u t x tm : -1 <= x - t / 2 -> u = CPU \/ -1 <= x - t ->
  run_kernel part3 (sig3 unit) (skern u t) (kinit3 unit (fun _ => tt) tm) 0 [[s_part x]; []] = [[]; [s_part (x - t)]].
Proof.
  intros H1 H2. cbn [run_kernel kinit3 kern3].
  destruct (layout3 _ _ _ _ _ _) as [r r']. rewrite move3_split. cbn [map_opt option_map app map sort_out filter].
  cbn [run_kernel kern3]. destruct (layout3 _ _ _ _ _ _) as [r1 r1']. cbn [plus]. change (Z.of_nat 1) with 1%Z.
  rewrite move3_split. cbn [map strip app].
  change (strip (s_part x)) with (s_part x). cbn [map_opt]. rewrite s_start. cbn [bind option_map app map].
  change (1 - 1)%Z with 0%Z. rewrite (s_move u t x H1 H2). unfold sort_out. cbn [filter fst snd map]. reflexivity.
Qed.
Lemma s_layer j x : in_layer3 1 (Z.of_nat j) (s_part x) = true <-> - (INR j + 1) <= x < - INR j.
Proof.
  unfold in_layer3. cbn [s_part b_xi]. rewrite plus_IZR, <- INR_IZR_INZ.
  destruct (Rle_dec _ _); [destruct (Rlt_dec _ _)|]; split; intros; try discriminate; try lra; auto.
Qed.
Lemma s_slices k x : (k < 2)%nat -> - (INR k + 1) <= x < - INR k ->
  slices part3 (list part3) (get_slice3 1) (new_source3 isort3 [s_part x]) 0 2 = map (fun i => if (i =? k)%nat then [s_part x] else []) (seq 0 2).
Proof.
  intros Hk Hx. pose proof (cut3_layers isort3 (s_cfg 1) 2 isort3_ok ltac:(cbn; lra) [s_part x]
    ltac:(intros a [<-|[]]; exists k; cbn [c_dxi s_cfg]; now apply s_layer)) as C. cbn [c_dxi s_cfg] in C.
  apply (nth_ext _ _ [] []); [now rewrite slices_length, map_length, seq_length|].
  intros i Hi. rewrite slices_length in Hi. specialize (C i Hi). cbn [filter] in C.
  rewrite (nth_indep (map _ _) [] (if (0 =? k)%nat then [s_part x] else [])) by (now rewrite map_length, seq_length).
  rewrite (map_nth (fun i => if (i =? k)%nat then [s_part x] else [])), seq_nth by auto. cbn [plus].
  destruct (in_layer3 1 (Z.of_nat i) (s_part x)) eqn:E.
  - assert (i = k) as -> by (apply (disjoint3 (s_cfg 1) ltac:(cbn; lra) i k (s_part x)); cbn [c_dxi s_cfg]; auto; now apply s_layer).
    rewrite Nat.eqb_refl. now apply Permutation_length_1_inv, Permutation_sym.
  - destruct (Nat.eqb_spec i k) as [->|].
    + rewrite (proj2 (s_layer k x)) in E by auto. discriminate.
    + now apply Permutation_nil, Permutation_sym.
Qed.
