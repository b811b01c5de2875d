(** Corollaries of the 2D beam lemmas and concrete instances used by Props_Beam2D. *)
From Coq Require Import Reals ZArith List Bool Permutation Sorting.Sorted Lra Lia.
From Verif Require Import Beam2D_Model Beam2D_Spec Beam2D_Proofs Beam2D_Push Beam2D_Free Beam2D_Dep Beam2D_Total.
Import ListNotations.
Open Scope R_scope.

(** ** All slices together *)
Lemma ge_lt_split l lo lo' : StronglySorted (fun a b => xi b <= xi a) l -> lo' <= lo ->
  filter (geb lo') l = filter (geb lo) l ++ filter (fun p => geb lo' p && ltb_ lo p) l.
Proof.
  intros Hs Hle. induction l as [|p l IH]; [reflexivity|]. inversion Hs as [|? ? Hs' Hf]; subst.
  cbn [filter]. rewrite (IH Hs').
  assert (G : forall x, geb x p = true -> x <= xi p) by (intros x; unfold geb; destruct (Rle_dec _ _); [auto|discriminate]).
  assert (G' : forall x, geb x p = false -> xi p < x) by (intros x; unfold geb; destruct (Rle_dec _ _); [discriminate|intros; lra]).
  assert (T : forall x, ltb_ x p = true -> xi p < x) by (intros x; unfold ltb_; destruct (Rlt_dec _ _); [auto|discriminate]).
  assert (T' : forall x, ltb_ x p = false -> x <= xi p) by (intros x; unfold ltb_; destruct (Rlt_dec _ _); [discriminate|intros; lra]).
  destruct (geb lo' p) eqn:E1, (geb lo p) eqn:E2, (ltb_ lo p) eqn:E3; cbn [andb app]; try reflexivity;
    repeat match goal with
    | H : geb _ p = true |- _ => apply G in H | H : geb _ p = false |- _ => apply G' in H
    | H : ltb_ _ p = true |- _ => apply T in H | H : ltb_ _ p = false |- _ => apply T' in H end; try lra.
  (* p in the lower part: nothing in the upper part after it *)
  rewrite (filter_none (geb lo) l); [reflexivity|]. intros x Hx. rewrite Forall_forall in Hf.
  specialize (Hf x Hx). unfold geb. destruct (Rle_dec lo (xi x)); auto; lra.
Qed.

Lemma concat_nth_seq {X} (f : nat -> list X) n sl d : length sl = n ->
  (forall k, (k < n)%nat -> nth k sl d = f k) -> concat sl = flat_map f (seq 0 n).
Proof.
  revert f n. induction sl as [|x sl IH]; intros f n <- H; [reflexivity|].
  cbn [length]. rewrite <- cons_seq, <- seq_shift. cbn [concat flat_map].
  f_equal; [apply (H 0%nat); cbn; lia|]. rewrite flat_map_concat_map, map_map, <- flat_map_concat_map.
  apply (IH (fun k => f (S k))); [reflexivity|]. intros k Hk. apply (H (S k)). cbn. lia.
Qed.

Lemma layers_flat l dxi i : StronglySorted (fun a b => xi b <= xi a) l -> 0 < dxi ->
  (forall p, In p l -> xi p <= - (IZR i * dxi)) -> forall n, (0 < n)%nat ->
  flat_map (fun k => filter (fun p => if Nat.eqb k 0 then in_xi_layer_top dxi i p
                                else in_xi_layer dxi (i + Z.of_nat k) p) l) (seq 0 n)
  = filter (geb (- (IZR (i + Z.of_nat n) * dxi))) l.
Proof.
  intros Hs Hd Htop. induction n as [|n IH]; [lia|]. intros _.
  destruct n as [|n].
  - cbn [seq flat_map Nat.eqb]. rewrite app_nil_r. apply filter_ext_in'. intros p Hp. specialize (Htop p Hp).
    unfold in_xi_layer_top, geb. replace (i + Z.of_nat 1)%Z with (i + 1)%Z by lia.
    destruct (Rle_dec (- (IZR (i + 1) * dxi)) (xi p)); auto. destruct (Rle_dec (xi p) (- (IZR i * dxi))); auto; lra.
  - rewrite seq_S, flat_map_app, (IH ltac:(lia)). cbn [flat_map plus Nat.eqb]. rewrite app_nil_r.
    replace (- (IZR (i + Z.of_nat (S (S n))) * dxi)) with (- (IZR (i + Z.of_nat (S n) + 1) * dxi)).
    2: { do 3 f_equal. lia. }
    rewrite (ge_lt_split l (- (IZR (i + Z.of_nat (S n)) * dxi)) (- (IZR (i + Z.of_nat (S n) + 1) * dxi))); auto.
    2: { rewrite (plus_IZR _ 1). lra. }
    f_equal. apply filter_ext_in'. intros p _. unfold in_xi_layer, geb, ltb_.
    destruct (Rle_dec _ _); auto.
Qed.

Lemma map_fresh_concat (ll : list (list part)) : concat (map (map fresh) ll) = map fresh (concat ll).
Proof. induction ll as [|a ll IH]; [reflexivity|]. cbn. now rewrite IH, map_app. Qed.

Lemma delivered_exactly_once sort_xi beam dxi i n :
  sort_xi_ok sort_xi -> 0 < dxi -> IZR (i + Z.of_nat n) * dxi <= 99999 -> (0 < n)%nat ->
  (forall p, In p beam -> xi p <= - (IZR i * dxi)) ->
  exists sl src', ask (new_source sort_xi beam) dxi i n = Some (sl, src') /\
    Permutation (concat (map snd sl))
      (map fresh (filter (fun p => if Rle_dec (- (IZR (i + Z.of_nat n) * dxi)) (xi p) then true else false) beam)) /\
    StronglySorted (fun a b => xi (pt b) <= xi (pt a)) (concat (map snd sl)).
Proof.
  intros Hok Hd Hn Hpos Htop. destruct (source_delivers _ _ _ _ _ Hok Hd Hn Htop) as (sl & src' & Ha & Hl & Hk).
  destruct (Hok beam) as [Hp Hs].
  assert (E : concat (map snd sl) = map fresh (filter (geb (- (IZR (i + Z.of_nat n) * dxi))) (sort_xi beam))).
  { rewrite <- (layers_flat _ dxi i Hs Hd) with (n := n); auto.
    - rewrite (concat_nth_seq (fun k => map fresh (filter (fun p => if Nat.eqb k 0 then in_xi_layer_top dxi i p
                                else in_xi_layer dxi (i + Z.of_nat k) p) (sort_xi beam))) n _ []).
      + rewrite !flat_map_concat_map. rewrite <- map_fresh_concat, map_map. reflexivity.
      + now rewrite map_length.
      + intros k Hkn. change (@nil bpart) with (snd (0%nat, @nil bpart)). rewrite map_nth, (Hk k Hkn). reflexivity.
    - intros p Hin. apply Htop. eapply Permutation_in; eauto. }
  exists sl, src'. split; [exact Ha|]. split.
  - rewrite E. apply Permutation_map. now apply filter_perm.
  - rewrite E. apply SS_map. cbn. now apply SS_filter.
Qed.

(** ** A concrete argsort: insertion sort, to show that the assumptions on the sorts can be met *)
Fixpoint ins (p : part) (l : list part) : list part :=
  match l with [] => [p] | q :: t => if Rle_dec (xi q) (xi p) then p :: q :: t else q :: ins p t end.
Definition isort (l : list part) : list part := fold_right ins [] l.
Lemma ins_perm p l : Permutation (ins p l) (p :: l).
Proof.
  induction l as [|q l IH]; [reflexivity|]. cbn. destruct (Rle_dec _ _); [reflexivity|].
  rewrite IH. apply perm_swap.
Qed.
Lemma isort_ok : sort_xi_ok isort.
Proof.
  intros l. split.
  - induction l as [|p l IH]; [reflexivity|]. cbn. rewrite ins_perm. now constructor.
  - induction l as [|p l IH]; [constructor|]. cbn. fold (isort l). revert IH. generalize (isort l). clear l. intros l Hs.
    induction l as [|q l IH]; [repeat constructor|]. cbn. inversion Hs as [|? ? Hs' Hf]; subst.
    destruct (Rle_dec (xi q) (xi p)) as [H|H].
    + constructor; auto. constructor; auto. rewrite Forall_forall in *. intros x Hx. specialize (Hf x Hx). lra.
    + constructor; auto. rewrite Forall_forall in *. intros x Hx.
      apply (Permutation_in _ (ins_perm p l)) in Hx. destruct Hx as [<-|Hx]; [lra|auto].
Qed.
Definition bsort (key : bpart -> bool) (l : list bpart) : list bpart :=
  filter (fun b => negb (key b)) l ++ filter key l.
Lemma bsort_ok : sort_bool_ok bsort.
Proof.
  intros key l. split.
  - unfold bsort. induction l as [|b l IH]; [reflexivity|]. cbn. destruct (key b); cbn.
    + rewrite <- Permutation_middle. now constructor.
    + now constructor.
  - unfold bsort. assert (Hf : Forall (fun b => key b = true) (filter key l)).
    { apply Forall_forall. intros x Hx. now apply filter_In in Hx. }
    assert (Hn : Forall (fun b => key b = false) (filter (fun b => negb (key b)) l)).
    { apply Forall_forall. intros x Hx. apply filter_In in Hx. destruct Hx as [_ Hx]. now destruct (key x). }
    induction (filter (fun b => negb (key b)) l) as [|a u IH].
    + cbn. induction (filter key l) as [|b v IHv]; constructor; inversion Hf; subst; auto.
      rewrite Forall_forall in *. auto.
    + inversion Hn; subst. cbn. constructor; auto. apply Forall_forall. intros x _ E. congruence.
Qed.

(** ** A particle drained one layer too late.  Charge-to-mass 1/3, at rest 0.1 above the bottom of
    layer 0, time step 0.4 (substepping off), constant E_z = 20. *)
Lemma floor_unique x j : IZR j <= x < IZR j + 1 -> floorR x = j.
Proof.
  intros H. pose proof (floorR_spec x) as G.
  assert (A : IZR (floorR x) < IZR (j + 1)) by (rewrite plus_IZR; lra).
  assert (B : IZR j < IZR (floorR x + 1)) by (rewrite plus_IZR; lra).
  apply lt_IZR in A, B. lia.
Qed.

Definition late_part : part := mkPart (-0.9) 1 0 0 0 (1/3) 1 7%Z.
Definition late_end : part := mkPart (-0.98) 1 8 0 0 (1/3) 1 7%Z.
Definition late_cfg : pcfg := mkP 1 1 5 0 0.4 0.
Definition late_fields : fields := mkF (repeat 0 6) (repeat 0 6) (repeat 20 6) (repeat 0 6) (repeat 0 6).
Definition late_mid : bpart := mkB late_part 0.4 1 false.
Definition late_out : bpart := mkB late_end 0.4 0 false.

Lemma late_half : half_position late_part 0.4 = (1, 0, -1.1).
Proof.
  unfold half_position, beam_to_vec, late_part, vadd, vscale, vsq, vx, vy, vz. cbn [fst snd p_r p_z ang rad q_m xi].
  repeat apply f_equal2; try lra.
  all: replace (_ ^ 2 + _) with (3 ^ 2) by lra; rewrite sqrt_pow2 by lra; lra.
Qed.
Lemma late_pfields : particle_fields (1, 0, -1.1) late_fields late_fields (-2) 1 1 = ((0, 0, 20), (0, 0, 0)).
Proof.
  unfold particle_fields, vx, vy, vz. cbn [fst snd].
  replace (sqrt (1 ^ 2 + 0 ^ 2)) with 1.
  2: { replace (1 ^ 2 + 0 ^ 2) with (1 ^ 2) by lra. now rewrite sqrt_pow2 by lra. }
  unfold particle_weights, interpolate. rewrite (floor_unique (1 / 1) 1) by lra.
  unfold at_, late_fields. cbn [E_r E_f E_z B_f B_z]. change (Z.to_nat 1) with 1%nat. change (Z.to_nat (1 + 1)) with 2%nat.
  cbn [repeat nth]. repeat apply f_equal2; lra.
Qed.
Lemma vscale3 k a b c : vscale k (a, b, c) = (k * a, k * b, k * c).
Proof. reflexivity. Qed.
Lemma vadd3 a b c x y z : vadd (a, b, c) (x, y, z) = (a + x, b + y, c + z).
Proof. reflexivity. Qed.
Lemma cross3 a b c x y z : cross (a, b, c) (x, y, z) = (b * z - c * y, c * x - a * z, a * y - b * x).
Proof. reflexivity. Qed.
Lemma vsq3 a b c : vsq (a, b, c) = a ^ 2 + b ^ 2 + c ^ 2.
Proof. reflexivity. Qed.
Lemma vec_eq (a b c x y z : R) : a = x -> b = y -> c = z -> (a, b, c) = (x, y, z).
Proof. congruence. Qed.
Lemma late_substep : substep late_cfg late_part 0.4 ((0, 0, 20), (0, 0, 0)) = ((1, 0, -0.98), (0, 0, 8)).
Proof.
  assert (P : vadd (0, 0 / 1, 0) (vscale (0.4 / 2 * Rsgn (1 / 3)) (vadd (0, 0, 20)
     (cross (vscale (/ sqrt ((1 / (1 / 3)) ^ 2 + vsq (0, 0 / 1, 0))) (0, 0 / 1, 0)) (0, 0, 0 + 0)))) = (0, 0, 4)).
  { rewrite vscale3, cross3, vadd3, vscale3, vadd3. unfold Rsgn. destruct (Rlt_dec 0 (1 / 3)); [|lra].
    generalize (/ sqrt ((1 / (1 / 3)) ^ 2 + vsq (0, 0 / 1, 0))). intros. apply vec_eq; lra. }
  unfold substep. change (beam_to_vec late_part) with ((0, 0 / 1, 0), (1, 0, -0.9)). cbn [fst snd q_m late_part magnetic_field late_cfg].
  change (vx (0, 0, 0), vy (0, 0, 0), vz (0, 0, 0) + 0) with (0, 0, 0 + 0). rewrite P, vsq3.
  replace ((1 / (1 / 3)) ^ 2 + (0 ^ 2 + 0 ^ 2 + 4 ^ 2)) with (5 ^ 2) by lra. rewrite sqrt_pow2 by lra. rewrite vscale3, vadd3.
  unfold vx, vy, vz. cbn [fst snd]. f_equal; apply vec_eq; lra.
Qed.
Lemma late_boundary : lost_boundary late_cfg = 4.5.
Proof. unfold lost_boundary, late_cfg. cbn. rewrite Rmax_left by lra. lra. Qed.

Lemma late_push1 : push_particle late_cfg late_fields late_fields (-1) late_mid = late_mid.
Proof.
  unfold push_particle, late_mid. cbn [rem push_loop pt dt]. unfold beam_to_vec. rewrite late_half.
  unfold in_layer, vz. cbn [snd]. destruct (Rle_dec (-1) (-1.1)); [lra|]. reflexivity.
Qed.
Lemma late_push2 : push_particle late_cfg late_fields late_fields (-2) late_mid = late_out.
Proof.
  unfold push_particle, late_mid. cbn [rem push_loop pt dt]. rewrite late_half.
  change (r_step late_cfg) with 1. change (xi_step late_cfg) with 1.
  rewrite late_pfields, late_substep, late_boundary. unfold beam_to_vec.
  unfold in_layer, is_lost, vx, vy, vz. cbn [fst snd].
  destruct (Rle_dec (-2) (-1.1)); [|lra]. destruct (Rle_dec (4.5 ^ 2) (1 ^ 2 + 0 ^ 2)); [lra|]. cbn [negb].
  unfold vec_to_beam, late_out, late_end, late_part, vx, vy, vz. cbn [fst snd magnetic_field late_cfg q_m q_norm pid pt ang dt lost].
  replace (sqrt (1 ^ 2 + 0 ^ 2)) with 1.
  2: { replace (1 ^ 2 + 0 ^ 2) with (1 ^ 2) by lra. now rewrite sqrt_pow2 by lra. }
  destruct (Req_EM_T 0 0); [|lra]. do 2 f_equal. lra.
Qed.

Lemma sort_single s key b : sort_bool_ok s -> s key [b] = [b].
Proof. intros H. destruct (H key [b]) as [P _]. apply Permutation_length_1_inv. now apply Permutation_sym. Qed.
Lemma sort_nil s key : sort_bool_ok s -> s key [] = [].
Proof. intros H. destruct (H key []) as [P _]. apply Permutation_nil. now apply Permutation_sym. Qed.
Lemma split_nil s xe : sort_bool_ok s -> split_beam_slice s [] xe = ([], [], []).
Proof. intros H. unfold split_beam_slice. now rewrite (sort_nil _ _ H), (sort_nil _ _ H). Qed.
Lemma split_single s b xe : sort_bool_ok s -> split_beam_slice s [b] xe =
  if lost b then ([b], [], []) else if moving_b xe b then ([], [], [b]) else ([], [b], []).
Proof.
  intros H. unfold split_beam_slice. rewrite (sort_single _ _ _ H). cbn [rev app]. unfold count. cbn [filter].
  destruct (lost b); cbn [length firstn skipn].
  - now rewrite (sort_nil _ _ H).
  - rewrite (sort_single _ _ _ H). cbn [filter]. fold (moving_b xe b). destruct (moving_b xe b); reflexivity.
Qed.
Lemma late_move1 s : sort_bool_ok s ->
  move_beam_layer s 0 late_cfg [fresh late_part] 1 late_fields late_fields = Some ([], [], [late_mid]).
Proof.
  intros H. unfold move_beam_layer. cbn [map_opt]. unfold prepare, fresh. cbn [dt].
  destruct (Req_EM_T 0 0); [|lra]. change (sub_energy late_cfg) with 0. destruct (Req_EM_T 0 0); [|lra].
  change (time_step late_cfg) with 0.4. cbn [bind option_map map pt rem lost]. fold late_mid.
  replace (1 * - xi_step late_cfg) with (-1) by (cbn; lra).  rewrite late_push1.
  rewrite (split_single _ _ _ H). reflexivity.
Qed.
Lemma late_move2 s : sort_bool_ok s ->
  move_beam_layer s 0 late_cfg [late_mid] 2 late_fields late_fields = Some ([], [late_out], []).
Proof.
  intros H. unfold move_beam_layer. cbn [map_opt]. unfold prepare, late_mid at 1 2. cbn [dt].
  destruct (Req_EM_T 0.4 0); [lra|]. cbn [bind option_map map].
  replace (2 * - xi_step late_cfg) with (-2) by (cbn; lra). fold late_mid. rewrite late_push2.
  rewrite (split_single _ _ _ H). unfold moving_b. cbn [late_out lost rem pt late_end xi Nat.ltb Nat.leb orb].
  destruct (Rlt_dec (-0.98) (-2)); [lra|]. reflexivity.
Qed.

Lemma late_slices s : sort_xi_ok s -> exists src1,
  get_beam_slice (new_source s [late_part]) (IZR 0 * - xi_step late_cfg) (IZR (0 + 1) * - xi_step late_cfg) = Some (1%nat, [fresh late_part], src1) /\
  get_beam_slice src1 (IZR 1 * - xi_step late_cfg) (IZR (1 + 1) * - xi_step late_cfg) = Some (0%nat, [], src1) /\
  get_beam_slice src1 (IZR 2 * - xi_step late_cfg) (IZR (2 + 1) * - xi_step late_cfg) = Some (0%nat, [], src1).
Proof.
  intros H. assert (E : s [late_part] = [late_part]).
  { destruct (H [late_part]) as [P _]. apply Permutation_length_1_inv. now apply Permutation_sym. }
  exists (mkSrc [-0.9] [late_part] 1). unfold new_source. rewrite E. cbn [last map xi late_part].
  destruct (Rlt_dec (-0.9 + 100000) 1); [lra|]. unfold get_beam_slice. cbn [used s_xi s_parts skipn scan xi_step late_cfg].
  change (0 + 1)%Z with 1%Z. change (1 + 1)%Z with 2%Z. change (2 + 1)%Z with 3%Z.
  repeat split.
  - destruct (Rlt_dec _ _); [|lra]. destruct (Rlt_dec _ _); [lra|]. destruct (Rlt_dec _ _); [lra|]. reflexivity.
  - destruct (Rlt_dec _ _); [|lra]. reflexivity.
  - destruct (Rlt_dec _ _); [|lra]. reflexivity.
Qed.

Lemma late_loop sx sb : sort_xi_ok sx -> sort_bool_ok sb ->
  let start := mkLS unit (new_source sx [late_part]) [] [] [] (repeat 0 6) (repeat 0 6) tt in
  let loop := fun n => xi_loop sb unit (fun _ _ _ => tt) (fun _ => late_fields) 0 late_cfg n 0 start in
  (exists s2, loop 2%nat = Some s2 /\ ls_drain unit s2 = []) /\
  (exists s3, loop 3%nat = Some s3 /\ ls_drain unit s3 = [[late_out]]).
Proof.
  intros H1 H2 start loop. destruct (late_slices sx H1) as (src1 & G0 & G1 & G2).
  assert (L0 : exists a b, layout_beam_layer 1 1 (repeat 0 6) [fresh late_part] 0 = Some (a, b)).
  { destruct (layout_some 1 1 (repeat 0 6) [fresh late_part] 0%Z) as (a & b & E); [lra| |].
    - intros b [<-|[]]. unfold on_grid. cbn [fresh pt rad late_part length repeat]. replace (6 - 1)%nat with 5%nat by reflexivity. cbn [INR]. split; lra.
    - eauto. }
  assert (LE : forall r i, exists a b, layout_beam_layer 1 1 r [] i = Some (a, b)).
  { intros r i. unfold layout_beam_layer. cbn. eauto. }
  destruct L0 as (a0 & b0 & L0). destruct (LE b0 1%Z) as (a1 & b1 & L1). destruct (LE b1 2%Z) as (a2 & b2 & L2).
  assert (M0 : move_beam_layer sb 0 late_cfg [] 0 late_fields late_fields = Some ([], [], [])).
  { unfold move_beam_layer. cbn. now rewrite split_nil. }
  assert (I0 : xi_iter sb unit (fun _ _ _ => tt) (fun _ => late_fields) 0 late_cfg 0 start
               = Some (mkLS unit src1 [fresh late_part] [] [] b0 a0 tt)).
  { unfold xi_iter, start. cbn [ls_src ls_move ls_lost ls_drain ls_rho ls_prev ls_plasma]. rewrite G0. cbn [bind].
    change (r_step late_cfg) with 1. change (xi_step late_cfg) with 1. rewrite L0. cbn [bind]. rewrite M0. reflexivity. }
  assert (I1 : xi_iter sb unit (fun _ _ _ => tt) (fun _ => late_fields) 0 late_cfg 1 (mkLS unit src1 [fresh late_part] [] [] b0 a0 tt)
               = Some (mkLS unit src1 [late_mid] [] [] b1 a1 tt)).
  { unfold xi_iter. cbn [ls_src ls_move ls_lost ls_drain ls_rho ls_prev ls_plasma]. rewrite G1. cbn [bind].
    change (r_step late_cfg) with 1. change (xi_step late_cfg) with 1. rewrite L1. cbn [bind]. rewrite late_move1 by auto. reflexivity. }
  assert (I2 : xi_iter sb unit (fun _ _ _ => tt) (fun _ => late_fields) 0 late_cfg 2 (mkLS unit src1 [late_mid] [] [] b1 a1 tt)
               = Some (mkLS unit src1 [] [] [[late_out]] b2 a2 tt)).
  { unfold xi_iter. cbn [ls_src ls_move ls_lost ls_drain ls_rho ls_prev ls_plasma]. rewrite G2. cbn [bind].
    change (r_step late_cfg) with 1. change (xi_step late_cfg) with 1. rewrite L2. cbn [bind]. rewrite late_move2 by auto. reflexivity. }
  unfold loop. cbn [xi_loop]. rewrite I0. cbn [bind xi_loop]. change (0 + 1)%Z with 1%Z. rewrite I1. cbn [bind xi_loop]. change (1 + 1)%Z with 2%Z.
  split.
  - eexists. split; [reflexivity|reflexivity].
  - rewrite I2. cbn [bind]. eexists. split; reflexivity.
Qed.
