(** Witnesses for the 3D beam. *)
From Coq Require Import Reals ZArith List Bool Permutation Sorting.Sorted Lra Lia Psatz.
From Verif Require Import Beam2D_Model Beam2D_Spec Beam2D_Proofs Beam2D_Push Beam2D_Dep Beam2D_Ex Shape_Model Shape_Spec Shape_Proofs Beam3D_Model Beam3D_Spec Beam3D_Proofs Beam3D_Run Beam3D_Upd.
Import ListNotations.
Open Scope R_scope.

(** insertion sort by decreasing xi: an instance of argsort *)
Fixpoint ins3 (p : part3) (l : list part3) : list part3 :=
  match l with [] => [p] | q :: t => if Rle_dec (b_xi q) (b_xi p) then p :: q :: t else q :: ins3 p t end.
Fixpoint isort3 (l : list part3) : list part3 := match l with [] => [] | p :: t => ins3 p (isort3 t) end.
Lemma ins3_perm p l : Permutation (ins3 p l) (p :: l).
Proof. induction l as [|q l IH]; cbn; auto. destruct (Rle_dec _ _); auto. rewrite IH. apply perm_swap. Qed.
Lemma ins3_sorted p l : StronglySorted (fun a b => b_xi b <= b_xi a) l -> StronglySorted (fun a b => b_xi b <= b_xi a) (ins3 p l).
Proof.
  induction 1 as [|q l Hs IH Hf]; cbn; [repeat constructor|]. destruct (Rle_dec (b_xi q) (b_xi p)) as [H|H].
  - constructor; [constructor; auto|]. constructor; auto. eapply Forall_impl; [|exact Hf]. intros; lra.
  - constructor; auto. apply Forall_forall. intros x Hx. apply (Permutation_in _ (ins3_perm p l)) in Hx.
    destruct Hx as [<-|Hx]; [lra|]. rewrite Forall_forall in Hf. auto.
Qed.
Lemma isort3_ok : sort3_ok isort3.
Proof.
  intros l. induction l as [|p l [IH1 IH2]]; cbn; [split; constructor|]. split; [|now apply ins3_sorted].
  rewrite ins3_perm, IH1. reflexivity.
Qed.

(** the loop in terms of [advance] *)
Definition neg_id (p : part3) : part3 := mk3 (b_xi p) (b_x p) (b_y p) (b_px p) (b_py p) (b_pz p) (b_qm p) (b_q p) (- b_id p) (b_dt p) 0.
Lemma loop3_S u c idx fk fk1 n p : b_rem p = S n ->
  - (IZR (idx + 1) * c_dxi c) <= snd (half3 p) -> fst (fst (half3 p)) ^ 2 + snd (fst (half3 p)) ^ 2 < lost_radius c ^ 2 ->
  loop3 u c idx fk fk1 (S n) p =
  let a := advance u c idx fk fk1 p in
  if is_lost3 (b_x a) (b_y a) (lost_radius c) then (neg_id a, true, false) else loop3 u c idx fk fk1 n a.
Proof.
  intros Hr H1 H2. cbn [loop3]. unfold advance, neg_id. destruct (half3 p) as [[hx hy] hz]. cbn [fst snd] in *. unfold not_in_layer.
  replace (IZR (idx + 1) * - c_dxi c) with (- (IZR (idx + 1) * c_dxi c)) by ring.
  destruct (Rlt_dec hz _); [lra|]. unfold is_lost3 at 1. destruct (Rle_dec (lost_radius c ^ 2) (hx ^ 2 + hy ^ 2)); [lra|].
  destruct (update u p _) as [p' x']. cbn [b_x b_y b_id]. destruct (is_lost3 _ _ _); [reflexivity|].
  rewrite Hr. cbn [Nat.sub]. rewrite Nat.sub_0_r. reflexivity.
Qed.

Definition no_fields : fields3 := mkF3 zero_grid zero_grid zero_grid zero_grid zero_grid zero_grid.
Lemma no_fields_ok : no_field3 no_fields.
Proof. intros a b. cbn. auto 10. Qed.

(** ** A particle that is lost and "fell" at once *)
Definition w_cfg : cfg3 := mkC3 21 1 1 1 1.
Lemma w_radius : lost_radius w_cfg = 9.5.
Proof. unfold lost_radius, w_cfg. cbn [c_h c_n]. rewrite Rmax_right; lra. Qed.
Definition w_part (d : R) (r : nat) : part3 := mk3 (-0.4) (-9) 0 (-(3/4)) 0 0 1 1 7%Z d r.
Definition w_after : part3 := mk3 (-1.4) (-9.6) 0 (-(3/4)) 0 0 1 1 7%Z 1 0.
Lemma w_gam : gam 1 (-(3/4)) 0 0 = 5 / 4.
Proof. unfold gam. replace ((1 / 1) ^ 2 + (- (3 / 4)) ^ 2 + 0 ^ 2 + 0 ^ 2) with (5 / 4 * (5 / 4)) by field. apply sqrt_square. lra. Qed.
Lemma w_half : half3 (w_part 1 1) = (-9.3, 0, -0.9).
Proof. unfold half3, w_part. cbn [b_qm b_px b_py b_pz b_x b_y b_xi b_dt]. rewrite w_gam. f_equal; [f_equal|]; lra. Qed.
Lemma w_advance u idx : advance u w_cfg idx no_fields no_fields (w_part 1 1) = w_after.
Proof.
  pose proof (advance_free u w_cfg idx no_fields no_fields (w_part 1 1) no_fields_ok no_fields_ok) as (A & B & C & D & E & F).
  assert (G : gam3 (w_part 1 1) = 5 / 4) by (exact w_gam). rewrite G in *.
  unfold advance in *. destruct (update u (w_part 1 1) _) as [p' x']. cbn [b_px b_py b_pz b_x b_y b_xi b_dt w_part] in *.
  rewrite A, B, C, D, E, F. unfold w_part, w_after. cbn [b_qm b_q b_id b_rem]. f_equal; try reflexivity; lra.
Qed.
Lemma w_lost : is_lost3 (-9.6) 0 (lost_radius w_cfg) = true.
Proof. unfold is_lost3. rewrite w_radius. destruct (Rle_dec _ _); auto. lra. Qed.
Lemma w_move u : move_one3 u w_cfg 0 no_fields no_fields (w_part 1 1) = (neg_id w_after, (true, false, true)).
Proof.
  unfold move_one3. cbn [b_rem w_part]. rewrite loop3_S; [|reflexivity|rewrite w_half; cbn; lra|rewrite w_half, w_radius; cbn [fst snd]; lra].
  rewrite w_advance. cbn zeta. cbn [w_after b_x b_y]. rewrite w_lost. cbn [neg_id b_rem Nat.eqb orb andb b_x b_xi w_after].
  unfold not_in_layer. cbn [w_cfg c_dxi]. destruct u; destruct (Rlt_dec _ _) as [H|H]; try reflexivity; exfalso; apply H; cbn; lra.
Qed.
Lemma w_start d r : start3 0 (c_energy w_cfg) (c_time_step w_cfg) (w_part d r) = Some (w_part 1 1).
Proof.
  unfold start3. cbn [halve_loop w_part b_qm b_pz w_cfg c_energy c_time_step]. unfold max_sub_dt.
  replace (1 / 1 ^ 2 + 0 ^ 2) with 1 by field. rewrite sqrt_1. replace (1 / 1) with 1 by field. rewrite sqrt_1.
  destruct (Rlt_dec 1 1); [lra|]. cbn [option_map]. unfold w_part. cbn. do 2 f_equal; [ring|].
  rewrite (floor_unique (1 / 1) 1) by lra. reflexivity.
Qed.

(** In the third iteration the lost particle is drained. *)
Definition w_state (Pl : Type) (pl : Pl) (src : list part3) : state3 Pl := mkS3 Pl src [] 0 [] [] zero_grid zero_grid pl.
Lemma w_inlayer i x y d r : in_layer3 1 i (mk3 x y 0 (-(3/4)) 0 0 1 1 7 d r) = true <-> - IZR (i + 1) <= x < - IZR i.
Proof. rewrite in_layer3_iff. unfold xi_in. cbn [b_xi]. rewrite !Rmult_1_r. tauto. Qed.
Lemma get_layer3_nil dxi i : get_layer3 dxi [] i = ([], []).
Proof. reflexivity. Qed.
Lemma w_second : move_one3 GPU w_cfg 1 no_fields no_fields (neg_id w_after) = (neg_id w_after, (false, true, false)).
Proof.
  unfold move_one3. cbn [neg_id b_rem loop3]. cbn [Nat.eqb andb orb b_xi b_rem w_after w_cfg c_dxi].
  unfold not_in_layer. destruct (Rlt_dec _ _) as [H|H]; [|reflexivity]. exfalso. cbn in H. lra.
Qed.
Lemma w_run : exists s, run3 unit (fun _ _ _ => tt) (fun _ => no_fields) GPU 0 w_cfg 3 0 (w_state unit tt [w_part 0 0]) = Some s /\
  s_drain unit s = [neg_id w_after] /\ s_lost unit s = [neg_id w_after].
Proof.
  assert (G : get_layer3 1 [w_part 0 0] 0 = ([w_part 0 0], [])).
  { unfold get_layer3. cbn [filter]. assert (E : in_layer3 1 0 (w_part 0 0) = true) by (apply w_inlayer; cbn; lra). rewrite E. reflexivity. }
  cbn [run3]. unfold iter3 at 1. cbn [w_state s_src s_move s_fell s_lost s_drain s_rho s_prev s_pl w_cfg c_dxi].
  fold w_cfg. rewrite G. destruct (layout3 _ _ _ _ _ _) as [r0 r0']. cbn [move_layer3 start_layer3 List.length Nat.sub firstn map_opt option_map skipn app map filter].
  unfold iter3 at 1. cbn [s_src s_move s_fell s_lost s_drain s_rho s_prev s_pl]. rewrite get_layer3_nil.
  destruct (layout3 _ _ _ _ _ _) as [r1 r1']. unfold move_layer3, start_layer3. cbn [List.length Nat.sub firstn skipn map_opt].
  fold (w_part 0 0). rewrite w_start. cbn [bind option_map app map]. change (0 + 1 - 1)%Z with 0%Z. rewrite w_move.
  cbn [fst snd filter map List.length]. unfold iter3. cbn [s_src s_move s_fell s_lost s_drain s_rho s_prev s_pl]. rewrite get_layer3_nil.
  destruct (layout3 _ _ _ _ _ _) as [r2 r2']. unfold move_layer3, start_layer3. cbn [List.length Nat.sub firstn skipn map_opt option_map app map].
  change (0 + 1 + 1 - 1)%Z with 1%Z. rewrite w_second. cbn [fst snd filter map option_map].
  eexists. split; [reflexivity|]. split; reflexivity.
Qed.

(** ** CPU: a particle that finished its time step inside the layer is sent on, never drained *)
Definition l_part (r : nat) (xi : R) : part3 := mk3 xi (-3) 0 0 0 0 1 1 9%Z 0.1 r.
Lemma l_gam : gam 1 0 0 0 = 1.
Proof. unfold gam. replace ((1 / 1) ^ 2 + 0 ^ 2 + 0 ^ 2 + 0 ^ 2) with 1 by field. apply sqrt_1. Qed.
Lemma l_loop : loop3 CPU w_cfg 0 no_fields no_fields 1 (l_part 1 (-0.1)) = (l_part 0 (-0.2), false, false).
Proof.
  assert (H : half3 (l_part 1 (-0.1)) = (-3, 0, -0.15)).
  { unfold half3, l_part. cbn [b_qm b_px b_py b_pz b_x b_y b_xi b_dt]. rewrite l_gam. f_equal; [f_equal|]; lra. }
  assert (A : advance CPU w_cfg 0 no_fields no_fields (l_part 1 (-0.1)) = l_part 0 (-0.2)).
  { pose proof (advance_free CPU w_cfg 0 no_fields no_fields (l_part 1 (-0.1)) no_fields_ok no_fields_ok) as (A & B & C & D & E & F).
    assert (G : gam3 (l_part 1 (-0.1)) = 1) by exact l_gam. rewrite G in *.
    unfold advance in *. destruct (update CPU (l_part 1 (-0.1)) _) as [p' x']. cbn [b_px b_py b_pz b_x b_y b_xi b_dt l_part] in *.
    rewrite A, B, C, D, E, F. unfold l_part. cbn [b_qm b_q b_id b_rem]. f_equal; try reflexivity; lra. }
  rewrite loop3_S; [|reflexivity|rewrite H; cbn; lra|rewrite H, w_radius; cbn [fst snd]; lra].
  rewrite A. cbn zeta. cbn [l_part b_x b_y]. unfold is_lost3. rewrite w_radius. destruct (Rle_dec _ _) as [L|L]; [lra|]. reflexivity.
Qed.
Lemma l_move : move_one3 CPU w_cfg 0 no_fields no_fields (l_part 1 (-0.1)) = (l_part 0 (-0.2), (false, false, true)).
Proof.
  unfold move_one3. change (b_rem (l_part 1 (-0.1))) with 1%nat. rewrite l_loop.
  cbn [loop3 b_rem Nat.eqb orb andb b_x l_part]. unfold not_in_layer. cbn [w_cfg c_dxi]. destruct (Rlt_dec _ _) as [L'|L']; [reflexivity|].
  exfalso. apply L'. cbn. lra.
Qed.

(** On the CPU only particles with x >= -(last layer end) are ever drained. *)
Lemma cpu_drain_x Pl plasma pl_fields h c : 0 <= c_dxi c -> forall n i s s',
  (forall b, In b (s_drain Pl s) -> - (IZR i * c_dxi c) <= b_x b) ->
  run3 Pl plasma pl_fields CPU h c n i s = Some s' ->
  forall b, In b (s_drain Pl s') -> - (IZR (i + Z.of_nat n) * c_dxi c) <= b_x b.
Proof.
  intros Hd. induction n as [|n IH]; intros i s s' H0 E b Hb.
  - cbn in E. injection E as <-. rewrite Z.add_0_r. auto.
  - cbn [run3] in E. destruct (iter3 Pl plasma pl_fields CPU h c i s) as [s1|] eqn:E1; [|discriminate].
    replace (i + Z.of_nat (S n))%Z with (i + 1 + Z.of_nat n)%Z by lia. eapply IH; eauto.
    destruct (iter3_inv _ _ _ _ _ _ _ _ _ E1) as (layer & src' & rho & rho' & lost & moved & fell & Eg & Em & Es).
    rewrite Es. cbn [s_drain]. intros q Hq. apply in_app_iff in Hq. rewrite plus_IZR. destruct Hq as [Hq|Hq].
    + specialize (H0 q Hq). lra.
    + unfold move_layer3 in Em. destruct (start_layer3 _ _ _ _ _) as [l'|]; cbn [option_map] in Em; [|discriminate].
      injection Em as Hl Hm Hf. rewrite <- Hm in Hq. apply in_map_iff in Hq. destruct Hq as ([q' [[l m] f]] & <- & Hx). apply filter_In in Hx. cbn in Hx.
      destruct Hx as [Hx ->]. apply in_map_iff in Hx. destruct Hx as (p & Ep & Hp). cbn [fst].
      destruct (move_one3_spec _ _ _ _ _ _ _ _ _ _ Ep) as (_ & _ & _ & Hmv & _). destruct (Hmv eq_refl) as [_ X].
      replace (i - 1 + 1)%Z with i in X by lia. lra.
Qed.
