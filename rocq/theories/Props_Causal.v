(** Theorems C57: the wake and the motion of the beam in a layer depend only on the beam ahead of the
    end of that layer, and not on the order in which the particles are listed. *)
From Coq Require Import Reals ZArith List Bool Lia Lra Permutation Sorting.Sorted.
From Verif Require Import Beam2D_Model Beam2D_Spec Beam2D_Proofs Beam2D_Ex Shape_Model Beam3D_Model Beam3D_Spec Beam3D_Proofs Beam3D_Run Beam3D_Ex Causal_Proofs.
From Verif Require Beam2D_Total.
Import ListNotations.
Open Scope R_scope.

(** Is the particle at or ahead of lo? *)
Definition not_behind (lo : R) (p : part) : bool := if Rle_dec lo (xi p) then true else false.
Definition not_behind3 (lo : R) (p : part3) : bool := if Rle_dec lo (b_xi p) then true else false.
(** A time step starting with this beam. *)
Definition start2 {Pl} (sort_xi : list part -> list part) (beam : list part) (rho prev : list R) (pl : Pl) : loop_state Pl :=
  mkLS Pl (new_source sort_xi beam) [] [] [] rho prev pl.
Definition start3d {Pl} (sort3 : list part3 -> list part3) (beam : list part3) (rho prev : grid) (pl : Pl) : state3 Pl :=
  mkS3 Pl (new_source3 sort3 beam) [] 0 [] [] rho prev pl.

(** Two beams with the same particles ahead of the end of layer number i + n - 1 (in any order) have
    led to the same beam densities and the same plasma after that layer.  Any plasma solver. *)
Theorem C57_2d_wake_ignores_what_is_behind : forall sort_xi sort_bool Pl plasma pl_fields halvings c n i beam1 beam2 rho prev pl s1 s2,
  sort_xi_ok sort_xi -> 0 < r_step c -> 0 < xi_step c -> IZR (i + Z.of_nat n) * xi_step c <= 99999 ->
  (forall p, In p (beam1 ++ beam2) -> xi p <= - (IZR i * xi_step c) /\ 0 <= rad p) ->
  let lo := - (IZR (i + Z.of_nat n) * xi_step c) in
  Permutation (filter (not_behind lo) beam1) (filter (not_behind lo) beam2) ->
  xi_loop sort_bool Pl plasma pl_fields halvings c n i (start2 sort_xi beam1 rho prev pl) = Some s1 ->
  xi_loop sort_bool Pl plasma pl_fields halvings c n i (start2 sort_xi beam2 rho prev pl) = Some s2 ->
  ls_plasma Pl s1 = ls_plasma Pl s2 /\ ls_rho Pl s1 = ls_rho Pl s2 /\ ls_prev Pl s1 = ls_prev Pl s2.
Proof.
  intros sort_xi sort_bool Pl plasma pl_fields h c n i beam1 beam2 rho prev pl s1 s2 Hs Hr Hd Hl Hb lo P L1 L2.
  assert (Q : forall b, Permutation (filter (ahead2 lo) (sort_xi b)) (filter (not_behind lo) b)) by (intros b; apply filter_perm; apply Hs).
  destruct (loop_feed _ _ _ _ _ _ _ _ _ _ L1) as (sl1 & src1 & A1 & t1 & F1 & ->).
  destruct (loop_feed _ _ _ _ _ _ _ _ _ _ L2) as (sl2 & src2 & A2 & t2 & F2 & ->).
  rewrite (ask_slices sort_xi beam1 (xi_step c) i n sl1 src1 Hs Hd Hl ltac:(intros; apply Hb; apply in_or_app; auto) A1) in F1.
  rewrite (ask_slices sort_xi beam2 (xi_step c) i n sl2 src2 Hs Hd Hl ltac:(intros; apply Hb; apply in_or_app; auto) A2) in F2.
  assert (W : same_wake Pl t1 t2).
  { refine (feed_wake _ _ _ _ h c Hr Hd _ _ _ _ _ _ _ _ _ F1 F2); [|repeat split].
    assert (G : forall ks, (forall k, In k ks -> (k < n)%nat) -> Forall2 (fun a b => Permutation a b /\ (forall p, In p a -> 0 <= rad (pt p)))
      (map (fun k => map fresh (filter (layer2 (xi_step c) i k) (sort_xi beam1))) ks) (map (fun k => map fresh (filter (layer2 (xi_step c) i k) (sort_xi beam2))) ks)).
    { induction ks as [|k ks IH]; intros K; cbn [map]; constructor; [|apply IH; intros; apply K; now right].
      split.
      - apply Permutation_map. rewrite (layer_ahead _ i n k (sort_xi beam1)), (layer_ahead _ i n k (sort_xi beam2)) by (auto; apply K; now left).
        apply filter_perm. fold lo. rewrite (Q beam1), (Q beam2). exact P.
      - intros p Hp. apply in_map_iff in Hp. destruct Hp as (q & <- & Hq). apply filter_In in Hq. cbn. apply Hb. apply in_or_app. left.
        eapply Permutation_in; [apply Hs|apply Hq]. }
    apply G. intros k Hk. apply in_seq in Hk. lia. }
  destruct W as (W1 & W2 & W3). cbn. auto.
Qed.
Print Assumptions C57_2d_wake_ignores_what_is_behind.

(** If no two of those particles have the same xi, the particles in flight, drained and lost are the
    same too: a particle is not affected by anything behind it. *)
Theorem C57_2d_motion_ignores_what_is_behind : forall sort_xi sort_bool Pl plasma pl_fields halvings c n i beam1 beam2 rho prev pl s1 s2,
  sort_xi_ok sort_xi -> 0 < xi_step c -> IZR (i + Z.of_nat n) * xi_step c <= 99999 ->
  (forall p, In p (beam1 ++ beam2) -> xi p <= - (IZR i * xi_step c)) ->
  let lo := - (IZR (i + Z.of_nat n) * xi_step c) in
  Permutation (filter (not_behind lo) beam1) (filter (not_behind lo) beam2) -> NoDup (map xi (filter (not_behind lo) beam1)) ->
  xi_loop sort_bool Pl plasma pl_fields halvings c n i (start2 sort_xi beam1 rho prev pl) = Some s1 ->
  xi_loop sort_bool Pl plasma pl_fields halvings c n i (start2 sort_xi beam2 rho prev pl) = Some s2 ->
  ls_plasma Pl s1 = ls_plasma Pl s2 /\ ls_move Pl s1 = ls_move Pl s2 /\ ls_drain Pl s1 = ls_drain Pl s2 /\ ls_lost Pl s1 = ls_lost Pl s2.
Proof.
  intros sort_xi sort_bool Pl plasma pl_fields h c n i beam1 beam2 rho prev pl s1 s2 Hs Hd Hl Hb lo P N L1 L2.
  assert (Q : forall b, Permutation (filter (ahead2 lo) (sort_xi b)) (filter (not_behind lo) b)) by (intros b; apply filter_perm; apply Hs).
  destruct (loop_feed _ _ _ _ _ _ _ _ _ _ L1) as (sl1 & src1 & A1 & t1 & F1 & ->).
  destruct (loop_feed _ _ _ _ _ _ _ _ _ _ L2) as (sl2 & src2 & A2 & t2 & F2 & ->).
  rewrite (ask_slices sort_xi beam1 (xi_step c) i n sl1 src1 Hs Hd Hl ltac:(intros; apply Hb; apply in_or_app; auto) A1) in F1.
  rewrite (ask_slices sort_xi beam2 (xi_step c) i n sl2 src2 Hs Hd Hl ltac:(intros; apply Hb; apply in_or_app; auto) A2) in F2.
  assert (E : filter (ahead2 lo) (sort_xi beam1) = filter (ahead2 lo) (sort_xi beam2)).
  { apply (filter_sorted_unique xi); try apply Hs; [|now rewrite (Q beam1), (Q beam2)].
    eapply Permutation_NoDup; [apply Permutation_map; apply Permutation_sym; apply Q|exact N]. }
  assert (S : map (fun k => map fresh (filter (layer2 (xi_step c) i k) (sort_xi beam1))) (seq 0 n) =
              map (fun k => map fresh (filter (layer2 (xi_step c) i k) (sort_xi beam2))) (seq 0 n)).
  { apply map_ext_in. intros k Hk. apply in_seq in Hk. f_equal.
    rewrite (layer_ahead _ i n k (sort_xi beam1)), (layer_ahead _ i n k (sort_xi beam2)) by (auto; lia). fold lo. now rewrite E. }
  rewrite S in F1. 
  change (start2 sort_xi beam1 rho prev pl) with (with_src Pl (start2 sort_xi beam2 rho prev pl) (new_source sort_xi beam1)) in F1.
  rewrite feed_src, F2 in F1. injection F1 as <-. cbn. auto.
Qed.
Print Assumptions C57_2d_motion_ignores_what_is_behind.

(** The same in 3D, on both processors. *)
Theorem C57_3d_wake_ignores_what_is_behind : forall sort3 Pl plasma pl_fields u halvings c n i beam1 beam2 rho prev pl s1 s2,
  sort3_ok sort3 -> 0 < c_h c -> 0 < c_dxi c -> (forall p, In p (beam1 ++ beam2) -> b_xi p < - (IZR i * c_dxi c)) ->
  let lo := - (IZR (i + Z.of_nat n) * c_dxi c) in
  Permutation (filter (not_behind3 lo) beam1) (filter (not_behind3 lo) beam2) ->
  run3 Pl plasma pl_fields u halvings c n i (start3d sort3 beam1 rho prev pl) = Some s1 ->
  run3 Pl plasma pl_fields u halvings c n i (start3d sort3 beam2 rho prev pl) = Some s2 ->
  s_pl Pl s1 = s_pl Pl s2 /\ s_rho Pl s1 = s_rho Pl s2 /\ s_prev Pl s1 = s_prev Pl s2.
Proof.
  intros sort3 Pl plasma pl_fields u h c n i beam1 beam2 rho prev pl s1 s2 Hs Hh Hd Hb lo P L1 L2.
  assert (Q : forall b, Permutation (filter (ahead3 lo) (sort3 b)) (filter (not_behind3 lo) b)) by (intros b; apply filter_perm; apply Hs).
  assert (I : forall b, (forall p, In p b -> b_xi p < - (IZR i * c_dxi c)) -> forall p, In p (sort3 b) -> b_xi p < - (IZR i * c_dxi c)).
  { intros b K p Hp. apply K. eapply Permutation_in; [apply Hs|exact Hp]. }
  destruct (loop_feed3 _ _ _ _ _ _ _ _ _ _ L1) as (t1 & F1 & ->). destruct (loop_feed3 _ _ _ _ _ _ _ _ _ _ L2) as (t2 & F2 & ->).
  cbn [s_src start3d] in F1, F2. unfold new_source3 in F1 at 1, F2 at 1.
  destruct (ask3_spec (c_dxi c) Hd n i (sort3 beam1)) as [S1 _]; [apply Hs|apply I; intros; apply Hb; apply in_or_app; auto|]. rewrite S1 in F1.
  destruct (ask3_spec (c_dxi c) Hd n i (sort3 beam2)) as [S2 _]; [apply Hs|apply I; intros; apply Hb; apply in_or_app; auto|]. rewrite S2 in F2.
  assert (W : same_wake3 Pl t1 t2).
  { refine (feed_wake3 _ _ _ u h c Hh _ _ _ _ _ _ _ _ _ F1 F2); [|repeat split].
    assert (G : forall ks, (forall k, In k ks -> (k < n)%nat) -> Forall2 (@Permutation part3)
      (map (fun k => filter (in_layer3 (c_dxi c) (i + Z.of_nat k)) (sort3 beam1)) ks) (map (fun k => filter (in_layer3 (c_dxi c) (i + Z.of_nat k)) (sort3 beam2)) ks)).
    { induction ks as [|k ks IH]; intros K; cbn [map]; constructor; [|apply IH; intros; apply K; now right].
      rewrite (layer_ahead3 _ i n k (sort3 beam1)), (layer_ahead3 _ i n k (sort3 beam2)) by (auto; apply K; now left).
      apply filter_perm. fold lo. rewrite (Q beam1), (Q beam2). exact P. }
    apply G. intros k Hk. apply in_seq in Hk. lia. }
  destruct W as (W1 & W2 & W3). cbn. auto.
Qed.
Print Assumptions C57_3d_wake_ignores_what_is_behind.

Theorem C57_3d_motion_ignores_what_is_behind : forall sort3 Pl plasma pl_fields u halvings c n i beam1 beam2 rho prev pl s1 s2,
  sort3_ok sort3 -> 0 < c_dxi c -> (forall p, In p (beam1 ++ beam2) -> b_xi p < - (IZR i * c_dxi c)) ->
  let lo := - (IZR (i + Z.of_nat n) * c_dxi c) in
  Permutation (filter (not_behind3 lo) beam1) (filter (not_behind3 lo) beam2) -> NoDup (map b_xi (filter (not_behind3 lo) beam1)) ->
  run3 Pl plasma pl_fields u halvings c n i (start3d sort3 beam1 rho prev pl) = Some s1 ->
  run3 Pl plasma pl_fields u halvings c n i (start3d sort3 beam2 rho prev pl) = Some s2 ->
  s_pl Pl s1 = s_pl Pl s2 /\ s_move Pl s1 = s_move Pl s2 /\ s_drain Pl s1 = s_drain Pl s2 /\ s_lost Pl s1 = s_lost Pl s2.
Proof.
  intros sort3 Pl plasma pl_fields u h c n i beam1 beam2 rho prev pl s1 s2 Hs Hd Hb lo P N L1 L2.
  assert (Q : forall b, Permutation (filter (ahead3 lo) (sort3 b)) (filter (not_behind3 lo) b)) by (intros b; apply filter_perm; apply Hs).
  assert (I : forall b, (forall p, In p b -> b_xi p < - (IZR i * c_dxi c)) -> forall p, In p (sort3 b) -> b_xi p < - (IZR i * c_dxi c)).
  { intros b K p Hp. apply K. eapply Permutation_in; [apply Hs|exact Hp]. }
  destruct (loop_feed3 _ _ _ _ _ _ _ _ _ _ L1) as (t1 & F1 & ->). destruct (loop_feed3 _ _ _ _ _ _ _ _ _ _ L2) as (t2 & F2 & ->).
  cbn [s_src start3d] in F1, F2. unfold new_source3 in F1 at 1, F2 at 1.
  destruct (ask3_spec (c_dxi c) Hd n i (sort3 beam1)) as [S1 _]; [apply Hs|apply I; intros; apply Hb; apply in_or_app; auto|]. rewrite S1 in F1.
  destruct (ask3_spec (c_dxi c) Hd n i (sort3 beam2)) as [S2 _]; [apply Hs|apply I; intros; apply Hb; apply in_or_app; auto|]. rewrite S2 in F2.
  assert (E : filter (ahead3 lo) (sort3 beam1) = filter (ahead3 lo) (sort3 beam2)).
  { apply (filter_sorted_unique b_xi); try apply Hs; [|now rewrite (Q beam1), (Q beam2)].
    eapply Permutation_NoDup; [apply Permutation_map; apply Permutation_sym; apply Q|exact N]. }
  assert (S : map (fun k => filter (in_layer3 (c_dxi c) (i + Z.of_nat k)) (sort3 beam1)) (seq 0 n) =
              map (fun k => filter (in_layer3 (c_dxi c) (i + Z.of_nat k)) (sort3 beam2)) (seq 0 n)).
  { apply map_ext_in. intros k Hk. apply in_seq in Hk.
    rewrite (layer_ahead3 _ i n k (sort3 beam1)), (layer_ahead3 _ i n k (sort3 beam2)) by (auto; lia). fold lo. now rewrite E. }
  rewrite S in F1.
  change (start3d sort3 beam1 rho prev pl) with (with_src3 Pl (start3d sort3 beam2 rho prev pl) (new_source3 sort3 beam1)) in F1.
  rewrite feed3_src, F2 in F1. injection F1 as <-. cbn. auto.
Qed.
Print Assumptions C57_3d_motion_ignores_what_is_behind.

(** Two beams that differ behind the second layer, and runs over those two layers that succeed. *)
Definition lead : part := mkPart (-0.5) 1 1 0 0 1 1 1.
Definition tail2 : part := mkPart (-2.5) 1 1 0 0 1 1 2.
Example C57_2d_nonvacuous :
  let run := fun b h => xi_loop bsort unit (fun _ _ _ => tt) (fun _ => late_fields) h late_cfg 2 0 (start2 isort b (repeat 0 6) (repeat 0 6) tt) in
  Permutation (filter (not_behind (-2)) [lead; tail2]) (filter (not_behind (-2)) [lead]) /\
  NoDup (map xi (filter (not_behind (-2)) [lead; tail2])) /\
  exists h s1 s2, run [lead; tail2] h = Some s1 /\ run [lead] h = Some s2.
Proof.
  assert (F : filter (not_behind (-2)) [lead; tail2] = [lead]).
  { unfold filter, not_behind, lead, tail2. cbn [xi]. destruct (Rle_dec (-2) (-0.5)); [|lra]. destruct (Rle_dec (-2) (-2.5)); [lra|]. reflexivity. }
  assert (F' : filter (not_behind (-2)) [lead] = [lead]).
  { unfold filter, not_behind, lead. cbn [xi]. destruct (Rle_dec (-2) (-0.5)); [reflexivity|lra]. }
  cbn zeta. rewrite F, F'. split; [reflexivity|]. split; [constructor; [intros []|constructor]|].
  assert (T : forall b, (forall p, In p b -> p = lead \/ p = tail2) -> exists h0, forall h, (h0 <= h)%nat ->
     exists s, xi_loop bsort unit (fun _ _ _ => tt) (fun _ => late_fields) h late_cfg 2 0 (start2 isort b (repeat 0 6) (repeat 0 6) tt) = Some s).
  { intros b Hb. destruct (Beam2D_Total.xi_loop_total bsort unit (fun _ _ _ => tt) (fun _ => late_fields) late_cfg (new_source isort b) 6 bsort_ok) as (h0 & H); try (cbn; lra).
    - intros p Hp. assert (In p b).
      { assert (I : In p (isort b)).
        { revert Hp. unfold new_source. destruct (isort b) as [|q l]; [intros []|]. cbn [s_parts]. destruct (Rlt_dec _ _); auto.
          intros Hp. rewrite (app_removelast_last q (l := q :: l)) by discriminate. apply in_or_app. left. exact Hp. }
        eapply Permutation_in; [apply isort_ok|exact I]. }
      destruct (Hb p H) as [->| ->]; cbn; lra.
    - exists h0. intros h Hh. apply H; auto. }
  destruct (T [lead; tail2]) as (h1 & H1); [intros p [<-|[<-|[]]]; auto|]. destruct (T [lead]) as (h2 & H2); [intros p [<-|[]]; auto|].
  exists (Nat.max h1 h2). destruct (H1 (Nat.max h1 h2) ltac:(lia)) as (s1 & E1). destruct (H2 (Nat.max h1 h2) ltac:(lia)) as (s2 & E2). exists s1, s2. auto.
Qed.
Definition lead3 : part3 := mk3 (-0.5) 0 0 0 0 1 1 1 1 0 0.
Definition tail3 : part3 := mk3 (-2.5) 0 0 0 0 1 1 1 2 0 0.
Example C57_3d_nonvacuous : forall u,
  let run := fun b h => run3 unit (fun _ _ _ => tt) (fun _ => no_fields) u h w_cfg 2 0 (start3d isort3 b zero_grid zero_grid tt) in
  Permutation (filter (not_behind3 (-2)) [lead3; tail3]) (filter (not_behind3 (-2)) [lead3]) /\
  NoDup (map b_xi (filter (not_behind3 (-2)) [lead3; tail3])) /\
  exists h s1 s2, run [lead3; tail3] h = Some s1 /\ run [lead3] h = Some s2.
Proof.
  intros u. assert (F : filter (not_behind3 (-2)) [lead3; tail3] = [lead3]).
  { unfold filter, not_behind3, lead3, tail3. cbn [b_xi]. destruct (Rle_dec (-2) (-0.5)); [|lra]. destruct (Rle_dec (-2) (-2.5)); [lra|]. reflexivity. }
  assert (F' : filter (not_behind3 (-2)) [lead3] = [lead3]).
  { unfold filter, not_behind3, lead3. cbn [b_xi]. destruct (Rle_dec (-2) (-0.5)); [reflexivity|lra]. }
  cbn zeta. rewrite F, F'. split; [reflexivity|]. split; [constructor; [intros []|constructor]|].
  assert (T : forall b, (forall p, In p b -> p = lead3 \/ p = tail3) -> exists h0, forall h, (h0 <= h)%nat ->
     exists s, run3 unit (fun _ _ _ => tt) (fun _ => no_fields) u h w_cfg 2 0 (start3d isort3 b zero_grid zero_grid tt) = Some s).
  { intros b Hb. destruct (run3_total unit (fun _ _ _ => tt) (fun _ => no_fields) u w_cfg (isort3 b)) as (h0 & H); [cbn; lra| |].
    - intros p Hp. assert (In p b) by (eapply Permutation_in; [apply isort3_ok|exact Hp]). destruct (Hb p H) as [->| ->]; cbn; lra.
    - exists h0. intros h Hh. apply H; auto. apply sane_start. }
  destruct (T [lead3; tail3]) as (h1 & H1); [intros p [<-|[<-|[]]]; auto|]. destruct (T [lead3]) as (h2 & H2); [intros p [<-|[]]; auto|].
  exists (Nat.max h1 h2). destruct (H1 (Nat.max h1 h2) ltac:(lia)) as (s1 & E1). destruct (H2 (Nat.max h1 h2) ltac:(lia)) as (s2 & E2). exists s1, s2. auto.
Qed.
