(** Theorems C58: the 3D code treats the two transverse axes alike. *)
From Coq Require Import Reals ZArith List Bool Lia Lra Permutation FunctionalExtensionality.
From Verif Require Import Beam2D_Model Plasma2D_Model Shape_Model Beam3D_Model Beam3D_Spec Beam3D_Proofs Beam3D_Run Beam3D_Ex Beam2D_Proofs Causal_Proofs Props_Causal.
From Verif Require Plasma3D_Model.
From Verif Require Import Sym3D_Spec Sym3D_Plasma Sym3D_Beam.
Import ListNotations.
Open Scope R_scope.
Notation gauss := Plasma3D_Model.gauss_average.
Notation plasma_state := Plasma3D_Model.state3.

(** One layer of the plasma: calling x what was y in the plasma, the fields, the currents and the
    beam densities gives the same result with x and y renamed.  Any state, any grid. *)
Theorem C58_plasma_layer_does_not_know_the_axes : forall sigma K s rho rho_prev st, Plasma3D_Model.u_h s <> 0 ->
  Plasma3D_Model.step_dxi3 (gauss K sigma) (swap_solver s) (swap_arr rho) (swap_arr rho_prev) (swap_state st) =
  swap_state (Plasma3D_Model.step_dxi3 (gauss K sigma) s rho rho_prev st).
Proof. intros. apply step_swap; auto. intros. apply gauss_swap. Qed.
Print Assumptions C58_plasma_layer_does_not_know_the_axes.

Lemma zero_fields_swap : swap_fields Plasma3D_Model.zero_fields3 = Plasma3D_Model.zero_fields3.
Proof.
  assert (E : swap_axial Plasma3D_Model.zeros2 = Plasma3D_Model.zeros2) by (Sym3D_Plasma.fext; unfold swap_axial, Plasma3D_Model.zeros2; ring).
  unfold swap_fields, Plasma3D_Model.zero_fields3. cbn. now rewrite E.
Qed.
(** So does the initial plasma. *)
Theorem C58_initial_plasma_does_not_know_the_axes : forall N h padding f coef mobile mass, h <> 0 ->
  let a := Plasma3D_Model.init_plasma3 N h padding f coef mobile mass in
  let b := Plasma3D_Model.init_plasma3 N h padding f (fun x y => coef y x) mobile mass in
  fst b = swap_state (fst a) /\ snd b = swap_ions (snd a).
Proof.
  intros N h padding f coef mobile mass Hh. cbn zeta. unfold Plasma3D_Model.init_plasma3. destruct mobile; cbn [fst snd].
  - split; [|reflexivity]. unfold swap_state. rewrite zero_fields_swap. reflexivity.
  - split.
    + unfold swap_state. rewrite zero_fields_swap. reflexivity.
      + cbn [swap_ions]. f_equal. pose proof (deposit_swap (Z.of_nat N) h (Plasma3D_Model.grid_size (Z.of_nat N - 2 * padding) f)
        (Plasma3D_Model.init_electrons3 (Z.of_nat N - 2 * padding) h f coef) Hh) as D.
      Sym3D_Plasma.fext. unfold swap_grid. f_equal.
      change (Plasma3D_Model.c_ro ?d x0 x) with (Plasma3D_Model.c_ro (swap_dens d) x x0). rewrite <- D. reflexivity.
Qed.
Print Assumptions C58_initial_plasma_does_not_know_the_axes.

(** The plasma of the xi loop. *)
Lemma plasma_layer_swap sigma s st a b : Plasma3D_Model.u_h s <> 0 ->
  plasma_layer (fun K => gauss K sigma) (swap_solver s) (swap_state st) (swap_grid a) (swap_grid b) = swap_state (plasma_layer (fun K => gauss K sigma) s st a b).
Proof.
  intros H. unfold plasma_layer. replace (Plasma3D_Model.K_ (fst (fst (swap_state st)))) with (Plasma3D_Model.K_ (fst (fst st))) by (destruct st as [[? ?] ?]; reflexivity).
  rewrite <- C58_plasma_layer_does_not_know_the_axes by auto. reflexivity.
Qed.
Lemma seen_swap st : seen_fields (swap_state st) = swap_bfields (seen_fields st).
Proof. destruct st as [[ps f] c]. reflexivity. Qed.

(** A whole time step on the GPU, beam and plasma together: with the axes exchanged in the beam and the
    plasma, everything comes out with the axes exchanged: the lost and the drained particles (in the
    same order), the densities and the plasma.  It also fails (None) exactly when the other does. *)
Theorem C58_gpu_time_step_does_not_know_the_axes : forall sort3 sigma s halvings c n i beam rho prev pl,
  sorts_by_xi sort3 -> Plasma3D_Model.u_h s <> 0 ->
  let run := fun s => run3 plasma_state (plasma_layer (fun K => gauss K sigma) s) seen_fields GPU halvings c n i in
  run (swap_solver s) (start3d sort3 (map swap_b beam) (swap_grid rho) (swap_grid prev) (swap_state pl)) =
  option_map (swap_run swap_state) (run s (start3d sort3 beam rho prev pl)).
Proof.
  intros sort3 sigma s hv c n i beam rho prev pl Hs Hh. cbn zeta. cbv beta.
  rewrite <- (run3_swap plasma_state (plasma_layer (fun K => gauss K sigma) s) (plasma_layer (fun K => gauss K sigma) (swap_solver s)) seen_fields swap_state).
  - unfold start3d, swap_run, new_source3. cbn [s_src s_move s_fell s_lost s_drain s_rho s_prev s_pl map]. rewrite Hs by reflexivity. reflexivity.
  - intros. now apply plasma_layer_swap.
  - apply seen_swap.
Qed.
Print Assumptions C58_gpu_time_step_does_not_know_the_axes.

(** On the CPU the same is false: a particle off to the left is kept for the next layer when it should be
    drained; off to the bottom, it is drained. *)
Theorem C58_cpu_time_step_does_not_know_the_axes_refuted :
  ~ (forall c idx fk fk1 p, 0 < c_h c -> 0 < c_dxi c -> b_qm p <> 0 -> 0 < b_dt p -> xi_in (c_dxi c) idx p ->
       move_one3 CPU c idx (swap_bfields fk) (swap_bfields fk1) (swap_b p) =
       (swap_b (fst (move_one3 CPU c idx fk fk1 p)), snd (move_one3 CPU c idx fk fk1 p))).
Proof.
  intros H. specialize (H w_cfg 0%Z no_fields no_fields (l_part 1 (-0.1)) ltac:(cbn; lra) ltac:(cbn; lra) ltac:(cbn; lra) ltac:(cbn; lra) ltac:(unfold xi_in; cbn; lra)).
  apply (f_equal snd) in H. rewrite l_move in H. unfold move_one3 in H. change (b_rem (swap_b (l_part 1 (-0.1)))) with 1%nat in H. rewrite loop3_swap, l_loop in H.
  cbn [fst snd swap_b l_part b_x b_y b_rem Nat.eqb andb orb negb w_cfg c_dxi] in H. unfold not_in_layer in H.
  destruct (Rlt_dec 0 (IZR (0 + 1) * - (1))) as [L|L]; [cbn in L; lra|]. discriminate H.
Qed.
Print Assumptions C58_cpu_time_step_does_not_know_the_axes_refuted.

(** The wake, however, is exchanged on both processors: within a time step it follows from the beam at its
    beginning.  The particles of the second beam may be listed in any order, and the two runs may even be
    on different processors. *)
Section Wake.
  Variable Pl : Type.
  Variable plasma plasma' : Pl -> grid -> grid -> Pl.
  Variable pf : Pl -> fields3.
  Variable sw : Pl -> Pl.
  Hypothesis plasma_sw : forall s a b, plasma' (sw s) (swap_grid a) (swap_grid b) = sw (plasma s a b).
  Definition wake_sw (s t : state3 Pl) : Prop := s_rho Pl t = swap_grid (s_rho Pl s) /\ s_prev Pl t = swap_grid (s_prev Pl s) /\ s_pl Pl t = sw (s_pl Pl s).
  Lemma feed_wake_sw u u' h h' c : 0 < c_h c -> forall ls ls', Forall2 (fun a b => Permutation (map swap_b a) b) ls ls' ->
    forall i s t s' t', wake_sw s t -> feed3 Pl plasma pf u h c ls i s = Some s' -> feed3 Pl plasma' pf u' h' c ls' i t = Some t' -> wake_sw s' t'.
  Proof.
    intros Hh ls ls'. induction 1 as [|a b ls ls' P F IH]; intros i s t s' t' W A B; cbn [feed3] in A, B; [congruence|].
    destruct (body3 Pl plasma pf u h c i a s) as [s1|] eqn:B1; [|discriminate]. destruct (body3 Pl plasma' pf u' h' c i b t) as [t1|] eqn:B2; [|discriminate].
    refine (IH _ _ _ _ _ _ A B). destruct W as (W1 & W2 & W3). unfold body3 in B1, B2. rewrite W1, <- (layout3_perm _ _ _ _ _ _ _ Hh P), layout3_swap in B2.
    destruct (layout3 _ _ _ _ a _) as [r r']. unfold swap2 in B2. cbn [fst snd] in B2.
    destruct (move_layer3 u _ _ _ _ _ _ _) as [[[x1 x2] x3]|] in B1; cbn [option_map] in B1; [|discriminate].
    destruct (move_layer3 u' _ _ _ _ _ _ _) as [[[y1 y2] y3]|] in B2; cbn [option_map] in B2; [|discriminate].
    injection B1 as <-. injection B2 as <-. unfold wake_sw. cbn. rewrite W2, W3, plasma_sw. auto.
  Qed.
End Wake.
Theorem C58_wake_does_not_know_the_axes : forall sort3 sort3' sigma s u u' halvings halvings' c n i beam beam' rho prev pl s1 s2,
  sort3_ok sort3 -> sort3_ok sort3' -> Plasma3D_Model.u_h s <> 0 -> 0 < c_h c -> 0 < c_dxi c ->
  (forall p, In p beam -> b_xi p < - (IZR i * c_dxi c)) -> Permutation (map swap_b beam) beam' ->
  let run := fun s u hv => run3 plasma_state (plasma_layer (fun K => gauss K sigma) s) seen_fields u hv c n i in
  run s u halvings (start3d sort3 beam rho prev pl) = Some s1 ->
  run (swap_solver s) u' halvings' (start3d sort3' beam' (swap_grid rho) (swap_grid prev) (swap_state pl)) = Some s2 ->
  s_pl plasma_state s2 = swap_state (s_pl plasma_state s1) /\ s_rho plasma_state s2 = swap_grid (s_rho plasma_state s1) /\
  s_prev plasma_state s2 = swap_grid (s_prev plasma_state s1).
Proof.
  intros sort3 sort3' sigma s u u' hv hv' c n i beam beam' rho prev pl s1 s2 Hs Hs' Hu Hh Hd Hb P run L1 L2. unfold run in L1, L2. clear run.
  destruct (loop_feed3 _ _ _ _ _ _ _ _ _ _ L1) as (t1 & F1 & ->). destruct (loop_feed3 _ _ _ _ _ _ _ _ _ _ L2) as (t2 & F2 & ->).
  cbn [s_src start3d] in F1, F2. unfold new_source3 in F1 at 1, F2 at 1.
  destruct (ask3_spec (c_dxi c) Hd n i (sort3 beam)) as [S1 _]; [apply Hs|intros p Hp; apply Hb; eapply Permutation_in; [apply Hs|exact Hp]|]. rewrite S1 in F1.
  destruct (ask3_spec (c_dxi c) Hd n i (sort3' beam')) as [S2 _].
  { apply Hs'. }
  { intros p Hp. assert (In p (map swap_b beam)) by (eapply Permutation_in; [apply Permutation_sym; exact P|eapply Permutation_in; [apply Hs'|exact Hp]]).
    apply in_map_iff in H. destruct H as (q & <- & Hq). exact (Hb q Hq). }
  rewrite S2 in F2.
  assert (W : wake_sw plasma_state swap_state t1 t2).
  { refine (feed_wake_sw _ _ _ _ swap_state _ u u' hv hv' c Hh _ _ _ _ _ _ _ _ _ F1 F2).
    - intros. now apply plasma_layer_swap.
    - assert (G : forall ks : list nat, Forall2 (fun a b => Permutation (map swap_b a) b)
        (map (fun k => filter (in_layer3 (c_dxi c) (i + Z.of_nat k)) (sort3 beam)) ks) (map (fun k => filter (in_layer3 (c_dxi c) (i + Z.of_nat k)) (sort3' beam')) ks)).
      { induction ks as [|k ks IH]; cbn [map]; constructor; auto.
        assert (E : forall l, map swap_b (filter (in_layer3 (c_dxi c) (i + Z.of_nat k)) l) = filter (in_layer3 (c_dxi c) (i + Z.of_nat k)) (map swap_b l)).
        { induction l as [|p l IHl]; [reflexivity|]. cbn [filter map]. change (in_layer3 (c_dxi c) (i + Z.of_nat k) (swap_b p)) with (in_layer3 (c_dxi c) (i + Z.of_nat k) p).
          destruct (in_layer3 _ _ p); cbn [map]; now rewrite IHl. }
        rewrite E. apply filter_perm. rewrite (proj1 (Hs' beam')), <- P. apply Permutation_map. apply Hs. }
      apply G.
    - unfold wake_sw, start3d. cbn. auto. }
  destruct W as (W1 & W2 & W3). cbn. auto.
Qed.
Print Assumptions C58_wake_does_not_know_the_axes.

(** So a beam that is the same with x and y exchanged, in a plasma that is the same with x and y exchanged,
    makes a wake that is the same with x and y exchanged. *)
Theorem C58_symmetric_beam_makes_symmetric_wake : forall sort3 sigma s u halvings c n i beam rho prev pl s1,
  sort3_ok sort3 -> Plasma3D_Model.u_h s <> 0 -> 0 < c_h c -> 0 < c_dxi c ->
  (forall p, In p beam -> b_xi p < - (IZR i * c_dxi c)) ->
  Permutation (map swap_b beam) beam -> swap_solver s = s -> swap_grid rho = rho -> swap_grid prev = prev -> swap_state pl = pl ->
  run3 plasma_state (plasma_layer (fun K => gauss K sigma) s) seen_fields u halvings c n i (start3d sort3 beam rho prev pl) = Some s1 ->
  let f := snd (fst (s_pl plasma_state s1)) in
  forall j k, Plasma3D_Model.Ex f j k = Plasma3D_Model.Ey f k j /\ Plasma3D_Model.Ez f j k = Plasma3D_Model.Ez f k j /\
    Plasma3D_Model.Bx f j k = - Plasma3D_Model.By f k j /\ Plasma3D_Model.Bz f j k = - Plasma3D_Model.Bz f k j /\ Plasma3D_Model.Bz f j j = 0.
Proof.
  intros sort3 sigma s u hv c n i beam rho prev pl s1 Hs Hu Hh Hd Hb P Es Er Ep El L f j k.
  assert (E : s_pl plasma_state s1 = swap_state (s_pl plasma_state s1)).
  { refine (proj1 (C58_wake_does_not_know_the_axes sort3 sort3 sigma s u u hv hv c n i beam beam rho prev pl s1 s1 Hs Hs Hu Hh Hd Hb P L _)). rewrite Es, Er, Ep, El. exact L. }
  assert (F : f = swap_fields f) by (unfold f at 1; rewrite E; unfold f; destruct (s_pl plasma_state s1) as [[? ?] ?]; reflexivity).
  assert (B : Plasma3D_Model.Bz f j j = - Plasma3D_Model.Bz f j j) by (rewrite F at 1; reflexivity).
  repeat split; try (rewrite F at 1; reflexivity). lra.
Qed.
Print Assumptions C58_symmetric_beam_makes_symmetric_wake.

(** A sort that looks only at xi; two particles mirror images of each other across the diagonal; a
    homogeneous plasma with mobile ions; a run that succeeds. *)
Lemma isort3_by_xi : sorts_by_xi isort3.
Proof.
  intros f Hf l. induction l as [|p l IH]; [reflexivity|]. cbn [map isort3]. rewrite IH. generalize (isort3 l). intros m.
  induction m as [|q m IHm]; [reflexivity|]. cbn [map ins3]. rewrite !Hf. destruct (Rle_dec (b_xi q) (b_xi p)); [reflexivity|]. cbn [map]. now rewrite IHm.
Qed.
Definition pair1 : part3 := mk3 (-0.5) 1 2 0 0 1 1 1 1 0 0.
Definition pair2 : part3 := mk3 (-0.5) 2 1 0 0 1 1 1 1 0 0.
Definition sym_solver : Plasma3D_Model.solver3 := Plasma3D_Model.mkS3 21 1 1 5 0 Plasma3D_Model.Mobile3 true 1 1 1.
Definition sym_plasma : plasma_state := fst (Plasma3D_Model.init_plasma3 21 1 5 1 (fun _ _ => 1) true 1836).
Example C58_nonvacuous : sorts_by_xi isort3 /\ Permutation (map swap_b [pair1; pair2]) [pair1; pair2] /\ swap_solver sym_solver = sym_solver /\
  swap_state sym_plasma = sym_plasma /\ swap_grid zero_grid = zero_grid /\
  exists h s1, run3 plasma_state (plasma_layer (fun K => gauss K 3) sym_solver) seen_fields GPU h w_cfg 3 0 (start3d isort3 [pair1; pair2] zero_grid zero_grid sym_plasma) = Some s1.
Proof.
  split; [exact isort3_by_xi|]. split; [apply perm_swap|]. split; [reflexivity|]. split.
  { symmetry. exact (proj1 (C58_initial_plasma_does_not_know_the_axes 21 1 5 1 (fun _ _ => 1) true 1836 ltac:(lra))). }
  split; [reflexivity|].
  destruct (run3_total plasma_state (plasma_layer (fun K => gauss K 3) sym_solver) seen_fields GPU w_cfg (isort3 [pair1; pair2])) as (h0 & H); [cbn; lra| |].
  - intros p Hp. assert (I : In p [pair1; pair2]) by (eapply Permutation_in; [apply isort3_ok|exact Hp]). destruct I as [<-|[<-|[]]]; cbn; lra.
  - destruct (H h0 (le_n _) 3%nat 0%Z (start3d isort3 [pair1; pair2] zero_grid zero_grid sym_plasma)) as (s1 & E); [apply sane_start|]. eauto.
Qed.
