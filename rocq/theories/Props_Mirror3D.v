(** Theorems C65: the 3D code does not know left from right. *)
From Coq Require Import Reals ZArith List Bool Lia Lra Permutation Sorted FunctionalExtensionality.
From Verif Require Import Beam2D_Model Beam2D_Spec Plasma2D_Model Plasma2D_Ode Shape_Model Shape_Spec Beam3D_Model Beam3D_Spec Beam3D_Proofs Beam3D_Run Beam3D_Ex Beam2D_Proofs
  Causal_Proofs Props_Causal Plasma3D_Spec Plasma3D_Move Layer3D_Spec Layer3D_Proofs.
From Verif Require Plasma3D_Model Plasma3D_Quiet.
From Verif Require Import Sym3D_Spec Sym3D_Plasma Props_Sym3D Mirror3D_Spec Mirror3D_Proofs Mirror3D_Pair.
Import ListNotations.
Open Scope R_scope.
Notation el := Plasma3D_Model.el.
Notation io := Plasma3D_Model.io.
Notation K_ := Plasma3D_Model.K_.
Notation parts_of st := (fst (fst st)).
Notation fields_in st := (snd (fst st)).

(** A window with an odd number of nodes, a wall, a solver of that size. *)
Definition sound_solver (s : Plasma3D_Model.solver3) (L : nat) (pad : Z) : Prop :=
  Plasma3D_Model.u_n s = (L + 1)%nat /\ (2 <= L)%nat /\ Nat.odd (Plasma3D_Model.u_n s) = true /\ 0 < Plasma3D_Model.u_h s /\ (3 <= pad)%Z /\
  Plasma3D_Model.u_b s = Plasma3D_Model.wall (Plasma3D_Model.u_n s) (Plasma3D_Model.u_h s) pad /\ 0 < Plasma3D_Model.u_b s /\
  0 <= Plasma3D_Model.u_coeff s /\ 0 < Plasma3D_Model.u_limit s.

(** One layer: mirrored plasma, fields, currents and beam densities give the mirrored layer.  Any plasma of
    any size, provided no charged particle flies farther than a window width beyond a wall. *)
Theorem C65_plasma_layer_does_not_know_left_from_right : forall sigma s L pad rho rho_prev rho' rho_prev' st st',
  sound_solver s L pad -> let n := Plasma3D_Model.u_n s in let K := K_ (parts_of st) in
  (Plasma3D_Model.u_decl s = true -> (3 <= K)%nat) -> calm s (parts_of st) -> short_flights s L rho rho_prev st ->
  nodes_eq L rho' (even_x n rho) -> nodes_eq L rho_prev' (even_x n rho_prev) -> same_plasma (mirror_solver s) L st' (mirror_state n st) ->
  same_plasma (mirror_solver s) L (Plasma3D_Model.step_dxi3 (gauss K sigma) (mirror_solver s) rho' rho_prev' st')
    (mirror_state n (Plasma3D_Model.step_dxi3 (gauss K sigma) s rho rho_prev st)).
Proof.
  intros sigma s L pad rho rp rho' rp' st st' (H1 & H2 & H3 & H4 & H5 & H6 & H7 & H8 & H9) n K HK HC HS HR HP S. now apply (step_mir s L pad).
Qed.
Print Assumptions C65_plasma_layer_does_not_know_left_from_right.

(** The initial plasma: mirroring the density profile mirrors the plasma and the background ions. *)
Lemma grid_mir steps h f k : (0 < f)%nat -> (k < Plasma3D_Model.grid_size steps f)%nat ->
  Plasma3D_Model.plasma_grid steps h f (mir (Plasma3D_Model.grid_size steps f) k) = - Plasma3D_Model.plasma_grid steps h f k.
Proof.
  intros Hf. unfold Plasma3D_Model.grid_size, Plasma3D_Model.plasma_grid, mir. set (half := (Z.to_nat (steps / 2) * f)%nat). intros Hk. destruct (Nat.odd f).
  - replace (2 * half - 1 - 1 - k)%nat with ((half - 1) + (half - 1) - k)%nat by lia. rewrite minus_INR, plus_INR by lia. ring.
  - replace (2 * half - 1 - k)%nat with (half + half - (k + 1))%nat by lia. rewrite minus_INR, plus_INR, (plus_INR k 1) by lia. cbn [INR]. lra.
Qed.
Theorem C65_initial_plasma_does_not_know_left_from_right : forall N L h padding f coef mobile mass,
  N = (L + 1)%nat -> Nat.odd N = true -> h <> 0 -> (0 < f)%nat ->
  let a := Plasma3D_Model.init_plasma3 N h padding f coef mobile mass in
  let b := Plasma3D_Model.init_plasma3 N h padding f (fun x y => coef (- x) y) mobile mass in
  snd b = mirror_ions N (snd a) /\ (forall s, Plasma3D_Model.u_ions s = snd b -> same_plasma s L (fst b) (mirror_state N (fst a))).
Proof.
  intros N L h padding f coef mobile mass HN Ho Hh Hf. cbn zeta. unfold Plasma3D_Model.init_plasma3.
  set (steps := (Z.of_nat N - 2 * padding)%Z). set (K := Plasma3D_Model.grid_size steps f).
  set (a := Plasma3D_Model.init_electrons3 steps h f coef). set (b := Plasma3D_Model.init_electrons3 steps h f (fun x y => coef (- x) y)).
  assert (E : each K (fun i j => b i j = mirror_pt (a (mir K i) j))).
  { intros i j Hi Hj. unfold a, b, Plasma3D_Model.init_electrons3, mirror_pt. cbn. rewrite grid_mir by auto. f_equal; ring. }
  assert (Z : forall F, In F [Plasma3D_Model.Ex; Plasma3D_Model.Ey; Plasma3D_Model.Ez; Plasma3D_Model.Bx; Plasma3D_Model.By; Plasma3D_Model.Bz; Plasma3D_Model.Phi] ->
    nodes_eq L (F Plasma3D_Model.zero_fields3) (F (mirror_fields N Plasma3D_Model.zero_fields3))).
  { intros F HF i j Hi Hj. cbn [In] in HF. destruct HF as [<-|[<-|[<-|[<-|[<-|[<-|[<-|[]]]]]]]]; cbn; unfold even_x, odd_x, Plasma3D_Model.zeros2; lra. }
  assert (C : forall g, In g [Plasma3D_Model.c_ro; Plasma3D_Model.c_jx; Plasma3D_Model.c_jy; Plasma3D_Model.c_jz] ->
    nodes_eq L (total3 g Plasma3D_Model.zero_cur3) (total3 g (mirror_cur N Plasma3D_Model.zero_cur3))).
  { intros g HF i j Hi Hj. cbn [In] in HF. destruct HF as [<-|[<-|[<-|[<-|[]]]]]; unfold total3; cbn; unfold even_g, odd_g, zero_grid; lra. }
  destruct mobile; cbn [fst snd].
  - split; [reflexivity|]. intros s Hs. unfold same_plasma, mirror_state. split; [reflexivity|]. split; [|split; [exact Z|exact C]].
    unfold of_sorts. rewrite Hs. cbn [Plasma3D_Model.K_ Plasma3D_Model.el Plasma3D_Model.io mirror_parts]. split; [exact E|].
    intros i j Hi Hj. rewrite (E i j Hi Hj). unfold mirror_pt. cbn. rewrite !Ropp_0. reflexivity.
  - split.
    + cbn [mirror_ions]. f_equal. extensionality u. extensionality v. unfold even_g. f_equal.
      destruct (deposit_plasma_val (Z.of_nat N) h (Plasma3D_Model.ravel K b) u v Hh) as (-> & _).
      destruct (deposit_plasma_val (Z.of_nat N) h (Plasma3D_Model.ravel K a) (Z.of_nat N - 1 - u) v Hh) as (-> & _).
      unfold cell_sum. rewrite !Plasma3D_Quiet.sumR_ravel. rewrite (sumN_mir K (fun i => sumN K (fun j => rho_of (a i j) * _ / _))). apply sumN_ext. intros i Hi. apply sumN_ext. intros j Hj.
      rewrite (E i j Hi Hj), rho_mir, at_x_mir, shape_mir by auto. reflexivity.
    + intros s Hs. unfold same_plasma, mirror_state. split; [reflexivity|]. split; [|split; [exact Z|exact C]].
      unfold of_sorts. rewrite Hs. cbn [Plasma3D_Model.K_ Plasma3D_Model.el Plasma3D_Model.io mirror_parts]. split; [exact E|exact I].
Qed.
Print Assumptions C65_initial_plasma_does_not_know_left_from_right.

(** The xi loop.  [layers j]: the run of the first j layers.  In every layer the plasma is calm and no
    charged particle flies farther than a window width beyond a wall. *)
Definition gentle_run (s : Plasma3D_Model.solver3) (L : nat) (layers : nat -> option (state3 plasma_state)) (n : nat) : Prop :=
  forall j sj sj', (j < n)%nat -> layers j = Some sj -> layers (S j) = Some sj' ->
    calm s (parts_of (s_pl plasma_state sj)) /\
    short_flights s L (Plasma3D_Model.to_arr2 (s_prev plasma_state sj')) (Plasma3D_Model.to_arr2 (s_prev plasma_state sj)) (s_pl plasma_state sj).

Lemma layout3_mir N h dxi rho l i : Nat.odd N = true -> 0 < h ->
  layout3 (Z.of_nat N) h dxi (even_g N rho) (map mirror_b l) i =
  (even_g N (fst (layout3 (Z.of_nat N) h dxi rho l i)), even_g N (snd (layout3 (Z.of_nat N) h dxi rho l i))).
Proof.
  intros Ho Hh. destruct (layout3 (Z.of_nat N) h dxi (even_g N rho) (map mirror_b l) i) as [a b] eqn:E. destruct (layout3 (Z.of_nat N) h dxi rho l i) as [a' b'] eqn:E'. cbn [fst snd].
  assert (G : forall w : part3 -> R, (forall p, w (mirror_b p) = w p) -> forall x y,
     sumR (map (fun p => w p * shape (Z.of_nat N) h (b_x p) (b_y p) x y) (map mirror_b l)) = sumR (map (fun p => w p * shape (Z.of_nat N) h (b_x p) (b_y p) (Z.of_nat N - 1 - x) y) l)).
  { intros w Hw x y. rewrite map_map. f_equal. apply map_ext. intros p. rewrite Hw. cbn [mirror_b b_x b_y]. now rewrite shape_mir. }
  f_equal; extensionality x; extensionality y; unfold even_g;
    destruct (layout3_val _ _ _ _ _ _ _ _ Hh E x y) as [V1 V2]; destruct (layout3_val _ _ _ _ _ _ _ _ Hh E' (Z.of_nat N - 1 - x)%Z y) as [V1' V2'].
  - rewrite V1, V1'. unfold even_g. do 2 f_equal. apply (G (fun p => b_q p * dist_from_top dxi i p)). reflexivity.
  - rewrite V2, V2'. apply (G (fun p => b_q p * (1 - dist_from_top dxi i p))). reflexivity.
Qed.
Lemma to_arr2_mir N L g g' : N = (L + 1)%nat -> g' = even_g N g -> nodes_eq L (Plasma3D_Model.to_arr2 g') (even_x N (Plasma3D_Model.to_arr2 g)).
Proof. intros HN -> i j Hi Hj. unfold Plasma3D_Model.to_arr2, even_g, even_x. now rewrite Zmir by lia. Qed.

Definition wake_mir (s : Plasma3D_Model.solver3) (L : nat) (a b : state3 plasma_state) : Prop :=
  let n := Plasma3D_Model.u_n s in
  s_rho plasma_state b = even_g n (s_rho plasma_state a) /\ s_prev plasma_state b = even_g n (s_prev plasma_state a) /\
  same_plasma (mirror_solver s) L (s_pl plasma_state b) (mirror_state n (s_pl plasma_state a)).
Definition src_mir (c : cfg3) (i : Z) (a b : list part3) : Prop :=
  StronglySorted (fun p q => b_xi q <= b_xi p) a /\ StronglySorted (fun p q => b_xi q <= b_xi p) b /\ Permutation (map mirror_b a) b /\
  (forall p, In p a -> b_xi p < - (IZR i * c_dxi c)).
Section Wake.
  Variables (sigma : R) (s : Plasma3D_Model.solver3) (L : nat) (pad : Z) (c : cfg3).
  Hypothesis Hs : sound_solver s L pad.
  Hypothesis Hn : c_n c = Z.of_nat (Plasma3D_Model.u_n s).
  Hypothesis Hh : 0 < c_h c.
  Hypothesis Hd : 0 < c_dxi c.
  Notation layer := (plasma_layer (fun K => gauss K sigma)).
  Lemma same_K (s' : Plasma3D_Model.solver3) st st' : same_plasma s' L st st' -> K_ (parts_of st) = K_ (parts_of st').
  Proof. destruct st as [[? ?] ?], st' as [[? ?] ?]. intros H. apply H. Qed.
  Lemma iter_mir u u' h h' i a b a' b' : wake_mir s L a b -> src_mir c i (s_src plasma_state a) (s_src plasma_state b) ->
    (Plasma3D_Model.u_decl s = true -> (3 <= K_ (parts_of (s_pl plasma_state a)))%nat) ->
    calm s (parts_of (s_pl plasma_state a)) ->
    short_flights s L (Plasma3D_Model.to_arr2 (s_prev plasma_state a')) (Plasma3D_Model.to_arr2 (s_prev plasma_state a)) (s_pl plasma_state a) ->
    iter3 plasma_state (layer s) seen_fields u h c i a = Some a' ->
    iter3 plasma_state (layer (mirror_solver s)) seen_fields u' h' c i b = Some b' ->
    wake_mir s L a' b' /\ src_mir c (i + 1) (s_src plasma_state a') (s_src plasma_state b') /\ K_ (parts_of (s_pl plasma_state a')) = K_ (parts_of (s_pl plasma_state a)).
  Proof.
    intros (W1 & W2 & W3) (S1 & S2 & S3 & S4) HK HC HF A B. unfold iter3, get_layer3 in A, B.
    assert (S5 : forall p, In p (s_src plasma_state b) -> b_xi p < - (IZR i * c_dxi c)).
    { intros p Hp. eapply Permutation_in in Hp; [|apply Permutation_sym, S3]. apply in_map_iff in Hp. destruct Hp as (q & <- & Hq). exact (S4 q Hq). }
    destruct (cut3 (c_dxi c) i _ Hd S1 S4) as [E1 E2]. destruct (cut3 (c_dxi c) i _ Hd S2 S5) as [E3 E4]. rewrite E1, E2 in A. rewrite E3, E4 in B. clear E1 E2 E3 E4.
    assert (FM : forall P, (forall p, P (mirror_b p) = P p) -> Permutation (map mirror_b (filter P (s_src plasma_state a))) (filter P (s_src plasma_state b))).
    { intros P HP. rewrite <- (filter_perm _ _ _ S3). assert (E : forall l, map mirror_b (filter P l) = filter P (map mirror_b l)); [|rewrite E; reflexivity].
      induction l as [|p l IH]; [reflexivity|]. cbn [filter map]. rewrite HP. destruct (P p); cbn [map]; now rewrite IH. }
    assert (FI := FM (in_layer3 (c_dxi c) i) (fun p => eq_refl)). assert (FT := FM (ltop (- (IZR (i + 1) * c_dxi c))) (fun p => eq_refl)). clear FM.
    destruct Hs as (H1 & H2 & H3 & H4 & H5 & H6 & H7 & H8 & H9).
    rewrite W1, <- (layout3_perm _ _ _ _ _ _ _ Hh FI), Hn, layout3_mir in B by auto. rewrite Hn in A.
    destruct (layout3 _ _ _ _ _ _) as [r r']. cbn [fst snd] in B.
    destruct (move_layer3 u _ _ _ _ _ _ _) as [[[x1 x2] x3]|] in A; cbn [option_map] in A; [|discriminate].
    destruct (move_layer3 u' _ _ _ _ _ _ _) as [[[y1 y2] y3]|] in B; cbn [option_map] in B; [|discriminate].
    injection A as <-. injection B as <-. cbn [s_prev s_rho s_pl s_src] in *. split; [|split].
    - unfold wake_mir. cbn [s_prev s_rho s_pl]. split; [reflexivity|]. split; [reflexivity|].
      unfold plasma_layer. rewrite (same_K _ _ _ W3). replace (K_ (parts_of (mirror_state (Plasma3D_Model.u_n s) (s_pl plasma_state a)))) with (K_ (parts_of (s_pl plasma_state a)))
        by (destruct (s_pl plasma_state a) as [[? ?] ?]; reflexivity).
      apply (step_mir s L pad); auto; now apply to_arr2_mir.
    - split; [now apply SS_filter|]. split; [now apply SS_filter|]. split; [exact FT|]. intros p Hp. apply filter_In in Hp. destruct Hp as [_ Hp]. unfold ltop in Hp. destruct (Rlt_dec _ _); [auto|discriminate].
    - unfold plasma_layer. apply Gpu_Run.cpu_K.
  Qed.
  Lemma run_mir u u' h h' : forall n i a b a' b', wake_mir s L a b -> src_mir c i (s_src plasma_state a) (s_src plasma_state b) ->
    (Plasma3D_Model.u_decl s = true -> (3 <= K_ (parts_of (s_pl plasma_state a)))%nat) ->
    gentle_run s L (fun j => Beam3D_Model.run3 plasma_state (layer s) seen_fields u h c j i a) n ->
    Beam3D_Model.run3 plasma_state (layer s) seen_fields u h c n i a = Some a' ->
    Beam3D_Model.run3 plasma_state (layer (mirror_solver s)) seen_fields u' h' c n i b = Some b' -> wake_mir s L a' b'.
  Proof.
    induction n as [|n IH]; intros i a b a' b' W SR HK G A B; cbn [Beam3D_Model.run3] in A, B; [congruence|].
    destruct (iter3 plasma_state (layer s) seen_fields u h c i a) as [a1|] eqn:A1; [|discriminate].
    destruct (iter3 plasma_state (layer (mirror_solver s)) seen_fields u' h' c i b) as [b1|] eqn:B1; [|discriminate].
    destruct (G 0%nat a a1 ltac:(lia) eq_refl) as [G1 G2]; [cbn [Beam3D_Model.run3]; now rewrite A1|].
    destruct (iter_mir u u' h h' i a b a1 b1 W SR HK G1 G2 A1 B1) as (W' & S' & K').
    apply (IH (i + 1)%Z a1 b1); auto; [now rewrite K'|]. intros j sj sj' Hj J1 J2. apply (G (S j)); [lia| |]; cbn [Beam3D_Model.run3]; now rewrite A1.
  Qed.
End Wake.

(** A whole time step: the wake of the mirrored beam in the mirrored plasma is the mirrored wake.  The
    particles of the mirrored beam may be listed in any order, and the two runs may be on different processors. *)
Theorem C65_wake_does_not_know_left_from_right : forall sort3 sort3' sigma s L pad u u' halvings halvings' c n i beam beam' rho prev pl pl' s1 s2,
  sort3_ok sort3 -> sort3_ok sort3' -> sound_solver s L pad -> c_n c = Z.of_nat (Plasma3D_Model.u_n s) -> 0 < c_h c -> 0 < c_dxi c ->
  (Plasma3D_Model.u_decl s = true -> (3 <= K_ (parts_of pl))%nat) ->
  (forall p, In p beam -> b_xi p < - (IZR i * c_dxi c)) -> Permutation (map mirror_b beam) beam' ->
  let N := Plasma3D_Model.u_n s in same_plasma (mirror_solver s) L pl' (mirror_state N pl) ->
  let run := fun s u hv start n => Beam3D_Model.run3 plasma_state (plasma_layer (fun K => gauss K sigma) s) seen_fields u hv c n i start in
  let start := start3d sort3 beam rho prev pl in
  gentle_run s L (run s u halvings start) n ->
  run s u halvings start n = Some s1 ->
  run (mirror_solver s) u' halvings' (start3d sort3' beam' (even_g N rho) (even_g N prev) pl') n = Some s2 ->
  same_plasma (mirror_solver s) L (s_pl plasma_state s2) (mirror_state N (s_pl plasma_state s1)) /\
  s_rho plasma_state s2 = even_g N (s_rho plasma_state s1) /\ s_prev plasma_state s2 = even_g N (s_prev plasma_state s1).
Proof.
  intros sort3 sort3' sigma s L pad u u' hv hv' c n i beam beam' rho prev pl pl' s1 s2 Hs Hs' Ho Hn Hh Hd HK Hb P N S run start G L1 L2. unfold run in *. clear run.
  assert (W : wake_mir s L s1 s2).
  { refine (run_mir sigma s L pad c Ho Hn Hh Hd u u' hv hv' n i start _ s1 s2 _ _ HK G L1 L2).
  - unfold wake_mir, start, start3d. cbn. auto.
  - unfold src_mir, start, start3d, new_source3. cbn [s_src]. split; [apply Hs|]. split; [apply Hs'|]. split.
    + rewrite (proj1 (Hs' beam')), <- P. apply Permutation_map, Hs.
    + intros p Hp. apply Hb. eapply Permutation_in; [apply Hs|exact Hp]. }
  destruct W as (W1 & W2 & W3). auto.
Qed.
Print Assumptions C65_wake_does_not_know_left_from_right.

(** So a beam that is its own mirror image, in a plasma that is its own mirror image, makes a wake that is its
    own mirror image; on the middle line Ex, By and Bz vanish, and no net current flows across it. *)
Theorem C65_symmetric_beam_makes_symmetric_wake : forall sort3 sigma s L pad u halvings c n i beam rho prev pl s1,
  sort3_ok sort3 -> sound_solver s L pad -> c_n c = Z.of_nat (Plasma3D_Model.u_n s) -> 0 < c_h c -> 0 < c_dxi c ->
  (Plasma3D_Model.u_decl s = true -> (3 <= K_ (parts_of pl))%nat) ->
  (forall p, In p beam -> b_xi p < - (IZR i * c_dxi c)) -> Permutation (map mirror_b beam) beam ->
  let N := Plasma3D_Model.u_n s in mirror_solver s = s -> even_g N rho = rho -> even_g N prev = prev -> same_plasma s L pl (mirror_state N pl) ->
  let run := fun n => Beam3D_Model.run3 plasma_state (plasma_layer (fun K => gauss K sigma) s) seen_fields u halvings c n i (start3d sort3 beam rho prev pl) in
  gentle_run s L run n -> run n = Some s1 ->
  let f := fields_in (s_pl plasma_state s1) in let jx := total3 Plasma3D_Model.c_jx (snd (s_pl plasma_state s1)) in
  forall j k, (j <= L)%nat -> (k <= L)%nat ->
    Plasma3D_Model.Ex f j k = - Plasma3D_Model.Ex f (L - j)%nat k /\ Plasma3D_Model.Ey f j k = Plasma3D_Model.Ey f (L - j)%nat k /\
    Plasma3D_Model.Ez f j k = Plasma3D_Model.Ez f (L - j)%nat k /\ Plasma3D_Model.Bx f j k = Plasma3D_Model.Bx f (L - j)%nat k /\
    Plasma3D_Model.By f j k = - Plasma3D_Model.By f (L - j)%nat k /\ Plasma3D_Model.Bz f j k = - Plasma3D_Model.Bz f (L - j)%nat k /\
    ((j + j)%nat = L -> Plasma3D_Model.Ex f j k = 0 /\ Plasma3D_Model.By f j k = 0 /\ Plasma3D_Model.Bz f j k = 0 /\ jx j k = 0).
Proof.
  intros sort3 sigma s L pad u hv c n i beam rho prev pl s1 Hs Ho Hn Hh Hd HK Hb P N Es Er Ep El run G L1 f jx j k Hj Hk.
  assert (HN : Plasma3D_Model.u_n s = (L + 1)%nat) by apply Ho.
  destruct (C65_wake_does_not_know_left_from_right sort3 sort3 sigma s L pad u u hv hv c n i beam beam rho prev pl pl s1 s1 Hs Hs Ho Hn Hh Hd HK Hb P) as (W & _); auto.
  - now rewrite Es.
  - rewrite Es. fold N. now rewrite Er, Ep.
  - rewrite Es in W. fold N in W. subst f jx. destruct (s_pl plasma_state s1) as [[ps f] cu]. cbn [fst snd]. destruct W as (_ & _ & F & C).
    assert (M : forall i, mir N i = (L - i)%nat) by (intros; unfold mir, N; lia).
    assert (F1 := F Plasma3D_Model.Ex ltac:(cbn; auto) j k Hj Hk). assert (F2 := F Plasma3D_Model.Ey ltac:(cbn; auto) j k Hj Hk).
    assert (F3 := F Plasma3D_Model.Ez ltac:(cbn; auto) j k Hj Hk). assert (F4 := F Plasma3D_Model.Bx ltac:(cbn; auto) j k Hj Hk).
    assert (F5 := F Plasma3D_Model.By ltac:(cbn; auto 10) j k Hj Hk). assert (F6 := F Plasma3D_Model.Bz ltac:(cbn; auto 10) j k Hj Hk).
    assert (C2 := C Plasma3D_Model.c_jx ltac:(cbn; auto) j k Hj Hk). rewrite (tot_jx N cu j k) in C2 by (unfold N; lia).
    cbn [mirror_fields Plasma3D_Model.Ex Plasma3D_Model.Ey Plasma3D_Model.Ez Plasma3D_Model.Bx Plasma3D_Model.By Plasma3D_Model.Bz] in *. unfold even_x, odd_x in *. rewrite M in *.
    repeat (split; [assumption|]). intros E. replace (L - j)%nat with j in * by lia. lra.
Qed.
Print Assumptions C65_symmetric_beam_makes_symmetric_wake.

(** Without the condition on the flights it is false: of two particles flying equally far, one to the right and
    one to the left, farther than a window width beyond the wall, the first is reflected twice and kept, the
    second is reflected once and lost. *)
Definition far_solver : Plasma3D_Model.solver3 := Plasma3D_Model.mkS3 21 0.2 1 (Plasma3D_Model.wall 21 0.2 5) 0.1 Plasma3D_Model.Mobile3 false 0.2 1 0.5.
Definition far_pt : Plasma3D_Model.pt3 := Plasma3D_Model.mkT 0 0 0 0 4 0 8 (-1) 1 0 0.
Definition far_parts : Plasma3D_Model.parts3 := Plasma3D_Model.mkP3 1 (fun _ _ => far_pt) (fun _ _ => anti far_pt).
Definition far_state : plasma_state := (far_parts, Plasma3D_Model.zero_fields3, Plasma3D_Model.zero_cur3).
Lemma far_wall : Plasma3D_Model.u_b far_solver = 1.1.
Proof. unfold far_solver, Plasma3D_Model.wall. cbn [Plasma3D_Model.u_b]. replace (INR 21) with 21 by (cbn; lra). lra. Qed.
Lemma far_sound : sound_solver far_solver 20 5.
Proof. unfold sound_solver. rewrite far_wall. cbn [far_solver Plasma3D_Model.u_n Plasma3D_Model.u_h Plasma3D_Model.u_coeff Plasma3D_Model.u_limit].
  repeat split; try lia; try lra. unfold Plasma3D_Model.wall. replace (INR 21) with 21 by (cbn; lra). lra. Qed.
Lemma far_speed c : c = 4 \/ c = -4 -> rate_x 1 (c, 0, 8) = c /\ rate_y 1 (c, 0, 8) = 0.
Proof.
  intros H. unfold rate_x, rate_y, speed. replace (1 ^ 2 + c ^ 2 + 0 ^ 2 + 8 ^ 2) with (9 * 9) by (destruct H as [-> | ->]; ring). rewrite sqrt_square by lra. unfold scale3, third. cbn [fst snd]. split; field.
Qed.
Lemma far_calm : calm far_solver far_parts.
Proof.
  destruct (far_speed 4 (or_introl eq_refl)) as [V W]. split; intros i j Hi Hj; cbn [Plasma3D_Model.el Plasma3D_Model.io far_parts]; (split; [cbn; lra|]); intros _;
  unfold within, at_x, at_y, mom; rewrite far_wall; cbn; rewrite V, W, Rmult_0_r, Rmult_1_l, !Rplus_0_r, Rabs_R0, (Rabs_pos_eq 4) by lra; lra.
Qed.
(** one push without fields *)
Lemma far_push f c g new : no_fields_on 20 f -> c = 4 \/ c = -4 -> Plasma3D_Model.t_q g <> 0 -> Plasma3D_Model.t_m g = 1 ->
  Layer3D_Spec.pushed 21 0.2 1.1 1 f (Plasma3D_Model.mkT 0 0 0 0 c 0 8 (-1) 1 0 0) g new ->
  (c = 4 -> Plasma3D_Model.t_q new = Plasma3D_Model.t_q g) /\ (c = -4 -> Plasma3D_Model.t_q new = 0).
Proof.
  intros Z Hc Q M (_ & _ & _ & _ & P). specialize (P Q). cbv zeta in P. rewrite (field_zero 20) in P by auto. destruct P as (p0 & _ & _ & P).
  rewrite !rate_zero, !scale_zero, !add_zero, M in P. unfold mom, at_x, at_y in P. cbn [Plasma3D_Model.t_px Plasma3D_Model.t_py Plasma3D_Model.t_pz Plasma3D_Model.t_x0 Plasma3D_Model.t_dx Plasma3D_Model.t_y0 Plasma3D_Model.t_dy] in P.
  destruct (far_speed c Hc) as [V W]. rewrite V, W, Rmult_0_r, Rmult_1_l, !Rplus_0_l in P.
  assert (M0 : mirror 1.1 0 = 0) by (apply mirror_inside; [lra|rewrite Rabs_R0; lra]). rewrite M0 in P.
  destruct Hc as [-> | ->]; (split; intros E; try lra).
  - apply P. unfold mirror, Rmin, Rmax. repeat destruct (Rle_dec _ _); try lra; rewrite Rabs_R0, Rabs_left by lra; lra.
  - apply P. intros [A _]. revert A. unfold mirror, Rmin, Rmax. repeat destruct (Rle_dec _ _); try lra; rewrite Rabs_pos_eq by lra; lra.
Qed.
Theorem C65_far_flights_know_left_from_right_refuted :
  ~ (forall sigma s L pad rho rho_prev st, sound_solver s L pad -> let n := Plasma3D_Model.u_n s in let K := K_ (parts_of st) in
       (Plasma3D_Model.u_decl s = true -> (3 <= K)%nat) -> calm s (parts_of st) ->
       same_plasma (mirror_solver s) L (Plasma3D_Model.step_dxi3 (gauss K sigma) (mirror_solver s) (even_x n rho) (even_x n rho_prev) (mirror_state n st))
         (mirror_state n (Plasma3D_Model.step_dxi3 (gauss K sigma) s rho rho_prev st))).
Proof.
  intros H. specialize (H 1 far_solver 20%nat 5%Z Plasma3D_Model.zeros2 Plasma3D_Model.zeros2 far_state far_sound ltac:(discriminate) far_calm). cbn zeta in H.
  assert (G : forall c s pp cp fp, Plasma3D_Model.u_n s = 21%nat -> Plasma3D_Model.u_h s = 0.2 -> Plasma3D_Model.u_xi s = 1 -> Plasma3D_Model.u_b s = 1.1 -> Plasma3D_Model.u_coeff s = 0.1 ->
    Plasma3D_Model.u_ions s = Plasma3D_Model.Mobile3 -> Plasma3D_Model.u_decl s = false -> c = 4 \/ c = -4 ->
    K_ pp = 1%nat -> el pp 0%nat 0%nat = Plasma3D_Model.mkT 0 0 0 0 c 0 8 (-1) 1 0 0 -> paired pp -> no_totals 20 cp -> no_fields_on 20 fp ->
    forall average rb rbp st', zero_on 20 rb -> zero_on 20 rbp -> layer3 average s 20 rb rbp (pp, fp, cp) st' ->
    (c = 4 -> Plasma3D_Model.t_q (el (parts_of st') 0%nat 0%nat) = -1) /\ (c = -4 -> Plasma3D_Model.t_q (el (parts_of st') 0%nat 0%nat) = 0)).
  { intros c s pp cp fp Hn Hh HX Hb Hco Hi Hd Hc HK He P T Z average rb rbp [[p4 ff] c4] R R' LL.
    destruct LL as (p0 & p1 & p2 & p3 & c1 & c2 & full1 & half1 & half2 & A0 & A1 & A2 & A3 & A4 & A5 & A6 & A7 & A8 & A9 & A10). rewrite Hd in A9. subst p4. cbn [fst].
    assert (HN : Plasma3D_Model.u_n s = (20 + 1)%nat) by (rewrite Hn; reflexivity). assert (Hh' : Plasma3D_Model.u_h s <> 0) by lra. assert (Hc' : 0 <= Plasma3D_Model.u_coeff s) by lra.
    assert (P0 := pair_coast s Hi _ _ P A0). assert (P1 := pair_push s 20 HN Hi _ _ _ _ (proj1 A0) Z P P0 A1).
    assert (T1 := pair_carry s 20 HN ltac:(lia) Hi _ _ P1 A2). destruct (solved_zero s 20 HN ltac:(lia) Hh' Hc' _ _ _ _ _ _ _ _ _ Z Z R R' T T1 A3) as [_ Z1].
    assert (P2 := pair_push s 20 HN Hi _ _ _ _ (proj1 A1) Z1 P P1 A4). assert (T2 := pair_carry s 20 HN ltac:(lia) Hi _ _ P2 A5).
    destruct (solved_zero s 20 HN ltac:(lia) Hh' Hc' _ _ _ _ _ _ _ _ _ Z1 Z R R' T T2 A6) as [_ Z2].
    destruct A0 as (_ & B0 & _). destruct A1 as (_ & B1 & _). destruct A4 as (_ & B2 & _). destruct A7 as (_ & B3 & _). rewrite HK in *.
    assert (L0 : (0 < 1)%nat) by lia. specialize (B0 0%nat 0%nat L0 L0). specialize (B1 0%nat 0%nat L0 L0). specialize (B2 0%nat 0%nat L0 L0). specialize (B3 0%nat 0%nat L0 L0).
    cbv beta in B0, B1, B2, B3. rewrite Hn, Hh, HX, Hb, He in *.
    destruct B0 as (_ & _ & _ & (_ & _ & M0) & Q0 & _). cbn [Plasma3D_Model.t_m Plasma3D_Model.t_q] in M0, Q0.
    assert (M1 : Plasma3D_Model.t_m (el p1 0%nat 0%nat) = 1) by (rewrite <- M0; apply B1). assert (M2 : Plasma3D_Model.t_m (el p2 0%nat 0%nat) = 1) by (rewrite <- M1; apply B2).
    assert (D0 : Plasma3D_Model.t_q (el p0 0%nat 0%nat) <> 0) by (rewrite Q0; lra).
    destruct (far_push fp c _ _ Z Hc D0 M0 B1) as [E1 N1]. split; intros E.
    - specialize (E1 E). assert (D1 : Plasma3D_Model.t_q (el p1 0%nat 0%nat) <> 0) by (rewrite E1, Q0; lra).
      destruct (far_push half1 c _ _ Z1 Hc D1 M1 B2) as [E2 _]. specialize (E2 E). assert (D2 : Plasma3D_Model.t_q (el p2 0%nat 0%nat) <> 0) by (rewrite E2, E1, Q0; lra).
      destruct (far_push half2 c _ _ Z2 Hc D2 M2 B3) as [E3 _]. specialize (E3 E). rewrite E3, E2, E1. exact Q0.
    - specialize (N1 E). destruct B2 as (_ & _ & _ & B2 & _). specialize (B2 N1). destruct B3 as (_ & _ & _ & B3 & _). rewrite B2 in B3. rewrite (B3 N1). exact N1. }
  destruct far_sound as (H1 & H2 & H3 & H4 & H5 & H6 & H7 & H8 & H9).
  assert (A := layer_ok far_solver 20 5 H1 H2 H3 H4 H5 H6 H7 H8 H9 (gauss 1 1) Plasma3D_Model.zeros2 Plasma3D_Model.zeros2 far_state (gauss_local 1 1) ltac:(discriminate) far_calm).
  assert (B := layer_ok (mirror_solver far_solver) 20 5 H1 H2 H3 H4 H5 H6 H7 H8 H9 (gauss 1 1) (even_x 21 Plasma3D_Model.zeros2) (even_x 21 Plasma3D_Model.zeros2) (mirror_state 21 far_state)
    (gauss_local 1 1) ltac:(discriminate) (calm_mir far_solver far_parts far_calm)).
  assert (ZT : no_totals 20 Plasma3D_Model.zero_cur3 /\ no_totals 20 (mirror_cur 21 Plasma3D_Model.zero_cur3)).
  { repeat split; intros i j Hi Hj; unfold total3; cbn; unfold even_g, odd_g, zero_grid; lra. }
  apply (G 4 far_solver far_parts) in A; try (reflexivity || apply far_wall || (now left) || (intros i j Hi Hj; reflexivity) || apply ZT || apply fields_eq_refl).
  apply (G (-4) (mirror_solver far_solver) (mirror_parts far_parts)) in B; try (reflexivity || apply far_wall || (now right) || (intros i j Hi Hj; reflexivity) || apply ZT).
  2:{ cbn. unfold mirror_pt, far_pt. cbn. now rewrite Ropp_0. }
  2:{ repeat split; intros i j Hi Hj; cbn; unfold even_x, odd_x, Plasma3D_Model.zeros2; ring. }
  destruct A as [A _]. specialize (A eq_refl). destruct B as [_ B]. specialize (B eq_refl).
  assert (KK := Gpu_Run.cpu_K far_solver (gauss 1 1) Plasma3D_Model.zeros2 Plasma3D_Model.zeros2 far_state).
  assert (KK' := Gpu_Run.cpu_K (mirror_solver far_solver) (gauss 1 1) (even_x 21 Plasma3D_Model.zeros2) (even_x 21 Plasma3D_Model.zeros2) (mirror_state 21 far_state)).
  change (K_ (parts_of far_state)) with 1%nat in *. change (K_ (parts_of (mirror_state 21 far_state))) with 1%nat in *. change (Plasma3D_Model.u_n far_solver) with 21%nat in H.
  destruct (Plasma3D_Model.step_dxi3 (gauss 1 1) far_solver _ _ _) as [[p f] c]. destruct (Plasma3D_Model.step_dxi3 (gauss 1 1) (mirror_solver far_solver) _ _ _) as [[p' f'] c'].
  cbn [fst mirror_state] in *. destruct H as (_ & [H _] & _). rewrite KK' in H. specialize (H 0%nat 0%nat ltac:(lia) ltac:(lia)). cbv beta in H.
  apply (f_equal Plasma3D_Model.t_q) in H. cbn in H. rewrite KK in H. cbn in H. lra.
Qed.
Print Assumptions C65_far_flights_know_left_from_right_refuted.

(** The hypotheses are met.  One layer: 3 x 3 electrons and 3 x 3 positrons, moving, the noise filter on. *)
Definition go_solver : Plasma3D_Model.solver3 := Plasma3D_Model.mkS3 21 1 (1 / 100) (Plasma3D_Model.wall 21 1 5) 0.1 Plasma3D_Model.Mobile3 true 0.2 1 0.5.
Definition go_parts : Plasma3D_Model.parts3 :=
  let e := fun i j => Plasma3D_Model.mkT (INR i) (INR j) 0.25 0.5 0.5 0 0.1 (-1) 1 0 0 in Plasma3D_Model.mkP3 3 e (fun i j => anti (e i j)).
Definition go_state : plasma_state := (go_parts, Plasma3D_Model.zero_fields3, Plasma3D_Model.zero_cur3).
Lemma go_wall : Plasma3D_Model.u_b go_solver = 5.5.
Proof. unfold go_solver, Plasma3D_Model.wall. cbn [Plasma3D_Model.u_b]. replace (INR 21) with 21 by (cbn; lra). lra. Qed.
Lemma go_sound : sound_solver go_solver 20 5.
Proof. unfold sound_solver. rewrite go_wall. cbn [go_solver Plasma3D_Model.u_n Plasma3D_Model.u_h Plasma3D_Model.u_coeff Plasma3D_Model.u_limit].
  repeat split; try lia; try lra. unfold Plasma3D_Model.wall. replace (INR 21) with 21 by (cbn; lra). lra. Qed.
Lemma go_speed : 0 <= rate_x 1 (0.5, 0, 0.1) <= 1 /\ rate_y 1 (0.5, 0, 0.1) = 0.
Proof.
  unfold rate_x, rate_y, speed, third, scale3. cbn [fst snd]. set (g := sqrt _). assert (G : 1 <= g) by (unfold g; rewrite <- sqrt_1 at 1; apply sqrt_le_1_alt; lra).
  assert (I0 : 0 < / g <= 1). { split; [apply Rinv_0_lt_compat; lra|]. rewrite <- Rinv_1. apply Rinv_le_contravar; lra. }
  split; [|unfold Rdiv; ring]. assert (D : 1 / 2 <= 1 - / g * 0.1) by lra. assert (J : 0 < / (1 - / g * 0.1) <= / (1 / 2)) by (split; [apply Rinv_0_lt_compat; lra|apply Rinv_le_contravar; lra]).
  unfold Rdiv. replace (/ (1 / 2)) with 2 in J by field. nra.
Qed.
Lemma zero_totals : no_totals 20 Plasma3D_Model.zero_cur3.
Proof. repeat split; intros i j Hi Hj; unfold total3; cbn; unfold zero_grid; lra. Qed.
Example C65_nonvacuous_layer : sound_solver go_solver 20 5 /\ calm go_solver (parts_of go_state) /\
  short_flights go_solver 20 Plasma3D_Model.zeros2 Plasma3D_Model.zeros2 go_state /\
  el (parts_of (mirror_state 21 go_state)) 0%nat 1%nat = Plasma3D_Model.mkT (-2) 1 (-0.25) 0.5 (-0.5) 0 0.1 (-1) 1 (-0) 0.
Proof.
  destruct go_speed as [V W].
  assert (B : forall i, (i < 3)%nat -> 0 <= INR i <= 2) by (intros i Hi; split; [apply pos_INR|replace 2 with (INR 2) by (cbn; lra); apply le_INR; lia]).
  split; [exact go_sound|]. split; [|split].
  - split; intros i j Hi Hj; cbn [Plasma3D_Model.K_ go_parts go_state fst] in Hi, Hj; specialize (B i Hi) as Bi; specialize (B j Hj) as Bj;
      (split; [cbn; lra|]); intros _; unfold within, at_x, at_y, mom; rewrite go_wall; cbn; rewrite W; repeat split;
      (apply Rabs_def1 || apply Rabs_le); lra.
  - apply pair_short; try (reflexivity || lia || apply fields_eq_refl || exact zero_totals || (intros i j Hi Hj; reflexivity)).
    + cbn; lra.
    + cbn; lra.
    + intros i j Hi Hj. cbn [Plasma3D_Model.K_ go_parts] in Hi, Hj. specialize (B i Hi). cbv zeta. rewrite go_wall. unfold at_x, mom. cbn. apply Rabs_le. lra.
  - cbn. unfold mirror_pt. cbn. f_equal; lra.
Qed.

(** A run: the electron-positron plasma as it is initialised, and a beam of two pairs of particles, mirror images
    of each other. *)
Definition mid_solver : Plasma3D_Model.solver3 := Plasma3D_Model.mkS3 21 1 1 (Plasma3D_Model.wall 21 1 5) 0.1 Plasma3D_Model.Mobile3 true 0.2 1 0.5.
Definition mid_plasma : plasma_state := fst (Plasma3D_Model.init_plasma3 21 1 5 1 (fun _ _ => 1) true 1).
Definition mid_beam : list part3 :=
  [mk3 (-0.5) 1 2 0.1 0 1 1 1 1 0 0; mk3 (-0.5) 1 2 0.1 0 1 (-1) (-1) 2 0 0; mk3 (-0.5) (-1) 2 (-0.1) 0 1 1 1 1 0 0; mk3 (-0.5) (-1) 2 (-0.1) 0 1 (-1) (-1) 2 0 0].
Lemma mid_wall : Plasma3D_Model.u_b mid_solver = 5.5.
Proof. unfold mid_solver, Plasma3D_Model.wall. cbn [Plasma3D_Model.u_b]. replace (INR 21) with 21 by (cbn; lra). lra. Qed.
Lemma mid_sound : sound_solver mid_solver 20 5.
Proof. unfold sound_solver. rewrite mid_wall. cbn [mid_solver Plasma3D_Model.u_n Plasma3D_Model.u_h Plasma3D_Model.u_coeff Plasma3D_Model.u_limit].
  repeat split; try lia; try lra. unfold Plasma3D_Model.wall. replace (INR 21) with 21 by (cbn; lra). lra. Qed.
Lemma mid_at k : (k < 9)%nat -> Rabs (Plasma3D_Model.plasma_grid 11 1 1 k) < 5.
Proof. intros Hk. replace 5 with (1 * INR (Z.to_nat (11 / 2))) by (change (Z.to_nat (11 / 2)) with 5%nat; cbn; lra). apply Plasma3D_Quiet.grid_within; [lra|lia|]. exact Hk. Qed.
Lemma at_rest m : rate_x m (0, 0, 0) = 0 /\ rate_y m (0, 0, 0) = 0.
Proof. unfold rate_x, rate_y, speed, scale3. cbn [fst snd]. rewrite !Rmult_0_r. unfold Rdiv. split; ring. Qed.
Lemma neutral_prev Pl (layer : Pl -> grid -> grid -> Pl) seen h src pl s' : Permutation src mid_beam ->
  Beam3D_Model.run3 Pl layer seen GPU h w_cfg 1 0 (mkS3 Pl src [] 0 [] [] zero_grid zero_grid pl) = Some s' -> forall a b, s_prev Pl s' a b = 0.
Proof.
  intros P J a b. cbn [Beam3D_Model.run3] in J. unfold iter3, get_layer3 in J. cbn [s_src s_rho s_pl s_prev s_move s_fell s_lost s_drain] in J.
  assert (IN : forall p, In p src -> b_xi p = -0.5).
  { intros p Hp. assert (I : In p mid_beam) by (eapply Permutation_in; [exact P|exact Hp]). destruct I as [<-|[<-|[<-|[<-|[]]]]]; reflexivity. }
  assert (F : filter (in_layer3 (c_dxi w_cfg) 0) src = src).
  { apply filter_idem. intros p Hp. unfold in_layer3. rewrite (IN p Hp). cbn [w_cfg c_dxi]. change (0 + 1)%Z with 1%Z. destruct (Rle_dec _ _); [|lra]. destruct (Rlt_dec _ _); [reflexivity|lra]. }
  rewrite F, firstn_all, skipn_all in J.
  destruct (layout3 _ _ _ _ _ _) as [r r'] eqn:LA. destruct (move_layer3 _ _ _ _ _ _ _ _) as [[[x1 x2] x3]|]; cbn [option_map] in J; [|discriminate]. injection J as <-. cbn [s_prev].
  destruct (layout3_val _ _ _ _ _ _ _ _ (ltac:(cbn; lra) : 0 < c_h w_cfg) LA a b) as [V _]. rewrite V, (sumR_perm _ _ mid_beam) by exact P.
  unfold mid_beam. cbn [map sumR fold_right b_q b_x b_y]. unfold dist_from_top. cbn [b_xi]. unfold zero_grid, Rdiv. ring.
Qed.
Example C65_nonvacuous_run : sound_solver mid_solver 20 5 /\ c_n w_cfg = Z.of_nat (Plasma3D_Model.u_n mid_solver) /\
  Permutation (map mirror_b mid_beam) mid_beam /\ mirror_solver mid_solver = mid_solver /\ even_g 21 zero_grid = zero_grid /\
  same_plasma mid_solver 20 mid_plasma (mirror_state 21 mid_plasma) /\ (3 <= K_ (parts_of mid_plasma))%nat /\
  exists h s1, let run := fun n => Beam3D_Model.run3 plasma_state (plasma_layer (fun K => gauss K 3) mid_solver) seen_fields GPU h w_cfg n 0 (start3d isort3 mid_beam zero_grid zero_grid mid_plasma) in
    gentle_run mid_solver 20 run 1 /\ run 1%nat = Some s1.
Proof.
  split; [exact mid_sound|]. split; [reflexivity|]. split.
  { assert (E : map mirror_b mid_beam = skipn 2 mid_beam ++ firstn 2 mid_beam).
    { unfold mid_beam. cbn [map skipn firstn app]. unfold mirror_b. cbn [b_xi b_x b_y b_px b_py b_pz b_qm b_q b_id b_dt b_rem]. repeat f_equal; lra. }
    rewrite E, Permutation_app_comm, firstn_skipn. reflexivity. }
  split; [reflexivity|]. split; [reflexivity|]. split.
  { apply (C65_initial_plasma_does_not_know_left_from_right 21 20 1 5 1 (fun _ _ => 1) true 1); try reflexivity; try lia; lra. }
  split; [cbn; lia|].
  destruct (run3_total plasma_state (plasma_layer (fun K => gauss K 3) mid_solver) seen_fields GPU w_cfg (isort3 mid_beam)) as (h0 & H); [cbn; lra| |].
  { intros p Hp. assert (I : In p mid_beam) by (eapply Permutation_in; [apply isort3_ok|exact Hp]). destruct I as [<-|[<-|[<-|[<-|[]]]]]; cbn; lra. }
  exists h0. destruct (H h0 (le_n _) 1%nat 0%Z (start3d isort3 mid_beam zero_grid zero_grid mid_plasma)) as (s1 & E); [apply sane_start|]. exists s1. cbv zeta. split; [|exact E].
  intros j sj sj' Hj J0 J1. assert (j = 0%nat) by lia. subst j. cbn [Beam3D_Model.run3] in J0. injection J0 as <-. clear E s1 H.
  assert (REST : forall i j, (i < 9)%nat -> (j < 9)%nat -> within 5.5 (el (parts_of mid_plasma) i j)).
  { intros i k Hi Hk. unfold within, at_x, at_y. cbn [mid_plasma Plasma3D_Model.init_plasma3 fst Plasma3D_Model.el Plasma3D_Model.init_electrons3 Plasma3D_Model.t_x0 Plasma3D_Model.t_dx Plasma3D_Model.t_y0 Plasma3D_Model.t_dy].
    rewrite !Rplus_0_r. change (Z.of_nat 21 - 2 * 5)%Z with 11%Z. assert (A := mid_at i Hi). assert (B := mid_at k Hk). lra. }
  assert (MASS : forall i j, Plasma3D_Model.t_m (el (parts_of mid_plasma) i j) = 1 /\ mom (el (parts_of mid_plasma) i j) = (0, 0, 0)).
  { intros i k. unfold mom. cbn [mid_plasma Plasma3D_Model.init_plasma3 fst Plasma3D_Model.el Plasma3D_Model.init_electrons3 Plasma3D_Model.t_m Plasma3D_Model.t_px Plasma3D_Model.t_py Plasma3D_Model.t_pz]. split; [cbn [INR]; field|reflexivity]. }
  assert (PAIR : forall i j, io (parts_of mid_plasma) i j = anti (el (parts_of mid_plasma) i j)).
  { intros i k. unfold anti. cbn. f_equal; ring. }
  cbn [s_pl start3d]. split.
  - change (calm mid_solver (parts_of mid_plasma)). destruct (at_rest 1) as [V W]. unfold calm. rewrite mid_wall. split; intros i k Hi Hk; [|rewrite PAIR]; cbv zeta.
    + destruct (MASS i k) as [M P]. rewrite M, P. split; [lra|]. intros _. split; [apply (REST i k Hi Hk)|]. rewrite V, W, Rmult_0_r, Rabs_R0. lra.
    + destruct (MASS i k) as [M P]. rewrite mom_anti. change (Plasma3D_Model.t_m (anti ?p)) with (Plasma3D_Model.t_m p). rewrite M, P. split; [lra|]. intros _. split; [apply (REST i k Hi Hk)|]. rewrite V, W, Rmult_0_r, Rabs_R0. lra.
  - assert (Z := neutral_prev plasma_state (plasma_layer (fun K => gauss K 3) mid_solver) seen_fields h0 (isort3 mid_beam) mid_plasma sj' (proj1 (isort3_ok mid_beam)) J1).
    assert (S := pair_short mid_solver 20 eq_refl ltac:(lia) ltac:(cbn; lra) ltac:(cbn; lra) eq_refl (Plasma3D_Model.to_arr2 (s_prev plasma_state sj')) (Plasma3D_Model.to_arr2 zero_grid)
      (parts_of mid_plasma) (fields_in mid_plasma) (snd mid_plasma)).
    apply S.
    + intros i k Hi Hk. apply PAIR.
    + apply fields_eq_refl.
    + exact zero_totals.
    + intros i k Hi Hk. apply Z.
    + intros i k Hi Hk. reflexivity.
    + intros i k Hi Hk. cbv zeta. destruct (MASS i k) as [M P]. rewrite M, P, (proj1 (at_rest 1)), Rmult_0_r, Rplus_0_r, mid_wall. destruct (REST i k Hi Hk) as [A _]. lra.
Qed.
