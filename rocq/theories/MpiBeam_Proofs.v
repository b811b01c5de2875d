(** Lemmas for C08 with the real layer kernels. *)
From Coq Require Import Reals ZArith List Bool Lia Lra Permutation Sorting.Sorted FunctionalExtensionality.
From Verif Require Import Beam2D_Free Beam2D_Model Beam2D_Spec Beam2D_Proofs Beam2D_Dep Shape_Model Shape_Spec Beam3D_Model Beam3D_Spec Beam3D_Proofs Causal_Proofs.
From Verif Require Import Mpi_Model Mpi_Spec MpiBeam_Model.
Import ListNotations.
Open Scope R_scope.

(** ** Generic: a kernel that respects a relation of states *)
Section Gen.
  Variable A X : Type.
  Variable kern : option X -> nat -> list A -> option X * list A.
  Variable rel : option X -> option X -> Prop.
  Hypothesis rel_none : forall s, rel s None <-> s = None.
  Hypothesis rel_none' : forall s, rel None s <-> s = None.
  Hypothesis kern_ok : forall s s' i b b', rel s s' -> Permutation b b' ->
    rel (fst (kern s i b)) (fst (kern s' i b')) /\ Permutation (snd (kern s i b)) (snd (kern s' i b')).
  Lemma kernel_order : forall x y, same_layers x y -> forall s s' i, rel s s' ->
    same_layers (run_kernel A (option X) kern s i x) (run_kernel A (option X) kern s' i y) /\
    (kernel_end A X kern s i x = None <-> kernel_end A X kern s' i y = None).
  Proof.
    induction 1 as [|a b x y P H IH]; intros s s' i Hr; cbn [run_kernel kernel_end].
    - split; [constructor|]. split; intros ->; [apply rel_none'|apply rel_none]; auto.
    - destruct (kern_ok s s' i a b Hr P) as [K1 K2]. destruct (kern s i a) as [t o], (kern s' i b) as [t' o']. cbn [fst snd] in *.
      destruct (IH t t' (i + 1)%nat K1) as [I1 I2]. split; auto. now constructor.
  Qed.
End Gen.

Lemma map_opt_perm {X Y} (f : X -> option Y) l l' : Permutation l l' ->
  match map_opt f l, map_opt f l' with Some a, Some b => Permutation a b | None, None => True | _, _ => False end.
Proof.
  induction 1 as [|x l l' P IH|x y l|l1 l2 l3 P1 IH1 P2 IH2]; cbn [map_opt]; auto.
  - destruct (f x); cbn [bind]; auto. destruct (map_opt f l), (map_opt f l'); cbn [option_map]; auto.
  - destruct (f x), (f y); cbn [bind]; destruct (map_opt f l); cbn [option_map bind]; auto. apply perm_swap.
  - destruct (map_opt f l1), (map_opt f l2), (map_opt f l3); try tauto. eapply Permutation_trans; eauto.
Qed.

(** ** 2D *)
Lemma deposit_on_grid h d xe : 0 < h -> forall l out0 out1 o, deposit l out0 out1 xe h d = Some o ->
  forall b, In b l -> on_grid h (length out0) b.
Proof.
  intros Hh. induction l as [|b l IH]; intros out0 out1 o H p Hp; [destruct Hp|]. cbn [deposit] in H.
  unfold particle_weights in H. cbv zeta in H. set (j := floorR (rad (pt b) / h)) in *.
  destruct (add_at out0 j _) as [x0|] eqn:E0; cbn [bind] in H; [|discriminate].
  destruct (add_at x0 (j + 1) _) as [x0'|] eqn:E0'; cbn [bind] in H; [|discriminate].
  destruct (add_at out1 j _) as [x1|] eqn:E1; cbn [bind] in H; [|discriminate].
  destruct (add_at x1 (j + 1) _) as [x1'|] eqn:E1'; cbn [bind] in H; [|discriminate].
  apply add_at_spec in E0, E0'. destruct E0 as (L0 & R0 & _), E0' as (L0' & R0' & _).
  destruct Hp as [<-|Hp].
  - destruct (floorR_spec (rad (pt b) / h)) as [F1 F2]. fold j in F1, F2.
    assert (J0 : 0 <= IZR j) by (apply IZR_le; lia).
    assert (J1 : IZR j + 1 <= INR (length out0 - 1)).
    { rewrite INR_IZR_INZ, <- plus_IZR. apply IZR_le. rewrite L0 in R0'. lia. }
    assert (Q : rad (pt b) = rad (pt b) / h * h) by (field; lra).
    split; nra.
  - rewrite <- L0, <- L0'. eapply IH; eauto.
Qed.

Lemma layout_order h d rho l l' i : 0 < h -> 0 < d -> Permutation l l' ->
  layout_beam_layer h d rho l i = layout_beam_layer h d rho l' i.
Proof.
  intros Hh Hd P.
  assert (G : forall l o, layout_beam_layer h d rho l i = Some o -> forall b, In b l -> on_grid h (length rho) b).
  { intros x o H. unfold layout_beam_layer in H. destruct (deposit _ _ _ _ _ _) eqn:E; cbn [bind] in H; [|discriminate].
    intros b Hb. eapply deposit_on_grid; eauto. }
  assert (K : forall l l' o, Permutation l l' -> layout_beam_layer h d rho l i = Some o -> layout_beam_layer h d rho l' i = Some o).
  { intros x y o Q H. specialize (G x o H).
    destruct (layout_some h d rho y i Hh) as (r & n & E).
    { intros b Hb. apply G. eapply Permutation_in; [apply Permutation_sym; eauto|auto]. }
    rewrite E. f_equal. symmetry. refine (layout_perm _ _ _ _ _ _ _ _ Hh Hd Q _ H E). intros b Hb. now destruct (G b Hb). }
  destruct (layout_beam_layer h d rho l i) as [o|] eqn:E.
  - symmetry. eapply K; eauto.
  - destruct (layout_beam_layer h d rho l' i) as [o|] eqn:E'; auto.
    rewrite (K l' l o (Permutation_sym P) E') in E. discriminate.
Qed.

Lemma move_order sort_bool h c l l' i f1 f2 : sort_bool_ok sort_bool -> Permutation l l' ->
  match move_beam_layer sort_bool h c l i f1 f2, move_beam_layer sort_bool h c l' i f1 f2 with
  | Some (a, b, d), Some (a', b', d') => Permutation a a' /\ Permutation b b' /\ Permutation d d'
  | None, None => True
  | _, _ => False
  end.
Proof.
  intros Hs P. unfold move_beam_layer. pose proof (map_opt_perm (prepare h c) _ _ P) as Q.
  destruct (map_opt (prepare h c) l) as [x|], (map_opt (prepare h c) l') as [y|]; cbn [option_map]; auto.
  assert (Q' : Permutation (map (push_particle c f2 f1 (IZR i * - xi_step c)) x) (map (push_particle c f2 f1 (IZR i * - xi_step c)) y)) by now apply Permutation_map.
  destruct (split_beam_slice sort_bool (map _ x) _) as [[a b] d] eqn:E. destruct (split_beam_slice sort_bool (map _ y) _) as [[a' b'] d'] eqn:E'.
  destruct (split_spec _ _ _ _ _ _ Hs E) as (A & B & D). destruct (split_spec _ _ _ _ _ _ Hs E') as (A' & B' & D').
  assert (T : forall X (f : X -> bool) (p q x y : list X), Permutation p (filter f x) -> Permutation q (filter f y) -> Permutation x y -> Permutation p q).
  { intros X f p q u v H1 H2 H3. eapply Permutation_trans; [exact H1|]. apply Permutation_sym. eapply Permutation_trans; [exact H2|].
    apply filter_perm. now apply Permutation_sym. }
  split; [|split]; eauto.
Qed.

Section K2.
  Variable sort_xi : list part -> list part.
  Variable sort_bool : (bpart -> bool) -> list bpart -> list bpart.
  Variable Pl : Type.
  Variable plasma : Pl -> list R -> list R -> Pl.
  Variable pl_fields : Pl -> fields.
  Variable h : nat.
  Variable c : pcfg.
  Notation kern := (kern2 sort_bool Pl plasma pl_fields h c).

  Definition rel2 (s s' : sig2 Pl) : Prop :=
    match s, s' with
    | Some (mv, r, p, x), Some (mv', r', p', x') => Permutation mv mv' /\ r = r' /\ p = p' /\ x = x'
    | None, None => True
    | _, _ => False
    end.
  Lemma kern2_ok : sort_bool_ok sort_bool -> 0 < r_step c -> 0 < xi_step c -> forall s s' i b b', rel2 s s' -> Permutation b b' ->
    rel2 (fst (kern s i b)) (fst (kern s' i b')) /\ Permutation (snd (kern s i b)) (snd (kern s' i b')).
  Proof.
    intros Hs Hr Hd s s' i b b' Rl P. destruct s as [[[[mv r] p] x]|], s' as [[[[mv' r'] p'] x']|]; try contradiction; [|now split].
    destruct Rl as (Q & <- & <- & <-). cbn [kern2].
    assert (P' : Permutation (map fresh b) (map fresh b')) by now apply Permutation_map.
    rewrite (layout_order _ _ _ _ _ (Z.of_nat i) Hr Hd P').
    destruct (layout_beam_layer _ _ _ _ _) as [[rho rho']|]; [|now split].
    pose proof (move_order sort_bool h c _ _ (Z.of_nat i) (pl_fields x) (pl_fields (plasma x rho p)) Hs Q) as M.
    destruct (move_beam_layer _ _ _ mv _ _ _) as [[[a m] d]|], (move_beam_layer _ _ _ mv' _ _ _) as [[[a' m'] d']|]; try contradiction; [|now split].
    destruct M as (_ & M1 & M2). cbn [fst snd rel2]. repeat split; auto; [now apply Permutation_app|now apply Permutation_map].
  Qed.
  Lemma rel2_refl s : rel2 s s. Proof. destruct s as [[[[? ?] ?] ?]|]; cbn; auto. Qed.
  Lemma order2 cells pl0 : sort_bool_ok sort_bool -> 0 < r_step c -> 0 < xi_step c -> forall t x y, same_layers x y ->
    same_layers (run_kernel part (sig2 Pl) kern (kinit2 Pl cells pl0 t) 0 x) (run_kernel part (sig2 Pl) kern (kinit2 Pl cells pl0 t) 0 y) /\
    (completes _ _ kern (kinit2 Pl cells pl0 t) x <-> completes _ _ kern (kinit2 Pl cells pl0 t) y).
  Proof.
    intros Hs Hr Hd t x y S.
    destruct (kernel_order part _ kern rel2) with (x := x) (y := y) (s := kinit2 Pl cells pl0 t) (s' := kinit2 Pl cells pl0 t) (i := 0%nat) as [A B]; auto.
    - intros [[[[? ?] ?] ?]|]; cbn; split; intros; try discriminate; tauto.
    - intros [[[[? ?] ?] ?]|]; cbn; split; intros; try discriminate; tauto.
    - now apply kern2_ok.
    - apply rel2_refl.
    - split; auto. unfold completes. now rewrite B.
  Qed.
  Lemma first2 cells pl0 : sort_bool_ok sort_bool -> forall t x, nth 0 (run_kernel part (sig2 Pl) kern (kinit2 Pl cells pl0 t) 0 x) [] = [].
  Proof.
    intros Hs t [|b x]; auto. cbn [run_kernel kinit2 kern2].
    destruct (layout_beam_layer _ _ _ _ _) as [[rho rho']|]; auto.
    unfold move_beam_layer. cbn [map_opt option_map map].
    destruct (split_beam_slice _ _ _) as [[a m] d] eqn:E. destruct (split_spec _ _ _ _ _ _ Hs E) as (_ & M & _). cbn in M.
    apply Permutation_sym, Permutation_nil in M. now subst m.
  Qed.

  Lemma slices2 : 0 < xi_step c -> forall n i s,
    exists sl src', ask s (xi_step c) (Z.of_nat i) n = Some (sl, src') /\
      slices part source (get_slice2 (xi_step c)) s i n = map (fun x => map pt (snd x)) sl.
  Proof.
    intros Hd. induction n as [|n IH]; intros i s; cbn [ask slices]; [exists [], s; auto|].
    destruct (get_beam_slice s _ _) as [[[sz l] s1]|] eqn:E.
    - assert (G : get_slice2 (xi_step c) s i = (map pt l, s1)) by (unfold get_slice2; now rewrite E). rewrite G.
      destruct (IH (i + 1)%nat s1) as (sl & s2 & A & B). rewrite Nat2Z.inj_add in A. change (Z.of_nat 1) with 1%Z in A. rewrite A.
      exists ((sz, l) :: sl), s2. split; auto. cbn [map snd]. now rewrite B.
    - exfalso. unfold get_beam_slice in E. destruct (Rlt_dec _ _) as [|Hn].
      + destruct (scan _ _ _ _ _) in E. discriminate.
      + apply Hn. rewrite plus_IZR. nra.
  Qed.
  Lemma cut2 L : sort_xi_ok sort_xi -> 0 < xi_step c -> INR L * xi_step c <= 99999 ->
    forall b, (forall a, In a b -> exists i, layer2 (xi_step c) 0 i a = true) -> forall i, (i < L)%nat ->
      Permutation (nth i (slices part source (get_slice2 (xi_step c)) (new_source sort_xi b) 0 L) []) (filter (layer2 (xi_step c) 0 i) b).
  Proof.
    intros Hs Hd HL b Hb i Hi. destruct (slices2 Hd L 0%nat (new_source sort_xi b)) as (sl & src' & A & ->).
    change (Z.of_nat 0) with 0%Z in A.
    assert (Q : map snd sl = map (fun k => map fresh (filter (layer2 (xi_step c) 0 k) (sort_xi b))) (seq 0 L)).
    { eapply ask_slices; eauto.
      - rewrite Z.add_0_l, <- INR_IZR_INZ. auto.
      - intros p Hp. destruct (Hb p Hp) as (j & Hj). unfold layer2, in_xi_layer_top, in_xi_layer in Hj.
        destruct (j =? 0)%nat.
        + destruct (Rle_dec _ _); [|discriminate]. destruct (Rle_dec _ _); [|discriminate]. lra.
        + destruct (Rle_dec _ _); [|discriminate]. destruct (Rlt_dec _ _); [|discriminate].
          assert (0 <= IZR (0 + Z.of_nat j)) by (apply IZR_le; lia). nra. }
    rewrite <- (map_map snd (map pt)), Q, map_map.
    rewrite (nth_indep _ [] (map pt (map fresh (filter (layer2 (xi_step c) 0 0) (sort_xi b))))) by (now rewrite map_length, seq_length).
    rewrite (map_nth (fun k => map pt (map fresh (filter (layer2 (xi_step c) 0 k) (sort_xi b))))), seq_nth by auto. cbn [plus].
    rewrite map_map. cbn [fresh pt]. rewrite map_id. apply filter_perm. apply Hs.
  Qed.
  Lemma disjoint2 : 0 < xi_step c -> layers_disjoint (layer2 (xi_step c) 0).
  Proof.
    intros Hd i j p Hi Hj. 
    assert (G : forall k, layer2 (xi_step c) 0 k p = true -> - (IZR (Z.of_nat k + 1) * xi_step c) <= xi p /\ (k = 0%nat \/ xi p < - (IZR (Z.of_nat k) * xi_step c))).
    { intros k. unfold layer2, in_xi_layer_top, in_xi_layer. destruct (Nat.eqb_spec k 0) as [->|Hk].
      - destruct (Rle_dec _ _); [|discriminate]. intros _. split; auto.
      - rewrite Z.add_0_l. destruct (Rle_dec _ _); [|discriminate]. destruct (Rlt_dec _ _); [|discriminate]. auto. }
    assert (K : forall a b, layer2 (xi_step c) 0 a p = true -> layer2 (xi_step c) 0 b p = true -> (a < b)%nat -> False).
    { intros a b Ha Hb Hab. destruct (G _ Ha) as [A _]. destruct (G _ Hb) as [_ [B|B]]; [lia|].
      assert (IZR (Z.of_nat a + 1) <= IZR (Z.of_nat b)) by (apply IZR_le; lia). nra. }
    destruct (Nat.lt_trichotomy i j) as [H|[H|H]]; auto; exfalso; eauto.
  Qed.

  (** the kernel fed from the source is the xi loop *)
  Lemma fresh_pt l : (forall b : bpart, In b l -> exists p, b = fresh p) -> map fresh (map pt l) = l.
  Proof. intros H. rewrite map_map. rewrite <- map_id. apply map_ext_in. intros b Hb. destruct (H b Hb) as (p & ->). reflexivity. Qed.
  Lemma loop2 : 0 < xi_step c -> forall n i s src mv lo dr rho prev pl,
    s = mkLS Pl src mv lo dr rho prev pl ->
    match xi_loop sort_bool Pl plasma pl_fields h c n (Z.of_nat i) s with
    | Some s' =>
      kernel_end _ _ kern (Some (mv, rho, prev, pl)) i (slices part source (get_slice2 (xi_step c)) src i n) = Some (ls_move Pl s', ls_rho Pl s', ls_prev Pl s', ls_plasma Pl s') /\
      drain_beam (ls_drain Pl s') = drain_beam dr ++ concat (run_kernel part (sig2 Pl) kern (Some (mv, rho, prev, pl)) i (slices part source (get_slice2 (xi_step c)) src i n))
    | None => kernel_end _ _ kern (Some (mv, rho, prev, pl)) i (slices part source (get_slice2 (xi_step c)) src i n) = None
    end.
  Proof.
    intros Hd. assert (NN : forall l i, kernel_end _ _ kern None i l = None) by (induction l; intros; cbn; auto).
    induction n as [|n IH]; intros i s src mv lo dr rho prev pl ->; cbn [xi_loop slices].
    - cbn. split; auto. now rewrite app_nil_r.
    - unfold xi_iter. cbn [ls_src ls_move ls_lost ls_drain ls_rho ls_prev ls_plasma].
      destruct (get_beam_slice src _ _) as [[[sz l] s1]|] eqn:E.
      2:{ exfalso. unfold get_beam_slice in E. destruct (Rlt_dec _ _) as [|Hn].
          + destruct (scan _ _ _ _ _) in E. discriminate.
          + apply Hn. rewrite plus_IZR. nra. }
      assert (Fr : map fresh (map pt l) = l).
      { apply fresh_pt. intros b Hb. unfold get_beam_slice in E. destruct (Rlt_dec _ _); [|discriminate].
        destruct (scan _ _ _ _ _) as [e fl]. injection E as <- <- <-. apply in_map_iff in Hb. destruct Hb as (p & <- & _). eauto. }
      assert (G : get_slice2 (xi_step c) src i = (map pt l, s1)) by (unfold get_slice2; now rewrite E). rewrite G.
      cbn [bind kernel_end run_kernel].
      cbn [kern2]. rewrite Fr.
      destruct (layout_beam_layer _ _ _ _ _) as [[r r']|]; cbn [bind fst]; [|apply NN].
      destruct (move_beam_layer _ _ _ _ _ _ _) as [[[a m] d]|]; cbn [bind fst]; [|apply NN].
      specialize (IH (i + 1)%nat _ s1 (l ++ d) (lo ++ a) (drain_push dr m) r' r (plasma pl r prev) eq_refl).
      rewrite Nat2Z.inj_add in IH. change (Z.of_nat 1) with 1%Z in IH.
      destruct (xi_loop _ _ _ _ _ _ _ _ _) as [s'|]; auto.
      destruct IH as [I1 I2]. split; auto. cbn [concat]. rewrite I2.
      unfold drain_beam. rewrite drain_push_concat, map_app, <- app_assoc. reflexivity.
  Qed.
End K2.

(** ** 3D *)
Lemma deposit3_strip n h dxi i : forall l out, deposit3 n h dxi i (map strip l) out = deposit3 n h dxi i l out.
Proof. induction l as [|p l IH]; intros out; auto. unfold deposit3 in *. cbn [map fold_left]. now rewrite IH. Qed.
Lemma layout3_strip n h dxi rho l i : layout3 n h dxi rho (map strip l) i = layout3 n h dxi rho l i.
Proof. unfold layout3. destruct l as [|p l]; auto. cbn [map]. change (strip p :: map strip l) with (map strip (p :: l)). now rewrite deposit3_strip. Qed.
Lemma map_opt_map {X Y Z} (f : Y -> option Z) (g : X -> Y) l : map_opt f (map g l) = map_opt (fun x => f (g x)) l.
Proof. induction l as [|x l IH]; cbn; auto. now rewrite IH. Qed.
Lemma start3_strip h e t l : map_opt (start3 h e t) (map strip l) = map_opt (start3 h e t) l.
Proof. rewrite map_opt_map. reflexivity. Qed.

Definition sort_out (r : list (part3 * (bool * bool * bool))) : list part3 * list part3 * list part3 :=
  (map fst (filter (fun x => fst (fst (snd x))) r), map fst (filter (fun x => snd (fst (snd x))) r), map fst (filter (fun x => snd (snd x)) r)).
Lemma move3_split u h c lay fal i f1 f2 :
  move_layer3 u h c (lay ++ fal) (length fal) i f1 f2 =
  option_map (fun a => sort_out (map (move_one3 u c (i - 1) f1 f2) (a ++ fal))) (map_opt (start3 h (c_energy c) (c_time_step c)) lay).
Proof.
  unfold move_layer3, start_layer3. rewrite app_length.
  replace (length lay + length fal - length fal)%nat with (length lay) by lia.
  rewrite firstn_app, Nat.sub_diag, firstn_all, skipn_app, skipn_all, Nat.sub_diag. cbn [firstn skipn app]. rewrite app_nil_r.
  destruct (map_opt _ lay); reflexivity.
Qed.
Lemma sort_out_perm r r' : Permutation r r' ->
  Permutation (snd (fst (sort_out r))) (snd (fst (sort_out r'))) /\ Permutation (snd (sort_out r)) (snd (sort_out r')).
Proof. intros P. unfold sort_out. cbn [fst snd]. split; apply Permutation_map, filter_perm; auto. Qed.

Section K3.
  Variable sort3 : list part3 -> list part3.
  Variable Pl : Type.
  Variable plasma : Pl -> grid -> grid -> Pl.
  Variable pl_fields : Pl -> fields3.
  Variable u : unit_type.
  Variable h : nat.
  Variable c : cfg3.
  Notation kern := (kern3 Pl plasma pl_fields u h c).

  Definition rel3 (s s' : sig3 Pl) : Prop :=
    match s, s' with
    | Some (a, f, r, p, x), Some (a', f', r', p', x') => Permutation a a' /\ Permutation f f' /\ r = r' /\ p = p' /\ x = x'
    | None, None => True
    | _, _ => False
    end.
  Lemma kern3_ok : 0 < c_h c -> forall s s' i b b', rel3 s s' -> Permutation b b' ->
    rel3 (fst (kern s i b)) (fst (kern s' i b')) /\ Permutation (snd (kern s i b)) (snd (kern s' i b')).
  Proof.
    intros Hr s s' i b b' Rl P. destruct s as [[[[[a f] r] p] x]|], s' as [[[[[a' f'] r'] p'] x']|]; try contradiction; [|now split].
    destruct Rl as (Q & Qf & <- & <- & <-). cbn [kern3].
    assert (P' : Permutation (map strip b) (map strip b')) by now apply Permutation_map.
    rewrite (layout3_perm _ _ _ _ _ _ (Z.of_nat i) Hr P').
    destruct (layout3 _ _ _ _ _ _) as [rho rho'].
    rewrite !move3_split. pose proof (map_opt_perm (start3 h (c_energy c) (c_time_step c)) _ _ Q) as M.
    destruct (map_opt _ a) as [y|], (map_opt _ a') as [y'|]; try contradiction; cbn [option_map]; [|now split].
    destruct (sort_out_perm (map (move_one3 u c (Z.of_nat i - 1) (pl_fields x) (pl_fields (plasma x rho p))) (y ++ f))
      (map (move_one3 u c (Z.of_nat i - 1) (pl_fields x) (pl_fields (plasma x rho p))) (y' ++ f'))) as [A B].
    { apply Permutation_map. now apply Permutation_app. }
    destruct (sort_out _) as [[l1 m1] d1]. destruct (sort_out _) as [[l2 m2] d2]. cbn [fst snd rel3] in *.
    repeat split; auto. now apply Permutation_map.
  Qed.
  Lemma rel3_refl s : rel3 s s. Proof. destruct s as [[[[[? ?] ?] ?] ?]|]; cbn; auto. Qed.
  Lemma order3 pl0 : 0 < c_h c -> forall t x y, same_layers x y ->
    same_layers (run_kernel part3 (sig3 Pl) kern (kinit3 Pl pl0 t) 0 x) (run_kernel part3 (sig3 Pl) kern (kinit3 Pl pl0 t) 0 y) /\
    (completes _ _ kern (kinit3 Pl pl0 t) x <-> completes _ _ kern (kinit3 Pl pl0 t) y).
  Proof.
    intros Hr t x y S.
    destruct (kernel_order part3 _ kern rel3) with (x := x) (y := y) (s := kinit3 Pl pl0 t) (s' := kinit3 Pl pl0 t) (i := 0%nat) as [A B]; auto.
    - intros [[[[[? ?] ?] ?] ?]|]; cbn; split; intros; try discriminate; tauto.
    - intros [[[[[? ?] ?] ?] ?]|]; cbn; split; intros; try discriminate; tauto.
    - now apply kern3_ok.
    - apply rel3_refl.
    - split; auto. unfold completes. now rewrite B.
  Qed.
  Lemma first3 pl0 t x : nth 0 (run_kernel part3 (sig3 Pl) kern (kinit3 Pl pl0 t) 0 x) [] = [].
  Proof.
    destruct x as [|b x]; auto. cbn [run_kernel kinit3 kern3].
    destruct (layout3 _ _ _ _ _ _) as [rho rho']. rewrite move3_split. reflexivity.
  Qed.

  Lemma slices3 : forall n i s, slices part3 (list part3) (get_slice3 (c_dxi c)) s i n = fst (ask3 (c_dxi c) s (Z.of_nat i) n).
  Proof.
    induction n as [|n IH]; intros i s; cbn [ask3 slices]; auto. unfold get_slice3 at 1.
    destruct (get_layer3 _ _ _) as [l s1]. rewrite IH, Nat2Z.inj_add. change (Z.of_nat 1) with 1%Z.
    destruct (ask3 _ _ _ _). reflexivity.
  Qed.
  Lemma cut3_layers L : sort3_ok sort3 -> 0 < c_dxi c ->
    forall b, (forall a, In a b -> exists i, in_layer3 (c_dxi c) (Z.of_nat i) a = true) -> forall i, (i < L)%nat ->
      Permutation (nth i (slices part3 (list part3) (get_slice3 (c_dxi c)) (new_source3 sort3 b) 0 L) []) (filter (in_layer3 (c_dxi c) (Z.of_nat i)) b).
  Proof.
    intros Hs Hd b Hb i Hi. rewrite slices3. change (Z.of_nat 0) with 0%Z.
    destruct (Hs b) as [P S].
    destruct (ask3_spec (c_dxi c) Hd L 0%Z (new_source3 sort3 b) S) as [A _].
    { intros p Hp. apply (Permutation_in _ P) in Hp. destruct (Hb p Hp) as (j & Hj). apply in_layer3_iff in Hj. destruct Hj as [_ Hj].
      assert (0 <= IZR (Z.of_nat j)) by (apply IZR_le; lia). nra. }
    rewrite A.
    rewrite (nth_indep _ [] (filter (in_layer3 (c_dxi c) (0 + Z.of_nat 0)) (new_source3 sort3 b))) by (now rewrite map_length, seq_length).
    rewrite (map_nth (fun k => filter (in_layer3 (c_dxi c) (0 + Z.of_nat k)) (new_source3 sort3 b))), seq_nth by auto. cbn [plus].
    rewrite Z.add_0_l. apply filter_perm. exact P.
  Qed.
  Lemma disjoint3 : 0 < c_dxi c -> layers_disjoint (fun i => in_layer3 (c_dxi c) (Z.of_nat i)).
  Proof.
    intros Hd i j p Hi Hj. cbv beta in *. apply in_layer3_iff in Hi, Hj. unfold xi_in in *.
    destruct (Nat.lt_trichotomy i j) as [H|[H|H]]; auto; exfalso.
    - assert (IZR (Z.of_nat i + 1) <= IZR (Z.of_nat j)) by (apply IZR_le; lia). nra.
    - assert (IZR (Z.of_nat j + 1) <= IZR (Z.of_nat i)) by (apply IZR_le; lia). nra.
  Qed.

  (** the kernel fed from the source is the xi loop; [lay] agrees with the first part of the layer to
      be moved up to dt and remaining_steps, which are about to be overwritten *)
  Lemma loop3_kernel : forall n i src lay fal lo dr rho prev pl,
    match run3 Pl plasma pl_fields u h c n (Z.of_nat i) (mkS3 Pl src (lay ++ fal) (length fal) lo dr rho prev pl) with
    | Some s' =>
      (exists l f, s_move Pl s' = l ++ f /\ s_fell Pl s' = length f /\
       kernel_end _ _ kern (Some (map strip lay, fal, rho, prev, pl)) i (slices part3 (list part3) (get_slice3 (c_dxi c)) src i n)
         = Some (map strip l, f, s_rho Pl s', s_prev Pl s', s_pl Pl s')) /\
      map strip (s_drain Pl s') = map strip dr ++ concat (run_kernel part3 (sig3 Pl) kern (Some (map strip lay, fal, rho, prev, pl)) i (slices part3 (list part3) (get_slice3 (c_dxi c)) src i n))
    | None => kernel_end _ _ kern (Some (map strip lay, fal, rho, prev, pl)) i (slices part3 (list part3) (get_slice3 (c_dxi c)) src i n) = None
    end.
  Proof.
    assert (NN : forall l i, kernel_end _ _ kern None i l = None) by (induction l; intros; cbn; auto).
    induction n as [|n IH]; intros i src lay fal lo dr rho prev pl; cbn [run3 slices].
    - cbn. split; [exists lay, fal; auto|]. now rewrite app_nil_r.
    - unfold iter3. cbn [s_src s_move s_fell s_lost s_drain s_rho s_prev s_pl].
      assert (G : get_slice3 (c_dxi c) src i = get_layer3 (c_dxi c) src (Z.of_nat i)) by reflexivity. rewrite G.
      destruct (get_layer3 _ _ _) as [l s1]. cbn [kernel_end run_kernel kern3]. rewrite layout3_strip.
      destruct (layout3 _ _ _ _ _ _) as [r r'].
      rewrite !move3_split, start3_strip.
      destruct (map_opt _ lay) as [y|]; cbn [option_map fst]; [|apply NN].
      destruct (sort_out _) as [[l1 m1] d1]. cbn [fst].
      specialize (IH (i + 1)%nat s1 l d1 (lo ++ l1) (push_layer3 dr m1) r' r (plasma pl r prev)).
      rewrite Nat2Z.inj_add in IH. change (Z.of_nat 1) with 1%Z in IH.
      destruct (run3 _ _ _ _ _ _ _ _ _) as [s'|]; auto.
      destruct IH as [I1 I2]. split; auto. cbn [concat]. rewrite I2.
      unfold push_layer3. rewrite map_app, <- app_assoc. reflexivity.
  Qed.
End K3.

(** What is pushed at iteration i of the 2D loop has not fallen behind layer i - 1. *)
Lemma pushed_above sort_bool Pl plasma pl_fields h c : sort_bool_ok sort_bool -> forall ins s i k p,
  In p (nth k (run_kernel part (sig2 Pl) (kern2 sort_bool Pl plasma pl_fields h c) s i ins) []) -> - (IZR (Z.of_nat (i + k)) * xi_step c) <= xi p.
Proof.
  intros Hs. induction ins as [|b ins IH]; intros s i k p Hp; cbn [run_kernel] in Hp; [destruct k; destruct Hp|].
  destruct (kern2 _ _ _ _ _ _ s i b) as [s' o] eqn:E. destruct k as [|k]; cbn [nth] in Hp.
  - rewrite Nat.add_0_r. clear IH ins. destruct s as [[[[mv r] pr] x]|]; cbn [kern2] in E; [|injection E as _ <-; destruct Hp].
    destruct (layout_beam_layer _ _ _ _ _) as [[rho rho']|]; [|injection E as _ <-; destruct Hp].
    destruct (move_beam_layer _ _ _ _ _ _ _) as [[[a m] d]|] eqn:M; injection E as _ <-; [|destruct Hp].
    apply in_map_iff in Hp. destruct Hp as (q & <- & Hq). unfold move_beam_layer in M.
    destruct (map_opt _ mv) as [y|]; cbn [option_map] in M; [|discriminate]. apply (f_equal (fun o => match o with Some v => v | None => ([], [], []) end)) in M. cbv beta iota in M.
    destruct (split_spec _ _ _ _ _ _ Hs M) as (_ & B & _). apply (Permutation_in _ B) in Hq. apply filter_In in Hq. destruct Hq as [_ Hq].
    apply andb_prop in Hq. destruct Hq as [_ Hq]. unfold moving_b in Hq. destruct (Rlt_dec _ _) as [|Hn]; [rewrite orb_true_r in Hq; discriminate|]. lra.
  - replace (i + S k)%nat with (i + 1 + k)%nat by lia. eapply IH; eauto.
Qed.
