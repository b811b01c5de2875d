(** The generated beam as a whole. *)
From Coq Require Import Reals ZArith List Bool String Permutation Sorted Lra Lia Psatz.
From Verif Require Import Beam2D_Model Beam2D_Spec Beam2D_Free BeamGen_Model BeamGen_Spec BeamGen_Proofs.
Import ListNotations.
Local Open Scope list_scope.
Local Open Scope R_scope.

Lemma trunc_whole x : 0 <= x -> whole_part x (Z.to_nat (truncZ x)).
Proof.
  intros H. unfold whole_part, truncZ. destruct (Rlt_dec x 0); [lra|].
  assert (N := floorR_nonneg x H). destruct (floorR_spec x). rewrite INR_IZR_INZ, Z2Nat.id; auto.
Qed.
Lemma layer_xi_eq step i : - step * INR i - step / 2 = layer_centre step i.
Proof. unfold layer_centre. lra. Qed.

Lemma eshape_ok s dxi g p n v p' : unit_contract g -> s_length s <> 0 ->
  (forall k, s_eshape s = EMulti k -> (2 <= k)%Z) ->
  eshape_value (s_eshape s) g p (s_energy s) (s_espread s) dxi (s_length s) n = Some (v, p') ->
  forall pz, In pz v -> energy_ok s dxi (normal_draw g) pz.
Proof.
  intros HG HL HK H pz Hpz. unfold energy_ok. destruct (s_eshape s) as [| | | |k] eqn:E; simpl in H.
  - injection H as <- _. now apply repeat_spec in Hpz.
  - injection H as <- _. apply uniform_in in Hpz as (u & U & ->); auto.
    unfold Rmin, Rmax. destruct (Rle_dec (s_energy s) (s_espread s)); split; nra.
  - injection H as <- _. apply repeat_spec in Hpz as ->. field. assumption.
  - unfold normal in H. destruct (Rlt_dec (s_espread s) 0); [discriminate|]. injection H as <- _.
    apply in_map_iff in Hpz as (i & <- & _). eauto.
  - injection H as <- _. apply in_map_iff in Hpz as (b & <- & Hb). apply repeat_spec in Hb as ->.
    assert (2 <= k)%Z by (apply HK; reflexivity). exists (randint g p k).
    split; [apply Z.mod_pos_bound; lia|]. assert (2 <= IZR k) by (now apply IZR_le). field. lra.
Qed.
Lemma gauss2d_ok g p ra s rm n l p' : unit_contract g -> 0 < ra -> 0 < rm ->
  gauss2d g p ra s rm n = Some (l, p') -> forall t, In t l ->
  shape_of_geometry false t /\ 0 <= radius_from 0 0 t < rm /\ spread_ok s (normal_draw g) t /\
  forall x y, radius_from x y t = radius_from 0 0 t.
Proof.
  intros HG HR HM H t Ht. unfold gauss2d in H. destruct (Req_EM_T ra 0); [discriminate|].
  unfold normal in H. destruct (Rlt_dec s 0); [discriminate|]. injection H as <- _.
  apply zip_in in Ht as (r & f & Hr & Hf & ->). apply zip_in in Hf as (pr & pf & Hpr & Hpf & ->).
  apply in_map_iff in Hr as (u & <- & Hu). apply random_sample_in in Hu; auto.
  apply in_map_iff in Hpr as (i & <- & _). apply in_map_iff in Hpf as (j & <- & _).
  simpl. repeat split; auto.
  - now apply radius_nonneg.
  - now apply radius_below.
  - do 2 eexists. split; [rewrite Rplus_0_l; reflexivity|]. rewrite Rplus_0_l. reflexivity.
Qed.
Lemma gauss3d_ok g p ra s rm n xs ys l p' : unit_contract g -> 0 < ra -> 0 < rm ->
  gauss3d g p ra s rm n xs ys = Some (l, p') -> forall t, In t l ->
  shape_of_geometry true t /\ 0 <= radius_from xs ys t < rm /\ spread_ok s (normal_draw g) t.
Proof.
  intros HG HR HM H t Ht. unfold gauss3d in H. destruct (Req_EM_T ra 0); [discriminate|].
  unfold normal in H. destruct (Rlt_dec s 0); [discriminate|]. injection H as <- _.
  apply zip_in in Ht as (xy & f & Hxy & Hf & ->). apply zip_in in Hf as (pr & pf & Hpr & Hpf & ->).
  apply zip_in in Hxy as (r & phi & Hr & Hphi & ->).
  apply in_map_iff in Hr as (u & <- & Hu). apply random_sample_in in Hu; auto.
  apply in_map_iff in Hpr as (i & <- & _). apply in_map_iff in Hpf as (j & <- & _).
  simpl fst; simpl snd. split; [reflexivity|]. split.
  - unfold radius_from. set (r := gauss_radius ra rm u).
    replace ((r * cos phi + xs - xs) ^ 2 + (r * sin phi + ys - ys) ^ 2) with (Rsqr r).
    + assert (N := radius_nonneg ra rm u HR). fold r in N. rewrite sqrt_Rsqr by assumption. split; [assumption|].
      now apply radius_below.
    + assert (C := sin2_cos2 phi). unfold Rsqr in *.
      transitivity (r * r * (sin phi * sin phi + cos phi * cos phi)); [rewrite C; ring|ring].
  - do 2 eexists. split; rewrite Rplus_0_l; reflexivity.
Qed.
Lemma segments_ok_len segs : segments_ok segs -> lengths_positive segs.
Proof. intros H s Hs. now apply H. Qed.

(** One layer. *)
Lemma gen_layer_ok c b g p i ps p' :
  unit_contract g -> 0 < gc_step c -> 0 < half_width c -> 0 < b_ppl b -> segments_ok (b_segments b) ->
  gen_layer c b g p i (initial_current b (layer_centre (gc_step c) i)) = Some (ps, p') ->
  exists s start,
    occupies (b_segments b) s start (layer_centre (gc_step c) i) /\
    whole_part (b_ppl b * Rabs (wanted_current b s start (layer_centre (gc_step c) i) / b_current b))
               (List.length ps) /\
    forall q, In q ps ->
      in_layer (gc_step c) i (g_xi q) /\ particle_ok c b g s start i q /\
      g_qm q = (if Rlt_dec 0 (wanted_current b s start (layer_centre (gc_step c) i)) then / s_mcr s else - / s_mcr s) /\
      g_qn q = (if Rlt_dec (b_current b) 0 then - Rabs (2 * b_current b / b_ppl b) else Rabs (2 * b_current b / b_ppl b)).
Proof.
  intros HG HS HW HPPL HSEG H. unfold gen_layer in H. cbv zeta in H.
  rewrite layer_xi_eq in H. set (xc := layer_centre (gc_step c) i) in *.
  destruct (get_segment (b_segments b) 0 xc) as [[s start]|] eqn:GS; [|discriminate].
  assert (HLP := segments_ok_len _ HSEG).
  assert (HO : occupies (b_segments b) s start xc) by (now apply get_segment_iff).
  assert (HC := initial_current_at b s start xc HLP HO). rewrite HC in H.
  set (cur := wanted_current b s start xc) in *.
  destruct (Req_EM_T (s_mcr s) 0) as [|HMC]; [discriminate|].
  destruct (particles_in_layer b cur <? 0)%Z eqn:NEG; [discriminate|].
  set (n := Z.to_nat (particles_in_layer b cur)) in *.
  assert (HIN : In s (b_segments b)).
  { destruct HO as (bf & af & -> & _). apply in_or_app. right. now left. }
  destruct (HSEG s HIN) as (HLs & HRs & HKs).
  assert (HM : 0 < gen_max_radius c).
  { unfold gen_max_radius. unfold half_width in HW. cbv zeta. eapply Rlt_le_trans; [|apply Rmax_l].
    destruct (gc_three c); lra. }
  assert (EM : gen_max_radius c = Rmax (9 / 10 * half_width c) (half_width c - 1)).
  { unfold gen_max_radius, half_width. cbv zeta. apply f_equal2; lra. }
  match type of H with context [match ?T with Some _ => _ | None => _ end] => destruct T as [[trs p1]|] eqn:TR; [|discriminate] end.
  match type of H with context [match ?T with Some _ => _ | None => _ end] => destruct T as [[pzs p2]|] eqn:EV; [|discriminate] end.
  injection H as <- _. exists s, start. split; [assumption|].
  assert (LT : List.length trs = n).
  { destruct (gc_three c); [eapply gauss3d_length|eapply gauss2d_length]; eauto. }
  assert (LE : List.length pzs = n) by (eapply eshape_length; eauto).
  split.
  - rewrite zip_length; rewrite uniform_length; [|rewrite zip_length; lia].
    apply trunc_whole. apply Rmult_le_pos; [lra|apply Rabs_pos].
  - intros q Hq. apply zip_in in Hq as (x & f & Hx & Hf & ->). apply zip_in in Hf as (t & pz & Ht & Hpz & ->).
    cbn [g_xi g_tr g_pz g_qm g_qn]. split; [|split; [|split]].
    + apply uniform_in in Hx as (u & U & ->); auto. unfold in_layer. nra.
    + assert (P : shape_of_geometry (gc_three c) t /\ 0 <= radius_from (s_xshift s) (s_yshift s) t < gen_max_radius c /\
                  spread_ok (initial_sigma_impulse s (start - xc)) (normal_draw g) t).
      { destruct (gc_three c).
        - exact (gauss3d_ok _ _ _ _ _ _ _ _ _ _ HG HRs HM TR t Ht).
        - destruct (gauss2d_ok _ _ _ _ _ _ _ _ HG HRs HM TR t Ht) as (A & B & C & D).
          split; [exact A|]. split; [rewrite D; exact B|exact C]. }
      destruct P as (A & B & C). unfold particle_ok. cbv zeta. cbn [g_tr g_pz]. fold xc.
      split; [exact A|]. split; [rewrite <- EM; exact B|]. split; [exact C|].
      eapply eshape_ok; eauto. lra.
    + fold cur. destruct (Rlt_dec 0 cur); field; assumption.
    + unfold elem_charge. destruct (Rle_dec 0 (b_current b)); destruct (Rlt_dec (b_current b) 0); try lra.
Qed.

(** All layers: a list of layers. *)
Lemma gen_layers_split c b g : forall cs p i ps, gen_layers c b g p i cs = Some ps ->
  exists Ls, ps = List.concat Ls /\ List.length Ls = List.length cs /\
    forall k cur, nth_error cs k = Some cur ->
      exists l p1 p2, nth_error Ls k = Some l /\ gen_layer c b g p1 (i + k) cur = Some (l, p2).
Proof.
  induction cs as [|cur cs IH]; intros p i ps H; simpl in H.
  - injection H as <-. exists []. repeat split; auto. intros [|k] ? E; discriminate.
  - destruct (gen_layer c b g p i cur) as [[l p']|] eqn:L; [|discriminate].
    destruct (gen_layers c b g p' (S i) cs) as [qs|] eqn:Q; [|discriminate]. injection H as <-.
    apply IH in Q as (Ls & -> & E & F). exists (l :: Ls). simpl. repeat split; auto.
    intros [|k] cu Hk; simpl in Hk.
    + injection Hk as <-. exists l, p, p'. rewrite Nat.add_0_r. auto.
    + destruct (F k cu Hk) as (l1 & p1 & p2 & A & B). exists l1, p1, p2. split; [assumption|].
      now rewrite Nat.add_succ_r.
Qed.

(** Counting. *)
Lemma counts_app {A} (P : A -> Prop) l m i j : counts P l i -> counts P m j -> counts P (l ++ m) (i + j).
Proof. intros H K. induction H; simpl; auto; [apply counts_yes|apply counts_no]; auto. Qed.
Lemma counts_all {A} (P : A -> Prop) l : (forall a, In a l -> P a) -> counts P l (List.length l).
Proof. induction l as [|a l IH]; intros H; simpl; constructor; [apply H; now left|apply IH; intros b Hb; apply H; now right]. Qed.
Lemma counts_none {A} (P : A -> Prop) l : (forall a, In a l -> ~ P a) -> counts P l 0.
Proof. induction l as [|a l IH]; intros H; simpl; constructor; [apply H; now left|apply IH; intros b Hb; apply H; now right]. Qed.
Lemma counts_perm {A} (P : A -> Prop) l m n : Permutation l m -> counts P l n -> counts P m n.
Proof.
  intros H. revert n. induction H; intros n K; auto.
  - inversion K; subst; [apply counts_yes|apply counts_no]; auto.
  - inversion K as [|? ? ? Hy K1|? ? ? Hy K1]; subst; inversion K1; subst;
      repeat first [apply counts_yes; [assumption|]|apply counts_no; [assumption|]]; assumption.
Qed.
Lemma counts_map {A B} (f : A -> B) (P : A -> Prop) (Q : B -> Prop) l n :
  (forall a, In a l -> (P a <-> Q (f a))) -> counts P l n -> counts Q (map f l) n.
Proof.
  intros E H. induction H; simpl; constructor.
  - apply E; [now left|assumption].
  - apply IHcounts. intros b Hb. apply E. now right.
  - intros K. apply H. apply E; [now left|assumption].
  - apply IHcounts. intros b Hb. apply E. now right.
Qed.
Lemma counts_concat {A} (P : A -> Prop) (Ls : list (list A)) k l :
  nth_error Ls k = Some l -> (forall a, In a l -> P a) ->
  (forall j m, j <> k -> nth_error Ls j = Some m -> forall a, In a m -> ~ P a) ->
  counts P (List.concat Ls) (List.length l).
Proof.
  revert k. induction Ls as [|m Ls IH]; intros [|k] H HA HN; try discriminate; simpl in *.
  - injection H as ->. rewrite <- (Nat.add_0_r (List.length l)). apply counts_app; [now apply counts_all|].
    apply counts_none. intros a Ha. apply in_concat in Ha as (m & Hm & Hma).
    apply In_nth_error in Hm as [j Hj]. apply (HN (S j) m); auto.
  - change (List.length l) with (0 + List.length l)%nat. apply counts_app.
    + apply counts_none. apply (HN 0%nat m); auto.
    + apply (IH k); auto. intros j m' Hj Hm'. apply (HN (S j) m'); auto.
Qed.
Lemma layer_disjoint step i j xi : 0 < step -> in_layer step i xi -> in_layer step j xi -> i = j.
Proof.
  unfold in_layer. intros HS [A B] [C D].
  destruct (lt_eq_lt_dec i j) as [[L|]|L]; auto; exfalso.
  - assert (INR i + 1 <= INR j) by (rewrite <- S_INR; apply le_INR; lia). nra.
  - assert (INR j + 1 <= INR i) by (rewrite <- S_INR; apply le_INR; lia). nra.
Qed.

(** Ids and sorting. *)
Lemma zip_ids ps k : map g_id (zip_with set_id ps (seq k (List.length ps))) = seq k (List.length ps).
Proof. revert k; induction ps as [|q ps IH]; intros k; simpl; auto. now rewrite IH. Qed.
Lemma zip_ids_len ps k : List.length (zip_with set_id ps (seq k (List.length ps))) = List.length ps.
Proof. rewrite zip_length; rewrite ?seq_length; auto. Qed.
Definition no_id (q : gpart) := (g_xi q, g_tr q, g_pz q, g_qm q, g_qn q).
Lemma zip_no_id ps k : map no_id (zip_with set_id ps (seq k (List.length ps))) = map no_id ps.
Proof. revert k; induction ps as [|q ps IH]; intros k; simpl; auto. now rewrite IH. Qed.

Lemma nth_seq_map {A} (l : list A) d : map (fun k => nth k l d) (seq 0 (List.length l)) = l.
Proof.
  apply nth_ext with d d; [now rewrite map_length, seq_length|].
  intros n Hn. rewrite map_length, seq_length in Hn.
  rewrite (nth_indep _ d (nth 0%nat l d)) by (now rewrite map_length, seq_length).
  rewrite (map_nth (fun k => nth k l d) (seq 0 (List.length l)) 0%nat). now rewrite seq_nth.
Qed.
Lemma sort_perm {A} (l : list A) d (idx : list nat) :
  Permutation idx (seq 0 (List.length l)) -> Permutation (map (fun k => nth k l d) idx) l.
Proof. intros H. apply (Permutation_map (fun k => nth k l d)) in H. now rewrite nth_seq_map in H. Qed.
Lemma sort_sorted {A} (key : A -> R) (l : list A) d idx :
  Permutation idx (seq 0 (List.length l)) ->
  StronglySorted Rle (map (fun k => nth k (map (fun q => - key q) l) 0) idx) ->
  StronglySorted (fun a b => key b <= key a) (map (fun k => nth k l d) idx).
Proof.
  intros HP. assert (B : forall k, In k idx -> (k < List.length l)%nat).
  { intros k Hk. apply (Permutation_in _ HP) in Hk. apply in_seq in Hk. lia. }
  clear HP. induction idx as [|k idx IH]; intros H; simpl in *; constructor.
  - apply IH; auto. now inversion H.
  - inversion H as [|? ? ? F]; subst. apply Forall_forall. intros a Ha. apply in_map_iff in Ha as (j & <- & Hj).
    rewrite Forall_forall in F.
    specialize (F (nth j (map (fun q => - key q) l) 0)).
    assert (E : forall m, (m < List.length l)%nat -> nth m (map (fun q => - key q) l) 0 = - key (nth m l d)).
    { intros m Hm. rewrite (nth_indep _ 0 (- key d)) by (now rewrite map_length). apply (map_nth (fun q => - key q)). }
    rewrite !E in F by auto. assert (- key (nth k l d) <= - key (nth j l d)); [|lra].
    apply F. rewrite <- E by auto. apply in_map_iff. exists j; auto.
Qed.

(** The whole beam. *)
Lemma generated_shape argsort c b g beam :
  argsort_contract argsort -> generate_beam_array argsort c b g = Some beam ->
  exists ps, gen_layers c b g 0 0 (rigid_beam_current b (gc_step c)) = Some ps /\
    Permutation beam (zip_with set_id ps (seq 1 (List.length ps))) /\
    StronglySorted (fun p q => g_xi q <= g_xi p) beam.
Proof.
  intros HA H. unfold generate_beam_array in H.
  destruct (Req_EM_T (gc_step c) 0); [discriminate|]. destruct (Req_EM_T (b_ppl b) 0); [discriminate|].
  destruct (Req_EM_T (b_current b) 0); [discriminate|].
  destruct (gen_layers c b g 0 0 (rigid_beam_current b (gc_step c))) as [ps|]; [|discriminate].
  cbv zeta in H. injection H as <-. exists ps. split; [reflexivity|].
  set (bm := zip_with set_id ps (seq 1 (List.length ps))).
  destruct (HA (map (fun q => - g_xi q) bm)) as [PE SO]. rewrite map_length in PE.
  split; [now apply sort_perm|now apply sort_sorted].
Qed.
Lemma In_no_id ps k q : In q (zip_with set_id ps (seq k (List.length ps))) -> exists q', In q' ps /\ no_id q' = no_id q.
Proof.
  intros H. apply (in_map no_id) in H. rewrite zip_no_id in H. apply in_map_iff in H as (q' & E & Hq'). eauto.
Qed.
Section Whole.
  Variables (argsort : list R -> list nat) (c : gen_config) (b : beam_shape) (g : rng) (beam : list gpart).
  Hypothesis HA : argsort_contract argsort.
  Hypothesis HG : unit_contract g.
  Hypothesis HS : 0 < gc_step c.
  Hypothesis HW : 0 < half_width c.
  Hypothesis HP : 0 < b_ppl b.
  Hypothesis HSEG : segments_ok (b_segments b).
  Hypothesis HB : generate_beam_array argsort c b g = Some beam.

  Lemma whole_ids : Permutation (map g_id beam) (seq 1 (List.length beam)).
  Proof.
    destruct (generated_shape _ _ _ _ _ HA HB) as (ps & _ & PE & _).
    rewrite (Permutation_length PE), zip_ids_len. rewrite (Permutation_map g_id PE), zip_ids. reflexivity.
  Qed.
  Lemma whole_sorted : StronglySorted (fun p q => g_xi q <= g_xi p) beam.
  Proof. now destruct (generated_shape _ _ _ _ _ HA HB) as (ps & _ & _ & S). Qed.
  Definition layer_good (i : nat) (s : segment) (start : R) (q : gpart) : Prop :=
    in_layer (gc_step c) i (g_xi q) /\ particle_ok c b g s start i q /\
    g_qm q = (if Rlt_dec 0 (wanted_current b s start (layer_centre (gc_step c) i)) then / s_mcr s else - / s_mcr s) /\
    g_qn q = (if Rlt_dec (b_current b) 0 then - Rabs (2 * b_current b / b_ppl b) else Rabs (2 * b_current b / b_ppl b)).
  Lemma layer_good_no_id i s start q q' : no_id q = no_id q' -> layer_good i s start q -> layer_good i s start q'.
  Proof.
    unfold no_id, layer_good, particle_ok. intros [= E1 E2 E3 E4 E5]. cbv zeta. rewrite E1, E2, E3, E4, E5. auto.
  Qed.
  Lemma whole_layers :
    (forall q, In q beam -> exists i, beam_layer b (gc_step c) i /\ in_layer (gc_step c) i (g_xi q)) /\
    (forall i, beam_layer b (gc_step c) i ->
       exists s start n, occupies (b_segments b) s start (layer_centre (gc_step c) i) /\
         whole_part (b_ppl b * Rabs (wanted_current b s start (layer_centre (gc_step c) i) / b_current b)) n /\
         counts (fun q => in_layer (gc_step c) i (g_xi q)) beam n /\
         forall q, In q beam -> in_layer (gc_step c) i (g_xi q) -> layer_good i s start q).
  Proof.
    destruct (generated_shape _ _ _ _ _ HA HB) as (ps & GL & PE & _).
    rewrite currents_eq in GL. apply gen_layers_split in GL as (Ls & EC & LL & HL).
    rewrite map_length, seq_length in LL.
    assert (LAY : forall k l, nth_error Ls k = Some l -> (k < layer_count b (gc_step c))%nat /\ exists p1 p2,
              gen_layer c b g p1 k (initial_current b (layer_centre (gc_step c) k)) = Some (l, p2)).
    { intros k l Hk. assert (KL : (k < layer_count b (gc_step c))%nat).
      { rewrite <- LL. apply nth_error_Some. now rewrite Hk. }
      split; [assumption|].
      destruct (HL k (initial_current b (layer_centre (gc_step c) k))) as (l' & p1 & p2 & A & B).
      - rewrite nth_error_map. rewrite (nth_error_nth' _ 0%nat) by (now rewrite seq_length).
        rewrite seq_nth by assumption. reflexivity.
      - rewrite Hk in A. injection A as <-. exists p1, p2. exact B. }
    assert (GOOD : forall k l, nth_error Ls k = Some l -> exists s start,
              occupies (b_segments b) s start (layer_centre (gc_step c) k) /\
              whole_part (b_ppl b * Rabs (wanted_current b s start (layer_centre (gc_step c) k) / b_current b)) (List.length l) /\
              forall q, In q l -> layer_good k s start q).
    { intros k l Hk. destruct (LAY k l Hk) as (_ & p1 & p2 & G). exact (gen_layer_ok c b g p1 k l p2 HG HS HW HP HSEG G). }
    set (bm := zip_with set_id ps (seq 1 (List.length ps))) in *.
    assert (SRC : forall q, In q beam -> exists k l q', nth_error Ls k = Some l /\ In q' l /\ no_id q' = no_id q).
    { intros q Hq. apply (Permutation_in _ PE) in Hq. apply In_no_id in Hq as (q' & Hq' & E).
      rewrite EC in Hq'. apply in_concat in Hq' as (l & Hl & Hql). apply In_nth_error in Hl as [k Hk]. eauto 6. }
    split.
    - intros q Hq. destruct (SRC q Hq) as (k & l & q' & Hk & Hq' & E). exists k. split.
      + apply layer_count_spec; [assumption|]. now apply (LAY k l).
      + destruct (GOOD k l Hk) as (s & st & _ & _ & F). apply (layer_good_no_id _ _ _ _ _ E (F q' Hq')).
    - intros i Hi. apply layer_count_spec in Hi; [|assumption].
      destruct (nth_error Ls i) as [l|] eqn:Hl; [|apply nth_error_None in Hl; lia].
      destruct (GOOD i l Hl) as (s & st & HO & HWP & F). exists s, st, (List.length l).
      split; [assumption|]. split; [assumption|]. split.
      + apply counts_perm with bm; [now symmetry|].
        assert (C : counts (fun q => in_layer (gc_step c) i (g_xi q)) ps (List.length l)).
        { rewrite EC. apply (counts_concat _ Ls i l Hl).
          - intros a Ha. now apply F.
          - intros j m Hj Hm a Ha HIN. destruct (GOOD j m Hm) as (s' & st' & _ & _ & F').
            apply Hj. apply (layer_disjoint (gc_step c) j i (g_xi a)); auto. now apply F'. }
        apply (counts_map no_id _ (fun z => in_layer (gc_step c) i (fst (fst (fst (fst z)))))) in C; [|simpl; tauto].
        unfold bm. rewrite <- (zip_no_id ps 1) in C. clear - C.
        set (m := zip_with set_id ps (seq 1 (List.length ps))) in *. clearbody m.
        remember (map no_id m) as z eqn:E. revert m E. induction C; intros [|q m] E; try discriminate; [constructor| |];
          simpl in E; injection E as E1 E2; subst; [apply counts_yes|apply counts_no]; auto.
      + intros q Hq HIN. destruct (SRC q Hq) as (k & l' & q' & Hk & Hq' & E).
        destruct (GOOD k l' Hk) as (s' & st' & _ & _ & F').
        assert (G := layer_good_no_id _ _ _ _ _ E (F' q' Hq')).
        assert (k = i) by (apply (layer_disjoint (gc_step c) k i (g_xi q)); [exact HS|apply G|exact HIN]). subst k.
        rewrite Hl in Hk. injection Hk as <-. exact (layer_good_no_id _ _ _ _ _ E (F q' Hq')).
  Qed.
End Whole.

(** When generation succeeds and when it cannot. *)
Lemma gen_layer_succeeds c b g p i s start :
  0 < b_ppl b -> (forall s, In s (b_segments b) -> drawable s) -> lengths_positive (b_segments b) ->
  occupies (b_segments b) s start (layer_centre (gc_step c) i) ->
  exists r, gen_layer c b g p i (initial_current b (layer_centre (gc_step c) i)) = Some r.
Proof.
  intros HPP HD HLP HO. unfold gen_layer. cbv zeta. rewrite layer_xi_eq.
  rewrite (proj2 (get_segment_iff _ _ _ _ HLP) HO).
  assert (HIN : In s (b_segments b)). { destruct HO as (bf & af & -> & _). apply in_or_app. right. now left. }
  destruct (HD s HIN) as (D1 & D2 & D3 & D4).
  destruct (Req_EM_T (s_mcr s) 0); [contradiction|].
  assert (NN : (0 <= particles_in_layer b (initial_current b (layer_centre (gc_step c) i)))%Z).
  { unfold particles_in_layer, truncZ.
    assert (0 <= b_ppl b * Rabs (initial_current b (layer_centre (gc_step c) i) / b_current b))
      by (apply Rmult_le_pos; [lra|apply Rabs_pos]).
    destruct (Rlt_dec _ 0); [lra|]. now apply floorR_nonneg. }
  destruct (_ <? 0)%Z eqn:L; [apply Z.ltb_lt in L; lia|].
  assert (SG : ~ initial_sigma_impulse s (start - layer_centre (gc_step c) i) < 0).
  { apply Rle_not_lt, D3. destruct HO as (_ & _ & _ & _ & B). lra. }
  assert (exists t, (if gc_three c
    then gauss3d g (p + Z.to_nat (particles_in_layer b (initial_current b (layer_centre (gc_step c) i)))) (s_radius s)
      (initial_sigma_impulse s (start - layer_centre (gc_step c) i)) (gen_max_radius c)
      (Z.to_nat (particles_in_layer b (initial_current b (layer_centre (gc_step c) i)))) (s_xshift s) (s_yshift s)
    else gauss2d g (p + Z.to_nat (particles_in_layer b (initial_current b (layer_centre (gc_step c) i)))) (s_radius s)
      (initial_sigma_impulse s (start - layer_centre (gc_step c) i)) (gen_max_radius c)
      (Z.to_nat (particles_in_layer b (initial_current b (layer_centre (gc_step c) i))))) = Some t) as [[trs p1] ->].
  { unfold gauss3d, gauss2d, normal. destruct (Req_EM_T (s_radius s) 0); [contradiction|].
    destruct (Rlt_dec _ 0); [contradiction|]. destruct (gc_three c); eauto. }
  assert (exists v, eshape_value (s_eshape s) g p1 (s_energy s) (s_espread s)
      (start - layer_centre (gc_step c) i) (s_length s)
      (Z.to_nat (particles_in_layer b (initial_current b (layer_centre (gc_step c) i)))) = Some v) as [[pz p2] ->].
  { destruct (s_eshape s); simpl; eauto. unfold normal. destruct (Rlt_dec (s_espread s) 0); [specialize (D4 eq_refl); lra|eauto]. }
  eauto.
Qed.
Lemma gen_layers_succeeds c b g (n : nat) : forall k p,
  (forall i p, (k <= i < k + n)%nat -> exists r, gen_layer c b g p i (initial_current b (layer_centre (gc_step c) i)) = Some r) ->
  exists ps, gen_layers c b g p k (map (fun i => initial_current b (layer_centre (gc_step c) i)) (seq k n)) = Some ps.
Proof.
  induction n as [|n IH]; intros k p H; simpl; [eauto|].
  destruct (H k p) as [[l p'] ->]; [lia|]. destruct (IH (S k) p') as [qs ->]; [|eauto].
  intros i p2 Hi. apply H. lia.
Qed.
Lemma gen_layers_fails c b g (n : nat) j : forall k p, (k <= j < k + n)%nat ->
  (forall p, gen_layer c b g p j (initial_current b (layer_centre (gc_step c) j)) = None) ->
  gen_layers c b g p k (map (fun i => initial_current b (layer_centre (gc_step c) i)) (seq k n)) = None.
Proof.
  induction n as [|n IH]; intros k p HJ H; [lia|]. simpl.
  destruct (gen_layer c b g p k (initial_current b (layer_centre (gc_step c) k))) as [[l p']|] eqn:E; [|reflexivity].
  destruct (Nat.eq_dec k j) as [->|NE]; [rewrite H in E; discriminate|].
  rewrite IH; auto. lia.
Qed.
