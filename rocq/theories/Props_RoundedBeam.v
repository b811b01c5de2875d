(** Theorems C73: the beam source in binary64. *)
From Coq Require Import Reals ZArith List Bool Permutation Sorting.Sorted Lra Lia Psatz.
From Flocq Require Import Core Plus_error.
From Verif Require Import Float_Model Float_Proofs Beam2D_Model Beam2D_Spec Beam2D_Proofs Beam2D_Ex Beam3D_Model Beam3D_Spec Beam3D_Proofs Beam3D_Ex RoundedBeam_Model RoundedBeam_Spec.
Import ListNotations.
Open Scope R_scope.

Local Instance prec53 : Prec_gt_0 53 := eq_refl.
Lemma is_double_format x : is_double x <-> generic_format radix2 (FLT_exp (-1074) 53) x.
Proof.
  unfold is_double, double. split; intros H; [|apply round_generic; [apply valid_rnd_N|exact H]]. rewrite <- H. apply generic_format_round; [apply FLT_exp_valid; reflexivity|apply valid_rnd_N].
Qed.
Lemma double_double x : is_double (double x).
Proof. apply is_double_format. apply generic_format_round; [apply FLT_exp_valid; reflexivity|apply valid_rnd_N]. Qed.
Lemma sub_sign x y : is_double x -> is_double y -> (double (x - y) < 0 <-> x < y) /\ (0 < double (x - y) <-> y < x).
Proof.
  intros Hx Hy. apply is_double_format in Hx, Hy.
  assert (NZ : double (x - y) = 0 -> x = y).
  { intros H. assert (K : x + - y = 0); [|lra]. apply (round_plus_eq_0 radix2 (FLT_exp (-1074) 53) ZnearestE); [exact Hx|apply generic_format_opp; exact Hy|exact H]. }
  assert (M1 : x <= y -> double (x - y) <= 0) by (intros; rewrite <- double_0; apply double_mono; lra).
  assert (M2 : y <= x -> 0 <= double (x - y)) by (intros; rewrite <- double_0; apply double_mono; lra).
  split; split; intros H.
  - destruct (Rlt_le_dec x y) as [|L]; [assumption|]. specialize (M2 L). lra.
  - destruct (Rlt_le_dec (double (x - y)) 0) as [|L]; [assumption|]. assert (double (x - y) = 0) by (assert (K := M1 ltac:(lra)); lra). apply NZ in H0. lra.
  - destruct (Rlt_le_dec y x) as [|L]; [assumption|]. specialize (M1 L). lra.
  - destruct (Rlt_le_dec 0 (double (x - y))) as [|L]; [assumption|]. assert (double (x - y) = 0) by (assert (K := M2 ltac:(lra)); lra). apply NZ in H0. lra.
Qed.
Lemma scan_same xs hi lo : is_double hi -> is_double lo -> Forall is_double xs -> forall i start, scan_f xs i start hi lo = scan xs i start hi lo.
Proof.
  intros Hh Hl. induction 1 as [|x xs Hx _ IH]; intros i start; [reflexivity|]. cbn [scan_f scan].
  destruct (sub_sign x lo Hx Hl) as [A _], (sub_sign x hi Hx Hh) as [_ B].
  destruct (Rlt_dec (double (x - lo)) 0), (Rlt_dec (x - lo) 0); try reflexivity; try (exfalso; assert (x < lo) by (apply A; assumption); lra).
  - exfalso. apply n. apply A. lra.
  - destruct (Rlt_dec 0 (double (x - hi))), (Rlt_dec 0 (x - hi)); try reflexivity; try apply IH.
    + exfalso. assert (hi < x) by (apply B; assumption). lra.
    + exfalso. apply n1. apply B. lra.
Qed.
Lemma Forall_skipn X (P : X -> Prop) n l : Forall P l -> Forall P (skipn n l).
Proof. revert l. induction n; intros l H; [exact H|]. destruct l; [exact H|]. inversion H; subst. cbn. auto. Qed.
Lemma slice_same s hi lo : is_double hi -> is_double lo -> Forall is_double (s_xi s) -> get_beam_slice_f s hi lo = get_beam_slice s hi lo.
Proof. intros H1 H2 H3. unfold get_beam_slice_f, get_beam_slice. rewrite scan_same; [reflexivity|assumption|assumption|]. apply Forall_skipn. exact H3. Qed.

(** ** Borders *)
Lemma fine_tiny dxi x : fine_step dxi -> 1 <= x -> tiny <= x * dxi.
Proof. intros [H _] Hx. unfold tiny. assert (bpow radix2 (-1022) <= bpow radix2 (-900)) by (apply bpow_le; lia). assert (0 < bpow radix2 (-900)) by apply bpow_gt_0. nra. Qed.
Lemma border2_eq dxi i : border2 dxi i = - double (IZR i * dxi).
Proof. unfold border2. rewrite <- double_opp. f_equal. ring. Qed.
Lemma border2_border dxi i : border2 dxi i = border dxi i.
Proof. unfold border2, border. f_equal. ring. Qed.
Lemma border3_eq dxi i : border3 dxi i = border2 dxi i.
Proof. unfold border3, border2. f_equal. ring. Qed.
Lemma border_near dxi i : fine_step dxi -> (0 <= i)%Z -> IZR i * dxi * (1 - u) <= - border2 dxi i <= IZR i * dxi * (1 + u).
Proof.
  intros H Hi. rewrite border2_eq, Ropp_involutive. destruct (Z.eq_dec i 0) as [->|N]; [rewrite !Rmult_0_l, double_0; lra|].
  apply double_rel. apply fine_tiny; [exact H|]. apply IZR_le. lia.
Qed.
Lemma border_down dxi i : fine_step dxi -> (0 <= i < 2 ^ 51)%Z -> border2 dxi (i + 1) < border2 dxi i.
Proof.
  intros H Hi. assert (A := border_near dxi i H ltac:(lia)). assert (B := border_near dxi (i + 1) H ltac:(lia)). rewrite plus_IZR in B.
  assert (P : 0 < dxi) by (destruct H as [K _]; assert (G := bpow_gt_0 radix2 (-900)); lra). assert (U := u_pos). assert (US := u_small).
  assert (K : IZR i <= IZR (2 ^ 51)) by (apply IZR_le; lia). assert (K2 : IZR (2 ^ 51) * u = 1 / 4).
  { replace (IZR (2 ^ 53)) with (4 * IZR (2 ^ 51)) in US by (rewrite <- mult_IZR; f_equal). lra. }
  assert (IZR i * u <= 1 / 4) by nra. assert (u <= 1 / 8) by (assert (IZR (2^53) >= 8) by (apply Rle_ge, IZR_le; lia); nra). nra.
Qed.

Lemma owns_iff first lo hi x : owns_b first lo hi x = true <-> owns first lo hi x.
Proof.
  unfold owns_b, owns. destruct (Rle_dec lo x), (Rlt_dec x hi); cbn; try (split; intros; auto; try discriminate; tauto).
  destruct first, (Req_EM_T x hi); cbn; split; intros H; auto; try discriminate; destruct H as [_ [H|[H H2]]]; try contradiction; try discriminate.
Qed.
Section Ask.
  Variables (l : list part) (dxi : R).
  Hypotheses (Hs : StronglySorted (fun a b => xi b <= xi a) l) (Hf : fine_step dxi) (Hx : Forall is_double (map xi l)).
  Lemma border_double i : is_double (border2 dxi i). Proof. apply double_double. Qed.
  Lemma ask_f_spec parts : forall n i u, (0 <= i)%Z -> (i + Z.of_nat n <= 2 ^ 51)%Z -> parts_of l parts (border2 dxi (i + Z.of_nat n)) -> (forall p, In p (skipn u l) -> xi p <= border2 dxi i) ->
    exists sl src', ask_f (mkSrc (map xi l) parts u) dxi i n = Some (sl, src') /\ length sl = n /\
      forall k, (k < n)%nat -> let x := filter (fun p => owns_b (Nat.eqb k 0) (border2 dxi (i + Z.of_nat k + 1)) (border2 dxi (i + Z.of_nat k)) (xi p)) (skipn u l) in
        nth k sl (0%nat, []) = (length x, map fresh x).
  Proof.
    assert (Mono : forall n i, (0 <= i)%Z -> (i + Z.of_nat n <= 2 ^ 51)%Z -> border2 dxi (i + Z.of_nat n) <= border2 dxi i).
    { induction n as [|n IHn]; intros i Hi Hn; [rewrite Z.add_0_r; lra|]. assert (K := border_down dxi i Hf ltac:(lia)). specialize (IHn (i + 1)%Z ltac:(lia) ltac:(lia)). replace (i + 1 + Z.of_nat n)%Z with (i + Z.of_nat (S n))%Z in IHn by lia. lra. }
    induction n as [|n IH]; intros i u Hi Hn Hp Hhi; [exists [], (mkSrc (map xi l) parts u); split; [reflexivity|]; split; [reflexivity|]; intros; lia|].
    cbn [ask_f]. rewrite slice_same by (try apply border_double; exact Hx).
    destruct (get_slice_spec l Hs parts (border2 dxi (i + Z.of_nat (S n))) u (border2 dxi i) (border2 dxi (i + 1))) as (u' & E1 & E2); auto.
    { replace (i + Z.of_nat (S n))%Z with (i + 1 + Z.of_nat n)%Z by lia. apply Mono; lia. }
    { apply border_down; [exact Hf|lia]. }
    rewrite E1. destruct (IH (i + 1)%Z u') as (sl & src' & F1 & F2 & F3); [lia|lia|replace (i + 1 + Z.of_nat n)%Z with (i + Z.of_nat (S n))%Z by lia; exact Hp| |].
    { intros p Hin. rewrite E2 in Hin. apply filter_In in Hin. destruct Hin as [_ Hin]. unfold ltb_ in Hin. destruct (Rlt_dec (xi p) (border2 dxi (i + 1))); [lra|discriminate]. }
    rewrite F1. eexists _, _. split; [reflexivity|]. split; [cbn; lia|]. intros [|k] Hk.
    - cbn [nth Nat.eqb Z.of_nat]. rewrite Z.add_0_r.
      assert (H0 : filter (geb (border2 dxi (i + 1))) (skipn u l) = filter (fun p => owns_b true (border2 dxi (i + 1)) (border2 dxi i) (xi p)) (skipn u l)).
      { apply filter_ext_in'. intros p Hin. specialize (Hhi p Hin). unfold geb, owns_b. destruct (Rle_dec (border2 dxi (i + 1)) (xi p)); [|reflexivity]. destruct (Rlt_dec (xi p) (border2 dxi i)); [reflexivity|]. destruct (Req_EM_T (xi p) (border2 dxi i)); [reflexivity|]. lra. }
      rewrite H0. reflexivity.
    - cbn [nth Nat.eqb]. rewrite F3 by lia. cbv zeta. rewrite E2, filter_filter.
      replace (i + Z.of_nat (S k))%Z with (i + 1 + Z.of_nat k)%Z by lia.
      assert (G : filter (fun x => ltb_ (border2 dxi (i + 1)) x && owns_b (Nat.eqb k 0) (border2 dxi (i + 1 + Z.of_nat k + 1)) (border2 dxi (i + 1 + Z.of_nat k)) (xi x)) (skipn u l)
                = filter (fun p => owns_b false (border2 dxi (i + 1 + Z.of_nat k + 1)) (border2 dxi (i + 1 + Z.of_nat k)) (xi p)) (skipn u l)).
      { apply filter_ext_in'. intros p Hin. assert (K := Mono k (i + 1)%Z ltac:(lia) ltac:(lia)). unfold ltb_, owns_b. destruct (Rlt_dec (xi p) (border2 dxi (i + 1))) as [Hlt|Hge]; cbn [andb].
        - destruct (Rle_dec (border2 dxi (i + 1 + Z.of_nat k + 1)) (xi p)); [|reflexivity]. destruct (Rlt_dec (xi p) (border2 dxi (i + 1 + Z.of_nat k))) as [|N]; [reflexivity|].
          destruct k as [|k]; [|reflexivity]. exfalso. apply N. cbn [Z.of_nat]. rewrite Z.add_0_r. exact Hlt.
        - destruct (Rle_dec (border2 dxi (i + 1 + Z.of_nat k + 1)) (xi p)); [|reflexivity]. destruct (Rlt_dec (xi p) (border2 dxi (i + 1 + Z.of_nat k))); [lra|reflexivity]. }
      rewrite G. reflexivity.
  Qed.
End Ask.
Lemma new_source_f_shape sort_xi beam : sort_xi_ok sort_xi -> forall fl, -99999 <= fl ->
  exists parts, new_source_f sort_xi beam = mkSrc (map xi (sort_xi beam)) parts 0 /\ parts_of (sort_xi beam) parts fl.
Proof.
  intros Hok fl Hfl. unfold new_source_f. destruct (sort_xi beam) as [|p0 l] eqn:E; [exists []; split; [reflexivity|now left]|].
  destruct (Rlt_dec (double (xi (last (p0 :: l) p0) + 100000)) 1) as [H|H]; [|eexists; split; [reflexivity|now left]].
  eexists. split; [reflexivity|]. right. exists (last (p0 :: l) p0). split; [apply app_removelast_last; discriminate|].
  destruct (Rlt_le_dec (xi (last (p0 :: l) p0) + 100000) 1) as [|N]; [lra|]. exfalso. apply double_mono in N. rewrite (int_format 1) in N by lia. lra.
Qed.

(** 2D.  Asked in floating point for consecutive layers, the source answers request k with exactly the particles between the two
    computed borders of that layer, and with all of them. *)
Theorem C73_2d_each_layer_gets_its_particles : forall sort_xi beam dxi i n,
  sort_xi_ok sort_xi -> fine_step dxi -> (0 <= i)%Z -> (i + Z.of_nat n <= 2 ^ 51)%Z -> -99999 <= border dxi (i + Z.of_nat n) ->
  (forall p, In p beam -> is_double (xi p) /\ xi p <= border dxi i) ->
  exists sl src', ask_f (new_source_f sort_xi beam) dxi i n = Some (sl, src') /\ length sl = n /\
    forall k, (k < n)%nat -> let '(size, layer) := nth k sl (0%nat, []) in
      size = length layer /\ StronglySorted (fun a b => xi (pt b) <= xi (pt a)) layer /\
      exists x, layer = map fresh x /\
        Permutation x (filter (fun p => owns_b (Nat.eqb k 0) (border dxi (i + Z.of_nat k + 1)) (border dxi (i + Z.of_nat k)) (xi p)) beam).
Proof.
  intros sort_xi beam dxi i n Hok Hf Hi Hn Hw Hb. destruct (Hok beam) as [Hp Hs].
  assert (In1 : forall p, In p (sort_xi beam) -> In p beam) by (intros p; apply Permutation_in; exact Hp).
  destruct (new_source_f_shape sort_xi beam Hok (border2 dxi (i + Z.of_nat n))) as (parts & E & Hpo); [rewrite border2_border; exact Hw|]. rewrite E.
  destruct (ask_f_spec (sort_xi beam) dxi Hs Hf) with (parts := parts) (n := n) (i := i) (u := 0%nat) as (sl & src' & F1 & F2 & F3); auto.
  { apply Forall_forall. intros x Hin. apply in_map_iff in Hin. destruct Hin as (p & <- & Hin). apply Hb. apply In1. exact Hin. }
  { intros p Hin. rewrite border2_border. apply Hb. apply In1. exact Hin. }
  exists sl, src'. split; [exact F1|]. split; [exact F2|]. intros k Hk. rewrite (F3 k Hk). cbv zeta. cbn [skipn]. rewrite !border2_border. split; [now rewrite map_length|]. split.
  - apply (SS_map fresh (fun a b => xi (pt b) <= xi (pt a))). cbn [pt fresh]. clear - Hs. induction Hs as [|a l Hs IH Hall]; cbn [filter]; [constructor|]. destruct (owns_b _ _ _ (xi a)); [constructor; [exact IH|]|exact IH]. rewrite Forall_forall in *. intros x Hin. apply filter_In in Hin. apply Hall. tauto.
  - eexists. split; [reflexivity|]. apply filter_perm. exact Hp.
Qed.
Print Assumptions C73_2d_each_layer_gets_its_particles.

(** Together the layers hold every particle in front of the last border exactly once. *)
Lemma map_nth_all {X} (l : list X) d : map (fun k => nth k l d) (seq 0 (length l)) = l.
Proof. induction l as [|x l IH]; [reflexivity|]. cbn. f_equal. rewrite <- seq_shift, map_map. exact IH. Qed.
Lemma cut_once {X} (P Q S : X -> bool) l : (forall x, In x l -> P x = (Q x || S x)%bool) -> (forall x, In x l -> Q x = true -> S x = false) -> Permutation (filter P l) (filter Q l ++ filter S l).
Proof.
  induction l as [|x l IH]; intros H1 H2; [constructor|]. cbn. rewrite (H1 x) by now left. specialize (H2 x (or_introl eq_refl)) as D.
  assert (K := IH (fun y I => H1 y (or_intror I)) (fun y I => H2 y (or_intror I))).
  destruct (Q x) eqn:EQ; cbn.
  - rewrite (D eq_refl). constructor. exact K.
  - destruct (S x); cbn; [|exact K]. rewrite K. apply Permutation_middle.
Qed.
Lemma layers_once {X} (key : X -> R) (B : Z -> R) l i : (forall x, In x l -> key x <= B i) -> forall n, (forall k, (k < n)%nat -> B (i + Z.of_nat k + 1)%Z < B (i + Z.of_nat k)%Z) -> (0 < n)%nat ->
  Permutation (concat (map (fun k => filter (fun x => owns_b (Nat.eqb k 0) (B (i + Z.of_nat k + 1)%Z) (B (i + Z.of_nat k)%Z) (key x)) l) (seq 0 n)))
    (filter (fun x => if Rle_dec (B (i + Z.of_nat n)%Z) (key x) then true else false) l).
Proof.
  intros Ht. induction n as [|n IH]; intros Hb Hn; [lia|]. rewrite seq_S, map_app, concat_app. cbn [map concat Nat.add]. rewrite app_nil_r.
  replace (i + Z.of_nat (S n))%Z with (i + Z.of_nat n + 1)%Z by lia. assert (Hk := Hb n ltac:(lia)).
  destruct n as [|n].
  - cbn [seq map concat app Nat.eqb Z.of_nat]. rewrite Z.add_0_r. rewrite (filter_ext_in' (fun x => owns_b true (B (i + 1)%Z) (B i) (key x)) (fun x => if Rle_dec (B (i + 1)%Z) (key x) then true else false)); [reflexivity|].
    intros x Hx. specialize (Ht x Hx). unfold owns_b. destruct (Rle_dec (B (i + 1)%Z) (key x)); [|reflexivity]. destruct (Rlt_dec (key x) (B i)); [reflexivity|]. destruct (Req_EM_T (key x) (B i)); [reflexivity|lra].
  - rewrite IH by (try lia; intros; apply Hb; lia). symmetry. apply cut_once; intros x Hx.
    + unfold owns_b. cbn [Nat.eqb andb]. destruct (Rle_dec (B (i + Z.of_nat (S n) + 1)%Z) (key x)), (Rle_dec (B (i + Z.of_nat (S n))%Z) (key x)), (Rlt_dec (key x) (B (i + Z.of_nat (S n))%Z)); try reflexivity; lra.
    + unfold owns_b. cbn [Nat.eqb andb]. destruct (Rle_dec (B (i + Z.of_nat (S n))%Z) (key x)); [intros _|discriminate]. destruct (Rle_dec (B (i + Z.of_nat (S n) + 1)%Z) (key x)); [|reflexivity]. destruct (Rlt_dec (key x) (B (i + Z.of_nat (S n))%Z)); [lra|reflexivity].
Qed.
Theorem C73_2d_delivered_exactly_once : forall sort_xi beam dxi i n,
  sort_xi_ok sort_xi -> fine_step dxi -> (0 <= i)%Z -> (i + Z.of_nat n <= 2 ^ 51)%Z -> (0 < n)%nat -> -99999 <= border dxi (i + Z.of_nat n) ->
  (forall p, In p beam -> is_double (xi p) /\ xi p <= border dxi i) ->
  exists sl src', ask_f (new_source_f sort_xi beam) dxi i n = Some (sl, src') /\
    Permutation (concat (map snd sl)) (map fresh (filter (fun p => if Rle_dec (border dxi (i + Z.of_nat n)) (xi p) then true else false) beam)).
Proof.
  intros sort_xi beam dxi i n Hok Hf Hi Hn Hn0 Hw Hb. destruct (C73_2d_each_layer_gets_its_particles sort_xi beam dxi i n Hok Hf Hi Hn Hw Hb) as (sl & src' & E & L & K).
  exists sl, src'. split; [exact E|]. rewrite <- (layers_once xi (border dxi) beam i) with (n := n); [|intros x Hx; apply Hb; exact Hx| |exact Hn0].
  2:{ intros k Hk. rewrite <- !border2_border. apply border_down; [exact Hf|lia]. }
  rewrite <- (map_nth_all sl (0%nat, [])), L. rewrite concat_map, !map_map.
  assert (G : forall m, (m <= n)%nat -> Permutation (concat (map (fun k => snd (nth k sl (0%nat, []))) (seq 0 m)))
    (concat (map (fun k => map fresh (filter (fun p => owns_b (Nat.eqb k 0) (border dxi (i + Z.of_nat k + 1)) (border dxi (i + Z.of_nat k)) (xi p)) beam)) (seq 0 m)))).
  { induction m as [|m IH]; intros Hm; [constructor|]. rewrite seq_S, !map_app, !concat_app. cbn [map concat Nat.add]. rewrite !app_nil_r. apply Permutation_app; [apply IH; lia|].
    specialize (K m ltac:(lia)). destruct (nth m sl (0%nat, [])) as [size layer]. cbn [snd]. destruct K as (_ & _ & x & -> & P). apply Permutation_map. exact P. }
  apply G. lia.
Qed.
Print Assumptions C73_2d_delivered_exactly_once.

(** 3D. *)
Section Ask3.
  Variable dxi : R.
  Hypothesis Hf : fine_step dxi.
  Let B := border dxi.
  Definition below (t : R) (p : part3) : bool := if Rlt_dec (b_xi p) t then true else false.
  Lemma layer3_owns i p : in_layer3_f dxi i p = owns_b false (B (i + 1)%Z) (B i) (b_xi p).
  Proof. unfold in_layer3_f, owns_b, B. rewrite !border3_eq, !border2_border. cbn [andb]. reflexivity. Qed.
  Lemma cut3_f i l : StronglySorted (fun a b => b_xi b <= b_xi a) l -> (forall p, In p l -> b_xi p < B i) ->
    get_layer3_f dxi l i = (filter (in_layer3_f dxi i) l, filter (below (B (i + 1)%Z)) l).
  Proof.
    unfold get_layer3_f. induction 1 as [|p l Hs IH Hall]; intros Ht; [reflexivity|]. cbn [filter]. rewrite layer3_owns. unfold owns_b, below. cbn [andb]. assert (Hp := Ht p (or_introl eq_refl)).
    destruct (Rle_dec (B (i + 1)%Z) (b_xi p)) as [Hle|Hn].
    - destruct (Rlt_dec (b_xi p) (B i)); [|lra]. destruct (Rlt_dec (b_xi p) (B (i + 1)%Z)); [lra|]. cbn [List.length firstn skipn]. assert (K := IH (fun q I => Ht q (or_intror I))). injection K as K1 K2. rewrite K1, K2. reflexivity.
    - destruct (Rlt_dec (b_xi p) (B (i + 1)%Z)); [|lra].
      assert (E : filter (in_layer3_f dxi i) l = []).
      { apply filter_none. intros q Hq. rewrite Forall_forall in Hall. specialize (Hall q Hq). rewrite layer3_owns. unfold owns_b. destruct (Rle_dec (B (i + 1)%Z) (b_xi q)); [lra|reflexivity]. }
      rewrite E. cbn [List.length firstn skipn]. f_equal. f_equal. assert (K := IH (fun q I => Ht q (or_intror I))). rewrite E in K. cbn in K. injection K as K. exact K.
  Qed.
  Lemma ask3_f_spec : forall n i l, (0 <= i)%Z -> (i + Z.of_nat n <= 2 ^ 51)%Z -> StronglySorted (fun a b => b_xi b <= b_xi a) l -> (forall p, In p l -> b_xi p < B i) ->
    ask3_f dxi l i n = (map (fun k => filter (in_layer3_f dxi (i + Z.of_nat k)) l) (seq 0 n), filter (below (B (i + Z.of_nat n)%Z)) l).
  Proof.
    assert (Down : forall i, (0 <= i < 2 ^ 51)%Z -> B (i + 1)%Z < B i) by (intros i Hi; unfold B; rewrite <- !border2_border; apply border_down; assumption).
    assert (Mono : forall n i, (0 <= i)%Z -> (i + Z.of_nat n <= 2 ^ 51)%Z -> B (i + Z.of_nat n)%Z <= B i).
    { induction n as [|n IHn]; intros i Hi Hn; [rewrite Z.add_0_r; lra|]. assert (K := Down i ltac:(lia)). specialize (IHn (i + 1)%Z ltac:(lia) ltac:(lia)). replace (i + 1 + Z.of_nat n)%Z with (i + Z.of_nat (S n))%Z in IHn by lia. lra. }
    induction n as [|n IH]; intros i l Hi Hn Hs Ht.
    - cbn [ask3_f seq map Z.of_nat]. rewrite Z.add_0_r. f_equal. symmetry. rewrite filter_idem; [reflexivity|]. intros p Hp. unfold below. specialize (Ht p Hp). destruct (Rlt_dec (b_xi p) (B i)); [reflexivity|lra].
    - cbn [ask3_f]. rewrite (cut3_f i l Hs Ht). rewrite (IH (i + 1)%Z (filter (below (B (i + 1)%Z)) l)); [|lia|lia|apply SS_filter; exact Hs|].
      2:{ intros p Hp. apply filter_In in Hp. destruct Hp as [_ Hp]. unfold below in Hp. destruct (Rlt_dec (b_xi p) (B (i + 1)%Z)); [assumption|discriminate]. }
      f_equal.
      + cbn [seq map Z.of_nat]. rewrite Z.add_0_r. f_equal. rewrite <- seq_shift, map_map. apply map_ext_in. intros k Hk. apply in_seq in Hk. rewrite filter_filter. replace (i + Z.of_nat (S k))%Z with (i + 1 + Z.of_nat k)%Z by lia.
        apply filter_ext_in'. intros p Hp. rewrite layer3_owns. unfold below, owns_b. cbn [andb]. assert (M := Mono k (i + 1)%Z ltac:(lia) ltac:(lia)).
        destruct (Rlt_dec (b_xi p) (B (i + 1)%Z)); [reflexivity|]. cbn [andb]. destruct (Rle_dec _ _); [|reflexivity]. destruct (Rlt_dec (b_xi p) (B (i + 1 + Z.of_nat k)%Z)); [lra|reflexivity].
      + rewrite filter_filter. replace (i + Z.of_nat (S n))%Z with (i + 1 + Z.of_nat n)%Z by lia. apply filter_ext_in'. intros p Hp. unfold below. assert (M := Mono n (i + 1)%Z ltac:(lia) ltac:(lia)).
        destruct (Rlt_dec (b_xi p) (B (i + 1 + Z.of_nat n)%Z)); [|apply andb_false_r]. destruct (Rlt_dec (b_xi p) (B (i + 1)%Z)); [reflexivity|lra].
  Qed.
End Ask3.
Lemma ask3_f_all : forall n dxi i l sl rest, ask3_f dxi l i n = (sl, rest) -> concat sl ++ rest = l.
Proof.
  induction n as [|n IH]; intros dxi i l sl rest E; cbn [ask3_f] in E; [injection E as <- <-; reflexivity|].
  destruct (get_layer3_f dxi l i) as [a l1] eqn:G. destruct (ask3_f dxi l1 (i + 1) n) as [r0 s2] eqn:E2. injection E as <- <-. cbn [concat]. rewrite <- app_assoc, (IH _ _ _ _ _ E2).
  unfold get_layer3_f in G. injection G as <- <-. apply firstn_skipn.
Qed.
Theorem C73_3d_each_layer_gets_its_particles : forall sort3 beam dxi i n, sort3_ok sort3 -> fine_step dxi -> (0 <= i)%Z -> (i + Z.of_nat n <= 2 ^ 51)%Z ->
  (forall p, In p beam -> b_xi p < border dxi i) ->
  exists sl rest, ask3_f dxi (new_source3 sort3 beam) i n = (sl, rest) /\ length sl = n /\
    (forall k p, (k < n)%nat -> (In p (nth k sl []) <-> In p beam /\ owns false (border dxi (i + Z.of_nat k + 1)) (border dxi (i + Z.of_nat k)) (b_xi p))) /\
    (forall p, In p rest <-> In p beam /\ b_xi p < border dxi (i + Z.of_nat n)) /\
    Permutation (concat sl ++ rest) beam.
Proof.
  intros sort3 beam dxi i n Hok Hf Hi Hn Ht. destruct (Hok beam) as [Hp Hs]. assert (Hin : forall p, In p (sort3 beam) <-> In p beam) by (intros p; split; apply Permutation_in; auto; now apply Permutation_sym).
  assert (E := ask3_f_spec dxi Hf n i (sort3 beam) Hi Hn Hs (fun p I => Ht p (proj1 (Hin p) I))). unfold new_source3. eexists _, _. split; [exact E|]. split; [now rewrite map_length, seq_length|]. split; [|split].
  - intros k p Hk. rewrite (nth_indep _ [] (filter (in_layer3_f dxi (i + Z.of_nat 0)) (sort3 beam))) by (now rewrite map_length, seq_length).
    rewrite (map_nth (fun k => filter (in_layer3_f dxi (i + Z.of_nat k)) (sort3 beam))), seq_nth by auto. cbn [Nat.add]. rewrite filter_In, Hin, layer3_owns, owns_iff. tauto.
  - intros p. rewrite filter_In, Hin. unfold below. destruct (Rlt_dec _ _); intuition discriminate.
  - eapply Permutation_trans; [|exact Hp]. rewrite (ask3_f_all n dxi i (sort3 beam) _ _ E). apply Permutation_refl.
Qed.
Print Assumptions C73_3d_each_layer_gets_its_particles.

(** The computed borders are where they belong, to one rounding, and in order; a particle farther than that from them is in the
    layer of its exact position. *)
Theorem C73_borders : forall dxi i, fine_step dxi -> (0 <= i < 2 ^ 51)%Z ->
  border dxi (i + 1) < border dxi i /\
  Rabs (border dxi i - - (IZR i * dxi)) <= IZR i * dxi * bpow radix2 (-53) /\
  forall x, IZR i * dxi * bpow radix2 (-53) < Rabs (x - - (IZR i * dxi)) -> (x < border dxi i <-> x < - (IZR i * dxi)).
Proof.
  intros dxi i Hf Hi. rewrite <- !border2_border. split; [apply border_down; assumption|]. assert (A := border_near dxi i Hf ltac:(lia)).
  assert (C : Rabs (border2 dxi i - - (IZR i * dxi)) <= IZR i * dxi * bpow radix2 (-53)) by (apply Rabs_le; lra). split; [exact C|].
  intros x Hx. apply Rabs_le_inv in C. split; intros H.
  - destruct (Rlt_le_dec x (- (IZR i * dxi))) as [|G]; [assumption|]. rewrite Rabs_right in Hx by lra. lra.
  - rewrite Rabs_left in Hx by lra. lra.
Qed.
Print Assumptions C73_borders.

(** A case: layers of length 1/2, particles inside and exactly on borders; the last particle is beyond the third layer. *)
Definition case_beam : list part := [mkPart (-1) 0 0 0 0 1 1 1; mkPart 0 0 0 0 0 1 1 2; mkPart (-(3/4)) 0 0 0 0 1 1 3; mkPart (-2) 0 0 0 0 1 1 4].
Definition case_beam3 : list part3 := [mk3 (-1) 0 0 0 0 1 1 1 1 0 0; mk3 (-(1/4)) 0 0 0 0 1 1 1 2 0 0; mk3 (-2) 0 0 0 0 1 1 1 3 0 0].
Lemma quarters m : (Z.abs m < 2 ^ 53)%Z -> double (IZR m / 4) = IZR m / 4.
Proof. intros H. replace (IZR m / 4) with (IZR m * bpow radix2 (-2)) by (change (bpow radix2 (-2)) with (/ 4); reflexivity). apply double_exact; [exact H|lia]. Qed.
Lemma case_border i : (0 <= i < 2 ^ 51)%Z -> border (1/2) i = - (IZR i / 2).
Proof.
  intros H. unfold border. replace (- (IZR i * (1 / 2))) with (IZR (- (2 * i)) / 4) by (rewrite opp_IZR, mult_IZR; lra). rewrite quarters by lia. rewrite opp_IZR, mult_IZR. lra.
Qed.
Lemma case_fine : fine_step (1/2).
Proof.
  unfold fine_step. replace (1/2) with (bpow radix2 (-1)) by (change (bpow radix2 (-1)) with (/ 2); lra). split; apply bpow_le; lia.
Qed.
Example C73_case :
  (sort_xi_ok isort /\ sort3_ok isort3 /\ fine_step (1/2) /\ (0 + Z.of_nat 3 <= 2 ^ 51)%Z /\ -99999 <= border (1/2) (0 + Z.of_nat 3) /\
   (forall p, In p case_beam -> is_double (xi p) /\ xi p <= border (1/2) 0) /\ (forall p, In p case_beam3 -> b_xi p < border (1/2) 0)) /\
  (exists sl src', ask_f (new_source_f isort case_beam) (1/2) 0 3 = Some (sl, src') /\ Permutation (map pid (map pt (concat (map snd sl)))) [1; 2; 3]%Z).
Proof.
  assert (B3 : border (1/2) (0 + Z.of_nat 3) = - (3/2)) by (rewrite case_border by (cbn; lia); cbn; lra).
  assert (B0 : border (1/2) 0 = 0) by (rewrite case_border by lia; lra).
  assert (H : forall p, In p case_beam -> is_double (xi p) /\ xi p <= border (1/2) 0).
  { intros p. rewrite B0. unfold is_double, case_beam. cbn [In]. intros [<-|[<-|[<-|[<-|[]]]]]; cbn [xi]; (split; [|lra]).
    - apply (int_format (-1)); lia.
    - apply double_0.
    - replace (-(3/4)) with (IZR (-3) / 4) by lra. apply quarters. lia.
    - apply (int_format (-2)); lia. }
  split.
  - split; [exact isort_ok|]. split; [exact isort3_ok|]. split; [exact case_fine|]. split; [cbn; lia|]. split; [rewrite B3; lra|]. split; [exact H|].
    intros p. rewrite B0. unfold case_beam3. cbn [In]. intros [<-|[<-|[<-|[]]]]; cbn [b_xi]; lra.
  - destruct (C73_2d_delivered_exactly_once isort case_beam (1/2) 0 3 isort_ok case_fine ltac:(lia) ltac:(cbn; lia) ltac:(lia) ltac:(rewrite B3; lra) H) as (sl & src' & E & P).
    exists sl, src'. split; [exact E|]. apply (Permutation_map pt), (Permutation_map pid) in P. eapply Permutation_trans; [exact P|]. rewrite B3. unfold case_beam. cbn [filter xi].
    repeat (destruct (Rle_dec _ _) as [?|?]; try lra). reflexivity.
Qed.
