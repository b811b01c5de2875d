From Coq Require Import Reals ZArith List Bool Lia Lra Permutation Sorting.Sorted.
From Verif Require Import Beam2D_Model Beam2D_Spec.
Import ListNotations.
Open Scope R_scope.

(** ** Source *)
Lemma scan_spec xs : forall i start hi lo,
  StronglySorted (fun a b => b <= a) xs -> (forall x, In x xs -> x <= hi) ->
  fst (scan xs i start hi lo) = (i + length (filter (fun x => if Rle_dec lo x then true else false) xs))%nat /\
  snd (scan xs i start hi lo) = false /\
  firstn (length (filter (fun x => if Rle_dec lo x then true else false) xs)) xs = filter (fun x => if Rle_dec lo x then true else false) xs /\
  skipn (length (filter (fun x => if Rle_dec lo x then true else false) xs)) xs = filter (fun x => if Rlt_dec x lo then true else false) xs.
Proof.
  induction xs as [|x xs IH]; intros i start hi lo Hs Hhi; cbn [scan filter length].
  - simpl. repeat split; auto; lia.
  - inversion Hs as [|? ? Hs' Hall]; subst.
    destruct (Rlt_dec (x - lo) 0) as [Hlt|Hge].
    + destruct (Rle_dec lo x); [lra|]. destruct (Rlt_dec x lo); [|lra].
      assert (F : filter (fun x0 => if Rle_dec lo x0 then true else false) xs = []).
      { clear -Hall n. induction Hall as [|y l Hy Hl IHl]; simpl; auto.
        destruct (Rle_dec lo y); [lra|auto]. }
      assert (G : filter (fun x0 => if Rlt_dec x0 lo then true else false) xs = xs).
      { clear -Hall n. induction Hall as [|y l Hy Hl IHl]; simpl; auto.
        destruct (Rlt_dec y lo); [now rewrite IHl|lra]. }
      rewrite F, G. simpl. repeat split; auto; lia.
    + destruct (Rlt_dec 0 (x - hi)) as [Hx|Hx]; [pose proof (Hhi x (or_introl eq_refl)); lra|].
      destruct (Rle_dec lo x) as [_|]; [|lra]. destruct (Rlt_dec x lo); [lra|].
      destruct (IH (S i) start hi lo Hs') as (E1 & E2 & E3 & E4).
      { intros y Hy. apply Hhi. now right. }
      rewrite E1, E2. simpl. rewrite E3, E4. repeat split; auto; lia.
Qed.

Lemma filter_map {X Y} (f : X -> Y) (g : Y -> bool) l : filter g (map f l) = map f (filter (fun x => g (f x)) l).
Proof. induction l; simpl; auto. destruct (g (f a)); simpl; now rewrite IHl. Qed.
Lemma SS_map {X Y} (f : X -> Y) (Rl : Y -> Y -> Prop) l :
  StronglySorted (fun a b => Rl (f a) (f b)) l -> StronglySorted Rl (map f l).
Proof.
  induction 1 as [|a l Hs IH Hall]; simpl; constructor; auto.
  clear -Hall. induction Hall; simpl; constructor; auto.
Qed.
Lemma SS_skipn {X} (Rl : X -> X -> Prop) n : forall l, StronglySorted Rl l -> StronglySorted Rl (skipn n l).
Proof.
  induction n as [|n IH]; intros l H; auto. destruct l; auto. simpl. apply IH. now inversion H.
Qed.
Lemma SS_filter {X} (Rl : X -> X -> Prop) (f : X -> bool) l : StronglySorted Rl l -> StronglySorted Rl (filter f l).
Proof.
  induction 1 as [|a l Hs IH Hall]; simpl; [constructor|]. destruct (f a); auto. constructor; auto.
  clear -Hall. induction Hall; simpl; [constructor|]. destruct (f x); auto.
Qed.

Definition geb (lo : R) (p : part) : bool := if Rle_dec lo (xi p) then true else false.
Definition ltb_ (lo : R) (p : part) : bool := if Rlt_dec (xi p) lo then true else false.

Lemma firstn_map {X Y} (f : X -> Y) n : forall l, firstn n (map f l) = map f (firstn n l).
Proof. induction n; intros [|a l]; simpl; auto. now rewrite IHn. Qed.
Lemma skipn_map {X Y} (f : X -> Y) n : forall l, skipn n (map f l) = map f (skipn n l).
Proof. induction n; intros [|a l]; simpl; auto. Qed.

(** One request of the full, sorted list [l]. *)
Lemma sorted_cut l lo : StronglySorted (fun a b => xi b <= xi a) l ->
  firstn (length (filter (geb lo) l)) l = filter (geb lo) l /\
  skipn (length (filter (geb lo) l)) l = filter (ltb_ lo) l.
Proof.
  induction 1 as [|x l Hs IH Hall]; simpl; auto.
  destruct (geb lo x) eqn:Eg; destruct (ltb_ lo x) eqn:El; unfold geb, ltb_ in Eg, El;
  destruct (Rle_dec lo (xi x)) as [H|H]; destruct (Rlt_dec (xi x) lo) as [H'|H']; try lra; try discriminate; simpl.
  - destruct IH as [E1 E2]. rewrite E1, E2. auto.
  - assert (F : filter (geb lo) l = []).
    { clear -Hall H'. induction Hall as [|y l Hy Hl IHl]; simpl; auto. unfold geb at 1.
      destruct (Rle_dec lo (xi y)); [lra|auto]. }
    assert (G : filter (ltb_ lo) l = l).
    { clear -Hall H'. induction Hall as [|y l Hy Hl IHl]; simpl; auto. unfold ltb_ at 1.
      destruct (Rlt_dec (xi y) lo); [now rewrite IHl|lra]. }
    rewrite F, G. simpl. auto.
Qed.

Lemma filter_idem {X} (f : X -> bool) l : (forall x, In x l -> f x = true) -> filter f l = l.
Proof.
  induction l; simpl; intros H; auto. rewrite H by auto. f_equal. apply IHl. auto.
Qed.
Lemma filter_none {X} (f : X -> bool) l : (forall x, In x l -> f x = false) -> filter f l = [].
Proof.
  induction l; simpl; intros H; auto. rewrite H by auto. apply IHl. auto.
Qed.
Lemma filter_filter {X} (f g : X -> bool) l : filter f (filter g l) = filter (fun x => g x && f x) l.
Proof.
  induction l as [|a l IH]; simpl; auto. destruct (g a) eqn:E; simpl; rewrite ?E; [destruct (f a)|]; now rewrite IH.
Qed.
Lemma filter_ext_in' {X} (f g : X -> bool) l : (forall x, In x l -> f x = g x) -> filter f l = filter g l.
Proof.
  induction l; simpl; intros H; auto. rewrite <- (H a) by auto. rewrite IHl by auto. reflexivity.
Qed.

Lemma skipn_add {X} u k : forall l : list X, skipn (u + k) l = skipn k (skipn u l).
Proof. induction u; intros l; simpl; auto. destruct l; auto. destruct k; auto. Qed.

(** Source invariant: the undelivered part of the sorted xi array is the particles below [top],
    and s_parts holds the same particles (possibly without a stub at the end). *)
Section Src.
  Variable l : list part.
  Hypothesis Hs : StronglySorted (fun a b => xi b <= xi a) l.

  (** [parts] is [l] or [l] without one last particle [st]. *)
  Definition parts_of (parts : list part) (floor : R) : Prop :=
    parts = l \/ (exists st, l = parts ++ [st] /\ xi st < floor).

  Lemma skipn_used u : skipn u (map xi l) = map xi (skipn u l).
  Proof. apply skipn_map. Qed.

  Lemma get_slice_spec parts fl u hi lo :
    parts_of parts fl -> fl <= lo -> lo < hi ->
    (forall p, In p (skipn u l) -> xi p <= hi) ->
    exists u', get_beam_slice (mkSrc (map xi l) parts u) hi lo =
      Some (length (filter (geb lo) (skipn u l)), map fresh (filter (geb lo) (skipn u l)), mkSrc (map xi l) parts u') /\
      skipn u' l = filter (ltb_ lo) (skipn u l).
  Proof.
    intros Hp Hfl Hlt Hhi. unfold get_beam_slice. cbn [used s_xi s_parts].
    destruct (Rlt_dec lo hi); [|lra]. rewrite skipn_used.
    pose proof (SS_skipn _ u l Hs) as Hs'.
    destruct (scan_spec (map xi (skipn u l)) u u hi lo) as (E1 & E2 & _ & _).
    { apply (SS_map xi (fun a b => b <= a)). exact Hs'. }
    { intros x Hx. apply in_map_iff in Hx. destruct Hx as (p & <- & Hx). now apply Hhi. }
    destruct (scan (map xi (skipn u l)) u u hi lo) as [e fg]. cbn [fst snd] in E1, E2. subst fg.
    rewrite filter_map, map_length in E1. change (fun x => if Rle_dec lo (xi x) then true else false) with (geb lo) in E1.
    set (k := length (filter (geb lo) (skipn u l))) in *.
    replace (e - u)%nat with k by lia.
    destruct (sorted_cut (skipn u l) lo Hs') as [C1 C2]. fold k in C1, C2.
    exists (u + k)%nat. split.
    - do 2 f_equal. f_equal. f_equal. rewrite <- C1.
      destruct Hp as [->|(st & El & Hst)]; auto.
      (* the stub is not among the first k *)
      assert (Hk : (k <= length (skipn u parts))%nat).
      { unfold k. subst l. rewrite skipn_app. rewrite filter_app.
        assert (filter (geb lo) (skipn (u - length parts) [st]) = []) as ->.
        { apply filter_none. intros x Hx. unfold geb.
          assert (x = st) by (destruct (u - length parts)%nat; simpl in Hx; [intuition|destruct n; simpl in Hx; contradiction]).
          subst. destruct (Rle_dec lo (xi st)); [lra|auto]. }
        rewrite app_nil_r. clear. induction (skipn u parts); simpl; auto. destruct (geb lo a); simpl; lia. }
      subst l. rewrite skipn_app, firstn_app.
      replace (k - length (skipn u parts))%nat with 0%nat by lia. simpl. now rewrite app_nil_r.
    - rewrite <- C2. clearbody k. apply skipn_add.
  Qed.

  Lemma ask_spec parts dxi : 0 < dxi -> forall n i u,
    parts_of parts (- (IZR (i + Z.of_nat n) * dxi)) ->
    (forall p, In p (skipn u l) -> xi p <= - (IZR i * dxi)) ->
    exists sl src', ask (mkSrc (map xi l) parts u) dxi i n = Some (sl, src') /\
      length sl = n /\
      (forall k, (k < n)%nat -> nth k sl (0%nat, []) =
         let x := filter (fun p => if Nat.eqb k 0 then in_xi_layer_top dxi i p else in_xi_layer dxi (i + Z.of_nat k) p) (skipn u l) in
         (length x, map fresh x)).
  Proof.
    intros Hd. induction n as [|n IH]; intros i u Hp Hhi.
    - exists [], (mkSrc (map xi l) parts u). split; auto. split; auto. intros; lia.
    - cbn [ask].
      destruct (get_slice_spec parts (- (IZR (i + Z.of_nat (S n)) * dxi)) u (IZR i * - dxi) (IZR (i + 1) * - dxi)) as (u' & E1 & E2); auto.
      { rewrite !plus_IZR. rewrite Nat2Z.inj_succ, succ_IZR. pose proof (IZR_le 0 (Z.of_nat n) ltac:(lia)). nra. }
      { rewrite plus_IZR. nra. }
      { intros p Hx. specialize (Hhi p Hx). lra. }
      rewrite E1.
      destruct (IH (i + 1)%Z u') as (sl & src' & F1 & F2 & F3).
      { replace (i + 1 + Z.of_nat n)%Z with (i + Z.of_nat (S n))%Z by lia. exact Hp. }
      { intros p Hx. rewrite E2 in Hx. apply filter_In in Hx. destruct Hx as [_ Hx]. unfold ltb_ in Hx.
        destruct (Rlt_dec (xi p) (IZR (i + 1) * - dxi)); [lra|discriminate]. }
      rewrite F1. eexists _, _. split; [reflexivity|]. split; [simpl; lia|].
      assert (H0 : filter (geb (IZR (i + 1) * - dxi)) (skipn u l) = filter (in_xi_layer_top dxi i) (skipn u l)).
      { apply filter_ext_in'. intros p Hx. specialize (Hhi p Hx). unfold geb, in_xi_layer_top.
        destruct (Rle_dec (IZR (i + 1) * - dxi) (xi p)), (Rle_dec (- (IZR (i + 1) * dxi)) (xi p)); try lra; auto.
        destruct (Rle_dec (xi p) (- (IZR i * dxi))); auto. lra. }
      intros [|k] Hk.
      + simpl. rewrite H0. reflexivity.
      + cbn [nth]. rewrite F3 by lia. cbv zeta. rewrite E2, filter_filter.
        assert (G : filter (fun x => ltb_ (IZR (i + 1) * - dxi) x && (if Nat.eqb k 0 then in_xi_layer_top dxi (i + 1) x else in_xi_layer dxi (i + 1 + Z.of_nat k) x)) (skipn u l)
                  = filter (fun p => if Nat.eqb (S k) 0 then in_xi_layer_top dxi i p else in_xi_layer dxi (i + Z.of_nat (S k)) p) (skipn u l)).
        { apply filter_ext_in'. intros p Hx. cbn [Nat.eqb].
          replace (i + Z.of_nat (S k))%Z with (i + 1 + Z.of_nat k)%Z by lia.
          unfold ltb_. destruct (Rlt_dec (xi p) (IZR (i + 1) * - dxi)) as [Hlt|Hge]; cbn [andb].
          - destruct k as [|k]; cbn [Nat.eqb]; auto. simpl Z.of_nat. rewrite Z.add_0_r.
            unfold in_xi_layer_top, in_xi_layer.
            destruct (Rle_dec (- (IZR (i + 1 + 1) * dxi)) (xi p)); auto.
            destruct (Rle_dec (xi p) (- (IZR (i + 1) * dxi))), (Rlt_dec (xi p) (- (IZR (i + 1) * dxi))); auto; lra.
          - symmetry. unfold in_xi_layer.
            destruct (Rle_dec (- (IZR (i + 1 + Z.of_nat k + 1) * dxi)) (xi p)); auto.
            destruct (Rlt_dec (xi p) (- (IZR (i + 1 + Z.of_nat k) * dxi))); auto.
            exfalso. rewrite (plus_IZR (i+1)) in r0. pose proof (IZR_le 0 (Z.of_nat k) ltac:(lia)). nra. }
        rewrite G. reflexivity.
  Qed.
End Src.

Lemma new_source_shape sort_xi beam : sort_xi_ok sort_xi -> forall fl, -99999 <= fl ->
  exists parts, new_source sort_xi beam = mkSrc (map xi (sort_xi beam)) parts 0 /\
    parts_of (sort_xi beam) parts fl.
Proof.
  intros Hok fl Hfl. destruct (Hok beam) as [_ Hs]. unfold new_source.
  destruct (sort_xi beam) as [|p0 l] eqn:E.
  - exists []. split; auto. now left.
  - destruct (Rlt_dec (xi (last (p0 :: l) p0) + 100000) 1) as [H|H].
    + eexists. split; [reflexivity|]. right. exists (last (p0 :: l) p0). split; [|lra].
      apply app_removelast_last. discriminate.
    + eexists. split; [reflexivity|]. now left.
Qed.

Lemma source_delivers sort_xi beam dxi i n :
  sort_xi_ok sort_xi -> 0 < dxi -> IZR (i + Z.of_nat n) * dxi <= 99999 ->
  (forall p, In p beam -> xi p <= - (IZR i * dxi)) ->
  exists sl src', ask (new_source sort_xi beam) dxi i n = Some (sl, src') /\
    length sl = n /\
    forall k, (k < n)%nat ->
      let x := filter (fun p => if Nat.eqb k 0 then in_xi_layer_top dxi i p
                                else in_xi_layer dxi (i + Z.of_nat k) p) (sort_xi beam) in
      nth k sl (0%nat, []) = (length x, map fresh x).
Proof.
  intros Hok Hd Hw Hb. destruct (Hok beam) as [Hp Hs].
  destruct (new_source_shape sort_xi beam Hok (- (IZR (i + Z.of_nat n) * dxi))) as (parts & E & Hpo); [lra|].
  rewrite E. destruct (ask_spec (sort_xi beam) Hs parts dxi Hd n i 0%nat Hpo) as (sl & src' & F1 & F2 & F3).
  { intros p Hx. apply Hb. eapply Permutation_in; [exact Hp|exact Hx]. }
  exists sl, src'. auto.
Qed.

Lemma filter_perm {X} (f : X -> bool) l l' : Permutation l l' -> Permutation (filter f l) (filter f l').
Proof.
  induction 1; simpl; auto.
  - destruct (f x); auto.
  - destruct (f x), (f y); auto. apply perm_swap.
  - eapply Permutation_trans; eauto.
Qed.

(** ** Blocking *)
Lemma ahead_blocks_one xs parts x rest dxi i : 0 < dxi -> xs = x :: rest -> - (IZR i * dxi) < x ->
  get_beam_slice (mkSrc xs parts 0) (IZR i * - dxi) (IZR (i + 1) * - dxi) = Some (0%nat, [], mkSrc xs parts 0).
Proof.
  intros Hd -> Hx. unfold get_beam_slice. cbn [used s_xi s_parts skipn scan].
  rewrite plus_IZR. destruct (Rlt_dec ((IZR i + 1) * - dxi) (IZR i * - dxi)); [|nra].
  destruct (Rlt_dec (x - (IZR i + 1) * - dxi) 0); [nra|].
  destruct (Rlt_dec 0 (x - IZR i * - dxi)); [|lra]. reflexivity.
Qed.
Lemma ahead_blocks xs parts x rest dxi : 0 < dxi -> xs = x :: rest -> forall n i, - (IZR i * dxi) < x ->
  ask (mkSrc xs parts 0) dxi i n = Some (repeat (0%nat, []) n, mkSrc xs parts 0).
Proof.
  intros Hd Ex. induction n as [|n IH]; intros i Hx; cbn [ask]; auto.
  rewrite (ahead_blocks_one xs parts x rest) by auto.
  rewrite IH; [reflexivity|]. rewrite plus_IZR. lra.
Qed.

Lemma particle_ahead_blocks sort_xi beam dxi i n p : sort_xi_ok sort_xi -> 0 < dxi ->
  In p beam -> - (IZR i * dxi) < xi p ->
  exists s, ask (new_source sort_xi beam) dxi i n = Some (repeat (0%nat, []) n, s).
Proof.
  intros Hok Hd Hin Hx. destruct (Hok beam) as [Hp Hs].
  assert (Hin' : In p (sort_xi beam)) by (eapply Permutation_in; [apply Permutation_sym; exact Hp|auto]).
  unfold new_source. destruct (sort_xi beam) as [|p0 l] eqn:E; [contradiction|].
  assert (xi p <= xi p0).
  { destruct Hin' as [->|H]; [lra|]. inversion Hs as [|? ? _ Hall]; subst. rewrite Forall_forall in Hall. auto. }
  eexists. rewrite (ahead_blocks (map xi (p0 :: l)) _ (xi p0) (map xi l)); auto. lra.
Qed.

(** ** Split *)
Lemma SS_true_suffix (key : bpart -> bool) l :
  StronglySorted (fun a b => key a = true -> key b = true) l ->
  l = filter (fun b => negb (key b)) l ++ filter key l.
Proof.
  induction 1 as [|a l Hs IH Hall]; simpl; auto. destruct (key a) eqn:E; simpl.
  - assert (F : filter (fun b => negb (key b)) l = []).
    { apply filter_none. rewrite Forall_forall in Hall. intros x Hx. rewrite (Hall x Hx); auto. }
    rewrite F in *. simpl in *. now rewrite <- IH.
  - now rewrite <- IH.
Qed.

Lemma firstn_exact {X} (a b : list X) n : n = length a -> firstn n (a ++ b) = a /\ skipn n (a ++ b) = b.
Proof.
  intros ->. split.
  - rewrite firstn_app, firstn_all, Nat.sub_diag. simpl. apply app_nil_r.
  - rewrite skipn_app, skipn_all, Nat.sub_diag. reflexivity.
Qed.

Lemma filter_rev {X} (f : X -> bool) l : filter f (rev l) = rev (filter f l).
Proof.
  induction l; simpl; auto. rewrite filter_app, IHl. simpl. destruct (f a); simpl; auto. now rewrite app_nil_r.
Qed.
Lemma filter_len_compl {X} (f : X -> bool) l : (length l - length (filter f l) = length (filter (fun x => negb (f x)) l))%nat.
Proof.
  assert (H : (length (filter f l) + length (filter (fun x => negb (f x)) l) = length l)%nat).
  { induction l; simpl; auto. destruct (f a); simpl; lia. }
  lia.
Qed.

Definition moving_b (xi_end : R) (b : bpart) : bool :=
  (0 <? rem b)%nat || (if Rlt_dec (xi (pt b)) xi_end then true else false).

Lemma split_spec sort_bool l xi_end ls st mv : sort_bool_ok sort_bool ->
  split_beam_slice sort_bool l xi_end = (ls, st, mv) ->
  Permutation ls (filter lost l) /\
  Permutation st (filter (fun b => negb (lost b) && negb (moving_b xi_end b)) l) /\
  Permutation mv (filter (fun b => negb (lost b) && moving_b xi_end b) l).
Proof.
  intros Hok H. unfold split_beam_slice in H. cbv zeta in H.
  destruct (Hok lost l) as [P1 S1]. set (s0 := sort_bool lost l) in *.
  pose proof (SS_true_suffix lost s0 S1) as E0.
  assert (E1 : rev s0 = rev (filter lost s0) ++ rev (filter (fun b => negb (lost b)) s0)).
  { rewrite E0 at 1. apply rev_app_distr. }
  assert (Hc : count lost (rev s0) = length (rev (filter lost s0))).
  { unfold count. now rewrite filter_rev. }
  destruct (firstn_exact (rev (filter lost s0)) (rev (filter (fun b => negb (lost b)) s0)) _ Hc) as [F1 F2].
  rewrite <- E1 in F1, F2. rewrite F1, F2 in H. clear F1 F2 Hc.
  set (rest := rev (filter (fun b => negb (lost b)) s0)) in *.
  change (fun b => (0 <? rem b)%nat || (if Rlt_dec (xi (pt b)) xi_end then true else false)) with (moving_b xi_end) in H.
  destruct (Hok (moving_b xi_end) rest) as [P2 S2]. set (s2 := sort_bool (moving_b xi_end) rest) in *.
  pose proof (SS_true_suffix (moving_b xi_end) s2 S2) as E2.
  assert (Hc : (length rest - count (moving_b xi_end) rest)%nat = length (filter (fun b => negb (moving_b xi_end b)) s2)).
  { unfold count. rewrite filter_len_compl. apply Permutation_length. apply filter_perm. now apply Permutation_sym. }
  destruct (firstn_exact (filter (fun b => negb (moving_b xi_end b)) s2) (filter (moving_b xi_end) s2) _ Hc) as [F1 F2].
  rewrite <- E2 in F1, F2. rewrite F1, F2 in H. injection H as <- <- <-.
  assert (PR : Permutation s2 (filter (fun b => negb (lost b)) l)).
  { eapply Permutation_trans; [exact P2|]. unfold rest.
    eapply Permutation_trans; [apply Permutation_sym, Permutation_rev|]. now apply filter_perm. }
  split; [|split].
  - eapply Permutation_trans; [apply Permutation_sym, Permutation_rev|]. now apply filter_perm.
  - eapply Permutation_trans; [apply filter_perm; exact PR|]. rewrite filter_filter. reflexivity.
  - eapply Permutation_trans; [apply filter_perm; exact PR|]. rewrite filter_filter. reflexivity.
Qed.

Lemma split_perm sort_bool l xi_end ls st mv : sort_bool_ok sort_bool ->
  split_beam_slice sort_bool l xi_end = (ls, st, mv) -> Permutation (ls ++ st ++ mv) l.
Proof.
  intros Hok H. destruct (split_spec sort_bool l xi_end ls st mv Hok H) as (A & B & C).
  eapply Permutation_trans; [apply Permutation_app; [exact A|apply Permutation_app; [exact B|exact C]]|].
  clear. induction l as [|b l IH]; simpl; auto.
  destruct (lost b); cbn [negb andb].
  - simpl. now constructor.
  - destruct (moving_b xi_end b); cbn [negb].
    + rewrite app_assoc. apply Permutation_sym. eapply Permutation_trans; [|apply Permutation_middle].
      constructor. apply Permutation_sym. rewrite <- app_assoc. exact IH.
    + simpl. apply Permutation_sym. eapply Permutation_trans; [|apply Permutation_middle].
      constructor. apply Permutation_sym. exact IH.
Qed.

(** ** Pusher: bookkeeping *)
Lemma push_loop_keeps c fk1 fk xi_end : forall steps b,
  ident (push_loop c fk1 fk xi_end steps b) = ident b /\ dt (push_loop c fk1 fk xi_end steps b) = dt b.
Proof.
  induction steps as [|steps IH]; intros b; cbn [push_loop]; auto.
  destruct (beam_to_vec (pt b)) as [pv x].
  destruct (negb (in_layer (half_position (pt b) (dt b)) xi_end)); auto.
  destruct (is_lost (half_position (pt b) (dt b)) (lost_boundary c)); [split; reflexivity|].
  destruct (substep _ _ _ _) as [x1 p1].
  destruct (is_lost x1 (lost_boundary c)); [split; reflexivity|].
  destruct (IH (vec_to_beam c b x1 p1 steps (lost b))) as [E1 E2]. rewrite E1, E2. split; reflexivity.
Qed.

Lemma prepare_keeps h c b b' : prepare h c b = Some b' -> ident b' = ident b /\ lost b' = lost b /\ pt b' = pt b.
Proof.
  unfold prepare. destruct (Req_EM_T (dt b) 0); [destruct (Req_EM_T (sub_energy c) 0)|].
  - intros H. injection H as <-. auto.
  - destruct (halve_loop _ _ _); simpl; [|discriminate]. intros H. injection H as <-. auto.
  - intros H. injection H as <-. auto.
Qed.

Lemma map_opt_keeps {X Y Z} (f : X -> option Y) (g : X -> Z) (h : Y -> Z) : 
  (forall x y, f x = Some y -> h y = g x) -> forall l l', map_opt f l = Some l' -> map h l' = map g l.
Proof.
  intros Hf. induction l as [|x l IH]; intros l'; simpl.
  - intros E. injection E as <-. reflexivity.
  - destruct (f x) as [y|] eqn:Ey; simpl; [|discriminate].
    destruct (map_opt f l) as [l1|]; simpl; [|discriminate]. intros E. injection E as <-.
    simpl. rewrite (Hf x y Ey), (IH l1 eq_refl). reflexivity.
Qed.

Lemma move_perm sort_bool h c l xi_i pf nf ls st mv : sort_bool_ok sort_bool ->
  move_beam_layer sort_bool h c l xi_i pf nf = Some (ls, st, mv) ->
  Permutation (idents (ls ++ st ++ mv)) (idents l).
Proof.
  intros Hok H. unfold move_beam_layer in H.
  destruct (map_opt (prepare h c) l) as [l'|] eqn:E; cbn [option_map] in H; [|discriminate].
  assert (H' := split_perm sort_bool (map (push_particle c nf pf (IZR xi_i * - xi_step c)) l')
    (IZR xi_i * - xi_step c) ls st mv Hok ltac:(congruence)). clear H. rename H' into H. unfold idents.
  eapply Permutation_trans; [apply Permutation_map; exact H|]. rewrite map_map.
  assert (K : map (fun x => ident (push_particle c nf pf (IZR xi_i * - xi_step c) x)) l' = map ident l).
  { rewrite <- (map_opt_keeps (prepare h c) ident ident) with (l' := l') (l := l); auto.
    - apply map_ext. intros b. apply push_loop_keeps.
    - intros x y Hy. now apply prepare_keeps in Hy. }
  rewrite K. reflexivity.
Qed.

(** ** Conservation over the xi loop *)
Lemma ident_dec : forall x y : Z * R * R, {x = y} + {x <> y}.
Proof. repeat decide equality; apply Req_EM_T. Qed.

Lemma get_slice_ledger s hi lo sz l s' : get_beam_slice s hi lo = Some (sz, l, s') ->
  undelivered s = l ++ undelivered s'.
Proof.
  unfold get_beam_slice. destruct (Rlt_dec lo hi); [|discriminate].
  destruct (scan _ _ _ _ _) as [e fg]. intros H. injection H as <- <- <-.
  unfold undelivered. cbn [used s_parts]. rewrite skipn_add, <- map_app, firstn_skipn. reflexivity.
Qed.

Lemma drain_push_concat d s : concat (drain_push d s) = concat d ++ s.
Proof. destruct s; simpl; [now rewrite app_nil_r|]. rewrite concat_app. simpl. now rewrite app_nil_r. Qed.

Section Loop.
  Variable sort_bool : (bpart -> bool) -> list bpart -> list bpart.
  Hypothesis Hok : sort_bool_ok sort_bool.
  Variable Pl : Type.
  Variable plasma : Pl -> list R -> list R -> Pl.
  Variable pl_fields : Pl -> fields.
  Notation iter := (xi_iter sort_bool Pl plasma pl_fields).
  Notation loop := (xi_loop sort_bool Pl plasma pl_fields).

  Definition ledger (s : loop_state Pl) : list bpart :=
    undelivered (ls_src Pl s) ++ ls_move Pl s ++ ls_lost Pl s ++ concat (ls_drain Pl s).

  Lemma iter_ledger h c i s s' : iter h c i s = Some s' -> Permutation (idents (ledger s')) (idents (ledger s)).
  Proof.
    unfold xi_iter. destruct (get_beam_slice _ _ _) as [[[sz layer] src']|] eqn:Eg; simpl; [|discriminate].
    destruct (layout_beam_layer _ _ _ _ _) as [[rho rho']|]; simpl; [|discriminate].
    destruct (move_beam_layer _ _ _ _ _ _ _) as [[[l moved] fell]|] eqn:Em; simpl; [|discriminate].
    intros H. injection H as <-. unfold ledger. cbn [ls_src ls_move ls_lost ls_drain].
    rewrite drain_push_concat. rewrite (get_slice_ledger _ _ _ _ _ _ Eg).
    apply move_perm in Em; auto. unfold idents in *. rewrite !map_app in *.
    set (a := map ident (undelivered src')). set (b := map ident layer). set (f := map ident fell) in *.
    set (lo := map ident (ls_lost Pl s)). set (ll := map ident l) in *.
    set (d := map ident (concat (ls_drain Pl s))). set (m := map ident moved) in *.
    set (mv := map ident (ls_move Pl s)) in *.
    (* a ++ (b ++ f) ++ (lo ++ ll) ++ (d ++ m)  ~  (b ++ a) ++ mv ++ lo ++ d *)
    transitivity ((b ++ a) ++ (ll ++ m ++ f) ++ lo ++ d).
    - apply (Permutation_count_occ ident_dec). intros x. rewrite !count_occ_app. lia.
    - apply Permutation_app_head. apply Permutation_app_tail. exact Em.
  Qed.
End Loop.
