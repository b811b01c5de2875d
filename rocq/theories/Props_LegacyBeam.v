(** Theorems C72: the beam generator for profiles in the format of the C LCODE. *)
From Coq Require Import Reals ZArith List Bool String Lia Lra Psatz Permutation.
From Verif Require Import Beam2D_Model BeamGen_Model Profile_Model CylProfile_Model LegacyBeam_Model LegacyBeam_Spec LegacyBeam_Proofs Beam2D_Free.
Import ListNotations.
Local Open Scope list_scope.
Local Open Scope R_scope.

(** ** Segments: one for each block of the profile, every one starts where the one before ends, the parameters are the last ones
    given in the block, or the defaults. *)

Definition reads (fl : string -> option R) (key v : string) : option value := if is_shape key then Some (Txt v) else option_map Num (fl v).
Fixpoint assigns (fl : string -> option R) (s : seg) (ps : list (string * string)) : option seg :=
  match ps with [] => Some s | (k, v) :: r => let? s' := assign fl s k v in assigns fl s' r end.
Lemma assigns_get fl ps : forall s s', assigns fl s ps = Some s' -> forall key,
  s' key = match last_given key ps with Some v => reads fl key v | None => s key end /\ (forall v, last_given key ps = Some v -> reads fl key v <> None).
Proof.
  induction ps as [|[k v] ps IH]; intros s s' H key; cbn in *; [injection H as <-; split; [reflexivity|discriminate]|].
  destruct (assign fl s k v) as [s1|] eqn:E; [|discriminate]. cbn in H. destruct (IH _ _ H key) as [A B]. rewrite A.
  assert (Q : s1 key = if String.eqb key k then reads fl key v else s key).
  { unfold assign in E. unfold reads. destruct (is_shape k) eqn:S; [injection E as <-|destruct (fl v) as [x|] eqn:F; [injection E as <-|discriminate]]; unfold set_par;
    destruct (String.eqb_spec key k) as [->|]; try rewrite S; try rewrite F; reflexivity. }
  assert (Q2 : reads fl k v <> None) by (unfold assign in E; unfold reads; destruct (is_shape k); [discriminate|]; destruct (fl v); [discriminate|discriminate]).
  destruct (last_given key ps) as [w|] eqn:G; [split; [reflexivity|exact B]|]. rewrite Q. destruct (String.eqb_spec key k) as [->|]; split; try reflexivity; try discriminate. intros w K. injection K as <-. exact Q2.
Qed.
Lemma split_params fl ps : forall rest xi done s, (forall k v, In (k, v) ps -> k <> "xishape"%string) ->
  split_loop fl (ps ++ rest) xi done (Some s) = let? s' := assigns fl s ps in split_loop fl rest xi done (Some s').
Proof.
  induction ps as [|[k v] ps IH]; intros rest xi done s H; [reflexivity|]. cbn [app split_loop assigns]. destruct (String.eqb_spec k "xishape") as [E|_]; [exfalso; exact (H k v (or_introl eq_refl) E)|].
  cbn. destruct (assign fl s k v) as [s1|]; [cbn|reflexivity]. apply IH. intros; eapply H; right; eauto.
Qed.
Definition seg_of (fl : string -> option R) (xi : R) (b : block) (s : seg) : Prop := forall key,
  s key = match last_given key (snd b) with Some v => reads fl key v
          | None => if String.eqb key "xishape" then Some (Txt (fst b)) else if String.eqb key "xi0" then Some (Num xi) else default_segment key end /\
  (forall v, last_given key (snd b) = Some v -> reads fl key v <> None).
Fixpoint chain (fl : string -> option R) (xi : R) (bs : list block) (segs : list seg) : Prop :=
  match bs, segs with
  | [], [] => True
  | b :: bs', s :: segs' => seg_of fl xi b s /\ exists len, num s "length" = Some len /\ chain fl (xi - len) bs' segs'
  | _, _ => False
  end.
Lemma length_defined fl xi b s : seg_of fl xi b s -> exists len, num s "length" = Some len.
Proof.
  intros H. destruct (H "length"%string) as [A B]. unfold num. rewrite A. destruct (last_given "length" (snd b)) as [v|]; [|eexists; reflexivity].
  specialize (B v eq_refl). unfold reads in *. cbn in *. destruct (fl v) as [x|]; [eexists; reflexivity|contradiction].
Qed.
Lemma fresh_seg fl xi b s : assigns fl (set_par (set_par default_segment "xi0" (Num xi)) "xishape" (Txt (fst b))) (snd b) = Some s -> seg_of fl xi b s.
Proof. intros H key. exact (assigns_get fl (snd b) _ _ H key). Qed.
Lemma split_chain fl bs : forall b xi done s segs, clean bs -> seg_of fl xi b s -> split_loop fl (written bs) xi done (Some s) = Some segs ->
  exists rest, segs = done ++ s :: rest /\ chain fl xi (b :: bs) (s :: rest).
Proof.
  induction bs as [|b' bs IH]; intros b xi done s segs C S H; destruct (length_defined _ _ _ _ S) as (len & L).
  - cbn in H. injection H as <-. exists []. split; [reflexivity|]. cbn. split; [exact S|]. exists len. auto.
  - cbn [written flat_map app split_loop] in H. change (String.eqb "xishape" "xishape") with true in H. cbn [fst snd] in H. rewrite L in H.
    unfold assign in H. change (is_shape "xishape") with true in H. cbv beta iota in H. cbn [app obind] in H. change (flat_map (fun b => ("xishape"%string, fst b) :: snd b) bs) with (written bs) in H.
    rewrite split_params in H by (intros k v I; exact (C b' k v (or_introl eq_refl) I)).
    destruct (assigns fl _ (snd b')) as [s'|] eqn:E; [|discriminate]. apply fresh_seg in E.
    destruct (IH b' (xi - len) (done ++ [s]) s' segs) as (rest & -> & K); [intros x k v I; apply (C x k v); now right|exact E|exact H|].
    exists (s' :: rest). split; [rewrite <- app_assoc; reflexivity|]. cbn [chain]. split; [exact S|]. exists len. split; [exact L|exact K].
Qed.
Lemma split_is_chain fl bs segs : clean bs -> split_into_segments fl (written bs) = Some segs -> chain fl 0 bs segs.
Proof.
  intros C H. destruct bs as [|b bs]; [discriminate|]. unfold split_into_segments in H. cbn [written flat_map app split_loop] in H. change (String.eqb "xishape" "xishape") with true in H. cbn [fst snd] in H.
  unfold assign in H. change (is_shape "xishape") with true in H. cbv beta iota in H. cbn [app obind] in H. change (flat_map (fun b => ("xishape"%string, fst b) :: snd b) bs) with (written bs) in H.
  rewrite split_params in H by (intros k v I; exact (C b k v (or_introl eq_refl) I)).
  destruct (assigns fl _ (snd b)) as [s'|] eqn:E; [|discriminate]. apply fresh_seg in E.
  destruct (split_chain fl bs b 0 [] s' segs) as (rest & -> & K); [intros x k v I; apply (C x k v); now right|exact E|exact H|]. exact K.
Qed.
Lemma sum_upto_S f n : sum_upto f (S n) = f 0%nat + sum_upto (fun k => f (S k)) n.
Proof. unfold sum_upto. cbn [seq map fold_right]. rewrite <- seq_shift, map_map. reflexivity. Qed.
Lemma chain_xi fl bs : forall xi segs, chain fl xi bs segs -> List.length segs = List.length bs /\
  forall k s b, nth_error segs k = Some s -> nth_error bs k = Some b -> seg_of fl (xi - sum_upto (length_of segs) k) b s.
Proof.
  induction bs as [|b bs IH]; intros xi segs H; destruct segs as [|s segs]; try contradiction; [split; [reflexivity|intros [|k]; discriminate]|].
  destruct H as (S & len & L & C). destruct (IH _ _ C) as (A & B). split; [cbn; lia|]. intros [|k] t c Ht Hc; cbn in Ht, Hc.
  - injection Ht as <-. injection Hc as <-. unfold sum_upto. cbn. rewrite Rminus_0_r. exact S.
  - specialize (B k t c Ht Hc). rewrite sum_upto_S. replace (length_of (s :: segs) 0) with len by (unfold length_of; cbn; rewrite L; reflexivity).
    replace (xi - (len + sum_upto (fun k0 => length_of (s :: segs) (Datatypes.S k0)) k)) with (xi - len - sum_upto (length_of segs) k); [exact B|].
    change (fun k0 => length_of (s :: segs) (Datatypes.S k0)) with (length_of segs). ring.
Qed.
Theorem C72_segments : forall fl bs segs, clean bs -> (forall b k v, In b bs -> In (k, v) (snd b) -> k <> "xi0"%string) -> split_into_segments fl (written bs) = Some segs ->
  List.length segs = List.length bs /\
  forall k s b, nth_error segs k = Some s -> nth_error bs k = Some b ->
    txt s "xishape" = Some (fst b) /\
    num s "xi0" = Some (0 - sum_upto (length_of segs) k) /\
    (forall key v, last_given key (snd b) = Some v -> (In key word_names -> s key = Some (Txt v)) /\ (In key number_names -> exists x, fl v = Some x /\ s key = Some (Num x))) /\
    (forall key v, In (key, v) defaults -> last_given key (snd b) = None -> s key = Some v).
Proof.
  intros fl bs segs C X H. destruct (chain_xi _ _ _ _ (split_is_chain _ _ _ C H)) as (A & B). split; [exact A|]. intros k s b Hs Hb. specialize (B k s b Hs Hb).
  assert (Ib : In b bs) by (eapply nth_error_In; exact Hb).
  assert (N : forall key, (forall k v, In (k, v) (snd b) -> k <> key) -> last_given key (snd b) = None).
  { clear. intros key H. induction (snd b) as [|[k v] ps IH]; [reflexivity|]. cbn. rewrite IH by (intros; eapply H; right; eauto). destruct (String.eqb_spec key k) as [->|]; [|reflexivity]. exfalso. exact (H k v (or_introl eq_refl) eq_refl). }
  split; [|split; [|split]].
  - unfold txt. destruct (B "xishape"%string) as [-> _]. rewrite N by (intros; eapply C; eauto). reflexivity.
  - unfold num. destruct (B "xi0"%string) as [-> _]. rewrite N by (intros; eapply X; eauto). reflexivity.
  - intros key v L. destruct (B key) as [E F]. rewrite L in E. specialize (F v L). rewrite E. unfold reads in *. split; intros I.
    + replace (is_shape key) with true; [reflexivity|]. cbn in I. repeat destruct I as [<-|I]; try reflexivity. contradiction.
    + replace (is_shape key) with false in *; [|cbn in I; repeat destruct I as [<-|I]; try reflexivity; contradiction]. destruct (fl v) as [x|]; [|contradiction]. exists x. split; reflexivity.
  - intros key v I L. destruct (B key) as [E _]. rewrite L in E. rewrite E. cbn in I. repeat destruct I as [I|I]; try (injection I as <- <-; cbn; try reflexivity; do 2 f_equal; lra). contradiction.
Qed.
Print Assumptions C72_segments.

(** A profile that does not start with a longitudinal shape raises; so does a number that float() rejects. *)
Theorem C72_bad_profiles_raise : forall fl,
  split_into_segments fl [] = None /\
  (forall k v rest, k <> "xishape"%string -> split_into_segments fl ((k, v) :: rest) = None) /\
  (forall b ps k v rest, (forall k v, In (k, v) ps -> k <> "xishape"%string) -> In k number_names -> fl v = None ->
     split_into_segments fl (("xishape"%string, b) :: ps ++ (k, v) :: rest) = None).
Proof.
  intros fl. split; [reflexivity|]. split.
  - intros k v rest H. unfold split_into_segments. cbn. destruct (String.eqb_spec k "xishape"); [contradiction|reflexivity].
  - intros b ps k v rest Hp Hk0 Hv. assert (Hk : k <> "xishape"%string) by (intros ->; cbn in Hk0; repeat destruct Hk0 as [Hk0|Hk0]; try discriminate; contradiction). assert (Hs : is_shape k = false) by (cbn in Hk0; repeat destruct Hk0 as [<-|Hk0]; try reflexivity; contradiction). unfold split_into_segments. cbn [split_loop]. change (String.eqb "xishape" "xishape") with true. cbv iota. unfold assign at 1. change (is_shape "xishape") with true. cbv beta iota. cbn [app obind].
    rewrite split_params by exact Hp. destruct (assigns fl _ ps) as [s|]; [|reflexivity]. cbn [split_loop]. destruct (String.eqb_spec k "xishape"); [contradiction|]. unfold assign. rewrite Hs, Hv. reflexivity.
Qed.
Print Assumptions C72_bad_profiles_raise.

(** ** Layers: the longitudinal sample of a segment has in each layer the whole number of particles that the shape asks for. *)
Lemma whole x : 0 <= x -> INR (Z.to_nat (py_int x)) <= x < INR (Z.to_nat (py_int x)) + 1.
Proof.
  intros H. unfold py_int. destruct (Rlt_dec x 0); [lra|]. assert (F := floorR_nonneg x H). rewrite INR_IZR_INZ, Z2Nat.id by exact F. apply floorR_spec.
Qed.
Theorem C72_layers : forall f xi_max vmin vmax ppl dxi u xis, 0 < dxi -> (forall i, 0 <= u i < 1) -> 0 <= ppl -> 0 < f xi_max -> (forall x, 0 <= f x) ->
  stepwise_xi f xi_max vmin vmax ppl dxi u = Some xis ->
  let bottom := floorR (vmin / dxi) in let top := floorR (vmax / dxi) in
  (forall x, In x xis -> IZR bottom * dxi <= x < IZR top * dxi) /\
  forall j, (bottom <= j < top)%Z -> let n := how_many (in_layer dxi j) xis in INR n <= ppl * f (middle dxi j) / f xi_max < INR n + 1.
Proof.
  intros f xi_max vmin vmax ppl dxi u xis Hd Hu Hp Hm Hf H bottom top. unfold stepwise_xi in H. fold top bottom in H. destruct (Z.leb_spec top bottom) as [|L]; [discriminate|]. injection H as <-. split.
  - intros x Hx. apply layers_range in Hx; try assumption. rewrite Z2Nat.id in Hx by lia. replace (top - (top - bottom))%Z with bottom in Hx by lia. exact Hx.
  - intros j Hj n. unfold n. rewrite layers_counted by (assumption || lia). unfold layer_count. replace ((IZR j * dxi + (IZR j * dxi + dxi)) / 2) with (middle dxi j) by (unfold middle; field).
    apply whole. apply Rmult_le_pos; [apply Rmult_le_pos; [exact Hp|apply Hf]|left; apply Rinv_0_lt_compat; exact Hm].
Qed.
Print Assumptions C72_layers.

(** ** The beam *)
Lemma shape_of name xi0 len f : len <> 0 -> xishape_f name xi0 len = Some f -> (forall x, shape name xi0 len x = Some (f x)) /\ f xi0 = 1 /\ (forall x, 0 <= f x).
Proof.
  intros L H. unfold xishape_f, shape in *. destruct (String.eqb name "g").
  - injection H as <-. split; [|split].
    + intros x. unfold gauss. do 2 f_equal. field. exact L.
    + unfold gauss. replace (- (xi0 - xi0) ^ 2 / 2 / (len / 6) ^ 2) with 0 by (field; exact L). apply exp_0.
    + intros x. left. apply exp_pos.
  - destruct (String.eqb name "c" || String.eqb name "cos"); [|discriminate]. injection H as <-. unfold cosine. split; [|split].
    + intros x. f_equal. replace (2 * PI * (x - xi0) / (2 * len)) with (PI * (x - xi0) / len) by (field; exact L). field.
    + replace (2 * PI * (xi0 - xi0) / (2 * len)) with 0 by (field; exact L). rewrite cos_0. field.
    + intros x. destruct (COS_bound (2 * PI * (x - xi0) / (2 * len))). lra.
Qed.
(** What one segment contributes. *)
Lemma segment_parts norm_ppf geom L dxi I ppl sh u s b : segment_beam norm_ppf geom L dxi I ppl sh u s = Some b ->
  exists name xi0 len ampl mq f xis, txt s "xishape" = Some name /\ num s "xi0" = Some xi0 /\ num s "length" = Some len /\ num s "ampl" = Some ampl /\ num s "m/q" = Some mq /\
    xishape_f name xi0 len = Some f /\ stepwise_xi f xi0 (xi0 - len) xi0 ppl dxi u = Some xis /\
    exists b0, b = b0 ++ [stub] /\ Permutation (map l_xi b0) (filter (fun x => if Rle_dec (- L) x then (if Rle_dec x 0 then true else false) else false) xis) /\
      forall p, In p b0 -> l_q p = 2 * xi_amp f xi0 (ampl * I) / ppl /\ l_qm p = 1 / mq.
Proof.
  unfold segment_beam. destruct (txt s "xishape") as [name|]; [cbn [obind]|discriminate]. destruct (num s "xi0") as [xi0|]; [cbn [obind]|discriminate].
  destruct (num s "length") as [len|]; [cbn [obind]|discriminate]. destruct (num s "ampl") as [ampl|]; [cbn [obind]|discriminate]. destruct (num s "m/q") as [mq|]; [cbn [obind]|discriminate].
  destruct (xishape_f name xi0 len) as [f|] eqn:F; [cbn [obind]|discriminate]. destruct (distrs_from_shapes norm_ppf s) as [d|]; [cbn [obind]|discriminate]. destruct (columns geom) eqn:G; [cbn [obind]|discriminate].
  destruct (stepwise_xi f xi0 (xi0 - len) xi0 ppl dxi u) as [xis|] eqn:X; [cbn [obind]|discriminate]. intros H. apply make_beam_some in H. destruct H as (cols & col & xi & _ & E & ->).
  exists name, xi0, len, ampl, mq, f, xis. do 5 (split; [reflexivity|]). split; [exact F|]. split; [exact X|]. eexists. split; [reflexivity|]. split.
  - rewrite map_map. cbn [l_xi]. rewrite map_nth_seq. rewrite E. apply sort_perm.
  - intros p Hp. apply in_map_iff in Hp. destruct Hp as (k & <- & _). split; reflexivity.
Qed.
Lemma in_perm_map b0 (l : list R) p : Permutation (map l_xi b0) l -> In p b0 -> In (l_xi p) l.
Proof. intros H I. rewrite <- H. apply in_map. exact I. Qed.
Lemma sorted_stub l r0 : down _ l_xi l -> Permutation l (r0 ++ [stub]) -> (forall p, In p r0 -> l_xi stub < l_xi p) -> exists front, l = front ++ [stub] /\ Permutation front r0.
Proof.
  intros D P H. assert (I : In stub l) by (rewrite P; apply in_or_app; right; now left). apply in_split in I. destruct I as (a & c & ->).
  assert (Q' : Permutation (a ++ c) r0). { apply (Permutation_app_inv a c r0 [] stub) in P. rewrite app_nil_r in P. exact P. }
  destruct c as [|y c]; [exists a; rewrite app_nil_r in Q'; split; [reflexivity|exact Q']|]. exfalso.
  assert (K : l_xi y <= l_xi stub). { clear - D. induction a as [|z a IH]; cbn in D; inversion D as [|? ? F D']; subst; [inversion F; subst; assumption|apply IH; exact D']. }
  assert (M : In y r0) by (rewrite <- Q'; apply in_or_app; right; now left). specialize (H y M). lra.
Qed.

Section Beam.
  Variables (norm_ppf : R -> R) (geom : string) (L dxi I ppl : R) (shs : nat -> string -> nat -> nat -> nat) (us : nat -> nat -> R).
  Hypotheses (Hd : 0 < dxi) (Hu : forall k i, 0 <= us k i < 1) (HL : L < 100000).
  Let mk := fun k => segment_beam norm_ppf geom L dxi I ppl (shs k) (us k).
  Lemma mk_stub k s b : mk k s = Some b -> exists b0, b = b0 ++ [stub].
  Proof. intros H. apply segment_parts in H. destruct H as (? & ? & ? & ? & ? & ? & ? & _ & _ & _ & _ & _ & _ & _ & b0 & E & _). exists b0. exact E. Qed.
  (** Every particle of a segment, except the stub. *)
  Lemma mk_particle k s b p : mk k s = Some b -> In p b -> p <> stub -> exists name xi0 len ampl mq f,
    txt s "xishape" = Some name /\ num s "xi0" = Some xi0 /\ num s "length" = Some len /\ num s "ampl" = Some ampl /\ num s "m/q" = Some mq /\ xishape_f name xi0 len = Some f /\
    - L <= l_xi p <= 0 /\ IZR (floorR ((xi0 - len) / dxi)) * dxi <= l_xi p < IZR (floorR (xi0 / dxi)) * dxi /\
    l_q p = 2 * xi_amp f xi0 (ampl * I) / ppl /\ l_qm p = 1 / mq.
  Proof.
    intros H Ip Np. apply segment_parts in H. destruct H as (name & xi0 & len & ampl & mq & f & xis & H1 & H2 & H3 & H4 & H5 & H6 & H7 & b0 & -> & P & Q).
    apply in_app_or in Ip. destruct Ip as [Ip|[Ip|[]]]; [|congruence]. exists name, xi0, len, ampl, mq, f. do 6 (split; [assumption|]). destruct (Q p Ip) as [Q1 Q2].
    assert (X := in_perm_map _ _ _ P Ip). apply filter_In in X. destruct X as [X Y]. split.
    - destruct (Rle_dec (- L) (l_xi p)); [|discriminate]. destruct (Rle_dec (l_xi p) 0); [|discriminate]. lra.
    - split; [|split; assumption]. unfold stepwise_xi in H7. destruct (Z.leb_spec (floorR (xi0 / dxi)) (floorR ((xi0 - len) / dxi))) as [|Z]; [discriminate|]. injection H7 as <-.
      apply layers_range in X; [|exact Hd|apply Hu]. rewrite Z2Nat.id in X by lia. replace (floorR (xi0 / dxi) - (floorR (xi0 / dxi) - floorR ((xi0 - len) / dxi)))%Z with (floorR ((xi0 - len) / dxi)) in X by lia. exact X.
  Qed.
  (** How many of them lie in a layer. *)
  Lemma mk_count k s b j : mk k s = Some b -> - L <= IZR j * dxi -> (j < 0)%Z -> exists name xi0 len f,
    txt s "xishape" = Some name /\ num s "xi0" = Some xi0 /\ num s "length" = Some len /\ xishape_f name xi0 len = Some f /\
    how_many (fun p => in_layer dxi j (l_xi p)) b =
      (if (floorR ((xi0 - len) / dxi) <=? j)%Z && (j <? floorR (xi0 / dxi))%Z then Z.to_nat (py_int (ppl * f (middle dxi j) / f xi0)) else 0)%nat.
  Proof.
    intros H W J. apply segment_parts in H. destruct H as (name & xi0 & len & ampl & mq & f & xis & H1 & H2 & H3 & H4 & H5 & H6 & H7 & b0 & -> & P & Q).
    exists name, xi0, len, f. do 4 (split; [assumption|]). rewrite how_many_app. assert (S0 : how_many (fun p => in_layer dxi j (l_xi p)) [stub] = 0%nat).
    { apply how_many_none. intros x [<-|[]]. destruct (in_layer dxi j (l_xi stub)) eqn:E; [|reflexivity]. apply in_layer_iff in E. cbn in E. lra. }
    rewrite S0, Nat.add_0_r. rewrite <- (how_many_map _ _ l_xi (in_layer dxi j)). rewrite (how_many_perm _ _ _ _ P). rewrite how_many_filter.
    2:{ intros x Hx. apply in_layer_iff in Hx. assert (IZR (j + 1) <= 0) by (apply IZR_le; lia). destruct (Rle_dec (- L) x); [|lra]. destruct (Rle_dec x 0); [reflexivity|nra]. }
    unfold stepwise_xi in H7. destruct (Z.leb_spec (floorR (xi0 / dxi)) (floorR ((xi0 - len) / dxi))) as [|Z]; [discriminate|]. injection H7 as <-.
    destruct (Z.leb_spec (floorR ((xi0 - len) / dxi)) j) as [A|A]; [destruct (Z.ltb_spec j (floorR (xi0 / dxi))) as [B|B]|]; cbn [andb].
    - rewrite layers_counted; [|exact Hd|apply Hu|lia]. unfold layer_count. replace ((IZR j * dxi + (IZR j * dxi + dxi)) / 2) with (middle dxi j) by (unfold middle; field). reflexivity.
    - apply how_many_none. intros x Hx. apply layers_range in Hx; [|exact Hd|apply Hu]. destruct (in_layer dxi j x) eqn:E; [|reflexivity]. apply in_layer_iff in E.
      assert (IZR (floorR (xi0 / dxi)) <= IZR j) by (apply IZR_le; exact B). nra.
    - apply how_many_none. intros x Hx. apply layers_range in Hx; [|exact Hd|apply Hu]. rewrite Z2Nat.id in Hx by lia. replace (floorR (xi0 / dxi) - (floorR (xi0 / dxi) - floorR ((xi0 - len) / dxi)))%Z with (floorR ((xi0 - len) / dxi)) in Hx by lia.
      destruct (in_layer dxi j x) eqn:E; [|reflexivity]. apply in_layer_iff in E. assert (IZR (j + 1) <= IZR (floorR ((xi0 - len) / dxi))) by (apply IZR_le; lia). nra.
  Qed.
End Beam.

Lemma split_nonempty fl pars : forall xi done cur segs, split_loop fl pars xi done cur = Some segs -> segs <> [].
Proof.
  induction pars as [|[k v] pars IH]; intros xi done cur segs H; cbn in H.
  - destruct cur; [|discriminate]. cbn in H. injection H as <-. destruct done; discriminate.
  - destruct (String.eqb k "xishape"); destruct cur as [s|]; cbn in H; try discriminate.
    + destruct (num s "length"); [cbn in H|discriminate]. destruct (assign _ _ _ _); [cbn in H|discriminate]. exact (IH _ _ _ _ H).
    + destruct (assign _ _ _ _); [cbn in H|discriminate]. exact (IH _ _ _ _ H).
    + destruct (assign _ _ _ _); [cbn in H|discriminate]. exact (IH _ _ _ _ H).
Qed.
(** The returned beam is sorted from the head to the tail; all particles but the last lie in the window, each in the layers of
    its segment with the segment's charge and charge-to-mass ratio; the last one is the stub of LCODE beam files. *)
Theorem C72_beam : forall fl norm_ppf geom L dxi I ppl shs us pars beam, 0 < dxi -> (forall k i, 0 <= us k i < 1) -> L < 100000 ->
  make_beam_from_c_beam_profile fl norm_ppf geom L dxi I ppl shs us pars = Some beam ->
  exists segs front, split_into_segments fl pars = Some segs /\ beam = front ++ [stub] /\ descending l_xi beam stub /\
  forall p, In p front -> - L <= l_xi p <= 0 /\
    exists k s xi0 len ampl mq, nth_error segs k = Some s /\ num s "xi0" = Some xi0 /\ num s "length" = Some len /\ num s "ampl" = Some ampl /\ num s "m/q" = Some mq /\
      IZR (floorR ((xi0 - len) / dxi)) * dxi <= l_xi p < IZR (floorR (xi0 / dxi)) * dxi /\
      (ampl * I <> 0 -> l_q p = 2 * (ampl * I) / ppl) /\ l_qm p = 1 / mq.
Proof.
  intros fl norm_ppf geom L dxi I ppl shs us pars beam Hd Hu HL H. unfold make_beam_from_c_beam_profile in H.
  destruct (split_into_segments fl pars) as [segs|] eqn:S; [cbn [obind] in H|discriminate].
  set (mk := fun k => segment_beam norm_ppf geom L dxi I ppl (shs k) (us k)) in *.
  destruct (join_segments mk 0 segs None) as [joined|] eqn:J; [cbn [obind] in H|discriminate]. injection H as <-.
  set (Q := fun p : lpart => p <> stub /\ - L <= l_xi p <= 0 /\
    exists k s xi0 len ampl mq, nth_error segs k = Some s /\ num s "xi0" = Some xi0 /\ num s "length" = Some len /\ num s "ampl" = Some ampl /\ num s "m/q" = Some mq /\
      IZR (floorR ((xi0 - len) / dxi)) * dxi <= l_xi p < IZR (floorR (xi0 / dxi)) * dxi /\
      (ampl * I <> 0 -> l_q p = 2 * (ampl * I) / ppl) /\ l_qm p = 1 / mq).
  destruct (join_front mk Q segs 0 None joined) as (r0 & -> & F); [exact (split_nonempty _ _ _ _ _ _ S)| |exact J|].
  { intros i s b Ns Hb. destruct (mk_stub norm_ppf geom L dxi I ppl shs us _ _ _ Hb) as (b0 & E). exists b0. split; [exact E|]. apply Forall_forall. intros p Ip.
    assert (Np : p <> stub).
    { intros ->. apply segment_parts in Hb. destruct Hb as (? & ? & ? & ? & ? & ? & xis & _ & _ & _ & _ & _ & _ & _ & b0' & E' & P & _). rewrite E in E'. apply app_inj_tail in E'. destruct E' as [<- _].
      assert (X := in_perm_map _ _ _ P Ip). apply filter_In in X. destruct X as [_ X]. destruct (Rle_dec (- L) (l_xi stub)) as [K|]; [cbn in K; lra|discriminate]. }
    assert (Ib : In p b) by (rewrite E; apply in_or_app; now left). destruct (mk_particle norm_ppf geom L dxi I ppl shs us Hd Hu _ _ _ _ Hb Ib Np) as (name & xi0 & len & ampl & mq & f & H1 & H2 & H3 & H4 & H5 & H6 & H7 & H8 & H9 & H10).
    split; [exact Np|]. split; [exact H7|]. exists i, s, xi0, len, ampl, mq. do 6 (split; [assumption|]). split; [|exact H10]. intros NZ. rewrite H9. unfold xi_amp. destruct (Req_EM_T (ampl * I) 0); [contradiction|reflexivity]. }
  assert (LT : forall p, In p r0 -> l_xi stub < l_xi p).
  { intros p Ip. rewrite Forall_forall in F. destruct (F p Ip) as (_ & K & _). cbn. lra. }
  destruct (sorted_stub (sort_desc l_xi (r0 ++ [stub])) r0 (sort_down _ _ _) (sort_perm _ _ _) LT) as (front & E & P).
  assert (FF : forall p, In p front -> Q p) by (intros p Ip; rewrite Forall_forall in F; apply F; rewrite <- P; exact Ip).
  assert (FE : filter (fun p => if Rle_dec (l_xi p) 0 then true else false) (front ++ [stub]) = front ++ [stub]).
  { assert (G : forall l : list lpart, (forall p, In p l -> l_xi p <= 0) -> filter (fun p => if Rle_dec (l_xi p) 0 then true else false) l = l).
    { induction l as [|x l IH]; intros K; [reflexivity|]. cbn. destruct (Rle_dec (l_xi x) 0) as [|N]; [f_equal; apply IH; intros; apply K; now right|]. exfalso. apply N. apply K. now left. }
    apply G. intros p Ip. apply in_app_or in Ip. destruct Ip as [Ip|[<-|[]]]; [destruct (FF p Ip) as (_ & K & _); lra|cbn; lra]. }
  exists segs, front. split; [reflexivity|]. rewrite E, FE. split; [reflexivity|]. split.
  - apply down_descending. rewrite <- E. apply sort_down.
  - intros p Ip. destruct (FF p Ip) as (_ & K & K2). split; [exact K|exact K2].
Qed.
Print Assumptions C72_beam.

(** Layer by layer the beam carries the current of the profile, up to less than one particle. *)
Lemma charge_of_equal (l : list lpart) q : (forall p, In p l -> l_q p = q) -> fold_right Rplus 0 (map l_q l) = INR (List.length l) * q.
Proof. induction l as [|x l IH]; intros H; [cbn; ring|]. cbn [map fold_right]. rewrite IH by (intros; apply H; now right). rewrite (H x) by now left. cbn [List.length]. rewrite S_INR. ring. Qed.
Lemma sum_upto_last f n : sum_upto f (S n) = sum_upto f n + f n.
Proof. unfold sum_upto. rewrite seq_S, map_app, fold_right_app. cbn. rewrite Rplus_0_r. generalize (f n). induction (map f (seq 0 n)) as [|x l IH]; intros y; cbn; [ring|]. rewrite IH. ring. Qed.
Lemma sum_upto_mono f i k : (forall n, 0 <= f n) -> (i <= k)%nat -> sum_upto f i <= sum_upto f k.
Proof. intros H L. induction L as [|k L IH]; [lra|]. rewrite sum_upto_last. specialize (H k). lra. Qed.
Lemma floor_mono dxi x y : 0 < dxi -> x <= y -> (floorR (x / dxi) <= floorR (y / dxi))%Z.
Proof.
  intros Hd H. destruct (floorR_spec (x / dxi)) as [A1 A2], (floorR_spec (y / dxi)) as [B1 B2]. apply Z.lt_succ_r. apply lt_IZR. rewrite succ_IZR.
  assert (x / dxi <= y / dxi) by (apply Rmult_le_compat_r; [left; apply Rinv_0_lt_compat; exact Hd|exact H]). lra.
Qed.
(** Every layer between the end of the profile and the head belongs to exactly one segment. *)
Theorem C72_segments_share_the_layers : forall dxi (lens : nat -> R) n j, 0 < dxi -> (forall k, 0 <= lens k) ->
  let xi0 k := 0 - sum_upto lens k in
  (floorR (xi0 n / dxi) <= j < 0)%Z ->
  exists k, (k < n)%nat /\ own_layer dxi (xi0 k) (lens k) j /\ forall i, own_layer dxi (xi0 i) (lens i) j -> i = k.
Proof.
  intros dxi lens n j Hd Hl xi0 Hj.
  assert (St : forall k, xi0 k - lens k = xi0 (S k)) by (intros k; unfold xi0; rewrite sum_upto_last; ring).
  assert (Mono : forall i k, (i <= k)%nat -> (floorR (xi0 k / dxi) <= floorR (xi0 i / dxi))%Z).
  { intros i k Hik. apply floor_mono; [exact Hd|]. unfold xi0. assert (K := sum_upto_mono lens i k Hl Hik). lra. }
  assert (Ex : exists k, (k < n)%nat /\ own_layer dxi (xi0 k) (lens k) j).
  { induction n as [|n IH].
    - exfalso. unfold xi0, sum_upto in Hj. cbn in Hj. destruct (floorR_spec ((0 - 0) / dxi)) as [A B]. replace ((0 - 0) / dxi) with 0 in * by (field; lra). assert (-1 < IZR (floorR 0)) by lra. apply lt_IZR in H. lia.
    - destruct (Z_lt_le_dec j (floorR (xi0 n / dxi))) as [A|A].
      + exists n. split; [lia|]. unfold own_layer. rewrite St. lia.
      + destruct (IH ltac:(lia)) as (k & K1 & K2). exists k. split; [lia|exact K2]. }
  destruct Ex as (k & Hk & Ok). exists k. split; [exact Hk|]. split; [exact Ok|]. intros i Oi. unfold own_layer in *. rewrite St in Ok, Oi.
  destruct (lt_eq_lt_dec i k) as [[A|A]|A]; [|exact A|].
  - specialize (Mono (S i) k ltac:(lia)). lia.
  - specialize (Mono (S k) i ltac:(lia)). lia.
Qed.
Print Assumptions C72_segments_share_the_layers.

Theorem C72_current : forall fl norm_ppf geom L dxi I ppl shs us bs segs beam k s name xi0 len ampl j,
  0 < dxi -> (forall k i, 0 <= us k i < 1) -> L < 100000 -> 0 < ppl ->
  clean bs -> (forall b k v, In b bs -> In (k, v) (snd b) -> k <> "xi0"%string) ->
  split_into_segments fl (written bs) = Some segs -> (forall k, 0 <= length_of segs k) ->
  make_beam_from_c_beam_profile fl norm_ppf geom L dxi I ppl shs us (written bs) = Some beam ->
  nth_error segs k = Some s -> txt s "xishape" = Some name -> num s "xi0" = Some xi0 -> num s "length" = Some len -> num s "ampl" = Some ampl ->
  own_layer dxi xi0 len j -> - L <= IZR j * dxi ->
  let n := how_many (fun p => in_layer dxi j (l_xi p)) beam in
  exists v, shape name xi0 len (middle dxi j) = Some v /\ INR n <= ppl * v < INR n + 1 /\
    (ampl * I <> 0 -> layer_charge dxi j beam = INR n * (2 * (ampl * I) / ppl) /\
                      Rabs (layer_charge dxi j beam - 2 * (ampl * I) * v) < Rabs (2 * (ampl * I) / ppl)).
Proof.
  intros fl norm_ppf geom L dxi I ppl shs us bs segs beam k s name xi0 len ampl j Hd Hu HL Hp C X HS Hlen HB Ns Hname Hxi0 Hlen' Hampl Oj Wj n.
  destruct (C72_segments fl bs segs C X HS) as (Len & Seg).
  assert (Xi : forall i t, nth_error segs i = Some t -> num t "xi0" = Some (0 - sum_upto (length_of segs) i)).
  { intros i t Nt. assert (K : (i < List.length bs)%nat) by (rewrite <- Len; apply nth_error_Some; congruence). apply nth_error_Some in K. destruct (nth_error bs i) as [b|] eqn:Nb; [|contradiction].
    destruct (Seg i t b Nt Nb) as (_ & K2 & _). exact K2. }
  assert (Le : forall i t x, nth_error segs i = Some t -> num t "length" = Some x -> x = length_of segs i) by (intros i t x Nt Nx; unfold length_of; rewrite Nt, Nx; reflexivity).
  assert (E0 : xi0 = 0 - sum_upto (length_of segs) k) by (rewrite (Xi k s Ns) in Hxi0; congruence).
  assert (E1 : len = length_of segs k) by (apply (Le k s); assumption).
  assert (J0 : (j < 0)%Z).
  { unfold own_layer in Oj. assert (K := floor_mono dxi xi0 0 Hd). assert (xi0 <= 0) by (rewrite E0; assert (G := sum_upto_mono (length_of segs) 0 k Hlen ltac:(lia)); unfold sum_upto at 1 in G; cbn in G; lra).
    specialize (K H). destruct (floorR_spec (0 / dxi)) as [A _]. replace (0 / dxi) with 0 in * by (field; lra). apply le_IZR in A. lia. }
  assert (Uniq : forall i t x y, nth_error segs i = Some t -> num t "xi0" = Some x -> num t "length" = Some y -> own_layer dxi x y j -> i = k).
  { intros i t x y Nt Nx Ny O. rewrite (Xi i t Nt) in Nx. injection Nx as <-. rewrite (Le i t y Nt Ny) in O.
    destruct (C72_segments_share_the_layers dxi (length_of segs) (S k) j Hd Hlen) as (k' & _ & _ & U).
    - split; [|exact J0]. rewrite sum_upto_last. rewrite E0, E1 in Oj. unfold own_layer in Oj. replace (0 - (sum_upto (length_of segs) k + length_of segs k)) with (0 - sum_upto (length_of segs) k - length_of segs k) by ring. apply Oj.
    - rewrite (U i O). symmetry. apply U. rewrite <- E0, <- E1. exact Oj. }
  assert (Lp : len <> 0). { intros ->. unfold own_layer in Oj. rewrite Rminus_0_r in Oj. lia. }
  destruct (C72_beam fl norm_ppf geom L dxi I ppl shs us (written bs) beam Hd Hu HL HB) as (segs' & front & S' & Ef & _ & Pf). rewrite HS in S'. injection S' as <-.
  unfold make_beam_from_c_beam_profile in HB. rewrite HS in HB. cbn [obind] in HB. set (mk := fun k => segment_beam norm_ppf geom L dxi I ppl (shs k) (us k)) in *.
  destruct (join_segments mk 0 segs None) as [joined|] eqn:J; [cbn [obind] in HB|discriminate].
  set (P := fun p => in_layer dxi j (l_xi p)) in *.
  assert (Pstub : P stub = false). { unfold P. destruct (in_layer dxi j (l_xi stub)) eqn:E; [|reflexivity]. apply in_layer_iff in E. cbn in E. lra. }
  assert (Ecount : n = how_many P joined).
  { unfold n. injection HB as <-. rewrite how_many_filter; [apply how_many_perm; apply sort_perm|]. intros p Hin. unfold P in Hin. apply in_layer_iff in Hin. destruct (Rle_dec (l_xi p) 0); [reflexivity|].
    assert (IZR (j + 1) <= 0) by (apply IZR_le; lia). nra. }
  destruct (join_count mk P Pstub (mk_stub norm_ppf geom L dxi I ppl shs us) segs 0 None joined Logic.I J) as (Cnt & _). cbn [Nat.add] in Cnt.
  destruct (join_each mk segs 0 None joined k s J Ns) as (b & Hb). cbn [Nat.add] in Hb.
  destruct (mk_count norm_ppf geom L dxi I ppl shs us Hd Hu HL k s b j Hb Wj J0) as (name' & xi0' & len' & f & T1 & T2 & T3 & T4 & T5).
  rewrite T1 in Hname. injection Hname as ->. rewrite T2 in Hxi0. injection Hxi0 as ->. rewrite T3 in Hlen'. injection Hlen' as ->.
  destruct (shape_of name xi0 len f Lp T4) as (Sh & F1 & F0). set (m := Z.to_nat (py_int (ppl * f (middle dxi j) / f xi0))) in *.
  assert (Om : ((floorR ((xi0 - len) / dxi) <=? j)%Z && (j <? floorR (xi0 / dxi))%Z)%bool = true) by (unfold own_layer in Oj; apply andb_true_intro; split; [apply Z.leb_le|apply Z.ltb_lt]; lia).
  rewrite Om in T5.
  assert (En : n = m).
  { rewrite Ecount, Cnt. apply (count_one mk P m segs 0 k); [apply nth_error_Some; congruence|]. intros i t Nt. cbn [Nat.add]. destruct (join_each mk segs 0 None joined i t J Nt) as (bi & Hbi). cbn [Nat.add] in Hbi. rewrite Hbi.
    destruct (Nat.eqb_spec i k) as [->|NE]; [rewrite Nt in Ns; injection Ns as ->; rewrite Hb in Hbi; injection Hbi as <-; exact T5|].
    destruct (mk_count norm_ppf geom L dxi I ppl shs us Hd Hu HL i t bi j Hbi Wj J0) as (name' & xi' & len' & f' & _ & R2 & R3 & _ & R5). unfold P. rewrite R5.
    destruct ((floorR ((xi' - len') / dxi) <=? j)%Z && (j <? floorR (xi' / dxi))%Z)%bool eqn:O; [|reflexivity]. exfalso. apply NE. apply andb_true_iff in O. destruct O as [O1 O2]. apply Z.leb_le in O1. apply Z.ltb_lt in O2.
    apply (Uniq i t xi' len'); try assumption. split; assumption. }
  exists (f (middle dxi j)). split; [apply Sh|].
  assert (W : INR n <= ppl * f (middle dxi j) < INR n + 1).
  { rewrite En. unfold m. rewrite F1. replace (ppl * f (middle dxi j) / 1) with (ppl * f (middle dxi j)) by field. apply whole. apply Rmult_le_pos; [lra|apply F0]. }
  split; [exact W|]. intros NZ.
  assert (Q : layer_charge dxi j beam = INR n * (2 * (ampl * I) / ppl)).
  { unfold layer_charge. rewrite (charge_of_equal _ (2 * (ampl * I) / ppl)); [reflexivity|]. intros p Ip. apply filter_In in Ip. destruct Ip as [Ip Lip]. rewrite Ef in Ip. apply in_app_or in Ip.
    destruct Ip as [Ip|[<-|[]]]; [|unfold P in Pstub; congruence]. destruct (Pf p Ip) as (_ & i & t & x & y & a & mq & Q1 & Q2 & Q3 & Q4 & _ & Q6 & Q7 & _). apply in_layer_iff in Lip.
    assert (K : own_layer dxi x y j).
    { unfold own_layer. split.
      - apply Z.lt_succ_r, lt_IZR. unfold Z.succ. apply (Rmult_lt_reg_r dxi); lra.
      - apply lt_IZR. apply (Rmult_lt_reg_r dxi); lra. }
    assert (i = k) by (apply (Uniq i t x y); assumption). subst i. rewrite Ns in Q1. injection Q1 as <-. rewrite Q4 in Hampl. injection Hampl as ->. apply Q7. exact NZ. }
  split; [exact Q|]. rewrite Q. replace (INR n * (2 * (ampl * I) / ppl) - 2 * (ampl * I) * f (middle dxi j)) with ((2 * (ampl * I) / ppl) * (INR n - ppl * f (middle dxi j))) by (field; lra).
  rewrite Rabs_mult. rewrite <- (Rmult_1_r (Rabs (2 * (ampl * I) / ppl))) at 2. apply Rmult_lt_compat_l; [|apply Rabs_def1; lra].
  apply Rabs_pos_lt. intros Z. apply NZ. apply (f_equal (Rmult ppl)) in Z. replace (ppl * (2 * (ampl * I) / ppl)) with (2 * (ampl * I)) in Z by (field; lra). lra.
Qed.
Print Assumptions C72_current.

(** ** Transverse distributions *)
Lemma segment_columns norm_ppf geom L dxi I ppl sh u s b : segment_beam norm_ppf geom L dxi I ppl sh u s = Some b ->
  (geom = "c" \/ geom = "circ")%string /\ exists b0 d, b = b0 ++ [stub] /\ distrs_from_shapes norm_ppf s = Some d /\
    forall c dc, In c ["r"; "p_z"; "p_r"]%string -> d c = Some dc -> map (fun p => l_col p c) b0 = map (fun k => dc (List.length b0) (sh c (List.length b0) k)) (seq 0 (List.length b0)).
Proof.
  unfold segment_beam. destruct (txt s "xishape") as [name|]; [cbn [obind]|discriminate]. destruct (num s "xi0") as [xi0|]; [cbn [obind]|discriminate].
  destruct (num s "length") as [len|]; [cbn [obind]|discriminate]. destruct (num s "ampl") as [ampl|]; [cbn [obind]|discriminate]. destruct (num s "m/q") as [mq|]; [cbn [obind]|discriminate].
  destruct (xishape_f name xi0 len) as [f|] eqn:F; [cbn [obind]|discriminate]. destruct (distrs_from_shapes norm_ppf s) as [d|] eqn:D; [cbn [obind]|discriminate]. destruct (columns geom) as [cols|] eqn:G; [cbn [obind]|discriminate].
  destruct (stepwise_xi f xi0 (xi0 - len) xi0 ppl dxi u) as [xis|] eqn:X; [cbn [obind]|discriminate]. intros H. unfold make_beam in H. rewrite G in H. cbn [obind] in H.
  set (xi := sort_desc _ _) in H. destruct (forallb _ cols) eqn:A; [|discriminate]. cbn [andb] in H. injection H as <-.
  assert (D' : d "x"%string = None).
  { unfold distrs_from_shapes in D. destruct (txt s "rshape"); [cbn [obind] in D|discriminate]. destruct (txt s "eshape"); [cbn [obind] in D|discriminate]. destruct (txt s "angshape"); [cbn [obind] in D|discriminate].
    destruct (num s "radius"); [cbn [obind] in D|discriminate]. destruct (num s "energy"); [cbn [obind] in D|discriminate]. destruct (num s "espread"); [cbn [obind] in D|discriminate]. destruct (num s "angspread"); [cbn [obind] in D|discriminate].
    destruct (_ && _ && _); [|discriminate]. injection D as <-. reflexivity. }
  unfold columns in G. destruct (String.eqb geom "circ" || String.eqb geom "c") eqn:Eg.
  2:{ destruct (String.eqb geom "3d"); [|discriminate]. injection G as <-. cbn in A. rewrite D' in A. discriminate. }
  injection G as <-. split; [apply orb_true_iff in Eg; destruct Eg as [K|K]; apply String.eqb_eq in K; auto|].
  eexists _, d. split; [reflexivity|]. split; [reflexivity|]. intros c dc Ic Dc. rewrite map_length, seq_length, map_map. apply map_ext. intros k. cbn [l_col].
  replace ((String.eqb geom "c" || String.eqb geom "circ") && String.eqb c "M")%bool with false by (destruct Ic as [<-|[<-|[<-|[]]]]; rewrite andb_false_r; reflexivity).
  replace (existsb (String.eqb c) ["r"; "p_z"; "p_r"; "M"]%string) with true by (destruct Ic as [<-|[<-|[<-|[]]]]; reflexivity). rewrite Dc. reflexivity.
Qed.
Lemma distrs_of norm_ppf s d radius energy ang : distrs_from_shapes norm_ppf s = Some d -> num s "radius" = Some radius -> num s "energy" = Some energy -> num s "angspread" = Some ang ->
  d "r"%string = Some (quantile (rayleigh_ppf radius)) /\ (exists sc, d "p_z"%string = Some (quantile (fun p => energy + sc * norm_ppf p))) /\ d "p_r"%string = Some (quantile (fun p => 0 + energy * ang * norm_ppf p)).
Proof.
  intros D H1 H2 H3. unfold distrs_from_shapes in D. destruct (txt s "rshape"); [cbn [obind] in D|discriminate]. destruct (txt s "eshape"); [cbn [obind] in D|discriminate]. destruct (txt s "angshape"); [cbn [obind] in D|discriminate].
  rewrite H1, H2, H3 in D. cbn [obind] in D. destruct (num s "espread"); [cbn [obind] in D|discriminate]. destruct (_ && _ && _); [|discriminate]. injection D as <-. split; [reflexivity|]. split; [eexists; reflexivity|reflexivity].
Qed.
Lemma count_below N X : 0 <= X < INR (S N) -> let n := how_many (fun k => if Rle_dec (INR (S k)) X then true else false) (seq 0 N) in INR n <= X < INR n + 1.
Proof.
  intros H. induction N as [|N IH]; [cbn in *; lra|]. rewrite seq_S, how_many_app. cbn [Nat.add]. unfold how_many at 2 4. cbn [filter]. destruct (Rlt_le_dec X (INR (S N))) as [L|L].
  - destruct (Rle_dec (INR (S N)) X); [lra|]. cbn [List.length]. rewrite Nat.add_0_r. apply IH. lra.
  - destruct (Rle_dec (INR (S N)) X); [|lra]. rewrite how_many_all.
    + rewrite seq_length. cbn [List.length]. rewrite Nat.add_1_r. rewrite (S_INR (S N)) in H. lra.
    + intros k Hk. apply in_seq in Hk. destruct (Rle_dec (INR (S k)) X) as [|NL]; [reflexivity|]. exfalso. apply NL. apply Rle_trans with (INR (S N)); [apply le_INR; lia|exact L].
Qed.
Lemma rayleigh_le radius p rho : 0 < radius -> 0 <= p < 1 -> 0 <= rho -> (rayleigh_ppf radius p <= rho <-> p <= 1 - exp (- (rho / radius) ^ 2 / 2)).
Proof.
  intros Hr Hp Hrho. unfold rayleigh_ppf. set (w := - ln (1 - p)).
  assert (Hw : 0 <= w). { unfold w. assert (ln (1 - p) <= ln 1) by (destruct (Req_dec p 0) as [->|]; [rewrite Rminus_0_r; lra|left; apply ln_increasing; lra]). rewrite ln_1 in H. lra. }
  assert (Ew : p = 1 - exp (- w)) by (unfold w; rewrite Ropp_involutive, exp_ln; lra).
  assert (S2 : 0 < sqrt 2) by (apply sqrt_lt_R0; lra). assert (Q2 : sqrt 2 * sqrt 2 = 2) by (apply sqrt_sqrt; lra). assert (Qw : sqrt w * sqrt w = w) by (apply sqrt_sqrt; exact Hw). assert (Pw := sqrt_pos w).
  set (t := (rho / radius) ^ 2 / 2). assert (Et : 2 * radius ^ 2 * t = rho ^ 2) by (unfold t; field; lra).
  assert (M : sqrt 2 * radius * sqrt w <= rho <-> w <= t).
  { assert (Sq : (sqrt 2 * radius * sqrt w) ^ 2 = 2 * radius ^ 2 * w) by (replace ((sqrt 2 * radius * sqrt w) ^ 2) with ((sqrt 2 * sqrt 2) * radius ^ 2 * (sqrt w * sqrt w)) by ring; rewrite Q2, Qw; ring).
    assert (0 < 2 * radius ^ 2) by nra. assert (0 <= sqrt 2 * radius * sqrt w) by (repeat apply Rmult_le_pos; lra). split; intros K.
    - apply (Rmult_le_reg_l (2 * radius ^ 2)); [assumption|]. rewrite Et, <- Sq. apply pow_incr. split; assumption.
    - apply Rsqr_incr_0_var; [|exact Hrho]. rewrite !Rsqr_pow2, Sq, <- Et. apply Rmult_le_compat_l; lra. }
  rewrite M. replace (- (rho / radius) ^ 2 / 2) with (- t) by (unfold t; field; lra). rewrite Ew. split; intros K.
  - destruct K as [K| ->]; [|lra]. assert (exp (- t) < exp (- w)) by (apply exp_increasing; lra). lra.
  - destruct (Rle_lt_dec w t) as [|N]; [assumption|]. assert (exp (- w) < exp (- t)) by (apply exp_increasing; lra). lra.
Qed.
(** Whatever the shuffling, the number of particles of a segment inside any radius is the whole part of (N + 1) times the
    Gaussian beam's share of that radius. *)
Theorem C72_radii : forall norm_ppf geom L dxi I ppl sh u s b radius rho, shuffles sh ->
  segment_beam norm_ppf geom L dxi I ppl sh u s = Some b -> num s "radius" = Some radius -> 0 < radius -> 0 <= rho ->
  let particles := removelast b in
  let n := how_many (fun p => if Rle_dec (l_col p "r") rho then true else false) particles in
  INR n <= (INR (List.length particles) + 1) * (1 - exp (- (rho / radius) ^ 2 / 2)) < INR n + 1.
Proof.
  intros norm_ppf geom L dxi I ppl sh u s b radius rho Hsh H Hrad Hr Hrho particles n.
  destruct (segment_columns _ _ _ _ _ _ _ _ _ _ H) as (_ & b0 & d & E & D & Col).
  assert (exists energy ang, num s "energy" = Some energy /\ num s "angspread" = Some ang) as (energy & ang & He & Ha).
  { unfold distrs_from_shapes in D. destruct (txt s "rshape"); [cbn [obind] in D|discriminate]. destruct (txt s "eshape"); [cbn [obind] in D|discriminate]. destruct (txt s "angshape"); [cbn [obind] in D|discriminate].
    rewrite Hrad in D. cbn [obind] in D. destruct (num s "energy"); [cbn [obind] in D|discriminate]. destruct (num s "espread"); [cbn [obind] in D|discriminate]. destruct (num s "angspread"); [|discriminate]. eauto. }
  destruct (distrs_of _ _ _ _ _ _ D Hrad He Ha) as (Dr & _ & _). specialize (Col "r"%string _ (or_introl eq_refl) Dr).
  assert (Ep : particles = b0) by (unfold particles; rewrite E; apply removelast_last). set (N := List.length b0) in *. rewrite Ep. fold N.
  assert (Pos : 0 < INR (S N)) by (apply lt_0_INR; lia).
  set (F := 1 - exp (- (rho / radius) ^ 2 / 2)). assert (F01 : 0 <= F < 1).
  { unfold F. assert (0 < exp (- (rho / radius) ^ 2 / 2)) by apply exp_pos. assert (exp (- (rho / radius) ^ 2 / 2) <= exp 0) by (assert (0 <= (rho / radius) ^ 2) by apply pow2_ge_0; destruct (Req_dec (- (rho / radius) ^ 2 / 2) 0) as [->|]; [lra|left; apply exp_increasing; lra]). rewrite exp_0 in H1. lra. }
  assert (En : n = how_many (fun k => if Rle_dec (INR (S k)) (INR (S N) * F) then true else false) (seq 0 N)).
  { unfold n. rewrite Ep. rewrite <- (how_many_map _ _ (fun p => l_col p "r"%string) (fun x => if Rle_dec x rho then true else false)), Col.
    rewrite <- (map_map (sh "r"%string N) (quantile (rayleigh_ppf radius) N)). rewrite how_many_map. rewrite (how_many_perm _ _ _ _ (Hsh "r"%string N)).
    unfold how_many. f_equal. apply filter_ext_in. intros k Hk. apply in_seq in Hk. unfold quantile.
    assert (Hp : 0 <= INR (S k) / INR (S N) < 1). { split; [left; apply Rdiv_lt_0_compat; [apply lt_0_INR; lia|exact Pos]|]. apply (Rmult_lt_reg_r (INR (S N))); [exact Pos|]. unfold Rdiv. rewrite Rmult_assoc, Rinv_l by lra. rewrite Rmult_1_r, Rmult_1_l. apply lt_INR. lia. }
    assert (K := rayleigh_le radius _ rho Hr Hp Hrho). fold F in K. assert (K2 : INR (S k) / INR (S N) <= F <-> INR (S k) <= INR (S N) * F).
    { split; intros G; [apply (Rmult_le_compat_l (INR (S N))) in G; [|lra]; replace (INR (S N) * (INR (S k) / INR (S N))) with (INR (S k)) in G by (field; lra); exact G|].
      apply (Rmult_le_reg_l (INR (S N))); [exact Pos|]. replace (INR (S N) * (INR (S k) / INR (S N))) with (INR (S k)) by (field; lra). exact G. }
    destruct (Rle_dec (rayleigh_ppf radius (INR (S k) / INR (S N))) rho), (Rle_dec (INR (S k)) (INR (S N) * F)); try reflexivity; tauto. }
  rewrite En. rewrite <- S_INR. apply count_below. split; [apply Rmult_le_pos; lra|]. rewrite <- (Rmult_1_r (INR (S N))) at 2. apply Rmult_lt_compat_l; lra.
Qed.
Print Assumptions C72_radii.
Lemma sum_perm (l l' : list R) : Permutation l l' -> fold_right Rplus 0 l = fold_right Rplus 0 l'.
Proof. induction 1; cbn; lra. Qed.
Lemma sum_map_plus A (f g : A -> R) l : fold_right Rplus 0 (map (fun x => f x + g x) l) = fold_right Rplus 0 (map f l) + fold_right Rplus 0 (map g l).
Proof. induction l as [|x l IH]; cbn; [ring|]. rewrite IH. ring. Qed.
Lemma seq_rev_perm N : Permutation (map (fun k => N - 1 - k)%nat (seq 0 N)) (seq 0 N).
Proof.
  symmetry. apply NoDup_Permutation_bis; [apply seq_NoDup|rewrite map_length; reflexivity|].
  intros x Hx. apply in_seq in Hx. apply in_map_iff. exists (N - 1 - x)%nat. split; [lia|]. apply in_seq. lia.
Qed.
Lemma symmetric_sum ppf N c : (forall p, 0 < p < 1 -> ppf p + ppf (1 - p) = 2 * c) -> fold_right Rplus 0 (map (quantile ppf N) (seq 0 N)) = INR N * c.
Proof.
  intros H. set (q := quantile ppf N). assert (E : fold_right Rplus 0 (map (fun k => q k + q (N - 1 - k)%nat) (seq 0 N)) = INR N * (2 * c)).
  { transitivity (fold_right Rplus 0 (map (fun _ : nat => 2 * c) (seq 0 N))).
    - f_equal. apply map_ext_in. intros k Hk. apply in_seq in Hk. unfold q, quantile.
      replace (INR (S (N - 1 - k)) / INR (S N)) with (1 - INR (S k) / INR (S N)).
      + apply H. assert (0 < INR (S N)) by (apply lt_0_INR; lia). split; [apply Rdiv_lt_0_compat; [apply lt_0_INR; lia|assumption]|]. apply (Rmult_lt_reg_r (INR (S N))); [assumption|]. unfold Rdiv. rewrite Rmult_assoc, Rinv_l by lra. rewrite Rmult_1_r, Rmult_1_l. apply lt_INR. lia.
      + replace (S (N - 1 - k)) with (S N - S k)%nat by lia. rewrite minus_INR by lia. field. apply not_0_INR. lia.
    - rewrite <- (seq_length N 0) at 2. generalize (seq 0 N). induction l as [|x l IH]; [cbn; ring|]. cbn [map fold_right List.length]. rewrite IH, S_INR. ring. }
  rewrite sum_map_plus in E. rewrite <- (map_map (fun k => N - 1 - k)%nat q) in E. rewrite (sum_perm (map q (map _ _)) (map q (seq 0 N))) in E by (apply Permutation_map, seq_rev_perm). lra.
Qed.
(** The mean longitudinal momentum of a segment is exactly its energy, the mean radial momentum exactly zero. *)
Theorem C72_mean_momenta : forall norm_ppf geom L dxi I ppl sh u s b radius energy ang, shuffles sh -> (forall p, 0 < p < 1 -> norm_ppf (1 - p) = - norm_ppf p) ->
  segment_beam norm_ppf geom L dxi I ppl sh u s = Some b -> num s "radius" = Some radius -> num s "energy" = Some energy -> num s "angspread" = Some ang ->
  let particles := removelast b in
  total_of "p_z" particles = INR (List.length particles) * energy /\ total_of "p_r" particles = 0.
Proof.
  intros norm_ppf geom L dxi I ppl sh u s b radius energy ang Hsh Hn H Hrad He Ha particles.
  destruct (segment_columns _ _ _ _ _ _ _ _ _ _ H) as (_ & b0 & d & E & D & Col).
  destruct (distrs_of _ _ _ _ _ _ D Hrad He Ha) as (_ & (sc & Dz) & Dp).
  assert (Ep : particles = b0) by (unfold particles; rewrite E; apply removelast_last). rewrite Ep. set (N := List.length b0) in *.
  assert (T : forall c ppf m, In c ["r"; "p_z"; "p_r"]%string -> d c = Some (quantile ppf) -> (forall p, 0 < p < 1 -> ppf p + ppf (1 - p) = 2 * m) -> total_of c b0 = INR N * m).
  { intros c ppf m Ic Dc Sy. unfold total_of. rewrite (Col c _ Ic Dc). rewrite <- (map_map (sh c N) (quantile ppf N)). rewrite (sum_perm _ (map (quantile ppf N) (seq 0 N))) by (apply Permutation_map, Hsh). apply symmetric_sum. exact Sy. }
  split.
  - apply (T "p_z"%string _ energy (or_intror (or_introl eq_refl)) Dz). intros p Hp. rewrite (Hn p Hp). ring.
  - rewrite (T "p_r"%string _ 0 (or_intror (or_intror (or_introl eq_refl))) Dp); [ring|]. intros p Hp. rewrite (Hn p Hp). ring.
Qed.
Print Assumptions C72_mean_momenta.

(** ** What a user may not rely on *)
(** Only the geometries "c" and "circ" work: with any other one, "3d" (the default) and "2d" included, every profile raises. *)
Theorem C72_only_circular : forall fl norm_ppf geom L dxi I ppl shs us pars, geom <> "c"%string -> geom <> "circ"%string ->
  make_beam_from_c_beam_profile fl norm_ppf geom L dxi I ppl shs us pars = None.
Proof.
  intros fl norm_ppf geom L dxi I ppl shs us pars H1 H2. unfold make_beam_from_c_beam_profile. destruct (split_into_segments fl pars) as [segs|] eqn:S; [cbn [obind]|reflexivity].
  apply split_nonempty in S. destruct segs as [|s segs]; [contradiction|]. cbn [join_segments].
  destruct (segment_beam norm_ppf geom L dxi I ppl (shs 0%nat) (us 0%nat) s) as [b|] eqn:E; [|reflexivity]. apply segment_columns in E. destruct E as ([E|E] & _); contradiction.
Qed.
Print Assumptions C72_only_circular.

(** Two segments, a cosine one of length 2 and a Gaussian one of length 6. *)
Definition case_blocks : list block := [("cos", [("length", "2")]); ("g", [("length", "6")])]%string.
Definition case_fl (v : string) : option R := if String.eqb v "2" then Some 2 else if String.eqb v "6" then Some 6 else None.
Definition case_sh (k : nat) (c : string) (N i : nat) : nat := i.
Definition case_beam (I : R) := make_beam_from_c_beam_profile case_fl (fun _ => 0) "circ" 20 1 I 3 case_sh (fun _ _ => 1 / 2) (written case_blocks).
Definition case_seg (name : string) (xi0 len : R) : seg := set_par (set_par (set_par default_segment "xi0" (Num xi0)) "xishape" (Txt name)) "length" (Num len).
Lemma case_split : split_into_segments case_fl (written case_blocks) = Some [case_seg "cos" 0 2; case_seg "g" (0 - 2) 6].
Proof. reflexivity. Qed.
Lemma floor_int z : floorR (IZR z) = z.
Proof. destruct (floorR_spec (IZR z)) as [A B]. apply le_IZR in A. rewrite <- (plus_IZR _ 1) in B. apply lt_IZR in B. lia. Qed.
Lemma case_floor x z : x = IZR z -> floorR (x / 1) = z.
Proof. intros ->. replace (IZR z / 1) with (IZR z) by field. apply floor_int. Qed.
Lemma case_segment I k name xi0 len z0 z1 : In name ["cos"; "g"]%string -> xi0 = IZR z0 -> xi0 - len = IZR z1 -> (z1 < z0)%Z ->
  exists b, segment_beam (fun _ => 0) "circ" 20 1 I 3 (case_sh k) (fun _ => 1 / 2) (case_seg name xi0 len) = Some b.
Proof.
  intros N E0 E1 L. unfold segment_beam. change (txt (case_seg name xi0 len) "xishape") with (Some name). change (num (case_seg name xi0 len) "xi0") with (Some xi0). change (num (case_seg name xi0 len) "length") with (Some len).
  change (num (case_seg name xi0 len) "ampl") with (Some 0.5). change (num (case_seg name xi0 len) "m/q") with (Some 1). cbn [obind].
  assert (exists f, xishape_f name xi0 len = Some f) as (f & ->) by (destruct N as [<-|[<-|[]]]; eexists; reflexivity). cbn [obind].
  change (distrs_from_shapes (fun _ => 0) (case_seg name xi0 len)) with (distrs_from_shapes (fun _ => 0) default_segment). 
  unfold stepwise_xi. rewrite (case_floor _ _ E0), (case_floor _ _ E1). destruct (Z.leb_spec z0 z1); [lia|]. eexists. reflexivity.
Qed.
Lemma case_some I : exists beam, case_beam I = Some beam.
Proof.
  unfold case_beam, make_beam_from_c_beam_profile. rewrite case_split. cbn [obind join_segments].
  destruct (case_segment I 0 "cos" 0 2 0 (-2)) as (b & ->); [now left|reflexivity|cbn; lra|lia|]. cbn [obind].
  destruct (case_segment I 1 "g" (0 - 2) 6 (-2) (-8)) as (b' & ->); [right; now left|cbn; lra|cbn; lra|lia|]. cbn [obind]. eexists. reflexivity.
Qed.
Lemma case_clean : clean case_blocks /\ (forall b k v, In b case_blocks -> In (k, v) (snd b) -> k <> "xi0"%string).
Proof. split; intros b k v [<-|[<-|[]]] H; cbn in H; destruct H as [H|[]]; injection H as <- <-; discriminate. Qed.
Lemma case_lengths k : 0 <= length_of [case_seg "cos" 0 2; case_seg "g" (0 - 2) 6] k.
Proof. destruct k as [|[|[|k]]]; cbn; lra. Qed.
(** The hypotheses of C72_current hold for the third layer, in the Gaussian segment, and it holds at least one particle. *)
Example C72_case : forall I, exists beam, case_beam I = Some beam /\ (1 <= how_many (fun p => in_layer 1 (-3) (l_xi p)) beam)%nat /\ (1 <= how_many (fun p => in_layer 1 (-1) (l_xi p)) beam)%nat.
Proof.
  intros I. destruct (case_some I) as (beam & HB). exists beam. split; [exact HB|]. destruct case_clean as (C & X). split.
  - destruct (C72_current case_fl (fun _ => 0) "circ" 20 1 I 3 case_sh (fun _ _ => 1 / 2) case_blocks [case_seg "cos" 0 2; case_seg "g" (0 - 2) 6] beam 1 (case_seg "g" (0 - 2) 6) "g" (0 - 2) 6 0.5 (-3))
      as (v & Ev & Hv & _); try exact case_split; try assumption; try reflexivity; try lra; try (intros; lra); try exact case_lengths; try (cbn; lra).
    { unfold own_layer. rewrite (case_floor _ (-8)), (case_floor _ (-2)) by (cbn; lra). lia. }
    cbn in Ev. injection Ev as <-. unfold middle in Hv. set (t := ((IZR (-3) + 1 / 2) * 1 - (0 - 2)) / (6 / 6)) in *. assert (Et : t = - (1 / 2)) by (unfold t; field).
    rewrite Et in Hv. assert (K := exp_ineq1_le (- (- (1 / 2) * (- (1 / 2) * 1)) / 2)). apply INR_le. cbn [INR]. assert (1 < INR (S (how_many (fun p => in_layer 1 (-3) (l_xi p)) beam))) by (rewrite S_INR; lra).
    apply (INR_lt 1) in H. apply (le_INR 1). lia.
  - destruct (C72_current case_fl (fun _ => 0) "circ" 20 1 I 3 case_sh (fun _ _ => 1 / 2) case_blocks [case_seg "cos" 0 2; case_seg "g" (0 - 2) 6] beam 0 (case_seg "cos" 0 2) "cos" 0 2 0.5 (-1))
      as (v & Ev & Hv & _); try exact case_split; try assumption; try reflexivity; try lra; try (intros; lra); try exact case_lengths; try (cbn; lra).
    { unfold own_layer. rewrite (case_floor _ (-2)), (case_floor _ 0) by (cbn; lra). lia. }
    cbn in Ev. injection Ev as <-. unfold middle in Hv. replace (PI * ((IZR (-1) + 1 / 2) * 1 - 0) / 2) with (- (PI / 4)) in Hv by field. rewrite cos_neg in Hv. assert (K := cos_gt_0 (PI / 4)). assert (P := PI_RGT_0). specialize (K ltac:(lra) ltac:(lra)).
    assert (1 < INR (S (how_many (fun p => in_layer 1 (-1) (l_xi p)) beam))) by (rewrite S_INR; lra). apply (INR_lt 1) in H. lia.
Qed.
Lemma how_many_pos A (P : A -> bool) l : (1 <= how_many P l)%nat -> exists x, In x l /\ P x = true.
Proof. unfold how_many. destruct (filter P l) as [|x r] eqn:E; [cbn; lia|]. intros _. exists x. apply filter_In. rewrite E. now left. Qed.
(** Without current the beam is not without charge: an amplitude of zero is read as no amplitude. *)
Theorem C72_no_current_no_charge_refuted :
  ~ (forall fl norm_ppf geom L dxi ppl shs us pars beam p, 0 < dxi -> (forall k i, 0 <= us k i < 1) -> 0 < ppl -> make_beam_from_c_beam_profile fl norm_ppf geom L dxi 0 ppl shs us pars = Some beam -> In p beam -> l_q p = 0).
Proof.
  intros H. destruct (C72_case 0) as (beam & HB & A & _). apply how_many_pos in A. destruct A as (p & Ip & Lp). specialize (H case_fl (fun _ => 0) "circ"%string 20 1 3 case_sh (fun _ _ => 1 / 2) (written case_blocks) beam p Rlt_0_1 ltac:(intros; lra) ltac:(lra) HB Ip).
  unfold case_beam, make_beam_from_c_beam_profile in HB. rewrite case_split in HB. cbn [obind] in HB. set (mk := fun k => segment_beam _ _ _ _ _ _ _ _) in HB.
  destruct (join_segments mk 0 _ None) as [joined|] eqn:J; [cbn [obind] in HB|discriminate]. injection HB as <-. apply filter_In in Ip. destruct Ip as [Ip _]. rewrite (sort_perm _ l_xi joined) in Ip.
  destruct (join_in mk _ _ _ _ p J Ip) as [[]|(i & s & b & Ns & Hb & Ib)]. cbn [Nat.add] in Hb. assert (Np : p <> stub) by (intros ->; apply in_layer_iff in Lp; cbn in Lp; lra).
  destruct (mk_particle (fun _ => 0) "circ" 20 1 0 3 case_sh (fun _ _ => 1 / 2) Rlt_0_1 ltac:(intros; lra) i s b p Hb Ib Np) as (name & xi0 & len & ampl & mq & f & T1 & T2 & T3 & _ & _ & T6 & _ & _ & T9 & _).
  rewrite T9 in H. unfold xi_amp in H. rewrite Rmult_0_r in H. destruct (Req_EM_T 0 0) as [_|N]; [|contradiction].
  assert (Hl : len <> 0).
  { destruct i as [|[|i]]; cbn in Ns; [injection Ns as <-; cbn in T3; injection T3 as <-; lra|injection Ns as <-; cbn in T3; injection T3 as <-; lra|destruct i; discriminate]. }
  destruct (shape_of name xi0 len f Hl T6) as (_ & F1 & _). rewrite F1 in H. lra.
Qed.
Print Assumptions C72_no_current_no_charge_refuted.

(** Particle numbers start from 0 in every segment, so they do not tell the particles of the beam apart. *)
Lemma segment_ids norm_ppf geom L dxi I ppl sh u s b : segment_beam norm_ppf geom L dxi I ppl sh u s = Some b -> map l_id (removelast b) = seq 0 (List.length (removelast b)).
Proof.
  unfold segment_beam. destruct (txt s "xishape") as [name|]; [cbn [obind]|discriminate]. destruct (num s "xi0") as [xi0|]; [cbn [obind]|discriminate].
  destruct (num s "length") as [len|]; [cbn [obind]|discriminate]. destruct (num s "ampl") as [ampl|]; [cbn [obind]|discriminate]. destruct (num s "m/q") as [mq|]; [cbn [obind]|discriminate].
  destruct (xishape_f name xi0 len) as [f|] eqn:F; [cbn [obind]|discriminate]. destruct (distrs_from_shapes norm_ppf s) as [d|]; [cbn [obind]|discriminate]. destruct (columns geom) eqn:G; [cbn [obind]|discriminate].
  destruct (stepwise_xi f xi0 (xi0 - len) xi0 ppl dxi u) as [xis|] eqn:X; [cbn [obind]|discriminate]. intros H. apply make_beam_some in H. destruct H as (cols & col & xi & _ & _ & ->).
  rewrite removelast_last, map_map, map_length, seq_length. apply map_id.
Qed.
Lemma one_zero l (P : lpart -> bool) : (forall p, P p = true -> l_id p = 0%nat) -> NoDup (map l_id l) -> (how_many P l <= 1)%nat.
Proof.
  intros HP. induction l as [|x l IH]; intros N; [cbn; lia|]. cbn in N. apply NoDup_cons_iff in N. destruct N as [N1 N2]. specialize (IH N2). unfold how_many in *. cbn. destruct (P x) eqn:E; [|exact IH]. cbn.
  destruct (filter P l) as [|y r] eqn:F; [cbn; lia|]. exfalso. apply N1. assert (Iy : In y (filter P l)) by (rewrite F; now left). apply filter_In in Iy. destruct Iy as [Iy Py]. rewrite (HP x E), <- (HP y Py). apply in_map. exact Iy.
Qed.
Lemma has_zero c : map l_id c = seq 0 (List.length c) -> c <> [] -> exists x, In x c /\ l_id x = 0%nat.
Proof. destruct c as [|x c]; intros E N; [contradiction|]. cbn in E. injection E as E _. exists x. split; [now left|exact E]. Qed.
Lemma how_many_in A (P : A -> bool) l x : In x l -> P x = true -> (1 <= how_many P l)%nat.
Proof. intros I H. unfold how_many. assert (K : In x (filter P l)) by (apply filter_In; auto). destruct (filter P l); [contradiction|cbn; lia]. Qed.
Theorem C72_ids_tell_particles_apart_refuted :
  ~ (forall fl norm_ppf geom L dxi I ppl shs us pars beam, 0 < dxi -> (forall k i, 0 <= us k i < 1) -> 0 < ppl -> L < 100000 -> make_beam_from_c_beam_profile fl norm_ppf geom L dxi I ppl shs us pars = Some beam ->
       NoDup (map l_id (removelast beam))).
Proof.
  intros H. destruct (C72_case 1) as (beam & HB & A & B). unfold case_beam in HB. set (us := fun _ _ : nat => 1 / 2) in *. assert (Hus : forall k i, 0 <= us k i < 1) by (intros; unfold us; lra).
  specialize (H case_fl (fun _ => 0) "circ"%string 20 1 1 3 case_sh us (written case_blocks) beam Rlt_0_1 Hus ltac:(lra) ltac:(lra) HB).
  destruct (C72_beam case_fl (fun _ => 0) "circ" 20 1 1 3 case_sh us (written case_blocks) beam Rlt_0_1 Hus ltac:(lra) HB) as (_ & front & _ & Ef & _ & _). rewrite Ef, removelast_last in H.
  unfold make_beam_from_c_beam_profile in HB. rewrite case_split in HB. cbn [obind] in HB. set (mk := fun k => segment_beam (fun _ => 0) "circ" 20 1 1 3 (case_sh k) (us k)) in HB. set (segs := [case_seg "cos" 0 2; case_seg "g" (0 - 2) 6]) in *.
  destruct (join_segments mk 0 segs None) as [joined|] eqn:J; [cbn [obind] in HB|discriminate]. injection HB as HB.
  assert (InJ : forall p, In p beam -> In p joined) by (intros p Ip; rewrite <- HB in Ip; apply filter_In in Ip; destruct Ip as [Ip _]; rewrite (sort_perm _ l_xi joined) in Ip; exact Ip).
  destruct (join_each mk segs 0 None joined 0 _ J eq_refl) as (b1 & E1). destruct (join_each mk segs 0 None joined 1 _ J eq_refl) as (b2 & E2). cbn [Nat.add] in E1, E2.
  assert (Where : forall j p, In p beam -> in_layer 1 j (l_xi p) = true -> (-10 < j)%Z -> exists i s b, nth_error segs i = Some s /\ mk i s = Some b /\ In p b /\ p <> stub /\ forall xi0 len, num s "xi0" = Some xi0 -> num s "length" = Some len -> IZR (floorR ((xi0 - len) / 1)) < IZR (j + 1) /\ IZR j < IZR (floorR (xi0 / 1))).
  { intros j p Ip Lp Hj. assert (Np : p <> stub) by (intros ->; apply in_layer_iff in Lp; cbn [l_xi stub] in Lp; apply IZR_lt in Hj; lra). destruct (join_in mk segs 0 None joined p J (InJ p Ip)) as [[]|(i & s & b & Ns & Hb & Ib)]. cbn [Nat.add] in Hb.
    exists i, s, b. do 4 (split; [assumption|]). intros xi0 len G1 G2. destruct (mk_particle (fun _ => 0) "circ" 20 1 1 3 case_sh us Rlt_0_1 Hus i s b p Hb Ib Np) as (_ & x & l & _ & _ & _ & _ & G3 & G4 & _ & _ & _ & _ & G5 & _).
    rewrite G1 in G3. rewrite G2 in G4. injection G3 as <-. injection G4 as <-. apply in_layer_iff in Lp. lra. }
  assert (F0 : floorR (0 / 1) = 0%Z) by (apply case_floor; reflexivity). assert (F2 : floorR ((0 - 2) / 1) = (-2)%Z) by (apply case_floor; cbn; lra). assert (F8 : floorR ((0 - 2 - 6) / 1) = (-8)%Z) by (apply case_floor; cbn; lra).
  destruct (mk_stub (fun _ => 0) "circ" 20 1 1 3 case_sh us 0 _ _ E1) as (c1 & Ec1). destruct (mk_stub (fun _ => 0) "circ" 20 1 1 3 case_sh us 1 _ _ E2) as (c2 & Ec2).
  assert (N1 : c1 <> []).
  { apply how_many_pos in B. destruct B as (p & Ip & Lp). destruct (Where (-1)%Z p Ip Lp ltac:(lia)) as (i & s & b & Ns & Hb & Ib & Np & Rg). destruct i as [|[|i]]; cbn in Ns; [| |destruct i; discriminate]; injection Ns as <-.
    - rewrite E1 in Hb. injection Hb as <-. rewrite Ec1 in Ib. intros ->. destruct Ib as [Ib|[]]. congruence.
    - exfalso. destruct (Rg (0 - 2) 6 eq_refl eq_refl) as [_ K]. rewrite F2 in K. apply lt_IZR in K. lia. }
  assert (N2 : c2 <> []).
  { apply how_many_pos in A. destruct A as (p & Ip & Lp). destruct (Where (-3)%Z p Ip Lp ltac:(lia)) as (i & s & b & Ns & Hb & Ib & Np & Rg). destruct i as [|[|i]]; cbn in Ns; [| |destruct i; discriminate]; injection Ns as <-.
    - exfalso. destruct (Rg 0 2 eq_refl eq_refl) as [K _]. rewrite F2 in K. apply lt_IZR in K. lia.
    - rewrite E2 in Hb. injection Hb as <-. rewrite Ec2 in Ib. intros ->. destruct Ib as [Ib|[]]. congruence. }
  set (P := fun p => Nat.eqb (l_id p) 0 && (if Rle_dec (-20) (l_xi p) then (if Rle_dec (l_xi p) 0 then true else false) else false)).
  assert (PS : P stub = false) by (unfold P; cbn; destruct (Rle_dec (-20) (-100000)); [lra|reflexivity]).
  assert (One : (how_many P front <= 1)%nat) by (apply one_zero; [|exact H]; intros p Hp; unfold P in Hp; apply andb_true_iff in Hp; destruct Hp as [Hp _]; apply Nat.eqb_eq; exact Hp).
  assert (Each : forall k s b c, mk k s = Some b -> b = c ++ [stub] -> c <> [] -> (1 <= how_many P b)%nat).
  { intros k s b c Hb Eb Nc. assert (Ids := segment_ids _ _ _ _ _ _ _ _ _ _ Hb). rewrite Eb, removelast_last in Ids. destruct (has_zero c Ids Nc) as (x & Ix & Zx).
    assert (Ib : In x b) by (rewrite Eb; apply in_or_app; now left). apply (how_many_in _ P b x Ib). unfold P. rewrite Zx. cbn.
    assert (K := segment_parts _ _ _ _ _ _ _ _ _ _ Hb). destruct K as (? & ? & ? & ? & ? & ? & xis & _ & _ & _ & _ & _ & _ & _ & b0 & Eb0 & Pb0 & _). rewrite Eb in Eb0. apply app_inj_tail in Eb0. destruct Eb0 as [<- _].
    assert (X := in_perm_map _ _ _ Pb0 Ix). apply filter_In in X. destruct X as [_ X]. destruct (Rle_dec (-(20)) (l_xi x)) as [K|]; [|discriminate]. destruct (Rle_dec (-20) (l_xi x)); [exact X|lra]. }
  destruct (join_count mk P PS (mk_stub (fun _ => 0) "circ" 20 1 1 3 case_sh us) segs 0 None joined Logic.I J) as (Cnt & _). unfold segs in Cnt. cbn [count_segments Nat.add] in Cnt. rewrite E1, E2 in Cnt.
  assert (K1 := Each _ _ _ _ E1 Ec1 N1). assert (K2 := Each _ _ _ _ E2 Ec2 N2).
  assert (Same : how_many P beam = how_many P joined).
  { rewrite <- HB. rewrite how_many_filter; [apply how_many_perm, sort_perm|]. intros p Hp. unfold P in Hp. apply andb_true_iff in Hp. destruct Hp as [_ Hp]. destruct (Rle_dec (-20) (l_xi p)); [exact Hp|discriminate]. }
  rewrite Ef, how_many_app in Same. assert (Z : how_many P [stub] = 0%nat) by (apply how_many_none; intros x [<-|[]]; exact PS). lia.
Qed.
Print Assumptions C72_ids_tell_particles_apart_refuted.
