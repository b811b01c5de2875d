(** C38, C39, C55: plasma density profiles. *)
From Coq Require Import Reals ZArith List Bool String Lra Lia Psatz.
From Verif Require Import Beam2D_Spec Config_Model BeamGen_Model BeamGen_Dict Profile_Model Profile_Spec Profile_Proofs.
Import ListNotations.
Local Open Scope list_scope.
Local Open Scope R_scope.

(** * C38: the longitudinal table *)
(** For every table whose lines are well formed and every time from its start on, the density coefficient
    is the linear interpolation in the segment containing the time and 1 after the end of the table. *)
Theorem C38_table float_of lines segs t :
  Forall2 (zline float_of) (filter nonempty lines) segs -> (forall s, In s segs -> 0 <= z_len s) -> 0 <= t ->
  exists v, zshape_coef float_of lines t = Some v /\ z_density segs t v /\
            forall v', z_density segs t v' -> v' = v.
Proof.
  intros HF HL HT. exists (zval segs t). split; [now apply zloop_val|].
  assert (D := zval_density segs t HL HT). split; [exact D|].
  intros v' D'. exact (z_density_unique segs t v' _ HL D' D).
Qed.
Print Assumptions C38_table.
(** The coefficient at a time inside a linear segment lies between the segment's end values. *)
Theorem C38_between_ends float_of lines segs t before l a b after :
  Forall2 (zline float_of) (filter nonempty lines) segs -> (forall s, In s segs -> 0 <= z_len s) ->
  segs = before ++ ZLin l a b :: after -> z_total before <= t < z_total before + l ->
  exists v, zshape_coef float_of lines t = Some v /\ Rmin a b <= v <= Rmax a b.
Proof.
  intros HF HL E B.
  assert (0 <= z_total before).
  { apply z_total_nonneg. intros s Hs. apply HL. rewrite E. apply in_or_app. now left. }
  destruct (C38_table float_of lines segs t HF HL) as (v & V & _ & U); [lra|]. exists v. split; [assumption|].
  assert (E2 : a + (b - a) * ((t - z_total before) / l) = v).
  { apply U. left. exists before, (ZLin l a b), after. simpl z_len. auto. }
  assert (Q : 0 <= (t - z_total before) / l < 1).
  { assert (0 < l) by lra. split; [apply Rmult_le_pos; [lra|left; now apply Rinv_0_lt_compat]|].
    apply Rmult_lt_reg_r with l; [assumption|]. unfold Rdiv. rewrite Rmult_assoc, Rinv_l by lra. lra. }
  rewrite <- E2. unfold Rmin, Rmax. destruct (Rle_dec a b); split; nra.
Qed.
Print Assumptions C38_between_ends.
(** A table whose linear segments join has no jumps: it changes at most at the largest slope. *)
Theorem C38_continuous float_of lines segs S t1 t2 :
  Forall2 (zline float_of) (filter nonempty lines) segs -> joined segs -> slopes_at_most S segs ->
  0 <= t1 -> t1 <= t2 -> t2 < z_total segs ->
  exists v1 v2, zshape_coef float_of lines t1 = Some v1 /\ zshape_coef float_of lines t2 = Some v2 /\
                Rabs (v2 - v1) <= S * (t2 - t1).
Proof.
  intros HF HJ HS H1 H2 H3. exists (zval segs t1), (zval segs t2).
  split; [now apply zloop_val|]. split; [now apply zloop_val|]. now apply zval_lipschitz.
Qed.
Print Assumptions C38_continuous.
(** A float() that knows the words of the example. *)
Definition ex_float (s : string) : option R :=
  if String.eqb s "10" then Some 10 else if String.eqb s "20" then Some 20 else
  if String.eqb s "0" then Some 0 else if String.eqb s "1" then Some 1 else if String.eqb s "2" then Some 2 else None.
Definition ex_lines : list (list string) := [["10"; "0"; "L"; "1"]; []; ["20"; "1"; "L"; "2"]]%string.
Example C38_ex : Forall2 (zline ex_float) (filter nonempty ex_lines) [ZLin 10 0 1; ZLin 20 1 2] /\
  joined [ZLin 10 0 1; ZLin 20 1 2] /\ slopes_at_most 1 [ZLin 10 0 1; ZLin 20 1 2] /\
  (forall s, In s [ZLin 10 0 1; ZLin 20 1 2] -> 0 <= z_len s) /\
  zshape_coef ex_float ex_lines 20 = Some (3 / 2).
Proof.
  assert (F : Forall2 (zline ex_float) (filter nonempty ex_lines) [ZLin 10 0 1; ZLin 20 1 2]).
  { simpl. repeat constructor. }
  split; [exact F|]. split; [simpl; repeat split; lra|]. split.
  - intros l a b [E|[E|[]]]; injection E as <- <- <-; unfold Rabs; destruct (Rcase_abs _); lra.
  - split.
    + intros s [<-|[<-|[]]]; simpl; lra.
    + unfold zshape_coef. rewrite (zloop_val ex_float _ _ _ F). f_equal. simpl.
      destruct (Rlt_dec 20 10); [lra|]. destruct (Rlt_dec (20 - 10) 20); [|lra]. field.
Qed.
Lemma lower_twice s : lower (lower s) = lower s.
Proof.
  induction s as [|c s IH]; simpl; [reflexivity|]. rewrite IH. f_equal.
  destruct c as [[] [] [] [] [] [] [] []]; reflexivity.
Qed.
(** The configuration dump writes the table in lower case (config.py:112-118), which turns 'L' into an
    unknown kind: the dumped table is not the table of the run. *)
Theorem C38_dumped_table_same_refuted :
  ~ (forall float_of lines t, (forall w, float_of (lower w) = float_of w) ->
       zshape_coef float_of (map (map lower) lines) t = zshape_coef float_of lines t).
Proof.
  intros H. specialize (H (fun w => Some (if String.eqb (lower w) "10" then 10 else 0)) [["10"; "0"; "L"; "0"]]%string 5).
  assert (E : zshape_coef (fun w => Some (if String.eqb (lower w) "10" then 10 else 0)) [["10"; "0"; "l"; "0"]]%string 5 =
              zshape_coef (fun w => Some (if String.eqb (lower w) "10" then 10 else 0)) [["10"; "0"; "L"; "0"]]%string 5).
  { apply H. intros w. now rewrite lower_twice. }
  unfold zshape_coef in E. simpl in E. unfold ltb in E. destruct (Rlt_dec 5 10); [|lra].
  injection E as E. lra.
Qed.
Print Assumptions C38_dumped_table_same_refuted.

Lemma Forall2_map_self {A B} (P : A -> B -> Prop) (f : A -> B) l :
  (forall a, In a l -> P a (f a)) -> Forall2 P l (map f l).
Proof.
  induction l as [|a l IH]; intros H; simpl; constructor; [apply H; now left|apply IH; intros b Hb; apply H; now right].
Qed.
Lemma Forall2_in_impl {A B} (P Q : A -> B -> Prop) l m :
  (forall a b, In a l -> P a b -> Q a b) -> Forall2 P l m -> Forall2 Q l m.
Proof.
  intros H F. induction F as [|a b l m HP F IH]; constructor; [apply H; [now left|assumption]|].
  apply IH. intros x y Hx. apply H. now right.
Qed.
(** * C39: radial profiles *)
(** stepwise with a ramp (width-2 > width): one inside, zero outside, and on the ramp the ideal linear
    decrease, too high by at most (r' - width)/(width-2 - width) for any particle r' on the ramp. *)
Theorem C39_stepwise_ramp name w w2 d2 rs cs :
  In name ["2"; "stepwise"]%string -> w < w2 -> radial_coef name w w2 d2 rs = Some cs ->
  Forall2 (fun r c => r <> w2 ->
             (forall r', In r' rs -> w < r' < w2 -> 0 <= c - stepwise_ideal w w2 r <= (r' - w) / (w2 - w)) /\
             (r <= w \/ w2 < r -> c = stepwise_ideal w w2 r) /\ 0 <= c <= 1) rs cs.
Proof.
  intros HN HW H.
  assert (E : exists r_0, list_min (filter (fun r => ltb w r && ltb r w2) rs) = Some r_0 /\
    cs = map (fun r => if ltb (Rmax w w2) r then 0 else if ltb w r && ltb r w2 then 1 - (r - r_0) / (w2 - w) else 1) rs).
  { unfold radial_coef in H.
    assert (N1 : is_name ["1"; "uniform"]%string name = false) by (destruct HN as [<-|[<-|[]]]; reflexivity).
    assert (N2 : is_name ["2"; "stepwise"]%string name = true) by (destruct HN as [<-|[<-|[]]]; reflexivity).
    rewrite N1, N2 in H. replace (ltb 0 (w2 - w)) with true in H by (symmetry; apply ltb_true; lra).
    apply obind_some in H as (c & Hc & H). apply obind_some in Hc as (r_0 & E0 & Hc).
    injection Hc as <-. injection H as <-. exists r_0. split; [exact E0|reflexivity]. }
  destruct E as (r_0 & E0 & ->). apply list_min_spec in E0 as [I0 M0].
  apply filter_In in I0 as [I0 B0]. apply andb_prop in B0 as [B0 B1]. apply ltb_true in B0, B1.
  assert (M : forall r', In r' rs -> w < r' < w2 -> r_0 <= r').
  { intros r' Hr' [A B]. apply M0. apply filter_In. split; [assumption|]. apply andb_true_intro. split; now apply ltb_true. }
  clear M0. apply Forall2_map_self. intros r Hr NE.
  rewrite Rmax_right by lra. unfold stepwise_ideal.
  assert (D : 0 < w2 - w) by lra. assert (ID := Rinv_0_lt_compat _ D).
  destruct (ltb w2 r) eqn:L1.
  - apply ltb_true in L1. destruct (Rle_dec r w); [lra|]. destruct (Rlt_dec r w2); [lra|].
    split; [|split; [auto|lra]]. intros r' _ [A _]. replace (0 - 0) with 0 by ring.
    split; [lra|]. apply Rmult_le_pos; lra.
  - apply ltb_false in L1. destruct (ltb w r) eqn:L2; cbn [andb].
    + apply ltb_true in L2. replace (ltb r w2) with true by (symmetry; apply ltb_true; lra).
      destruct (Rle_dec r w); [lra|]. destruct (Rlt_dec r w2); [|lra].
      replace (1 - (r - r_0) / (w2 - w) - (w2 - r) / (w2 - w)) with ((r_0 - w) / (w2 - w)) by (field; lra).
      split; [|split; [intros [?|?]; lra|]].
      * intros r' Hr' HB. specialize (M r' Hr' HB). split; [apply Rmult_le_pos; lra|].
        apply Rmult_le_compat_r; lra.
      * assert (MR := M r Hr (conj L2 r0)).
        assert (Q : 0 <= (r - r_0) / (w2 - w) <= 1).
        { split; [apply Rmult_le_pos; lra|]. apply Rmult_le_reg_r with (w2 - w); [assumption|].
          unfold Rdiv. rewrite Rmult_assoc, Rinv_l by lra. lra. }
        lra.
    + apply ltb_false in L2. destruct (Rle_dec r w); [|lra]. replace (1 - 1) with 0 by ring.
      split; [|split; [auto|lra]]. intros r' _ [A _]. split; [lra|]. apply Rmult_le_pos; lra.
Qed.
Print Assumptions C39_stepwise_ramp.
Example C39_stepwise_ex : exists cs, radial_coef "stepwise" 1 2 0 [0; 1; 5 / 4; 7 / 4; 3] = Some cs.
Proof.
  unfold radial_coef. simpl. replace (ltb 0 (2 - 1)) with true by (symmetry; apply ltb_true; lra).
  replace (ltb 1 0) with false by (symmetry; apply ltb_false; lra).
  replace (ltb 1 1) with false by (symmetry; apply ltb_false; lra).
  replace (ltb 1 (5 / 4)) with true by (symmetry; apply ltb_true; lra).
  replace (ltb (5 / 4) 2) with true by (symmetry; apply ltb_true; lra).
  cbn [andb list_min]. destruct (list_min _); cbn [obind]; eauto.
Qed.
(** A particle exactly at width-2 keeps the full density although all its neighbours have almost none. *)
Theorem C39_stepwise_outer_edge name w w2 d2 rs cs :
  In name ["2"; "stepwise"]%string -> w < w2 -> radial_coef name w w2 d2 rs = Some cs ->
  Forall2 (fun r c => r = w2 -> c = 1) rs cs.
Proof.
  intros HN HW H. unfold radial_coef in H.
  assert (N1 : is_name ["1"; "uniform"]%string name = false) by (destruct HN as [<-|[<-|[]]]; reflexivity).
  assert (N2 : is_name ["2"; "stepwise"]%string name = true) by (destruct HN as [<-|[<-|[]]]; reflexivity).
  rewrite N1, N2 in H. replace (ltb 0 (w2 - w)) with true in H by (symmetry; apply ltb_true; lra).
  apply obind_some in H as (c & Hc & H). apply obind_some in Hc as (r_0 & E0 & Hc).
  injection Hc as <-. injection H as <-. clear E0. rewrite Rmax_right by lra.
  induction rs as [|r rs IH]; constructor; [|assumption]. intros ->.
  replace (ltb w2 w2) with false by (symmetry; apply ltb_false; lra). now rewrite andb_false_r.
Qed.
Print Assumptions C39_stepwise_outer_edge.
Theorem C39_stepwise_decreasing_refuted :
  ~ (forall w w2 d2 rs cs, w < w2 -> radial_coef "stepwise" w w2 d2 rs = Some cs ->
       forall i j r1 r2 c1 c2, nth_error rs i = Some r1 -> nth_error rs j = Some r2 -> nth_error cs i = Some c1 ->
         nth_error cs j = Some c2 -> r1 <= r2 -> c2 <= c1).
Proof.
  intros H.
  destruct (radial_coef "stepwise" 1 2 0 [5 / 4; 7 / 4; 2]) as [cs|] eqn:E.
  - assert (A := C39_stepwise_outer_edge "stepwise" 1 2 0 _ cs (or_intror (or_introl eq_refl)) ltac:(lra) E).
    assert (B := C39_stepwise_ramp "stepwise" 1 2 0 _ cs (or_intror (or_introl eq_refl)) ltac:(lra) E).
    destruct cs as [|c1 [|c2 [|c3 cs]]]; try (exfalso; inversion A; subst; repeat match goal with K : Forall2 _ _ [] |- _ => inversion K | K : Forall2 _ (_ :: _) (_ :: _) |- _ => inversion K; clear K; subst end; fail).
    assert (C3 : c3 = 1).
    { inversion A as [|? ? ? ? _ A1]; subst. inversion A1 as [|? ? ? ? _ A2]; subst. inversion A2 as [|? ? ? ? X _]; subst. now apply X. }
    assert (C2 : c2 <= 1 / 2).
    { inversion B as [|? ? ? ? _ B1]; subst. inversion B1 as [|? ? ? ? X _]; subst.
      destruct X as [X _]; [lra|]. specialize (X (5 / 4)). simpl in X. destruct X as [_ X]; [auto|lra|].
      unfold stepwise_ideal in X. destruct (Rle_dec (7 / 4) 1); [lra|]. destruct (Rlt_dec (7 / 4) 2); lra. }
    specialize (H 1 2 0 _ _ ltac:(lra) E 1%nat 2%nat (7 / 4) 2 c2 c3 eq_refl eq_refl eq_refl eq_refl). lra.
  - unfold radial_coef in E. simpl in E.
    replace (ltb 0 (2 - 1)) with true in E by (symmetry; apply ltb_true; lra).
    replace (ltb 1 (5 / 4)) with true in E by (symmetry; apply ltb_true; lra).
    replace (ltb (5 / 4) 2) with true in E by (symmetry; apply ltb_true; lra).
    cbn [andb list_min] in E. destruct (list_min _); discriminate.
Qed.
Print Assumptions C39_stepwise_decreasing_refuted.
(** stepwise without a ramp: a sharp edge. *)
Theorem C39_stepwise_sharp name w w2 d2 rs :
  In name ["2"; "stepwise"]%string -> w2 <= w ->
  radial_coef name w w2 d2 rs = Some (map (fun r => if Rle_dec r w then 1 else 0) rs).
Proof.
  intros HN HW. unfold radial_coef.
  assert (N1 : is_name ["1"; "uniform"]%string name = false) by (destruct HN as [<-|[<-|[]]]; reflexivity).
  assert (N2 : is_name ["2"; "stepwise"]%string name = true) by (destruct HN as [<-|[<-|[]]]; reflexivity).
  rewrite N1, N2. replace (ltb 0 (w2 - w)) with false by (symmetry; apply ltb_false; lra).
  cbn [obind]. f_equal. apply map_ext. intros r. rewrite Rmax_left by assumption. unfold ltb.
  destruct (Rlt_dec w r); destruct (Rle_dec r w); try reflexivity; lra.
Qed.
Print Assumptions C39_stepwise_sharp.
(** The ramp needs a particle: when no particle lies strictly between the widths, stepwise and channel
    profiles raise an exception. *)
Theorem C39_empty_ramp_fails name w w2 d2 rs :
  In name ["2"; "stepwise"; "3"; "channel"]%string -> w < w2 -> (forall r, In r rs -> ~ (w < r < w2)) ->
  radial_coef name w w2 d2 rs = None.
Proof.
  intros HN HW HE. unfold radial_coef.
  assert (F : filter (fun r => ltb w r && ltb r w2) rs = []).
  { induction rs as [|r rs IH]; [reflexivity|]. simpl. destruct (ltb w r && ltb r w2) eqn:E.
    - exfalso. apply andb_prop in E as [A B]. apply ltb_true in A, B. apply (HE r); [now left|auto].
    - apply IH. intros z Hz. apply HE. now right. }
  rewrite F. replace (ltb 0 (w2 - w)) with true by (symmetry; apply ltb_true; lra).
  destruct HN as [<-|[<-|[<-|[<-|[]]]]]; reflexivity.
Qed.
Print Assumptions C39_empty_ramp_fails.
(** channel: density-2 inside, one outside; between the widths the values of the code. *)
Theorem C39_channel name w w2 d2 rs cs :
  In name ["3"; "channel"]%string -> w < w2 -> radial_coef name w w2 d2 rs = Some cs ->
  exists r_0, In r_0 rs /\ w < r_0 < w2 /\ (forall r, In r rs -> w < r < w2 -> r_0 <= r) /\
  Forall2 (fun r c => (r <= w -> c = d2) /\ (w2 <= r -> c = 1) /\
                      (w < r < w2 -> c = (d2 * (1 + (w2 - w) - r) + (r - r_0)) / (w2 - w))) rs cs.
Proof.
  intros HN HW H. unfold radial_coef in H.
  assert (N1 : is_name ["1"; "uniform"]%string name = false) by (destruct HN as [<-|[<-|[]]]; reflexivity).
  assert (N2 : is_name ["2"; "stepwise"]%string name = false) by (destruct HN as [<-|[<-|[]]]; reflexivity).
  assert (N3 : is_name ["3"; "channel"]%string name = true) by (destruct HN as [<-|[<-|[]]]; reflexivity).
  rewrite N1, N2, N3 in H. replace (ltb 0 (w2 - w)) with true in H by (symmetry; apply ltb_true; lra).
  apply obind_some in H as (c & Hc & H). apply obind_some in Hc as (r_0 & E0 & Hc).
  injection Hc as <-. injection H as <-. apply list_min_spec in E0 as [I0 M0].
  apply filter_In in I0 as [I0 B0]. apply andb_prop in B0 as [B0 B1]. apply ltb_true in B0, B1.
  exists r_0. split; [assumption|]. split; [auto|]. split.
  - intros r' Hr' [A B]. apply M0. apply filter_In. split; [assumption|]. apply andb_true_intro. split; now apply ltb_true.
  - clear I0 M0. induction rs as [|r rs IH]; constructor; [|assumption].
    destruct (ltb w r) eqn:L1; destruct (ltb r w2) eqn:L2; cbn [andb];
      rewrite ?ltb_true, ?ltb_false in *; unfold leb; destruct (Rle_dec r w); repeat split; intros; try lra; reflexivity.
Qed.
Print Assumptions C39_channel.
(** For an empty channel (density-2 = 0) that is the ideal linear rise, too low by the same grid offset. *)
Theorem C39_hollow_channel name w w2 rs cs :
  In name ["3"; "channel"]%string -> w < w2 -> radial_coef name w w2 0 rs = Some cs ->
  Forall2 (fun r c => (r <= w \/ w2 <= r -> c = channel_ideal w w2 0 r) /\
             (w < r < w2 -> forall r', In r' rs -> w < r' < w2 ->
                0 <= channel_ideal w w2 0 r - c <= (r' - w) / (w2 - w))) rs cs.
Proof.
  intros HN HW H. destruct (C39_channel name w w2 0 rs cs HN HW H) as (r_0 & I0 & B0 & M & F).
  assert (D : 0 < w2 - w) by lra. assert (ID := Rinv_0_lt_compat _ D).
  revert F. apply Forall2_in_impl. intros r c Hr (A1 & A2 & A3).
  unfold channel_ideal. split.
  - intros [L|L]; destruct (Rle_dec r w); destruct (Rlt_dec r w2); auto; lra.
  - intros L r' Hr' HB. destruct (Rle_dec r w); [lra|]. destruct (Rlt_dec r w2); [|lra]. rewrite (A3 L).
    replace (0 + (1 - 0) * ((r - w) / (w2 - w)) - (0 * (1 + (w2 - w) - r) + (r - r_0)) / (w2 - w))
      with ((r_0 - w) / (w2 - w)) by (field; lra).
    specialize (M r' Hr' HB). split; [apply Rmult_le_pos; lra|apply Rmult_le_compat_r; lra].
Qed.
Print Assumptions C39_hollow_channel.
(** For a partly filled channel the ramp is wrong: with a first ramp particle beyond 1 + (w2 - w) its
    density is negative... *)
Theorem C39_channel_negative name w w2 d2 rs cs :
  In name ["3"; "channel"]%string -> w < w2 -> 0 < d2 -> radial_coef name w w2 d2 rs = Some cs ->
  1 + (w2 - w) <= w -> exists c, In c cs /\ c < 0.
Proof.
  intros HN HW HD H HB. destruct (C39_channel name w w2 d2 rs cs HN HW H) as (r_0 & I0 & B0 & M & F).
  clear H M. assert (ID : 0 < / (w2 - w)) by (apply Rinv_0_lt_compat; lra).
  induction F as [|r c l cs' (A1 & A2 & A3) F IH]; [destruct I0|].
  destruct I0 as [->|I0].
  - exists c. split; [now left|]. rewrite A3 by assumption.
    assert (d2 * (1 + (w2 - w) - r_0) + (r_0 - r_0) < 0) by nra. unfold Rdiv. nra.
  - destruct (IH I0) as (c' & H1 & H2). exists c'. split; [now right|assumption].
Qed.
Print Assumptions C39_channel_negative.
(** ... and the whole channel is then replaced by a uniform plasma. *)
Theorem C39_channel_becomes_uniform float_of name w w2 d2 dt t lines xs ys q m cz q' m' :
  In name ["3"; "channel"]%string -> w < w2 -> 0 < d2 -> 1 + (w2 - w) <= w ->
  List.length ys = List.length xs -> List.length q = List.length xs -> List.length m = List.length xs ->
  zshape_coef float_of lines (t - dt / 2) = Some cz -> 0 < cz ->
  profile_initial_plasma float_of None (RName name) lines w w2 d2 dt t xs ys q m = Some (q', m') ->
  q' = q /\ m' = m.
Proof.
  intros HN HW HD HB LY LQ LM HZ HC H. unfold profile_initial_plasma in H.
  apply obind_some in H as (coef & Hcoef & H). rewrite HZ in Hcoef. cbn [obind] in Hcoef.
  apply obind_some in Hcoef as (cr & HR & Hcoef). injection Hcoef as <-.
  unfold rshape_coef in HR.
  assert (N : is_name ["1"; "uniform"; "2"; "stepwise"; "3"; "channel"; "4"; "parabolic-channel"; "5"; "gaussian"]%string name = true)
    by (destruct HN as [<-|[<-|[]]]; reflexivity).
  rewrite N in HR. destruct (C39_channel_negative name w w2 d2 _ cr HN HW HD HR HB) as (c & IC & LC).
  assert (E : existsb (fun c => ltb c 0) (map (fun c => cz * c) cr) = true).
  { apply existsb_exists. exists (cz * c). split; [now apply (in_map (fun c => cz * c))|]. apply ltb_true. nra. }
  rewrite E in H. injection H as <- <-.
  assert (Z : forall l, List.length l = List.length xs -> zip_with Rmult l (map (fun _ => 1) xs) = l).
  { clear. induction xs as [|x xs IH]; intros [|a l] L; simpl in *; try lia; [reflexivity|].
    rewrite IH by lia. f_equal. lra. }
  split; now apply Z.
Qed.
Print Assumptions C39_channel_becomes_uniform.
Example C39_channel_ex : (* width 3, width-2 4, density-2 1/2, particles at 1, 7/2, 5 *)
  exists q' m', profile_initial_plasma ex_float None (RName "channel") [] 3 4 (1 / 2) 1 1 [1; 7 / 2; 5] [0; 0; 0] [-1; -1; -1] [1; 1; 1]
    = Some (q', m').
Proof.
  unfold profile_initial_plasma. simpl.
  replace (1 * (1 * 1) + 0 * (0 * 1)) with (Rsqr 1) by (unfold Rsqr; ring).
  replace (7 / 2 * (7 / 2 * 1) + 0 * (0 * 1)) with (Rsqr (7 / 2)) by (unfold Rsqr; field).
  replace (5 * (5 * 1) + 0 * (0 * 1)) with (Rsqr 5) by (unfold Rsqr; ring).
  rewrite !sqrt_Rsqr by lra. unfold radial_coef. simpl.
  replace (ltb 0 (4 - 3)) with true by (symmetry; apply ltb_true; lra).
  replace (ltb 3 1) with false by (symmetry; apply ltb_false; lra).
  replace (ltb 3 (7 / 2)) with true by (symmetry; apply ltb_true; lra).
  replace (ltb (7 / 2) 4) with true by (symmetry; apply ltb_true; lra).
  cbn [andb]. destruct (list_min (_ :: _)) as [r0|] eqn:E; [|apply list_min_none in E; discriminate].
  cbn [obind]. eauto.
Qed.
Theorem C39_channel_ideal_refuted :
  ~ (forall w w2 d2 rs cs, 0 < w -> w < w2 -> 0 <= d2 <= 1 -> radial_coef "channel" w w2 d2 rs = Some cs ->
       Forall2 (fun r c => d2 <= c <= 1) rs cs).
Proof.
  intros H. destruct (radial_coef "channel" 3 4 (1 / 2) [7 / 2]) as [cs|] eqn:E.
  - destruct (C39_channel_negative "channel" 3 4 (1 / 2) _ cs (or_intror (or_introl eq_refl)) ltac:(lra) ltac:(lra) E ltac:(lra)) as (c & IC & LC).
    specialize (H 3 4 (1 / 2) _ cs ltac:(lra) ltac:(lra) ltac:(lra) E).
    clear E. revert IC H. generalize [7 / 2] as l. intros l IC H.
    induction H as [|r c' l cs' A F IH]; [destruct IC|]. destruct IC as [->|IC]; [lra|auto].
  - unfold radial_coef in E. simpl in E.
    replace (ltb 0 (4 - 3)) with true in E by (symmetry; apply ltb_true; lra).
    replace (ltb 3 (7 / 2)) with true in E by (symmetry; apply ltb_true; lra).
    replace (ltb (7 / 2) 4) with true in E by (symmetry; apply ltb_true; lra).
    cbn [andb list_min obind] in E. discriminate.
Qed.
Print Assumptions C39_channel_ideal_refuted.
(** channel whose second width is not larger: density-2 up to the width, one beyond it. *)
Theorem C39_channel_sharp name w w2 d2 rs :
  In name ["3"; "channel"]%string -> w2 <= w ->
  radial_coef name w w2 d2 rs = Some (map (fun r => if Rle_dec r w then d2 else 1) rs).
Proof.
  intros HN HW. unfold radial_coef.
  assert (N1 : is_name ["1"; "uniform"]%string name = false) by (destruct HN as [<-|[<-|[]]]; reflexivity).
  assert (N2 : is_name ["2"; "stepwise"]%string name = false) by (destruct HN as [<-|[<-|[]]]; reflexivity).
  assert (N3 : is_name ["3"; "channel"]%string name = true) by (destruct HN as [<-|[<-|[]]]; reflexivity).
  rewrite N1, N2, N3. replace (ltb 0 (w2 - w)) with false by (symmetry; apply ltb_false; lra).
  cbn [obind]. f_equal. apply map_ext. intros r. unfold leb. now destruct (Rle_dec r w).
Qed.
Print Assumptions C39_channel_sharp.
(** The radius that the named profiles look at is the distance to the axis. *)
Theorem C39_profile_of_distance float_of name w w2 d2 t xs ys cs : List.length ys = List.length xs ->
  In name ["1"; "uniform"; "2"; "stepwise"; "3"; "channel"; "4"; "parabolic-channel"; "5"; "gaussian"]%string ->
  rshape_coef float_of (RName name) w w2 d2 t xs ys = Some cs ->
  exists rs, radial_coef name w w2 d2 rs = Some cs /\ List.length rs = List.length xs /\
    forall k x y r, nth_error xs k = Some x -> nth_error ys k = Some y -> nth_error rs k = Some r -> 0 <= r /\ r * r = x * x + y * y.
Proof.
  intros L HN H. unfold rshape_coef in H. exists (zip_with (fun x y => sqrt (x ^ 2 + y ^ 2)) xs ys). split; [|split].
  - assert (N : is_name ["1"; "uniform"; "2"; "stepwise"; "3"; "channel"; "4"; "parabolic-channel"; "5"; "gaussian"]%string name = true).
    { unfold is_name. apply existsb_exists. exists name. split; [exact HN|apply String.eqb_refl]. }
    now rewrite N in H.
  - clear H. revert ys L. induction xs as [|x xs IH]; intros [|y ys] L; try discriminate; [reflexivity|]. cbn. f_equal. apply IH. now injection L.
  - clear H. revert ys L. induction xs as [|x0 xs IH]; intros [|y0 ys] L k x y r Hx Hy Hr; try discriminate; [destruct k; discriminate|].
    destruct k as [|k]; [|apply (IH ys ltac:(now injection L) k x y r); assumption]. cbn in Hx, Hy. injection Hx as <-. injection Hy as <-. unfold zip_with in Hr. cbn in Hr.
    injection Hr as <-. split; [apply sqrt_pos|]. rewrite sqrt_sqrt by nra. ring.
Qed.
Print Assumptions C39_profile_of_distance.
(** parabolic-channel: density-2 on the axis growing as the square of the radius, capped at one. *)
Theorem C39_parabolic name w w2 d2 rs :
  In name ["4"; "parabolic-channel"]%string ->
  radial_coef name w w2 d2 rs = Some (map (fun r => Rmin 1 (d2 + d2 * (r / w) ^ 2)) rs).
Proof.
  intros HN. unfold radial_coef.
  assert (N1 : is_name ["1"; "uniform"]%string name = false) by (destruct HN as [<-|[<-|[]]]; reflexivity).
  assert (N2 : is_name ["2"; "stepwise"]%string name = false) by (destruct HN as [<-|[<-|[]]]; reflexivity).
  assert (N3 : is_name ["3"; "channel"]%string name = false) by (destruct HN as [<-|[<-|[]]]; reflexivity).
  assert (N4 : is_name ["4"; "parabolic-channel"]%string name = true) by (destruct HN as [<-|[<-|[]]]; reflexivity).
  rewrite N1, N2, N3, N4. f_equal. apply map_ext. intros r. cbv zeta.
  replace (d2 * (1 + (r / w) ^ 2)) with (d2 + d2 * (r / w) ^ 2) by ring. unfold ltb, Rmin.
  destruct (Rlt_dec 1 (d2 + d2 * (r / w) ^ 2)); destruct (Rle_dec 1 (d2 + d2 * (r / w) ^ 2)); try lra.
Qed.
Print Assumptions C39_parabolic.
(** gaussian: within 2e-5 of the Gaussian of rms width; zero beyond five widths. *)
Theorem C39_gaussian name w w2 d2 rs cs :
  In name ["5"; "gaussian"]%string -> 0 < w -> radial_coef name w w2 d2 rs = Some cs ->
  Forall2 (fun r c => 0 <= r -> 0 <= exp (- (r / w) ^ 2 / 2) - c < 1 / 50000 /\ (5 * w < r -> c = 0) /\ 0 <= c <= 1) rs cs.
Proof.
  intros HN HW H. unfold radial_coef in H.
  assert (N1 : is_name ["1"; "uniform"]%string name = false) by (destruct HN as [<-|[<-|[]]]; reflexivity).
  assert (N2 : is_name ["2"; "stepwise"]%string name = false) by (destruct HN as [<-|[<-|[]]]; reflexivity).
  assert (N3 : is_name ["3"; "channel"]%string name = false) by (destruct HN as [<-|[<-|[]]]; reflexivity).
  assert (N4 : is_name ["4"; "parabolic-channel"]%string name = false) by (destruct HN as [<-|[<-|[]]]; reflexivity).
  assert (N5 : is_name ["5"; "gaussian"]%string name = true) by (destruct HN as [<-|[<-|[]]]; reflexivity).
  rewrite N1, N2, N3, N4, N5 in H.
  assert (EQ : cs = map (fun r => if ltb (5 * w) r then 0 else exp (- r ^ 2 / 2 / w ^ 2)) rs) by congruence.
  subst cs. clear H N1 N2 N3 N4 N5.
  assert (T : exp (- (25 / 2)) < 1 / 50000).
  { assert (B : forall n, (5 / 4) ^ n <= exp (INR n * / 4)).
    { induction n as [|n IH]; [simpl; rewrite Rmult_0_l, exp_0; lra|].
      rewrite S_INR, Rmult_plus_distr_r, exp_plus. simpl pow.
      assert (1 + / 4 < exp (/ 4)) by (apply exp_ineq1; lra).
      assert (0 < (5 / 4) ^ n) by (apply pow_lt; lra).
      rewrite Rmult_1_l. nra. }
    specialize (B 50%nat). replace (INR 50 * / 4) with (25 / 2) in B by (rewrite INR_IZR_INZ; simpl; lra).
    rewrite exp_Ropp.
    assert (P : 50000 < (5 / 4) ^ 50) by (simpl; lra).
    apply Rmult_lt_reg_r with (exp (25 / 2)); [apply exp_pos|]. rewrite Rinv_l by (assert (K := exp_pos (25 / 2)); lra). lra. }
  induction rs as [|r rs IH]; constructor; [|assumption]. intros HR.
  replace (- r ^ 2 / 2 / w ^ 2) with (- (r / w) ^ 2 / 2) by (field; lra).
  assert (EP := exp_pos (- (r / w) ^ 2 / 2)).
  destruct (ltb (5 * w) r) eqn:L.
  - apply ltb_true in L. split; [|split; [auto|lra]]. split; [lra|]. rewrite Rminus_0_r.
    eapply Rlt_trans; [|exact T]. apply exp_increasing.
    assert (5 < r / w). { apply Rmult_lt_reg_r with w; [assumption|]. unfold Rdiv. rewrite Rmult_assoc, Rinv_l by lra. lra. }
    nra.
  - apply ltb_false in L. replace (exp (- (r / w) ^ 2 / 2) - exp (- (r / w) ^ 2 / 2)) with 0 by ring.
    split; [lra|]. split; [intros; lra|]. split; [lra|].
    rewrite <- exp_0. assert (A : - (r / w) ^ 2 / 2 <= 0) by nra.
    destruct A as [A| ->]; [left; now apply exp_increasing|lra].
Qed.
Print Assumptions C39_gaussian.
(** uniform, and every unknown name: density one. *)
Theorem C39_uniform name w w2 d2 rs :
  In name ["1"; "uniform"]%string \/
  ~ In name ["2"; "stepwise"; "3"; "channel"; "4"; "parabolic-channel"; "5"; "gaussian"]%string ->
  radial_coef name w w2 d2 rs = Some (map (fun _ => 1) rs).
Proof.
  intros HN. unfold radial_coef.
  destruct HN as [[<-|[<-|[]]]|HN]; try reflexivity.
  destruct (is_name ["1"; "uniform"]%string name) eqn:N1; [reflexivity|].
  destruct (is_name ["2"; "stepwise"]%string name) eqn:N2; [apply is_name_in in N2; exfalso; apply HN; destruct N2 as [<-|[<-|[]]]; simpl; tauto|].
  destruct (is_name ["3"; "channel"]%string name) eqn:N3; [apply is_name_in in N3; exfalso; apply HN; destruct N3 as [<-|[<-|[]]]; simpl; tauto|].
  destruct (is_name ["4"; "parabolic-channel"]%string name) eqn:N4; [apply is_name_in in N4; exfalso; apply HN; destruct N4 as [<-|[<-|[]]]; simpl; tauto|].
  destruct (is_name ["5"; "gaussian"]%string name) eqn:N5; [apply is_name_in in N5; exfalso; apply HN; destruct N5 as [<-|[<-|[]]]; simpl; tauto|].
  reflexivity.
Qed.
Print Assumptions C39_uniform.

(** * C55: the profile scales charge and mass together and never makes the density negative *)
Theorem C55_scaling float_of user sh lines w w2 d2 dt t xs ys q m q' m' :
  profile_initial_plasma float_of user sh lines w w2 d2 dt t xs ys q m = Some (q', m') ->
  exists coef, q' = zip_with Rmult q coef /\ m' = zip_with Rmult m coef /\ (forall c, In c coef -> 0 <= c) /\
    (exists wanted, (coef = wanted \/ (coef = map (fun _ => 1) xs /\ exists c, In c wanted /\ c < 0)) /\
       match user with
       | Some f => wanted = f t xs ys
       | None => exists cz cr, zshape_coef float_of lines (t - dt / 2) = Some cz /\
                   rshape_coef float_of sh w w2 d2 (t - dt / 2) xs ys = Some cr /\ wanted = map (fun c => cz * c) cr
       end).
Proof.
  intros H. unfold profile_initial_plasma in H. apply obind_some in H as (wanted & HW & H).
  destruct (existsb (fun c => ltb c 0) wanted) eqn:E; injection H as <- <-.
  - exists (map (fun _ => 1) xs). split; [reflexivity|]. split; [reflexivity|]. split.
    + intros c Hc. apply in_map_iff in Hc as (? & <- & _). lra.
    + exists wanted. split.
      * right. split; [reflexivity|]. apply existsb_exists in E as (c & Hc & L). apply ltb_true in L. eauto.
      * destruct user; [congruence|]. apply obind_some in HW as (cz & EZ & HW). apply obind_some in HW as (cr & ER & HW).
        exists cz, cr. repeat split; congruence.
  - exists wanted. split; [reflexivity|]. split; [reflexivity|]. split.
    + intros c Hc. destruct (Rlt_dec c 0) as [L|L]; [|lra]. exfalso.
      assert (existsb (fun c => ltb c 0) wanted = true); [|congruence]. apply existsb_exists. exists c. split; [assumption|now apply ltb_true].
    + exists wanted. split; [now left|].
      destruct user; [congruence|]. apply obind_some in HW as (cz & EZ & HW). apply obind_some in HW as (cr & ER & HW).
      exists cz, cr. repeat split; congruence.
Qed.
Print Assumptions C55_scaling.
(** Which radial profile is in force: the one of the segment of the table that contains the time, uniform
    after its end. *)
Inductive rline (float_of : string -> option R) : list string -> R -> string -> R -> R -> R -> Prop :=
| rline_intro wl name ww ww2 wd l w w2 d2 more :
    float_of wl = Some l -> float_of ww = Some w -> float_of ww2 = Some w2 -> float_of wd = Some d2 ->
    rline float_of (wl :: name :: ww :: ww2 :: wd :: more) l name w w2 d2.
Theorem C55_radial_table float_of before line after l name w w2 d2 lens t rs :
  Forall2 (fun ln len => exists n a b c, rline float_of ln len n a b c) before lens ->
  (forall x, In x lens -> 0 <= x) ->
  rline float_of line l name w w2 d2 -> sumR lens <= t < sumR lens + l ->
  rshape_loop float_of (before ++ line :: after) t rs = radial_coef name w w2 d2 rs.
Proof.
  intros HF HP HL. revert t. induction HF as [|ln len before lens (n & a & b & c & HR) HF IH]; intros t HT.
  - simpl in *. inversion HL; subst. unfold num, word. simpl. rewrite H. simpl.
    replace (ltb t l) with true by (symmetry; apply ltb_true; lra). rewrite H0, H1, H2. reflexivity.
  - simpl in HT. cbn [app rshape_loop]. inversion HR; subst. unfold num, word at 1. cbn [nth_error obind]. rewrite H.
    cbn [obind]. assert (S0 : 0 <= sumR lens).
    { assert (K : forall x, In x lens -> 0 <= x) by (intros; apply HP; now right). clear - K.
      induction lens as [|x lens IH]; simpl; [lra|]. assert (0 <= x) by (apply K; now left).
      assert (0 <= sumR lens) by (apply IH; intros; apply K; now right). lra. }
    replace (ltb t len) with false by (symmetry; apply ltb_false; lra).
    apply IH; [intros; apply HP; now right|lra].
Qed.
Print Assumptions C55_radial_table.
