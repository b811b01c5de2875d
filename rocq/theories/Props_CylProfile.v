(** Theorems C71: the radial profiles of lcode/plasma/profiles.py. *)
From Coq Require Import Reals ZArith List Bool String Lia Lra Psatz.
From Verif Require Import Beam2D_Model BeamGen_Model Profile_Model Plasma2D_Model CylProfile_Model CylProfile_Spec.
From Verif Require Import Beam2D_Free.
Import ListNotations.
Local Open Scope list_scope.
Local Open Scope R_scope.

(** ** Names: the five words, and the numbers 1, 2, 3, 5, 6 written in any way float() reads (the fraction is dropped);
    everything else raises. *)
Definition known (z : Z) (w : string) : Prop :=
  In (z, w) [(1%Z, "uniform"); (2%Z, "stepwise"); (3%Z, "gaussian"); (5%Z, "channel"); (6%Z, "sub-channel")]%string.
Theorem C71_names : forall fl s o,
  (forall x, fl s = Some x -> ((exists p, get_plasma_profile fl s o = Some p) <-> exists z w, known z w /\ (IZR z <= x < IZR z + 1))) /\
  (fl s = None -> ((exists p, get_plasma_profile fl s o = Some p) <-> exists z, known z s)) /\
  (forall x z w s', known z w -> fl w = None -> fl s' = Some x -> IZR z <= x < IZR z + 1 -> get_plasma_profile fl s' o = get_plasma_profile fl w o).
Proof.
  intros fl s o. assert (T : forall x z w, known z w -> IZR z <= x < IZR z + 1 -> py_int x = z).
  { intros x z w K H. unfold py_int. assert (1 <= IZR z) by (apply IZR_le; repeat destruct K as [K|K]; try (injection K as <- <-; lia); contradiction).
    destruct (Rlt_dec x 0); [lra|]. destruct (floorR_spec x) as [F1 F2].
    assert (A : IZR (floorR x) < IZR (z + 1)) by (rewrite plus_IZR; lra). assert (B : IZR z < IZR (floorR x + 1)) by (rewrite plus_IZR; lra). apply lt_IZR in A, B. lia. }
  split; [|split].
  - intros x E. unfold get_plasma_profile. rewrite E. split.
    + intros (p & H). cbn in H. unfold by_number in H. set (z := py_int x) in *.
      assert (K : exists w, known z w). { clearbody z. unfold known. destruct z as [|q|q]; try discriminate. repeat match goal with q : positive |- _ => destruct q; try discriminate H end; eexists; cbn; eauto 8. }
      destruct K as (w & K). exists z, w. split; [exact K|]. subst z. unfold py_int in *. destruct (Rlt_dec x 0) as [N|N].
      * exfalso. assert (F := floorR_nonneg (- x) ltac:(lra)). unfold known in K. cbn in K. repeat destruct K as [K|K]; try (injection K as K _; lia); contradiction.
      * apply floorR_spec.
    + intros (z & w & K & H). rewrite (T x z w K H). cbn. unfold known in K. repeat destruct K as [K|K]; try (injection K as <- <-; eexists; reflexivity); contradiction.
  - intros E. unfold get_plasma_profile. rewrite E. split.
    + intros (p & H). cbn in H. unfold by_word in H. unfold known.
      repeat match type of H with context [String.eqb s ?w] => destruct (String.eqb_spec s w) as [->|]; [eexists; cbn; eauto 8|] end. discriminate.
    + intros (z & K). unfold known in K. repeat destruct K as [K|K]; try (injection K as <- <-; eexists; reflexivity); contradiction.
  - intros x z w s' K Ew Es H. unfold get_plasma_profile. rewrite Ew, Es, (T x z w K H). unfold known in K. repeat destruct K as [K|K]; try (injection K as <- <-; reflexivity); contradiction.
Qed.
Print Assumptions C71_names.

(** ** Where the plasma is. *)
Theorem C71_bands : forall fl o s p, fl s = None -> get_plasma_profile fl s o = Some p -> c_step p = o_step o /\
  (s = "uniform"%string -> c_min p = 0 /\ c_max p = o_window o) /\
  (s = "stepwise"%string -> c_min p = 0 /\ (c_max p <= o_width o /\ c_max p <= o_window o /\ (c_max p = o_width o \/ c_max p = o_window o))) /\
  (s = "channel"%string -> c_min p = o_width o /\ c_max p = o_window o) /\
  (s = "gaussian"%string -> c_min p = 0 /\ (forall r, c_max p < r <= o_window o -> 0 < o_width o -> gaussian_density (o_width o) r < exp (- 12.5))) /\
  (s = "sub-channel"%string -> c_max p = o_window o /\ (o_dens2 o = 0 -> c_min p = o_width2 o) /\ (o_dens2 o <> 0 -> c_min p = 0)).
Proof.
  intros fl o s p E H. unfold get_plasma_profile in H. rewrite E in H. cbn in H. unfold by_word in H.
  repeat match type of H with context [String.eqb s ?w] => destruct (String.eqb_spec s w) as [->|]; [injection H as <-; cbn; repeat split; intros; try discriminate; auto|] end; try discriminate.
  - apply Rmin_l. - apply Rmin_r. - apply Rmin_case; auto.
  - unfold gaussian_density. apply exp_increasing. assert (G : 5 * o_width o < r) by (destruct H0 as [A B]; destruct (Rle_dec (5 * o_width o) (o_window o)); [rewrite Rmin_left in A by lra|rewrite Rmin_right in A by lra]; lra).
    assert (Q : 5 < r / o_width o) by (apply (Rmult_lt_reg_r (o_width o)); [lra|]; replace (r / o_width o * o_width o) with r by (field; lra); lra). nra.
  - destruct (Req_EM_T (o_dens2 o) 0); [reflexivity|contradiction].
  - destruct (Req_EM_T (o_dens2 o) 0); [contradiction|reflexivity].
Qed.
Print Assumptions C71_bands.

(** ** Where the particles are: in the middles of equal rings that fill the band, as many per cell as asked. *)
Lemma ring_middle a b n k : (0 < n)%nat -> (INR k + 0.5) * ((b - a) / INR n) + a = (a + (b - a) * INR k / INR n + (a + (b - a) * INR (S k) / INR n)) / 2.
Proof. intros H. assert (0 < INR n) by (change 0 with (INR 0); apply lt_INR; exact H). rewrite S_INR. replace 0.5 with (1 / 2) by lra. field. lra. Qed.
Theorem C71_positions : forall p ppc, 0 < c_step p -> c_step p <= c_max p - c_min p -> (1 <= ppc)%nat ->
  exists cells l, place p ppc = Some l /\ INR cells * c_step p <= c_max p - c_min p < INR (S cells) * c_step p /\
    middles_of_rings (c_min p) (c_max p) (cells * ppc) l /\ (forall r, In r l -> c_min p < r < c_max p).
Proof.
  intros [a b h f] ppc Hh Hb Hp. cbn [c_step c_min c_max] in *. set (M := Z.to_nat (floorR ((b - a) / h))).
  assert (Q : 1 <= (b - a) / h) by (apply (Rmult_le_reg_r h); [lra|]; replace ((b - a) / h * h) with (b - a) by (field; lra); lra).
  destruct (floorR_spec ((b - a) / h)) as [F1 F2]. assert (F0 := floorR_nonneg ((b - a) / h) ltac:(lra)).
  assert (EM : IZR (floorR ((b - a) / h)) = INR M) by (unfold M; rewrite INR_IZR_INZ, Z2Nat.id by exact F0; reflexivity).
  assert (M1 : (1 <= M)%nat). { assert (0 < INR M) by lra. destruct M; [cbn in H; lra|lia]. }
  assert (BA : b - a = (b - a) / h * h) by (field; lra).
  exists M. unfold place. cbn [c_step c_min c_max]. unfold py_int. destruct (Rlt_dec ((b - a) / h) 0) as [NE|NE]; [lra|].
  replace (floorR ((b - a) / h) * Z.of_nat ppc)%Z with (Z.of_nat (M * ppc)) by (unfold M; rewrite Nat2Z.inj_mul, Z2Nat.id by exact F0; reflexivity).
  assert (NZ : (0 < M * ppc)%nat) by nia. destruct (Z.of_nat (M * ppc) =? 0)%Z eqn:E; [apply Z.eqb_eq in E; lia|]. rewrite Nat2Z.id. eexists. split; [reflexivity|].
  rewrite <- INR_IZR_INZ. set (n := (M * ppc)%nat) in *. split; [rewrite S_INR; nra|].
  assert (Hn : 0 < INR n) by (change 0 with (INR 0); apply lt_INR; exact NZ). split.
  - split; [rewrite map_length, seq_length; reflexivity|]. intros k Hk. cbv zeta. rewrite <- ring_middle by exact NZ.
    rewrite (nth_indep _ 0 ((INR 0 + 0.5) * ((b - a) / INR n) + a)) by (rewrite map_length, seq_length; exact Hk).
    rewrite (map_nth (fun k => (INR k + 0.5) * ((b - a) / INR n) + a)), seq_nth by exact Hk. reflexivity.
  - intros r Hr. apply in_map_iff in Hr. destruct Hr as (k & <- & Hk). apply in_seq in Hk. assert (K : INR k + 1 <= INR n) by (rewrite <- S_INR; apply le_INR; lia). assert (K0 := pos_INR k).
    assert (D : 0 < (b - a) / INR n) by (apply Rdiv_lt_0_compat; lra). set (d := (b - a) / INR n) in *. assert (BD : b - a = INR n * d) by (unfold d; field; lra). nra.
Qed.
Print Assumptions C71_positions.

(** ** What they weigh: the area of the ring times the density of the profile there. *)
Definition density_of (s : string) (o : popts) (r : R) : R :=
  if String.eqb s "gaussian" then gaussian_density (o_width o) r else if String.eqb s "sub-channel" then sub_density o r else 1.
Lemma spacing_rings a b n l : (2 <= n)%nat -> middles_of_rings a b n l -> exists r0 r1 t, l = r0 :: r1 :: t /\ r1 - r0 = (b - a) / INR n.
Proof.
  intros H [L N]. destruct l as [|r0 [|r1 t]]; cbn in L; try lia. exists r0, r1, t. split; [reflexivity|].
  assert (Hn : 0 < INR n) by (change 0 with (INR 0); apply lt_INR; lia). assert (A := N 0%nat ltac:(lia)). assert (B := N 1%nat ltac:(lia)). cbn in A, B. rewrite A, B. field. lra.
Qed.
Lemma nth_combine_map (f : R -> R) (g : R * R -> R) l k : (k < List.length l)%nat -> nth k (map g (combine (map f l) l)) 0 = g (f (nth k l 0), nth k l 0).
Proof. revert k. induction l as [|x l IH]; intros [|k] H; cbn in *; try lia; [reflexivity|]. apply IH. lia. Qed.
Lemma ring_area_middle a b n l k : (0 < n)%nat -> (k < n)%nat -> middles_of_rings a b n l -> 2 * PI * ((b - a) / INR n) * nth k l 0 = ring_area a b n k.
Proof.
  intros H Hk [_ N]. rewrite (N k Hk). cbv zeta. unfold ring_area. assert (Hn : 0 < INR n) by (change 0 with (INR 0); apply lt_INR; exact H). rewrite S_INR. field. lra.
Qed.
Theorem C71_weights : forall fl o s p n l, fl s = None -> (s = "gaussian"%string -> o_width o <> 0) -> get_plasma_profile fl s o = Some p -> (2 <= n)%nat -> middles_of_rings (c_min p) (c_max p) n l ->
  exists ws, c_weigh p l = Some ws /\ List.length ws = n /\
    forall k, (k < n)%nat -> nth k ws 0 = ring_area (c_min p) (c_max p) n k * density_of s o (nth k l 0).
Proof.
  intros fl o s p n l E Hg H Hn R. destruct (spacing_rings _ _ _ _ Hn R) as (r0 & r1 & t & El & Sp). assert (L := proj1 R).
  set (d := (c_max p - c_min p) / INR n) in *.
  assert (CW : cylindrical_weights l = Some (map (fun r => 2 * PI * d * r) l)) by (rewrite El; cbn [cylindrical_weights]; rewrite Sp; reflexivity).
  assert (RA : forall k, (k < n)%nat -> 2 * PI * d * nth k l 0 = ring_area (c_min p) (c_max p) n k) by (intros k Hk; apply ring_area_middle; [lia|exact Hk|exact R]).
  clearbody d. clear Sp El R. set (ra := ring_area (c_min p) (c_max p) n) in *. clearbody ra.
  unfold get_plasma_profile in H. rewrite E in H. cbn in H. unfold by_word in H.
  repeat match type of H with context [String.eqb s ?w] => destruct (String.eqb_spec s w) as [->|]; [injection H as <-; cbn [c_weigh uniform_profile stepwise_profile channel_profile gaussian_profile subchannel_profile]; rewrite CW; cbn|] end; try discriminate.
  all: eexists; split; [reflexivity|]; split; [rewrite ?map_length, ?combine_length, ?map_length; lia|]; intros k Hk.
  1,2,4: rewrite (nth_indep _ 0 (2 * PI * d * 0)) by (rewrite map_length; lia); rewrite (map_nth (fun r => 2 * PI * d * r)), RA by exact Hk; unfold density_of; cbn; ring.
  all: rewrite nth_combine_map by lia; cbn [fst snd]; rewrite RA by exact Hk; unfold density_of; cbn [String.eqb Ascii.eqb Bool.eqb]; try reflexivity.
  unfold gaussian_density. f_equal. f_equal. set (r := nth k l 0). field. now apply Hg.
Qed.
Print Assumptions C71_weights.

(** ** The whole plasma: for a constant density, exactly the area of the band. *)
Lemma telescope (g : nat -> R) ws n : List.length ws = n -> (forall k, (k < n)%nat -> nth k ws 0 = g (S k) - g k) -> total ws = g n - g 0%nat.
Proof.
  revert g n. induction ws as [|x ws IH]; intros g n L H; cbn in L; subst n; [cbn; ring|]. cbn [total fold_right].
  assert (A := H 0%nat ltac:(cbn; lia)). cbn in A. change (fold_right Rplus 0 ws) with (total ws). rewrite (IH (fun k => g (S k)) (List.length ws) eq_refl); [rewrite A; cbn; ring|].
  intros k Hk. apply (H (S k)). cbn. lia.
Qed.
Theorem C71_total_is_the_area : forall fl o s p n l, fl s = None -> In s ["uniform"; "stepwise"; "channel"]%string -> get_plasma_profile fl s o = Some p -> (2 <= n)%nat ->
  middles_of_rings (c_min p) (c_max p) n l -> exists ws, c_weigh p l = Some ws /\ total ws = PI * c_max p ^ 2 - PI * c_min p ^ 2.
Proof.
  intros fl o s p n l E Hs H Hn R. assert (Hg : s = "gaussian"%string -> o_width o <> 0) by (intros ->; cbn in Hs; repeat destruct Hs as [Hs|Hs]; try discriminate; contradiction).
  destruct (C71_weights fl o s p n l E Hg H Hn R) as (ws & W & L & N). exists ws. split; [exact W|].
  assert (P : 0 < INR n) by (change 0 with (INR 0); apply lt_INR; lia).
  rewrite (telescope (fun k => PI * (c_min p + (c_max p - c_min p) * INR k / INR n) ^ 2) ws n L).
  - cbn [INR]. f_equal; [f_equal; f_equal; field; lra|]. f_equal. f_equal. field. lra.
  - intros k Hk. rewrite (N k Hk). unfold density_of, ring_area. cbn in Hs. destruct Hs as [<-|[<-|[<-|[]]]]; cbn [String.eqb Ascii.eqb Bool.eqb]; ring.
Qed.
Print Assumptions C71_total_is_the_area.

(** ** The sub-channel: one density inside, 1 outside, a straight ramp between; never outside the two values. *)
Theorem C71_subchannel_is_a_ramp : forall o, o_width2 o < o_width o -> is_ramp (o_width2 o) (o_width o) (o_dens2 o) (sub_density o) /\
  (forall r, Rmin (o_dens2 o) 1 <= sub_density o r <= Rmax (o_dens2 o) 1).
Proof.
  intros o H. assert (K : is_ramp (o_width2 o) (o_width o) (o_dens2 o) (sub_density o)).
  { unfold sub_density, leb. repeat split; intros r Hr; destruct (Rle_dec (o_width2 o) r), (Rle_dec r (o_width o)), (Rlt_dec r (o_width2 o)), (Rlt_dec (o_width o) r); cbn; try lra.
    - replace r with (o_width2 o) by lra. field. lra.
    - replace r with (o_width o) by lra. field. lra.
    - field. lra. }
  split; [exact K|]. destruct K as (A & B & C). intros r. destruct (Rle_dec r (o_width2 o)) as [L|L]; [rewrite A by exact L; split; [apply Rmin_l|apply Rmax_l]|].
  destruct (Rle_dec (o_width o) r) as [L'|L']; [rewrite B by exact L'; split; [apply Rmin_r|apply Rmax_r]|].
  specialize (C r ltac:(lra)). set (f := sub_density o r) in *. set (d := o_dens2 o) in *. set (w := o_width o) in *. set (v := o_width2 o) in *.
  assert (T : f = d + (r - v) / (w - v) * (1 - d)) by (apply (Rmult_eq_reg_l (w - v)); [|lra]; replace ((w - v) * (d + (r - v) / (w - v) * (1 - d))) with ((w - v) * d + (r - v) * (1 - d)) by (field; lra); lra).
  assert (T1 : 0 <= (r - v) / (w - v) <= 1). { split; [apply Rmult_le_pos; [lra|apply Rlt_le, Rinv_0_lt_compat; lra]|]. apply (Rmult_le_reg_r (w - v)); [lra|]. replace ((r - v) / (w - v) * (w - v)) with (r - v) by (field; lra). lra. }
  set (t := (r - v) / (w - v)) in *. destruct (Rle_dec d 1); [rewrite Rmin_left, Rmax_right by lra|rewrite Rmin_right, Rmax_left by lra]; nra.
Qed.
Print Assumptions C71_subchannel_is_a_ramp.

(** ** The uniform profile places the particles exactly where the 2D run puts them (plasma/initialization.py). *)
Theorem C71_uniform_is_the_plasma_of_the_run : forall o ppc, 0 < o_step o -> o_step o <= o_window o -> (1 <= ppc)%nat ->
  place (uniform_profile o) ppc = Some (place_particles (o_window o) (o_step o) ppc).
Proof.
  intros [w h a b d] ppc Hh Hw Hp. cbn [o_step o_window] in *. unfold place, place_particles. cbn [uniform_profile c_max c_min c_step o_window o_step]. rewrite Rminus_0_r.
  assert (Q : 1 <= w / h) by (apply (Rmult_le_reg_r h); [lra|]; replace (w / h * h) with w by (field; lra); lra).
  unfold py_int. destruct (Rlt_dec (w / h) 0); [lra|]. assert (F0 := floorR_nonneg (w / h) ltac:(lra)). destruct (floorR_spec (w / h)) as [F1 F2].
  assert (F3 : (1 <= floorR (w / h))%Z) by (assert (IZR 0 < IZR (floorR (w / h))) by lra; apply lt_IZR in H; lia).
  destruct (floorR (w / h) * Z.of_nat ppc =? 0)%Z eqn:E; [apply Z.eqb_eq in E; nia|]. f_equal.
  replace (Z.to_nat (floorR (w / h) * Z.of_nat ppc)) with (Z.to_nat (floorR (w / h)) * ppc)%nat by (rewrite Z2Nat.inj_mul, Nat2Z.id by lia; reflexivity).
  apply map_ext. intros k. rewrite Rplus_0_r. f_equal. f_equal. rewrite INR_IZR_INZ, Nat2Z.inj_mul, Z2Nat.id by lia. reflexivity.
Qed.
Print Assumptions C71_uniform_is_the_plasma_of_the_run.

(** ** When it fails: a band narrower than a cell raises at once, and a single particle has no weight. *)
Theorem C71_narrow_bands_raise : forall p ppc, 0 < c_step p -> (0 <= c_max p - c_min p < c_step p -> place p ppc = None) /\
  (c_step p <= c_max p - c_min p < 2 * c_step p -> exists r, place p 1 = Some [r] /\ cylindrical_weights [r] = None).
Proof.
  intros [a b h f] ppc Hh. cbn [c_step c_min c_max] in *. unfold place. cbn [c_step c_min c_max]. split; intros H.
  - assert (Q : 0 <= (b - a) / h < 1). { split; [apply Rmult_le_pos; [lra|apply Rlt_le, Rinv_0_lt_compat; lra]|]. apply (Rmult_lt_reg_r h); [lra|]. replace ((b - a) / h * h) with (b - a) by (field; lra). lra. }
    unfold py_int. destruct (Rlt_dec ((b - a) / h) 0); [lra|]. replace (floorR ((b - a) / h)) with 0%Z; [reflexivity|].
    destruct (floorR_spec ((b - a) / h)) as [F1 F2]. assert (A : IZR (floorR ((b - a) / h)) < IZR 1) by lra. apply lt_IZR in A. assert (F0 := floorR_nonneg _ (proj1 Q)). lia.
  - assert (Q : 1 <= (b - a) / h < 2). { split; [apply (Rmult_le_reg_r h)|apply (Rmult_lt_reg_r h)]; try lra; replace ((b - a) / h * h) with (b - a) by (field; lra); lra. }
    unfold py_int. destruct (Rlt_dec ((b - a) / h) 0); [lra|]. replace (floorR ((b - a) / h)) with 1%Z; [cbn; eexists; split; reflexivity|].
    destruct (floorR_spec ((b - a) / h)) as [F1 F2]. assert (A : IZR (floorR ((b - a) / h)) < IZR 2) by lra. assert (B : IZR 0 < IZR (floorR ((b - a) / h))) by lra. apply lt_IZR in A, B. lia.
Qed.
Print Assumptions C71_narrow_bands_raise.

(** ** The number of a profile means the same as in the run's own profiles (plasma-rshape, plasma3d/profile.py): false for 3,
    the channel there and the gaussian here. *)
Theorem C71_numbers_as_in_the_run_refuted : exists (fl : string -> option R) o p l, fl "3"%string = Some 3 /\ get_plasma_profile fl "3" o = Some p /\
  radial_coef "3" (o_width o) (o_width2 o) (o_dens2 o) l = radial_coef "channel" (o_width o) (o_width2 o) (o_dens2 o) l /\
  radial_coef "3" (o_width o) (o_width2 o) (o_dens2 o) l = Some [o_dens2 o; 1] /\ c_min p = 0 /\
  exists ws, c_weigh p [1; 3] = Some ws /\ nth 1 ws 0 = 2 * PI * 2 * 3 * gaussian_density (o_width o) 3.
Proof.
  exists (fun s => if String.eqb s "3" then Some 3 else None), (mkPO 4 (1 / 2) 2 0 (1 / 10)), (gaussian_profile (mkPO 4 (1 / 2) 2 0 (1 / 10))), [1; 3].
  split; [reflexivity|]. split.
  { unfold get_plasma_profile. cbn. unfold py_int. destruct (Rlt_dec 3 0); [lra|]. replace (floorR 3) with 3%Z; [reflexivity|]. destruct (floorR_spec 3) as [F1 F2].
    assert (A : IZR (floorR 3) < IZR 4) by lra. assert (B : IZR 2 < IZR (floorR 3)) by lra. apply lt_IZR in A, B. lia. }
  split; [reflexivity|]. split.
  { unfold radial_coef. cbn. unfold ltb, leb. destruct (Rlt_dec 0 (0 - 2)); [lra|]. cbn. destruct (Rle_dec 1 2); [|lra]. destruct (Rle_dec 3 2); [lra|]. reflexivity. }
  split; [reflexivity|]. cbn. eexists. split; [reflexivity|]. cbn. unfold gaussian_density. f_equal; [f_equal; lra|]. f_equal. field.
Qed.
Print Assumptions C71_numbers_as_in_the_run_refuted.

(** A case: a window of 4 with cells of 1/2 and a stepwise plasma of width 3, two particles per cell. *)
Example C71_case : exists p l, get_plasma_profile (fun _ => None) "stepwise" (mkPO 4 (1 / 2) 3 0 0) = Some p /\ place p 2 = Some l /\ List.length l = 12%nat.
Proof.
  eexists _, _. split; [reflexivity|]. unfold place. cbn [stepwise_profile c_max c_min c_step o_width o_window o_step]. rewrite Rmin_left by lra. replace ((3 - 0) / (1 / 2)) with 6 by field.
  unfold py_int. destruct (Rlt_dec 6 0); [lra|]. replace (floorR 6) with 6%Z. 2:{ destruct (floorR_spec 6) as [F1 F2]. assert (A : IZR (floorR 6) < IZR 7) by lra. assert (B : IZR 5 < IZR (floorR 6)) by lra. apply lt_IZR in A, B. lia. }
  cbn. split; reflexivity.
Qed.
