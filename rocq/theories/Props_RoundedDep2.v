(** Theorem C74, continued: the charge of the 2D beam on the density arrays in binary64. *)
From Coq Require Import Reals ZArith List Bool Lra Lia Psatz.
From Flocq Require Import Core.
From Verif Require Import Float_Model Float_Proofs Beam2D_Model Beam2D_Spec Beam2D_Free Rounded3D_Model RoundedBeam_Spec RoundedBeam_Model Props_RoundedBeam RoundedSum_Proofs RoundedWeight_Proofs RoundedDep_Model RoundedDep_Spec RoundedDep_Proofs Props_RoundedDep.
Import ListNotations.
Open Scope R_scope.

(** ** Arrays *)
Definition alld (l : list R) : Prop := forall x, In x l -> is_double x.
Lemma sum_abs_cons x l : sum_abs (x :: l) = Rabs x + sum_abs l. Proof. reflexivity. Qed.
Lemma add_nat_added : forall out i v, (i < length out)%nat -> alld out -> is_double v ->
  exists o, add_nat_f out i v = Some o /\ length o = length out /\ alld o /\ added (sumR out) (sum_abs out) [v] (sumR o) (sum_abs o).
Proof.
  induction out as [|x out IH]; intros i v Hi Hd Hv; [cbn in Hi; lia|]. destruct i as [|i].
  - exists (double (x + v) :: out). split; [reflexivity|]. split; [reflexivity|]. split; [intros y [<-|Hy]; [apply double_double|apply Hd; now right]|].
    assert (K := added_one (sumR (x :: out)) (sum_abs (x :: out)) x v (Hd x (or_introl eq_refl)) Hv ltac:(rewrite sum_abs_cons; assert (P := sum_abs_pos out); lra)).
    rewrite !sum_abs_cons in *. cbn [sumR] in *. replace (x + sumR out - x + double (x + v)) with (double (x + v) + sumR out) in K by ring. replace (Rabs x + sum_abs out - Rabs x + Rabs (double (x + v))) with (Rabs (double (x + v)) + sum_abs out) in K by ring. exact K.
  - cbn [length] in Hi. destruct (IH i v ltac:(lia) (fun y I => Hd y (or_intror I)) Hv) as (o & E & L & D & A). exists (x :: o). cbn [add_nat_f]. rewrite E. split; [reflexivity|]. split; [cbn; now rewrite L|].
    split; [intros y [<-|Hy]; [apply Hd; now left|now apply D]|]. rewrite !sum_abs_cons. cbn [sumR]. rewrite (Rplus_comm x (sumR out)), (Rplus_comm (Rabs x) (sum_abs out)), (Rplus_comm x (sumR o)), (Rplus_comm (Rabs x) (sum_abs o)). apply added_more; [apply Rabs_pos|exact A].
Qed.
Lemma add_at_added : forall ivs out, (forall i v, In (i, v) ivs -> (0 <= i < Z.of_nat (length out))%Z /\ is_double v) -> alld out ->
  exists o, add_at_f out ivs = Some o /\ length o = length out /\ alld o /\ added (sumR out) (sum_abs out) (map snd ivs) (sumR o) (sum_abs o).
Proof.
  induction ivs as [|[i v] ivs IH]; intros out H Hd; [exists out; split; [reflexivity|]; split; [reflexivity|]; split; [exact Hd|apply added_nil]|].
  destruct (H i v (or_introl eq_refl)) as [Hi Hv]. destruct (add_nat_added out (Z.to_nat i) v ltac:(lia) Hd Hv) as (o & E & L & D & A).
  destruct (IH o ltac:(intros j w I; rewrite L; apply H; now right) D) as (o' & E' & L' & D' & A'). exists o'. cbn [add_at_f]. destruct (i <? 0)%Z eqn:C; [apply Z.ltb_lt in C; lia|]. rewrite E. cbn [bind]. split; [exact E'|].
  split; [congruence|]. split; [exact D'|]. cbn [map snd]. change (v :: map snd ivs) with ([v] ++ map snd ivs). eapply added_app; [apply sum_abs_pos|exact A|exact A'].
Qed.

(** ** One particle *)
Definition fits2 (n : nat) (h dxi : R) (i : Z) (b : bpart) : Prop :=
  ordinary (q_norm (pt b)) /\ in_layer dxi i (xi (pt b)) /\ 0 <= rad (pt b) <= (INR n - 2) * h.
Definition c00 (h dxi : R) (i : Z) (b : bpart) : R * R * R * R :=
  let '(j, a00, a01, a10, a11) := particle_weights_f (rad (pt b)) (xi (pt b)) (double (IZR (i + 1) * - dxi)) h dxi in
  (double (a00 * q_norm (pt b)), double (a01 * q_norm (pt b)), double (a10 * q_norm (pt b)), double (a11 * q_norm (pt b))).
Definition v00 h dxi i b := let '(x, _, _, _) := c00 h dxi i b in x.
Definition v01 h dxi i b := let '(_, x, _, _) := c00 h dxi i b in x.
Definition v10 h dxi i b := let '(_, _, x, _) := c00 h dxi i b in x.
Definition v11 h dxi i b := let '(_, _, _, x) := c00 h dxi i b in x.
Lemma xi_frac dxi i x : ordinary_step dxi -> (0 <= i < 2 ^ 49)%Z -> in_layer dxi i x -> 0 <= double (- double (double (IZR (i + 1) * - dxi) - x) / dxi) <= 3 / 2.
Proof.
  intros H Hi [A B]. replace (IZR (i + 1) * - dxi) with (- (IZR (i + 1) * dxi)) by ring. fold (border dxi (i + 1)). rewrite <- double_opp. replace (- (border dxi (i + 1) - x)) with (x - border dxi (i + 1)) by ring. apply quotient_32; [exact H|]. assert (L := layer_length dxi i H Hi). lra.
Qed.
Lemma r_frac n h r : ordinary_step h -> (Z.of_nat n <= 2 ^ 50)%Z -> 0 <= r <= (INR n - 2) * h ->
  (0 <= floorR (double (r / h)))%Z /\ (floorR (double (r / h)) + 1 < Z.of_nat n)%Z /\ 0 <= double (double (r / h) - IZR (floorR (double (r / h)))) <= 1.
Proof.
  intros Hh Hn [R0 R1]. assert (P := step_pos _ Hh). assert (Q : 0 <= r / h <= IZR (Z.of_nat n - 2)).
  { rewrite minus_IZR, <- INR_IZR_INZ. split; [apply Rmult_le_pos; [exact R0|left; now apply Rinv_0_lt_compat]|]. apply (Rmult_le_reg_r h); [exact P|]. unfold Rdiv. rewrite Rmult_assoc, Rinv_l by lra. lra. }
  assert (N2 : (0 <= Z.of_nat n - 2)%Z) by (apply le_IZR; lra). assert (D : 0 <= double (r / h) <= IZR (Z.of_nat n - 2)) by (split; [apply (double_ge_int _ 0); [lia|lra]|apply double_le_int; [lia|lra]]).
  assert (F := floorR_spec (double (r / h))). set (t := double (r / h)) in *. split; [|split].
  - assert (-1 < floorR t)%Z; [|lia]. apply lt_IZR. lra.
  - assert (floorR t <= Z.of_nat n - 2)%Z; [|lia]. apply le_IZR. lra.
  - split; [apply (double_ge_int _ 0); [lia|lra]|apply (double_le_int _ 1); [lia|lra]].
Qed.
Lemma four_near n h dxi i b : ordinary_step h -> ordinary_step dxi -> (Z.of_nat n <= 2 ^ 50)%Z -> (0 <= i < 2 ^ 49)%Z -> fits2 n h dxi i b ->
  Rabs (v00 h dxi i b + v01 h dxi i b + v10 h dxi i b + v11 h dxi i b - q_norm (pt b)) <= 40 * u * Rabs (q_norm (pt b)) /\
  Rabs (v00 h dxi i b) + Rabs (v01 h dxi i b) + Rabs (v10 h dxi i b) + Rabs (v11 h dxi i b) <= 2.1 * Rabs (q_norm (pt b)).
Proof.
  intros Hh Hd Hn Hi (Q & L & R). assert (X := xi_frac dxi i _ Hd Hi L). destruct (r_frac n h _ Hh Hn R) as (_ & _ & D).
  unfold v00, v01, v10, v11, c00, particle_weights_f. cbv zeta. set (x := double (- double (double (IZR (i + 1) * - dxi) - xi (pt b)) / dxi)) in *. set (d := double (double (rad (pt b) / h) - IZR (floorR (double (rad (pt b) / h))))) in *. set (q := q_norm (pt b)) in *. clearbody x d q.
  assert (A1 : approx 1.01 (double (1 - x)) (1 - x)) by (rd 1; [apply ap_refl|lra|apply Rabs_le; lra|lra]). assert (R0 : approx 1.01 (double (1 - d)) (1 - d)) by (rd 1; [apply ap_refl|lra|apply Rabs_le; lra|lra]).
  assert (BX : Rabs x <= 1.5) by (apply Rabs_le; lra). assert (BX1 : Rabs (1 - x) <= 1) by (apply Rabs_le; lra). assert (BD : Rabs d <= 1) by (apply Rabs_le; lra). assert (BD1 : Rabs (1 - d) <= 1) by (apply Rabs_le; lra).
  assert (E : forall a A b0 B MA, 0 <= MA <= 1.5 -> Rabs A <= MA -> Rabs B <= 1 -> approx 1.01 a A -> approx 1.01 b0 B -> Rabs (double (double (a * b0) * q) - q * (A * B)) <= 6.1 * u * Rabs q).
  { intros a A b0 B MA HM HA HB Ha Hb. assert (BB : Rabs (A * B) <= 1.5) by (rewrite Rabs_mult; assert (P1 := Rabs_pos A); assert (P2 := Rabs_pos B); nra).
    assert (M : approx (1.01 * 1 + 1.01 * 1.5 + / 1000) (a * b0) (A * B)) by (apply ap_mul; try lra; assumption). assert (W : approx 4.5 (double (a * b0)) (A * B)) by (rd 1.5; [exact M|lra|exact BB|lra]).
    rewrite (Rmult_comm _ q). eapply Rle_trans; [apply (times_charge q 4.5 _ _ 1.5 Q); try lra; assumption|]. assert (U := u_pos). apply Rmult_le_compat_r; [apply Rabs_pos|]. lra. }
  assert (R1 : approx 1.01 d d) by (eapply ap_weak; [|apply ap_refl]; lra). assert (A0 : approx 1.01 x x) by (eapply ap_weak; [|apply ap_refl]; lra).
  assert (E1 := E x x _ (1 - d) 1.5 ltac:(lra) BX BD1 A0 R0). assert (E2 := E x x d d 1.5 ltac:(lra) BX BD A0 R1). assert (E3 := E _ (1 - x) _ (1 - d) 1 ltac:(lra) BX1 BD1 A1 R0). assert (E4 := E _ (1 - x) d d 1 ltac:(lra) BX1 BD A1 R1). clear E.
  set (w1 := double (double (x * double (1 - d)) * q)) in *. set (w2 := double (double (x * d) * q)) in *. set (w3 := double (double (double (1 - x) * double (1 - d)) * q)) in *. set (w4 := double (double (double (1 - x) * d) * q)) in *. clearbody w1 w2 w3 w4. assert (U := u_pos). assert (UT := u_tiny). assert (QP := Rabs_pos q). assert (UQ : 0 <= u * Rabs q <= 0.0001 * Rabs q) by nra.
  split.
  - replace (w1 + w2 + w3 + w4 - q) with ((w1 - q * (x * (1 - d))) + (w2 - q * (x * d)) + ((w3 - q * ((1 - x) * (1 - d))) + (w4 - q * ((1 - x) * d)))) by ring.
    eapply Rle_trans; [apply Rabs_triang|]. eapply Rle_trans; [apply Rplus_le_compat; apply Rabs_triang|]. lra.
  - assert (G : forall w W, Rabs (w - q * W) <= 6.1 * u * Rabs q -> Rabs w <= Rabs q * Rabs W + 6.1 * u * Rabs q).
    { intros w W H. replace w with (q * W + (w - q * W)) by ring. eapply Rle_trans; [apply Rabs_triang|]. rewrite Rabs_mult. lra. }
    apply G in E1, E2, E3, E4. rewrite !Rabs_mult in E1, E2, E3, E4. rewrite (Rabs_pos_eq x), (Rabs_pos_eq d) in E2 by lra. rewrite (Rabs_pos_eq x), (Rabs_pos_eq (1 - d)) in E1 by lra. rewrite (Rabs_pos_eq (1 - d)) in E3 by lra. rewrite (Rabs_pos_eq d) in E4 by lra.
    assert (T : x + Rabs (1 - x) <= 2) by (unfold Rabs; destruct (Rcase_abs (1 - x)); lra). assert (T2 : Rabs q * (x + Rabs (1 - x)) <= Rabs q * 2) by (apply Rmult_le_compat_l; lra). lra.
Qed.

(** ** One layer *)
Definition sizes2 (l : list bpart) : R := sumR (map (fun b => Rabs (q_norm (pt b))) l).
Lemma sizes2_pos l : 0 <= sizes2 l.
Proof. unfold sizes2. induction l as [|p l IH]; cbn; [lra|]. assert (K := Rabs_pos (q_norm (pt p))). lra. Qed.
Lemma sum_close_abs {A} (f q : A -> R) c l : (forall x, In x l -> Rabs (f x - q x) <= c * Rabs (q x)) -> Rabs (sumR (map f l) - sumR (map q l)) <= c * sumR (map (fun x => Rabs (q x)) l).
Proof.
  induction l as [|x l IH]; intros H; [cbn; rewrite Rminus_0_r, Rabs_R0; lra|]. cbn [map sumR]. replace (f x + sumR (map f l) - (q x + sumR (map q l))) with ((f x - q x) + (sumR (map f l) - sumR (map q l))) by ring.
  eapply Rle_trans; [apply Rabs_triang|]. assert (K := H x (or_introl eq_refl)). assert (K2 := IH (fun y I => H y (or_intror I))). lra.
Qed.
Lemma sum_le_abs {A} (f q : A -> R) c l : (forall x, In x l -> f x <= c * Rabs (q x)) -> sumR (map f l) <= c * sumR (map (fun x => Rabs (q x)) l).
Proof. induction l as [|x l IH]; intros H; [cbn; lra|]. cbn [map sumR]. assert (K := H x (or_introl eq_refl)). assert (K2 := IH (fun y I => H y (or_intror I))). lra. Qed.
Lemma deposit_moved n h dxi i l out0 out1 : ordinary_step h -> ordinary_step dxi -> (Z.of_nat n <= 2 ^ 50)%Z -> (0 <= i < 2 ^ 49)%Z ->
  (forall b, In b l -> fits2 n h dxi i b) -> length out0 = n -> length out1 = n -> alld out0 -> alld out1 ->
  exists o0 o1, deposit_f l out0 out1 (double (IZR (i + 1) * - dxi)) h dxi = Some (o0, o1) /\ length o0 = n /\ length o1 = n /\ alld o0 /\ alld o1 /\
    moved (4 * length l) (total_charge l) (sizes2 l) (sumR out0 + sumR out1) (sum_abs out0 + sum_abs out1) (sumR o0 + sumR o1) (sum_abs o0 + sum_abs o1).
Proof.
  intros Hh Hd Hn Hi Hl L0 L1 D0 D1.
  set (fl := fun b => floorR (double (rad (pt b) / h))).
  assert (J : forall b, In b l -> (0 <= fl b)%Z /\ (fl b + 1 < Z.of_nat n)%Z).
  { intros b Hb. destruct (Hl b Hb) as (_ & _ & R). destruct (r_frac n h _ Hh Hn R) as (A & B & _). split; assumption. }
  assert (EQ : deposit_f l out0 out1 (double (IZR (i + 1) * - dxi)) h dxi =
    bind (add_at_f out0 (map (fun b => (fl b, v00 h dxi i b)) l)) (fun o0 => bind (add_at_f o0 (map (fun b => ((fl b + 1)%Z, v01 h dxi i b)) l)) (fun o0' =>
    bind (add_at_f out1 (map (fun b => (fl b, v10 h dxi i b)) l)) (fun o1 => bind (add_at_f o1 (map (fun b => ((fl b + 1)%Z, v11 h dxi i b)) l)) (fun o1' => Some (o0', o1')))))).
  { unfold deposit_f. rewrite !map_map. reflexivity. }
  rewrite EQ. clear EQ.
  assert (IN : forall (m : bpart -> Z) (v : bpart -> R) (out : list R), length out = n -> (forall b, In b l -> (0 <= m b < Z.of_nat n)%Z) -> (forall b, is_double (v b)) -> forall j w, In (j, w) (map (fun b => (m b, v b)) l) -> (0 <= j < Z.of_nat (length out))%Z /\ is_double w).
  { intros m v out Lo Hm Hv j w I. apply in_map_iff in I. destruct I as (b & E & Hb). injection E as <- <-. rewrite Lo. split; [now apply Hm|apply Hv]. }
  destruct (add_at_added _ out0 (IN fl (v00 h dxi i) out0 L0 ltac:(intros b Hb; destruct (J b Hb); lia) ltac:(intros b; apply double_double)) D0) as (o0 & E0 & L0' & D0' & A0). rewrite E0. cbn [bind].
  destruct (add_at_added _ o0 (IN (fun b => (fl b + 1)%Z) (v01 h dxi i) o0 ltac:(congruence) ltac:(intros b Hb; destruct (J b Hb); lia) ltac:(intros b; apply double_double)) D0') as (o0' & E0' & L0'' & D0'' & A0'). rewrite E0'. cbn [bind].
  destruct (add_at_added _ out1 (IN fl (v10 h dxi i) out1 L1 ltac:(intros b Hb; destruct (J b Hb); lia) ltac:(intros b; apply double_double)) D1) as (o1 & E1 & L1' & D1' & A1). rewrite E1. cbn [bind].
  destruct (add_at_added _ o1 (IN (fun b => (fl b + 1)%Z) (v11 h dxi i) o1 ltac:(congruence) ltac:(intros b Hb; destruct (J b Hb); lia) ltac:(intros b; apply double_double)) D1') as (o1' & E1' & L1'' & D1'' & A1'). rewrite E1'. cbn [bind].
  exists o0', o1'. split; [reflexivity|]. split; [congruence|]. split; [congruence|]. split; [exact D0''|]. split; [exact D1''|].
  rewrite map_map in A0, A0', A1, A1'. cbn [snd] in *.
  exists ((map (v00 h dxi i) l ++ map (v01 h dxi i) l) ++ map (v10 h dxi i) l ++ map (v11 h dxi i) l). split; [rewrite !app_length, !map_length; lia|].
  assert (S4 : forall f1 f2 f3 f4 : bpart -> R, sumR (map f1 l) + sumR (map f2 l) + (sumR (map f3 l) + sumR (map f4 l)) = sumR (map (fun b => f1 b + f2 b + f3 b + f4 b) l)).
  { intros. clear. induction l as [|b l IH]; cbn; [ring|]. rewrite <- IH. ring. }
  assert (NEAR := fun b Hb => four_near n h dxi i b Hh Hd Hn Hi (Hl b Hb)). assert (U := u_pos). assert (SP := sizes2_pos l). assert (US : 0 <= u * sizes2 l) by (apply Rmult_le_pos; lra). split; [|split].
  - rewrite !sumR_app, S4. unfold total_charge. eapply Rle_trans; [apply (sum_close_abs _ _ (40 * u)); intros b Hb; apply NEAR; exact Hb|]. change (40 * u * sizes2 l <= 850 * u * sizes2 l). lra.
  - rewrite !sum_abs_app. unfold sum_abs. rewrite !map_map, S4. apply sum_le_abs. intros b Hb. apply NEAR; exact Hb.
  - eapply added_app; [assert (P0 := sum_abs_pos out0); assert (P1 := sum_abs_pos out1); lra| |].
    + apply added_more; [apply sum_abs_pos|]. eapply added_app; [apply sum_abs_pos|exact A0|exact A0'].
    + rewrite (Rplus_comm (sumR o0')), (Rplus_comm (sum_abs o0')), (Rplus_comm (sumR o0') (sumR o1')), (Rplus_comm (sum_abs o0') (sum_abs o1')). apply added_more; [apply sum_abs_pos|]. eapply added_app; [apply sum_abs_pos|exact A1|exact A1'].
Qed.

(** ** The densities *)
Definition volume (h : R) (j : nat) : R := match j with O => h ^ 2 / 6 | _ => INR j * h ^ 2 end.
Lemma scaled h h2 j x : ordinary_step h -> near_square h h2 -> Rabs (scale_cell_f h2 j x * volume h j - x) <= 6 * u * Rabs x + 2 * INR (S j) * (h ^ 2 * eta).
Proof.
  intros Hh Hn. assert (K := divided h h2 x Hh Hn). assert (H2 : 0 < h ^ 2) by (apply pow_lt, step_pos; exact Hh). set (H := h ^ 2) in *. set (y := double (x / h2)) in *. assert (EP := eta_pos). assert (U := u_pos). assert (UT := u_tiny). assert (X := Rabs_pos x). assert (HE : 0 < H * eta) by now apply Rmult_lt_0_compat.
  assert (Y : H * Rabs y <= 1.1 * Rabs x + H * eta). { rewrite <- (Rabs_pos_eq H) at 1 by lra. rewrite <- Rabs_mult. replace (H * y) with (x + (H * y - x)) by ring. eapply Rle_trans; [apply Rabs_triang|]. assert (4 * u * Rabs x <= 0.1 * Rabs x) by (apply Rmult_le_compat_r; lra). lra. }
  assert (UY : u * (H * Rabs y) <= u * (1.1 * Rabs x) + u * (H * eta)) by nra. assert (UE : u * (H * eta) <= 0.1 * (H * eta)) by (apply Rmult_le_compat_r; lra). assert (UX : 0 <= u * Rabs x) by nra.
  destruct j as [|j].
  - cbn [scale_cell_f volume]. fold y. fold H. assert (E := round_error (y * 6)). rewrite Rabs_mult, (Rabs_pos_eq 6) in E by lra.
    replace (double (y * 6) * (H / 6) - x) with ((double (y * 6) - y * 6) * (H / 6) + (H * y - x)) by field. eapply Rle_trans; [apply Rabs_triang|]. rewrite Rabs_mult, (Rabs_pos_eq (H / 6)) by lra.
    assert (E2 : Rabs (double (y * 6) - y * 6) * (H / 6) <= (u * (Rabs y * 6) + eta) * (H / 6)) by (apply Rmult_le_compat_r; lra). replace (INR 1) with 1 by reflexivity. lra.
  - unfold scale_cell_f, volume. fold y. fold H. set (J := INR (S j)). assert (J1 : 1 <= J) by (unfold J; rewrite S_INR; assert (0 <= INR j) by apply pos_INR; lra). assert (E := round_error (y / J)). 
    replace (double (y / J) * (J * H) - x) with ((double (y / J) - y / J) * (J * H) + (H * y - x)) by (field; lra). eapply Rle_trans; [apply Rabs_triang|]. assert (JH : 0 < J * H) by nra. rewrite Rabs_mult, (Rabs_pos_eq (J * H)) by lra.
    assert (E2 : Rabs (double (y / J) - y / J) * (J * H) <= (u * Rabs (y / J) + eta) * (J * H)) by (apply Rmult_le_compat_r; lra). unfold Rdiv in E2 at 3. rewrite Rabs_mult, (Rabs_pos_eq (/ J)) in E2 by (left; apply Rinv_0_lt_compat; lra).
    replace ((u * (Rabs y * / J) + eta) * (J * H)) with (u * (H * Rabs y) + J * (H * eta)) in E2 by (field; lra). rewrite (S_INR (S j)). fold J. nra.
Qed.
Lemma scaled_all h h2 : ordinary_step h -> near_square h h2 -> forall l j,
  Rabs (layer_charge h j (scale_from_f h2 j l) - sumR l) <= 6 * u * sum_abs l + 2 * INR (length l) * INR (j + length l) * (h ^ 2 * eta).
Proof.
  intros Hh Hn. induction l as [|x l IH]; intros j; [cbn; rewrite Rminus_0_r, Rabs_R0; unfold sum_abs; cbn; lra|].
  specialize (IH (S j)). assert (K := scaled h h2 j x Hh Hn). cbn [scale_from_f layer_charge sumR]. rewrite sum_abs_cons. fold (volume h j).
  replace (scale_cell_f h2 j x * volume h j + layer_charge h (S j) (scale_from_f h2 (S j) l) - (x + sumR l)) with ((scale_cell_f h2 j x * volume h j - x) + (layer_charge h (S j) (scale_from_f h2 (S j) l) - sumR l)) by ring.
  eapply Rle_trans; [apply Rabs_triang|]. cbn [length]. replace (S j + length l)%nat with (j + S (length l))%nat in IH by lia. assert (EP := eta_pos). assert (H2 : 0 < h ^ 2) by (apply pow_lt, step_pos; exact Hh). assert (HE : 0 < h ^ 2 * eta) by now apply Rmult_lt_0_compat.
  set (M := INR (j + S (length l))) in *. assert (LE : INR (S j) <= M) by (apply le_INR; lia). rewrite (S_INR (length l)). assert (LL := pos_INR (length l)). nra.
Qed.
Lemma scale_length h2 : forall l j, length (scale_from_f h2 j l) = length l.
Proof. induction l as [|x l IH]; intros j; [reflexivity|]. cbn. now rewrite IH. Qed.

Section Layers2.
  Variables (n : nat) (h h2 dxi : R).
  Hypotheses (Hh : ordinary_step h) (Hd : ordinary_step dxi) (Hn : (Z.of_nat n <= 2 ^ 50)%Z).
  Lemma layouts2_moved : forall ls i rho_l, (0 <= i)%Z -> (i + Z.of_nat (length ls) <= 2 ^ 49)%Z -> length rho_l = n -> alld rho_l -> each_layer (fits2 n h dxi) i ls ->
    exists es e, layouts2_f h h2 dxi rho_l ls i = Some (map (scale_from_f h2 0) es, e) /\ length es = length ls /\ (forall x, In x es -> length x = n) /\
      moved (4 * length (concat ls)) (total_charge (concat ls)) (sizes2 (concat ls)) (sumR rho_l) (sum_abs rho_l) (sumR (map sumR es) + sumR e) (sumR (map sum_abs es) + sum_abs e).
  Proof.
    induction ls as [|l ls IH]; intros i rho_l Hi Hl Lr Dr Hf.
    - exists [], rho_l. split; [reflexivity|]. split; [reflexivity|]. split; [intros x []|]. cbn [map sumR concat length Nat.mul]. rewrite !Rplus_0_l. apply moved_nil.
    - cbn [length] in Hl. destruct Hf as [H1 Hf]. set (next := map (fun _ : R => 0) rho_l).
      assert (N0 : sumR next = 0 /\ sum_abs next = 0 /\ length next = n /\ alld next).
      { unfold next. split; [|split; [|split]]. - clear. induction rho_l; cbn; lra. - clear. unfold sum_abs. induction rho_l; cbn; [lra|]. rewrite Rabs_R0. lra. - now rewrite map_length. - intros x Hx. apply in_map_iff in Hx. destruct Hx as (? & <- & _). apply double_0. }
      destruct N0 as (N0 & N1 & N2 & N3). destruct (deposit_moved n h dxi i l rho_l next Hh Hd Hn ltac:(lia) H1 Lr N2 Dr N3) as (o0 & o1 & E & L0 & L1 & D0 & D1 & M). rewrite N0, N1, !Rplus_0_r in M.
      destruct (IH (i + 1)%Z o1 ltac:(lia) ltac:(lia) L1 D1 Hf) as (es & e & E' & Le & Lx & M').
      exists (o0 :: es), e. split; [|split; [cbn; now rewrite Le|split; [intros x [<-|Hx]; [exact L0|now apply Lx]|]]].
      + cbn [layouts2_f]. unfold layout2_f. fold next. rewrite E. cbn [bind fst snd]. rewrite E'. reflexivity.
      + cbn [concat map sumR]. rewrite app_length, Nat.mul_add_distr_l. unfold total_charge, sizes2. rewrite !map_app, !sumR_app. eapply moved_app; [apply sum_abs_pos|exact M|].
        apply (moved_more _ _ _ _ _ _ _ (sumR o0) (sum_abs o0) (sum_abs_pos o0)) in M'. rewrite (Rplus_comm (sumR o0) (sumR o1)), (Rplus_comm (sum_abs o0) (sum_abs o1)).
        replace (sumR o0 + sumR (map sumR es) + sumR e) with (sumR (map sumR es) + sumR e + sumR o0) by ring. replace (sum_abs o0 + sumR (map sum_abs es) + sum_abs e) with (sumR (map sum_abs es) + sum_abs e + sum_abs o0) by ring. exact M'.
  Qed.
End Layers2.
Lemma scaled_layers n h h2 es : ordinary_step h -> near_square h h2 -> (forall x, In x es -> length x = n) ->
  Rabs (sumR (map (layer_charge h 0) (map (scale_from_f h2 0) es)) - sumR (map sumR es)) <= 6 * u * sumR (map sum_abs es) + INR (length es) * (2 * INR n * INR n * (h ^ 2 * eta)).
Proof.
  intros Hh Hn. induction es as [|x es IH]; intros Hl; [cbn; rewrite Rminus_0_r, Rabs_R0; lra|]. specialize (IH (fun y I => Hl y (or_intror I))). assert (K := scaled_all h h2 Hh Hn x 0). rewrite (Hl x (or_introl eq_refl)) in K. cbn [Nat.add] in K. cbn [map sumR length]. rewrite S_INR.
  replace (layer_charge h 0 (scale_from_f h2 0 x) + sumR (map (layer_charge h 0) (map (scale_from_f h2 0) es)) - (sumR x + sumR (map sumR es))) with ((layer_charge h 0 (scale_from_f h2 0 x) - sumR x) + (sumR (map (layer_charge h 0) (map (scale_from_f h2 0) es)) - sumR (map sumR es))) by ring.
  eapply Rle_trans; [apply Rabs_triang|]. lra.
Qed.

(** The charge of the beam reaches the density arrays in 2D, up to rounding; nothing is written outside of them. *)
Theorem C74_2d_beam_charge : forall h h2 dxi rho_l ls i,
  ordinary_step h -> near_square h h2 -> ordinary_step dxi -> (Z.of_nat (length rho_l) <= 2 ^ 50)%Z -> (0 <= i)%Z -> (i + Z.of_nat (length ls) <= 2 ^ 49)%Z ->
  (4 * Z.of_nat (length (concat ls)) <= 2 ^ 52)%Z -> (forall x, In x rho_l -> is_double x) ->
  each_layer (fun i b => ordinary (q_norm (pt b)) /\ in_layer dxi i (xi (pt b)) /\ 0 <= rad (pt b) <= (INR (length rho_l) - 2) * h) i ls ->
  exists rs e, layouts2_f h h2 dxi rho_l ls i = Some (rs, e) /\ length rs = length ls /\
  Rabs ((sumR (map (layer_charge h 0) rs) + sumR e) - (sumR rho_l + total_charge (concat ls)))
    <= (900 + 17 * INR (length (concat ls))) * rounding * (sum_sizes rho_l + sum_sizes (map (fun b => q_norm (pt b)) (concat ls))) + 2 * INR (length ls) * INR (length rho_l) ^ 2 * h ^ 2 * underflow.
Proof.
  intros h h2 dxi rho_l ls i Hh Hn Hd HN Hi Hl Hc Hr Hf. rewrite rounding_u. set (n := length rho_l) in *.
  destruct (layouts2_moved n h h2 dxi Hh Hd HN ls i rho_l Hi Hl eq_refl Hr Hf) as (es & e & E & L & LX & M). exists (map (scale_from_f h2 0) es), e. split; [exact E|]. split; [now rewrite map_length|].
  assert (P := sum_abs_pos rho_l). assert (PS := sizes2_pos (concat ls)). destruct (moved_total (4 * length (concat ls)) _ _ _ _ _ _ P PS ltac:(lia) M) as [A B].
  assert (D := scaled_layers n h h2 es Hh Hn LX). rewrite L in D. unfold sum_sizes. rewrite (map_map _ Rabs). change (sumR (map Rabs rho_l)) with (sum_abs rho_l). fold (sizes2 (concat ls)).
  set (a := sum_abs rho_l) in *. set (S := sizes2 (concat ls)) in *. set (Q := total_charge (concat ls)) in *. change eta with underflow in D.
  assert (Pe := sum_abs_pos e). assert (U := u_pos). rewrite mult_INR in A. replace (INR 4) with 4 in A by (cbn; lra). set (k := INR (length (concat ls))) in *. assert (Hk : 0 <= k) by apply pos_INR.
  match type of D with Rabs (?x - ?y) <= _ => replace (x + sumR e - (sumR rho_l + Q)) with ((x - y) + (y + sumR e - sumR rho_l - Q)) by ring end.
  eapply Rle_trans; [apply Rabs_triang|]. assert (F : 6 * u * sumR (map sum_abs es) <= 6 * u * (4.2 * (a + S))) by (apply Rmult_le_compat_l; lra).
  assert (G : 0 <= u * (a + S)) by (apply Rmult_le_pos; lra). assert (G2 : 0 <= k * (u * (a + S))) by (apply Rmult_le_pos; lra).
  replace (2 * INR (length ls) * INR n ^ 2 * h ^ 2 * underflow) with (INR (length ls) * (2 * INR n * INR n * (h ^ 2 * underflow))) by ring. lra.
Qed.


(** A beam that meets the conditions: three particles in two layers, one on the axis. *)
Definition case_layers2 : list (list bpart) :=
  [[fresh (mkPart (- (1/4)) (1/3) 1000 0 0 1 1 1); fresh (mkPart (- (1/2)) 0 1000 0 0 1 (-3) 2)]; [fresh (mkPart (- (3/4)) 2 1000 0 0 1 (1/7) 3)]].
Example C74_2d_beam_case : each_layer (fun i b => ordinary (q_norm (pt b)) /\ in_layer (1/2) i (xi (pt b)) /\ 0 <= rad (pt b) <= (INR (length (repeat 0 6)) - 2) * (1/2)) 0 case_layers2 /\
  exists rs e, layouts2_f (1/2) (1/4) (1/2) (repeat 0 6) case_layers2 0 = Some (rs, e) /\ length rs = 2%nat /\
  Rabs (sumR (map (layer_charge (1/2) 0) rs) + sumR e - (1 - 3 + 1/7)) <= 10000 * rounding.
Proof.
  assert (A : each_layer (fun i b => ordinary (q_norm (pt b)) /\ in_layer (1/2) i (xi (pt b)) /\ 0 <= rad (pt b) <= (INR (length (repeat 0 6)) - 2) * (1/2)) 0 case_layers2).
  { assert (B0 : border (1/2) 0 = 0) by (rewrite case_border by lia; lra). assert (B1 : border (1/2) 1 = - (1/2)) by (rewrite case_border by lia; lra). assert (B2 : border (1/2) 2 = -1) by (rewrite case_border by lia; lra).
    rewrite repeat_length. replace (INR 6) with 6 by (cbn; lra). unfold case_layers2. cbn [each_layer In Z.add Pos.add Pos.succ]. unfold in_layer. cbn [Z.add Pos.add Pos.succ]. rewrite B0, B1, B2. split; [|split; [|exact I]].
    - intros p [<-|[<-|[]]]; cbn [fresh pt q_norm xi rad]; (split; [right; apply case_ordinary; apply Rle_trans with 1; [lra|]; first [rewrite Rabs_pos_eq by lra; lra|rewrite Rabs_left by lra; lra]|]); lra.
    - intros p [<-|[]]; cbn [fresh pt q_norm xi rad]. split; [right; apply case_ordinary; rewrite Rabs_pos_eq; lra|]. lra. }
  split; [exact A|]. assert (Dz : forall x, In x (repeat 0 6) -> is_double x) by (intros x Hx; apply repeat_spec in Hx; subst; apply double_0).
  destruct (C74_2d_beam_charge (1/2) (1/4) (1/2) (repeat 0 6) case_layers2 0 case_step case_square case_step ltac:(cbn; lia) ltac:(lia) ltac:(cbn; lia) ltac:(cbn; lia) Dz A) as (rs & e & E & L & K).
  exists rs, e. split; [exact E|]. split; [exact L|]. unfold total_charge, sum_sizes, case_layers2 in K. cbn [concat app map sumR fresh pt q_norm length repeat] in K. rewrite Rabs_R0, (Rabs_pos_eq 1), (Rabs_left (-3)), (Rabs_pos_eq (1/7)) in K by lra.
  match type of K with Rabs ?a <= _ => replace a with (sumR (map (layer_charge (1/2) 0) rs) + sumR e - (1 - 3 + 1/7)) in K by lra end. eapply Rle_trans; [exact K|].
  replace (INR 3) with 3 by (cbn; lra). replace (INR 2) with 2 by reflexivity. replace (INR 6) with 6 by (cbn; lra). assert (UN : underflow <= rounding) by (apply bpow_le; lia). assert (U := u_pos). rewrite rounding_u in *. lra.
Qed.

Print Assumptions C74_2d_beam_charge.
