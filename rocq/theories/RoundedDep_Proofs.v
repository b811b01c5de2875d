(** Lemmas for C74: the contributions of one particle and of layers. *)
From Coq Require Import Reals ZArith List Bool Lra Lia Psatz FunctionalExtensionality.
From Flocq Require Import Core.
From Verif Require Import Float_Model Float_Proofs Beam2D_Model Beam2D_Spec Beam2D_Free Beam3D_Model Beam3D_Spec Shape_Model Shape_Spec Shape_Proofs Rounded3D_Model RoundedBeam_Spec RoundedBeam_Model RoundedSum_Proofs RoundedWeight_Proofs RoundedDep_Model RoundedDep_Spec.
Import ListNotations.
Open Scope R_scope.

Lemma double_le_int x (n : Z) : (Z.abs n <= 2 ^ 53)%Z -> x <= IZR n -> double x <= IZR n.
Proof. intros H L. rewrite <- (int_format n H). now apply double_mono. Qed.
Lemma double_ge_int x (n : Z) : (Z.abs n <= 2 ^ 53)%Z -> IZR n <= x -> IZR n <= double x.
Proof. intros H L. rewrite <- (int_format n H). now apply double_mono. Qed.
Lemma loc_f_range x : Rabs (loc_f double x) <= 1 / 2.
Proof.
  unfold loc_f. rewrite half_is. assert (F := floorR_spec x). set (t := double (x - IZR (floorR x))).
  assert (T : 0 <= t <= 1) by (unfold t; split; [apply (double_ge_int _ 0)|apply (double_le_int _ 1)]; try lia; lra).
  assert (H : double (1 / 2) = 1 / 2) by exact half_is. apply Rabs_le. split.
  - replace (- (1 / 2)) with (double (- (1 / 2))) by (rewrite double_opp, H; reflexivity). apply double_mono. lra.
  - rewrite <- H at 2. apply double_mono. lra.
Qed.
(** sums over lists, term by term *)
Lemma sum_close {A} (f F : A -> R) e l : (forall x, In x l -> Rabs (f x - F x) <= e) -> Rabs (sumR (map f l) - sumR (map F l)) <= INR (length l) * e.
Proof.
  induction l as [|x l IH]; intros H; [cbn; replace (0 - 0) with 0 by ring; rewrite Rabs_R0; lra|]. cbn [map sumR length]. rewrite S_INR.
  replace (f x + sumR (map f l) - (F x + sumR (map F l))) with ((f x - F x) + (sumR (map f l) - sumR (map F l))) by ring.
  eapply Rle_trans; [apply Rabs_triang|]. assert (K := H x (or_introl eq_refl)). assert (K2 := IH (fun y I => H y (or_intror I))). lra.
Qed.
Lemma sum_size {A} (f F : A -> R) e l : (forall x, In x l -> Rabs (f x - F x) <= e) -> sumR (map (fun x => Rabs (f x)) l) <= sumR (map (fun x => Rabs (F x)) l) + INR (length l) * e.
Proof.
  induction l as [|x l IH]; intros H; [cbn; lra|]. cbn [map sumR length]. rewrite S_INR. assert (K := H x (or_introl eq_refl)). assert (K2 := IH (fun y I => H y (or_intror I))).
  assert (T := Rabs_triang (F x) (f x - F x)). replace (F x + (f x - F x)) with (f x) in T by ring. lra.
Qed.
Definition pairs : list (Z * Z) := list_prod places places.
Lemma pairs_sum (a b : Z -> R) : sumR (map (fun k => a (fst k) * b (snd k)) pairs) = sum5 a * sum5 b.
Proof. unfold sum5. cbn. ring. Qed.
Lemma w4_le x k : - (1/2) <= x <= 1/2 -> In k places -> Rabs (weight4 x k) <= 1.
Proof.
  intros H Hk. assert (S := w4_sum x). unfold sum5 in S. 
  assert (P1 := w4_pos x (-2)%Z H ltac:(cbn; auto)). assert (P2 := w4_pos x (-1)%Z H ltac:(cbn; auto)). assert (P3 := w4_pos x 0%Z H ltac:(cbn; auto)).
  assert (P4 := w4_pos x 1%Z H ltac:(cbn; auto 10)). assert (P5 := w4_pos x 2%Z H ltac:(cbn; auto 10)).
  cbn [places In] in Hk. destruct Hk as [<-|[<-|[<-|[<-|[<-|[]]]]]]; rewrite Rabs_pos_eq by assumption; lra.
Qed.
(** times a charge of at most [D] *)
Lemma times_charge_s s D q e w W M : 0 < s <= bpow radix2 300 -> bpow radix2 (-510) <= D -> Rabs q <= D -> 0 <= e <= 1000 -> Rabs W <= M -> M <= 10 -> approx e (w * s) W ->
  Rabs (double (q * w) * s - q * W) <= (e + M + 1 / 100) * u * D.
Proof.
  intros Hs HD Hq He HW HM H. unfold approx in H. assert (U := u_pos). assert (V := u_tiny). assert (R := round_error (q * w)).
  assert (A : Rabs (w * s) <= M + e * u). { replace (w * s) with (W + (w * s - W)) by ring. eapply Rle_trans; [apply Rabs_triang|]. lra. }
  assert (E : eta * s <= u * / 10000 * D).
  { apply Rle_trans with (u * / 10000 * bpow radix2 (-510)); [|apply Rmult_le_compat_l; lra]. apply Rle_trans with (eta * bpow radix2 300); [apply Rmult_le_compat_l; [left; apply eta_pos|lra]|].
    unfold eta. rewrite <- bpow_plus. change (-1075 + 300)%Z with (-53 + (-14 + (-708)))%Z. rewrite !bpow_plus. rewrite Rmult_assoc. apply Rmult_le_compat_l; [lra|].
    change (bpow radix2 (-14)) with (/ 16384). apply Rmult_le_compat; [lra|left; apply bpow_gt_0|lra|]. apply bpow_le. lia. }
  replace (double (q * w) * s - q * W) with ((double (q * w) - q * w) * s + q * (w * s - W)) by ring. eapply Rle_trans; [apply Rabs_triang|]. rewrite Rabs_mult in R. rewrite (Rabs_mult q (w * s - W)), (Rabs_mult _ s), (Rabs_pos_eq s) by lra.
  rewrite Rabs_mult, (Rabs_pos_eq s) in A by lra. assert (K0 : Rabs (double (q * w) - q * w) * s <= (u * (Rabs q * Rabs w) + eta) * s) by (apply Rmult_le_compat_r; lra).
  assert (Q := Rabs_pos q). assert (W0 : 0 <= Rabs w * s) by (apply Rmult_le_pos; [apply Rabs_pos|lra]). assert (K1 : Rabs q * (Rabs w * s) <= D * (M + e * u)) by (apply Rmult_le_compat; lra).
  assert (K2 : Rabs q * Rabs (w * s - W) <= D * (e * u)) by (apply Rmult_le_compat; try lra; apply Rabs_pos).
  assert (K3 : u * (Rabs q * (Rabs w * s)) <= u * (D * (M + e * u))) by (apply Rmult_le_compat_l; lra). assert (K4 : e * u <= / 1000) by nra.
  assert (K5 : D * (M + e * u) <= D * (M + / 1000)) by (apply Rmult_le_compat_l; lra). assert (K6 : u * (D * (M + e * u)) <= u * (D * (M + / 1000))) by (apply Rmult_le_compat_l; lra). nra.
Qed.
Lemma one_900 : 0 < 1 <= bpow radix2 300.
Proof. split; [lra|]. change 1 with (bpow radix2 0). apply bpow_le. lia. Qed.
Lemma times_charge q e w W M : ordinary q -> 0 <= e <= 1000 -> Rabs W <= M -> M <= 10 -> approx e w W -> Rabs (double (q * w) - q * W) <= (e + M + 1 / 100) * u * Rabs q.
Proof.
  intros [->|Hq] He HW HM H.
  - rewrite !Rmult_0_l, double_0, Rabs_R0. replace (0 - 0) with 0 by ring. rewrite Rabs_R0. lra.
  - assert (K := times_charge_s 1 (Rabs q) q e w W M one_900). rewrite !Rmult_1_r in K. apply K; try assumption; try lra. eapply Rle_trans; [|exact Hq]. apply bpow_le. lia.
Qed.

(** ** 3D beam: the 25 contributions to one of the two arrays *)
Definition share3 (x_h y_h xi_loc q : R) (place : Z) (k : Z * Z) : R :=
  double (q * double (double (weight4_f double (loc_f double x_h) (fst k) * weight4_f double (loc_f double y_h) (snd k)) * weight1_f xi_loc place)).
Definition exact3 (x_h y_h xi_loc q : R) (place : Z) (k : Z * Z) : R :=
  q * (weight4 (loc_f double x_h) (fst k) * weight4 (loc_f double y_h) (snd k) * weight1 xi_loc place).
Lemma loc_f_in x : - (1/2) <= loc_f double x <= 1/2.
Proof. assert (K := loc_f_range x). apply Rabs_le_inv in K. lra. Qed.
Lemma pair_ap x_h y_h k : In k pairs -> approx 9.1 (double (weight4_f double (loc_f double x_h) (fst k) * weight4_f double (loc_f double y_h) (snd k))) (weight4 (loc_f double x_h) (fst k) * weight4 (loc_f double y_h) (snd k)) /\
  0 <= weight4 (loc_f double x_h) (fst k) * weight4 (loc_f double y_h) (snd k) <= 1.
Proof.
  intros Hk. destruct k as [kx ky]. apply in_prod_iff in Hk. destruct Hk as [Hx Hy]. cbn [fst snd].
  assert (Ax := w4_le _ kx (loc_f_in x_h) Hx). assert (Ay := w4_le _ ky (loc_f_in y_h) Hy). assert (Px := w4_pos _ kx (loc_f_in x_h) Hx). assert (Py := w4_pos _ ky (loc_f_in y_h) Hy).
  assert (Ex := weight4_ap _ kx (loc_f_range x_h) Hx). assert (Ey := weight4_ap _ ky (loc_f_range y_h) Hy). rewrite Rabs_pos_eq in Ax by assumption. rewrite Rabs_pos_eq in Ay by assumption.
  set (X := weight4 (loc_f double x_h) kx) in *. set (Y := weight4 (loc_f double y_h) ky) in *. clearbody X Y.
  assert (B : 0 <= X * Y <= 1) by nra. split; [|exact B]. rd 1; [apply (ap_mul 4 4 _ _ _ _ 1 1); try lra; try (apply Rabs_le; lra); assumption|lra|apply Rabs_le; lra|lra].
Qed.
Lemma share3_near x_h y_h xi_loc q place k : ordinary q -> 0 <= xi_loc <= 3 / 2 -> In place [0; 1]%Z -> In k pairs ->
  Rabs (share3 x_h y_h xi_loc q place k - exact3 x_h y_h xi_loc q place k) <= 17 * u * Rabs q.
Proof.
  intros Hq Hxi Hp Hk. destruct (pair_ap x_h y_h k Hk) as [P B]. unfold share3, exact3.
  set (p := double (weight4_f double (loc_f double x_h) (fst k) * weight4_f double (loc_f double y_h) (snd k))) in *. set (W := weight4 (loc_f double x_h) (fst k) * weight4 (loc_f double y_h) (snd k)) in *. clearbody p W.
  assert (U := u_pos). assert (Q := Rabs_pos q). assert (B0 : -1.5 <= W * xi_loc <= 1.5) by nra. assert (B1 : -1 <= W * (1 - xi_loc) <= 1) by nra. destruct Hp as [<-|[<-|[]]]; cbn [weight1_f weight1].
  - assert (A : approx 15.2 (double (p * xi_loc)) (W * xi_loc)).
    { rd 1.5; [apply (ap_mul 9.1 0 _ _ _ _ 1 1.5); try lra; try (apply Rabs_le; lra); exact P|lra|apply Rabs_le; lra|lra]. }
    assert (K := times_charge q 15.2 (double (p * xi_loc)) (W * xi_loc) 1.5 Hq ltac:(lra) ltac:(apply Rabs_le; lra) ltac:(lra) A). eapply Rle_trans; [exact K|]. apply Rmult_le_compat_r; [exact Q|]. nra.
  - assert (L : approx 1.01 (double (1 - xi_loc)) (1 - xi_loc)) by (rd 1; [apply ap_refl|lra|apply Rabs_le; lra|lra]).
    assert (A : approx 11.2 (double (p * double (1 - xi_loc))) (W * (1 - xi_loc))).
    { rd 1; [apply (ap_mul 9.1 1.01 _ _ _ _ 1 1); try lra; try (apply Rabs_le; lra); assumption|lra|apply Rabs_le; lra|lra]. }
    assert (K := times_charge q 11.2 (double (p * double (1 - xi_loc))) (W * (1 - xi_loc)) 1 Hq ltac:(lra) ltac:(apply Rabs_le; lra) ltac:(lra) A). eapply Rle_trans; [exact K|]. apply Rmult_le_compat_r; [exact Q|]. nra.
Qed.
Lemma exact3_sum x_h y_h xi_loc q place : sumR (map (exact3 x_h y_h xi_loc q place) pairs) = q * weight1 xi_loc place.
Proof.
  transitivity (q * weight1 xi_loc place * (sum5 (weight4 (loc_f double x_h)) * sum5 (weight4 (loc_f double y_h)))); [|rewrite !w4_sum; ring].
  rewrite <- pairs_sum. generalize pairs. induction l as [|k l IH]; cbn; [ring|]. rewrite IH. unfold exact3. ring.
Qed.
Lemma exact3_size x_h y_h xi_loc q place : sumR (map (fun k => Rabs (exact3 x_h y_h xi_loc q place k)) pairs) = Rabs q * Rabs (weight1 xi_loc place).
Proof.
  transitivity (Rabs q * Rabs (weight1 xi_loc place) * (sum5 (weight4 (loc_f double x_h)) * sum5 (weight4 (loc_f double y_h)))); [|rewrite !w4_sum; ring].
  rewrite <- pairs_sum. assert (G : forall l, incl l pairs -> sumR (map (fun k => Rabs (exact3 x_h y_h xi_loc q place k)) l) = Rabs q * Rabs (weight1 xi_loc place) * sumR (map (fun k => weight4 (loc_f double x_h) (fst k) * weight4 (loc_f double y_h) (snd k)) l)).
  { induction l as [|k l IH]; intros Hl; cbn [map sumR]; [ring|]. rewrite IH by (intros z Hz; apply Hl; now right). unfold exact3 at 1. destruct (pair_ap x_h y_h k (Hl k (or_introl eq_refl))) as [_ B].
    rewrite !Rabs_mult. rewrite <- (Rabs_mult (weight4 _ _)), (Rabs_pos_eq (weight4 _ _ * weight4 _ _)) by lra. ring. }
  apply G. intros z Hz; exact Hz.
Qed.
Lemma both_shares x_h y_h xi_loc q : ordinary q -> 0 <= xi_loc <= 3 / 2 ->
  let v0 := map (share3 x_h y_h xi_loc q 0) pairs in let v1 := map (share3 x_h y_h xi_loc q 1) pairs in
  Rabs (sumR v0 + sumR v1 - q) <= 850 * u * Rabs q /\ sum_abs v0 + sum_abs v1 <= 2.1 * Rabs q.
Proof.
  intros Hq Hxi v0 v1. assert (U := u_pos). assert (V := u_tiny). assert (Q := Rabs_pos q).
  assert (C0 := sum_close _ _ _ pairs (fun k => share3_near x_h y_h xi_loc q 0 k Hq Hxi ltac:(cbn; auto))). assert (C1 := sum_close _ _ _ pairs (fun k => share3_near x_h y_h xi_loc q 1 k Hq Hxi ltac:(cbn; auto))).
  assert (S0 := sum_size _ _ _ pairs (fun k => share3_near x_h y_h xi_loc q 0 k Hq Hxi ltac:(cbn; auto))). assert (S1 := sum_size _ _ _ pairs (fun k => share3_near x_h y_h xi_loc q 1 k Hq Hxi ltac:(cbn; auto))).
  rewrite exact3_sum in C0, C1. rewrite exact3_size in S0, S1. change (length pairs) with 25%nat in *. replace (INR 25) with 25 in * by (cbn; lra). cbn [weight1] in *. fold v0 in C0. fold v1 in C1. split.
  - replace (sumR v0 + sumR v1 - q) with ((sumR v0 - q * xi_loc) + (sumR v1 - q * (1 - xi_loc))) by ring. eapply Rle_trans; [apply Rabs_triang|]. lra.
  - unfold sum_abs, v0, v1. rewrite !map_map. assert (K0 : Rabs xi_loc + Rabs (1 - xi_loc) <= 2). { rewrite (Rabs_pos_eq xi_loc) by lra. unfold Rabs. destruct (Rcase_abs _); lra. }
    assert (K1 : Rabs q * (Rabs xi_loc + Rabs (1 - xi_loc)) <= Rabs q * 2) by (apply Rmult_le_compat_l; lra). assert (K2 : 850 * u * Rabs q <= 0.1 * Rabs q) by (apply Rmult_le_compat_r; lra). lra.
Qed.

(** ** Many contributions *)
Lemma added_more t a vs t' a' x y : 0 <= y -> added t a vs t' a' -> added (t + x) (a + y) vs (t' + x) (a' + y).
Proof.
  intros Hy [A B]. assert (P := pow_u_ge (length vs)). unfold added. replace (t' + x - (t + x) - sumR vs) with (t' - t - sumR vs) by ring. split.
  - eapply Rle_trans; [exact A|]. apply Rmult_le_compat_r; lra.
  - assert (0 <= y * ((1 + u) ^ length vs - 1)) by (apply Rmult_le_pos; lra). lra.
Qed.
(** [k] additions bring the charge [Q], of size [S], from total [t] to total [t'] *)
Definition moved (k : nat) (Q S t a t' a' : R) : Prop :=
  exists vs, (length vs <= k)%nat /\ Rabs (sumR vs - Q) <= 850 * u * S /\ sum_abs vs <= 2.1 * S /\ added t a vs t' a'.
Lemma moved_nil t a : moved 0 0 0 t a t a.
Proof. exists []. cbn [length sumR]. unfold sum_abs. cbn [map sumR]. replace (0 - 0) with 0 by ring. rewrite Rabs_R0. split; [lia|]. split; [lra|]. split; [lra|apply added_nil]. Qed.
Lemma moved_app k1 k2 Q1 Q2 S1 S2 t a t1 a1 t2 a2 : 0 <= a -> moved k1 Q1 S1 t a t1 a1 -> moved k2 Q2 S2 t1 a1 t2 a2 -> moved (k1 + k2) (Q1 + Q2) (S1 + S2) t a t2 a2.
Proof.
  intros Ha (v & L & A & B & C) (w & L' & A' & B' & C'). exists (v ++ w). split; [rewrite app_length; lia|]. split; [|split].
  - rewrite sumR_app. replace (sumR v + sumR w - (Q1 + Q2)) with ((sumR v - Q1) + (sumR w - Q2)) by ring. eapply Rle_trans; [apply Rabs_triang|]. lra.
  - rewrite sum_abs_app. lra.
  - eapply added_app; eassumption.
Qed.
Lemma moved_more k Q S t a t' a' x y : 0 <= y -> moved k Q S t a t' a' -> moved k Q S (t + x) (a + y) (t' + x) (a' + y).
Proof. intros Hy (v & L & A & B & C). exists v. split; [exact L|]. split; [exact A|]. split; [exact B|]. now apply added_more. Qed.
Lemma moved_total k Q S t a t' a' : 0 <= a -> 0 <= S -> (Z.of_nat k <= 2 ^ 52)%Z -> moved k Q S t a t' a' ->
  Rabs (t' - t - Q) <= (850 + 4.2 * INR k) * u * (a + S) /\ a' <= 4.2 * (a + S).
Proof.
  intros Ha HS Hk (v & L & A & B & [C D]). assert (Lk : INR (length v) <= INR k) by (now apply le_INR). assert (P : (1 + u) ^ length v - 1 <= 2 * INR k * u).
  { eapply Rle_trans; [apply pow_u_le; lia|]. apply Rmult_le_compat_r; [left; apply u_pos|lra]. }
  assert (P1 := pow_u_ge (length v)). assert (U := u_pos). assert (K := pos_INR k).
  assert (SV := sum_abs_pos v). assert (E : a + sum_abs v <= 2.1 * (a + S)) by lra.
  assert (F : (a + sum_abs v) * ((1 + u) ^ length v - 1) <= (2.1 * (a + S)) * (2 * INR k * u)) by (apply Rmult_le_compat; lra). split.
  - replace (t' - t - Q) with ((t' - t - sumR v) + (sumR v - Q)) by ring. eapply Rle_trans; [apply Rabs_triang|]. assert (G : 850 * u * S <= 850 * u * (a + S)) by (apply Rmult_le_compat_l; lra). replace ((850 + 4.2 * INR k) * u * (a + S)) with (850 * u * (a + S) + 2.1 * (a + S) * (2 * INR k * u)) by lra. lra.
  - assert (G : INR k * u <= / 2). { assert (INR k <= IZR (2 ^ 52)) by (rewrite INR_IZR_INZ; apply IZR_le; lia). assert (V := u_small). replace (IZR (2 ^ 53)) with (2 * IZR (2 ^ 52)) in V by (rewrite <- mult_IZR; reflexivity). nra. }
    eapply Rle_trans; [exact D|]. replace (4.2 * (a + S)) with (2.1 * (a + S) * 2) by lra. apply Rmult_le_compat; lra.
Qed.

(** ** Two-dimensional arrays *)
Definition eqz (a b : Z * Z) : bool := (fst a =? fst b)%Z && (snd a =? snd b)%Z.
Lemma eqz_spec a b : eqz a b = true <-> a = b.
Proof.
  destruct a as [x y], b as [x' y']. unfold eqz. cbn [fst snd]. rewrite andb_true_iff, !Z.eqb_eq. split; [intros [-> ->]; reflexivity|intros H; injection H; auto].
Qed.
Definition flat (g : grid) : Z * Z -> R := fun c => g (fst c) (snd c).
Definition zs (n : nat) : list Z := map Z.of_nat (seq 0 n).
Definition cells (n : nat) : list (Z * Z) := list_prod (zs n) (zs n).
Lemma sumZ_zs n f : sumZ n f = sumR (map f (zs n)).
Proof. unfold zs. induction n as [|n IH]; [reflexivity|]. cbn [sumZ]. rewrite seq_S, !map_app, sumR_app, IH. cbn. lra. Qed.
Lemma sum_prod {A B} (f : A * B -> R) la lb : sumR (map f (list_prod la lb)) = sumR (map (fun a => sumR (map (fun b => f (a, b)) lb)) la).
Proof. induction la as [|a la IH]; [reflexivity|]. cbn [list_prod map sumR]. rewrite map_app, sumR_app, map_map, IH. reflexivity. Qed.
Lemma gsum_cells n g : gsum n g = sumR (map (flat g) (cells n)).
Proof. unfold gsum, cells. rewrite sum_prod, sumZ_zs. f_equal. apply map_ext. intros a. rewrite sumZ_zs. reflexivity. Qed.
Lemma nodup_app {A} (l l' : list A) : NoDup l -> NoDup l' -> (forall x, In x l -> ~ In x l') -> NoDup (l ++ l').
Proof.
  intros Hl Hl' H. induction Hl as [|x l Hn Hd IH]; [exact Hl'|]. cbn. constructor.
  - rewrite in_app_iff. intros [K|K]; [contradiction|]. apply (H x); [now left|exact K].
  - apply IH. intros y Hy. apply H. now right.
Qed.
Lemma nodup_prod {A B} (la : list A) (lb : list B) : NoDup la -> NoDup lb -> NoDup (list_prod la lb).
Proof.
  intros Ha Hb. induction Ha as [|a la Hn Hd IH]; [constructor|]. cbn [list_prod]. apply nodup_app; [|exact IH|].
  - apply FinFun.Injective_map_NoDup; [|exact Hb]. intros x y E. now injection E.
  - intros [x y] Hx Hy. apply in_map_iff in Hx. destruct Hx as (z & E & _). injection E as <- <-. apply in_prod_iff in Hy. tauto.
Qed.
Lemma cells_nodup n : NoDup (cells n).
Proof. assert (K : NoDup (zs n)) by (apply FinFun.Injective_map_NoDup; [intros x y; lia|apply seq_NoDup]). now apply nodup_prod. Qed.
Lemma cells_in n a b : (0 <= a < Z.of_nat n)%Z -> (0 <= b < Z.of_nat n)%Z -> In (a, b) (cells n).
Proof.
  intros Ha Hb. assert (K : forall z, (0 <= z < Z.of_nat n)%Z -> In z (zs n)). { intros z Hz. apply in_map_iff. exists (Z.to_nat z). split; [lia|]. apply in_seq. lia. }
  apply in_prod; auto.
Qed.
Lemma fold_pairs {G A B} (F : G -> A -> B -> G) la lb : forall g, fold_left (fun g a => fold_left (fun g b => F g a b) lb g) la g = fold_left (fun g k => F g (fst k) (snd k)) (list_prod la lb) g.
Proof.
  induction la as [|a la IH]; intros g; [reflexivity|]. cbn [fold_left list_prod]. rewrite fold_left_app, IH. f_equal. clear. revert g. induction lb as [|b lb IH]; intros g; [reflexivity|]. cbn. apply IH.
Qed.
Lemma flat_add g i j v : flat (add_cell_f double g i j v) = put eqz (flat g) (i, j) v.
Proof. apply functional_extensionality. intros [a b]. unfold flat, add_cell_f, put, eqz. cbn [fst snd]. destruct (a =? i)%Z; [|reflexivity]. destruct (b =? j)%Z; reflexivity. Qed.
Lemma flat_puts {K} (i j : K -> Z) (v : K -> R) l : forall g, flat (fold_left (fun g k => add_cell_f double g (i k) (j k) (v k)) l g) = puts eqz (flat g) (map (fun k => ((i k, j k), v k)) l).
Proof. induction l as [|k l IH]; intros g; [reflexivity|]. cbn [fold_left map]. rewrite IH, flat_add. reflexivity. Qed.
Lemma deposit_beam_puts n x_h y_h xi_loc q place g :
  flat (deposit_beam_one_f n x_h y_h xi_loc q place g) = puts eqz (flat g) (map (fun k => ((cell n x_h + fst k, cell n y_h + snd k)%Z, share3 x_h y_h xi_loc q place k)) pairs).
Proof.
  unfold deposit_beam_one_f. cbv zeta. rewrite (fold_pairs (fun g kx ky => add_cell_f double g (cell n x_h + kx) (cell n y_h + ky) (double (q * double (double (weight4_f double (loc_f double x_h) kx * weight4_f double (loc_f double y_h) ky) * weight1_f xi_loc place))))).
  exact (flat_puts (fun k => (cell n x_h + fst k)%Z) (fun k => (cell n y_h + snd k)%Z) (share3 x_h y_h xi_loc q place) pairs g).
Qed.
(** both arrays, one particle *)
Definition tot (n : nat) (g : grid) : R := gsum n g.
Definition doubles (g : grid) : Prop := forall a b, is_double (g a b).
Definition on_cells (n : nat) (x_h : R) : Prop := forall k, In k places -> (0 <= cell (Z.of_nat n) x_h + k < Z.of_nat n)%Z.
Lemma sizes_cells n g : gsum_sizes n g = sumR (map (fun c => Rabs (flat g c)) (cells n)).
Proof. unfold gsum_sizes. rewrite gsum_cells. reflexivity. Qed.
Lemma sizes_pos n g : 0 <= gsum_sizes n g.
Proof. rewrite sizes_cells. generalize (cells n). induction l as [|c l IH]; cbn; [lra|]. assert (K := Rabs_pos (flat g c)). lra. Qed.
Lemma beam_one_added n x_h y_h xi_loc q place g : doubles g -> on_cells n x_h -> on_cells n y_h ->
  let g' := deposit_beam_one_f (Z.of_nat n) x_h y_h xi_loc q place g in
  doubles g' /\ added (gsum n g) (gsum_sizes n g) (map (share3 x_h y_h xi_loc q place) pairs) (gsum n g') (gsum_sizes n g').
Proof.
  intros Hg Hx Hy g'. rewrite !gsum_cells, !sizes_cells. assert (E := deposit_beam_puts (Z.of_nat n) x_h y_h xi_loc q place g). fold g' in E.
  destruct (puts_added eqz eqz_spec (cells n) (cells_nodup n) (map (fun k => ((cell (Z.of_nat n) x_h + fst k, cell (Z.of_nat n) y_h + snd k)%Z, share3 x_h y_h xi_loc q place k)) pairs) (flat g)) as [D A].
  - intros [a b]. apply Hg.
  - intros c v Hin. apply in_map_iff in Hin. destruct Hin as (k & Ek & Hk). injection Ek as <- <-. destruct k as [kx ky]. apply in_prod_iff in Hk. destruct Hk as [Kx Ky]. split; [apply cells_in; [apply Hx|apply Hy]; assumption|apply double_double].
  - rewrite <- E in D, A. split; [intros a b; exact (D (a, b))|]. rewrite map_map in A. exact A.
Qed.
Lemma beam_both n h dxi idx p g0 g1 : doubles g0 -> doubles g1 -> ordinary (b_q p) -> 0 <= xi_loc_f dxi idx (b_xi p) <= 3 / 2 ->
  on_cells n (x_h_f h (b_x p)) -> on_cells n (x_h_f h (b_y p)) ->
  let o := deposit3_f (Z.of_nat n) h dxi idx [p] (g0, g1) in
  doubles (fst o) /\ doubles (snd o) /\
  moved 50 (b_q p) (Rabs (b_q p)) (gsum n g0 + gsum n g1) (gsum_sizes n g0 + gsum_sizes n g1) (gsum n (fst o) + gsum n (snd o)) (gsum_sizes n (fst o) + gsum_sizes n (snd o)).
Proof.
  intros H0 H1 Hq Hxi Hx Hy o. unfold o, deposit3_f. cbn [fold_left fst snd].
  destruct (beam_one_added n _ _ (xi_loc_f dxi idx (b_xi p)) (b_q p) 0 g0 H0 Hx Hy) as [D0 A0]. destruct (beam_one_added n _ _ (xi_loc_f dxi idx (b_xi p)) (b_q p) 1 g1 H1 Hx Hy) as [D1 A1].
  split; [exact D0|]. split; [exact D1|]. destruct (both_shares (x_h_f h (b_x p)) (x_h_f h (b_y p)) _ _ Hq Hxi) as [B C].
  eexists (_ ++ _). split; [|split; [|split]]; cycle 3.
  - eapply added_app; [assert (P0 := sizes_pos n g0); assert (P1 := sizes_pos n g1); lra|apply added_more; [apply sizes_pos|exact A0]|].
    rewrite (Rplus_comm (gsum n _) (gsum n g1)), (Rplus_comm (gsum_sizes n _) (gsum_sizes n g1)). rewrite (Rplus_comm (gsum n (deposit_beam_one_f _ _ _ _ _ 0 g0))), (Rplus_comm (gsum_sizes n (deposit_beam_one_f _ _ _ _ _ 0 g0))). apply added_more; [apply sizes_pos|exact A1].
  - rewrite app_length, !map_length. cbn. lia.
  - rewrite sumR_app. exact B.
  - rewrite sum_abs_app. exact C.
Qed.
