(** Theorems C81: the values that the distributions of beam_generator2 return. *)
From Coq Require Import Reals ZArith List String Bool Permutation Sorted Lra Lia Psatz.
From Flocq Require Import Core.
From Verif Require Import Float_Model PyBeam_Model PyBeam_Spec.
Import ListNotations.
Open Scope R_scope.

(** ** Counting *)
Definition upto (B : R) (N : nat) : nat := List.length (filter (fun k => if Rle_dec (INR (S k)) B then true else false) (seq 0 N)).
Lemma seq_last N : seq 0 (S N) = seq 0 N ++ [N].
Proof. exact (seq_S N 0). Qed.
Lemma filter_all {A} (f : A -> bool) l : (forall x, In x l -> f x = true) -> filter f l = l.
Proof. induction l as [|x l IH]; intros H; [reflexivity|]. cbn. rewrite H by now left. f_equal. apply IH. intros y Hy. apply H. now right. Qed.
Lemma upto_all B N : INR N <= B -> upto B N = N.
Proof.
  intros H. unfold upto. rewrite filter_all; [apply seq_length|]. intros k Hk. apply in_seq in Hk. destruct (Rle_dec _ _) as [|C]; [reflexivity|]. exfalso. apply C. eapply Rle_trans; [|exact H]. apply le_INR. lia.
Qed.
Lemma upto_near B N : 0 <= B <= INR (S N) -> B - 1 <= INR (upto B N) <= B.
Proof.
  induction N as [|N IH]; intros HB.
  - unfold upto. cbn in *. lra.
  - destruct (Rle_dec (INR (S N)) B) as [L|L]; [rewrite upto_all by exact L; rewrite S_INR in HB; lra|]. unfold upto. rewrite seq_last, filter_app, app_length. cbn [filter]. destruct (Rle_dec (INR (S N)) B) as [?|_]; [contradiction|]. cbn [List.length]. rewrite Nat.add_0_r. apply IH. lra.
Qed.
Lemma split_count {A} (f g : A -> bool) l : (forall x, g x = true -> f x = true) -> List.length (filter (fun x => negb (g x) && f x) l) = (List.length (filter f l) - List.length (filter g l))%nat /\ (List.length (filter g l) <= List.length (filter f l))%nat.
Proof.
  intros H. induction l as [|x l [IH1 IH2]]; [cbn; lia|]. cbn [filter]. specialize (H x). destruct (g x) eqn:G; [rewrite H by reflexivity|]; cbn [negb andb]; destruct (f x); cbn [List.length]; lia.
Qed.
Lemma filter_map_comm {A B} (f : B -> bool) (g : A -> B) l : filter f (map g l) = map g (filter (fun x => f (g x)) l).
Proof. induction l as [|x l IH]; [reflexivity|]. cbn. destruct (f (g x)); cbn; now rewrite IH. Qed.

(** ** Quantiles at evenly spread probabilities *)
Section Quantiles.
  Variables (cdf ppf : R -> R) (p1 p2 : R) (N : nat).
  Hypotheses (Q : quantile_of cdf ppf) (Pr : probability cdf) (H1 : 0 <= p1) (H12 : p1 < p2) (H2 : p2 <= 1).
  Let p k := p1 + INR (S k) * (p2 - p1) / INR (S N).
  Lemma SN : 0 < INR (S N). Proof. apply lt_0_INR. lia. Qed.
  Lemma point_in k : (k < N)%nat -> p1 < p k < p2.
  Proof.
    intros Hk. assert (S0 := SN). assert (K0 : 0 < INR (S k)) by (apply lt_0_INR; lia). assert (KN : INR (S k) < INR (S N)) by (apply lt_INR; lia). unfold p.
    assert (A : 0 < INR (S k) / INR (S N)) by (now apply Rdiv_lt_0_compat). assert (B : INR (S k) / INR (S N) < 1) by (apply (Rmult_lt_reg_r (INR (S N))); [exact S0|]; unfold Rdiv; rewrite Rmult_assoc, Rinv_l by lra; lra).
    replace (INR (S k) * (p2 - p1) / INR (S N)) with (INR (S k) / INR (S N) * (p2 - p1)) by (field; lra). set (t := INR (S k) / INR (S N)) in *. nra.
  Qed.
  Lemma below_iff k x : (k < N)%nat -> (ppf (p k) <= x <-> INR (S k) <= INR (S N) * share cdf p1 p2 x).
  Proof.
    intros Hk. assert (S0 := SN). assert (I := point_in k Hk). rewrite (Q (p k) x) by lra. assert (K0 : 0 < INR (S k)) by (apply lt_0_INR; lia). assert (KN : INR (S k) < INR (S N)) by (apply lt_INR; lia).
    set (t := (cdf x - p1) / (p2 - p1)). assert (T : p k <= cdf x <-> INR (S k) <= INR (S N) * t).
    { assert (E : cdf x = p1 + t * (p2 - p1)) by (unfold t; field; lra). rewrite E. unfold p. assert (D : 0 < p2 - p1) by lra. assert (Dn : INR (S k) * (p2 - p1) / INR (S N) = INR (S k) / INR (S N) * (p2 - p1)) by (field; lra). rewrite Dn. set (v := INR (S k) / INR (S N)). assert (V : INR (S k) = INR (S N) * v) by (unfold v; field; lra). rewrite V. split; intros H.
      - apply Rmult_le_compat_l; [lra|]. apply (Rmult_le_reg_r (p2 - p1)); lra.
      - assert (v <= t) by (apply (Rmult_le_reg_l (INR (S N))); lra). assert (v * (p2 - p1) <= t * (p2 - p1)) by (apply Rmult_le_compat_r; lra). lra. }
    rewrite T. unfold share. fold t. unfold Rmax, Rmin. destruct (Rle_dec 1 t) as [L1|L1]; destruct (Rle_dec 0 _) as [L0|L0]; split; intros H; try lra; try nra.
  Qed.
  Lemma share_range x : 0 <= share cdf p1 p2 x <= 1.
  Proof. unfold share, Rmax, Rmin. destruct (Rle_dec 1 _); destruct (Rle_dec 0 _); lra. Qed.
  Lemma share_mono x y : x <= y -> share cdf p1 p2 x <= share cdf p1 p2 y.
  Proof.
    intros H. assert (C := proj2 Pr x y H). unfold share. apply Rle_max_compat_l. assert (K : (cdf x - p1) / (p2 - p1) <= (cdf y - p1) / (p2 - p1)) by (apply Rmult_le_compat_r; [left; apply Rinv_0_lt_compat; lra|lra]). set (s := (cdf x - p1) / (p2 - p1)) in *. set (t := (cdf y - p1) / (p2 - p1)) in *. unfold Rmin. destruct (Rle_dec 1 s); destruct (Rle_dec 1 t); lra.
  Qed.
  Lemma counts a b : a <= b -> Rabs (INR (number_in a b (map ppf (inner_points p1 p2 N))) - INR (S N) * (share cdf p1 p2 b - share cdf p1 p2 a)) <= 1.
  Proof.
    intros Hab. unfold number_in, inner_points. rewrite map_map, filter_map_comm, map_length.
    set (fa := fun k => if Rle_dec (INR (S k)) (INR (S N) * share cdf p1 p2 a) then true else false). set (fb := fun k => if Rle_dec (INR (S k)) (INR (S N) * share cdf p1 p2 b) then true else false).
    assert (E : filter (fun k => if Rlt_dec a (ppf (p1 + INR (S k) * (p2 - p1) / INR (S N))) then if Rle_dec (ppf (p1 + INR (S k) * (p2 - p1) / INR (S N))) b then true else false else false) (seq 0 N) = filter (fun k => negb (fa k) && fb k) (seq 0 N)).
    { apply filter_ext_in. intros k Hk. apply in_seq in Hk. assert (A := below_iff k a ltac:(lia)). assert (B := below_iff k b ltac:(lia)). unfold p in A, B. unfold fa, fb. destruct (Rlt_dec _ _) as [L|L]; destruct (Rle_dec (INR (S k)) (INR (S N) * share cdf p1 p2 a)) as [La|La]; cbn [negb andb].
      - apply A in La. lra.
      - destruct (Rle_dec _ b) as [Lb|Lb]; destruct (Rle_dec (INR (S k)) _) as [Lc|Lc]; try reflexivity; exfalso; tauto.
      - reflexivity.
      - exfalso. apply La. apply A. lra. }
    rewrite E. assert (S0 := SN). assert (M := share_mono a b Hab). assert (Ra := share_range a). assert (Rb := share_range b). assert (Mn : INR (S N) * share cdf p1 p2 a <= INR (S N) * share cdf p1 p2 b) by (apply Rmult_le_compat_l; lra).
    destruct (split_count fb fa (seq 0 N)) as [C1 C2]. { intros k. unfold fa, fb. destruct (Rle_dec _ _) as [L|]; [|discriminate]. intros _. destruct (Rle_dec _ _) as [|G]; [reflexivity|]. exfalso. apply G. lra. }
    rewrite C1, minus_INR by exact C2. change (List.length (filter fb (seq 0 N))) with (upto (INR (S N) * share cdf p1 p2 b) N). change (List.length (filter fa (seq 0 N))) with (upto (INR (S N) * share cdf p1 p2 a) N).
    assert (Ua := upto_near (INR (S N) * share cdf p1 p2 a) N). assert (Ub := upto_near (INR (S N) * share cdf p1 p2 b) N). assert (B1 : 0 <= INR (S N) * share cdf p1 p2 a) by (apply Rmult_le_pos; lra). assert (B2 : INR (S N) * share cdf p1 p2 b <= INR (S N) * 1) by (apply Rmult_le_compat_l; lra).
    specialize (Ua ltac:(lra)). specialize (Ub ltac:(lra)). apply Rabs_le. lra.
  Qed.
  Lemma ppf_mono s t : 0 < s < 1 -> 0 < t < 1 -> s <= t -> ppf s <= ppf t.
  Proof. intros Hs Ht L. apply (Q s); [exact Hs|]. eapply Rle_trans; [exact L|]. apply (Q t); [exact Ht|]. lra. Qed.
End Quantiles.

(** ** Gauss *)
Lemma low_high cdf vmin vmax : probability cdf -> 0 <= low cdf vmin /\ high cdf vmax <= 1.
Proof. intros [P _]. split; [destruct vmin; cbn; [apply P|lra]|destruct vmax; cbn; [apply P|lra]]. Qed.
Lemma scaled_count m sigma l a b : 0 < sigma -> number_in a b (map (fun v => m + sigma * v) l) = number_in ((a - m) / sigma) ((b - m) / sigma) l.
Proof.
  intros S. unfold number_in. rewrite filter_map_comm, map_length. f_equal. apply filter_ext. intros v.
  assert (A : a < m + sigma * v <-> (a - m) / sigma < v). { assert (E : a = m + sigma * ((a - m) / sigma)) by (field; lra). set (t := (a - m) / sigma) in *. clearbody t. subst a. split; intros H; nra. }
  assert (B : m + sigma * v <= b <-> v <= (b - m) / sigma). { assert (E : b = m + sigma * ((b - m) / sigma)) by (field; lra). set (t := (b - m) / sigma) in *. clearbody t. subst b. split; intros H; nra. }
  destruct (Rlt_dec a _); destruct (Rlt_dec _ v); try tauto. destruct (Rle_dec _ b); destruct (Rle_dec v _); tauto.
Qed.
Lemma gauss_values cdf ppf m sigma vmin vmax N : draw (Gauss cdf ppf m sigma vmin vmax) N = map (fun v => m + sigma * v) (map ppf (inner_points (low cdf vmin) (high cdf vmax) N)).
Proof. cbn. now rewrite map_map. Qed.

(** In every interval the number of values is, to within one, the share of the distribution there; the limits cut the
    distribution (in units of sigma from its median) and the rest is stretched to the whole number. *)
Theorem C81_gauss_counts : forall cdf ppf m sigma vmin vmax N a b, quantile_of cdf ppf -> probability cdf -> 0 < sigma -> low cdf vmin < high cdf vmax -> a <= b ->
  let sh x := share cdf (low cdf vmin) (high cdf vmax) ((x - m) / sigma) in
  Rabs (INR (number_in a b (draw (Gauss cdf ppf m sigma vmin vmax) N)) - INR (S N) * (sh b - sh a)) <= 1.
Proof.
  intros cdf ppf m sigma vmin vmax N a b Q P S L H sh. destruct (low_high cdf vmin vmax P) as [L0 H1]. rewrite gauss_values, scaled_count by exact S. apply (counts cdf ppf (low cdf vmin) (high cdf vmax) N Q P L0 L H1). apply Rmult_le_compat_r; [left; now apply Rinv_0_lt_compat|lra].
Qed.
Theorem C81_gauss_values : forall cdf ppf m sigma vmin vmax N, quantile_of cdf ppf -> probability cdf -> 0 < sigma -> low cdf vmin < high cdf vmax ->
  let l := draw (Gauss cdf ppf m sigma vmin vmax) N in
  List.length l = N /\ increasing_list l /\ (forall a v, vmin = Some a -> In v l -> m + sigma * a < v) /\ (forall b v, vmax = Some b -> In v l -> v <= m + sigma * b).
Proof.
  intros cdf ppf m sigma vmin vmax N Q P Sg L l. destruct (low_high cdf vmin vmax P) as [L0 H1]. set (p1 := low cdf vmin) in *. set (p2 := high cdf vmax) in *.
  assert (In0 : forall k, In k (seq 0 N) -> p1 < p1 + INR (S k) * (p2 - p1) / INR (S N) < p2) by (intros k Hk; apply in_seq in Hk; apply point_in; [exact L|lia]).
  unfold l. cbn [draw Gauss]. fold p1 p2. unfold inner_points. rewrite map_map. split; [rewrite map_length; apply seq_length|]. split.
  - unfold increasing_list. assert (G : forall n i, (i + n <= N)%nat -> StronglySorted Rle (map (fun k => m + sigma * ppf (p1 + INR (S k) * (p2 - p1) / INR (S N))) (seq i n))).
    { induction n as [|n IH]; intros i Hi; cbn [seq map]; constructor; [apply IH; lia|]. apply Forall_map, Forall_forall. intros k Hk. apply in_seq in Hk. apply Rplus_le_compat_l, Rmult_le_compat_l; [lra|]. assert (Ii := In0 i ltac:(apply in_seq; lia)). assert (Ik := In0 k ltac:(apply in_seq; lia)).
      apply (ppf_mono cdf); [exact Q|lra|lra|]. apply Rplus_le_compat_l. unfold Rdiv. apply Rmult_le_compat_r; [left; apply Rinv_0_lt_compat, lt_0_INR; lia|]. apply Rmult_le_compat_r; [lra|]. apply le_INR. lia. }
    apply G. lia.
  - split.
    + intros a v Ea Hv. apply in_map_iff in Hv. destruct Hv as (k & <- & Hk). specialize (In0 k Hk). set (t := p1 + _ * _ / _) in *. assert (T : ~ ppf t <= a) by (intros C; apply (Q t a) in C; [unfold p1 in In0; rewrite Ea in In0; cbn in In0; lra|lra]). apply Rplus_lt_compat_l, Rmult_lt_compat_l; [exact Sg|lra].
    + intros b v Eb Hv. apply in_map_iff in Hv. destruct Hv as (k & <- & Hk). specialize (In0 k Hk). set (t := p1 + _ * _ / _) in *. apply Rplus_le_compat_l, Rmult_le_compat_l; [lra|]. apply (Q t b); [lra|]. unfold p2 in In0. rewrite Eb in In0. cbn in In0. lra.
Qed.

(** make_beam asks for N = round (partic_in_layer / xi_step / f0) values: without limits the layer in the middle of the beam gets at most
    partic_in_layer of them, up to a few, so its charge is at most that of the peak current. *)
Theorem C81_middle_layer : forall cdf ppf m sigma dxi P f, quantile_of cdf ppf -> probability cdf -> not_denser cdf -> 0 < sigma -> 0 < dxi -> 0 < P ->
  let d := Gauss cdf ppf m sigma None None in f0 d = Some f ->
  INR (number_in (m - dxi / 2) (m + dxi / 2) (draw d (Z.to_nat (py_round (P / dxi / f))))) <= P + 1 + 1.5 * (dxi * f).
Proof.
  intros cdf ppf m sigma dxi P f Q Pr Nd Sg D P0 d Hf. cbn in Hf. injection Hf as Hf. assert (S2 : 0 < sqrt (2 * PI)) by (apply sqrt_lt_R0; assert (PP := PI_RGT_0); lra). assert (F0 : 0 < f) by (rewrite <- Hf; apply Rdiv_lt_0_compat; [|exact Sg]; apply Rdiv_lt_0_compat; lra).
  set (N := Z.to_nat (py_round (P / dxi / f))). assert (K := C81_gauss_counts cdf ppf m sigma None None N (m - dxi / 2) (m + dxi / 2) Q Pr Sg ltac:(cbn; lra) ltac:(lra)). cbv zeta in K. fold d in K. apply Rabs_le_inv in K. destruct K as [_ K].
  assert (Sh : forall x, share cdf (low cdf None) (high cdf None) x = cdf x). { intros x. cbn [low high]. unfold share. rewrite !Rminus_0_r. replace (cdf x / 1) with (cdf x) by field. assert (A := proj1 Pr x). rewrite Rmin_right, Rmax_right; lra. }
  rewrite !Sh in K. assert (Ms := Nd ((m - dxi / 2 - m) / sigma) ((m + dxi / 2 - m) / sigma)).
  assert (Or : (m - dxi / 2 - m) / sigma <= (m + dxi / 2 - m) / sigma) by (apply Rmult_le_compat_r; [left; now apply Rinv_0_lt_compat|lra]). specialize (Ms Or). replace (((m + dxi / 2 - m) / sigma - (m - dxi / 2 - m) / sigma) / sqrt (2 * PI)) with (dxi * f) in Ms by (rewrite <- Hf; field; lra).
  assert (PD : 0 < P / dxi / f) by (repeat apply Rdiv_lt_0_compat; assumption). assert (Rn : Rabs (IZR (py_round (P / dxi / f)) - P / dxi / f) <= / 2) by (rewrite Rabs_minus_sym; unfold py_round; apply Znearest_half). apply Rabs_le_inv in Rn.
  assert (Z0 : (0 <= py_round (P / dxi / f))%Z). { assert (G : (-1 < py_round (P / dxi / f))%Z) by (apply lt_IZR; lra). lia. }
  assert (Nn : INR N = IZR (py_round (P / dxi / f))) by (unfold N; rewrite INR_IZR_INZ, Z2Nat.id by exact Z0; reflexivity). rewrite S_INR, Nn in K. assert (DF : 0 < dxi * f) by (now apply Rmult_lt_0_compat).
  assert (B : (IZR (py_round (P / dxi / f)) + 1) * (cdf ((m + dxi / 2 - m) / sigma) - cdf ((m - dxi / 2 - m) / sigma)) <= (P / dxi / f + 1.5) * (dxi * f)).
  { apply Rmult_le_compat; [|apply Rle_0_minus; apply (proj2 Pr); exact Or|lra|exact Ms]. assert (0 <= IZR (py_round (P / dxi / f))) by (now apply IZR_le). lra. }
  replace ((P / dxi / f + 1.5) * (dxi * f)) with (P + 1.5 * (dxi * f)) in B by (field; lra). lra.
Qed.

(** With limits the number asked for is the same, but the values are drawn from what is left: a layer inside the limits gets
    more than its share, by the inverse of the part that is left. *)
Theorem C81_limits_raise_density : forall cdf ppf m sigma vmin vmax N a b, quantile_of cdf ppf -> probability cdf -> 0 < sigma -> low cdf vmin < high cdf vmax -> a <= b ->
  low cdf vmin <= cdf ((a - m) / sigma) -> cdf ((b - m) / sigma) <= high cdf vmax ->
  Rabs (INR (number_in a b (draw (Gauss cdf ppf m sigma vmin vmax) N)) - INR (S N) * (cdf ((b - m) / sigma) - cdf ((a - m) / sigma)) / (high cdf vmax - low cdf vmin)) <= 1.
Proof.
  intros cdf ppf m sigma vmin vmax N a b Q P Sg L H Ha Hb. assert (K := C81_gauss_counts cdf ppf m sigma vmin vmax N a b Q P Sg L H). cbv beta zeta in K. set (p1 := low cdf vmin) in *. set (p2 := high cdf vmax) in *.
  assert (M : cdf ((a - m) / sigma) <= cdf ((b - m) / sigma)) by (apply P; apply Rmult_le_compat_r; [left; now apply Rinv_0_lt_compat|lra]).
  assert (Sh : forall x, p1 <= cdf x <= p2 -> share cdf p1 p2 x = (cdf x - p1) / (p2 - p1)).
  { intros x Hx. unfold share. assert (A : 0 <= (cdf x - p1) / (p2 - p1)) by (apply Rmult_le_pos; [lra|left; apply Rinv_0_lt_compat; lra]). assert (B : (cdf x - p1) / (p2 - p1) <= 1) by (apply (Rmult_le_reg_r (p2 - p1)); [lra|]; unfold Rdiv; rewrite Rmult_assoc, Rinv_l by lra; lra). rewrite Rmin_right, Rmax_right; lra. }
  rewrite !Sh in K by lra. replace (INR (S N) * (cdf ((b - m) / sigma) - cdf ((a - m) / sigma)) / (p2 - p1)) with (INR (S N) * ((cdf ((b - m) / sigma) - p1) / (p2 - p1) - (cdf ((a - m) / sigma) - p1) / (p2 - p1))) by (field; lra). exact K.
Qed.
(** The limits are not coordinates: Gauss(med=-5, sigma=2, vmin=-1, vmax=0) returns no value between -1 and 0. *)
Theorem C81_limits_are_coordinates_refuted : forall cdf ppf N, quantile_of cdf ppf -> probability cdf -> cdf (-1) < cdf 0 -> forall v, In v (draw (Gauss cdf ppf (-5) 2 (Some (-1)) (Some 0)) N) -> -7 < v <= -5.
Proof.
  intros cdf ppf N Q P H v Hv. destruct (C81_gauss_values cdf ppf (-5) 2 (Some (-1)) (Some 0) N Q P ltac:(lra) H) as (_ & _ & A & B). assert (A1 := A _ _ eq_refl Hv). assert (B1 := B _ _ eq_refl Hv). lra.
Qed.

(** ** rGauss *)
Lemma weibull_probability : probability weibull_cdf.
Proof.
  assert (R : forall x, 0 < exp (- x ^ 2) <= 1). { intros x. split; [apply exp_pos|]. rewrite <- exp_0. destruct (Req_dec x 0) as [->|Hx]; [right; f_equal; ring|]. left. apply exp_increasing. assert (0 < x ^ 2) by (assert (0 <= x ^ 2) by apply pow2_ge_0; assert (x ^ 2 <> 0) by (apply pow_nonzero; exact Hx); lra). lra. }
  split; [intros x; unfold weibull_cdf; specialize (R x); destruct (Rle_dec 0 x); lra|]. intros x y H. unfold weibull_cdf. assert (Rx := R x). assert (Ry := R y). destruct (Rle_dec 0 x) as [Hx|Hx]; destruct (Rle_dec 0 y) as [Hy|Hy]; try lra.
  assert (E : exp (- y ^ 2) <= exp (- x ^ 2)). { destruct (Req_dec x y) as [->|N]; [lra|]. left. apply exp_increasing. nra. } lra.
Qed.
Lemma weibull_quantile : quantile_of weibull_cdf weibull_ppf.
Proof.
  intros p x Hp. unfold weibull_ppf, weibull_cdf. assert (Ln : ln (1 - p) < 0) by (rewrite <- ln_1; apply ln_increasing; lra). destruct (Rle_dec 0 x) as [Hx|Hx].
  - assert (E : exp (ln (1 - p)) = 1 - p) by (apply exp_ln; lra). split; intros H.
    + assert (S : - ln (1 - p) <= x ^ 2). { rewrite <- (pow2_sqrt (- ln (1 - p))) by lra. apply pow_incr. split; [apply sqrt_pos|exact H]. }
      assert (exp (- x ^ 2) <= exp (ln (1 - p))). { destruct (Req_dec (- x ^ 2) (ln (1 - p))) as [->|N]; [lra|]. left. apply exp_increasing. lra. } lra.
    + assert (S : - x ^ 2 <= ln (1 - p)). { apply Rnot_lt_le. intros C. apply exp_increasing in C. lra. }
      rewrite <- (sqrt_pow2 x) by exact Hx. apply sqrt_le_1_alt. lra.
  - assert (0 < sqrt (- ln (1 - p))) by (apply sqrt_lt_R0; lra). lra.
Qed.
Theorem C81_rgauss_counts : forall sigma vmin vmax N a b, low weibull_cdf vmin < high weibull_cdf vmax -> a <= b ->
  let sh := share weibull_cdf (low weibull_cdf vmin) (high weibull_cdf vmax) in
  Rabs (INR (number_in a b (draw (rGauss sigma vmin vmax) N)) - INR (S N) * (sh b - sh a)) <= 1.
Proof. intros sigma vmin vmax N a b L H sh. destruct (low_high weibull_cdf vmin vmax weibull_probability) as [L0 H1]. apply counts; try assumption; [apply weibull_quantile|apply weibull_probability]. Qed.
(** The width does not matter. *)
Theorem C81_rgauss_width_refuted : forall sigma sigma' vmin vmax N, draw (rGauss sigma vmin vmax) N = draw (rGauss sigma' vmin vmax) N.
Proof. reflexivity. Qed.

(** ** Cases: the hypotheses hold for the Cauchy distribution (the normal one has no closed form) *)
Definition cauchy (x : R) : R := 1 / 2 + atan x / PI.
Definition cauchy_ppf (p : R) : R := tan (PI * (p - 1 / 2)).
Lemma cauchy_probability : probability cauchy.
Proof.
  assert (P := PI_RGT_0). split.
  - intros x. unfold cauchy. assert (A := atan_bound x). assert (L : - (1 / 2) <= atan x / PI) by (apply (Rmult_le_reg_r PI); [exact P|]; unfold Rdiv; rewrite Rmult_assoc, Rinv_l by lra; lra). assert (U : atan x / PI <= 1 / 2) by (apply (Rmult_le_reg_r PI); [exact P|]; unfold Rdiv; rewrite Rmult_assoc, Rinv_l by lra; lra). lra.
  - intros x y H. unfold cauchy. apply Rplus_le_compat_l, Rmult_le_compat_r; [left; now apply Rinv_0_lt_compat|]. destruct (Req_dec x y) as [->|N]; [lra|]. left. apply atan_increasing. lra.
Qed.
Lemma cauchy_quantile : quantile_of cauchy cauchy_ppf.
Proof.
  intros p x Hp. assert (P := PI_RGT_0). set (t := PI * (p - 1 / 2)). assert (T : - PI / 2 < t < PI / 2) by (unfold t; nra). assert (E : atan (cauchy_ppf p) = t) by (unfold cauchy_ppf; fold t; apply atan_tan; lra).
  assert (I : p <= cauchy x <-> t <= atan x). { unfold cauchy, t. assert (F : atan x = PI * (atan x / PI)) by (field; lra). set (s := atan x / PI) in *. rewrite F. split; intros H; nra. }
  rewrite I, <- E. split; intros H.
  - destruct (Req_dec (cauchy_ppf p) x) as [->|N]; [lra|]. left. apply atan_increasing. lra.
  - apply Rnot_lt_le. intros C. apply atan_increasing in C. lra.
Qed.
Lemma cauchy_not_denser : not_denser cauchy.
Proof.
  intros a b H. assert (P := PI_RGT_0). assert (P3 : 2 < PI) by (assert (X := PI2_1); lra). assert (A : atan b - atan a <= b - a).
  { destruct (Req_dec a b) as [->|N]; [lra|]. destruct (MVT_cor2 atan (fun x => / (1 + x ^ 2)) a b ltac:(lra)) as (c & E & _). { intros c _. exact (derivable_pt_lim_atan c). }
    assert (S : / (1 + c ^ 2) <= 1). { rewrite <- Rinv_1 at 2. apply Rinv_le_contravar; [lra|]. assert (0 <= c ^ 2) by apply pow2_ge_0. lra. } rewrite E. nra. }
  assert (S : 0 < sqrt (2 * PI) <= PI). { split; [apply sqrt_lt_R0; lra|]. rewrite <- (sqrt_square PI) at 2 by lra. apply sqrt_le_1_alt. nra. }
  unfold cauchy. replace (1 / 2 + atan b / PI - (1 / 2 + atan a / PI)) with ((atan b - atan a) / PI) by (field; lra). apply Rle_trans with ((b - a) / PI); [apply Rmult_le_compat_r; [left; now apply Rinv_0_lt_compat|exact A]|]. apply Rmult_le_compat_l; [lra|]. apply Rinv_le_contravar; lra.
Qed.
Example C81_middle_layer_case : exists f, f0 (Gauss cauchy cauchy_ppf (-3) 1 None None) = Some f /\
  INR (number_in (-3 - 0.1 / 2) (-3 + 0.1 / 2) (draw (Gauss cauchy cauchy_ppf (-3) 1 None None) (Z.to_nat (py_round (200 / 0.1 / f))))) <= 202.
Proof.
  eexists. split; [reflexivity|]. set (f := 1 / sqrt (2 * PI) / 1). assert (K := C81_middle_layer cauchy cauchy_ppf (-3) 1 0.1 200 f cauchy_quantile cauchy_probability cauchy_not_denser ltac:(lra) ltac:(lra) ltac:(lra) eq_refl). eapply Rle_trans; [exact K|].
  assert (P3 : 2 < PI) by (assert (X := PI2_1); lra). assert (S : 1 <= sqrt (2 * PI)) by (rewrite <- sqrt_1; apply sqrt_le_1_alt; lra). assert (F : f <= 1). { unfold f, Rdiv. rewrite Rinv_1, Rmult_1_r, Rmult_1_l, <- Rinv_1. apply Rinv_le_contravar; lra. } lra.
Qed.
Example C81_limits_case : low cauchy (Some (-1)) < high cauchy (Some 0) /\ cauchy (-1) < cauchy 0.
Proof. assert (P := PI_RGT_0). assert (H : cauchy (-1) < cauchy 0) by (unfold cauchy; apply Rplus_lt_compat_l, Rmult_lt_compat_r; [now apply Rinv_0_lt_compat|apply atan_increasing; lra]). split; exact H. Qed.
Example C81_rgauss_case : low weibull_cdf (Some 0) < high weibull_cdf (Some 1).
Proof. cbn [low high]. unfold weibull_cdf. destruct (Rle_dec 0 0); [|lra]. destruct (Rle_dec 0 1); [|lra]. assert (exp (- 1 ^ 2) < exp (- 0 ^ 2)) by (apply exp_increasing; lra). lra. Qed.
