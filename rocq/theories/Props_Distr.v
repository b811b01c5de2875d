(** Theorems C83: the distributions of beam_profiles.py without a caller. *)
From Coq Require Import Reals ZArith List Bool Sorted Arith Lia Lra Psatz.
From Flocq Require Import Core.
From Verif Require Import Float_Model Beam2D_Model Beam2D_Free PyBeam_Model PyBeam_Spec Props_PyBeam2 Targets_Spec Distr_Model.
Import ListNotations.
Open Scope R_scope.

(** ** SmoothDistr with a step *)
Lemma whole_steps_near v step : 0 < step -> whole_steps v step <= v < whole_steps v step + step.
Proof.
  intros S. unfold whole_steps, floor_div. destruct (floorR_spec (v / step)) as [A B]. assert (E : v = v / step * step) by (field; lra). split; [rewrite E at 2; apply Rmult_le_compat_r; lra|]. rewrite E at 1. replace (IZR (floorR (v / step)) * step + step) with ((IZR (floorR (v / step)) + 1) * step) by ring. apply Rmult_lt_compat_r; assumption.
Qed.
(** The values grow, and lie between the limits, both rounded down to whole steps. *)
Theorem C83_smooth_values : forall cdf ppf vmin vmax xi_max step N, quantile_of cdf ppf -> probability cdf -> 0 < step ->
  let a := IZR (Zfloor (vmin / step)) * step in let b := IZR (Zfloor (vmax / step)) * step in cdf a < cdf b ->
  let l := smooth_xi cdf ppf vmin vmax xi_max step N in increasing_list l /\ forall v, In v l -> a < v <= b.
Proof.
  intros cdf ppf vmin vmax xi_max step N Q P S a b L l. assert (Fl : forall x, floorR x = Zfloor x) by (intros x; symmetry; apply Zfloor_imp; rewrite plus_IZR; apply floorR_spec).
  unfold l, smooth_xi, whole_steps, floor_div. rewrite !Fl. fold a b. set (n := Z.to_nat _). clearbody n. 
  assert (K := C81_gauss_values cdf ppf 0 1 (Some a) (Some b) n Q P ltac:(lra) L). cbv zeta in K. destruct K as (_ & K2 & K3 & K4). cbn [draw Gauss low high] in K2, K3, K4.
  rewrite (map_ext (fun q => 0 + 1 * ppf q) ppf) in K2, K3, K4 by (intros; ring). split; [exact K2|]. intros v Hv. specialize (K3 a v eq_refl Hv). specialize (K4 b v eq_refl Hv). lra.
Qed.
(** A layer, or any interval inside the limits, gets N times its probability over that of the layer around xi_max: at most
    one value less and two more. *)
Theorem C83_smooth_counts : forall cdf ppf vmin vmax xi_max step N a b, quantile_of cdf ppf -> probability cdf -> 0 < step -> 0 < N ->
  let v_min := IZR (Zfloor (vmin / step)) * step in let v_max := IZR (Zfloor (vmax / step)) * step in cdf v_min < cdf v_max ->
  let reference := cdf (xi_max + step / 2) - cdf (xi_max - step / 2) in 0 < reference -> v_min <= a <= b -> b <= v_max ->
  N * (cdf b - cdf a) / reference - 1 <= INR (number_in a b (smooth_xi cdf ppf vmin vmax xi_max step N)) <= N * (cdf b - cdf a) / reference + 2.
Proof.
  intros cdf ppf vmin vmax xi_max step N a b Q P S HN v_min v_max L reference Hr [A1 A2] B. assert (Fl : forall x, floorR x = Zfloor x) by (intros x; symmetry; apply Zfloor_imp; rewrite plus_IZR; apply floorR_spec).
  unfold smooth_xi, whole_steps, floor_div. rewrite (Fl (vmin / step)), (Fl (vmax / step)). fold v_min v_max reference. set (p1 := cdf v_min) in *. set (p2 := cdf v_max) in *. set (n := Z.to_nat _).
  assert (W : 0 < (p2 - p1) / (reference / N)) by (apply Rdiv_lt_0_compat; [lra|apply Rdiv_lt_0_compat; lra]).
  assert (Nn : INR n <= (p2 - p1) / (reference / N) < INR n + 1). { assert (Ra : Rabs (p2 - p1) = p2 - p1) by (apply Rabs_right; lra). unfold n. rewrite Ra, INR_IZR_INZ, Z2Nat.id by (apply floorR_nonneg; left; exact W). apply floorR_spec. }
  assert (C := counts cdf ppf p1 p2 n Q P (proj1 (proj1 P v_min)) L (proj2 (proj1 P v_max)) a b A2).
  assert (Ma : p1 <= cdf a) by (apply P; lra). assert (Mb : cdf b <= p2) by (apply P; lra). assert (Mab : cdf a <= cdf b) by (apply P; lra).
  assert (Sh : forall x, p1 <= cdf x <= p2 -> share cdf p1 p2 x = (cdf x - p1) / (p2 - p1)).
  { intros x Hx. unfold share. assert (A : 0 <= (cdf x - p1) / (p2 - p1)) by (apply Rmult_le_pos; [lra|left; apply Rinv_0_lt_compat; lra]). assert (B' : (cdf x - p1) / (p2 - p1) <= 1) by (apply (Rmult_le_reg_r (p2 - p1)); [lra|]; unfold Rdiv; rewrite Rmult_assoc, Rinv_l by lra; lra). rewrite Rmin_right, Rmax_right; lra. }
  rewrite !Sh in C by lra. apply Rabs_le_inv in C. set (c := INR (number_in _ _ _)) in *. clearbody c.
  set (d := (cdf b - p1) / (p2 - p1) - (cdf a - p1) / (p2 - p1)) in *. assert (D : d = (cdf b - cdf a) / (p2 - p1)) by (unfold d; field; lra).
  assert (D0 : 0 <= d) by (rewrite D; apply Rmult_le_pos; [lra|left; apply Rinv_0_lt_compat; lra]). assert (D1 : d <= 1) by (rewrite D; apply (Rmult_le_reg_r (p2 - p1)); [lra|]; unfold Rdiv; rewrite Rmult_assoc, Rinv_l by lra; lra).
  assert (E : N * (cdf b - cdf a) / reference = (p2 - p1) / (reference / N) * d) by (rewrite D; field; lra). rewrite E, S_INR in *. clearbody d. set (q := (p2 - p1) / (reference / N)) in *. clearbody q. nra.
Qed.
(** In particular the layer around xi_max gets N. *)
Theorem C83_smooth_reference : forall cdf ppf vmin vmax xi_max step N, quantile_of cdf ppf -> probability cdf -> 0 < step -> 0 < N ->
  let v_min := IZR (Zfloor (vmin / step)) * step in let v_max := IZR (Zfloor (vmax / step)) * step in cdf v_min < cdf v_max ->
  cdf (xi_max - step / 2) < cdf (xi_max + step / 2) -> v_min <= xi_max - step / 2 -> xi_max + step / 2 <= v_max ->
  N - 1 <= INR (number_in (xi_max - step / 2) (xi_max + step / 2) (smooth_xi cdf ppf vmin vmax xi_max step N)) <= N + 2.
Proof.
  intros cdf ppf vmin vmax xi_max step N Q P S HN v_min v_max L Hr A B. assert (K := C83_smooth_counts cdf ppf vmin vmax xi_max step N (xi_max - step / 2) (xi_max + step / 2) Q P S HN L). cbv zeta in K. specialize (K ltac:(lra) ltac:(unfold v_min in A; lra) B).
  replace (N * (cdf (xi_max + step / 2) - cdf (xi_max - step / 2)) / (cdf (xi_max + step / 2) - cdf (xi_max - step / 2))) with N in K by (field; lra). exact K.
Qed.

(** A distribution for the examples: uniform from -10 to 0. *)
Definition flat (x : R) : R := Rmax 0 (Rmin 1 ((x + 10) / 10)).
Definition flat_ppf (p : R) : R := 10 * p - 10.
Lemma flat_probability : probability flat.
Proof. split; [intros x; unfold flat; split; [apply Rmax_l|apply Rmax_lub; [lra|apply Rmin_l]]|]. intros x y H. unfold flat. apply Rle_max_compat_l, Rle_min_compat_l. lra. Qed.
Lemma flat_quantile : quantile_of flat flat_ppf.
Proof. intros p x Hp. unfold flat, flat_ppf. split; intros H; [eapply Rle_trans; [|apply Rmax_r]; apply Rmin_glb; lra|]. unfold Rmax in H. destruct (Rle_dec 0 (Rmin 1 ((x + 10) / 10))); [|lra]. assert (M := Rmin_r 1 ((x + 10) / 10)). lra. Qed.
Lemma flat_in x : -10 <= x <= 0 -> flat x = (x + 10) / 10.
Proof. intros H. unfold flat. rewrite Rmin_right, Rmax_right; lra. Qed.
(** The lower limit is rounded down to a whole step: values below it are returned. *)
Theorem C83_smooth_lower_limit_refuted : exists cdf ppf vmin vmax xi_max step N v, quantile_of cdf ppf /\ probability cdf /\ 0 < step /\ 0 < N /\ vmin < xi_max < vmax /\
  In v (smooth_xi cdf ppf vmin vmax xi_max step N) /\ v < vmin.
Proof.
  assert (F0 : Zfloor (0 / 1) = 0%Z) by (apply Zfloor_imp; cbn; lra). assert (F1 : Zfloor (- (5 / 2) / 1) = (-3)%Z) by (apply Zfloor_imp; cbn; lra).
  assert (K := C83_smooth_counts flat flat_ppf (- (5 / 2)) 0 (- (3 / 2)) 1 10 (-3) (- (26 / 10)) flat_quantile flat_probability ltac:(lra) ltac:(lra)). cbv zeta in K. rewrite F0, F1 in K.
  assert (V : forall x, -10 <= x <= 0 -> flat x = (x + 10) / 10) by exact flat_in. rewrite (V (IZR (-3) * 1)) in K by (cbn; lra). rewrite (V (0 * 1)) in K by lra. rewrite (V (- (3 / 2) + 1 / 2)) in K by lra. rewrite (V (- (3 / 2) - 1 / 2)) in K by lra. rewrite (V (-3)) in K by lra. rewrite (V (- (26 / 10))) in K by lra.
  specialize (K ltac:(cbn; lra) ltac:(lra) ltac:(cbn; lra) ltac:(lra)). destruct K as [K _].
  match type of K with ?e - 1 <= _ => replace e with 4 in K by field end.
  set (l := smooth_xi flat flat_ppf (- (5 / 2)) 0 (- (3 / 2)) 1 10) in *. assert (Pos : (number_in (-3) (- (26 / 10)) l <> 0)%nat) by (intros Z; rewrite Z in K; cbn in K; lra).
  unfold number_in in Pos. destruct (filter _ l) as [|v t] eqn:Ef; [now elim Pos|]. assert (I : In v (filter (fun v => if Rlt_dec (-3) v then (if Rle_dec v (- (26 / 10)) then true else false) else false) l)) by (rewrite Ef; now left). apply filter_In in I. destruct I as [I1 I2]. destruct (Rlt_dec (-3) v); [|discriminate]. destruct (Rle_dec v (- (26 / 10))) as [Hv|]; [|discriminate].
  exists flat, flat_ppf, (- (5 / 2)), 0, (- (3 / 2)), 1, 10, v. split; [exact flat_quantile|]. split; [exact flat_probability|]. split; [lra|]. split; [lra|]. split; [lra|]. split; [exact I1|lra].
Qed.
(** A layer of a run with 10 values asked for in a layer of the uniform distribution. *)
Example C83_smooth_case : 9 <= INR (number_in (-2) (-1) (smooth_xi flat flat_ppf (-7) 0 (- (3 / 2)) 1 10)) <= 12.
Proof.
  assert (F0 : Zfloor (0 / 1) = 0%Z) by (apply Zfloor_imp; cbn; lra). assert (F1 : Zfloor (-7 / 1) = (-7)%Z) by (apply Zfloor_imp; cbn; lra).
  assert (K := C83_smooth_reference flat flat_ppf (-7) 0 (- (3 / 2)) 1 10 flat_quantile flat_probability ltac:(lra) ltac:(lra)). cbv zeta in K. rewrite F0, F1 in K. replace (- (3 / 2) - 1 / 2) with (-2) in K by field. replace (- (3 / 2) + 1 / 2) with (-1) in K by field.
  rewrite (flat_in (-7 * 1)), (flat_in (0 * 1)), (flat_in (-2)), (flat_in (-1)) in K by lra. specialize (K ltac:(lra) ltac:(lra) ltac:(lra) ltac:(lra)). lra.
Qed.

(** ** RejectSamplDistr *)
Lemma combine_uniform a b c d u w n : combine (uniform a b u n) (uniform c d w n) = map (fun i => (a + (b - a) * u i, c + (d - c) * w i)) (seq 0 n).
Proof. unfold uniform. generalize (seq 0 n). intros l. induction l as [|i l IH]; cbn; [reflexivity|]. now rewrite IH. Qed.
Lemma picked_filter {X} (Pp : X -> Prop) (f : X -> bool) l : (forall x, f x = true <-> Pp x) -> picked Pp l (filter f l).
Proof. intros H. induction l as [|x l IH]; cbn; [constructor|]. destruct (f x) eqn:E; [constructor; [now apply H|exact IH]|]. constructor; [|exact IH]. intros C. apply H in C. congruence. Qed.
Lemma generate_picked pdf xmax vmin vmax u w n : exists acc, picked (fun i => pdf xmax * w i <= pdf (vmin + (vmax - vmin) * u i)) (seq 0 n) acc /\ generate pdf xmax vmin vmax u w n = map (fun i => vmin + (vmax - vmin) * u i) acc.
Proof.
  unfold generate. cbv zeta. rewrite combine_uniform. rewrite filter_map_comm, map_map. cbn [fst snd].
  exists (filter (fun i => if Rle_dec (0 + (pdf xmax - 0) * w i) (pdf (vmin + (vmax - vmin) * u i)) then true else false) (seq 0 n)). split; [|reflexivity].
  apply picked_filter. intros i. destruct (Rle_dec _ _) as [L|L]; split; intros H; try reflexivity; try discriminate; lra.
Qed.
(** The values are the first draws, in their order, that fall below the density, at most N of them, and all of them lie
    between the limits; twice as many are drawn as the trial lets one expect to need; the distribution cannot be used when none of the 10000 trial draws did. *)
Theorem C83_rejection : forall pdf xmax vmin vmax u0 w0 u w N, vmin <= vmax -> (forall i, 0 <= u i <= 1) ->
  match reject_sample pdf xmax vmin vmax u0 w0 u w N with
  | Some l => exists trial acc, picked (fun i => pdf xmax * w0 i <= pdf (vmin + (vmax - vmin) * u0 i)) (seq 0 (Z.to_nat 10000)) trial /\ trial <> [] /\
      let draws := (2 * Z.to_nat (Ztrunc (N / (INR (length trial) / 10000))))%nat in picked (fun i => pdf xmax * w i <= pdf (vmin + (vmax - vmin) * u i)) (seq 0 draws) acc /\
      l = map (fun i => vmin + (vmax - vmin) * u i) (firstn (Z.to_nat (Ztrunc N)) acc) /\ length l = Nat.min (Z.to_nat (Ztrunc N)) (length acc) /\ (forall v, In v l -> vmin <= v <= vmax)
  | None => forall i, (i < Z.to_nat 10000)%nat -> pdf (vmin + (vmax - vmin) * u0 i) < pdf xmax * w0 i
  end.
Proof.
  intros pdf xmax vmin vmax u0 w0 u w N Hv Hu. unfold reject_sample. cbv zeta. destruct (Req_EM_T _ 0) as [Z|Nz].
  - assert (N0 : 0 < INR (Z.to_nat 10000)) by (rewrite INR_IZR_INZ, Z2Nat.id by lia; lra). destruct (generate_picked pdf xmax vmin vmax u0 w0 (Z.to_nat 10000)) as (acc & Pa & Ga). rewrite Ga, map_length in Z.
    assert (A : acc = []). { destruct acc as [|x t]; [reflexivity|]. exfalso. assert (0 < INR (length (x :: t))) by (apply lt_0_INR; cbn; lia). assert (0 < INR (length (x :: t)) / INR (Z.to_nat 10000)) by (apply Rdiv_lt_0_compat; assumption). lra. }
    subst acc. clear Z N0 Ga. intros i Hi. assert (I : In i (seq 0 (Z.to_nat 10000))) by (apply in_seq; lia). clear Hi. revert I. generalize dependent (seq 0 (Z.to_nat 10000)). intros s Ps. remember (@nil nat) as e eqn:Ee. induction Ps as [|x l m Hx _ IH|x l m Hx _ IH]; [intros []|discriminate|]. intros [<-|I]; [lra|now apply IH].
  - destruct (generate_picked pdf xmax vmin vmax u w (2 * Z.to_nat (py_int (N / (INR (length (generate pdf xmax vmin vmax u0 w0 (Z.to_nat 10000))) / INR (Z.to_nat 10000)))))) as (acc & Pa & Ga). rewrite Ga. destruct (generate_picked pdf xmax vmin vmax u0 w0 (Z.to_nat 10000)) as (trial & Pt & Gt). rewrite Gt, map_length in Pa, Nz. assert (I0 : INR (Z.to_nat 10000) = 10000) by (rewrite INR_IZR_INZ, Z2Nat.id by lia; reflexivity). rewrite I0 in Pa, Nz. exists trial, acc. split; [exact Pt|]. split; [intros ->; apply Nz; cbn [length INR]; lra|]. cbv zeta. split; [exact Pa|]. unfold py_int. rewrite firstn_map. split; [reflexivity|]. split; [now rewrite map_length, firstn_length|].
    intros v I. apply in_map_iff in I. destruct I as (i & <- & _). specialize (Hu i). nra.
Qed.
(** Of K evenly spread levels a value x is accepted at K times its density over that at xmax, to within one: the accepted values follow the
    density, cut at its value at xmax. *)
Theorem C83_acceptance : forall pdf xmax x K, 0 < pdf xmax -> 0 <= pdf x ->
  Rabs (INR (length (generate pdf xmax x x (fun _ => 0) (fun j => (INR j + 1 / 2) / INR K) K)) - INR K * Rmin 1 (pdf x / pdf xmax)) <= 1.
Proof.
  intros pdf xmax x K H0 Hx. destruct (Nat.eq_dec K 0) as [->|HK]; [cbn; rewrite Rmult_0_l, Rminus_0_r, Rabs_R0; lra|]. assert (K0 : 0 < INR K) by (apply lt_0_INR; lia).
  unfold generate. cbv zeta. rewrite combine_uniform, filter_map_comm, !map_length. cbn [fst snd]. set (B := INR K * Rmin 1 (pdf x / pdf xmax)).
  assert (F : forall n, (n <= K)%nat -> INR (length (filter (fun i => if Rle_dec (0 + (pdf xmax - 0) * ((INR i + 1 / 2) / INR K)) (pdf (x + (x - x) * 0)) then true else false) (seq 0 n))) - 1 <= Rmin (INR n) B <= INR (length (filter (fun i => if Rle_dec (0 + (pdf xmax - 0) * ((INR i + 1 / 2) / INR K)) (pdf (x + (x - x) * 0)) then true else false) (seq 0 n))) + 1).
  { replace (x + (x - x) * 0) with x by ring.
    assert (Acc : forall i, (i < K)%nat -> 0 + (pdf xmax - 0) * ((INR i + 1 / 2) / INR K) <= pdf x <-> INR i + 1 / 2 <= B).
    { intros i Hi. assert (I1 : INR i + 1 <= INR K) by (rewrite <- S_INR; apply le_INR; lia). assert (E : 0 + (pdf xmax - 0) * ((INR i + 1 / 2) / INR K) = pdf xmax / INR K * (INR i + 1 / 2)) by (field; lra). rewrite E. clear E. assert (E : pdf x = pdf xmax / INR K * (INR K * (pdf x / pdf xmax))) by (field; lra). rewrite E at 1. assert (C0 : 0 < pdf xmax / INR K) by (now apply Rdiv_lt_0_compat).
      unfold B. split; intros H; [apply Rmult_le_reg_l in H; [|exact C0]; unfold Rmin; destruct (Rle_dec 1 (pdf x / pdf xmax)); lra|]. apply Rmult_le_compat_l; [lra|]. eapply Rle_trans; [exact H|]. apply Rmult_le_compat_l; [lra|apply Rmin_r]. }
    assert (B0 : 0 <= B) by (apply Rmult_le_pos; [lra|]; apply Rmin_glb; [lra|]; apply Rmult_le_pos; [exact Hx|left; now apply Rinv_0_lt_compat]).
    assert (Ex : forall n, (n <= K)%nat -> exists c, length (filter (fun i => if Rle_dec (0 + (pdf xmax - 0) * ((INR i + 1 / 2) / INR K)) (pdf x) then true else false) (seq 0 n)) = c /\ (c = n \/ ((c < n)%nat /\ B < INR c + 1 / 2)) /\ (INR c <= B + 1 / 2)).
    { induction n as [|n IH]; intros Hn; [exists 0%nat; cbn; split; [reflexivity|]; split; [now left|lra]|]. destruct (IH ltac:(lia)) as (c & Ec & Hc & Hb). rewrite seq_last, filter_app, app_length, Ec. cbn [filter]. destruct (Rle_dec _ (pdf x)) as [L|L].
      - apply Acc in L; [|lia]. destruct Hc as [->|[Lt Bc]]; [|exfalso; assert (INR c + 1 <= INR n) by (rewrite <- S_INR; apply le_INR; lia); lra]. exists (S n). cbn [length]. split; [lia|]. split; [now left|]. rewrite S_INR. lra.
      - assert (L' : B < INR n + 1 / 2) by (apply Rnot_le_lt; intros C; apply L, Acc; [lia|exact C]). exists c. cbn [length]. split; [lia|]. split; [|exact Hb]. right. destruct Hc as [->|[Lt Bc]]; [split; [lia|exact L']|split; [lia|exact Bc]]. }
    intros n Hn. destruct (Ex n Hn) as (c & Ec & Hc & Hb). rewrite Ec. destruct Hc as [->|[Lt Bc]]; [assert (N0 := pos_INR n); unfold Rmin; destruct (Rle_dec (INR n) B); lra|]. assert (INR c + 1 <= INR n) by (rewrite <- S_INR; apply le_INR; lia). unfold Rmin; destruct (Rle_dec (INR n) B); lra. }
  specialize (F K (le_n K)). assert (Bm : B <= INR K) by (unfold B; rewrite <- (Rmult_1_r (INR K)) at 2; apply Rmult_le_compat_l; [lra|apply Rmin_l]). rewrite (Rmin_right (INR K) B) in F by exact Bm. apply Rabs_le. lra.
Qed.
(** Fewer than N values may be returned: the number of draws is twice the expected one, no more. *)
Theorem C83_number_refuted : exists pdf xmax vmin vmax u0 w0 u w N l, vmin < vmax /\ (forall i, 0 <= u0 i <= 1 /\ 0 <= w0 i <= 1 /\ 0 <= u i <= 1 /\ 0 <= w i <= 1) /\ (forall x, vmin <= x <= vmax -> 0 <= pdf x <= pdf xmax) /\
  reject_sample pdf xmax vmin vmax u0 w0 u w N = Some l /\ INR (length l) < N.
Proof.
  pose (u := fun _ : nat => 0). pose (w := fun _ : nat => 1 / 2). assert (K := C83_rejection (fun x => x) 1 0 1 u u u w 5 ltac:(lra) ltac:(intros i; unfold u; lra)).
  destruct (reject_sample (fun x => x) 1 0 1 u u u w 5) as [l|] eqn:E.
  - destruct K as (tr & acc & _ & _ & Pa & _ & Le & _). exists (fun x => x), 1, 0, 1, u, u, u, w, 5, l. split; [lra|]. split; [intros i; unfold u, w; lra|]. split; [intros x Hx; lra|]. split; [exact E|].
    assert (A : acc = []). { clear - Pa. revert Pa. match goal with |- picked _ (seq 0 ?d) _ -> _ => generalize (seq 0 d) end. intros s Ps. induction Ps as [|x l m Hx _ IH|x l m Hx _ IH]; [reflexivity|unfold u, w in Hx; lra|exact IH]. } subst acc. rewrite Le, Nat.min_0_r. cbn. lra.
  - exfalso. specialize (K 0%nat ltac:(lia)). unfold u in K. lra.
Qed.
(** Of 4 levels the value 1/2 of the density x is accepted at about two. *)
Example C83_acceptance_case : 1 <= INR (length (generate (fun x => x) 1 (1 / 2) (1 / 2) (fun _ => 0) (fun j => (INR j + 1 / 2) / INR 4) 4)) <= 3.
Proof. assert (K := C83_acceptance (fun x => x) 1 (1 / 2) 4 ltac:(lra) ltac:(lra)). cbv beta in K. apply Rabs_le_inv in K. rewrite (Rmin_right 1) in K by lra. replace (INR 4 * (1 / 2 / 1)) with 2 in K by (cbn; lra). lra. Qed.
(** Every draw on the level 0 is accepted: two values of the density x. *)
Example C83_rejection_case : exists l, reject_sample (fun x => x) 1 0 1 (fun _ => 1) (fun _ => 0) (fun _ => 1) (fun _ => 0) 2 = Some l /\ length l = 2%nat.
Proof.
  assert (K := C83_rejection (fun x => x) 1 0 1 (fun _ => 1) (fun _ => 0) (fun _ => 1) (fun _ => 0) 2 ltac:(lra) ltac:(intros; lra)). destruct (reject_sample _ _ _ _ _ _ _ _ _) as [l|]; [|exfalso; specialize (K 0%nat ltac:(lia)); lra].
  destruct K as (tr & acc & Pt & Nt & Pa & _ & Le & _). exists l. split; [reflexivity|]. assert (All : forall s m, picked (fun _ : nat => 1 * 0 <= 0 + (1 - 0) * 1) s m -> m = s) by (intros s m Ps; induction Ps as [|x s m Hx _ IH|x s m Hx _ IH]; [reflexivity|now rewrite IH|exfalso; apply Hx; lra]).
  apply All in Pt. apply All in Pa. subst tr acc. rewrite Le, !seq_length. assert (I0 : INR (Z.to_nat 10000) = 10000) by (rewrite INR_IZR_INZ, Z2Nat.id by lia; reflexivity). rewrite I0. replace (2 / (10000 / 10000)) with (IZR 2) by field. rewrite Ztrunc_IZR. reflexivity.
Qed.
