(** Lemmas for C65: the 3D plasma layer commutes with the mirror x -> -x. *)
From Coq Require Import Reals ZArith List Bool Lra Lia FunctionalExtensionality.
From Verif Require Import Beam2D_Model Beam2D_Spec Plasma2D_Model Plasma2D_Ode Shape_Model Shape_Spec Shape_Proofs Plasma3D_Model Plasma3D_Spec Plasma3D_Move
  Plasma3D_Quiet Spectral Filter3D_Proofs Layer3D_Spec Layer3D_Proofs Gpu_Model Gpu_Spec Gpu_Run Mirror3D_Spec.
Import ListNotations.
Open Scope R_scope.

(** ** Sums backwards *)
Lemma sumN_mir n : forall f, sumN n f = sumN n (fun i => f (mir n i)).
Proof.
  induction n as [|n IH]; intros f; [reflexivity|]. rewrite (sumN_shift n (fun i => f (mir (S n) i))). cbn [sumN].
  rewrite (IH f). replace (f (mir (S n) 0)) with (f n) by (f_equal; unfold mir; lia). rewrite Rplus_comm. f_equal.
  apply sumN_ext. intros i Hi. f_equal. unfold mir. lia.
Qed.
Lemma sumZ_N n f : sumZ n f = sumN n (fun i => f (Z.of_nat i)).
Proof. induction n as [|n IH]; [reflexivity|]. cbn [sumZ sumN]. now rewrite IH. Qed.
Lemma sumN_opp n f : sumN n (fun i => - f i) = - sumN n f.
Proof. replace (- sumN n f) with (-1 * sumN n f) by ring. rewrite <- sumN_scal. apply sumN_ext. intros. ring. Qed.
Lemma mir_lt n i : (i < n)%nat -> (mir n i < n)%nat. Proof. unfold mir. lia. Qed.
Lemma mir_mir n i : (i < n)%nat -> mir n (mir n i) = i. Proof. unfold mir. lia. Qed.

(** ** Shape and interpolation *)
Lemma shape_mir n h x y a b : Nat.odd n = true -> shape (Z.of_nat n) h (- x) y a b = shape (Z.of_nat n) h x y (Z.of_nat n - 1 - a) b.
Proof.
  intros Ho. unfold shape. f_equal. rewrite <- spline_even. f_equal. apply Nat.odd_spec in Ho. destruct Ho as [m ->].
  replace (Z.of_nat (2 * m + 1) / 2)%Z with (Z.of_nat m).
  2:{ rewrite Nat2Z.inj_add, Nat2Z.inj_mul. change (Z.of_nat 2) with 2%Z. change (Z.of_nat 1) with 1%Z.
      rewrite Z.mul_comm, Z.div_add_l by lia. change (1 / 2)%Z with 0%Z. lia. }
  replace (IZR (Z.of_nat (2 * m + 1) - 1 - a - Z.of_nat m)) with (- IZR (a - Z.of_nat m)).
  2:{ rewrite <- opp_IZR. f_equal. lia. }
  unfold Rdiv. ring.
Qed.
Lemma interp_even n h F x y : Nat.odd n = true -> interpolate n h (even_x n F) (- x) y = interpolate n h F x y.
Proof.
  intros Ho. unfold interpolate, gsum. rewrite !sumZ_N. rewrite (sumN_mir n (fun i => sumZ n (fun b => F (Z.to_nat (Z.of_nat i)) (Z.to_nat b) * _))).
  apply sumN_ext. intros i Hi. rewrite !sumZ_N. apply sumN_ext. intros j Hj. unfold even_x. rewrite shape_mir, !Nat2Z.id by auto. do 2 f_equal. unfold mir. lia.
Qed.
Lemma interp_odd n h F x y : Nat.odd n = true -> interpolate n h (odd_x n F) (- x) y = - interpolate n h F x y.
Proof.
  intros Ho. rewrite <- (interp_even n h F x y Ho). unfold interpolate, gsum. rewrite !sumZ_N. rewrite <- sumN_opp. apply sumN_ext. intros i Hi.
  rewrite !sumZ_N, <- sumN_opp. apply sumN_ext. intros j Hj. unfold even_x, odd_x. ring.
Qed.

(** ** Motion *)
Definition flipv (v : v3) : v3 := let '(x, y, z) := v in (- x, y, z).
Definition axv (v : v3) : v3 := let '(x, y, z) := v in (x, - y, - z).
Lemma field_mir n h f x y : Nat.odd n = true ->
  field_at n h (mirror_fields n f) (- x) y = (flipv (fst (field_at n h f x y)), axv (snd (field_at n h f x y))).
Proof. intros Ho. unfold field_at, mirror_fields, flipv, axv. cbn. rewrite !interp_even, !interp_odd by auto. reflexivity. Qed.
Lemma mom_mir p : mom (mirror_pt p) = flipv (mom p). Proof. reflexivity. Qed.
Lemma speed_flip m p : speed m (flipv p) = flipv (speed m p).
Proof. destruct p as [[x y] z]. unfold speed, flipv, scale3. replace ((- x) ^ 2) with (x ^ 2) by ring. f_equal. f_equal. ring. Qed.
Lemma third_flip p : third (flipv p) = third p. Proof. destruct p as [[x y] z]. reflexivity. Qed.
Lemma rate_p_flip m q E B p : rate_p m q (flipv E) (axv B) (flipv p) = flipv (rate_p m q E B p).
Proof.
  unfold rate_p. rewrite speed_flip, third_flip. generalize (speed m p). intros [[x y] z]. destruct E as [[e1 e2] e3], B as [[b1 b2] b3].
  unfold flipv, axv, cross, add3, scale3. f_equal; [f_equal|]; ring.
Qed.
Lemma rate_x_flip m p : rate_x m (flipv p) = - rate_x m p.
Proof. unfold rate_x. rewrite speed_flip, third_flip. generalize (speed m p). intros [[x y] z]. unfold flipv. cbn [fst]. unfold Rdiv. ring. Qed.
Lemma rate_y_flip m p : rate_y m (flipv p) = rate_y m p.
Proof. unfold rate_y. rewrite speed_flip, third_flip. generalize (speed m p). intros [[x y] z]. reflexivity. Qed.
Lemma add_flip u v : add3 (flipv u) (flipv v) = flipv (add3 u v).
Proof. destruct u as [[? ?] ?], v as [[? ?] ?]. unfold add3, flipv. f_equal. f_equal. ring. Qed.
Lemma scale_flip c u : scale3 c (flipv u) = flipv (scale3 c u).
Proof. destruct u as [[? ?] ?]. unfold scale3, flipv. f_equal. f_equal. ring. Qed.
Lemma flip_zero : flipv (0, 0, 0) = (0, 0, 0). Proof. unfold flipv. now rewrite Ropp_0. Qed.
Lemma mirror_odd b x : 0 < b -> Rabs x <= 3 * b -> mirror b (- x) = - mirror b x.
Proof.
  intros Hb Hx. assert (- (3 * b) <= x <= 3 * b) by (revert Hx; unfold Rabs; destruct (Rcase_abs x); lra).
  unfold mirror. unfold Rmin, Rmax. repeat destruct (Rle_dec _ _); lra.
Qed.
Lemma beyond_flip b x y : beyond b (- x) y <-> beyond b x y.
Proof. unfold beyond. rewrite Rabs_Ropp. tauto. Qed.
Lemma same_mir p q : same_particle p q -> same_particle (mirror_pt p) (mirror_pt q).
Proof. intros (A & B & C). unfold same_particle, mirror_pt. cbn. rewrite A, B, C. auto. Qed.
Lemma coasted_mir X p g : coasted X p g -> coasted X (mirror_pt p) (mirror_pt g).
Proof.
  intros (A & B & C & D & E & F & G). unfold coasted. rewrite !mom_mir, rate_x_flip, rate_y_flip, C. unfold mirror_pt. cbn. rewrite A, B, E, F, G.
  repeat split; try ring; try (destruct D as (D1 & D2 & D3); cbn; congruence).
Qed.
Lemma at_x_mir p : at_x (mirror_pt p) = - at_x p. Proof. unfold at_x, mirror_pt. cbn. ring. Qed.
Lemma pushed_mir s f prev g new : Nat.odd (u_n s) = true -> 0 < u_b s ->
  (t_q g <> 0 -> Rabs (t_x0 prev + (t_dx prev + t_dx g) / 2) <= 3 * u_b s) -> near1 s f prev g ->
  Layer3D_Spec.pushed (u_n s) (u_h s) (u_b s) (u_xi s) f prev g new ->
  Layer3D_Spec.pushed (u_n s) (u_h s) (u_b s) (u_xi s) (mirror_fields (u_n s) f) (mirror_pt prev) (mirror_pt g) (mirror_pt new).
Proof.
  intros Ho Hb Hm Hn (P1 & P2 & P3 & P4 & P5). split; [now apply same_mir|]. split; [cbn; now rewrite P2|]. split; [exact P3|]. split; [intros Q; now rewrite (P4 Q)|].
  intros Q. change (t_q g <> 0) in Q. specialize (P5 Q). specialize (Hm Q). unfold near1, arrives_at in Hn. specialize (Hn Q). cbn zeta in *.
  set (mx := t_x0 prev + (t_dx prev + t_dx g) / 2) in *. set (my := t_y0 prev + (t_dy prev + t_dy g) / 2) in *.
  replace (t_x0 (mirror_pt prev) + (t_dx (mirror_pt prev) + t_dx (mirror_pt g)) / 2) with (- mx) by (unfold mx; cbn; lra).
  change (t_y0 (mirror_pt prev) + (t_dy (mirror_pt prev) + t_dy (mirror_pt g)) / 2) with my.
  rewrite mirror_odd, field_mir by auto.
  destruct (field_at (u_n s) (u_h s) f (mirror (u_b s) mx) (mirror (u_b s) my)) as [E B]. cbn [fst snd].
  change (t_m (mirror_pt g)) with (t_m g). change (t_q (mirror_pt g)) with (t_q g).
  destruct P5 as (p0 & Z1 & Z2 & P5). exists (flipv p0).
  split. { intros H. rewrite Z1, flip_zero; [reflexivity|]. now apply beyond_flip. }
  split. { intros H. rewrite Z2; [reflexivity|]. now rewrite <- (beyond_flip (u_b s) mx my). }
  specialize (Hn (at_x prev + u_xi s * rate_x (t_m g) (add3 (mom prev) (scale3 (1 / 2) (scale3 (u_xi s) (rate_p (t_m g) (t_q g) E B
    (add3 (mom prev) (scale3 (u_xi s / 2) (rate_p (t_m g) (t_q g) E B p0))))))))).
  specialize (Hn (ex_intro _ p0 (conj Z1 (conj Z2 eq_refl)))). cbn zeta in P5 |- *.
  rewrite !mom_mir, rate_p_flip, scale_flip, add_flip, rate_p_flip, !scale_flip, !add_flip, rate_x_flip, rate_y_flip.
  set (d := scale3 (u_xi s) (rate_p (t_m g) (t_q g) E B _)) in *.
  rewrite at_x_mir. change (at_y (mirror_pt prev)) with (at_y prev).
  replace (- at_x prev + u_xi s * - rate_x (t_m g) (add3 (mom prev) (scale3 (1 / 2) d))) with (- (at_x prev + u_xi s * rate_x (t_m g) (add3 (mom prev) (scale3 (1 / 2) d)))) by ring.
  set (x := at_x prev + u_xi s * rate_x (t_m g) (add3 (mom prev) (scale3 (1 / 2) d))) in *.
  set (y := at_y prev + u_xi s * rate_y (t_m g) (add3 (mom prev) (scale3 (1 / 2) d))) in *.
  rewrite mirror_odd, Rabs_Ropp by auto. destruct P5 as [A N]. split.
  - intros W. destruct (A W) as (A1 & A2 & A3 & A4 & A5). split; [cbn; rewrite <- A1; ring|]. split; [exact A2|]. split; [exact A3|]. split.
    + intros H. rewrite ?mom_mir, A4; [apply flip_zero|now apply beyond_flip].
    + intros H. rewrite ?mom_mir, A5; [reflexivity|]. now rewrite <- (beyond_flip (u_b s) x y).
  - intros W. destruct (N W) as (N1 & N2 & N3 & N4 & N5 & N6). unfold absorbed. cbn. rewrite N1, N2, N3, N4, N5, N6, Ropp_0. repeat split.
Qed.

(** ** Arrays on the nodes *)
Definition evn (n : nat) (a a' : arr2) : Prop := forall i j, (i < n)%nat -> a' i j = a (mir n i) j.
Definition odn (n : nat) (a a' : arr2) : Prop := forall i j, (i < n)%nat -> a' i j = - a (mir n i) j.
Lemma evn_x n a : evn n a (even_x n a). Proof. intros i j Hi. reflexivity. Qed.
Lemma odn_x n a : odn n a (odd_x n a). Proof. intros i j Hi. reflexivity. Qed.
Lemma Zmir n i : (i < n)%nat -> (Z.of_nat n - 1 - Z.of_nat i)%Z = Z.of_nat (mir n i). Proof. unfold mir. lia. Qed.
Lemma tot_ro n c : evn n (total3 c_ro c) (total3 c_ro (mirror_cur n c)).
Proof. intros i j Hi. unfold total3, mirror_cur, mirror_dens, even_g. cbn. now rewrite Zmir. Qed.
Lemma tot_jy n c : evn n (total3 c_jy c) (total3 c_jy (mirror_cur n c)).
Proof. intros i j Hi. unfold total3, mirror_cur, mirror_dens, even_g. cbn. now rewrite Zmir. Qed.
Lemma tot_jz n c : evn n (total3 c_jz c) (total3 c_jz (mirror_cur n c)).
Proof. intros i j Hi. unfold total3, mirror_cur, mirror_dens, even_g. cbn. now rewrite Zmir. Qed.
Lemma tot_jx n c : odn n (total3 c_jx c) (total3 c_jx (mirror_cur n c)).
Proof. intros i j Hi. unfold total3, mirror_cur, mirror_dens, odd_g. cbn. rewrite Zmir by auto. ring. Qed.

(** ** Density and currents *)
Lemma energy_mir p : energy3 (mirror_pt p) = energy3 p.
Proof. unfold energy3, mirror_pt. cbn. f_equal. ring. Qed.
Lemma rho_mir p : rho_of (mirror_pt p) = rho_of p. Proof. unfold rho_of. rewrite energy_mir. reflexivity. Qed.
Lemma vx_mir p : vx_of (mirror_pt p) = - vx_of p. Proof. unfold vx_of. rewrite energy_mir. cbn. unfold Rdiv. ring. Qed.
Lemma vy_mir p : vy_of (mirror_pt p) = vy_of p. Proof. unfold vy_of. rewrite energy_mir. reflexivity. Qed.
Lemma vz_mir p : vz_of (mirror_pt p) = vz_of p. Proof. unfold vz_of. rewrite energy_mir. reflexivity. Qed.
Lemma spread_mir n K h f g a u v : Nat.odd n = true -> (u < n)%nat -> (forall p, f (mirror_pt p) = g p) ->
  spread n K h f (fun i j => mirror_pt (a (mir K i) j)) u v = spread n K h g a (mir n u) v.
Proof.
  intros Ho Hu E. unfold spread, array_sum. rewrite (sumN_mir K (fun i => sumN K (fun j => g (a i j) * _ / _))). apply sumN_ext. intros i Hi. apply sumN_ext. intros j Hj.
  rewrite E, at_x_mir, shape_mir, Zmir by auto. reflexivity.
Qed.
Lemma spread_mir_odd n K h f g a u v : Nat.odd n = true -> (u < n)%nat -> (forall p, f (mirror_pt p) = - g p) ->
  spread n K h f (fun i j => mirror_pt (a (mir K i) j)) u v = - spread n K h g a (mir n u) v.
Proof.
  intros Ho Hu E. rewrite (spread_mir n K h f (fun p => - g p) a u v Ho Hu E). unfold spread, array_sum. rewrite <- sumN_opp. apply sumN_ext. intros i Hi.
  rewrite <- sumN_opp. apply sumN_ext. intros j Hj. unfold Rdiv. ring.
Qed.
Lemma carried_mir s p c : Nat.odd (u_n s) = true -> carried_by s p c -> carried_by (mirror_solver s) (mirror_parts p) (mirror_cur (u_n s) c).
Proof.
  intros Ho (A1 & A2 & A3 & A4). unfold carried_by. cbv zeta. cbn [u_n u_h u_ions mirror_solver mirror_parts K_ el io].
  split; [|split; [|split]]; intros u v Hu Hv.
  - rewrite (tot_ro _ c u v Hu), A1 by auto using mir_lt. rewrite (spread_mir _ _ _ _ rho_of (el p) u v Ho Hu rho_mir).
    destruct (u_ions s); cbn [mirror_ions]; [|now rewrite (spread_mir _ _ _ _ rho_of (io p) u v Ho Hu rho_mir)].
    unfold even_g. now rewrite Zmir.
  - rewrite (tot_jx _ c u v Hu), A2 by auto using mir_lt.
    assert (E : forall q, rho_of (mirror_pt q) * vx_of (mirror_pt q) = - (rho_of q * vx_of q)) by (intros; rewrite rho_mir, vx_mir; ring).
    rewrite (spread_mir_odd _ _ _ _ _ (el p) u v Ho Hu E).
    destruct (u_ions s); cbn [mirror_ions]; [ring|]. rewrite (spread_mir_odd _ _ _ _ _ (io p) u v Ho Hu E). ring.
  - rewrite (tot_jy _ c u v Hu), A3 by auto using mir_lt.
    assert (E : forall q, rho_of (mirror_pt q) * vy_of (mirror_pt q) = rho_of q * vy_of q) by (intros; rewrite rho_mir, vy_mir; ring).
    rewrite (spread_mir _ _ _ _ _ (el p) u v Ho Hu E).
    destruct (u_ions s); cbn [mirror_ions]; [ring|]. rewrite (spread_mir _ _ _ _ _ (io p) u v Ho Hu E). ring.
  - rewrite (tot_jz _ c u v Hu), A4 by auto using mir_lt.
    assert (E : forall q, rho_of (mirror_pt q) * vz_of (mirror_pt q) = rho_of q * vz_of q) by (intros; rewrite rho_mir, vz_mir; ring).
    rewrite (spread_mir _ _ _ _ _ (el p) u v Ho Hu E).
    destruct (u_ions s); cbn [mirror_ions]; [ring|]. rewrite (spread_mir _ _ _ _ _ (io p) u v Ho Hu E). ring.
Qed.

(** ** Fields *)
Section Fields.
  Variables (L : nat) (h : R).
  Hypothesis HL : (2 <= L)%nat.
  Notation n := (L + 1)%nat.
  Notation lap := (minus_laplacian h L).
  Lemma mir_int i : interior L i -> interior L (mir n i). Proof. unfold interior, mir. lia. Qed.
  Lemma int_lt i : interior L i -> (i < n)%nat. Proof. unfold interior. lia. Qed.
  Lemma int_le i : interior L i -> (i <= L)%nat. Proof. unfold interior. lia. Qed.
  Lemma le_mir i : (i <= L)%nat -> (mir n i <= L)%nat. Proof. unfold mir. lia. Qed.
  Lemma mir_above i : (i <= L)%nat -> mir n (above L i) = below (mir n i).
  Proof. intros Hi. unfold above, below, mir. destruct (Nat.eqb_spec i L) as [->|H]; [replace (L + 1 - 1 - L)%nat with 0%nat by lia; lia|]. destruct (L + 1 - 1 - i)%nat eqn:E; lia. Qed.
  Lemma mir_below i : (i <= L)%nat -> mir n (below i) = above L (mir n i).
  Proof. intros Hi. unfold above, below, mir. destruct i as [|k]; destruct (Nat.eqb_spec (L + 1 - 1 - 0) L); try destruct (Nat.eqb_spec (L + 1 - 1 - S k) L); lia. Qed.
  Lemma above_le i : (i <= L)%nat -> (above L i < n)%nat. Proof. unfold above. destruct (Nat.eqb_spec i L); lia. Qed.
  Lemma below_le i : (i <= L)%nat -> (below i < n)%nat. Proof. unfold below. destruct i; lia. Qed.
  Lemma lap_evn a a' i j : evn n a a' -> (i <= L)%nat -> lap a' i j = lap a (mir n i) j.
  Proof.
    intros E Hi. unfold minus_laplacian, minus_d2.
    rewrite (E i), (E (above L i)), (E (below i)), (E i), (E i) by (auto using above_le, below_le; lia). rewrite mir_above, mir_below by auto. lra.
  Qed.
  Lemma lap_odn a a' i j : odn n a a' -> (i <= L)%nat -> lap a' i j = - lap a (mir n i) j.
  Proof.
    intros E Hi. unfold minus_laplacian, minus_d2.
    rewrite (E i), (E (above L i)), (E (below i)), (E i), (E i) by (auto using above_le, below_le; lia). rewrite mir_above, mir_below by auto. lra.
  Qed.
  Lemma mir_succ i : interior L i -> mir n (i + 1) = (mir n i - 1)%nat. Proof. unfold interior, mir. lia. Qed.
  Lemma mir_pred i : interior L i -> mir n (i - 1) = (mir n i + 1)%nat. Proof. unfold interior, mir. lia. Qed.
  Lemma cdx_evn a a' i j : evn n a a' -> interior L i -> cdx h a' i j = - cdx h a (mir n i) j.
  Proof. intros E Hi. unfold cdx. rewrite (E (i + 1)%nat), (E (i - 1)%nat) by (unfold interior in Hi; lia). rewrite mir_succ, mir_pred by auto. lra. Qed.
  Lemma cdx_odn a a' i j : odn n a a' -> interior L i -> cdx h a' i j = cdx h a (mir n i) j.
  Proof. intros E Hi. unfold cdx. rewrite (E (i + 1)%nat), (E (i - 1)%nat) by (unfold interior in Hi; lia). rewrite mir_succ, mir_pred by auto. lra. Qed.
  Lemma cdy_evn a a' i j : evn n a a' -> (i < n)%nat -> cdy h a' i j = cdy h a (mir n i) j.
  Proof. intros E Hi. unfold cdy. now rewrite !(E i) by auto. Qed.
  Lemma cdy_odn a a' i j : odn n a a' -> (i < n)%nat -> cdy h a' i j = - cdy h a (mir n i) j.
  Proof. intros E Hi. unfold cdy. rewrite !(E i) by auto. lra. Qed.
  Lemma inner_cases a i j : (interior L i /\ interior L j /\ inner_only L a i j = a i j) \/ (~ (interior L i /\ interior L j) /\ inner_only L a i j = 0).
  Proof.
    unfold inner_only, interior. destruct (Nat.leb_spec 1 i), (Nat.leb_spec i (L - 1)), (Nat.leb_spec 1 j), (Nat.leb_spec j (L - 1)); cbn [andb];
      ((left; repeat split; (lia || reflexivity)) || (right; split; [lia|reflexivity])).
  Qed.
  Lemma inner_evn a a' : (forall i j, interior L i -> interior L j -> a' i j = a (mir n i) j) -> evn n (inner_only L a) (inner_only L a').
  Proof.
    intros E i j Hi. destruct (inner_cases a' i j) as [(A & B & ->)|[A ->]], (inner_cases a (mir n i) j) as [(C & D & ->)|[C ->]]; auto.
    - exfalso. apply C. split; auto using mir_int.
    - exfalso. apply A. split; auto. rewrite <- (mir_mir n i Hi). now apply mir_int.
  Qed.
  Lemma inner_odn a a' : (forall i j, interior L i -> interior L j -> a' i j = - a (mir n i) j) -> odn n (inner_only L a) (inner_only L a').
  Proof.
    intros E i j Hi. destruct (inner_cases a' i j) as [(A & B & ->)|[A ->]], (inner_cases a (mir n i) j) as [(C & D & ->)|[C ->]]; try lra; auto.
    - exfalso. apply C. split; auto using mir_int.
    - exfalso. apply A. split; auto. rewrite <- (mir_mir n i Hi). now apply mir_int.
  Qed.
  Lemma curl_odn jx jx' jy jy' : odn n jx jx' -> evn n jy jy' -> odn n (curl_j h L jx jy) (curl_j h L jx' jy').
  Proof.
    intros A B. apply inner_odn. intros i j Hi Hj. rewrite (cdy_odn _ _ i j A), (cdx_evn _ _ i j B) by auto using int_lt. ring.
  Qed.
  Lemma weight_mir i : (i < n)%nat -> end_weight L (mir n i) = end_weight L i.
  Proof.
    intros Hi. unfold end_weight, mir. destruct (Nat.eqb_spec i 0), (Nat.eqb_spec i L), (Nat.eqb_spec (L + 1 - 1 - i) 0), (Nat.eqb_spec (L + 1 - 1 - i) L); cbn; (lia || reflexivity).
  Qed.
  Lemma mean_odn a a' : odn n a a' -> trapezoid_mean L a' = - trapezoid_mean L a.
  Proof.
    intros E. unfold trapezoid_mean. unfold Rdiv. rewrite Ropp_mult_distr_l. f_equal.
    rewrite (sumN_mir n (fun i => sumN n (fun j => end_weight L i * end_weight L j * a i j))), <- sumN_opp. apply sumN_ext. intros i Hi.
    rewrite <- sumN_opp. apply sumN_ext. intros j Hj. rewrite weight_mir, (E i j) by auto. ring.
  Qed.
  Lemma sum_odn a a' : odn n a a' -> array_sum n a' = - array_sum n a.
  Proof.
    intros E. unfold array_sum. rewrite (sumN_mir n (fun i => sumN n (fun j => a i j))), <- sumN_opp. apply sumN_ext. intros i Hi.
    rewrite <- sumN_opp. apply sumN_ext. intros j Hj. now apply E.
  Qed.
  Lemma zero_first_mir a a' : (evn n a a' \/ odn n a a') -> zero_first L a -> zero_first L a'.
  Proof.
    intros E Z b Hb. destruct (Z b Hb) as [Z1 Z2].
    destruct E as [E|E]; rewrite (E 0%nat b), (E L b) by lia; replace (mir n 0) with L by (unfold mir; lia); replace (mir n L) with 0%nat by (unfold mir; lia); lra.
  Qed.
  Lemma zero_second_mir a a' : (evn n a a' \/ odn n a a') -> zero_second L a -> zero_second L a'.
  Proof. intros E Z b Hb. destruct (Z (mir n b) (le_mir b Hb)) as [Z1 Z2]. destruct E as [E|E]; rewrite (E b 0%nat), (E b L) by lia; lra. Qed.
  Lemma zero_edge_mir a a' : (evn n a a' \/ odn n a a') -> zero_edge L a -> zero_edge L a'.
  Proof.
    intros E Z. assert (Z1 : zero_first L a) by (intros b Hb; apply Z; auto). assert (Z2 : zero_second L a) by (intros b Hb; split; apply (Z b Hb)).
    intros b Hb. destruct (zero_first_mir _ _ E Z1 b Hb), (zero_second_mir _ _ E Z2 b Hb). auto.
  Qed.
  Lemma fields_mir X coeff it fp rb rbp cp c full half :
    fields_of L h X coeff it fp rb rbp cp c full half ->
    fields_of L h X coeff (mirror_fields n it) (mirror_fields n fp) (even_x n rb) (even_x n rbp) (mirror_cur n cp) (mirror_cur n c) (mirror_fields n full) (mirror_fields n half).
  Proof.
    intros ((A1 & A2) & (B1 & B2) & (C1 & C2) & (D1 & D2) & (E1 & E2) & (F1 & F2) & (G1 & G2) & H1 & H2). unfold fields_of. cbv zeta in *.
    cbn [Ex Ey Ez Bx By Bz Phi mirror_fields].
    set (ro := fun i j => (total3 c_ro c i j + rb i j + total3 c_ro cp i j + rbp i j) / 2) in *.
    set (jz := fun i j => (total3 c_jz c i j + rb i j + total3 c_jz cp i j + rbp i j) / 2) in *.
    set (jx := fun i j => (total3 c_jx cp i j - total3 c_jx c i j) / X) in *.
    set (jy := fun i j => (total3 c_jy cp i j - total3 c_jy c i j) / X) in *.
    set (ro' := fun i j => (total3 c_ro (mirror_cur n c) i j + even_x n rb i j + total3 c_ro (mirror_cur n cp) i j + even_x n rbp i j) / 2).
    set (jz' := fun i j => (total3 c_jz (mirror_cur n c) i j + even_x n rb i j + total3 c_jz (mirror_cur n cp) i j + even_x n rbp i j) / 2).
    assert (Ero : evn n ro ro') by (intros i j Hi; unfold ro, ro'; rewrite (tot_ro n c), (tot_ro n cp) by auto; reflexivity).
    assert (Ejz : evn n jz jz') by (intros i j Hi; unfold jz, jz'; rewrite (tot_jz n c), (tot_jz n cp) by auto; reflexivity).
    assert (Ejx : forall i j, (i < n)%nat -> (total3 c_jx (mirror_cur n cp) i j - total3 c_jx (mirror_cur n c) i j) / X = - jx (mir n i) j)
      by (intros i j Hi; unfold jx; rewrite (tot_jx n c), (tot_jx n cp) by auto; unfold Rdiv; ring).
    assert (Ejy : forall i j, (i < n)%nat -> (total3 c_jy (mirror_cur n cp) i j - total3 c_jy (mirror_cur n c) i j) / X = jy (mir n i) j)
      by (intros i j Hi; unfold jy; rewrite (tot_jy n c), (tot_jy n cp) by auto; reflexivity).
    assert (LT : forall i, (i <= L)%nat -> (i < n)%nat) by (intros; lia).
    split; [|split; [|split; [|split; [|split; [|split; [|split; [|split]]]]]]].
    - split; [eapply zero_edge_mir; [left; apply evn_x|exact A1]|]. intros i j Hi Hj. rewrite (lap_evn _ _ i j (evn_x n (Ez full))) by now apply int_le.
      rewrite A2 by auto using mir_int. rewrite (cdx_odn _ _ i j (tot_jx n c)), (cdy_evn _ _ i j (tot_jy n c)) by auto using int_lt. reflexivity.
    - split; [eapply zero_edge_mir; [left; apply evn_x|exact B1]|]. intros i j Hi Hj. rewrite (lap_evn _ _ i j (evn_x n (Phi full))) by now apply int_le.
      rewrite B2 by auto using mir_int. rewrite (tot_ro n c), (tot_jz n c) by auto using int_lt. reflexivity.
    - split; [rewrite (sum_odn _ _ (odn_x n (Bz full))), C1; ring|]. intros i j Hi Hj. rewrite (lap_odn _ _ i j (odn_x n (Bz full))) by auto.
      rewrite C2 by auto using le_mir. assert (CU := curl_odn _ _ _ _ (tot_jx n c) (tot_jy n c)). rewrite (mean_odn _ _ CU), (CU i j) by auto. ring.
    - split; [eapply zero_second_mir; [right; apply odn_x|exact D1]|]. intros i j Hi Hj. unfold screened in *. rewrite (lap_odn _ _ i j (odn_x n (Ex half))) by auto.
      rewrite Ejx by auto. rewrite (inner_odn (cdx h ro) (cdx h ro')) by (auto; intros; now apply cdx_evn).
      unfold odd_x, jx. specialize (D2 (mir n i) j (le_mir i Hi) Hj).
      lra.
    - split; [eapply zero_first_mir; [left; apply evn_x|exact E1]|]. intros i j Hi Hj. unfold screened in *. rewrite (lap_evn _ _ i j (evn_x n (Ey half))) by auto using int_le.
      rewrite Ejy by auto using int_lt. rewrite (inner_evn (cdy h ro) (cdy h ro')) by (auto using int_lt; intros; apply cdy_evn; auto using int_lt).
      unfold even_x. exact (E2 (mir n i) j (mir_int i Hi) Hj).
    - split; [eapply zero_first_mir; [left; apply evn_x|exact F1]|]. intros i j Hi Hj. unfold screened in *. rewrite (lap_evn _ _ i j (evn_x n (Bx half))) by auto using int_le.
      rewrite Ejy by auto using int_lt. rewrite (inner_evn (cdy h jz) (cdy h jz')) by (auto using int_lt; intros; apply cdy_evn; auto using int_lt).
      unfold even_x. exact (F2 (mir n i) j (mir_int i Hi) Hj).
    - split; [eapply zero_second_mir; [right; apply odn_x|exact G1]|]. intros i j Hi Hj. unfold screened in *. rewrite (lap_odn _ _ i j (odn_x n (By half))) by auto.
      rewrite Ejx by auto. rewrite (inner_odn (cdx h jz) (cdx h jz')) by (auto; intros; now apply cdx_evn).
      unfold odd_x, jx. specialize (G2 (mir n i) j (le_mir i Hi) Hj). lra.
    - intros F HF i j Hi Hj. cbn [In] in HF.
      destruct HF as [<-|[<-|[<-|[<-|[<-|[<-|[]]]]]]]; cbn [Ex Ey Ez Bx By Bz mirror_fields]; unfold even_x, odd_x; rewrite H1 by (cbn; auto 10 using le_mir); lra.
    - intros i j Hi Hj. unfold even_x. apply H2; auto using le_mir.
  Qed.
End Fields.

(** ** Noise filter *)
Section Filter.
  Variable K : nat.
  Hypothesis HK : (3 <= K)%nat.
  Lemma bend_opp d j : bend K (fun k => - d k) j = - bend K d j.
  Proof.
    unfold bend. set (c := Nat.max 1 (Nat.min j (K - 2))).
    destruct (Req_EM_T (- d (c - 1)%nat * - d c * - d (c + 1)%nat) 0) as [A|A], (Req_EM_T (d (c - 1)%nat * d c * d (c + 1)%nat) 0) as [B|B]; try lra.
  Qed.
  Lemma bend_mir d d' j : (forall k, (k < K)%nat -> d' k = d (mir K k)) -> (j < K)%nat -> bend K d' j = bend K d (mir K j).
  Proof.
    intros E Hj. unfold bend. set (c := Nat.max 1 (Nat.min j (K - 2))). set (c' := Nat.max 1 (Nat.min (mir K j) (K - 2))).
    assert (Hc : c' = mir K c) by (unfold c, c', mir; lia). assert (1 <= c <= K - 2)%nat by (unfold c; lia).
    rewrite !E by lia. replace (mir K (c - 1)) with (c' + 1)%nat by (rewrite Hc; unfold mir; lia).
    replace (mir K (c + 1)) with (c' - 1)%nat by (rewrite Hc; unfold mir; lia). rewrite <- Hc.
    replace (mir K j =? c')%nat with (j =? c)%nat.
    2:{ rewrite Hc. unfold mir. destruct (Nat.eqb_spec j c), (Nat.eqb_spec (K - 1 - j) (K - 1 - c)); (reflexivity || lia). }
    replace (d (c' + 1)%nat * d c' * d (c' - 1)%nat) with (d (c' - 1)%nat * d c' * d (c' + 1)%nat) by ring.
    destruct (Req_EM_T _ _); [reflexivity|]. f_equal. lra.
  Qed.
  Lemma bend_ext d d' j : (forall k, (k < K)%nat -> d' k = d k) -> (j < K)%nat -> bend K d' j = bend K d j.
  Proof.
    intros E Hj. unfold bend. assert (1 <= Nat.max 1 (Nat.min j (K - 2)) <= K - 2)%nat by lia. now rewrite !E by lia.
  Qed.
  Lemma rough_mir_odd a a' : each K (fun i j => a' i j = - a (mir K i) j) -> each K (fun i j => roughness K a' i j = - roughness K a (mir K i) j).
  Proof.
    intros E i j Hi Hj. unfold roughness. rewrite (bend_ext (fun k => - a (mir K i) k) (fun k => a' i k)) by (auto; intros; now apply E). rewrite bend_opp.
    rewrite (bend_mir (fun k => - a k j) (fun k => a' k j)) by (auto; intros; now apply E). rewrite (bend_opp (fun k => a k j)).
      change (bend K (fun k : nat => a (mir K i) k) j) with (bend K (a (mir K i)) j). lra.
  Qed.
  Lemma rough_mir_even a a' : each K (fun i j => a' i j = a (mir K i) j) -> each K (fun i j => roughness K a' i j = roughness K a (mir K i) j).
  Proof.
    intros E i j Hi Hj. unfold roughness. rewrite (bend_ext (fun k => a (mir K i) k) (fun k => a' i k)) by (auto; intros; now apply E).
    rewrite (bend_mir (fun k => a k j) (fun k => a' k j)) by (auto; intros; now apply E). reflexivity.
  Qed.
  Lemma inner_of_mir w w' i : (forall k, (k < K)%nat -> w' k = w (mir K k)) -> (i < K)%nat -> inner_of K w' i = inner_of K w (mir K i).
  Proof.
    intros E Hi. unfold inner_of. rewrite E by auto. replace ((1 <=? mir K i) && (mir K i <=? K - 2))%nat with ((1 <=? i) && (i <=? K - 2))%nat; [reflexivity|].
    unfold mir. destruct (Nat.leb_spec 1 i), (Nat.leb_spec i (K - 2)), (Nat.leb_spec 1 (K - 1 - i)), (Nat.leb_spec (K - 1 - i) (K - 2)); cbn [andb]; (reflexivity || lia).
  Qed.
  Lemma inner_of_out w i : (K - 2 < i)%nat -> inner_of K w i = 0.
  Proof. intros H. unfold inner_of. destruct (Nat.leb_spec i (K - 2)); [lia|]. now rewrite andb_false_r. Qed.
  Lemma handed_mir w w' i : (forall k, (k < K)%nat -> w' k = w (mir K k)) -> (i < K)%nat -> handed K w' i = handed K w (mir K i).
  Proof.
    intros E Hi. unfold handed. rewrite (inner_of_mir w w' i E Hi).
    assert (A : (match i with O => 0 | S k => inner_of K w' k / 4 end) = inner_of K w (mir K i + 1) / 4).
    { destruct i as [|k]; [rewrite inner_of_out by (unfold mir; lia); lra|]. rewrite (inner_of_mir w w' k E) by lia. do 2 f_equal. unfold mir. lia. }
    assert (B : inner_of K w' (i + 1) / 4 = match mir K i with O => 0 | S k => inner_of K w k / 4 end).
    { destruct (mir K i) as [|k] eqn:M; [rewrite inner_of_out by (unfold mir in M; lia); lra|]. rewrite (inner_of_mir w w' (i + 1) E) by (unfold mir in M; lia).
      do 2 f_equal. unfold mir in *. lia. }
    rewrite A, B. lra.
  Qed.
  Lemma handed_opp w i : handed K (fun k => - w k) i = - handed K w i.
  Proof.
    assert (A : forall k, inner_of K (fun k => - w k) k = - inner_of K w k) by (intros k; unfold inner_of; destruct (_ && _)%bool; lra).
    unfold handed. rewrite !A. destruct i as [|k]; rewrite ?A; lra.
  Qed.
  Variable average : arr2 -> arr2.
  Hypothesis av_loc : local K average.
  Hypothesis av_odd : forall u, each K (fun i j => average (odd_x K u) i j = - average u (mir K i) j).
  Hypothesis av_even : forall u, each K (fun i j => average (even_x K u) i j = average u (mir K i) j).
  Notation M a := (fun i j => mirror_pt (a (mir K i) j)).
  Lemma smoothed_mir X coef damp dmax prev a b : smoothed average K X coef damp dmax prev a b -> smoothed average K X coef damp dmax (M prev) (M a) (M b).
  Proof.
    intros S i j Hi Hj. assert (Hmi := mir_lt K i Hi). destruct (S (mir K i) j Hmi Hj) as (S1 & S2 & S3 & S4 & S5 & S6 & S7 & S8 & S9). cbv zeta in *.
    split; [now apply same_mir|]. cbn [t_dx t_dy t_pz t_q t_cx t_cy t_px t_py mirror_pt].
    assert (FD : forall p q, fade dmax (- p) q = fade dmax p q) by (intros; unfold fade; do 3 f_equal; ring).
    split; [now rewrite S2|]. split; [exact S3|]. split; [exact S4|]. split; [exact S5|]. split; [|split; [|split]].
    - rewrite S6. assert (RO : each K (fun i j => roughness K (fun i j => - t_dx (a (mir K i) j)) i j = - roughness K (fun i j => t_dx (a i j)) (mir K i) j))
        by (apply (rough_mir_odd (fun i j => t_dx (a i j)) (fun i j => - t_dx (a (mir K i) j))); intros k l Hk Hl; reflexivity).
      rewrite (RO i j Hi Hj). rewrite (av_loc _ (odd_x K (roughness K (fun i j => t_dx (a i j)))) RO i j Hi Hj), av_odd by auto. ring.
    - rewrite S7. assert (RO : each K (fun i j => roughness K (fun i j => t_dy (a (mir K i) j)) i j = roughness K (fun i j => t_dy (a i j)) (mir K i) j))
        by (apply (rough_mir_even (fun i j => t_dy (a i j)) (fun i j => t_dy (a (mir K i) j))); intros k l Hk Hl; reflexivity).
      rewrite (RO i j Hi Hj). rewrite (av_loc _ (even_x K (roughness K (fun i j => t_dy (a i j)))) RO i j Hi Hj), av_even by auto. ring.
    - rewrite S8, FD.
      rewrite (handed_mir (fun k => - (- X * coef * t_cx (b k j) * fade dmax (t_cx (b k j)) (t_cy (b k j)))) (fun k => - X * coef * - t_cx (b (mir K k) j) * fade dmax (- t_cx (b (mir K k) j)) (t_cy (b (mir K k) j)))) by (auto; intros k Hk; rewrite FD; ring).
      rewrite (handed_ext K (fun k => - X * coef * - t_cx (b (mir K i) k) * fade dmax (- t_cx (b (mir K i) k)) (t_cy (b (mir K i) k))) (fun k => - (- X * coef * t_cx (b (mir K i) k) * fade dmax (t_cx (b (mir K i) k)) (t_cy (b (mir K i) k)))) j) by (auto; intros k Hk; rewrite FD; ring).
      rewrite (handed_opp (fun k => - X * coef * t_cx (b k j) * _)), (handed_opp (fun k => - X * coef * t_cx (b (mir K i) k) * _)). ring.
    - rewrite S9, FD.
      rewrite (handed_mir (fun k => (- X * coef * t_cy (b k j) * fade dmax (t_cx (b k j)) (t_cy (b k j)))) (fun k => - X * coef * t_cy (b (mir K k) j) * fade dmax (- t_cx (b (mir K k) j)) (t_cy (b (mir K k) j)))) by (auto; intros k Hk; rewrite FD; ring).
      rewrite (handed_ext K (fun k => - X * coef * t_cy (b (mir K i) k) * fade dmax (- t_cx (b (mir K i) k)) (t_cy (b (mir K i) k))) (fun k => (- X * coef * t_cy (b (mir K i) k) * fade dmax (t_cx (b (mir K i) k)) (t_cy (b (mir K i) k)))) j) by (auto; intros k Hk; rewrite FD; ring).
      ring.
  Qed.
End Filter.
(** The average of the code. *)
Section Gauss.
  Variables (K : nat) (sigma : R).
  Lemma freq_mir k : (0 < k < K)%nat -> signed_freq K (K - k) ^ 2 = signed_freq K k ^ 2.
  Proof.
    intros Hk. unfold signed_freq. destruct (Nat.ltb_spec (2 * (K - k)) (K + 1)), (Nat.ltb_spec (2 * k) (K + 1)).
    - assert (K = 2 * k)%nat by lia. subst K. now replace (2 * k - k)%nat with k by lia.
    - rewrite minus_INR by lia. ring.
    - rewrite minus_INR by lia. ring.
    - lia.
  Qed.
  Definition neg_mod (k : nat) : nat := match k with O => O | S _ => (K - k)%nat end.
  Lemma sumN_neg f : sumN K f = sumN K (fun k => f (neg_mod k)).
  Proof.
    destruct K as [|m] eqn:E; [reflexivity|]. rewrite !sumN_shift. cbn [neg_mod]. f_equal. rewrite (sumN_mir m). apply sumN_ext. intros i Hi. f_equal. unfold neg_mod, mir. lia.
  Qed.
  Lemma weight_neg k l : (k < K)%nat -> gauss_weight K sigma (neg_mod k) l = gauss_weight K sigma k l.
  Proof. intros Hk. unfold gauss_weight, neg_mod. destruct k; [reflexivity|]. now rewrite freq_mir by lia. Qed.
  Lemma gauss_even a : each K (fun i j => gauss_average K sigma (even_x K a) i j = gauss_average K sigma a (mir K i) j).
  Proof.
    intros i j Hi Hj. unfold gauss_average. f_equal. rewrite sumN_neg. apply sumN_ext. intros k Hk. apply sumN_ext. intros l Hl. rewrite weight_neg by auto. f_equal.
    rewrite (sumN_mir K (fun i' => sumN K (fun j' => a i' j' * _))). apply sumN_ext. intros i' Hi'. apply sumN_ext. intros j' Hj'. unfold even_x. f_equal.
    assert (K0 : INR K <> 0) by (apply not_0_INR; lia).
    unfold mir. rewrite !(minus_INR (K - 1)), (minus_INR K 1) by lia. destruct k as [|k].
    - cbn [neg_mod]. f_equal. cbn. field. auto.
    - unfold neg_mod. rewrite (minus_INR K (S k)) by lia.
      replace (2 * PI * ((INR K - INR (S k)) * (INR i - INR i') + INR l * (INR j - INR j')) / INR K)
        with (2 * PI * (INR (S k) * (INR K - INR 1 - INR i - (INR K - INR 1 - INR i')) + INR l * (INR j - INR j')) / INR K + 2 * IZR (Z.of_nat i - Z.of_nat i') * PI).
      2:{ rewrite minus_IZR, <- !INR_IZR_INZ. field. auto. }
      set (z := (Z.of_nat i - Z.of_nat i')%Z). set (x := _ / INR K). clear.
      destruct (Z_le_gt_dec 0 z) as [H|H].
      + rewrite <- (Z2Nat.id z H), <- INR_IZR_INZ. apply cos_period.
      + replace (2 * IZR z * PI) with (- (2 * INR (Z.to_nat (- z)) * PI)) by (rewrite INR_IZR_INZ, Z2Nat.id, opp_IZR by lia; ring).
        rewrite <- (cos_period (x + - (2 * INR (Z.to_nat (- z)) * PI)) (Z.to_nat (- z))). f_equal. ring.
  Qed.
  Lemma gauss_opp a i j : gauss_average K sigma (fun i j => - a i j) i j = - gauss_average K sigma a i j.
  Proof.
    unfold gauss_average, Rdiv. rewrite Ropp_mult_distr_l. f_equal. rewrite <- sumN_opp. apply sumN_ext. intros k Hk. rewrite <- sumN_opp. apply sumN_ext. intros l Hl.
    rewrite Ropp_mult_distr_r. f_equal. rewrite <- sumN_opp. apply sumN_ext. intros i' Hi'. rewrite <- sumN_opp. apply sumN_ext. intros. ring.
  Qed.
  Lemma gauss_odd a : each K (fun i j => gauss_average K sigma (odd_x K a) i j = - gauss_average K sigma a (mir K i) j).
  Proof. intros i j Hi Hj. change (odd_x K a) with (fun i j => - even_x K a i j). rewrite gauss_opp. f_equal. now apply gauss_even. Qed.
End Gauss.

(** ** A layer *)
Lemma pushed_charge n h b X f prev g new : Layer3D_Spec.pushed n h b X f prev g new -> t_q new <> 0 -> t_q g <> 0 /\ Rabs (t_x0 prev + t_dx new) < b.
Proof.
  intros (_ & _ & _ & P4 & P5) Q. destruct (Req_dec (t_q g) 0) as [Z|Z]; [rewrite (P4 Z) in Q; contradiction|]. split; [exact Z|]. specialize (P5 Z). cbv zeta in P5.
  destruct (field_at n h f _ _) as [E B]. destruct P5 as (p0 & _ & _ & A & N).
  match type of N with (~ ?P -> _) => destruct (Classical_Prop.classic P) as [W|W] end.
  - destruct (A W) as (-> & _). apply W.
  - destruct (N W) as (_ & _ & _ & _ & _ & N6). contradiction.
Qed.
Lemma avg_in a c b : Rabs a < b -> Rabs c < b -> Rabs ((a + c) / 2) <= 3 * b.
Proof. intros A C. apply Rabs_def2 in A, C. apply Rabs_le. lra. Qed.
Lemma first_mid s p g : calm1 s p -> coasted (u_xi s) p g -> t_q g <> 0 -> Rabs (t_x0 p + (t_dx p + t_dx g) / 2) <= 3 * u_b s.
Proof.
  intros [_ C] (C1 & _ & _ & _ & Q & _) H. rewrite Q in H. destruct (C H) as ([W _] & R1 & _). unfold at_x in W. apply Rabs_def2 in W.
  assert (AB : forall z c, Rabs z <= c -> - c <= z <= c) by (intros z c; unfold Rabs; destruct (Rcase_abs z); lra).
  apply AB in R1. rewrite C1. apply Rabs_le. lra.
Qed.
Lemma next_mid s p g : calm1 s p -> (t_q g <> 0 -> t_q p <> 0 /\ Rabs (t_x0 p + t_dx g) < u_b s) ->
  t_q g <> 0 -> Rabs (t_x0 p + (t_dx p + t_dx g) / 2) <= 3 * u_b s.
Proof.
  intros [_ C] A H. destruct (A H) as [Q B]. destruct (C Q) as ([W _] & _). unfold at_x in W.
  replace (t_x0 p + (t_dx p + t_dx g) / 2) with ((t_x0 p + t_dx p + (t_x0 p + t_dx g)) / 2) by lra. now apply avg_in.
Qed.
Lemma three_mid s fp f1 p p0 p1 p2 : calm1 s p -> coasted (u_xi s) p p0 ->
  Layer3D_Spec.pushed (u_n s) (u_h s) (u_b s) (u_xi s) fp p p0 p1 -> Layer3D_Spec.pushed (u_n s) (u_h s) (u_b s) (u_xi s) f1 p p1 p2 ->
  forall g, g = p0 \/ g = p1 \/ g = p2 -> t_q g <> 0 -> Rabs (t_x0 p + (t_dx p + t_dx g) / 2) <= 3 * u_b s.
Proof.
  intros C C0 P1 P2. assert (Q0 : t_q p0 = t_q p) by apply C0.
  intros g [-> | [-> | ->]]; [now apply first_mid|apply next_mid; auto|apply next_mid; auto].
  - intros H. destruct (pushed_charge _ _ _ _ _ _ _ _ P1 H). split; [congruence|assumption].
  - intros H. destruct (pushed_charge _ _ _ _ _ _ _ _ P2 H) as [H1 W]. destruct (pushed_charge _ _ _ _ _ _ _ _ P1 H1). split; [congruence|assumption].
Qed.

Section Layer.
  Variables (s : solver3) (L : nat).
  Hypothesis HN : u_n s = (L + 1)%nat.
  Hypothesis HL : (2 <= L)%nat.
  Hypothesis Hodd : Nat.odd (u_n s) = true.
  Hypothesis Hpos : 0 < u_b s.
  Notation n := (u_n s).
  Notation ms := (mirror_solver s).
  Definition mids_ok (pp g : parts3) : Prop :=
    of_sorts s (K_ pp) (fun sort i j => t_q (sort g i j) <> 0 -> Rabs (t_x0 (sort pp i j) + (t_dx (sort pp i j) + t_dx (sort g i j)) / 2) <= 3 * u_b s) True.
  Lemma all_coasted_mir pp g : all_coasted s pp g -> all_coasted ms (mirror_parts pp) (mirror_parts g).
  Proof.
    intros (A & B & C). split; [exact A|]. cbn [K_ mirror_parts]. split; cbn [el u_xi u_ions mirror_solver].
    - intros i j Hi Hj. cbn [el mirror_parts]. rewrite A. apply coasted_mir, B; auto using mir_lt.
    - destruct (u_ions s); cbn [mirror_ions io].
      + unfold mirror_parts. cbn [io]. now rewrite A, C.
      + intros i j Hi Hj. cbn [io mirror_parts]. rewrite A. apply coasted_mir, C; auto using mir_lt.
  Qed.
  Lemma all_pushed_mir f pp g p : K_ g = K_ pp -> mids_ok pp g -> near s f pp g -> all_pushed s f pp g p ->
    all_pushed ms (mirror_fields n f) (mirror_parts pp) (mirror_parts g) (mirror_parts p).
  Proof.
    intros Kg [M1 M2] [N1 N2] (A & B & C). split; [exact A|]. cbn [K_ mirror_parts]. split; cbn [u_xi u_n u_h u_b u_ions mirror_solver].
    - intros i j Hi Hj. cbn [el mirror_parts]. rewrite A, Kg. apply pushed_mir; auto using mir_lt; try (apply M1; auto using mir_lt).
    - destruct (u_ions s); cbn [mirror_ions].
      + unfold mirror_parts. cbn [io]. now rewrite A, C.
      + intros i j Hi Hj. cbn [io mirror_parts]. rewrite A, Kg. apply pushed_mir; auto using mir_lt; try (apply M2; auto using mir_lt).
  Qed.
  Lemma mids fp f1 pp p0 p1 p2 : calm s pp -> all_coasted s pp p0 -> all_pushed s fp pp p0 p1 -> all_pushed s f1 pp p1 p2 ->
    mids_ok pp p0 /\ mids_ok pp p1 /\ mids_ok pp p2.
  Proof.
    intros [C1 C2] (K0 & A1 & A2) (K1 & B1 & B2) (K2 & D1 & D2). unfold mids_ok, of_sorts. 
    assert (E : forall i j, (i < K_ pp)%nat -> (j < K_ pp)%nat -> _) by (intros i j Hi Hj; exact (three_mid s fp f1 _ _ _ _ (C1 i j Hi Hj) (A1 i j Hi Hj) (B1 i j Hi Hj) (D1 i j Hi Hj))).
    assert (E2 : match u_ions s with Mobile3 => forall i j, (i < K_ pp)%nat -> (j < K_ pp)%nat -> forall g, g = io p0 i j \/ g = io p1 i j \/ g = io p2 i j -> t_q g <> 0 ->
      Rabs (t_x0 (io pp i j) + (t_dx (io pp i j) + t_dx g) / 2) <= 3 * u_b s | Background3 _ => True end).
    { destruct (u_ions s); [exact I|]. intros i j Hi Hj. exact (three_mid s fp f1 _ _ _ _ (C2 i j Hi Hj) (A2 i j Hi Hj) (B2 i j Hi Hj) (D2 i j Hi Hj)). }
    destruct (u_ions s).
    - repeat split; intros i j Hi Hj; apply (E i j Hi Hj); auto.
    - repeat split; intros i j Hi Hj; (apply (E i j Hi Hj) || apply (E2 i j Hi Hj)); auto.
  Qed.
  Variable average : arr2 -> arr2.
  Lemma layer_mir rb rbp st st' : let K := K_ (fst (fst st)) in local K average ->
    (forall u, each K (fun i j => average (odd_x K u) i j = - average u (mir K i) j)) ->
    (forall u, each K (fun i j => average (even_x K u) i j = average u (mir K i) j)) ->
    (u_decl s = true -> (3 <= K)%nat) -> calm s (fst (fst st)) -> short_flights s L rb rbp st ->
    layer3 average s L rb rbp st st' -> layer3 average ms L (even_x n rb) (even_x n rbp) (mirror_state n st) (mirror_state n st').
  Proof.
    destruct st as [[pp fp] cp], st' as [[p4 ff] c4]. cbn [fst snd]. cbv zeta. intros Al Ao Ae HK HC HS.
    intros (p0 & p1 & p2 & p3 & c1 & c2 & full1 & half1 & half2 & A0 & A1 & A2 & A3 & A4 & A5 & A6 & A7 & A8 & A9 & A10).
    destruct (HS p0 p1 p2 c1 c2 full1 half1 ff half2 A0 A1 A2 A3 A4 A5 A6) as (N0 & N1 & N2).
    destruct (mids fp half1 pp p0 p1 p2 HC A0 A1 A4) as (M0 & M1 & M2).
    assert (K0 := proj1 A0). assert (K1 := proj1 A1). assert (K2 := proj1 A4). assert (K3 := proj1 A7).
    exists (mirror_parts p0), (mirror_parts p1), (mirror_parts p2), (mirror_parts p3), (mirror_cur n c1), (mirror_cur n c2), (mirror_fields n full1), (mirror_fields n half1), (mirror_fields n half2).
    split; [now apply all_coasted_mir|]. split; [now apply all_pushed_mir|]. split; [now apply carried_mir|].
    split; [rewrite HN; now apply fields_mir|]. split; [now apply all_pushed_mir|]. split; [now apply carried_mir|].
    split; [rewrite HN; now apply fields_mir|]. split; [now apply all_pushed_mir|]. split; [exact A8|]. split; [|now apply carried_mir].
    cbn [u_decl mirror_solver]. case_eq (u_decl s); intros D; rewrite D in A9; [|now rewrite A9]. destruct A9 as [A9 A9'].
    cbn [u_xi u_force u_damp u_limit mirror_solver mirror_parts K_ el io]. rewrite A8, K3, A9'. split; [|reflexivity]. apply smoothed_mir; auto.
  Qed.
End Layer.

(** ** The array of still ions is carried along untouched *)
Definition set_io (a : nat -> nat -> pt3) (st : state3) : state3 := let '(p, f, c) := st in (mkP3 (K_ p) (el p) a, f, c).
Lemma step_io average s ro a rb rbp st : u_ions s = Background3 ro -> step_dxi3 average s rb rbp (set_io a st) = set_io a (step_dxi3 average s rb rbp st).
Proof.
  intros H. destruct st as [[pp fp] cp]. unfold set_io, step_dxi3, move_free, move_smart, map_sorts, compute_rhoj3. rewrite H. cbn [K_ el io fst snd].
  destruct (compute_fields3 _ _ _ _ (snd _) _ _ _ _ _) as [ff fh]. cbn [fst snd K_ el io]. destruct (u_decl s); reflexivity.
Qed.
Lemma step_io_same average s ro rb rbp st : u_ions s = Background3 ro -> io (fst (fst (step_dxi3 average s rb rbp st))) = io (fst (fst st)).
Proof.
  intros H. destruct st as [[pp fp] cp]. unfold step_dxi3, move_free, move_smart, map_sorts, compute_rhoj3. rewrite H. cbn [K_ el io fst snd].
  destruct (compute_fields3 _ _ _ _ (snd _) _ _ _ _ _) as [ff fh]. cbn [fst snd K_ el io]. destruct (u_decl s); reflexivity.
Qed.
Lemma same_plasma_io s L st st' : same_plasma s L st st' <->
  same_arrays s L (match u_ions s with Background3 _ => set_io (io (fst (fst st'))) st | Mobile3 => st end) st'.
Proof.
  destruct st as [[p f] c], st' as [[p' f'] c']. unfold same_plasma, same_arrays, of_sorts, set_io. cbn [fst]. destruct (u_ions s); cbn [K_ el io]; tauto.
Qed.
Section Step.
  Variables (s : solver3) (L : nat) (pad : Z).
  Hypothesis HN : u_n s = (L + 1)%nat.
  Hypothesis HL : (2 <= L)%nat.
  Hypothesis Hodd : Nat.odd (u_n s) = true.
  Hypothesis Hh : 0 < u_h s.
  Hypothesis Hpad : (3 <= pad)%Z.
  Hypothesis Hb : u_b s = wall (u_n s) (u_h s) pad.
  Hypothesis Hpos : 0 < u_b s.
  Hypothesis Hc : 0 <= u_coeff s.
  Hypothesis Hdmax : 0 < u_limit s.
  Notation n := (u_n s).
  Notation ms := (mirror_solver s).
  Lemma calm1_mir p : calm1 s p -> calm1 ms (mirror_pt p).
  Proof.
    intros [A B]. split; [exact A|]. intros Q. destruct (B Q) as ([W1 W2] & R1 & R2). unfold within. rewrite at_x_mir, Rabs_Ropp, mom_mir, rate_x_flip, rate_y_flip.
    cbn [u_b u_xi mirror_solver t_m mirror_pt]. rewrite <- Ropp_mult_distr_r, Rabs_Ropp. repeat split; auto.
  Qed.
  Lemma calm_mir pp : calm s pp -> calm ms (mirror_parts pp).
  Proof.
    intros [A B]. split; cbn [K_ mirror_parts].
    - intros i j Hi Hj. exact (calm1_mir _ (A (mir (K_ pp) i) j (mir_lt _ _ Hi) Hj)).
    - cbn [u_ions mirror_solver]. destruct (u_ions s); [exact I|]. cbn [mirror_ions]. intros i j Hi Hj. exact (calm1_mir _ (B (mir (K_ pp) i) j (mir_lt _ _ Hi) Hj)).
  Qed.
  Lemma step_mir_arrays sigma rb rb' rbp rbp' st st' : let K := K_ (fst (fst st)) in (u_decl s = true -> (3 <= K)%nat) ->
    calm s (fst (fst st)) -> short_flights s L rb rbp st ->
    nodes_eq L rb' (even_x n rb) -> nodes_eq L rbp' (even_x n rbp) -> same_arrays ms L st' (mirror_state n st) ->
    same_arrays ms L (step_dxi3 (gauss_average K sigma) ms rb' rbp' st') (mirror_state n (step_dxi3 (gauss_average K sigma) s rb rbp st)).
  Proof.
    intros K HK HC HS HR HP S. assert (S' := S). apply same_arrays_iff in S'. destruct S' as (E & _). assert (EK := proj1 E).
    assert (KK : K_ (fst (fst (mirror_state n st))) = K) by (unfold K; destruct st as [[? ?] ?]; reflexivity). rewrite KK in EK.
    assert (A := layer_ok s L pad HN HL Hodd Hh Hpad Hb Hpos Hc Hdmax (gauss_average K sigma) rb rbp st (gauss_local K sigma) HK HC).
    assert (A' := layer_mir s L HN HL Hodd Hpos (gauss_average K sigma) rb rbp st _ (gauss_local K sigma) (gauss_odd K sigma) (gauss_even K sigma) HK HC HS A). clear A.
    assert (HC' : calm ms (fst (fst st'))).
    { apply (calm_ext ms (fst (fst (mirror_state n st)))).
      - destruct E as [E1 [E2 E3]]. rewrite EK in E2, E3. split; [congruence|]. rewrite KK. split; [intros i j Hi Hj; symmetry; now apply E2|].
        destruct (u_ions ms); [congruence|]. intros i j Hi Hj. symmetry. now apply E3.
      - destruct st as [[pp fp] cp]. now apply calm_mir. }
    assert (B := layer_ok ms L pad HN HL Hodd Hh Hpad Hb Hpos Hc Hdmax (gauss_average K sigma) rb' rbp' st'). rewrite EK in B.
    specialize (B (gauss_local K sigma) HK HC').
    assert (B' := layer_start_ext _ ms L rb' (even_x n rb) rbp' (even_x n rbp) st' (mirror_state n st) _ HN HR HP S B). clear B.
    apply same_arrays_iff. apply (layer_det (gauss_average K sigma) ms L (even_x n rb) (even_x n rbp) (mirror_state n st)); auto; rewrite ?KK; auto.
    - apply Rgt_not_eq, Hh.
    - apply gauss_local.
  Qed.
  Lemma step_mir sigma rb rb' rbp rbp' st st' : let K := K_ (fst (fst st)) in (u_decl s = true -> (3 <= K)%nat) ->
    calm s (fst (fst st)) -> short_flights s L rb rbp st ->
    nodes_eq L rb' (even_x n rb) -> nodes_eq L rbp' (even_x n rbp) -> same_plasma ms L st' (mirror_state n st) ->
    same_plasma ms L (step_dxi3 (gauss_average K sigma) ms rb' rbp' st') (mirror_state n (step_dxi3 (gauss_average K sigma) s rb rbp st)).
  Proof.
    intros K HK HC HS HR HP S. apply same_plasma_io. apply same_plasma_io in S.
    case_eq (u_ions ms); [intros ro Hi|intros Hi]; rewrite Hi in S; [|now apply step_mir_arrays].
    destruct (u_ions s) as [ro0|] eqn:Hi'; [|unfold mirror_solver in Hi; cbn [u_ions] in Hi; rewrite Hi' in Hi; discriminate].
    assert (I2 := step_io_same (gauss_average K sigma) s ro0 rb rbp st Hi').
    assert (KK : K_ (fst (fst (step_dxi3 (gauss_average K sigma) s rb rbp st))) = K) by apply cpu_K.
    replace (io (fst (fst (mirror_state n (step_dxi3 (gauss_average K sigma) s rb rbp st))))) with (io (fst (fst (mirror_state n st)))).
    2:{ unfold K in *. clear - I2 KK. destruct (step_dxi3 _ _ _ _ _) as [[p ?] ?], st as [[pp ?] ?]. cbn [mirror_state fst mirror_parts io K_] in *. now rewrite I2, KK. }
    rewrite <- (step_io _ _ ro _ _ _ _ Hi). now apply step_mir_arrays.
  Qed.
End Step.
