(** Lemmas for C29: the initial 2D plasma. *)
From Coq Require Import Reals ZArith List Bool Lra Lia Psatz.
From Verif Require Import Beam2D_Model Beam2D_Spec Beam2D_Free Beam2D_Push Beam2D_Total Beam2D_Ex Plasma2D_Model Plasma2D_Spec Plasma2D_Ode Plasma2D_Dep Plasma2D_Move Plasma2D_Init.
Import ListNotations.
Open Scope R_scope.

(** ** The initial plasma is calm *)
Section Start.
  Variables (w h : R) (ppc : nat) (coef : R -> R) (pl : R).
  Hypothesis Hh : 0 < h.
  Hypothesis Hw : h <= w.
  Hypothesis Hppc : (1 <= ppc)%nat.
  Notation M := (floorR (w / h)).
  Hypothesis Hfrac : w / h - IZR M < 1 / 2.
  Lemma M_pos : (1 <= M)%Z.
  Proof.
    pose proof (floorR_spec (w / h)) as F. assert (1 <= w / h) by (apply (Rmult_le_reg_r h); auto; unfold Rdiv; rewrite Rmult_assoc, Rinv_l by lra; lra).
    assert (L : IZR 0 < IZR M) by lra. apply lt_IZR in L. lia.
  Qed.
  Notation np := (Z.to_nat M * ppc)%nat.
  Lemma np_pos : 1 <= INR np.
  Proof. apply INR_pos'. pose proof M_pos. assert (1 <= Z.to_nat M)%nat by lia. nia. Qed.
  Lemma in_electrons p : In p (init_electrons w h ppc coef pl) -> 0 < r_ p < w /\ pr_ p = 0 /\ pf_ p = 0 /\ pz_ p = 0 /\ m_ p <> 0 /\ q_ p = - m_ p.
  Proof.
    unfold init_electrons, place_particles. intros H. apply filter_In in H. destruct H as [H Hq]. rewrite map_map in H. apply in_map_iff in H.
    destruct H as (k & <- & Hk). apply in_seq in Hk. cbn [q_ r_ pr_ pf_ pz_ m_] in *. destruct (Req_EM_T _ _) as [|Q]; [discriminate|].
    pose proof np_pos as Hn. set (N := INR np) in *. assert (Hk' : INR k + 1 <= N) by (rewrite <- S_INR; apply le_INR; lia). pose proof (pos_INR k).
    assert (0 < w) by lra. assert (W : 0 < w / N) by (apply Rmult_lt_0_compat; [auto|apply Rinv_0_lt_compat; lra]).
    assert (WN : w / N * N = w) by (field; lra).
    repeat split; try lra.
    - apply Rmult_lt_0_compat; lra.
    - apply Rlt_le_trans with (N * (w / N)); [|lra]. apply Rmult_lt_compat_r; lra.
  Qed.
  Lemma electron_inside p : In p (init_electrons w h ppc coef pl) -> inside2 h (S (Z.to_nat M)) p.
  Proof.
    intros H. apply in_electrons in H. destruct H as ((A & B) & _). split; [lra|]. rewrite S_INR, INR_IZR_INZ, Z2Nat.id by (pose proof M_pos; lia).
    apply Rlt_trans with (w / h); [|lra]. apply Rmult_lt_compat_r; auto. now apply Rinv_0_lt_compat.
  Qed.
  Definition iond (im : R) (p : pl2) : pl2 := mkPl (r_ p) 0 0 0 (- q_ p) (im * - q_ p) 0.
  Lemma rest_charge p : m_ p <> 0 -> pr_ p = 0 -> pf_ p = 0 -> pz_ p = 0 -> dep_of p * gm_of p = q_ p.
  Proof. intros Hm H1 H2 H3. pose proof (gm_gt p Hm) as G. unfold dep_of. rewrite H3 in *. field. lra. Qed.

  (** densities of a list of particles at rest *)
  Lemma rest_dens n l i : (2 <= n)%nat -> (i < n)%nat -> (forall p, In p l -> inside2 h n p /\ m_ p <> 0 /\ pr_ p = 0 /\ pf_ p = 0 /\ pz_ p = 0) ->
    let d := per_volume (cell_volume h ppc n) (deposit2 h n l) in
    d_rho d i = sumR (map (fun p => q_ p * node_share n 1 (r_ p / h) i) l) / cell_volume h ppc n i /\
    d_jr d i = 0 /\ d_jf d i = 0 /\ d_jz d i = 0.
  Proof.
    intros Hn Hi Hl d. subst d. unfold per_volume, deposit2, close_ends. cbn [d_rho d_jr d_jf d_jz].
    destruct (deposit_all h n l zero_dens i Hh Hn (fun p Hp => proj1 (Hl p Hp)) Hi) as (A & B & C & D). cbn zeta in *. unfold zero_dens, zeros in A, B, C, D. cbn [d_rho d_jr d_jf d_jz] in A, B, C, D.
    assert (Z : forall g, (forall p, In p l -> g p = 0) -> sumR (map g l) = 0).
    { clear. intros g. induction l as [|p l IH]; intros H; [reflexivity|]. cbn. rewrite IH, H; [lra|now left|]. intros q Hq. apply H. now right. }
    assert (Zs : forall v, v = 0 -> v / cell_volume h ppc n i = 0) by (intros v ->; unfold Rdiv; ring).
    split; [|split; [|split]].
    - unfold zero_dens, zeros. rewrite A. rewrite Rplus_0_l. f_equal. apply sumR_ext. intros p Hp. destruct (Hl p Hp) as (_ & m & a & b & c). now rewrite rest_charge.
    - apply Zs. unfold set_at. destruct (i =? n - 1)%nat; [auto|]. destruct (i =? 0)%nat; [auto|]. unfold zero_dens, zeros. rewrite C, Z; [lra|].
      intros p Hp. destruct (Hl p Hp) as (_ & _ & -> & _). ring.
    - apply Zs. unfold set_at. destruct (i =? n - 1)%nat; [auto|]. destruct (i =? 0)%nat; [auto|]. unfold zero_dens, zeros. rewrite D, Z; [lra|].
      intros p Hp. destruct (Hl p Hp) as (_ & _ & _ & -> & _). ring.
    - apply Zs. unfold set_at. destruct (i =? n - 1)%nat; [auto|]. unfold zero_dens, zeros. rewrite B, Z; [lra|].
      intros p Hp. destruct (Hl p Hp) as (_ & _ & _ & _ & ->). ring.
  Qed.
  Lemma electrons_rest n : n = S (Z.to_nat M) -> forall p, In p (init_electrons w h ppc coef pl) -> inside2 h n p /\ m_ p <> 0 /\ pr_ p = 0 /\ pf_ p = 0 /\ pz_ p = 0.
  Proof. intros -> p Hp. split; [now apply electron_inside|]. apply in_electrons in Hp. tauto. Qed.
  Lemma ions_rest n im : n = S (Z.to_nat M) -> im <> 0 -> forall p, In p (map (iond im) (init_electrons w h ppc coef pl)) ->
    inside2 h n p /\ m_ p <> 0 /\ pr_ p = 0 /\ pf_ p = 0 /\ pz_ p = 0.
  Proof.
    intros -> Him p Hp. apply in_map_iff in Hp. destruct Hp as (e & <- & He). split; [apply (electron_inside e He)|].
    apply in_electrons in He. destruct He as (_ & _ & _ & _ & Hm & Hq). cbn. repeat split; auto. rewrite Hq. intros E. apply Rmult_integral in E. destruct E; lra.
  Qed.
  Lemma neutral_background n : n = S (Z.to_nat M) ->
    still n (compute_rhoj h ppc n (snd (init_background w h ppc coef pl)) (parts (fst (init_background w h ppc coef pl)))) /\
    still n (snd (fst (init_background w h ppc coef pl))).
  Proof.
    intros ->. pose proof M_pos. set (n := S (Z.to_nat M)). unfold init_background. cbn [fst snd parts]. unfold compute_rhoj. cbn [electrons row_e row_i].
    split; intros i Hi; unfold total, zeros; cbn [row_e row_i d_rho d_jr d_jf d_jz].
    - destruct (rest_dens n _ i ltac:(unfold n; lia) Hi (electrons_rest n eq_refl)) as (A & B & C & D). cbn zeta in *.
      fold n. rewrite B, C, D. split; [apply Rplus_opp_r|]. repeat split; lra.
    - fold n. split; [apply Rplus_opp_r|]. repeat split; lra.
  Qed.
  Lemma neutral_mobile n im : n = S (Z.to_nat M) -> im <> 0 ->
    still n (compute_rhoj h ppc n (snd (init_mobile w h ppc coef pl im)) (parts (fst (init_mobile w h ppc coef pl im)))) /\
    still n (snd (fst (init_mobile w h ppc coef pl im))).
  Proof.
    intros -> Him. pose proof M_pos. set (n := S (Z.to_nat M)). unfold init_mobile. cbn [fst snd parts]. unfold compute_rhoj. cbn [electrons ion_list row_e row_i].
    split; intros i Hi; unfold total; cbn [row_e row_i d_rho d_jr d_jf d_jz].
    - destruct (rest_dens n _ i ltac:(unfold n; lia) Hi (electrons_rest n eq_refl)) as (A & B & C & D). cbn zeta in *.
      destruct (rest_dens n _ i ltac:(unfold n; lia) Hi (ions_rest n im eq_refl Him)) as (A' & B' & C' & D'). cbn zeta in *.
      change (map (fun p => mkPl (r_ p) 0 0 0 (- q_ p) (im * - q_ p) 0) (init_electrons w h ppc coef pl)) with (map (iond im) (init_electrons w h ppc coef pl)).
      rewrite A, B, C, D, A', B', C', D'. repeat split; auto. rewrite map_map. cbn [iond q_ r_].
      rewrite <- (Rmult_0_l (/ cell_volume h ppc n i)). unfold Rdiv. rewrite <- Rmult_plus_distr_r. f_equal.
      generalize (init_electrons w h ppc coef pl). clear. intros l. induction l as [|p l IH]; cbn [map sumR]; lra.
    - unfold zero_dens, zeros. cbn. repeat split; lra.
  Qed.
End Start.

(** ** The density of the uniform plasma *)
Lemma sumR_seq g N : sumR (map g (seq 0 N)) = sumN N g.
Proof.
  induction N as [|N IH]; [reflexivity|]. rewrite seq_S, map_app. cbn [plus map].
  assert (A : forall l x, sumR (l ++ [x]) = sumR l + x) by (clear; induction l as [|y l IH]; intros x; cbn; [lra|rewrite IH; lra]).
  rewrite A, IH. reflexivity.
Qed.
Lemma sumN_add a b f : sumN (a + b) f = sumN a f + sumN b (fun i => f (a + i)%nat).
Proof. induction b as [|b IH]; [rewrite Nat.add_0_r; cbn; lra|]. replace (a + S b)%nat with (S (a + b)) by lia. rewrite !sumN_S, IH. lra. Qed.
Lemma sumN_mul M P f : sumN (M * P) f = sumN P (fun s => sumN M (fun i => f (i * P + s)%nat)).
Proof.
  induction M as [|M IH]; [cbn; symmetry; now apply sumN_zero|].
  replace (S M * P)%nat with (M * P + P)%nat by lia. rewrite sumN_add, IH, <- sumN_plus. apply sumN_ext. intros s _. now rewrite sumN_S.
Qed.
Lemma sumN_three M a F : (a + 2 < M)%nat -> (forall i, (i < M)%nat -> i <> a -> i <> (a + 1)%nat -> i <> (a + 2)%nat -> F i = 0) ->
  sumN M F = F a + F (a + 1)%nat + F (a + 2)%nat.
Proof.
  intros Ha HF. replace M with (a + (3 + (M - a - 3)))%nat by lia. rewrite sumN_add, sumN_add.
  rewrite (sumN_zero a) by (intros i Hi; apply HF; lia). rewrite (sumN_zero (M - a - 3)) by (intros i Hi; apply HF; lia).
  cbn [sumN]. replace (a + 0)%nat with a by lia. lra.
Qed.
Lemma sp_mid u : Rabs u <= 1 / 2 -> spline2 u = 3 / 4 - u ^ 2.
Proof. intros H. unfold spline2. destruct (Rle_dec _ _); [reflexivity|lra]. Qed.
Lemma sp_side u : 1 / 2 <= Rabs u <= 3 / 2 -> spline2 u = (3 / 2 - Rabs u) ^ 2 / 2.
Proof.
  intros H. unfold spline2. destruct (Rle_dec _ _) as [L|L]; [|destruct (Rle_dec _ _); [reflexivity|lra]].
  assert (E : Rabs u = 1 / 2) by lra. rewrite E. unfold Rabs in E. destruct (Rcase_abs u); nra.
Qed.
Lemma sp_out u : 3 / 2 <= Rabs u -> spline2 u = 0.
Proof.
  intros H. unfold spline2. destruct (Rle_dec _ _); [lra|]. destruct (Rle_dec _ _); [|reflexivity]. replace (Rabs u) with (3 / 2) by lra. lra.
Qed.
Lemma sp_midI u : - (1 / 2) <= u <= 1 / 2 -> spline2 u = 3 / 4 - u ^ 2.
Proof. intros. apply sp_mid. apply Rabs_le. lra. Qed.
Lemma sp_pos u : 1 / 2 <= u <= 3 / 2 -> spline2 u = (3 / 2 - u) ^ 2 / 2.
Proof. intros. rewrite sp_side; rewrite Rabs_right by lra; lra. Qed.
Lemma sp_neg u : - (3 / 2) <= u <= - (1 / 2) -> spline2 u = (3 / 2 + u) ^ 2 / 2.
Proof. intros. rewrite sp_side; rewrite Rabs_left by lra; [f_equal; f_equal; lra|lra]. Qed.
Lemma sp_outI u : 3 / 2 <= u \/ u <= - (3 / 2) -> spline2 u = 0.
Proof. intros [H|H]; apply sp_out; [rewrite Rabs_right by lra|rewrite Rabs_left by lra]; lra. Qed.

(** one column of particles: positions i + t *)
Lemma column M j t : 0 < t < 1 -> (2 <= j)%nat -> (j + 2 <= M)%nat ->
  sumN M (fun i => (INR i + t) * spline2 (INR i + t - INR j)) = INR j.
Proof.
  intros Ht Hj HM. set (F := fun i => _).
  assert (Hge : forall a b, (a <= b)%nat -> INR a <= INR b) by (intros; now apply le_INR).
  destruct (Rlt_dec t (1 / 2)) as [T|T].
  - rewrite (sumN_three M (j - 1)%nat F);
      [|lia|intros i Hi N1 N2 N3; unfold F; rewrite sp_outI; [ring|];
      assert (G : (i + 2 <= j \/ j + 2 <= i)%nat) by lia; destruct G as [G|G]; apply Hge in G; rewrite plus_INR in G; cbn [INR] in G; lra].
    unfold F. replace (j - 1 + 1)%nat with j by lia. replace (j - 1 + 2)%nat with (S j) by lia.
    replace (INR (j - 1)) with (INR j - 1) by (rewrite minus_INR by lia; cbn; lra). rewrite S_INR.
    rewrite (sp_neg (INR j - 1 + t - INR j)), (sp_midI (INR j + t - INR j)), (sp_pos (INR j + 1 + t - INR j)) by lra. field.
  - rewrite (sumN_three M (j - 2)%nat F);
      [|lia|intros i Hi N1 N2 N3; unfold F; rewrite sp_outI; [ring|];
      assert (G : (i + 3 <= j \/ j + 1 <= i)%nat) by lia; destruct G as [G|G]; apply Hge in G; rewrite plus_INR in G; cbn [INR] in G; lra].
    unfold F. replace (j - 2 + 1)%nat with (j - 1)%nat by lia. replace (j - 2 + 2)%nat with j by lia.
    replace (INR (j - 1)) with (INR j - 1) by (rewrite minus_INR by lia; cbn; lra).
    replace (INR (j - 2)) with (INR j - 2) by (rewrite minus_INR by lia; cbn; lra).
    rewrite (sp_neg (INR j - 2 + t - INR j)), (sp_midI (INR j - 1 + t - INR j)), (sp_pos (INR j + t - INR j)) by lra. field.
Qed.

Section Uniform.
  Variables (h : R) (M P : nat) (pl : R).
  Hypothesis Hh : 0 < h.
  Hypothesis HM : (1 <= M)%nat.
  Hypothesis HP : (1 <= P)%nat.
  Notation w := (INR M * h).
  Definition rho_k (k : nat) : R := (INR k + / 2) / INR P.
  Lemma floor_M : floorR (w / h) = Z.of_nat M.
  Proof. apply floor_unique. rewrite <- INR_IZR_INZ. replace (w / h) with (INR M) by (field; lra). lra. Qed.
  Lemma frac_M : w / h - IZR (floorR (w / h)) < 1 / 2.
  Proof. rewrite floor_M, <- INR_IZR_INZ. replace (w / h) with (INR M) by (field; lra). lra. Qed.
  Lemma INR_P : 1 <= INR P. Proof. now apply INR_pos'. Qed.
  Lemma INR_M : 1 <= INR M. Proof. now apply INR_pos'. Qed.
  Lemma rho_k_range k : (k < M * P)%nat -> 0 < rho_k k < INR M.
  Proof.
    intros Hk. unfold rho_k. pose proof INR_P. pose proof (pos_INR k). assert (I : 0 < / INR P) by (apply Rinv_0_lt_compat; lra). split.
    - apply Rmult_lt_0_compat; lra.
    - apply (Rmult_lt_reg_r (INR P)); [lra|]. unfold Rdiv. rewrite Rmult_assoc, Rinv_l, <- mult_INR by lra.
      assert (INR (S k) <= INR (M * P)) by (apply le_INR; lia). rewrite S_INR in *. lra.
  Qed.
  Definition upart k := mkPl (rho_k k * h) 0 0 0 (- (2 * PI * (h / INR P) * (rho_k k * h))) (2 * PI * (h / INR P) * (rho_k k * h)) (if Rlt_dec 0 pl then pl else 0).
  Lemma uniform_list : init_electrons w h P (fun _ => 1) pl = map upart (seq 0 (M * P)).
  Proof.
    unfold init_electrons, place_particles. rewrite floor_M, Nat2Z.id. rewrite map_map.
    assert (E : forall l, (forall k, In k l -> (k < M * P)%nat) -> filter (fun p => if Req_EM_T (q_ p) 0 then false else true)
      (map (fun x => mkPl ((INR x + 0.5) * (w / INR (M * P))) 0 0 0 (- (2 * PI * (w / INR (M * P)) * ((INR x + 0.5) * (w / INR (M * P)))) * 1)
         (2 * PI * (w / INR (M * P)) * ((INR x + 0.5) * (w / INR (M * P))) * 1) (if Rlt_dec 0 pl then pl else 0)) l) = map upart l).
    { pose proof INR_P. pose proof INR_M. pose proof PI_RGT_0. induction l as [|k l IH]; intros Hl; [reflexivity|]. cbn [map filter q_].
      assert (D : w / INR (M * P) = h / INR P) by (rewrite mult_INR; field; lra). rewrite D in *.
      assert (K : (INR k + 0.5) * (h / INR P) = rho_k k * h) by (unfold rho_k; replace 0.5 with (/ 2) by lra; field; lra).
      rewrite K, !Rmult_1_r. destruct (Req_EM_T _ _) as [Z|Z].
      - exfalso. assert (0 < rho_k k) by (apply rho_k_range, Hl; now left). assert (0 < h / INR P) by (apply Rmult_lt_0_compat; [auto|apply Rinv_0_lt_compat; lra]).
        assert (0 < 2 * PI * (h / INR P) * (rho_k k * h)) by (apply Rmult_lt_0_compat; [apply Rmult_lt_0_compat; lra|apply Rmult_lt_0_compat; lra]). lra.
      - rewrite IH by (intros; apply Hl; now right). reflexivity. }
    apply E. intros k Hk. apply in_seq in Hk. lia.
  Qed.
  Lemma uniform_dens i : (i < S M)%nat ->
    d_rho (per_volume (cell_volume h P (S M)) (deposit2 h (S M) (init_electrons w h P (fun _ => 1) pl))) i
    = - (2 * PI * h ^ 2 * (sumN (M * P) (fun k => rho_k k * node_share (S M) 1 (rho_k k) i) / INR P)) / cell_volume h P (S M) i.
  Proof.
    intros Hi. pose proof INR_P. pose proof INR_M.
    assert (HW : h <= w) by nra.
    assert (N' : S M = S (Z.to_nat (floorR (w / h)))) by (rewrite floor_M, Nat2Z.id; reflexivity).
    destruct (rest_dens h P Hh (S M) (init_electrons w h P (fun _ => 1) pl) i ltac:(lia) Hi (electrons_rest w h P _ pl Hh HW HP frac_M (S M) N')) as (A & _).
    cbn zeta in A. rewrite A. f_equal. rewrite uniform_list, map_map, sumR_seq.
    rewrite (sumN_ext _ _ (fun k => - (2 * PI * h ^ 2 / INR P) * (rho_k k * node_share (S M) 1 (rho_k k) i))).
    - rewrite sumN_scal. field. lra.
    - intros k Hk. cbn [upart q_ r_]. replace (rho_k k * h / h) with (rho_k k) by (field; lra). field. lra.
  Qed.
  (** inside: exactly 1 *)
  Lemma uniform_inner j : (2 <= j)%nat -> (j + 3 <= S M)%nat ->
    d_rho (per_volume (cell_volume h P (S M)) (deposit2 h (S M) (init_electrons w h P (fun _ => 1) pl))) j = -1.
  Proof.
    intros Hj Hn. rewrite uniform_dens by lia. pose proof INR_P. pose proof PI_RGT_0. assert (1 <= INR j) by (apply INR_pos'; lia).
    assert (E : sumN (M * P) (fun k => rho_k k * node_share (S M) 1 (rho_k k) j) = INR P * INR j).
    { rewrite sumN_mul. rewrite (sumN_ext P _ (fun _ => INR j)).
      - clear. induction P as [|p IH]; [cbn; lra|]. rewrite sumN_S, IH, S_INR. ring.
      - intros s Hs. set (t := rho_k s). assert (Ht : 0 < t < 1).
        { unfold t, rho_k. pose proof (pos_INR s). assert (INR (S s) <= INR P) by (apply le_INR; lia). rewrite S_INR in *.
          assert (I : 0 < / INR P) by (apply Rinv_0_lt_compat; lra). split; [apply Rmult_lt_0_compat; lra|].
          apply (Rmult_lt_reg_r (INR P)); [lra|]. unfold Rdiv. rewrite Rmult_assoc, Rinv_l by lra. lra. }
        rewrite <- (column M j t Ht Hj) by lia. apply sumN_ext. intros i Hi.
        assert (Ei : rho_k (i * P + s) = INR i + t) by (unfold t, rho_k; rewrite plus_INR, mult_INR; field; lra). rewrite Ei. f_equal.
        unfold node_share. assert (Hi1 : INR i + 1 <= INR M) by (rewrite <- S_INR; apply le_INR; lia). pose proof (pos_INR i).
        assert (2 <= INR j) by (apply (le_INR 2) in Hj; cbn in Hj; lra).
        assert (INR j + 2 <= INR M) by (assert (X : (j + 2 <= M)%nat) by lia; apply le_INR in X; rewrite plus_INR in X; cbn in X; lra).
        destruct (Nat.eqb_spec j 0); [lia|]. destruct (Nat.eqb_spec j (S M - 1)); [lia|].
        rewrite (sp_outI (INR i + t + INR j)) by lra. replace (S M - 1)%nat with M by lia.
        rewrite (sp_outI (INR i + t - (2 * INR M - INR j))) by lra. ring. }
    rewrite E. unfold cell_volume. destruct (Nat.eqb_spec j (S M - 1)); [lia|]. destruct (Nat.eqb_spec j 0); [lia|]. destruct (Nat.eqb_spec j 1); [lia|].
    field. repeat split; lra.
  Qed.
End Uniform.

(** ** The two cells at the axis, for an even number of particles per cell *)
Lemma s1 K : sumN K (fun k => INR k + / 2) = INR K ^ 2 / 2.
Proof. induction K as [|K IH]; [cbn; lra|]. rewrite sumN_S, IH, S_INR. field. Qed.
Lemma s2 K : sumN K (fun k => (INR k + / 2) ^ 2) = INR K * (4 * INR K ^ 2 - 1) / 12.
Proof. induction K as [|K IH]; [cbn; lra|]. rewrite sumN_S, IH, S_INR. field. Qed.
Lemma s3 K : sumN K (fun k => (INR k + / 2) ^ 3) = INR K ^ 2 * (2 * INR K ^ 2 - 1) / 8.
Proof. induction K as [|K IH]; [cbn; lra|]. rewrite sumN_S, IH, S_INR. field. Qed.
Definition cubic (a b c d x : R) : R := a * x + b * x ^ 2 + c * x ^ 3 + d * 0.
Lemma sum_cubic K d a b c : sumN K (fun k => a * ((INR k + / 2) * d) + b * ((INR k + / 2) * d) ^ 2 + c * ((INR k + / 2) * d) ^ 3)
  = a * d * (INR K ^ 2 / 2) + b * d ^ 2 * (INR K * (4 * INR K ^ 2 - 1) / 12) + c * d ^ 3 * (INR K ^ 2 * (2 * INR K ^ 2 - 1) / 8).
Proof.
  rewrite <- s1, <- s2, <- s3, <- !sumN_scal, <- !sumN_plus. apply sumN_ext. intros. ring.
Qed.
Lemma sumN_range K1 K2 f g : (K1 <= K2)%nat -> (forall k, (K1 <= k < K2)%nat -> f k = g k) -> sumN K2 f - sumN K1 f = sumN K2 g - sumN K1 g.
Proof.
  intros H E. replace K2 with (K1 + (K2 - K1))%nat by lia. rewrite !sumN_add.
  rewrite (sumN_ext (K2 - K1) (fun i => f (K1 + i)%nat) (fun i => g (K1 + i)%nat)) by (intros; apply E; lia). lra.
Qed.
Lemma sumN_pieces K1 K2 K3 N (f g1 g2 g3 : arr) : (K1 <= K2 <= K3)%nat -> (K3 <= N)%nat ->
  (forall k, (k < K1)%nat -> f k = g1 k) -> (forall k, (K1 <= k < K2)%nat -> f k = g2 k) -> (forall k, (K2 <= k < K3)%nat -> f k = g3 k) ->
  (forall k, (K3 <= k < N)%nat -> f k = 0) ->
  sumN N f = sumN K1 g1 + (sumN K2 g2 - sumN K1 g2) + (sumN K3 g3 - sumN K2 g3).
Proof.
  intros [H1 H2] H3 A B C D. pose proof (sumN_range 0 K1 f g1 ltac:(lia) ltac:(intros; apply A; lia)) as R1.
  pose proof (sumN_range K1 K2 f g2 H1 B) as R2. pose proof (sumN_range K2 K3 f g3 H2 C) as R3.
  pose proof (sumN_range K3 N f (fun _ => 0) H3 D) as R4. rewrite !(sumN_zero _ (fun _ => 0)) in R4 by auto. cbn [sumN] in R1. lra.
Qed.

Section Even.
  Variables (h : R) (M Q : nat) (pl : R).
  Hypothesis Hh : 0 < h.
  Hypothesis HM : (3 <= M)%nat.
  Hypothesis HQ : (1 <= Q)%nat.
  Notation P := (2 * Q)%nat.
  Lemma INR_Q : 1 <= INR Q. Proof. now apply INR_pos'. Qed.
  Definition dd := / (2 * INR Q).
  Lemma rho_dd k : rho_k P k = (INR k + / 2) * dd.
  Proof. unfold rho_k, dd. rewrite mult_INR. cbn [INR]. replace (1 + 1) with 2 by lra. reflexivity. Qed.
  (** which half-cell a particle is in *)
  Lemma below_half a k : (k < a * Q)%nat -> rho_k P k < INR a / 2.
  Proof.
    intros Hk. rewrite rho_dd. unfold dd. pose proof INR_Q. assert (X : (S k <= a * Q)%nat) by lia. apply le_INR in X. rewrite S_INR, mult_INR in X.
    apply (Rmult_lt_reg_r (2 * INR Q)); [lra|]. rewrite Rmult_assoc, Rinv_l by lra. replace (INR a / 2 * (2 * INR Q)) with (INR a * INR Q) by field. lra.
  Qed.
  Lemma above_half a k : (a * Q <= k)%nat -> INR a / 2 < rho_k P k.
  Proof.
    intros Hk. rewrite rho_dd. unfold dd. pose proof INR_Q. apply le_INR in Hk. rewrite mult_INR in Hk.
    apply (Rmult_lt_reg_r (2 * INR Q)); [lra|]. rewrite Rmult_assoc, Rinv_l by lra. replace (INR a / 2 * (2 * INR Q)) with (INR a * INR Q) by field. lra.
  Qed.
  Ltac half a k H := first [pose proof (below_half a k H) | pose proof (above_half a k H)].
  Lemma M3 : 3 <= INR M. Proof. apply (le_INR 3) in HM. cbn in HM. lra. Qed.

  Lemma axis_sum0 : sumN (M * P) (fun k => rho_k P k * node_share (S M) 1 (rho_k P k) 0) = INR P * ((13 + 2 * (1 / INR P) ^ 2) / 64).
  Proof.
    pose proof INR_Q. pose proof M3.
    assert (Sh : forall k, (k < M * P)%nat -> node_share (S M) 1 (rho_k P k) 0 = spline2 (rho_k P k)).
    { intros k Hk. unfold node_share. cbn [Nat.eqb INR]. replace (0 =? S M - 1)%nat with false by (symmetry; apply Nat.eqb_neq; lia).
      replace (S M - 1)%nat with M by lia. assert (R1 : 0 < rho_k P k < INR M) by (apply rho_k_range; auto; lia).
      cbv iota. rewrite (sp_outI (rho_k P k - (2 * INR M - 0))) by lra. rewrite Rminus_0_r. destruct M; ring. }
    rewrite (sumN_pieces (1 * Q) (3 * Q) (3 * Q) (M * P) _
      (fun k => (3 / 4) * ((INR k + / 2) * dd) + 0 * ((INR k + / 2) * dd) ^ 2 + (-1) * ((INR k + / 2) * dd) ^ 3)
      (fun k => (9 / 8) * ((INR k + / 2) * dd) + (-3 / 2) * ((INR k + / 2) * dd) ^ 2 + (1 / 2) * ((INR k + / 2) * dd) ^ 3)
      (fun k => 0)); [| nia | nia | | | lia | ].
    - rewrite !sum_cubic, !mult_INR. unfold dd. cbn [INR]. rewrite sumN_zero by auto. replace (1 + 1 + 1) with 3 by lra. replace (1 + 1) with 2 by lra. field. lra.
    - intros k Hk. half 1%nat k Hk. rewrite Sh by nia. assert (0 < rho_k P k) by (apply (rho_k_range M P); [lia|lia|nia]). cbn [INR] in *. rewrite sp_midI by lra. rewrite rho_dd. field.
    - intros k [K1 K2]. pose proof (above_half 1 k K1). pose proof (below_half 3 k K2). rewrite Sh by nia. cbn [INR] in *. rewrite sp_pos by lra. rewrite rho_dd. field.
    - intros k [K1 K2]. pose proof (above_half 3 k K1). rewrite Sh by nia. cbn [INR] in *. rewrite sp_outI by lra. ring.
  Qed.
  Lemma axis_sum1 : sumN (M * P) (fun k => rho_k P k * node_share (S M) 1 (rho_k P k) 1) = INR P * ((193 + 2 * (1 / INR P) ^ 2) / 192).
  Proof.
    pose proof INR_Q. pose proof M3.
    assert (Sh : forall k, (k < M * P)%nat -> node_share (S M) 1 (rho_k P k) 1 = spline2 (rho_k P k - 1) + spline2 (rho_k P k + 1)).
    { intros k Hk. unfold node_share. cbn [Nat.eqb INR]. replace (S M - 1)%nat with M by lia. destruct M as [|[|m]]; try lia. cbn [Nat.eqb].
      assert (R1 : 0 < rho_k P k < INR (S (S m))) by (apply rho_k_range; auto; lia).
      rewrite (sp_outI (rho_k P k - (2 * _ - 1))) by lra. ring. }
    rewrite (sumN_pieces (1 * Q) (3 * Q) (5 * Q) (M * P) _
      (fun k => (1 / 4) * ((INR k + / 2) * dd) + 0 * ((INR k + / 2) * dd) ^ 2 + 1 * ((INR k + / 2) * dd) ^ 3)
      (fun k => (-1 / 4) * ((INR k + / 2) * dd) + 2 * ((INR k + / 2) * dd) ^ 2 + (-1) * ((INR k + / 2) * dd) ^ 3)
      (fun k => (25 / 8) * ((INR k + / 2) * dd) + (-5 / 2) * ((INR k + / 2) * dd) ^ 2 + (1 / 2) * ((INR k + / 2) * dd) ^ 3)); [| nia | nia | | | | ].
    - rewrite !sum_cubic, !mult_INR. unfold dd. cbn [INR]. replace (1 + 1 + 1 + 1 + 1) with 5 by lra. replace (1 + 1 + 1) with 3 by lra. replace (1 + 1) with 2 by lra. field. lra.
    - intros k Hk. pose proof (below_half 1 k Hk). rewrite Sh by nia. assert (0 < rho_k P k) by (apply (rho_k_range M P); [lia|lia|nia]). cbn [INR] in *.
      rewrite (sp_neg (rho_k P k - 1)), (sp_pos (rho_k P k + 1)) by lra. rewrite rho_dd. field.
    - intros k [K1 K2]. pose proof (above_half 1 k K1). pose proof (below_half 3 k K2). rewrite Sh by nia. cbn [INR] in *.
      rewrite (sp_midI (rho_k P k - 1)), (sp_outI (rho_k P k + 1)) by lra. rewrite rho_dd. field.
    - intros k [K1 K2]. pose proof (above_half 3 k K1). pose proof (below_half 5 k K2). rewrite Sh by nia. cbn [INR] in *.
      rewrite (sp_pos (rho_k P k - 1)), (sp_outI (rho_k P k + 1)) by lra. rewrite rho_dd. field.
    - intros k [K1 K2]. pose proof (above_half 5 k K1). rewrite Sh by nia. cbn [INR] in *.
      rewrite (sp_outI (rho_k P k - 1)), (sp_outI (rho_k P k + 1)) by lra. ring.
  Qed.
  Lemma uniform_axis j : (j <= 1)%nat ->
    d_rho (per_volume (cell_volume h P (S M)) (deposit2 h (S M) (init_electrons (INR M * h) h P (fun _ => 1) pl))) j = -1.
  Proof.
    intros Hj. rewrite uniform_dens by (auto; lia). pose proof PI_RGT_0. assert (HPr : 1 <= INR P) by (apply INR_pos'; lia).
    pose proof (pow2_ge_0 (1 / INR P)) as Hq. unfold cell_volume.
    assert (j = 0 \/ j = 1)%nat as [-> | ->] by lia.
    - rewrite axis_sum0. replace (0 =? S M - 1)%nat with false by (symmetry; apply Nat.eqb_neq; lia). cbn [Nat.eqb].
      set (e := (1 / INR P) ^ 2) in *. field. repeat split; lra.
    - rewrite axis_sum1. replace (1 =? S M - 1)%nat with false by (symmetry; apply Nat.eqb_neq; lia). cbn [Nat.eqb INR].
      set (e := (1 / INR P) ^ 2) in *. field. repeat split; lra.
  Qed.
End Even.
