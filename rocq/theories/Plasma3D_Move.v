(** Lemmas for C30, C31: the 3D plasma mover and the deposition. *)
From Coq Require Import Reals ZArith List Bool Lra Lia Psatz.
From Verif Require Import Beam2D_Model Beam2D_Spec Beam2D_Free Plasma2D_Model Plasma2D_Ode Shape_Model Shape_Spec Shape_Proofs Plasma3D_Model Plasma3D_Spec.
Import ListNotations.
Open Scope R_scope.

(** ** The wall *)
Lemma finish_within b X prev full pm d : let p := finish3 b X prev full pm d in
  t_x0 full = t_x0 prev -> t_y0 full = t_y0 prev ->
  (within b p /\ t_q p = t_q full) \/ absorbed p.
Proof.
  intros p Ex Ey. subst p. unfold finish3. destruct pm as [[px py] pz], d as [[dpx dpy] dpz].
  set (dx' := reflect_off _ _ _). set (dy' := reflect_off _ (t_y0 prev) _).
  destruct (Rle_dec b (t_x0 prev + dx')); cbn [orb]; [right; unfold absorbed; cbn; auto 10|].
  destruct (Rle_dec (t_x0 prev + dx') (- b)); cbn [orb]; [right; unfold absorbed; cbn; auto 10|].
  destruct (Rle_dec b (t_y0 prev + dy')); cbn [orb]; [right; unfold absorbed; cbn; auto 10|].
  destruct (Rle_dec (t_y0 prev + dy') (- b)); cbn [orb]; [right; unfold absorbed; cbn; auto 10|].
  left. split; [|reflexivity]. unfold within, at_x, at_y. cbn [t_x0 t_dx t_y0 t_dy]. rewrite Ex, Ey. split; apply Rabs_def1; lra.
Qed.
Lemma finish_same b X prev full pm d : same_particle full (finish3 b X prev full pm d).
Proof.
  unfold finish3. destruct pm as [[px py] pz], d as [[dpx dpy] dpz]. destruct (orb _ _); cbn; unfold same_particle; cbn; auto.
Qed.

Lemma smart_unfold n h b X f prev full : t_q full <> 0 -> exists pm d, move_smart1 n h b X f prev full = finish3 b X prev full pm d.
Proof.
  intros Hq. unfold move_smart1. destruct (Req_EM_T (t_q full) 0); [tauto|].
  destruct (reflect1 b (t_x0 prev + _)) as [x fx], (reflect1 b (t_y0 prev + _)) as [y fy]. eauto.
Qed.
Lemma smart_dead n h b X f prev full : t_q full = 0 -> move_smart1 n h b X f prev full = full.
Proof. intros Hq. unfold move_smart1. destruct (Req_EM_T (t_q full) 0); tauto. Qed.
Lemma smart_same n h b X f prev full : same_particle full (move_smart1 n h b X f prev full).
Proof.
  destruct (Req_dec (t_q full) 0) as [E|E]; [rewrite smart_dead by auto; unfold same_particle; auto|].
  destruct (smart_unfold n h b X f prev full E) as [pm [d ->]]. apply finish_same.
Qed.
Lemma smart_charge n h b X f prev full : t_x0 full = t_x0 prev -> t_y0 full = t_y0 prev -> let p := move_smart1 n h b X f prev full in
  (t_q full = 0 /\ p = full) \/ (t_q full <> 0 /\ t_q p = t_q full /\ within b p) \/ (t_q full <> 0 /\ absorbed p).
Proof.
  intros Ex Ey p. subst p. destruct (Req_dec (t_q full) 0) as [E|E]; [left; now rewrite smart_dead|right].
  destruct (smart_unfold n h b X f prev full E) as [pm [d ->]]. destruct (finish_within b X prev full pm d Ex Ey) as [[A B]|A]; auto.
Qed.

(** where a position ends after the wall: mirrored once per wall, if that brings it inside *)
Lemma reflect1_val b x : 0 < b -> reflect1 b x =
  if Rle_dec (- b) x then if Rle_dec x b then (x, false) else if Rle_dec x (3 * b) then (2 * b - x, true) else (x - 4 * b, true)
  else (-2 * b - x, true).
Proof.
  intros Hb. unfold reflect1. destruct (Rlt_dec b x).
  - destruct (Rle_dec (- b) x); [|lra]. destruct (Rle_dec x b); [lra|]. destruct (Rlt_dec (2 * b - x) (- b)); destruct (Rle_dec x (3 * b)); try lra; f_equal; lra.
  - destruct (Rlt_dec x (- b)); destruct (Rle_dec (- b) x); try lra; [f_equal; lra|]. destruct (Rle_dec x b); [reflexivity|lra].
Qed.

(** ** One layer *)
Lemma free_same X p : same_particle p (move_free1 X p).
Proof. unfold move_free1, same_particle. destruct (Req_EM_T (t_m p) 0); cbn; auto. Qed.
Lemma free_q X p : t_q (move_free1 X p) = t_q p.
Proof. unfold move_free1. destruct (Req_EM_T (t_m p) 0); reflexivity. Qed.
Lemma free_absorbed X p : t_px p = 0 -> t_py p = 0 -> move_free1 X p = p.
Proof.
  intros A B. unfold move_free1. destruct (Req_EM_T (t_m p) 0); [reflexivity|].
  destruct p; cbn in *. subst. f_equal; unfold Rdiv; ring.
Qed.
Lemma same_trans a b c : same_particle a b -> same_particle b c -> same_particle a c.
Proof. unfold same_particle. intuition congruence. Qed.
Lemma same_refl a : same_particle a a.
Proof. unfold same_particle; auto. Qed.

(** what happens to one particle in one layer, the noise filter apart *)
Definition layer1 n h b X f1 f2 f3 p :=
  let p1 := move_smart1 n h b X f1 p (move_free1 X p) in
  let p2 := move_smart1 n h b X f2 p p1 in move_smart1 n h b X f3 p p2.
Lemma layer1_same n h b X f1 f2 f3 p : same_particle p (layer1 n h b X f1 f2 f3 p).
Proof.
  unfold layer1. eapply same_trans; [|apply smart_same]. eapply same_trans; [|apply smart_same].
  eapply same_trans; [apply free_same|apply smart_same].
Qed.
Lemma layer1_charge n h b X f1 f2 f3 p : let p' := layer1 n h b X f1 f2 f3 p in
  (t_q p = 0 /\ p' = move_free1 X p) \/ (t_q p <> 0 /\ t_q p' = t_q p /\ within b p') \/ (t_q p <> 0 /\ absorbed p').
Proof.
  cbn zeta. unfold layer1. set (p0 := move_free1 X p). assert (S0 : same_particle p p0) by apply free_same.
  set (p1 := move_smart1 n h b X f1 p p0). assert (S1 : same_particle p p1) by (eapply same_trans; [exact S0|apply smart_same]).
  set (p2 := move_smart1 n h b X f2 p p1). assert (S2 : same_particle p p2) by (eapply same_trans; [exact S1|apply smart_same]).
  assert (Q0 : t_q p0 = t_q p) by apply free_q.
  assert (A1 := smart_charge n h b X f1 p p0 (proj1 S0) (proj1 (proj2 S0))). fold p1 in A1. cbn zeta in A1.
  assert (A2 := smart_charge n h b X f2 p p1 (proj1 S1) (proj1 (proj2 S1))). fold p2 in A2. cbn zeta in A2.
  assert (A3 := smart_charge n h b X f3 p p2 (proj1 S2) (proj1 (proj2 S2))). cbn zeta in A3.
  assert (Ab : forall q, absorbed q -> t_q q = 0) by (unfold absorbed; tauto).
  set (p3 := move_smart1 n h b X f3 p p2) in *. rewrite Q0 in A1.
  destruct A1 as [[Z1 E1]|[[Z1 [E1 W1]]|[Z1 E1]]].
  - left. split; [auto|]. rewrite E1 in *. destruct A2 as [[Z2 E2]|[[Z2 _]|[Z2 _]]]; try congruence. rewrite E2 in *.
    destruct A3 as [[Z3 E3]|[[Z3 _]|[Z3 _]]]; congruence.
  - destruct A2 as [[Z2 E2]|[[Z2 [E2 W2]]|[Z2 E2]]]; [congruence| |].
    + destruct A3 as [[Z3 E3]|[[Z3 [E3 W3]]|[Z3 E3]]]; [congruence| |right; right; auto]. right. left. split; [auto|]. split; [congruence|auto].
    + right; right. split; [auto|]. destruct A3 as [[Z3 E3]|[[Z3 _]|[Z3 _]]]; [now rewrite E3|rewrite (Ab _ E2) in Z3; tauto|rewrite (Ab _ E2) in Z3; tauto].
  - right; right. split; [auto|]. destruct A2 as [[Z2 E2]|[[Z2 _]|[Z2 _]]]; try (rewrite (Ab _ E1) in Z2; tauto). rewrite E2 in *.
    destruct A3 as [[Z3 E3]|[[Z3 _]|[Z3 _]]]; [now rewrite E3|rewrite (Ab _ E1) in Z3; tauto|rewrite (Ab _ E1) in Z3; tauto].
Qed.

Section Layer.
  Variables (average : arr2 -> arr2) (s : solver3) (rf rp : arr2).
  Notation step := (step_dxi3 average s rf rp).
  Lemma step_parts pp fp cp : exists f1 f2 f3, forall i j,
    let L := layer1 (Z.of_nat (u_n s)) (u_h s) (u_b s) (u_xi s) f1 f2 f3 in
    let ps := fst (fst (step (pp, fp, cp))) in
    K_ ps = K_ pp /\
    (u_decl s = false -> el ps i j = L (el pp i j)) /\
    (exists mx my cx cy, el ps i j = if u_decl s then (let p := L (el pp i j) in
        mkT (t_x0 p) (t_y0 p) (t_dx p) (t_dy p) (t_px p + mx) (t_py p + my) (t_pz p) (t_q p) (t_m p) cx cy) else L (el pp i j)) /\
    io ps i j = match u_ions s with Background3 _ => io pp i j | Mobile3 => L (io pp i j) end.
  Proof.
    unfold step_dxi3. set (rhoj := compute_rhoj3 _ _ _). 
    set (p1 := move_smart s fp pp (move_free s pp)).
    set (fh1 := snd (compute_fields3 _ _ _ _ _ _ _ _ _ (rhoj p1))).
    set (p2 := move_smart s fh1 pp p1).
    destruct (compute_fields3 _ _ _ _ _ _ _ _ _ (rhoj p2)) as [ff fh2]. cbn [fst].
    exists fp, fh1, fh2. intros i j. set (L := layer1 _ _ _ _ fp fh1 fh2).
    assert (KK : K_ (move_smart s fh2 pp p2) = K_ pp) by reflexivity.
    assert (EE : forall i j, el (move_smart s fh2 pp p2) i j = L (el pp i j)) by reflexivity.
    assert (II : io (move_smart s fh2 pp p2) i j = match u_ions s with Background3 _ => io pp i j | Mobile3 => L (io pp i j) end).
    { unfold p2, p1, move_smart, move_free, map_sorts. cbn [io el K_]. destruct (u_ions s); reflexivity. }
    destruct (u_decl s); cbn [K_ el io].
    - split; [exact KK|]. split; [discriminate|]. split; [|exact II]. unfold noise_filter. rewrite EE.
      eexists _, _, _, _. reflexivity.
    - split; [exact KK|]. split; [auto|]. split; [|exact II]. exists 0, 0, 0, 0. apply EE.
  Qed.
End Layer.

(** ** Deposition *)
Lemma zero_cell (a b : Z) : zero_grid a b = 0. Proof. reflexivity. Qed.
Lemma deposit_one_gen n h p v a b g : h <> 0 ->
  deposit_one n h ((t_x0 p + t_dx p) / h + 0.5) ((t_y0 p + t_dy p) / h + 0.5) (fun w => v * w) g a b =
  g a b + v * shape n h (at_x p) (at_y p) a b / h ^ 2.
Proof.
  intros Hh. rewrite deposit_one_val; [unfold at_x, at_y; now rewrite Rmult_1_r|exact Hh|ring|intros; ring].
Qed.
Lemma deposit_plasma_one_val n h o p a b : h <> 0 ->
  c_ro (deposit_plasma_one n h o p) a b = c_ro o a b + rho_of p * shape n h (at_x p) (at_y p) a b / h ^ 2 /\
  c_jx (deposit_plasma_one n h o p) a b = c_jx o a b + rho_of p * vx_of p * shape n h (at_x p) (at_y p) a b / h ^ 2 /\
  c_jy (deposit_plasma_one n h o p) a b = c_jy o a b + rho_of p * vy_of p * shape n h (at_x p) (at_y p) a b / h ^ 2 /\
  c_jz (deposit_plasma_one n h o p) a b = c_jz o a b + rho_of p * vz_of p * shape n h (at_x p) (at_y p) a b / h ^ 2.
Proof.
  intros Hh. unfold deposit_plasma_one, rho_of, vx_of, vy_of, vz_of, energy3. destruct (Req_EM_T (t_q p) 0) as [E|E].
  - rewrite E. unfold Rdiv. rewrite !Rmult_0_l. repeat split; ring.
  - cbn [c_ro c_jx c_jy c_jz]. rewrite !deposit_one_gen by auto. unfold gamma3. repeat split; unfold Rdiv; ring.
Qed.
Lemma deposit_plasma_val n h l a b : h <> 0 -> let o := deposit_plasma n h l in
  c_ro o a b = cell_sum n h rho_of l a b /\
  c_jx o a b = cell_sum n h (fun p => rho_of p * vx_of p) l a b /\
  c_jy o a b = cell_sum n h (fun p => rho_of p * vy_of p) l a b /\
  c_jz o a b = cell_sum n h (fun p => rho_of p * vz_of p) l a b.
Proof.
  intros Hh. cbn zeta. unfold deposit_plasma, cell_sum.
  assert (G : forall l o, 
    c_ro (fold_left (deposit_plasma_one n h) l o) a b = c_ro o a b + cell_sum n h rho_of l a b /\
    c_jx (fold_left (deposit_plasma_one n h) l o) a b = c_jx o a b + cell_sum n h (fun p => rho_of p * vx_of p) l a b /\
    c_jy (fold_left (deposit_plasma_one n h) l o) a b = c_jy o a b + cell_sum n h (fun p => rho_of p * vy_of p) l a b /\
    c_jz (fold_left (deposit_plasma_one n h) l o) a b = c_jz o a b + cell_sum n h (fun p => rho_of p * vz_of p) l a b).
  { unfold cell_sum. induction l0 as [|p l0 IH]; intros o; cbn [fold_left map sumR]; [lra|].
    destruct (IH (deposit_plasma_one n h o p)) as (A & B & C & D). destruct (deposit_plasma_one_val n h o p a b Hh) as (A' & B' & C' & D').
    unfold sumR in *. cbn [fold_right]. rewrite A, B, C, D, A', B', C', D'. repeat split; ring. }
  destruct (G l zero_dens3) as (A & B & C & D). unfold cell_sum in *. rewrite A, B, C, D. cbn. rewrite !zero_cell. lra.
Qed.

Lemma energy_gt p : t_m p <> 0 -> Rabs (t_pz p) < energy3 p.
Proof.
  intros Hm. unfold energy3. rewrite <- sqrt_Rsqr_abs. apply sqrt_lt_1; [apply Rle_0_sqr| |]; unfold Rsqr; pose proof (pow2_ge_0 (t_px p));
  pose proof (pow2_ge_0 (t_py p)); pose proof (pow2_ge_0 (t_pz p)); assert (0 < t_m p ^ 2) by (rewrite <- Rsqr_pow2; apply Rsqr_pos_lt; auto); nra.
Qed.
Lemma rho_minus_jz p : t_m p <> 0 -> rho_of p - rho_of p * vz_of p = t_q p.
Proof.
  intros Hm. pose proof (energy_gt p Hm) as G. unfold rho_of, vz_of. pose proof (Rabs_pos (t_pz p)). apply Rabs_def2 in G.
  field. lra.
Qed.
Lemma gsum_sumR {X} n (F : X -> grid) l : gsum n (fun a b => sumR (map (fun p => F p a b) l)) = sumR (map (fun p => gsum n (F p)) l).
Proof.
  induction l as [|p l IH]; cbn [map].
  - unfold sumR. cbn [fold_right]. rewrite (gsum_ext n _ (fun a b => 0 * 0)) by (intros; ring). rewrite gsum_scal. ring.
  - unfold sumR in *. cbn [fold_right]. rewrite gsum_plus, IH. reflexivity.
Qed.
Lemma sumR_map_ext {X} (f g : X -> R) l : (forall p, In p l -> f p = g p) -> sumR (map f l) = sumR (map g l).
Proof. intros H. f_equal. now apply map_ext_in. Qed.
Lemma sumR_map_scal {X} c (f : X -> R) l : sumR (map (fun p => c * f p) l) = c * sumR (map f l).
Proof. unfold sumR. induction l as [|p l IH]; cbn [map fold_right]; [ring|rewrite IH; ring]. Qed.
Lemma sumR_map_plus {X} (f g : X -> R) l : sumR (map (fun p => f p + g p) l) = sumR (map f l) + sumR (map g l).
Proof. unfold sumR. induction l as [|p l IH]; cbn [map fold_right]; [ring|rewrite IH; ring]. Qed.
Lemma cell_sum_total n h f l : h <> 0 -> (forall p, In p l -> f p <> 0 -> inside (Z.of_nat n) h (at_x p) /\ inside (Z.of_nat n) h (at_y p)) ->
  h ^ 2 * gsum n (cell_sum (Z.of_nat n) h f l) = sumR (map f l).
Proof.
  intros Hh Hi. unfold cell_sum. rewrite (gsum_sumR n (fun p a b => f p * shape (Z.of_nat n) h (at_x p) (at_y p) a b / h ^ 2)).
  rewrite <- sumR_map_scal. apply sumR_map_ext. intros p Hp.
  rewrite (gsum_ext n _ (fun a b => f p / h ^ 2 * shape (Z.of_nat n) h (at_x p) (at_y p) a b)) by (intros; unfold Rdiv; ring).
  rewrite gsum_scal. destruct (Req_dec (f p) 0) as [E|E]; [rewrite E; unfold Rdiv; ring|].
  destruct (Hi p Hp E). rewrite shape_sum by auto. field. auto.
Qed.
Lemma deposit_total n h l : h <> 0 -> (forall p, In p l -> t_m p <> 0) ->
  (forall p, In p l -> t_q p <> 0 -> inside (Z.of_nat n) h (at_x p) /\ inside (Z.of_nat n) h (at_y p)) ->
  let o := deposit_plasma (Z.of_nat n) h l in
  h ^ 2 * gsum n (fun a b => c_ro o a b - c_jz o a b) = sumR (map t_q l).
Proof.
  intros Hh Hm Hi o.
  rewrite (gsum_ext n _ (cell_sum (Z.of_nat n) h (fun p => rho_of p - rho_of p * vz_of p) l)).
  - rewrite cell_sum_total; auto.
    + apply sumR_map_ext. intros p Hp. apply rho_minus_jz; auto.
    + intros p Hp. rewrite rho_minus_jz by auto. apply Hi; auto.
  - intros a b. destruct (deposit_plasma_val (Z.of_nat n) h l a b Hh) as (A & _ & _ & D). unfold o. rewrite A, D. unfold cell_sum.
    replace (sumR (map (fun p => rho_of p * shape (Z.of_nat n) h (at_x p) (at_y p) a b / h ^ 2) l)) with
      (sumR (map (fun p => (rho_of p - rho_of p * vz_of p) * shape (Z.of_nat n) h (at_x p) (at_y p) a b / h ^ 2) l) +
       sumR (map (fun p => rho_of p * vz_of p * shape (Z.of_nat n) h (at_x p) (at_y p) a b / h ^ 2) l)); [ring|].
    rewrite <- sumR_map_plus. apply sumR_map_ext. intros. unfold Rdiv. ring.
Qed.

(** ** The wall keeps the 25 cells inside the array *)
Lemma wall_inside N h pad x : 0 < h -> Nat.odd N = true -> (2 <= pad)%Z -> - wall N h pad <= x <= wall N h pad -> 
  (pad = 2%Z -> x < wall N h pad) -> inside (Z.of_nat N) h x.
Proof.
  intros Hh Ho Hp Hx Hs. apply Nat.odd_spec in Ho. destruct Ho as [k ->].
  unfold inside, wall in *. replace (Z.of_nat (2 * k + 1) / 2)%Z with (Z.of_nat k) by (rewrite Nat2Z.inj_add, Nat2Z.inj_mul; apply (Z.div_unique _ 2 _ 1); lia).
  replace (Z.of_nat (2 * k + 1) - 1 - Z.of_nat k)%Z with (Z.of_nat k) by lia. rewrite <- INR_IZR_INZ. rewrite plus_INR, mult_INR in *. cbn [INR] in *.
  set (K := INR k) in *. apply IZR_le in Hp as Hp'. 
  assert (E : x = x / h * h) by (field; lra). set (u := x / h) in *.
  assert (A : - ((K + 1 / 2) - IZR pad) <= u <= K + 1 / 2 - IZR pad) by (rewrite E in Hx; split; apply (Rmult_le_reg_r h); try lra; nra).
  split; [lra|]. destruct (Z.eq_dec pad 2) as [->|Hn].
  - specialize (Hs eq_refl). rewrite E in Hs. apply (Rmult_lt_reg_r h); nra.
  - assert (3 <= pad)%Z by lia. apply IZR_le in H. lra.
Qed.
Lemma within_inside N h pad p : 0 < h -> Nat.odd N = true -> (2 <= pad)%Z -> within (wall N h pad) p ->
  inside (Z.of_nat N) h (at_x p) /\ inside (Z.of_nat N) h (at_y p).
Proof.
  intros Hh Ho Hp [A B]. apply Rabs_def2 in A, B. split; apply (wall_inside N h pad); auto; lra.
Qed.
Lemma reflect1_range b x : 0 < b -> x <= 5 * b -> - 3 * b <= x -> - b <= fst (reflect1 b x) <= b.
Proof.
  intros Hb H1 H2. rewrite reflect1_val by auto. destruct (Rle_dec (- b) x); [|cbn; lra].
  destruct (Rle_dec x b); [cbn; lra|]. destruct (Rle_dec x (3 * b)); cbn; lra.
Qed.
Lemma ravel_In {X} K (a : nat -> nat -> X) p : In p (ravel K a) <-> exists i j, (i < K)%nat /\ (j < K)%nat /\ p = a i j.
Proof.
  unfold ravel. rewrite in_flat_map. split.
  - intros (i & Hi & H). apply in_map_iff in H. destruct H as (j & <- & Hj). apply in_seq in Hi, Hj. exists i, j. lia || (repeat split; lia).
  - intros (i & j & Hi & Hj & ->). exists i. split; [apply in_seq; lia|]. apply in_map_iff. exists j. split; auto. apply in_seq. lia.
Qed.
