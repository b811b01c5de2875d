From Coq Require Import Reals ZArith List Bool Lra Lia.
From Verif Require Import Beam2D_Spec Plasma2D_Model Shape_Model Shape_Spec Shape_Proofs Plasma3D_Model Plasma3D_Spec Plasma3D_Move Plasma3D_Push Plasma3D_Quiet
  Filter3D_Proofs Plasma2D_Ode Spectral Fields3D_Unique Fields3D_Top Props_Plasma3D Props_Plasma3D_Init Layer3D_Spec.
Import ListNotations.
Open Scope R_scope.

Lemma beyond1 b x : 0 < b -> (b < Rabs x <-> x < - b \/ b < x).
Proof. intros H. unfold Rabs. destruct (Rcase_abs x); split; intros; try destruct H0; lra. Qed.
Lemma mirror_reflect b x : 0 < b -> fst (reflect1 b x) = mirror b x.
Proof.
  intros H. unfold reflect1, mirror. cbn zeta. unfold Rmin, Rmax.
  destruct (Rlt_dec b x); destruct (Rle_dec x (2 * b - x)); try lra;
  match goal with |- context [Rlt_dec ?a (- b)] => destruct (Rlt_dec a (- b)) end;
  match goal with |- context [Rle_dec ?a ?c] => destruct (Rle_dec a c) end; cbn [fst]; lra.
Qed.
Lemma flag_reflect b x : 0 < b -> snd (reflect1 b x) = true <-> b < Rabs x.
Proof.
  intros H. rewrite beyond1 by auto. unfold reflect1. destruct (Rlt_dec b x); 
  match goal with |- context [Rlt_dec ?a (- b)] => destruct (Rlt_dec a (- b)) end; cbn [snd]; split; intros; try lra; try discriminate; auto.
Qed.
Lemma mirror_inside b x : 0 < b -> Rabs x <= b -> mirror b x = x.
Proof.
  intros H A. assert (- b <= x <= b) by (unfold Rabs in A; destruct (Rcase_abs x); lra). unfold mirror. cbn zeta.
  rewrite Rmin_left by lra. rewrite Rmax_left by lra. reflexivity.
Qed.
Lemma mirror_range b x : 0 < b -> - (3 * b) <= x <= 5 * b -> - b <= mirror b x <= b.
Proof. intros H A. rewrite <- mirror_reflect by auto. apply reflect1_range; auto; lra. Qed.
Lemma off_reflect b x0 dx : 0 < b -> x0 + reflect_off b x0 dx = mirror b (x0 + dx).
Proof.
  intros H. unfold reflect_off. destruct (reflect1 b (x0 + dx)) as [x g] eqn:E.
  assert (M := mirror_reflect b (x0 + dx) H). rewrite E in M. cbn [fst] in M. destruct g; [lra|].
  rewrite mirror_inside; auto. destruct (Rle_dec (Rabs (x0 + dx)) b) as [?|N]; [auto|].
  assert (F : snd (reflect1 b (x0 + dx)) = true) by (apply flag_reflect; auto; lra). rewrite E in F. discriminate.
Qed.
Lemma coast_ok X p : t_m p <> 0 -> coasted X p (move_free1 X p).
Proof.
  intros H. unfold move_free1. destruct (Req_EM_T (t_m p) 0); [tauto|]. unfold coasted, same_particle, mom. cbn.
  pose proof (drift_rate (t_m p) (t_px p, t_py p, t_pz p) H) as D. cbn zeta in D. destruct D as [D1 D2]. rewrite D1, D2.
  repeat split; auto; ring.
Qed.

(** ** One push *)
Lemma push_ok n h b X f prev guess : 0 < b -> t_m guess <> 0 ->
  (forall z, - b <= z <= b -> inside (Z.of_nat n) h z) ->
  (t_q guess <> 0 -> - (3 * b) <= t_x0 prev + (t_dx prev + t_dx guess) / 2 <= 5 * b /\ - (3 * b) <= t_y0 prev + (t_dy prev + t_dy guess) / 2 <= 5 * b) ->
  Layer3D_Spec.pushed n h b X f prev guess (move_smart1 (Z.of_nat n) h b X f prev guess).
Proof.
  intros Hb Hm HI HT. unfold Layer3D_Spec.pushed. split; [apply smart_same|].
  assert (CC : t_cx (move_smart1 (Z.of_nat n) h b X f prev guess) = t_cx guess /\ t_cy (move_smart1 (Z.of_nat n) h b X f prev guess) = t_cy guess).
  { destruct (Req_EM_T (t_q guess) 0) as [Z|Z]; [rewrite smart_dead by auto; auto|]. destruct (smart_unfold (Z.of_nat n) h b X f prev guess Z) as ([[px py] pz] & [[d1 d2] d3] & E).
    rewrite E. unfold finish3. match goal with |- context [if ?c then mkT _ _ _ _ _ _ _ _ _ _ _ else _] => destruct c end; split; reflexivity. }
  split; [apply CC|]. split; [apply CC|]. split; [apply smart_dead|]. intros Hq. cbn zeta. specialize (HT Hq).
  set (mx := t_x0 prev + (t_dx prev + t_dx guess) / 2) in *. set (my := t_y0 prev + (t_dy prev + t_dy guess) / 2) in *.
  destruct (field_at n h f (mirror b mx) (mirror b my)) as [E B] eqn:EB. destruct HT as [Tx Ty].
  assert (Rx := mirror_range b mx Hb Tx). assert (Ry := mirror_range b my Hb Ty).
  exists (if Rlt_dec b (Rabs mx) then (0, 0, 0) else if Rlt_dec b (Rabs my) then (0, 0, 0) else mom prev).
  split; [intros [A|A]; destruct (Rlt_dec b (Rabs mx)), (Rlt_dec b (Rabs my)); tauto|].
  split; [intros A; unfold beyond in A; destruct (Rlt_dec b (Rabs mx)), (Rlt_dec b (Rabs my)); tauto|].
  set (p0 := if Rlt_dec b (Rabs mx) then _ else _). 
  set (p1 := add3 (mom prev) (scale3 (X / 2) (rate_p (t_m guess) (t_q guess) E B p0))).
  set (d := scale3 X (rate_p (t_m guess) (t_q guess) E B p1)). set (pm := add3 (mom prev) (scale3 (1 / 2) d)).
  assert (EQ : move_smart1 (Z.of_nat n) h b X f prev guess = finish3 b X prev guess pm d).
  { unfold move_smart1. destruct (Req_EM_T (t_q guess) 0); [tauto|]. fold mx my.
    assert (M1 := mirror_reflect b mx Hb). assert (M2 := mirror_reflect b my Hb). assert (F1 := flag_reflect b mx Hb). assert (F2 := flag_reflect b my Hb).
    destruct (reflect1 b mx) as [x fx], (reflect1 b my) as [y fy]. cbn [fst snd] in *. subst x y.
    assert (P0 : (if (fx || fy)%bool then (0, 0, 0) else (t_px prev, t_py prev, t_pz prev)) = p0).
    { unfold p0, mom. destruct (Rlt_dec b (Rabs mx)) as [A|A]; [rewrite (proj2 F1 A); reflexivity|].
      destruct (Rlt_dec b (Rabs my)) as [A'|A']; [rewrite (proj2 F2 A'), orb_true_r; reflexivity|].
      destruct fx; [exfalso; apply A, F1; auto|]. destruct fy; [exfalso; apply A', F2; auto|]. reflexivity. }
    rewrite P0. set (e := fields_at3 _ _ _ _ _).
    assert (F : forall p, force3 (t_m guess) (t_q guess) X e p = scale3 X (rate_p (t_m guess) (t_q guess) E B p)).
    { intros p. unfold e, fields_at3. rewrite !gather_interpolate by (apply HI; assumption). 
      pose proof (force_rate (t_m guess) (t_q guess) X E B p) as G. unfold field_at in EB. injection EB as <- <-. exact G. }
    rewrite !F, !half_kick_add. change (t_px prev, t_py prev, t_pz prev) with (mom prev). unfold pm, d, p1. rewrite (scale_half X). reflexivity. }
  rewrite EQ. clear EQ. unfold finish3. 
  pose proof (drift_rate (t_m guess) pm Hm) as D. clearbody pm. clearbody d. destruct pm as [[px py] pz]. destruct d as [[d1 d2] d3]. cbn zeta in D. destruct D as [D1 D2]. rewrite D1, D2.
  set (x := at_x prev + X * rate_x (t_m guess) (px, py, pz)). set (y := at_y prev + X * rate_y (t_m guess) (px, py, pz)).
  replace (t_x0 prev + (t_dx prev + rate_x (t_m guess) (px, py, pz) * X)) with x by (unfold x, at_x; ring).
  replace (t_y0 prev + (t_dy prev + rate_y (t_m guess) (px, py, pz) * X)) with y by (unfold y, at_y; ring).
  rewrite !off_reflect by auto.
  replace (t_x0 prev + (t_dx prev + rate_x (t_m guess) (px, py, pz) * X)) with x by (unfold x, at_x; ring).
  replace (t_y0 prev + (t_dy prev + rate_y (t_m guess) (px, py, pz) * X)) with y by (unfold y, at_y; ring).
  assert (T : forall z, Rabs z < b <-> ~ b <= z /\ ~ z <= - b).
  { intros z. split; [intros H; apply Rabs_def2 in H; lra|intros [A C]; apply Rabs_def1; lra]. }
  split.
  - intros [Ax Ay]. apply T in Ax, Ay. destruct (Rle_dec b (mirror b x)); [tauto|]. destruct (Rle_dec (mirror b x) (- b)); [tauto|].
    destruct (Rle_dec b (mirror b y)); [tauto|]. destruct (Rle_dec (mirror b y) (- b)); [tauto|]. cbn [orb t_dx t_dy t_q].
    rewrite !off_reflect by auto.
    replace (t_x0 prev + (t_dx prev + rate_x (t_m guess) (px, py, pz) * X)) with x by (unfold x, at_x; ring).
    replace (t_y0 prev + (t_dy prev + rate_y (t_m guess) (px, py, pz) * X)) with y by (unfold y, at_y; ring).
    split; [reflexivity|]. split; [reflexivity|]. split; [reflexivity|]. unfold mom. cbn [t_px t_py t_pz].
    assert (F1 := flag_reflect b x Hb). assert (F2 := flag_reflect b y Hb). split.
    + intros [A|A]; [rewrite (proj2 F1 A)|rewrite (proj2 F2 A), orb_true_r]; reflexivity.
    + intros A. unfold beyond in A. destruct (snd (reflect1 b x)); [exfalso; apply A; left; tauto|]. destruct (snd (reflect1 b y)); [exfalso; apply A; right; tauto|]. reflexivity.
  - intros A. match goal with |- absorbed (if ?c then _ else _) => destruct c eqn:C end; [unfold absorbed; cbn; auto 10|]. exfalso. apply A.
    rewrite !T. destruct (Rle_dec b (mirror b x)), (Rle_dec (mirror b x) (- b)), (Rle_dec b (mirror b y)), (Rle_dec (mirror b y) (- b)); try discriminate; auto.
Qed.

(** ** Currents *)
Lemma spread_sum_ravel n K h f a u v : spread n K h f a u v = cell_sum (Z.of_nat n) h f (ravel K a) (Z.of_nat u) (Z.of_nat v).
Proof. unfold spread, cell_sum, array_sum. rewrite sumR_ravel. reflexivity. Qed.
Lemma carried_ok s p : u_h s <> 0 -> carried_by s p (compute_rhoj3 (Z.of_nat (u_n s)) (u_h s) (u_ions s) p).
Proof.
  intros Hh. unfold carried_by. cbn zeta.
  assert (A := fun a b => deposit_plasma_val (Z.of_nat (u_n s)) (u_h s) (ravel (K_ p) (el p)) a b Hh). cbn zeta in A.
  assert (B := fun a b => deposit_plasma_val (Z.of_nat (u_n s)) (u_h s) (ravel (K_ p) (io p)) a b Hh). cbn zeta in B.
  split; [|split; [|split]]; intros u v Hu Hv; unfold total3, compute_rhoj3; cbn [r_e r_i]; rewrite spread_sum_ravel;
  destruct (A (Z.of_nat u) (Z.of_nat v)) as (A1 & A2 & A3 & A4); destruct (B (Z.of_nat u) (Z.of_nat v)) as (B1 & B2 & B3 & B4);
  (rewrite A1 || rewrite A2 || rewrite A3 || rewrite A4); f_equal; destruct (u_ions s); cbn [c_ro c_jx c_jy c_jz]; rewrite ?spread_sum_ravel; auto.
Qed.
(** ** Fields *)
Lemma fields_ok N L h X coeff it fp rb rbp cp c : N = (L + 1)%nat -> (2 <= L)%nat -> h <> 0 -> 0 <= coeff ->
  let r := compute_fields3 N h X coeff it fp rb rbp cp c in fields_of L h X coeff it fp rb rbp cp c (fst r) (snd r).
Proof.
  intros -> HL Hh Hc r.
  destruct (C32_Ez L h X coeff it fp rb rbp cp c HL Hh) as [[Z1 Z2] _].
  destruct (C32_Phi L h X coeff it fp rb rbp cp c HL Hh) as [[P1 P2] _].
  destruct (C32_Bz L h X coeff it fp rb rbp cp c HL Hh) as [[B1 B2] _].
  destruct (C32_transverse L h X coeff it fp rb rbp cp c HL Hh Hc) as (T1 & T2 & T3 & T4 & T5).
  assert (A := fun i j => C32_half_is_average L h X coeff it fp rb rbp cp c i j). fold r in Z1, Z2, P1, P2, B1, B2, T1, T2, T3, T4, T5, A.
  assert (PH : Phi (snd r) = Phi (fst r)).
  { unfold r, compute_fields3. destruct (calculate_Ex_Ey_Bx_By _ _ _ _ _ _ _ _ _) as [[[ex ey] bx] b_y]. reflexivity. }
  clearbody r. destruct r as [full half]. cbn [fst snd] in *. unfold fields_of. cbn zeta.
  split; [split; [intros a _; apply Z1|exact Z2]|]. split; [split; [intros a _; apply P1|exact P2]|].
  split; [split; [exact B1|exact B2]|].
  split; [split; [intros a _; split; apply T5|exact T1]|]. split; [split; [intros a _; split; apply T5|exact T2]|].
  split; [split; [intros a _; split; apply T5|exact T3]|]. split; [split; [intros a _; split; apply T5|exact T4]|].
  split; [|intros i j _ _; now rewrite PH].
  intros F HF i j _ _. specialize (A i j). cbn zeta in A. destruct A as (A1 & A2 & A3 & A4 & A5 & A6).
  cbn [In] in HF. destruct HF as [<-|[<-|[<-|[<-|[<-|[<-|[]]]]]]]; assumption.
Qed.
(** ** Noise filter *)
Lemma bend_ok K d j : (3 <= K)%nat -> (j < K)%nat -> inhomogeneity1 K d j = bend K d j.
Proof.
  intros HK Hj. unfold inhomogeneity1, bend. cbn zeta.
  assert (NZ : forall x y z, (nz x && nz y && nz z)%bool = true <-> x * y * z <> 0).
  { intros x y z. unfold nz. split.
    - destruct (Req_EM_T x 0), (Req_EM_T y 0), (Req_EM_T z 0); try discriminate. intros _ H. apply Rmult_integral in H. destruct H as [H|H]; [apply Rmult_integral in H|]; tauto.
    - intros H. destruct (Req_EM_T x 0) as [->|]; [exfalso; apply H; ring|]. destruct (Req_EM_T y 0) as [->|]; [exfalso; apply H; ring|].
      destruct (Req_EM_T z 0) as [->|]; [exfalso; apply H; ring|]. reflexivity. }
  assert (S : forall x y z x' y' z' e e', x * y * z = x' * y' * z' -> e = e' -> (if (nz x && nz y && nz z)%bool then e else 0) = if Req_EM_T (x' * y' * z') 0 then 0 else e').
  { intros x y z x' y' z' e e' E1 E2. destruct (nz x && nz y && nz z)%bool eqn:Q.
    - apply NZ in Q. destruct (Req_EM_T _ 0); [congruence|auto].
    - destruct (Req_EM_T (x' * y' * z') 0) as [?|N]; [auto|]. rewrite <- E1 in N. apply NZ in N. congruence. }
  destruct (Nat.eqb_spec j 0) as [->|J0].
  - replace (Nat.max 1 (Nat.min 0 (K - 2))) with 1%nat by lia. cbn [Nat.eqb Nat.sub Nat.add]. apply S; [reflexivity|lra].
  - destruct (Nat.eqb_spec j (K - 1)) as [->|J1].
    + replace (Nat.max 1 (Nat.min (K - 1) (K - 2))) with (K - 2)%nat by lia. replace (K - 2 - 1)%nat with (K - 3)%nat by lia. replace (K - 2 + 1)%nat with (K - 1)%nat by lia.
      destruct (Nat.eqb_spec (K - 1) (K - 2)); [lia|]. apply S; [ring|lra].
    + replace (Nat.max 1 (Nat.min j (K - 2))) with j by lia. rewrite Nat.eqb_refl. apply S; [ring|lra].
Qed.
Lemma rough_ok K a : (3 <= K)%nat -> each K (fun i j => inhomogeneity K a i j = roughness K a i j).
Proof. intros HK i j Hi Hj. unfold inhomogeneity, roughness, ax0, ax1. rewrite !bend_ok by auto. reflexivity. Qed.
Lemma handed_ok K w i : (3 <= K)%nat -> (i < K)%nat -> spread1 K w i = handed K w i.
Proof.
  intros HK Hi. unfold spread1, handed, inner_of. destruct i as [|i].
  - destruct K as [|[|[|K]]]; try lia. cbn. lra.
  - replace (S i - 1)%nat with i by lia.
    destruct (Nat.leb_spec 1 (S i)); [|lia]. destruct (Nat.leb_spec 1 (S i + 1)); [|lia]. cbn [andb].
    destruct (Nat.ltb_spec (S i) (K - 1)), (Nat.leb_spec (S i) (K - 2)); try lia;
    destruct (Nat.leb_spec 2 (S i)), (Nat.leb_spec 1 i); try lia;
    destruct (Nat.ltb_spec (S i) K), (Nat.leb_spec i (K - 2)); try lia;
    destruct (Nat.ltb_spec (S i) (K - 2)), (Nat.leb_spec (S i + 1) (K - 2)); try lia; cbn [andb]; lra.
Qed.
Lemma handed_ext K w w' i : (i < K)%nat -> (forall k, (k < K)%nat -> w k = w' k) -> handed K w i = handed K w' i.
Proof.
  intros Hi H. unfold handed, inner_of. f_equal; [f_equal|].
  - destruct (_ && _)%bool; [rewrite H by auto|]; reflexivity.
  - destruct i as [|i]; [reflexivity|]. destruct (_ && _)%bool; [rewrite H by lia|]; reflexivity.
  - destruct ((1 <=? i + 1) && (i + 1 <=? K - 2))%nat eqn:E; [|reflexivity]. apply andb_prop in E. destruct E as [_ E]. apply Nat.leb_le in E.
    destruct (le_lt_dec K (i + 1)); [lia|]. rewrite H by auto. reflexivity.
Qed.
Lemma filter_ok average K X coef damp dmax a prev : (3 <= K)%nat -> 0 < dmax -> local K average ->
  smoothed average K X coef damp dmax prev a (noise_filter average K X coef damp dmax a prev).
Proof.
  intros HK Hd Hl. unfold smoothed. cbn zeta. intros i j Hi Hj. 
  split; [unfold same_particle; auto|]. do 4 (split; [reflexivity|]).
  set (b := noise_filter average K X coef damp dmax a prev).
  assert (CX : each K (fun i j => t_cx (b i j) = roughness K (fun i j => t_dx (a i j)) i j - average (roughness K (fun i j => t_dx (a i j))) i j)).
  { intros i' j' Hi' Hj'. unfold b, noise_filter. cbn [t_cx]. rewrite rough_ok by auto. f_equal. apply Hl; auto. now apply rough_ok. }
  assert (CY : each K (fun i j => t_cy (b i j) = roughness K (fun i j => t_dy (a i j)) i j - average (roughness K (fun i j => t_dy (a i j))) i j)).
  { intros i' j' Hi' Hj'. unfold b, noise_filter. cbn [t_cy]. rewrite rough_ok by auto. f_equal. apply Hl; auto. now apply rough_ok. }
  split; [now apply CX|]. split; [now apply CY|].
  split.
  - transitivity (t_px (a i j) + momentum_change K X coef damp dmax (fun i j => t_cx (b i j)) (fun i j => t_cx (prev i j)) (fun i j => t_cx (b i j)) (fun i j => t_cy (b i j)) i j); [reflexivity|].
    f_equal. unfold momentum_change, ax0, ax1. rewrite !handed_ok by auto. f_equal; [f_equal|]; [apply handed_ext; auto; intros; rewrite fade_limit by auto; ring|apply handed_ext; auto; intros; rewrite fade_limit by auto; ring|].
    rewrite fade_limit by auto. ring.
  - transitivity (t_py (a i j) + momentum_change K X coef damp dmax (fun i j => t_cy (b i j)) (fun i j => t_cy (prev i j)) (fun i j => t_cx (b i j)) (fun i j => t_cy (b i j)) i j); [reflexivity|].
    f_equal. unfold momentum_change, ax0, ax1. rewrite !handed_ok by auto. f_equal; [f_equal|]; [apply handed_ext; auto; intros; rewrite fade_limit by auto; ring|apply handed_ext; auto; intros; rewrite fade_limit by auto; ring|].
    rewrite fade_limit by auto. ring.
Qed.
Lemma gauss_local K sigma : local K (gauss_average K sigma).
Proof. intros u w H i j _ _. now apply gauss_ext. Qed.

(** ** The layer *)
Section Layer.
  Variables (s : solver3) (L : nat) (pad : Z).
  Hypothesis HN : u_n s = (L + 1)%nat.
  Hypothesis HL : (2 <= L)%nat.
  Hypothesis Hodd : Nat.odd (u_n s) = true.
  Hypothesis Hh : 0 < u_h s.
  Hypothesis Hpad : (3 <= pad)%Z.
  Hypothesis Hb : u_b s = wall (u_n s) (u_h s) pad.
  Hypothesis Hpos : 0 < u_b s.
  Hypothesis Hc : 0 <= u_coeff s.
  Hypothesis Hdmax : 0 < u_limit s.
  Notation n := (u_n s).
  Notation h := (u_h s).
  Notation b := (u_b s).
  Notation X := (u_xi s).
  Definition calm1 (p : pt3) : Prop := t_m p <> 0 /\ (t_q p <> 0 -> within b p /\
    Rabs (X * rate_x (t_m p) (mom p)) <= 4 * b /\ Rabs (X * rate_y (t_m p) (mom p)) <= 4 * b).
  Lemma in_grid z : - b <= z <= b -> inside (Z.of_nat n) h z.
  Proof. intros H. rewrite Hb in H. apply (wall_inside n h pad); auto; lia. Qed.
  Notation mv := (move_smart1 (Z.of_nat n) h b X).
  Notation psh := (Layer3D_Spec.pushed n h b X).
  Lemma push_first f p g : calm1 p -> coasted X p g -> psh f p g (mv f p g).
  Proof.
    intros [Hm Hq] (C1 & C2 & _ & (S1 & S2 & S3) & Q & _). apply push_ok; auto; [congruence|apply in_grid|]. rewrite Q. intros Hq0. destruct (Hq Hq0) as ([W1 W2] & R1 & R2).
    rewrite C1, C2. apply Rabs_def2 in W1, W2. unfold at_x, at_y in W1, W2.
    assert (forall z c, Rabs z <= c -> - c <= z <= c) as AB by (intros z c; unfold Rabs; destruct (Rcase_abs z); lra).
    apply AB in R1, R2. lra.
  Qed.
  Lemma push_next f p g : calm1 p -> same_particle p g -> (t_q g <> 0 -> within b p /\ within b g) -> psh f p g (mv f p g).
  Proof.
    intros [Hm Hq] (S1 & S2 & S3) W. apply push_ok; auto; [congruence|apply in_grid|]. intros Hq0. destruct (W Hq0) as [[W1 W2] [W3 W4]].
    apply Rabs_def2 in W1, W2, W3, W4. unfold at_x, at_y in *. rewrite S1 in W3. rewrite S2 in W4. lra.
  Qed.
  Lemma push_after f p g : calm1 p -> same_particle p g -> (t_q g <> 0 -> t_q p <> 0) ->
    same_particle p (mv f p g) /\ (t_q (mv f p g) <> 0 -> t_q p <> 0) /\ (t_q (mv f p g) <> 0 -> within b p /\ within b (mv f p g)).
  Proof.
    intros [Hm Hq] S Q. split; [eapply same_trans; [exact S|apply smart_same]|].
    destruct (smart_charge (Z.of_nat n) h b X f p g (proj1 S) (proj1 (proj2 S))) as [[A E]|[[A [E W]]|[A E]]].
    - rewrite E. split; intros; tauto.
    - rewrite E. split; [auto|]. intros _. split; [apply Hq; auto|exact W].
    - unfold absorbed in E. split; intros F; tauto.
  Qed.
  Lemma three_pushes f1 f2 f3 p : calm1 p ->
    let p0 := move_free1 X p in let p1 := mv f1 p p0 in let p2 := mv f2 p p1 in let p3 := mv f3 p p2 in
    coasted X p p0 /\ psh f1 p p0 p1 /\ psh f2 p p1 p2 /\ psh f3 p p2 p3.
  Proof.
    intros C p0 p1 p2 p3. assert (C0 : coasted X p p0) by (apply coast_ok, C). split; [exact C0|]. split; [now apply push_first|].
    assert (S0 : same_particle p p0) by apply C0.
    destruct (push_after f1 p p0 C S0) as (S1 & Q1 & W1). { intros H. assert (t_q p0 = t_q p) by apply C0. congruence. } fold p1 in S1, Q1, W1.
    split; [now apply push_next|]. destruct (push_after f2 p p1 C S1 Q1) as (S2 & Q2 & W2). now apply push_next.
  Qed.
  Lemma layer_ok average rb rbp st : local (K_ (fst (fst st))) average -> (u_decl s = true -> (3 <= K_ (fst (fst st)))%nat) -> calm s (fst (fst st)) ->
    layer3 average s L rb rbp st (step_dxi3 average s rb rbp st).
  Proof.
    destruct st as [[pp fp] cp]. cbn [fst]. intros Hl HK [Ce Ci]. unfold layer3, step_dxi3.
    set (rhoj := compute_rhoj3 (Z.of_nat n) h (u_ions s)).
    set (p0 := move_free s pp). set (p1 := move_smart s fp pp p0).
    assert (E1 := fields_ok n L h X (u_coeff s) fp fp rb rbp cp (rhoj p1) HN HL ltac:(lra) Hc). cbn zeta in E1.
    set (r1 := compute_fields3 n h X (u_coeff s) fp fp rb rbp cp (rhoj p1)) in *.
    set (p2 := move_smart s (snd r1) pp p1).
    assert (E2 := fields_ok n L h X (u_coeff s) (snd r1) fp rb rbp cp (rhoj p2) HN HL ltac:(lra) Hc). cbn zeta in E2.
    set (r2 := compute_fields3 n h X (u_coeff s) (snd r1) fp rb rbp cp (rhoj p2)) in *.
    assert (EE : forall i j, (i < K_ pp)%nat -> (j < K_ pp)%nat -> _) by (intros i j Hi Hj; exact (three_pushes fp (snd r1) (snd r2) (el pp i j) (Ce i j Hi Hj))).
    fold r1. fold p2. fold r2. destruct r2 as [ff fh2]. cbn [fst snd] in *.
    set (p3 := move_smart s fh2 pp p2).
    set (p4 := if u_decl s then _ else p3).
    exists p0, p1, p2, p3, (rhoj p1), (rhoj p2), (fst r1), (snd r1), fh2.
    assert (II : match u_ions s with Mobile3 => forall i j, (i < K_ pp)%nat -> (j < K_ pp)%nat ->
        coasted X (io pp i j) (io p0 i j) /\ psh fp (io pp i j) (io p0 i j) (io p1 i j) /\ psh (snd r1) (io pp i j) (io p1 i j) (io p2 i j) /\ psh fh2 (io pp i j) (io p2 i j) (io p3 i j)
        | Background3 _ => io p0 = io pp /\ io p1 = io pp /\ io p2 = io pp /\ io p3 = io pp end).
    { unfold p3, p2, p1, p0, move_smart, move_free, map_sorts in *. cbn [io el K_] in *. destruct (u_ions s); [auto|].
      intros i j Hi Hj. exact (three_pushes fp (snd r1) fh2 (io pp i j) (Ci i j Hi Hj)). }
    split; [|split; [|split; [|split; [|split; [|split; [|split; [|split; [|split; [|split]]]]]]]]].
    - split; [reflexivity|]. split; [intros i j Hi Hj; exact (proj1 (EE i j Hi Hj))|]. destruct (u_ions s); [apply II|]. intros i j Hi Hj. apply II; auto.
    - split; [reflexivity|]. split; [intros i j Hi Hj; exact (proj1 (proj2 (EE i j Hi Hj)))|]. destruct (u_ions s); [apply II|]. intros i j Hi Hj. apply II; auto.
    - apply carried_ok. lra.
    - exact E1.
    - split; [reflexivity|]. split; [intros i j Hi Hj; exact (proj1 (proj2 (proj2 (EE i j Hi Hj))))|]. destruct (u_ions s); [apply II|]. intros i j Hi Hj. apply II; auto.
    - apply carried_ok. lra.
    - exact E2.
    - split; [reflexivity|]. split; [intros i j Hi Hj; exact (proj2 (proj2 (proj2 (EE i j Hi Hj))))|]. destruct (u_ions s); [apply II|]. intros i j Hi Hj. apply II; auto.
    - unfold p4. destruct (u_decl s); reflexivity.
    - unfold p4. destruct (u_decl s); [|reflexivity]. split; [|reflexivity]. cbn [el]. change (K_ p3) with (K_ pp). now apply filter_ok; auto.
    - apply carried_ok. lra.
  Qed.
End Layer.

(** ** Nothing else satisfies [layer3] *)
Lemma sumN_minus n f g : sumN n (fun i => f i - g i) = sumN n f - sumN n g.
Proof. induction n as [|n IH]; cbn [sumN]; [ring|]. rewrite IH. ring. Qed.
Lemma pt3_ext p q : same_particle p q -> t_dx p = t_dx q -> t_dy p = t_dy q -> mom p = mom q -> t_q p = t_q q -> t_cx p = t_cx q -> t_cy p = t_cy q -> p = q.
Proof. unfold same_particle, mom. destruct p, q. cbn. intros (? & ? & ?) ? ? E ? ? ?. injection E as ? ? ?. subst. reflexivity. Qed.
Lemma coasted_det X p g g' : coasted X p g -> coasted X p g' -> g = g'.
Proof.
  unfold coasted, same_particle. intros (A1 & A2 & A3 & (A4 & A5 & A6) & A7 & A8 & A9) (B1 & B2 & B3 & (B4 & B5 & B6) & B7 & B8 & B9).
  apply pt3_ext; try congruence. repeat split; congruence.
Qed.
Lemma beyond_dec b x y : {beyond b x y} + {~ beyond b x y}.
Proof. unfold beyond. destruct (Rlt_dec b (Rabs x)), (Rlt_dec b (Rabs y)); tauto. Qed.
Definition fields_eq (L : nat) (f f' : fields3) : Prop :=
  nodes_eq L (Ex f) (Ex f') /\ nodes_eq L (Ey f) (Ey f') /\ nodes_eq L (Ez f) (Ez f') /\ nodes_eq L (Bx f) (Bx f') /\ nodes_eq L (By f) (By f') /\ nodes_eq L (Bz f) (Bz f') /\
  nodes_eq L (Phi f) (Phi f').
Lemma fields_eq_refl L f : fields_eq L f f. Proof. repeat split; intros i j _ _; reflexivity. Qed.
Lemma interpolate_ext L n h F F' x y : n = (L + 1)%nat -> nodes_eq L F F' -> interpolate n h F x y = interpolate n h F' x y.
Proof.
  intros -> E. unfold interpolate, gsum. apply sumZ_ext. intros a Ha. apply sumZ_ext. intros c Hc. rewrite E by lia. reflexivity.
Qed.
Lemma field_at_ext L n h f f' x y : n = (L + 1)%nat -> fields_eq L f f' -> field_at n h f x y = field_at n h f' x y.
Proof. intros HN (A1 & A2 & A3 & A4 & A5 & A6 & _). unfold field_at. cbn zeta. rewrite (interpolate_ext L n h _ _ x y HN A1), (interpolate_ext L n h _ _ x y HN A2), (interpolate_ext L n h _ _ x y HN A3),
  (interpolate_ext L n h _ _ x y HN A4), (interpolate_ext L n h _ _ x y HN A5), (interpolate_ext L n h _ _ x y HN A6). reflexivity. Qed.
Lemma pushed_det L n h b X f f' prev g new new' : n = (L + 1)%nat -> fields_eq L f f' ->
  Layer3D_Spec.pushed n h b X f prev g new -> Layer3D_Spec.pushed n h b X f' prev g new' -> new = new'.
Proof.
  intros HN HF (A1 & A2 & A3 & A4 & A5) (B1 & B2 & B3 & B4 & B5). destruct (Req_EM_T (t_q g) 0) as [Z|Z]; [rewrite A4, B4 by auto; reflexivity|].
  specialize (A5 Z). specialize (B5 Z). cbn zeta in A5, B5. rewrite <- (field_at_ext L n h f f' _ _ HN HF) in B5.
  destruct (field_at _ _ _ _ _) as [E B]. destruct A5 as (p0 & P1 & P2 & A5). destruct B5 as (p0' & P1' & P2' & B5).
  assert (p0 = p0'). { match type of P1 with beyond ?c ?x ?y -> _ => destruct (beyond_dec c x y) end; [rewrite P1, P1' by auto|rewrite P2, P2' by auto]; reflexivity. }
  subst p0'. cbn zeta in A5, B5. destruct A5 as [A5 A6]. destruct B5 as [B5 B6].
  assert (S : same_particle new new'). { unfold same_particle in *. intuition congruence. }
  match type of A5 with (Rabs ?u < b /\ Rabs ?v < b) -> _ => destruct (Rlt_dec (Rabs u) b) as [U|U]; [destruct (Rlt_dec (Rabs v) b) as [V|V]|] end.
  - destruct (A5 (conj U V)) as (X1 & X2 & X3 & X4 & X5). destruct (B5 (conj U V)) as (Y1 & Y2 & Y3 & Y4 & Y5).
    apply pt3_ext; try congruence; try lra.
    match type of X4 with beyond ?c ?x ?y -> _ => destruct (beyond_dec c x y) end; [rewrite X4, Y4 by auto|rewrite X5, Y5 by auto]; reflexivity.
  - assert (U1 := A6 ltac:(tauto)). assert (V1 := B6 ltac:(tauto)). destruct U1 as (U1 & U2 & U3 & U4 & U5 & U6), V1 as (V1 & V2 & V3 & V4 & V5 & V6). apply pt3_ext; unfold mom; congruence.
  - assert (U1 := A6 ltac:(tauto)). assert (V1 := B6 ltac:(tauto)). destruct U1 as (U1 & U2 & U3 & U4 & U5 & U6), V1 as (V1 & V2 & V3 & V4 & V5 & V6). apply pt3_ext; unfold mom; congruence.
Qed.
(** the same particles of both sorts *)
Definition parts_eq (s : solver3) (p p' : parts3) : Prop :=
  K_ p = K_ p' /\ of_sorts s (K_ p) (fun sort i j => sort p i j = sort p' i j) (io p = io p').
Lemma all_coasted_det s pp g g' : all_coasted s pp g -> all_coasted s pp g' -> parts_eq s g g'.
Proof.
  intros [A1 [A2 A3]] [B1 [B2 B3]]. split; [congruence|]. rewrite A1. split.
  - intros i j Hi Hj. eapply coasted_det; [apply A2|apply B2]; auto.
  - destruct (u_ions s); [congruence|]. intros i j Hi Hj. eapply coasted_det; [apply A3|apply B3]; auto.
Qed.
Lemma all_pushed_det L s f f' pp g g' p p' : u_n s = (L + 1)%nat -> K_ g = K_ pp -> fields_eq L f f' -> parts_eq s g g' ->
  all_pushed s f pp g p -> all_pushed s f' pp g' p' -> parts_eq s p p'.
Proof.
  intros HN HK HF [E1 [E2 E3]] [A1 [A2 A3]] [B1 [B2 B3]]. rewrite HK in E2, E3. split; [congruence|]. rewrite A1. split.
  - intros i j Hi Hj. eapply (pushed_det L); [exact HN|exact HF|apply A2; auto|]. rewrite E2 by auto. apply B2; auto.
  - destruct (u_ions s); [congruence|]. intros i j Hi Hj. eapply (pushed_det L); [exact HN|exact HF|apply A3; auto|]. rewrite E3 by auto. apply B3; auto.
Qed.
Definition totals_eq (L : nat) (c c' : cur3) : Prop :=
  nodes_eq L (total3 c_ro c) (total3 c_ro c') /\ nodes_eq L (total3 c_jx c) (total3 c_jx c') /\ nodes_eq L (total3 c_jy c) (total3 c_jy c') /\ nodes_eq L (total3 c_jz c) (total3 c_jz c').
Lemma spread_ext n K h f a a' u v : each K (fun i j => a i j = a' i j) -> spread n K h f a u v = spread n K h f a' u v.
Proof. intros E. unfold spread, array_sum. apply sumN_ext. intros i Hi. apply sumN_ext. intros j Hj. rewrite E by auto. reflexivity. Qed.
Lemma carried_det L s p p' c c' : u_n s = (L + 1)%nat -> parts_eq s p p' -> carried_by s p c -> carried_by s p' c' -> totals_eq L c c'.
Proof.
  intros HN [EK [E1 E2]] (A1 & A2 & A3 & A4) (B1 & B2 & B3 & B4). 
  assert (G : forall f sort, sort = el \/ (sort = io /\ u_ions s = Mobile3) -> forall u v, spread (u_n s) (K_ p) (u_h s) f (sort p) u v = spread (u_n s) (K_ p') (u_h s) f (sort p') u v).
  { intros f sort Hs u v. rewrite <- EK. apply spread_ext. destruct Hs as [->|[-> Hs]]; [exact E1|]. rewrite Hs in E2. exact E2. }
  unfold totals_eq. split; [|split; [|split]]; intros u v Hu Hv; specialize (A1 u v ltac:(lia) ltac:(lia)); specialize (B1 u v ltac:(lia) ltac:(lia)); 
  specialize (A2 u v ltac:(lia) ltac:(lia)); specialize (B2 u v ltac:(lia) ltac:(lia)); specialize (A3 u v ltac:(lia) ltac:(lia)); specialize (B3 u v ltac:(lia) ltac:(lia));
  specialize (A4 u v ltac:(lia) ltac:(lia)); specialize (B4 u v ltac:(lia) ltac:(lia));
  (rewrite A1, B1 || rewrite A2, B2 || rewrite A3, B3 || rewrite A4, B4);
  (f_equal; [apply G; auto|destruct (u_ions s) eqn:EI; [reflexivity|apply G; auto]]).
Qed.
Section Unique.
  Variables (L : nat) (h : R).
  Hypothesis HL : (2 <= L)%nat.
  Hypothesis Hh : h <> 0.
  Definition minus2 (u w : arr2) : arr2 := fun i j => u i j - w i j.
  Lemma lap_minus u w i j : minus_laplacian h L (minus2 u w) i j = minus_laplacian h L u i j - minus_laplacian h L w i j.
  Proof. unfold minus_laplacian, minus_d2, minus2. field. auto. Qed.
  Lemma lap_ext u w i j : (i <= L)%nat -> (j <= L)%nat -> nodes_eq L u w -> minus_laplacian h L u i j = minus_laplacian h L w i j.
  Proof.
    intros Hi Hj E. assert (AB : forall k, (k <= L)%nat -> (above L k <= L)%nat /\ (below k <= L)%nat).
    { intros k Hk. unfold above, below. split; [destruct (Nat.eqb_spec k L)|destruct k]; lia. }
    destruct (AB i Hi), (AB j Hj). unfold minus_laplacian, minus_d2. rewrite !E by auto. reflexivity.
  Qed.
  Definition cut (u : arr2) : arr2 := fun i j => if ((i <=? L) && (j <=? L))%nat then u i j else 0.
  Lemma cut_eq u : nodes_eq L (cut u) u.
  Proof. intros i j Hi Hj. unfold cut. apply Nat.leb_le in Hi, Hj. rewrite Hi, Hj. reflexivity. Qed.
  Lemma dirichlet_only u w : zero_edge L u -> zero_edge L w -> inside_eq L (minus_laplacian h L u) (minus_laplacian h L w) -> nodes_eq L u w.
  Proof.
    intros Zu Zw E. set (d := cut (minus2 u w)).
    assert (D : forall v rhs, (forall a, v a 0%nat = 0 /\ v a L = 0 /\ v 0%nat a = 0 /\ v L a = 0) -> _) by (intros v rhs; exact (dirichlet_unique L h HL Hh v rhs)).
    assert (D1 := D d (fun _ _ => 0)). assert (D2 := D (fun _ _ => 0) (fun _ _ => 0)).
    intros i j Hi Hj. assert (d i j = 0).
    { rewrite D1; auto.
      - symmetry. apply D2; auto. intros. unfold minus_laplacian, minus_d2. field. auto.
      - intros a. unfold d, cut, minus2. destruct (Nat.leb_spec a L) as [Ha|Ha]; rewrite ?Nat.leb_refl; cbn [andb Nat.leb]; [|auto]. 
        destruct (Zu a Ha) as (A1 & A2 & A3 & A4), (Zw a Ha) as (B1 & B2 & B3 & B4). rewrite A1, A2, A3, A4, B1, B2, B3, B4. repeat split; ring.
      - intros i' j' Hi' Hj'. unfold d. unfold interior in *. rewrite (lap_ext _ (minus2 u w)) by (lia || apply cut_eq). rewrite lap_minus, (E i' j'); [ring|split; lia|split; lia]. }
    assert (C := cut_eq (minus2 u w) i j Hi Hj). fold d in C. unfold minus2 in C. lra.
  Qed.
  Lemma mixed_only coeff u w : 0 <= coeff -> zero_first L u -> zero_first L w -> 
    (forall i j, interior L i -> (j <= L)%nat -> screened h coeff L u i j = screened h coeff L w i j) -> nodes_eq L u w.
  Proof.
    intros Hc Zu Zw E i j Hi Hj.
    assert (D1 := mixed_unique L h HL Hh coeff Hc (minus2 u w) (fun _ _ => 0)). assert (D2 := mixed_unique L h HL Hh coeff Hc (fun _ _ => 0) (fun _ _ => 0)).
    assert (minus2 u w i j = 0); [|unfold minus2 in *; lra]. rewrite D1; auto.
    - symmetry. apply D2; auto. intros. unfold minus_laplacian, minus_d2. field. auto.
    - intros a Ha. destruct (Zu a Ha), (Zw a Ha). unfold minus2. lra.
    - intros i' j' Hi' Hj'. rewrite lap_minus. specialize (E i' j' Hi' Hj'). unfold screened in E. unfold minus2. lra.
  Qed.
  Lemma mixed_only2 coeff u w : 0 <= coeff -> zero_second L u -> zero_second L w -> 
    (forall i j, (i <= L)%nat -> interior L j -> screened h coeff L u i j = screened h coeff L w i j) -> nodes_eq L u w.
  Proof.
    intros Hc Zu Zw E i j Hi Hj. change (transpose u j i = transpose w j i). apply (mixed_only coeff); auto.
    intros i' j' Hi' Hj'. unfold screened. rewrite !laplacian_transpose. exact (E j' i' Hj' Hi').
  Qed.
  Lemma neumann_only u w : array_sum (L + 1) u = 0 -> array_sum (L + 1) w = 0 -> nodes_eq L (minus_laplacian h L u) (minus_laplacian h L w) -> nodes_eq L u w.
  Proof.
    intros Su Sw E. destruct (neumann_constant L h HL Hh (minus2 u w)) as (c & C).
    { intros i j Hi Hj. rewrite lap_minus, E by auto. ring. }
    assert (S : array_sum (L + 1) (minus2 u w) = 0).
    { unfold array_sum in *. rewrite (sumN_ext _ _ (fun i => sumN (L + 1) (fun j => u i j) - sumN (L + 1) (fun j => w i j))).
      - rewrite sumN_minus, Su, Sw. ring.
      - intros i Hi. unfold minus2. apply sumN_minus. }
    unfold array_sum in S. rewrite (sumN_ext _ _ (fun _ => INR (L + 1) * c)) in S by (intros i Hi; rewrite (sumN_ext _ _ (fun _ => c)); [apply sumN_const|intros j Hj; apply C; lia]).
    rewrite sumN_const in S. assert (0 < INR (L + 1)) by (apply lt_0_INR; lia). assert (c = 0) by (destruct (Rmult_integral _ _ S) as [?|T]; [lra|destruct (Rmult_integral _ _ T); lra]).
    intros i j Hi Hj. specialize (C i j Hi Hj). unfold minus2 in C. lra.
  Qed.
End Unique.
Lemma inner_only_ext L a a' : inside_eq L a a' -> forall i j, inner_only L a i j = inner_only L a' i j.
Proof.
  intros E i j. unfold inner_only. destruct (_ && _)%bool eqn:B; [|reflexivity]. repeat (apply andb_prop in B; destruct B as [B ?]). apply E; unfold interior; rewrite ?Nat.leb_le in *; lia.
Qed.
Lemma cd_ext h L a a' : nodes_eq L a a' -> inside_eq L (cdx h a) (cdx h a') /\ inside_eq L (cdy h a) (cdy h a').
Proof. intros E. split; intros i j Hi Hj; unfold cdx, cdy, interior in *; rewrite !E by lia; reflexivity. Qed.
Lemma fields_det L h X coeff it it' fp rb rbp cp c c' full full' half half' : (2 <= L)%nat -> h <> 0 -> 0 <= coeff ->
  fields_eq L it it' -> totals_eq L c c' ->
  fields_of L h X coeff it fp rb rbp cp c full half -> fields_of L h X coeff it' fp rb rbp cp c' full' half' -> fields_eq L full full' /\ fields_eq L half half'.
Proof.
  intros HL Hh Hc (I1 & I2 & _ & I4 & I5 & _) (T1 & T2 & T3 & T4) A B. unfold fields_of in A, B. cbn zeta in A, B.
  destruct A as ((A1 & A2) & (A3 & A4) & (A5 & A6) & (A7 & A8) & (A9 & A10) & (A11 & A12) & (A13 & A14) & A15 & A16).
  destruct B as ((B1 & B2) & (B3 & B4) & (B5 & B6) & (B7 & B8) & (B9 & B10) & (B11 & B12) & (B13 & B14) & B15 & B16).
  destruct (cd_ext h L _ _ T2) as [X2 Y2]. destruct (cd_ext h L _ _ T3) as [X3 Y3].
  assert (FZ : nodes_eq L (Ez full) (Ez full')).
  { apply (dirichlet_only L h HL Hh); auto. intros i j Hi Hj. rewrite A2, B2, X2, Y3 by auto. reflexivity. }
  assert (FP : nodes_eq L (Phi full) (Phi full')).
  { apply (dirichlet_only L h HL Hh); auto. intros i j Hi Hj. unfold interior in *. rewrite A4, B4, T1, T4 by (unfold interior; lia). reflexivity. }
  assert (CU : forall i j, curl_j h L (total3 c_jx c) (total3 c_jy c) i j = curl_j h L (total3 c_jx c') (total3 c_jy c') i j).
  { intros i j. unfold curl_j. apply inner_only_ext. intros i' j' Hi Hj. rewrite X3, Y2 by auto. reflexivity. }
  assert (FB : nodes_eq L (Bz full) (Bz full')).
  { apply (neumann_only L h HL Hh); auto. intros i j Hi Hj. rewrite A6, B6, CU by auto. rewrite (trapezoid_mean_ext L HL (curl_j h L (total3 c_jx c) (total3 c_jy c)) (curl_j h L (total3 c_jx c') (total3 c_jy c'))); [reflexivity|intros; apply CU]. }
  set (ro := fun i j => (total3 c_ro c i j + rb i j + total3 c_ro cp i j + rbp i j) / 2) in *.
  set (ro' := fun i j => (total3 c_ro c' i j + rb i j + total3 c_ro cp i j + rbp i j) / 2) in *.
  set (jz := fun i j => (total3 c_jz c i j + rb i j + total3 c_jz cp i j + rbp i j) / 2) in *.
  set (jz' := fun i j => (total3 c_jz c' i j + rb i j + total3 c_jz cp i j + rbp i j) / 2) in *.
  assert (RO : nodes_eq L ro ro') by (intros i j Hi Hj; unfold ro, ro'; rewrite T1 by auto; reflexivity).
  assert (JZ : nodes_eq L jz jz') by (intros i j Hi Hj; unfold jz, jz'; rewrite T4 by auto; reflexivity).
  destruct (cd_ext h L _ _ RO) as [RX RY]. destruct (cd_ext h L _ _ JZ) as [JX JY].
  assert (HX : nodes_eq L (Ex half) (Ex half')).
  { apply (mixed_only2 L h HL Hh coeff); auto. intros i j Hi Hj. assert (j <= L)%nat by (unfold interior in Hj; lia). rewrite A8, B8, I1, T2, (inner_only_ext L _ _ RX) by auto. reflexivity. }
  assert (HY : nodes_eq L (Ey half) (Ey half')).
  { apply (mixed_only L h HL Hh coeff); auto. intros i j Hi Hj. assert (i <= L)%nat by (unfold interior in Hi; lia). rewrite A10, B10, I2, T3, (inner_only_ext L _ _ RY) by auto. reflexivity. }
  assert (HBX : nodes_eq L (Bx half) (Bx half')).
  { apply (mixed_only L h HL Hh coeff); auto. intros i j Hi Hj. assert (i <= L)%nat by (unfold interior in Hi; lia). rewrite A12, B12, I4, T3, (inner_only_ext L _ _ JY) by auto. reflexivity. }
  assert (HBY : nodes_eq L (By half) (By half')).
  { apply (mixed_only2 L h HL Hh coeff); auto. intros i j Hi Hj. assert (j <= L)%nat by (unfold interior in Hj; lia). rewrite A14, B14, I5, T2, (inner_only_ext L _ _ JX) by auto. reflexivity. }
  assert (UP : forall F, In F [Ex; Ey; Ez; Bx; By; Bz] -> nodes_eq L (F half) (F half') -> nodes_eq L (F full) (F full')).
  { intros F HF E i j Hi Hj. specialize (A15 F HF i j Hi Hj). specialize (B15 F HF i j Hi Hj). specialize (E i j Hi Hj). cbn beta in *. lra. }
  assert (DN : forall F, In F [Ex; Ey; Ez; Bx; By; Bz] -> nodes_eq L (F full) (F full') -> nodes_eq L (F half) (F half')).
  { intros F HF E i j Hi Hj. specialize (A15 F HF i j Hi Hj). specialize (B15 F HF i j Hi Hj). specialize (E i j Hi Hj). cbn beta in *. lra. }
  assert (PH : nodes_eq L (Phi half) (Phi half')) by (intros i j Hi Hj; rewrite A16, B16 by auto; apply FP; auto).
  split; repeat split; auto; (apply UP || apply DN); auto; cbn; tauto.
Qed.
Lemma rough_ext K a a' : (3 <= K)%nat -> each K (fun i j => a i j = a' i j) -> each K (fun i j => roughness K a i j = roughness K a' i j).
Proof.
  intros HK E i j Hi Hj. unfold roughness.
  assert (B : forall d d' k, (k < K)%nat -> (forall m, (m < K)%nat -> d m = d' m) -> bend K d k = bend K d' k).
  { intros d d' k Hk H. unfold bend. cbn zeta. rewrite !H by lia. reflexivity. }
  f_equal. f_equal; apply B; auto.
Qed.
Lemma smoothed_det average K X coef damp dmax prev a a' b b' : (3 <= K)%nat -> local K average -> each K (fun i j => a i j = a' i j) ->
  smoothed average K X coef damp dmax prev a b -> smoothed average K X coef damp dmax prev a' b' -> each K (fun i j => b i j = b' i j).
Proof.
  intros HK Hl E A B. unfold smoothed in A, B. cbn zeta in A, B.
  assert (RX := rough_ext K (fun i j => t_dx (a i j)) (fun i j => t_dx (a' i j)) HK ltac:(intros i j Hi Hj; rewrite E by auto; reflexivity)).
  assert (RY := rough_ext K (fun i j => t_dy (a i j)) (fun i j => t_dy (a' i j)) HK ltac:(intros i j Hi Hj; rewrite E by auto; reflexivity)).
  assert (CX : each K (fun i j => t_cx (b i j) = t_cx (b' i j))).
  { intros i j Hi Hj. destruct (A i j Hi Hj) as (_ & _ & _ & _ & _ & -> & _). destruct (B i j Hi Hj) as (_ & _ & _ & _ & _ & -> & _). rewrite RX by auto. f_equal. apply Hl; auto. }
  assert (CY : each K (fun i j => t_cy (b i j) = t_cy (b' i j))).
  { intros i j Hi Hj. destruct (A i j Hi Hj) as (_ & _ & _ & _ & _ & _ & -> & _). destruct (B i j Hi Hj) as (_ & _ & _ & _ & _ & _ & -> & _). rewrite RY by auto. f_equal. apply Hl; auto. }
  intros i j Hi Hj. destruct (A i j Hi Hj) as (A1 & A2 & A3 & A4 & A5 & _ & _ & A8 & A9). destruct (B i j Hi Hj) as (B1 & B2 & B3 & B4 & B5 & _ & _ & B8 & B9).
  assert (Ea := E i j Hi Hj). apply pt3_ext; [|congruence|congruence| |congruence|now apply CX|now apply CY].
  - rewrite Ea in A1. unfold same_particle in *. intuition congruence.
  - assert (PX : t_px (b i j) = t_px (b' i j)).
    { rewrite A8, B8, Ea. f_equal. f_equal; [f_equal; apply handed_ext; auto; intros k Hk; rewrite CX, CY by auto; reflexivity|rewrite CX, CY by auto; reflexivity]. }
    assert (PY : t_py (b i j) = t_py (b' i j)).
    { rewrite A9, B9, Ea. f_equal. f_equal; [f_equal; apply handed_ext; auto; intros k Hk; rewrite CX, CY by auto; reflexivity|rewrite CX, CY by auto; reflexivity]. }
    unfold mom. rewrite PX, PY, A4, B4, Ea. reflexivity.
Qed.
Lemma layer_det average s L rb rbp st st1 st2 : u_n s = (L + 1)%nat -> (2 <= L)%nat -> u_h s <> 0 -> 0 <= u_coeff s -> local (K_ (fst (fst st))) average ->
  (u_decl s = true -> (3 <= K_ (fst (fst st)))%nat) ->
  layer3 average s L rb rbp st st1 -> layer3 average s L rb rbp st st2 ->
  parts_eq s (fst (fst st1)) (fst (fst st2)) /\ fields_eq L (snd (fst st1)) (snd (fst st2)) /\ totals_eq L (snd st1) (snd st2).
Proof.
  destruct st as [[pp fp] cp], st1 as [[p4 ff] c4], st2 as [[p4' ff'] c4']. cbn [fst snd]. intros HN HL Hh Hc Hl HK.
  intros (p0 & p1 & p2 & p3 & c1 & c2 & full1 & half1 & half2 & A0 & A1 & A2 & A3 & A4 & A5 & A6 & A7 & A8 & A9 & A10).
  intros (q0 & q1 & q2 & q3 & d1 & d2 & full1' & half1' & half2' & B0 & B1 & B2 & B3 & B4 & B5 & B6 & B7 & B8 & B9 & B10).
  assert (P0 := all_coasted_det s pp _ _ A0 B0).
  assert (P1 := all_pushed_det L s _ _ pp _ _ _ _ HN (proj1 A0) (fields_eq_refl L fp) P0 A1 B1).
  assert (C1 := carried_det L s _ _ _ _ HN P1 A2 B2).
  destruct (fields_det L (u_h s) (u_xi s) (u_coeff s) _ _ fp rb rbp cp _ _ _ _ _ _ HL Hh Hc (fields_eq_refl L fp) C1 A3 B3) as [F1 H1].
  assert (P2 := all_pushed_det L s _ _ pp _ _ _ _ HN (proj1 A1) H1 P1 A4 B4).
  assert (C2 := carried_det L s _ _ _ _ HN P2 A5 B5).
  destruct (fields_det L (u_h s) (u_xi s) (u_coeff s) _ _ fp rb rbp cp _ _ _ _ _ _ HL Hh Hc H1 C2 A6 B6) as [F2 H2].
  assert (P3 := all_pushed_det L s _ _ pp _ _ _ _ HN (proj1 A4) H2 P2 A7 B7).
  assert (P4 : parts_eq s p4 p4').
  { destruct (u_decl s); [|subst; exact P3]. destruct A9 as [A9 A9'], B9 as [B9 B9']. destruct P3 as [Q1 [Q2 Q3]]. destruct A7 as [KA _].
    split; [congruence|]. rewrite A8. rewrite KA in Q2, Q3. split.
    - eapply smoothed_det; [now apply HK|exact Hl|exact Q2|exact A9|exact B9].
    - rewrite A9', B9'. exact Q3. }
  split; [exact P4|]. split; [exact F2|]. exact (carried_det L s _ _ _ _ HN P4 A10 B10).
Qed.
