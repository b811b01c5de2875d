(** Theorems C60: one 3D plasma layer is the stated predictor-corrector scheme. *)
From Coq Require Import Reals ZArith List Bool Lra Lia.
From Verif Require Import Beam2D_Spec Plasma2D_Model Shape_Model Shape_Spec Shape_Proofs Plasma3D_Model Plasma3D_Spec Plasma3D_Move Plasma3D_Push
  Filter3D_Proofs Props_Plasma3D Layer3D_Spec Layer3D_Proofs.
Import ListNotations.
Open Scope R_scope.

(** A layer of the solver, with any beam densities, from any state in which the charged particles
    are between the walls and not absurdly fast: the particles fly freely as a first guess, are pushed
    from their place in the previous layer in the previous fields, the fields are solved for with the
    charge and current they carry there, they are pushed again in the fields half way, the fields are
    solved for once more, and they are pushed a third time and smoothed.  What is returned is those
    particles, the fields of the second solve, and the charge and current of those particles. *)
Theorem C60_layer_is_predictor_corrector : forall s L pad sigma rb rbp st,
  u_n s = (L + 1)%nat -> (2 <= L)%nat -> Nat.odd (u_n s) = true -> 0 < u_h s -> (3 <= pad)%Z -> u_b s = wall (u_n s) (u_h s) pad -> 0 < u_b s ->
  0 <= u_coeff s -> 0 < u_limit s ->
  let pp := fst (fst st) in let average := gauss_average (K_ pp) sigma in
  (u_decl s = true -> (3 <= K_ pp)%nat) -> calm s pp ->
  layer3 average s L rb rbp st (step_dxi3 average s rb rbp st).
Proof.
  intros s L pad sigma rb rbp st HN HL Ho Hh Hp Hb Hpos Hc Hd pp average HK HC.
  apply (layer_ok s L pad HN HL Ho Hh Hp Hb Hpos Hc Hd); auto. apply gauss_local.
Qed.
Print Assumptions C60_layer_is_predictor_corrector.

(** And that says everything: two outcomes that both follow the scheme are the same particles, the
    same fields on the nodes and the same densities and currents on the nodes. *)
Theorem C60_scheme_determines_the_layer : forall s L sigma rb rbp st st1 st2,
  u_n s = (L + 1)%nat -> (2 <= L)%nat -> u_h s <> 0 -> 0 <= u_coeff s ->
  let K := K_ (fst (fst st)) in let average := gauss_average K sigma in
  (u_decl s = true -> (3 <= K)%nat) ->
  layer3 average s L rb rbp st st1 -> layer3 average s L rb rbp st st2 ->
  each K (fun i j => el (fst (fst st1)) i j = el (fst (fst st2)) i j) /\
  (u_ions s = Mobile3 -> each K (fun i j => io (fst (fst st1)) i j = io (fst (fst st2)) i j)) /\
  (forall F, In F [Ex; Ey; Ez; Bx; By; Bz; Phi] -> nodes_eq L (F (snd (fst st1))) (F (snd (fst st2)))) /\
  (forall g, In g [c_ro; c_jx; c_jy; c_jz] -> nodes_eq L (total3 g (snd st1)) (total3 g (snd st2))).
Proof.
  intros s L sigma rb rbp st st1 st2 HN HL Hh Hc K average HK A B.
  assert (KK : K_ (fst (fst st1)) = K).
  { destruct st as [[pp fp] cp], st1 as [[p4 ff] c4]. unfold K. cbn [fst] in *. unfold layer3 in A. decompose [ex and] A. assumption. }
  destruct (layer_det average s L rb rbp st st1 st2 HN HL Hh Hc (gauss_local K sigma) HK A B) as ([_ [P1 P2]] & F & T). rewrite KK in P1, P2.
  split; [exact P1|]. split; [intros HM; rewrite HM in P2; exact P2|]. split.
  - destruct F as (F1 & F2 & F3 & F4 & F5 & F6 & F7). intros g Hg. cbn [In] in Hg. destruct Hg as [<-|[<-|[<-|[<-|[<-|[<-|[<-|[]]]]]]]]; assumption.
  - destruct T as (T1 & T2 & T3 & T4). intros g Hg. cbn [In] in Hg. destruct Hg as [<-|[<-|[<-|[<-|[]]]]]; assumption.
Qed.
Print Assumptions C60_scheme_determines_the_layer.

(** A particle whose half-way point lies beyond a wall feels the force of a particle at rest first. *)
Theorem C60_push_beyond_the_wall : forall n h b X f prev guess, 0 < b -> t_m guess <> 0 -> t_q guess <> 0 ->
  (forall z, - b <= z <= b -> inside (Z.of_nat n) h z) ->
  let mx := t_x0 prev + (t_dx prev + t_dx guess) / 2 in let my := t_y0 prev + (t_dy prev + t_dy guess) / 2 in
  b < Rabs mx -> - (3 * b) <= mx <= 5 * b -> Rabs my <= b ->
  let '(E, B) := field_at n h f (mirror b mx) my in
  let p1 := add3 (mom prev) (scale3 (X / 2) (scale3 (t_q guess) E)) in
  let d := scale3 X (rate_p (t_m guess) (t_q guess) E B p1) in
  let pm := add3 (mom prev) (scale3 (1 / 2) d) in
  let x := at_x prev + X * rate_x (t_m guess) pm in let y := at_y prev + X * rate_y (t_m guess) pm in
  Rabs x < b -> Rabs y < b ->
  let p := move_smart1 (Z.of_nat n) h b X f prev guess in
  t_x0 prev + t_dx p = x /\ t_y0 prev + t_dy p = y /\ mom p = add3 (mom prev) d /\ t_q p = t_q guess.
Proof.
  intros n h b X f prev guess Hb Hm Hq HI mx my Hx Hr Hy.
  assert (AB : forall z c, Rabs z <= c -> - c <= z <= c) by (intros z c; unfold Rabs; destruct (Rcase_abs z); lra).
  assert (P := push_ok n h b X f prev guess Hb Hm HI ltac:(intros _; split; [exact Hr|apply AB in Hy; fold my; lra])).
  destruct P as (_ & _ & _ & _ & P). specialize (P Hq). cbn zeta in P. fold mx my in P. rewrite (mirror_inside b my Hb Hy) in P.
  destruct (field_at n h f (mirror b mx) my) as [E B]. destruct P as (p0 & P1 & _ & P). rewrite (P1 (or_introl Hx)) in P. clear P1.
  assert (R0 : rate_p (t_m guess) (t_q guess) E B (0, 0, 0) = scale3 (t_q guess) E).
  { unfold rate_p, speed, scale3, third, cross, add3. destruct E as [[e1 e2] e3], B as [[b1 b2] b3]. cbn [snd].
    replace (1 - / sqrt (t_m guess ^ 2 + 0 ^ 2 + 0 ^ 2 + 0 ^ 2) * 0) with 1 by ring. replace (t_q guess / 1) with (t_q guess) by field. rewrite !Rmult_0_r, !Rmult_0_l. rewrite !Rminus_0_r, !Rplus_0_r. reflexivity. }
  rewrite R0 in P. cbn zeta in P |- *. destruct P as [P _]. intros Ax Ay. rewrite !mirror_inside in P by lra.
  destruct (P (conj Ax Ay)) as (Q1 & Q2 & Q3 & _ & Q5). split; [exact Q1|]. split; [exact Q2|]. split; [|exact Q3]. apply Q5.
  unfold beyond. lra.
Qed.
Print Assumptions C60_push_beyond_the_wall.

(** The hypotheses are met: 21 x 21 nodes, the wall 5 cells in, 3 x 3 moving electrons and 3 x 3
    moving ions, the noise filter on. *)
Definition ex_solver : solver3 := mkS3 21 1 (1 / 100) (wall 21 1 5) 0.1 Mobile3 true 0.2 1 0.5.
Definition ex_parts : parts3 := mkP3 3 (fun i j => mkT (INR i) (INR j) 0.25 0.5 0.5 0 0.1 (-1) 1 0 0) (fun i j => mkT (INR i) (INR j) 0 0 0 0 0 1 1836 0 0).
Example C60_nonvacuous : u_n ex_solver = (20 + 1)%nat /\ (2 <= 20)%nat /\ Nat.odd (u_n ex_solver) = true /\ 0 < u_h ex_solver /\ (3 <= 5)%Z /\
  u_b ex_solver = wall (u_n ex_solver) (u_h ex_solver) 5 /\ 0 < u_b ex_solver /\ 0 <= u_coeff ex_solver /\ 0 < u_limit ex_solver /\
  (u_decl ex_solver = true -> (3 <= K_ ex_parts)%nat) /\ calm ex_solver ex_parts.
Proof.
  assert (W : wall 21 1 5 = 5.5). { unfold wall. rewrite INR_IZR_INZ. change (Z.of_nat 21) with 21%Z. lra. }
  cbn [u_n u_h u_b u_coeff u_limit u_decl K_ ex_solver ex_parts]. rewrite W.
  repeat (split; [reflexivity || lra || lia|]).
  assert (I3 : forall i, (i < 3)%nat -> 0 <= INR i <= 2).
  { intros i Hi. split; [apply pos_INR|]. replace 2 with (INR 2) by (cbn; lra). apply le_INR. lia. }
  unfold calm, of_sorts. cbn [u_ions ex_solver]. split; intros i j Hi Hj; cbn [K_ el io ex_parts t_m t_q u_b u_xi ex_solver] in *; rewrite W; (split; [lra|]); intros _.
  - split; [unfold within, at_x, at_y; cbn; assert (Hi' := I3 i Hi); assert (Hj' := I3 j Hj); rewrite !Rabs_right by lra; lra|].
    unfold rate_x, rate_y, speed, mom, scale3, third. cbn [fst snd t_px t_py t_pz t_m].
    set (g := sqrt _). assert (G : 1 <= g). { unfold g. rewrite <- sqrt_1 at 1. apply sqrt_le_1_alt. cbn. lra. }
    assert (V : 0 < / g <= 1) by (split; [apply Rinv_0_lt_compat; lra|rewrite <- Rinv_1; apply Rinv_le_contravar; lra]).
    set (v := / g) in *. assert (D : 0 < 1 - v * 0.1) by lra.
    assert (Q : v * 0.5 / (1 - v * 0.1) <= 1) by (apply (Rmult_le_reg_r (1 - v * 0.1)); auto; unfold Rdiv; rewrite Rmult_assoc, Rinv_l by lra; lra).
    assert (Q0 : 0 <= v * 0.5 / (1 - v * 0.1)) by (apply Rmult_le_pos; [lra|left; now apply Rinv_0_lt_compat]).
    split; [rewrite Rabs_right; lra|]. replace (v * 0 / (1 - v * 0.1)) with 0 by (unfold Rdiv; ring). rewrite Rmult_0_r, Rabs_R0. lra.
  - split; [unfold within, at_x, at_y; cbn; assert (Hi' := I3 i Hi); assert (Hj' := I3 j Hj); rewrite !Rabs_right by lra; lra|].
    unfold rate_x, rate_y, speed, mom, scale3, third. cbn [fst snd t_px t_py t_pz t_m]. set (g := sqrt _).
    replace (1 / 100 * (/ g * 0 / (1 - / g * 0))) with 0 by (unfold Rdiv; ring). rewrite Rabs_R0. lra.
Qed.
