(** A plasma of electrons and positrons moving together makes no fields: an example for C65 in which the
    particles move and every layer can be followed. *)
From Coq Require Import Reals ZArith List Bool Lra Lia FunctionalExtensionality.
From Verif Require Import Beam2D_Model Beam2D_Spec Plasma2D_Model Plasma2D_Ode Shape_Model Shape_Spec Shape_Proofs Plasma3D_Model Plasma3D_Spec Plasma3D_Move
  Plasma3D_Quiet Spectral Filter3D_Proofs Layer3D_Spec Layer3D_Proofs Gpu_Model Gpu_Spec Gpu_Run Mirror3D_Spec Mirror3D_Proofs.
Import ListNotations.
Open Scope R_scope.

Definition anti (p : pt3) : pt3 := mkT (t_x0 p) (t_y0 p) (t_dx p) (t_dy p) (t_px p) (t_py p) (t_pz p) (- t_q p) (t_m p) (t_cx p) (t_cy p).
Definition no_fields_on (L : nat) (f : fields3) : Prop := fields_eq L f zero_fields3.
Definition paired (p : parts3) : Prop := each (K_ p) (fun i j => io p i j = anti (el p i j)).
Definition zero_on (L : nat) (a : arr2) : Prop := forall i j, (i <= L)%nat -> (j <= L)%nat -> a i j = 0.
Definition no_totals (L : nat) (c : cur3) : Prop := zero_on L (total3 c_ro c) /\ zero_on L (total3 c_jx c) /\ zero_on L (total3 c_jy c) /\ zero_on L (total3 c_jz c).

Lemma sumN_0 n : sumN n (fun _ => 0) = 0.
Proof. induction n as [|n IH]; cbn [sumN]; [reflexivity|]. rewrite IH. ring. Qed.
Lemma interp_zero n h x y : interpolate n h zeros2 x y = 0.
Proof. unfold interpolate, gsum. rewrite !sumZ_N. rewrite (sumN_ext n _ (fun _ => 0)); [apply sumN_0|]. intros i Hi. rewrite sumZ_N, (sumN_ext n _ (fun _ => 0)); [apply sumN_0|]. intros. unfold zeros2. ring. Qed.
Lemma field_zero L n h f x y : n = (L + 1)%nat -> no_fields_on L f -> field_at n h f x y = ((0, 0, 0), (0, 0, 0)).
Proof. intros HN H. rewrite (field_at_ext L n h f zero_fields3 x y HN H). unfold field_at. cbn. now rewrite !interp_zero. Qed.
Lemma rate_zero m q p : rate_p m q (0, 0, 0) (0, 0, 0) p = (0, 0, 0).
Proof. unfold rate_p. destruct (speed m p) as [[a b] c] eqn:E. unfold cross, add3, scale3. f_equal; [f_equal|]; ring. Qed.
Lemma scale_zero c : scale3 c (0, 0, 0) = (0, 0, 0). Proof. unfold scale3. now rewrite !Rmult_0_r. Qed.
Lemma add_zero p : add3 p (0, 0, 0) = p. Proof. destruct p as [[a b] c]. unfold add3. now rewrite !Rplus_0_r. Qed.
Lemma near_free s L f prev g : u_n s = (L + 1)%nat -> no_fields_on L f -> t_m g = t_m prev ->
  Rabs (at_x prev + u_xi s * rate_x (t_m prev) (mom prev)) <= 3 * u_b s -> near1 s f prev g.
Proof.
  intros HN Z M A Q x Hx. unfold arrives_at in Hx. cbv zeta in Hx. rewrite (field_zero L) in Hx by auto. destruct Hx as (p0 & _ & _ & ->).
  rewrite !rate_zero, !scale_zero, !add_zero, M. exact A.
Qed.
Lemma mom_anti p : mom (anti p) = mom p. Proof. reflexivity. Qed.
Lemma coasted_anti X p g : coasted X p g -> coasted X (anti p) (anti g).
Proof. intros (A & B & C & D & E & F & G). unfold coasted. rewrite !mom_anti. cbn. rewrite A, B, C, E, F, G. repeat split; apply D. Qed.
Lemma pushed_anti L n h b X f prev g new : n = (L + 1)%nat -> no_fields_on L f ->
  Layer3D_Spec.pushed n h b X f prev g new -> Layer3D_Spec.pushed n h b X f (anti prev) (anti g) (anti new).
Proof.
  intros HN Z (P1 & P2 & P3 & P4 & P5). split; [exact P1|]. split; [exact P2|]. split; [exact P3|]. split.
  - intros Q. cbn in Q. rewrite P4 by lra. reflexivity.
  - intros Q. cbn in Q. specialize (P5 ltac:(lra)). cbv zeta in *. cbn [t_x0 t_y0 t_dx t_dy anti t_m] in *. rewrite (field_zero L) in * by auto.
    destruct P5 as (p0 & Z1 & Z2 & P5). exists p0. split; [exact Z1|]. split; [exact Z2|]. rewrite !mom_anti. change (at_x (anti prev)) with (at_x prev). change (at_y (anti prev)) with (at_y prev).
    rewrite !rate_zero, !scale_zero, !add_zero in *. destruct P5 as [A N]. split.
    + intros W. destruct (A W) as (A1 & A2 & A3 & A4 & A5). split; [exact A1|]. split; [exact A2|]. split; [cbn; now rewrite A3|]. split; [exact A4|exact A5].
    + intros W. destruct (N W) as (N1 & N2 & N3 & N4 & N5 & N6). unfold absorbed. cbn. rewrite N6. repeat split; auto. ring.
Qed.

Section Pair.
  Variables (s : solver3) (L : nat).
  Hypothesis HN : u_n s = (L + 1)%nat.
  Hypothesis HL : (2 <= L)%nat.
  Hypothesis Hh : u_h s <> 0.
  Hypothesis Hc : 0 <= u_coeff s.
  Hypothesis Hm : u_ions s = Mobile3.
  Lemma pair_coast pp g : paired pp -> all_coasted s pp g -> paired g.
  Proof.
    intros P (A & B & C). rewrite Hm in C. unfold paired. rewrite A. intros i j Hi Hj. apply (coasted_det (u_xi s) (io pp i j)); [now apply C|].
    rewrite (P i j Hi Hj). now apply coasted_anti, B.
  Qed.
  Lemma pair_push f pp g p : K_ g = K_ pp -> no_fields_on L f -> paired pp -> paired g -> all_pushed s f pp g p -> paired p.
  Proof.
    intros Kg Z P G (A & B & C). rewrite Hm in C. unfold paired in *. rewrite A. rewrite Kg in G. intros i j Hi Hj.
    refine (pushed_det L _ _ _ _ f f _ _ _ _ HN (fields_eq_refl L f) (C i j Hi Hj) _). rewrite (P i j Hi Hj), (G i j Hi Hj). apply (pushed_anti L); auto.
  Qed.
  Lemma spread_anti K f a a' u v : each K (fun i j => a' i j = anti (a i j)) -> (forall p, f (anti p) = - f p) -> spread (u_n s) K (u_h s) f a' u v = - spread (u_n s) K (u_h s) f a u v.
  Proof.
    intros E F. unfold spread, array_sum. rewrite <- sumN_opp. apply sumN_ext. intros i Hi. rewrite <- sumN_opp. apply sumN_ext. intros j Hj. rewrite (E i j Hi Hj), F.
    change (at_x (anti (a i j))) with (at_x (a i j)). change (at_y (anti (a i j))) with (at_y (a i j)). unfold Rdiv. ring.
  Qed.
  Lemma pair_carry p c : paired p -> carried_by s p c -> no_totals L c.
  Proof.
    intros P (A1 & A2 & A3 & A4). rewrite Hm in *. 
    assert (R0 : forall q, rho_of (anti q) = - rho_of q) by (intros; unfold rho_of, energy3; cbn; unfold Rdiv; ring).
    split; [|split; [|split]]; intros i j Hi Hj; [rewrite A1 by lia|rewrite A2 by lia|rewrite A3 by lia|rewrite A4 by lia].
    - rewrite (spread_anti (K_ p) rho_of (el p) (io p)); auto. ring.
    - rewrite (spread_anti (K_ p) _ (el p) (io p)); auto; [ring|]. intros q. rewrite R0. change (vx_of (anti q)) with (vx_of q). ring.
    - rewrite (spread_anti (K_ p) _ (el p) (io p)); auto; [ring|]. intros q. rewrite R0. change (vy_of (anti q)) with (vy_of q). ring.
    - rewrite (spread_anti (K_ p) _ (el p) (io p)); auto; [ring|]. intros q. rewrite R0. change (vz_of (anti q)) with (vz_of q). ring.
  Qed.
  Lemma fields_zero X it fp rb rbp cp c : no_fields_on L it -> no_fields_on L fp -> zero_on L rb -> zero_on L rbp -> no_totals L cp -> no_totals L c ->
    fields_of L (u_h s) X (u_coeff s) it fp rb rbp cp c zero_fields3 zero_fields3.
  Proof.
    intros (I1 & I2 & I3 & I4 & I5 & I6 & I7) (F1 & F2 & F3 & F4 & F5 & F6 & F7) R R' (D1 & D2 & D3 & D4) (C1 & C2 & C3 & C4).
    assert (LZ : forall i j, minus_laplacian (u_h s) L zeros2 i j = 0) by (intros; unfold minus_laplacian, minus_d2, zeros2, Rdiv; ring).
    assert (INT : forall i, interior L i -> (i <= L /\ i + 1 <= L /\ i - 1 <= L)%nat) by (unfold interior; lia).
    assert (CX : forall a i j, zero_on L a -> interior L i -> interior L j -> cdx (u_h s) a i j = 0 /\ cdy (u_h s) a i j = 0).
    { intros a i j Za Hi Hj. apply INT in Hi, Hj. unfold cdx, cdy. rewrite !Za by lia. unfold Rdiv. split; ring. }
    assert (IO : forall a i j, (forall i j, interior L i -> interior L j -> a i j = 0) -> inner_only L a i j = 0).
    { intros a i j Za. destruct (inner_cases L HL a i j) as [(A & B & ->)|[A ->]]; auto. }
    assert (SZ : forall c0 i j, screened (u_h s) c0 L zeros2 i j = 0) by (intros; unfold screened; rewrite LZ; unfold zeros2; ring).
    unfold fields_of. cbv zeta. cbn [Ex Ey Ez Bx By Bz Phi zero_fields3].
    assert (ZE : zero_edge L zeros2) by (intros a Ha; repeat split). assert (ZF : zero_first L zeros2) by (intros a Ha; repeat split). assert (ZS : zero_second L zeros2) by (intros a Ha; repeat split).
    set (ro := fun i j => (total3 c_ro c i j + rb i j + total3 c_ro cp i j + rbp i j) / 2).
    set (jz := fun i j => (total3 c_jz c i j + rb i j + total3 c_jz cp i j + rbp i j) / 2).
    assert (Zr : zero_on L ro) by (intros i j Hi Hj; unfold ro; rewrite C1, D1, R, R' by auto; lra).
    assert (Zz : zero_on L jz) by (intros i j Hi Hj; unfold jz; rewrite C4, D4, R, R' by auto; lra).
    assert (CU : forall i j, curl_j (u_h s) L (total3 c_jx c) (total3 c_jy c) i j = 0).
    { intros i j. unfold curl_j. apply IO. intros a b Ha Hb. destruct (CX _ a b C2 Ha Hb) as [_ ->]. destruct (CX _ a b C3 Ha Hb) as [-> _]. ring. }
    cbn in I1, I2, I4, I5, F1, F2, F3, F4, F5, F6.
    assert (T : trapezoid_mean L (curl_j (u_h s) L (total3 c_jx c) (total3 c_jy c)) = 0).
    { unfold trapezoid_mean. rewrite (sumN_ext (L + 1) _ (fun _ => 0)); [rewrite sumN_0; unfold Rdiv; ring|]. intros i Hi. rewrite (sumN_ext (L + 1) _ (fun _ => 0)); [apply sumN_0|]. intros. rewrite CU. ring. }
    split; [|split; [|split; [|split; [|split; [|split; [|split; [|split]]]]]]].
    - split; [exact ZE|]. intros i j Hi Hj. rewrite LZ. destruct (CX _ i j C2 Hi Hj) as [-> _]. destruct (CX _ i j C3 Hi Hj) as [_ ->]. ring.
    - split; [exact ZE|]. intros i j Hi Hj. rewrite LZ, C1, C4 by (apply INT; auto). ring.
    - split; [unfold array_sum; rewrite (sumN_ext (L + 1) _ (fun _ => 0)); [apply sumN_0|intros; apply sumN_0]|]. intros i j Hi Hj. rewrite LZ, CU, T. ring.
    - split; [exact ZS|]. intros i j Hi Hj. rewrite SZ, IO by (intros a b Ha Hb; apply (CX ro a b Zr Ha Hb)). rewrite C2, D2, I1 by (auto; apply INT; auto). unfold zeros2, Rdiv. ring.
    - split; [exact ZF|]. intros i j Hi Hj. rewrite SZ, IO by (intros a b Ha Hb; apply (CX ro a b Zr Ha Hb)). rewrite C3, D3, I2 by (auto; apply INT; auto). unfold zeros2, Rdiv. ring.
    - split; [exact ZF|]. intros i j Hi Hj. rewrite SZ, IO by (intros a b Ha Hb; apply (CX jz a b Zz Ha Hb)). rewrite C3, D3, I4 by (auto; apply INT; auto). unfold zeros2, Rdiv. ring.
    - split; [exact ZS|]. intros i j Hi Hj. rewrite SZ, IO by (intros a b Ha Hb; apply (CX jz a b Zz Ha Hb)). rewrite C2, D2, I5 by (auto; apply INT; auto). unfold zeros2, Rdiv. ring.
    - intros F HF i j Hi Hj. cbn [In] in HF. destruct HF as [<-|[<-|[<-|[<-|[<-|[<-|[]]]]]]]; cbn; rewrite ?F1, ?F2, ?F3, ?F4, ?F5, ?F6 by auto; unfold zeros2; lra.
    - intros i j Hi Hj. reflexivity.
  Qed.
  Lemma solved_zero X it fp rb rbp cp c full half : no_fields_on L it -> no_fields_on L fp -> zero_on L rb -> zero_on L rbp -> no_totals L cp -> no_totals L c ->
    fields_of L (u_h s) X (u_coeff s) it fp rb rbp cp c full half -> no_fields_on L full /\ no_fields_on L half.
  Proof.
    intros A B C D E F H. assert (Z := fields_zero X it fp rb rbp cp c A B C D E F).
    refine (fields_det L (u_h s) X (u_coeff s) it it fp rb rbp cp c c _ _ _ _ HL Hh Hc (fields_eq_refl L it) _ H Z). repeat split; intros i j Hi Hj; reflexivity.
  Qed.
  Lemma pair_short rb rbp pp fp cp : paired pp -> no_fields_on L fp -> no_totals L cp -> zero_on L rb -> zero_on L rbp ->
    each (K_ pp) (fun i j => let p := el pp i j in Rabs (at_x p + u_xi s * rate_x (t_m p) (mom p)) <= 3 * u_b s) ->
    short_flights s L rb rbp (pp, fp, cp).
  Proof.
    intros P Z C R R' F p0 p1 p2 c1 c2 full1 half1 full2 half2 A0 A1 A2 A3 A4 A5 A6.
    assert (P0 := pair_coast _ _ P A0). assert (P1 := pair_push _ _ _ _ (proj1 A0) Z P P0 A1).
    assert (T1 := pair_carry _ _ P1 A2). destruct (solved_zero _ _ _ _ _ _ _ _ _ Z Z R R' C T1 A3) as [_ Z1].
    assert (P2 := pair_push _ _ _ _ (proj1 A1) Z1 P P1 A4). assert (T2 := pair_carry _ _ P2 A5). destruct (solved_zero _ _ _ _ _ _ _ _ _ Z1 Z R R' C T2 A6) as [_ Z2].
    assert (NE : forall f g, no_fields_on L f -> of_sorts s (K_ pp) (fun sort i j => t_m (sort g i j) = t_m (sort pp i j)) True -> near s f pp g).
    { intros f g Zf [M1 M2]. unfold near, of_sorts. rewrite Hm in *. split; intros i j Hi Hj; apply (near_free s L); auto; try exact (F i j Hi Hj).
      rewrite (P i j Hi Hj). exact (F i j Hi Hj). }
    assert (M0 : of_sorts s (K_ pp) (fun sort i j => t_m (sort p0 i j) = t_m (sort pp i j)) True).
    { destruct A0 as (_ & B1 & B2). unfold of_sorts in *. rewrite Hm in *. split; intros i j Hi Hj; [apply (B1 i j Hi Hj)|apply (B2 i j Hi Hj)]. }
    assert (M1 : of_sorts s (K_ pp) (fun sort i j => t_m (sort p1 i j) = t_m (sort pp i j)) True).
    { destruct A1 as (_ & B1 & B2), M0 as [N1 N2]. unfold of_sorts in *. rewrite Hm in *. split; intros i j Hi Hj.
      - rewrite <- N1 by auto. apply (B1 i j Hi Hj).
      - rewrite <- N2 by auto. apply (B2 i j Hi Hj). }
    assert (M2 : of_sorts s (K_ pp) (fun sort i j => t_m (sort p2 i j) = t_m (sort pp i j)) True).
    { destruct A4 as (_ & B1 & B2), M1 as [N1 N2]. unfold of_sorts in *. rewrite Hm in *. split; intros i j Hi Hj.
      - rewrite <- N1 by auto. apply (B1 i j Hi Hj).
      - rewrite <- N2 by auto. apply (B2 i j Hi Hj). }
    auto.
  Qed.
End Pair.
