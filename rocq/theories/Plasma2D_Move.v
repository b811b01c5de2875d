(** Lemmas for C26-C28: the 2D plasma mover and the two kinds of substepping. *)
From Coq Require Import Reals ZArith List Bool Lra Lia Psatz.
From Verif Require Import Beam2D_Model Beam2D_Spec Plasma2D_Model Plasma2D_Spec Plasma2D_Ode Plasma2D_Dep.
Import ListNotations.
Open Scope R_scope.

(** ** C26: one step *)
Definition dead (c : pcfg2) (p : pl2) : Prop := r_ p = g_rmax c / 2 /\ pr_ p = 0 /\ pf_ p = 0 /\ pz_ p = 0 /\ q_ p = 0.
Definition ok_result (c : pcfg2) (p p' : pl2) : Prop :=
  0 <= r_ p' <= g_rmax c /\ m_ p' = m_ p /\ (q_ p' = q_ p \/ dead c p').
Lemma killed_ok c p a : 0 < g_rmax c -> ok_result c p (killed c p a).
Proof. intros. unfold ok_result, killed, dead. cbn. repeat split; auto; try lra. Qed.
Lemma finish_ok c p r0 p0 d dl gm : 0 < g_rmax c -> ok_result c p (fst (finish c p r0 p0 d dl gm)).
Proof.
  intros HR. unfold finish. destruct p0 as [[a b] e], d as [[a' b'] e']. cbv beta.
  match goal with |- context [outside ?x ?y] => set (r2 := y) end.
  unfold outside. destruct (Rlt_dec r2 0) as [B|B]; [now apply killed_ok|]. destruct (Rlt_dec (g_rmax c) r2) as [A|A]; [now apply killed_ok|].
  unfold ok_result. cbn [fst r_ m_ q_]. repeat split; auto; lra.
Qed.
Lemma push_half_ok c p e r0 X p0 dl gm : 0 < g_rmax c -> ok_result c p (fst (push_half c p e r0 X p0 dl gm)).
Proof.
  intros HR. unfold push_half. destruct p0 as [[a b] d]. destruct (kick _ _ _ _ _ _ _) as [[u v] w].
  destruct (Req_EM_T _ _); [now apply killed_ok|now apply finish_ok].
Qed.
Lemma move_one2_cases c f amp X p : 0 < g_rmax c -> ok_result c p (fst (move_one2 c f amp X p)).
Proof.
  intros HR. unfold move_one2. destruct (Req_EM_T _ _); [now apply killed_ok|].
  destruct (beyond _ _); destruct (outside _ _); try (now apply killed_ok); now apply push_half_ok.
Qed.
(** beyond the wall after the step: all momenta are gone *)
Lemma finish_wall c p r0 a b d a' b' d' dl gm :
  let x := r_ p + (a + a' / 2) * dl in let y := (b + b' / 2) * dl in
  g_rmax c < sqrt (x ^ 2 + y ^ 2) -> let p' := fst (finish c p r0 (a, b, d) (a', b', d') dl gm) in
  pr_ p' = 0 /\ pf_ p' = 0 /\ pz_ p' = 0.
Proof.
  intros x y H. unfold finish. fold x y. set (rn := sqrt _) in *. assert (0 <= rn) by apply sqrt_pos. unfold beyond.
  destruct (Rlt_dec rn 0); [lra|]. destruct (Rlt_dec (g_rmax c) rn); [|lra].
  destruct (outside _ _); cbn; auto.
Qed.
(** a full step that would end beyond the wall stops the particle there (or removes it) *)
Lemma sqrt_sq_abs x : sqrt (x ^ 2) = Rabs x.
Proof. rewrite <- sqrt_Rsqr_abs. f_equal. unfold Rsqr. ring. Qed.

(** free motion *)
Definition no_force (n : nat) (f : fields2) : Prop :=
  forall i, (i < n)%nat -> f_er f i = 0 /\ f_ef f i = 0 /\ f_ez f i = 0 /\ f_bf f i = 0.
Lemma interp_zero n c x f : (2 <= n)%nat -> (0 <= c)%Z -> no_force n f ->
  exists bz, interpolate2 n c x f = (0, 0, 0, 0, bz) /\ ((forall i, (i < n)%nat -> f_bz f i = 0) -> bz = 0).
Proof.
  intros Hn Hc H. unfold interpolate2. destruct (Z.leb_spec (Z.of_nat n) c); [exists 0; auto|].
  assert (E : forall i, (i < n)%nat -> f_er f i = 0) by apply H. assert (F : forall i, (i < n)%nat -> f_ef f i = 0) by apply H.
  assert (G : forall i, (i < n)%nat -> f_ez f i = 0) by apply H. assert (B : forall i, (i < n)%nat -> f_bf f i = 0) by apply H.
  destruct (Z.eqb_spec c (Z.of_nat n - 1)), (Z.eqb_spec c 0); try lia; rewrite !E, !F, !G, !B by lia; eexists; (split;
    [repeat apply f_equal2; try lra; reflexivity | intros Z'; rewrite !Z' by lia; lra]).
Qed.
Lemma noise_zero n c x h : noise_at n (fun _ => 0) c x h = 0.
Proof.
  unfold noise_at. destruct (_ <=? _)%Z; auto. destruct (_ =? _)%Z; auto. destruct (Req_EM_T _ _); auto. lra.
Qed.

Lemma cell2_nonneg h r : 0 < h -> 0 <= r -> (0 <= cell2 h r)%Z.
Proof.
  intros Hh Hr. pose proof (cell2_spec h r) as C. cbn zeta in C. assert (0 <= r / h) by (apply Rmult_le_pos; [auto|apply Rlt_le, Rinv_0_lt_compat; auto]).
  assert (L : IZR (-1) < IZR (cell2 h r)) by lra. apply lt_IZR in L. lia.
Qed.
Definition grid_ok (c : pcfg2) : Prop := (2 <= g_n c)%nat /\ 0 < g_h c.
Lemma fields_zero c f r : grid_ok c -> 0 <= r -> no_force (g_n c) f ->
  exists bz, fields_at c f (fun _ => 0) r = (0, 0, 0, 0, bz) /\ ((forall i, (i < g_n c)%nat -> f_bz f i = 0) -> bz = 0).
Proof.
  intros [Hn Hg] Hr H. unfold fields_at. set (cl := cell2 _ _).
  destruct (interp_zero (g_n c) cl (r / g_h c - IZR cl) f Hn (cell2_nonneg _ _ Hg Hr) H) as (bz & -> & Hz).
  rewrite noise_zero. exists bz. split; auto. repeat apply f_equal2; lra.
Qed.
Lemma kick_free q dl gm px py pz : kick q (0, 0, 0, 0, 0) dl gm px py pz = (0, 0, 0).
Proof. unfold kick. repeat apply f_equal2; ring. Qed.
Lemma kick_rest q bz dl gm : kick q (0, 0, 0, 0, bz) dl gm 0 0 0 = (0, 0, 0).
Proof. unfold kick. repeat apply f_equal2; ring. Qed.

Lemma free_step c f X p : grid_ok c -> no_force (g_n c) f -> (forall i, (i < g_n c)%nat -> f_bz f i = 0) -> 0 < X -> m_ p <> 0 -> 0 <= r_ p <= g_rmax c ->
  let dl := X / (gm_of p - pz_ p) in
  let x := r_ p + pr_ p * dl in let y := pf_ p * dl in let rn := sqrt (x ^ 2 + y ^ 2) in
  r_ p + pr_ p * dl / 2 <= g_rmax c -> - (g_rmax c) <= r_ p + pr_ p * dl / 2 -> rn <= g_rmax c ->
  let p' := fst (move_one2 c f (fun _ => 0) X p) in
  r_ p' = rn /\ pz_ p' = pz_ p /\ q_ p' = q_ p /\ m_ p' = m_ p /\
  (0 < rn -> pr_ p' * rn = pr_ p * x + pf_ p * y /\ pf_ p' * rn = r_ p * pf_ p).
Proof.
  intros Hgo Hf Hbz HX Hm Hr dl x y rn H1 H2 H3 p'. subst p'. unfold move_one2. pose proof (gm_gt p Hm) as Hg.
  change (sq4 (m_ p) (pr_ p) (pf_ p) (pz_ p)) with (gm_of p).
  destruct (Req_EM_T (gm_of p) (pz_ p)) as [E|_]; [lra|]. fold dl.
  set (rp := r_ p + pr_ p * dl / 2) in *.
  assert (B : beyond (g_rmax c) rp = false) by (unfold beyond; destruct (Rlt_dec rp 0); auto; destruct (Rlt_dec _ rp); auto; lra).
  rewrite B. set (rh := fold_r (g_rmax c) rp).
  assert (Hh : 0 <= rh <= g_rmax c) by (unfold rh, fold_r; destruct (Rlt_dec rp 0); [lra|]; destruct (Rlt_dec (g_rmax c) rp); lra).
  assert (O : outside (g_rmax c) rh = false) by (unfold outside; destruct (Rlt_dec rh 0); [lra|]; destruct (Rlt_dec (g_rmax c) rh); [lra|auto]).
  rewrite O. destruct (fields_zero c f rh Hgo (proj1 Hh) Hf) as (bz & -> & Hz). rewrite (Hz Hbz). clear Hz bz.
  unfold push_half. rewrite kick_free.
  replace (pr_ p + 0 / 2) with (pr_ p) by lra. replace (pf_ p + 0 / 2) with (pf_ p) by lra. replace (pz_ p + 0 / 2) with (pz_ p) by lra.
  change (sq4 (m_ p) (pr_ p) (pf_ p) (pz_ p)) with (gm_of p). destruct (Req_EM_T (gm_of p) (pz_ p)) as [E|_]; [lra|]. fold dl.
  rewrite kick_free. unfold finish.
  replace (pr_ p + 0 / 2) with (pr_ p) by lra. replace (pf_ p + 0 / 2) with (pf_ p) by lra.
  replace (pr_ p + 0) with (pr_ p) by lra. replace (pf_ p + 0) with (pf_ p) by lra. replace (pz_ p + 0) with (pz_ p) by lra.
  fold x y. fold rn. assert (0 <= rn) by apply sqrt_pos.
  assert (B' : beyond (g_rmax c) rn = false) by (unfold beyond; destruct (Rlt_dec rn 0); auto; destruct (Rlt_dec _ rn); auto; lra).
  assert (F' : fold_r (g_rmax c) rn = rn) by (unfold fold_r; destruct (Rlt_dec rn 0); [lra|]; destruct (Rlt_dec _ rn); [lra|auto]).
  assert (O' : outside (g_rmax c) rn = false) by (unfold outside; destruct (Rlt_dec rn 0); [lra|]; destruct (Rlt_dec (g_rmax c) rn); [lra|auto]).
  rewrite B', F', O'. destruct (Rlt_dec rn 0); [lra|]. cbn [fst r_ pz_ q_ m_ pr_ pf_].
  repeat split; auto.
  - destruct (Req_EM_T rn 0); [lra|]. field. lra.
  - destruct (Req_EM_T rn 0); [lra|]. transitivity (pf_ p * x - pr_ p * y); [field; lra|]. unfold x, y. ring.
Qed.

(** a particle at rest without forces stays, whatever the longitudinal magnetic field *)
Lemma rest_step c f X p : grid_ok c -> no_force (g_n c) f -> 0 < X -> m_ p <> 0 -> pr_ p = 0 -> pf_ p = 0 -> pz_ p = 0 -> 0 <= r_ p <= g_rmax c ->
  move_one2 c f (fun _ => 0) X p = (mkPl (r_ p) 0 0 0 (q_ p) (m_ p) (age_ p - X), 0).
Proof.
  intros Hgo Hf HX Hm H1 H2 H3 Hr. unfold move_one2. pose proof (gm_gt p Hm) as Hg. rewrite H1, H2, H3 in *.
  assert (G : sq4 (m_ p) 0 0 0 = gm_of p) by (unfold gm_of, sq4; now rewrite H1, H2, H3). rewrite G.
  destruct (Req_EM_T (gm_of p) 0) as [E|_]; [lra|]. replace (r_ p + 0 * (X / (gm_of p - 0)) / 2) with (r_ p) by lra.
  assert (B' : beyond (g_rmax c) (r_ p) = false) by (unfold beyond; destruct (Rlt_dec (r_ p) 0); auto; destruct (Rlt_dec _ (r_ p)); auto; lra).
  assert (F' : fold_r (g_rmax c) (r_ p) = r_ p) by (unfold fold_r; destruct (Rlt_dec (r_ p) 0); [lra|]; destruct (Rlt_dec _ (r_ p)); [lra|auto]).
  assert (O' : outside (g_rmax c) (r_ p) = false) by (unfold outside; destruct (Rlt_dec (r_ p) 0); [lra|]; destruct (Rlt_dec (g_rmax c) (r_ p)); [lra|auto]).
  rewrite B', F', O'. destruct (fields_zero c f (r_ p) Hgo (proj1 Hr) Hf) as (bz & -> & _).
  set (dl := X / (gm_of p - 0)). unfold push_half. rewrite kick_rest. replace (0 + 0 / 2) with 0 by lra. rewrite G.
  destruct (Req_EM_T (gm_of p) 0) as [E|_]; [lra|]. fold dl. rewrite kick_rest. unfold finish.
  replace ((0 + 0 / 2) * dl) with 0 by lra. replace (r_ p + 0) with (r_ p) by lra. replace (0 + 0) with 0 by lra.
  replace (sqrt (r_ p ^ 2 + 0 ^ 2)) with (r_ p).
  2: { replace (r_ p ^ 2 + 0 ^ 2) with (r_ p ^ 2) by lra. rewrite sqrt_pow2; lra. }
  rewrite B', F', O'. replace (r_ p - r_ p) with 0 by lra. rewrite Rabs_R0. rewrite (Rmax_left 0 0) by lra. rewrite (Rmax_left 0 0) by lra.
  f_equal. replace (gm_of p * dl) with X by (unfold dl; field; lra).
  destruct (Rlt_dec (r_ p) 0); [lra|].
  f_equal; destruct (Req_EM_T (r_ p) 0); try lra; field; lra.
Qed.

(** ** C27: the particle's own substeps *)
Ltac nz := repeat split; first [lra | apply pow_nonzero; lra].
Lemma pow2_pos k : 0 < 2 ^ k.
Proof. apply pow_lt. lra. Qed.
Section Sub.
  Variables (step : R -> pl2 -> pl2 * R) (h X : R).
  Hypothesis HX : 0 < X.
  (** [j] substeps of size X/2^k done *)
  Lemma halve_ok k : 0.0001 < (X / 2 ^ k) / X -> (k <= 13)%nat.
  Proof.
    intros H. replace (X / 2 ^ k / X) with (/ 2 ^ k) in H by (field; nz).
    apply Nat.nlt_ge. intros G. assert (2 ^ 14 <= 2 ^ k) by (apply Rle_pow; [lra|lia]).
    assert (/ 2 ^ k <= / 2 ^ 14) by (apply Rinv_le_contravar; [apply pow2_pos|auto]).
    assert (/ 2 ^ 14 < 0.0001) by (apply (Rmult_lt_reg_l (2 ^ 14)); [apply pow2_pos|]; rewrite Rinv_r by lra; lra). lra.
  Qed.
  Lemma frac_lt k j : (k <= 14)%nat -> (j <= 2 ^ k)%nat -> INR j * (X / 2 ^ k) <= 0.99999 * X -> (j < 2 ^ k)%nat.
  Proof.
    intros Hk Hj H. destruct (Nat.eq_dec j (2 ^ k)) as [->|]; [|lia]. exfalso. rewrite pow_INR in H. cbn [INR] in H.
    replace ((1 + 1) ^ k * (X / 2 ^ k)) with X in H; [lra|]. replace (1 + 1) with 2 by lra. field. apply Rgt_not_eq, pow2_pos.
  Qed.
  Lemma frac_gt k j : (k <= 14)%nat -> (j <= 2 ^ k)%nat -> 0.99999 * X < INR j * (X / 2 ^ k) -> j = (2 ^ k)%nat.
  Proof.
    intros Hk Hj H. destruct (Nat.eq_dec j (2 ^ k)) as [->|N]; [reflexivity|]. exfalso.
    assert (J : (S j <= 2 ^ k)%nat) by lia. apply le_INR in J. rewrite pow_INR, S_INR in J. cbn [INR] in J. replace (1 + 1) with 2 in J by lra.
    pose proof (pow2_pos k) as P. assert (2 ^ k <= 2 ^ 14) by (apply Rle_pow; [lra|lia]).
    assert (A : INR j * (X / 2 ^ k) * 2 ^ k = INR j * X) by (field; lra).
    assert (B : 0.99999 * X * 2 ^ k < INR j * X) by (rewrite <- A; apply Rmult_lt_compat_r; auto).
    assert (0.99999 * 2 ^ k < INR j) by (apply (Rmult_lt_reg_r X); [auto|]; lra).
    assert (2 ^ 14 = 16384) by (cbn; lra). lra.
  Qed.
  Definition size_ok d := exists k, (k <= 14)%nat /\ d = X / 2 ^ k.
  Lemma sub_loop_ok fuel : forall p j k p', (k <= 14)%nat -> (j <= 2 ^ k)%nat ->
    sub_loop fuel step h X p (INR j * (X / 2 ^ k)) (X / 2 ^ k) = Some p' ->
    exists ds, Steps step h X p ds p' /\ Forall size_ok ds /\
      (q_ p' = 0 \/ INR j * (X / 2 ^ k) + sumR ds = X) /\ sumR ds <= X - INR j * (X / 2 ^ k).
  Proof.
    assert (EndX : forall k, INR (2 ^ k) * (X / 2 ^ k) = X).
    { intros k. rewrite pow_INR. cbn [INR]. replace (1 + 1) with 2 by lra. field. apply Rgt_not_eq, pow2_pos. }
    assert (Jle : forall j k, (j <= 2 ^ k)%nat -> INR j * (X / 2 ^ k) <= X).
    { intros j k Hj. rewrite <- (EndX k) at 2. apply Rmult_le_compat_r; [|now apply le_INR].
      apply Rmult_le_pos; [lra|]. apply Rlt_le, Rinv_0_lt_compat, pow2_pos. }
    induction fuel as [|fuel IH]; intros p j k p' Hk Hj E; cbn [sub_loop] in E.
    - destruct (Rle_dec _ _) as [L|L].
      + destruct (Req_EM_T (q_ p) 0); [|discriminate]. injection E as <-. exists []. repeat split; auto; [constructor|]. cbn. specialize (Jle j k Hj). lra.
      + injection E as <-. exists []. repeat split; auto; [constructor| |cbn; specialize (Jle j k Hj); lra]. right. cbn.
        rewrite (frac_gt k j Hk Hj) by lra. rewrite EndX. lra.
    - destruct (Rle_dec _ _) as [L|L].
      + destruct (Req_EM_T (q_ p) 0) as [Q|Q].
        { injection E as <-. exists []. repeat split; auto; [constructor|]. cbn. specialize (Jle j k Hj). lra. }
        destruct (step (X / 2 ^ k) p) as [p1 path] eqn:S1.
        destruct (Rle_dec h path) as [Hp|Hp]; [destruct (Rlt_dec 0.0001 (X / 2 ^ k / X)) as [Hc|Hc]|].
        * apply halve_ok in Hc.
          replace (INR j * (X / 2 ^ k)) with (INR (2 * j) * (X / 2 ^ (S k))) in E.
          2: { rewrite mult_INR. cbn [INR pow]. field. apply Rgt_not_eq, pow2_pos. }
          replace (X / 2 ^ k / 2) with (X / 2 ^ (S k)) in E by (cbn [pow]; field; apply Rgt_not_eq, pow2_pos).
          destruct (IH p (2 * j)%nat (S k) p') as (ds & A & B & C & D); [lia|cbn [Nat.pow]; lia|exact E|].
          replace (INR (2 * j) * (X / 2 ^ (S k))) with (INR j * (X / 2 ^ k)) in *.
          2: { rewrite mult_INR. cbn [INR pow]. field. apply Rgt_not_eq, pow2_pos. }
          exists ds. auto.
        * pose proof (frac_lt k j Hk Hj L) as J. replace (INR j * (X / 2 ^ k) + X / 2 ^ k) with (INR (S j) * (X / 2 ^ k)) in E by (rewrite S_INR; lra).
          destruct (IH p1 (S j) k p' Hk ltac:(lia) E) as (ds & A & B & C & D). rewrite S_INR in *.
          exists (X / 2 ^ k :: ds). cbn [sumR]. repeat split.
          -- constructor; [auto| |rewrite S1; exact A]. right. apply Rnot_lt_le in Hc.
             apply (Rmult_le_reg_r (/ X)); [now apply Rinv_0_lt_compat|]. rewrite Rmult_assoc, Rinv_r by lra. unfold Rdiv in Hc. lra.
          -- constructor; [exists k; auto|auto].
          -- destruct C as [C|C]; [now left|right]. lra.
          -- lra.
        * pose proof (frac_lt k j Hk Hj L) as J. replace (INR j * (X / 2 ^ k) + X / 2 ^ k) with (INR (S j) * (X / 2 ^ k)) in E by (rewrite S_INR; lra).
          destruct (IH p1 (S j) k p' Hk ltac:(lia) E) as (ds & A & B & C & D). rewrite S_INR in *.
          exists (X / 2 ^ k :: ds). cbn [sumR]. repeat split.
          -- constructor; [auto| |rewrite S1; exact A]. left. rewrite S1. cbn. lra.
          -- constructor; [exists k; auto|auto].
          -- destruct C as [C|C]; [now left|right]. lra.
          -- lra.
      + injection E as <-. exists []. repeat split; auto; [constructor| |cbn; specialize (Jle j k Hj); lra]. right. cbn.
        rewrite (frac_gt k j Hk Hj) by lra. rewrite EndX. lra.
  Qed.
  Lemma sub_loop_fuel fuel : forall p j k, (k <= 14)%nat -> (j <= 2 ^ k)%nat ->
    ((14 - k) + (2 ^ k - j) * 2 ^ (14 - k) <= fuel)%nat ->
    exists p', sub_loop fuel step h X p (INR j * (X / 2 ^ k)) (X / 2 ^ k) = Some p'.
  Proof.
    induction fuel as [|fuel IH]; intros p j k Hk Hj Hf; cbn [sub_loop].
    - destruct (Rle_dec _ _) as [L|L]; [|eauto]. destruct (Req_EM_T _ _); [eauto|]. exfalso. apply (frac_lt k j Hk Hj) in L.
      assert (1 <= 2 ^ (14 - k))%nat by (clear; induction (14 - k)%nat; cbn; lia). nia.
    - destruct (Rle_dec _ _) as [L|L]; [|eauto]. destruct (Req_EM_T _ _); [eauto|]. pose proof (frac_lt k j Hk Hj L) as J.
      assert (P1 : (1 <= 2 ^ (14 - k))%nat) by (clear; induction (14 - k)%nat; cbn; lia).
      destruct (step (X / 2 ^ k) p) as [p1 path] eqn:S1.
      assert (Acc : exists p', sub_loop fuel step h X p1 (INR j * (X / 2 ^ k) + X / 2 ^ k) (X / 2 ^ k) = Some p').
      { replace (INR j * (X / 2 ^ k) + X / 2 ^ k) with (INR (S j) * (X / 2 ^ k)) by (rewrite S_INR; lra).
        apply IH; auto. assert ((2 ^ k - j) = S (2 ^ k - S j))%nat as E by lia. rewrite E in Hf. cbn [Nat.mul] in Hf. lia. }
      destruct (Rle_dec h path) as [Hp|Hp]; [destruct (Rlt_dec 0.0001 (X / 2 ^ k / X)) as [Hc|Hc]|]; auto.
      apply halve_ok in Hc.
      replace (INR j * (X / 2 ^ k)) with (INR (2 * j) * (X / 2 ^ (S k))).
      2: { rewrite mult_INR. cbn [INR pow]. field. apply Rgt_not_eq, pow2_pos. }
      replace (X / 2 ^ k / 2) with (X / 2 ^ (S k)) by (cbn [pow]; field; apply Rgt_not_eq, pow2_pos).
      apply IH; [lia|cbn [Nat.pow]; lia|].
      replace (2 ^ S k - 2 * j)%nat with (2 * (2 ^ k - j))%nat by (cbn [Nat.pow]; lia).
      replace (14 - k)%nat with (S (14 - S k)) in Hf by lia. cbn [Nat.pow] in Hf. lia.
  Qed.
End Sub.
Lemma sub_loop_start step h X p fuel : 0 < X ->
  sub_loop fuel step h X p 0 X = sub_loop fuel step h X p (INR 0 * (X / 2 ^ 0)) (X / 2 ^ 0).
Proof. intros. f_equal; cbn; field. Qed.

(** an invariant of accepted steps holds at the end *)
Lemma Steps_inv step h X (P : pl2 -> Prop) : (forall d p, P p -> P (fst (step d p))) ->
  forall p ds p', Steps step h X p ds p' -> P p -> P p'.
Proof. intros H p ds p' S. induction S; auto. Qed.

(** ** C28: substeps of the layer *)
Section Layer.
  Variables (St : Type) (need : R -> St -> option bool) (adv : R -> St -> option St) (D : nat) (X : R).
  (** substeps of the finest size still to be done at the levels below [d] *)
  Fixpoint below (cnt : nat -> Z) (d : nat) : Z :=
    match d with O => 0%Z | S d' => (below cnt d' + (cnt d - 1) * 10 ^ Z.of_nat (D - d))%Z end.
  Definition left (cnt : nat -> Z) (d : nat) : Z := (below cnt d + 10 ^ Z.of_nat (D - d))%Z.
  Lemma below_ext cnt cnt' d : (forall k, (1 <= k <= d)%nat -> cnt k = cnt' k) -> below cnt d = below cnt' d.
  Proof. induction d as [|d IH]; intros H; [reflexivity|]. cbn. rewrite IH, H; auto; try lia. intros. apply H. lia. Qed.
  Lemma below_nonneg cnt d : (forall k, (1 <= k <= d)%nat -> (1 <= cnt k)%Z) -> (0 <= below cnt d)%Z.
  Proof.
    induction d as [|d IH]; intros H; [reflexivity|]. cbn [below]. assert (1 <= cnt (S d))%Z by (apply H; lia).
    assert (0 <= below cnt d)%Z by (apply IH; intros; apply H; lia). assert (0 <= 10 ^ Z.of_nat (D - S d))%Z by (apply Z.pow_nonneg; lia). nia.
  Qed.
  Definition good (cnt : nat -> Z) (d : nat) := forall k, (1 <= k <= d)%nat -> (1 <= cnt k)%Z.
  Definition fin : R := X / 10 ^ D.
  Lemma unwind_ok d : forall cnt xi, (d <= D)%nat -> good cnt d -> xi = X / 10 ^ d ->
    let '(d', cnt', xi') := unwind d cnt xi in
    (d' <= d)%nat /\ xi' = X / 10 ^ d' /\ (forall k, (k <= d')%nat -> cnt' k = cnt k) /\
    below cnt' d' = below cnt d /\ ((1 <= d')%nat -> (2 <= cnt' d')%Z).
  Proof.
    induction d as [|d IH]; intros cnt xi Hd Hg Hx; cbn [unwind].
    - repeat split; auto; lia.
    - destruct (Z.eqb_spec (cnt (S d)) 1) as [E|E].
      + specialize (IH (fun k => if (k =? S d)%nat then 0%Z else cnt k) (xi * 10)).
        destruct (unwind d _ _) as [[d' cnt'] xi']. destruct IH as (A & B & C & F & G).
        * lia.
        * intros k Hk. cbn. destruct (Nat.eqb_spec k (S d)); [lia|]. apply Hg. lia.
        * rewrite Hx. cbn [pow]. field. apply pow_nonzero. lra.
        * repeat split; auto.
          -- intros k Hk. rewrite C by auto. destruct (Nat.eqb_spec k (S d)); [lia|reflexivity].
          -- rewrite F. cbn [below]. rewrite E, (below_ext _ cnt d); [lia|]. intros k Hk. destruct (Nat.eqb_spec k (S d)); [lia|reflexivity].
      + repeat split; auto. intros _. specialize (Hg (S d) ltac:(lia)). lia.
  Qed.
  Lemma left_dec cnt d : left (fun k => if (k =? d)%nat then (cnt k - 1)%Z else cnt k) d = below cnt d \/ d = 0%nat.
  Proof.
    destruct d as [|d]; [now right|left]. unfold left. cbn [below]. rewrite Nat.eqb_refl, (below_ext _ cnt d); [lia|].
    intros k Hk. destruct (Nat.eqb_spec k (S d)); [lia|reflexivity].
  Qed.
  Lemma pow_split d : (d <= D)%nat -> X / 10 ^ d = IZR (10 ^ Z.of_nat (D - d)) * fin.
  Proof.
    intros H. rewrite <- pow_IZR. unfold fin. replace (10 ^ D) with (10 ^ d * 10 ^ (D - d)).
    - field. nz.
    - rewrite <- pow_add. f_equal. lia.
  Qed.

  Lemma step_loop_ok fuel : forall d cnt xi s s', (d <= D)%nat -> good cnt d -> xi = X / 10 ^ d ->
    step_loop St need adv D fuel d cnt xi s = Some s' ->
    exists ds, Advances need adv fin s ds s' /\ Forall (fun x => exists k, (k <= D)%nat /\ x = X / 10 ^ k) ds /\
      sumR ds = IZR (left cnt d) * fin.
  Proof.
    induction fuel as [|fuel IH]; intros d cnt xi s s' Hd Hg Hx E; cbn [step_loop] in E; [discriminate|].
    destruct (need xi s) as [nd|] eqn:N; [|discriminate]. cbn [bind] in E.
    destruct (nd && (d <? D)%nat) eqn:B.
    - apply andb_prop in B. destruct B as [_ B]. apply Nat.ltb_lt in B.
      eapply IH in E; [|lia| |].
      + destruct E as (ds & A1 & A2 & A3). exists ds. repeat split; auto. rewrite A3. f_equal. f_equal. unfold left. cbn [below].
        rewrite Nat.eqb_refl, (below_ext _ cnt d) by (intros k Hk; destruct (Nat.eqb_spec k (S d)); [lia|reflexivity]).
        replace (D - d)%nat with (S (D - S d)) by lia. rewrite Nat2Z.inj_succ, Z.pow_succ_r by lia. lia.
      + intros k Hk. destruct (Nat.eqb_spec k (S d)); [lia|]. apply Hg. lia.
      + rewrite Hx. cbn [pow]. field. apply pow_nonzero. lra.
    - destruct (adv xi s) as [s1|] eqn:A; [|discriminate]. cbn [bind] in E.
      pose proof (unwind_ok d cnt xi Hd Hg Hx) as U. destruct (unwind d cnt xi) as [[d' cnt'] xi']. destruct U as (U1 & U2 & U3 & U4 & U5).
      assert (Fine : need xi s = Some false \/ xi = fin).
      { apply andb_false_iff in B. destruct B as [->|B]; [now left|right]. apply Nat.ltb_ge in B. assert (d = D) as -> by lia. exact Hx. }
      assert (Ex : exists k, (k <= D)%nat /\ xi = X / 10 ^ k) by (exists d; auto).
      assert (LL : IZR (left cnt d) * fin = xi + IZR (below cnt d) * fin).
      { unfold left. rewrite plus_IZR, Rmult_plus_distr_r, <- pow_split by auto. rewrite Hx. lra. }
      destruct (Nat.eqb_spec d' 0) as [D0|D0].
      + injection E as <-. exists [xi]. repeat split.
        * econstructor; eauto. constructor.
        * constructor; auto.
        * rewrite LL, <- U4, D0. cbn. lra.
      + eapply IH in E; [|lia| |exact U2].
        * destruct E as (ds & A1 & A2 & A3). exists (xi :: ds). repeat split.
          -- econstructor; eauto.
          -- constructor; auto.
          -- cbn [sumR]. rewrite A3, LL, <- U4. f_equal. f_equal. f_equal. destruct (left_dec cnt' d') as [G|G]; [exact G|lia].
        * intros k Hk. destruct (Nat.eqb_spec k d') as [->|].
          -- specialize (U5 ltac:(lia)). lia.
          -- rewrite U3 by lia. apply Hg. lia.
  Qed.
  Lemma step_loop_fuel : (forall x s, need x s <> None) -> (forall x s, adv x s <> None) ->
    forall fuel d cnt xi s, (d <= D)%nat -> good cnt d -> xi = X / 10 ^ d ->
    (left cnt d * Z.of_nat (D + 1) + Z.of_nat (D - d) <= Z.of_nat fuel)%Z ->
    exists s', step_loop St need adv D fuel d cnt xi s = Some s'.
  Proof.
    intros Hn Ha. induction fuel as [|fuel IH]; intros d cnt xi s Hd Hg Hx Hf.
    - exfalso. pose proof (below_nonneg cnt d Hg). unfold left in Hf. assert (0 < 10 ^ Z.of_nat (D - d))%Z by (apply Z.pow_pos_nonneg; lia). nia.
    - cbn [step_loop]. destruct (need xi s) as [nd|] eqn:N; [|now apply Hn in N]. cbn [bind]. destruct (nd && (d <? D)%nat) eqn:B.
      + apply andb_prop in B. destruct B as [_ B]. apply Nat.ltb_lt in B. apply IH; [lia| | |].
        * intros k Hk. destruct (Nat.eqb_spec k (S d)); [lia|]. apply Hg. lia.
        * rewrite Hx. cbn [pow]. field. apply pow_nonzero. lra.
        * assert (L : left (fun k => if (k =? S d)%nat then 10%Z else cnt k) (S d) = left cnt d).
          { unfold left. cbn [below]. rewrite Nat.eqb_refl, (below_ext _ cnt d) by (intros k Hk; destruct (Nat.eqb_spec k (S d)); [lia|reflexivity]).
            replace (D - d)%nat with (S (D - S d)) by lia. rewrite Nat2Z.inj_succ, Z.pow_succ_r by lia. lia. }
          rewrite L. lia.
      + destruct (adv xi s) as [s1|] eqn:A; [|now apply Ha in A]. cbn [bind].
        pose proof (unwind_ok d cnt xi Hd Hg Hx) as U. destruct (unwind d cnt xi) as [[d' cnt'] xi']. destruct U as (U1 & U2 & U3 & U4 & U5).
        destruct (Nat.eqb_spec d' 0) as [D0|D0]; [eauto|]. apply IH; [lia| |exact U2|].
        * intros k Hk. destruct (Nat.eqb_spec k d') as [->|].
          -- specialize (U5 ltac:(lia)). lia.
          -- rewrite U3 by lia. apply Hg. lia.
        * destruct (left_dec cnt' d') as [G|G]; [|lia]. rewrite G, U4. unfold left in Hf.
          assert (0 < 10 ^ Z.of_nat (D - d))%Z by (apply Z.pow_pos_nonneg; lia). nia.
  Qed.
End Layer.
