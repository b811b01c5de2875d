(** Theorem C75, continued: each cell of the 2D beam density in binary64. *)
From Coq Require Import Reals ZArith List Bool Lra Lia Psatz FunctionalExtensionality.
From Flocq Require Import Core.
From Verif Require Import Float_Model Float_Proofs Beam2D_Model Beam2D_Spec Beam2D_Free Rounded3D_Model RoundedBeam_Spec RoundedBeam_Model Props_RoundedBeam RoundedSum_Proofs RoundedWeight_Proofs RoundedDep_Model RoundedDep_Spec RoundedDep_Proofs RoundedCell_Proofs Props_RoundedDep Props_RoundedDep2 Props_RoundedCell.
Import ListNotations.
Open Scope R_scope.

(** ** Arrays as functions *)
Definition arr (o : list R) (z : Z) : R := if (z <? 0)%Z then 0 else nth (Z.to_nat z) o 0.
Lemma add_nat_nth : forall out i v o, add_nat_f out i v = Some o -> forall k, nth k o 0 = if Nat.eqb k i then double (nth i out 0 + v) else nth k out 0.
Proof.
  induction out as [|x out IH]; intros i v o E k; [destruct i; discriminate E|]. destruct i as [|i]; cbn in E.
  - injection E as <-. destruct k; reflexivity.
  - destruct (add_nat_f out i v) as [t|] eqn:F; [|discriminate E]. injection E as <-. destruct k; [reflexivity|]. cbn. now apply IH.
Qed.
Lemma add_at_puts : forall ivs out o, add_at_f out ivs = Some o -> arr o = puts Z.eqb (arr out) ivs.
Proof.
  induction ivs as [|[i v] ivs IH]; intros out o E; [injection E as <-; reflexivity|]. cbn in E. destruct (i <? 0)%Z eqn:C; [discriminate E|]. destruct (add_nat_f out (Z.to_nat i) v) as [t|] eqn:F; [|discriminate E]. cbn [bind] in E.
  rewrite (IH _ _ E). change (puts Z.eqb (arr out) ((i, v) :: ivs)) with (puts Z.eqb (put Z.eqb (arr out) i v) ivs). f_equal. apply functional_extensionality. intros z. apply Z.ltb_ge in C. unfold put, arr. destruct (z <? 0)%Z eqn:Z0.
  - apply Z.ltb_lt in Z0. destruct (Z.eqb_spec z i); [lia|reflexivity].
  - apply Z.ltb_ge in Z0. rewrite (add_nat_nth _ _ _ _ F). destruct (Z.eqb_spec z i) as [->|Hz].
    + rewrite Nat.eqb_refl. reflexivity.
    + destruct (Nat.eqb_spec (Z.to_nat z) (Z.to_nat i)); [lia|reflexivity].
Qed.
Lemma arr_double o : alld o -> forall z, is_double (arr o z).
Proof. intros H z. unfold arr. destruct (z <? 0)%Z; [apply double_0|]. destruct (nth_in_or_default (Z.to_nat z) o 0) as [I|E]; [now apply H|rewrite E; apply double_0]. Qed.
Lemma arr_nth o k : arr o (Z.of_nat k) = nth k o 0.
Proof. unfold arr. destruct (Z.of_nat k <? 0)%Z eqn:E; [apply Z.ltb_lt in E; lia|]. now rewrite Nat2Z.id. Qed.

(** ** One particle *)
Lemma hat_lip x y : Rabs (hat x - hat y) <= Rabs (x - y).
Proof. unfold hat, Rmax, Rabs. repeat destruct (Rle_dec _ _); repeat destruct (Rcase_abs _); lra. Qed.
Lemma hat_range x : 0 <= hat x <= 1.
Proof. unfold hat, Rmax, Rabs. repeat destruct (Rle_dec _ _); repeat destruct (Rcase_abs _); lra. Qed.
Definition zf (dxi : R) (i : Z) (x : R) : R := double (- double (double (IZR (i + 1) * - dxi) - x) / dxi).
Lemma zf_near dxi i x : ordinary_step dxi -> (0 <= i < 2 ^ 49)%Z -> in_layer dxi i x -> Rabs (zf dxi i x - (x - - (IZR (i + 1) * dxi)) / dxi) <= (IZR i + 4) * u.
Proof.
  intros H Hi [A B]. assert (P := step_pos _ H). assert (L := layer_length dxi i H Hi). assert (U := u_pos). assert (T := u_tiny). assert (Et := eta_u). assert (Ed := eta_step _ H). unfold zf.
  replace (IZR (i + 1) * - dxi) with (- (IZR (i + 1) * dxi)) by ring. assert (Eb : double (- (IZR (i + 1) * dxi)) = border dxi (i + 1)) by reflexivity. rewrite Eb.
  assert (E0 := round_error (- (IZR (i + 1) * dxi))). rewrite Eb, Rabs_Ropp in E0. assert (I0 : 0 <= IZR (i + 1)) by (apply IZR_le; lia). rewrite (Rabs_pos_eq (IZR (i + 1) * dxi)) in E0 by (apply Rmult_le_pos; lra).
  rewrite <- double_opp. replace (- (border dxi (i + 1) - x)) with (x - border dxi (i + 1)) by ring.
  set (d := x - border dxi (i + 1)) in *. assert (Hd : 0 <= d <= 5/4 * dxi) by (unfold d; lra). assert (E1 := round_error d). rewrite (Rabs_pos_eq d) in E1 by lra.
  set (s := double d) in *. assert (E2 := round_error (s / dxi)).
  assert (S1 : Rabs (s / dxi - d / dxi) <= 1.3 * u). { replace (s / dxi - d / dxi) with ((s - d) * / dxi) by (field; lra). rewrite Rabs_mult, (Rabs_pos_eq (/ dxi)) by (left; now apply Rinv_0_lt_compat). apply (Rmult_le_reg_r dxi); [exact P|]. rewrite Rmult_assoc, Rinv_l, Rmult_1_r by lra. assert (u * d <= u * (5/4 * dxi)) by (apply Rmult_le_compat_l; lra). assert (0 < u * dxi) by (apply Rmult_lt_0_compat; lra). lra. }
  assert (S0 : Rabs (d / dxi - (x - - (IZR (i + 1) * dxi)) / dxi) <= (IZR (i + 1) + 0.1) * u). { replace (d / dxi - (x - - (IZR (i + 1) * dxi)) / dxi) with (- ((border dxi (i + 1) - - (IZR (i + 1) * dxi)) * / dxi)) by (unfold d; field; lra). rewrite Rabs_Ropp, Rabs_mult, (Rabs_pos_eq (/ dxi)) by (left; now apply Rinv_0_lt_compat). apply (Rmult_le_reg_r dxi); [exact P|]. rewrite Rmult_assoc, Rinv_l, Rmult_1_r by lra. assert (0 < u * dxi) by (apply Rmult_lt_0_compat; lra). lra. }
  assert (Dd : 0 <= d / dxi <= 5/4). { split; [apply Rmult_le_pos; [lra|left; now apply Rinv_0_lt_compat]|]. apply (Rmult_le_reg_r dxi); [exact P|]. unfold Rdiv at 1. rewrite Rmult_assoc, Rinv_l by lra. lra. }
  assert (S2 : Rabs (s / dxi) <= 1.3). { replace (s / dxi) with ((s / dxi - d / dxi) + d / dxi) by ring. eapply Rle_trans; [apply Rabs_triang|]. rewrite (Rabs_pos_eq (d / dxi)) by lra. lra. }
  assert (u * Rabs (s / dxi) <= u * 1.3) by (apply Rmult_le_compat_l; lra). rewrite plus_IZR in S0 at 2.
  replace (double (s / dxi) - (x - - (IZR (i + 1) * dxi)) / dxi) with ((double (s / dxi) - s / dxi) + ((s / dxi - d / dxi) + (d / dxi - (x - - (IZR (i + 1) * dxi)) / dxi))) by ring. eapply Rle_trans; [apply Rabs_triang|]. eapply Rle_trans; [apply Rplus_le_compat_l, Rabs_triang|]. lra.
Qed.
Section Cell2.
  Variables (n : nat) (h dxi : R) (i : Z).
  Hypotheses (Hh : ordinary_step h) (Hd : ordinary_step dxi) (Hn : (Z.of_nat n <= 2 ^ 46)%Z) (Hi : (0 <= i < 2 ^ 49)%Z).
  Definition fl (b : bpart) : Z := floorR (double (rad (pt b) / h)).
  (** contributions of the first pass ([false]) and of the second ([true]), to the first array ([place] 0) or to the second *)
  Definition vf (place : Z) (sd : bool) (b : bpart) : R :=
    match place, sd with 0%Z, false => v00 h dxi i b | 0%Z, true => v01 h dxi i b | _, false => v10 h dxi i b | _, true => v11 h dxi i b end.
  Definition share (place : Z) (b : bpart) : R := let d := (xi (pt b) - - (IZR (i + 1) * dxi)) / dxi in match place with 0%Z => d | _ => 1 - d end.
  Definition due2 (place : Z) (k : nat) (b : bpart) : R := q_norm (pt b) * share place b * hat (rad (pt b) / h - INR k).
  Definition mark (place : Z) (x : bool * bpart) : list (Z * R) := [((fl (snd x) + if fst x then 1 else 0)%Z, vf place (fst x) (snd x))].
  (** the particle is counted in the first pass if the cell is its own, else in the second *)
  Definition counted (k : nat) (x : bool * bpart) : bool := if fst x then negb (fl (snd x) =? Z.of_nat k)%Z else (fl (snd x) =? Z.of_nat k)%Z.
  Lemma small_E2 : (12 + 2 * INR n + IZR i) * u <= / 10.
  Proof.
    assert (A : INR n <= IZR (2 ^ 46)) by (rewrite INR_IZR_INZ; apply IZR_le; lia). assert (B : IZR i <= IZR (2 ^ 49)) by (apply IZR_le; lia). assert (U := u_pos). assert (T := u_tiny). assert (V := u_small).
    replace (IZR (2 ^ 53)) with (128 * IZR (2 ^ 46)) in V by (rewrite <- mult_IZR; reflexivity). replace (IZR (2 ^ 49)) with (8 * IZR (2 ^ 46)) in B by (rewrite <- mult_IZR; reflexivity).
    apply Rle_trans with ((12 + 10 * IZR (2 ^ 46)) * u); [apply Rmult_le_compat_r; lra|]. lra.
  Qed.
  Lemma v_near place sd b : In place [0; 1]%Z -> fits2 n h dxi i b ->
    Rabs (vf place sd b - q_norm (pt b) * (match place with 0%Z => zf dxi i (xi (pt b)) | _ => 1 - zf dxi i (xi (pt b)) end *
      (let d := double (double (rad (pt b) / h) - IZR (fl b)) in if sd then d else 1 - d))) <= 6.1 * u * Rabs (q_norm (pt b)).
  Proof.
    intros Hp (Q & L & R). assert (X := xi_frac dxi i _ Hd Hi L). destruct (r_frac n h _ Hh ltac:(lia) R) as (_ & _ & D). unfold zf, fl.
    assert (EQ : vf place sd b = let z := double (- double (double (IZR (i + 1) * - dxi) - xi (pt b)) / dxi) in let d := double (double (rad (pt b) / h) - IZR (floorR (double (rad (pt b) / h)))) in
      double (double ((match place with 0%Z => z | _ => double (1 - z) end) * (if sd then d else double (1 - d))) * q_norm (pt b))).
    { unfold vf, v00, v01, v10, v11, c00, particle_weights_f. destruct Hp as [<-|[<-|[]]]; destruct sd; reflexivity. }
    rewrite EQ. clear EQ. cbv zeta. set (x := double (- double (double (IZR (i + 1) * - dxi) - xi (pt b)) / dxi)) in *. set (d := double (double (rad (pt b) / h) - IZR (floorR (double (rad (pt b) / h))))) in *. set (q := q_norm (pt b)) in *. clearbody x d q.
    assert (A1 : approx 1.01 (double (1 - x)) (1 - x)) by (rd 1; [apply ap_refl|lra|apply Rabs_le; lra|lra]). assert (R0 : approx 1.01 (double (1 - d)) (1 - d)) by (rd 1; [apply ap_refl|lra|apply Rabs_le; lra|lra]).
    assert (BX : Rabs x <= 1.5) by (apply Rabs_le; lra). assert (BX1 : Rabs (1 - x) <= 1.5) by (apply Rabs_le; lra). assert (BD : Rabs d <= 1) by (apply Rabs_le; lra). assert (BD1 : Rabs (1 - d) <= 1) by (apply Rabs_le; lra).
    assert (R1 : approx 1.01 d d) by (eapply ap_weak; [|apply ap_refl]; lra). assert (A0 : approx 1.01 x x) by (eapply ap_weak; [|apply ap_refl]; lra).
    assert (E : forall a A b0 B, Rabs A <= 1.5 -> Rabs B <= 1 -> approx 1.01 a A -> approx 1.01 b0 B -> Rabs (double (double (a * b0) * q) - q * (A * B)) <= 6.1 * u * Rabs q).
    { intros a A b0 B HA HB Ha Hb. assert (BB : Rabs (A * B) <= 1.5) by (rewrite Rabs_mult; assert (P1 := Rabs_pos A); assert (P2 := Rabs_pos B); nra).
      assert (M : approx (1.01 * 1 + 1.01 * 1.5 + / 1000) (a * b0) (A * B)) by (apply ap_mul; try lra; assumption). assert (W : approx 4.5 (double (a * b0)) (A * B)) by (rd 1.5; [exact M|lra|exact BB|lra]).
      rewrite (Rmult_comm _ q). eapply Rle_trans; [apply (times_charge q 4.5 _ _ 1.5 Q); try lra; assumption|]. assert (U := u_pos). apply Rmult_le_compat_r; [apply Rabs_pos|]. lra. }
    destruct Hp as [<-|[<-|[]]]; destruct sd; apply E; assumption.
  Qed.
  (** the radial weight of a cell *)
  Lemma radial r k : 0 <= r <= (INR n - 2) * h ->
    let R := double (r / h) in let d := double (R - IZR (floorR R)) in
    Rabs ((if (floorR R =? Z.of_nat k)%Z then 1 - d else if (floorR R + 1 =? Z.of_nat k)%Z then d else 0) - hat (r / h - INR k)) <= (INR n + 1.1) * u.
  Proof.
    intros Hr R d. assert (P := step_pos _ Hh). assert (U := u_pos). assert (T := u_tiny). assert (Et := eta_u). assert (Q : 0 <= r / h <= INR n - 2).
    { split; [apply Rmult_le_pos; [lra|left; now apply Rinv_0_lt_compat]|]. apply (Rmult_le_reg_r h); [exact P|]. unfold Rdiv. rewrite Rmult_assoc, Rinv_l by lra. lra. }
    assert (E := round_error (r / h)). fold R in E. rewrite (Rabs_pos_eq (r / h)) in E by lra. assert (E' : Rabs (R - r / h) <= INR n * u) by (assert (u * (r / h) <= u * (INR n - 2)) by (apply Rmult_le_compat_l; lra); lra).
    assert (F := floorR_spec R). assert (E2 := round_error (R - IZR (floorR R))). fold d in E2. rewrite (Rabs_pos_eq (R - IZR (floorR R))) in E2 by lra.
    assert (E2' : Rabs (d - (R - IZR (floorR R))) <= 1.1 * u) by (assert (u * (R - IZR (floorR R)) <= u * 1) by (apply Rmult_le_compat_l; lra); lra).
    assert (W : Rabs ((if (floorR R =? Z.of_nat k)%Z then 1 - d else if (floorR R + 1 =? Z.of_nat k)%Z then d else 0) - hat (R - INR k)) <= 1.1 * u).
    { rewrite INR_IZR_INZ. destruct (Z.eqb_spec (floorR R) (Z.of_nat k)) as [K|K].
      - rewrite <- K. replace (hat (R - IZR (floorR R))) with (1 - (R - IZR (floorR R))) by (unfold hat, Rmax, Rabs; repeat destruct (Rle_dec _ _); repeat destruct (Rcase_abs _); lra).
        match goal with |- Rabs ?e <= _ => replace e with (- (d - (R - IZR (floorR R)))) by ring end. rewrite Rabs_Ropp. exact E2'.
      - destruct (Z.eqb_spec (floorR R + 1) (Z.of_nat k)) as [K1|K1].
        + rewrite <- K1, plus_IZR. replace (hat (R - (IZR (floorR R) + 1))) with (R - IZR (floorR R)) by (unfold hat, Rmax, Rabs; repeat destruct (Rle_dec _ _); repeat destruct (Rcase_abs _); lra). exact E2'.
        + assert (O : IZR (Z.of_nat k) <= IZR (floorR R) - 1 \/ IZR (floorR R) + 2 <= IZR (Z.of_nat k)). { destruct (Z_le_gt_dec (Z.of_nat k) (floorR R - 1)) as [G|G]; [left; rewrite <- minus_IZR; now apply IZR_le|right; rewrite <- plus_IZR; apply IZR_le; lia]. }
          replace (hat (R - IZR (Z.of_nat k))) with 0 by (unfold hat, Rmax, Rabs; repeat destruct (Rle_dec _ _); repeat destruct (Rcase_abs _); lra). rewrite Rminus_0_r, Rabs_R0. lra. }
    assert (V := hat_lip (R - INR k) (r / h - INR k)). replace (R - INR k - (r / h - INR k)) with (R - r / h) in V by ring.
    match type of W with Rabs (?x - ?y) <= _ => replace (x - hat (r / h - INR k)) with ((x - y) + (y - hat (r / h - INR k))) by ring end. eapply Rle_trans; [apply Rabs_triang|]. lra.
  Qed.
  Lemma one_hit2 place sd b k : In place [0; 1]%Z -> fits2 n h dxi i b ->
    let c := if counted k (sd, b) then 1 else 0 in let hs := hits Z.eqb (Z.of_nat k) (mark place (sd, b)) in
    Rabs (c * due2 place k b) <= 1.5 * (c * Rabs (q_norm (pt b))) /\ (length hs <= 1)%nat /\ (forall v, In v hs -> is_double v) /\
    Rabs (sumR hs - c * due2 place k b) <= (12 + 2 * INR n + IZR i) * u * (c * Rabs (q_norm (pt b))).
  Proof.
    intros Hp Hf c hs. assert (Hf0 := Hf). destruct Hf as (Q & L & R). assert (U := u_pos). assert (T := u_tiny). assert (Q0 := Rabs_pos (q_norm (pt b))). assert (Nn := pos_INR n). assert (I0 : 0 <= IZR i) by (apply IZR_le; lia). assert (SE := small_E2). assert (UQ : 0 <= u * Rabs (q_norm (pt b))) by (apply Rmult_le_pos; lra).
    assert (Iu : (IZR i + 4) * u <= / 10) by nra. assert (EZ := zf_near dxi i _ Hd Hi L). assert (X := xi_frac dxi i _ Hd Hi L). fold (zf dxi i (xi (pt b))) in X. assert (H0 := hat_range (rad (pt b) / h - INR k)).
    assert (RA := radial _ k R). cbv zeta in RA. fold (fl b) in RA. assert (VN := v_near place sd b Hp Hf0). cbv zeta in VN.
    set (z := zf dxi i (xi (pt b))) in *. set (d := double (double (rad (pt b) / h) - IZR (fl b))) in *. set (q := q_norm (pt b)) in *. set (W := match place with 0%Z => z | _ => 1 - z end) in *.
    assert (EW : Rabs (W - share place b) <= (IZR i + 4) * u). { unfold W, share. cbv zeta. destruct Hp as [<-|[<-|[]]]; [exact EZ|]. match goal with |- Rabs (1 - z - (1 - ?y)) <= _ => replace (1 - z - (1 - y)) with (- (z - y)) by ring end. rewrite Rabs_Ropp. exact EZ. }
    assert (BW : Rabs W <= 1.5) by (unfold W; destruct Hp as [<-|[<-|[]]]; apply Rabs_le; lra).
    assert (BS : Rabs (share place b) <= 1.5).
    { destruct L as [L1 L2]. assert (LL := layer_length dxi i Hd Hi). assert (Pd := step_pos _ Hd). assert (Est := eta_step _ Hd).
      assert (E0 := round_error (- (IZR (i + 1) * dxi))). assert (Eb : double (- (IZR (i + 1) * dxi)) = border dxi (i + 1)) by reflexivity. rewrite Eb, Rabs_Ropp in E0. assert (I1 : 0 <= IZR (i + 1)) by (apply IZR_le; lia). rewrite (Rabs_pos_eq (IZR (i + 1) * dxi)) in E0 by (apply Rmult_le_pos; lra). apply Rabs_le_inv in E0.
      assert (K : u * (IZR (i + 1) * dxi) <= / 10 * dxi) by (rewrite <- Rmult_assoc; apply Rmult_le_compat_r; [lra|]; rewrite plus_IZR; lra). assert (K2 : / 10000 * u * dxi <= / 10000 * dxi) by (apply Rmult_le_compat_r; lra).
      assert (D0 : -0.11 <= (xi (pt b) - - (IZR (i + 1) * dxi)) / dxi <= 1.37) by (split; apply (Rmult_le_reg_r dxi); try exact Pd; unfold Rdiv; rewrite Rmult_assoc, Rinv_l by lra; lra).
      unfold share. cbv zeta. destruct Hp as [<-|[<-|[]]]; apply Rabs_le; lra. }
    assert (BDUE : Rabs (due2 place k b) <= 1.5 * Rabs q). { unfold due2. fold q. rewrite !Rabs_mult, (Rabs_pos_eq (hat _)) by lra. assert (P1 := Rabs_pos (share place b)). assert (K : Rabs (share place b) * hat (rad (pt b) / h - INR k) <= 1.5) by nra. rewrite Rmult_assoc. rewrite (Rmult_comm 1.5). apply Rmult_le_compat_l; lra. }
    assert (ER : forall w v, Rabs (w - hat (rad (pt b) / h - INR k)) <= (INR n + 1.1) * u -> Rabs (v - q * (W * w)) <= 6.1 * u * Rabs q -> Rabs (v - due2 place k b) <= (12 + 2 * INR n + IZR i) * u * Rabs q).
    { intros w v Hw Hv. unfold due2. fold q. set (H := hat (rad (pt b) / h - INR k)) in *. set (s := share place b) in *. replace (v - q * s * H) with ((v - q * (W * w)) + q * (W * (w - H) + (W - s) * H)) by ring. eapply Rle_trans; [apply Rabs_triang|]. rewrite (Rabs_mult q).
      assert (K1 : Rabs (W * (w - H) + (W - s) * H) <= 1.5 * ((INR n + 1.1) * u) + (IZR i + 4) * u * 1).
      { eapply Rle_trans; [apply Rabs_triang|]. rewrite !Rabs_mult, (Rabs_pos_eq H) by lra. apply Rplus_le_compat; apply Rmult_le_compat; try lra; apply Rabs_pos. }
      assert (K2 := Rmult_le_compat_l _ _ _ Q0 K1). assert (0 <= INR n * (u * Rabs q)) by (apply Rmult_le_pos; lra). lra. }
    assert (HS : hs = if ((fl b + if sd then 1 else 0) =? Z.of_nat k)%Z then [vf place sd b] else []). { unfold hs, hits, mark. cbn [filter fst snd]. destruct sd; match goal with |- context [(?x =? ?y)%Z] => destruct (x =? y)%Z end; reflexivity. }
    assert (DV : forall v, In v hs -> is_double v). { rewrite HS. destruct ((fl b + if sd then 1 else 0) =? Z.of_nat k)%Z; intros v Hv; [|destruct Hv]. destruct Hv as [<-|[]]. unfold vf. destruct Hp as [<-|[<-|[]]]; destruct sd; apply double_double. }
    assert (LH : (length hs <= 1)%nat) by (rewrite HS; destruct ((fl b + if sd then 1 else 0) =? Z.of_nat k)%Z; cbn; lia).
    split; [unfold c; destruct (counted _ _); [rewrite !Rmult_1_l; exact BDUE|rewrite !Rmult_0_l, Rabs_R0; lra]|]. split; [exact LH|]. split; [exact DV|]. rewrite HS. unfold c, counted. cbn [fst snd]. destruct sd.
    - destruct (Z.eqb_spec (fl b) (Z.of_nat k)) as [K|K]; cbn [negb].
      + destruct (Z.eqb_spec (fl b + 1) (Z.of_nat k)); [lia|]. cbn [sumR]. rewrite !Rmult_0_l, Rmult_0_r, Rminus_0_r, Rabs_R0. lra.
      + rewrite !Rmult_1_l.  destruct (Z.eqb_spec (fl b + 1) (Z.of_nat k)) as [K1|K1].
        * cbn [sumR]. rewrite Rplus_0_r. eapply ER; [exact RA|]. exact VN.
        * cbn [sumR]. eapply (ER 0); [exact RA|]. rewrite !Rmult_0_r, Rminus_0_r, Rabs_R0. lra.
    - rewrite Z.add_0_r. destruct (Z.eqb_spec (fl b) (Z.of_nat k)) as [K|K].
      + rewrite !Rmult_1_l. cbn [sumR]. rewrite Rplus_0_r. eapply ER; [exact RA|]. exact VN.
      + cbn [sumR]. rewrite !Rmult_0_l, Rmult_0_r, Rminus_0_r, Rabs_R0. lra.
  Qed.
  Lemma pass_sum (F : bpart -> R) k l : sumR (map (fun x => (if counted k x then 1 else 0) * F (snd x)) (map (pair false) l ++ map (pair true) l)) = sumR (map F l).
  Proof.
    rewrite map_app, sumR_app, !map_map. induction l as [|b l IH]; [cbn; lra|]. cbn [map sumR]. rewrite <- IH. unfold counted at 1 3. cbn [fst snd]. destruct (fl b =? Z.of_nat k)%Z; cbn [negb]; lra.
  Qed.
  Lemma cell2 place l out o o' k : In place [0; 1]%Z -> alld out -> (2 * Z.of_nat (length l) <= 2 ^ 52)%Z -> (forall b, In b l -> fits2 n h dxi i b) ->
    add_at_f out (map (fun b => (fl b, vf place false b)) l) = Some o -> add_at_f o (map (fun b => ((fl b + 1)%Z, vf place true b)) l) = Some o' ->
    Rabs (nth k o' 0 - (nth k out 0 + sumR (map (due2 place k) l))) <= (12 + 2 * INR n + IZR i + 6.4 * INR (length l)) * u * (Rabs (nth k out 0) + sizes2 l) /\ Rabs (nth k o' 0) <= 4 * (Rabs (nth k out 0) + sizes2 l).
  Proof.
    intros Hp Ho Hl Hf E1 E2. apply add_at_puts in E1, E2. rewrite E1 in E2. rewrite <- puts_app in E2.
    assert (EL : map (fun b => (fl b, vf place false b)) l ++ map (fun b => ((fl b + 1)%Z, vf place true b)) l = flat_map (mark place) (map (pair false) l ++ map (pair true) l)).
    { rewrite flat_map_app. f_equal; clear; induction l as [|b l IH]; [reflexivity| |reflexivity|]; cbn [map flat_map mark fst snd app]; rewrite IH; [now rewrite Z.add_0_r|reflexivity]. }
    rewrite EL in E2. rewrite <- (arr_nth o' k), <- (arr_nth out k), E2.
    destruct (cell_close Z.eqb Z.eqb_eq (mark place) (fun x => (if counted k x then 1 else 0) * due2 place k (snd x)) (fun x => (if counted k x then 1 else 0) * Rabs (q_norm (pt (snd x)))) (12 + 2 * INR n + IZR i) (Z.of_nat k) (map (pair false) l ++ map (pair true) l)) with (g := arr out) as [A B].
    - assert (K := pos_INR n). assert (I0 : 0 <= IZR i) by (apply IZR_le; lia). lra.
    - apply small_E2.
    - rewrite app_length, !map_length. lia.
    - intros [sd b] Hin. assert (Hb : In b l). { apply in_app_iff in Hin. destruct Hin as [Hin|Hin]; apply in_map_iff in Hin; destruct Hin as (b' & E & Hb'); injection E; intros; subst; exact Hb'. }
      split; [cbn [snd]; assert (K := Rabs_pos (q_norm (pt b))); destruct (counted k (sd, b)); lra|]. apply one_hit2; auto.
    - now apply arr_double.
    - rewrite (pass_sum (due2 place k)) in A. rewrite (pass_sum (fun b => Rabs (q_norm (pt b)))) in A, B. fold (sizes2 l) in A, B. rewrite app_length, !map_length, plus_INR in A. split; [|exact B].
      replace (12 + 2 * INR n + IZR i + 6.4 * INR (length l)) with (12 + 2 * INR n + IZR i + 3.2 * (INR (length l) + INR (length l))) by lra. exact A.
  Qed.
End Cell2.
Lemma scale_nth h2 : forall l j k, (k < length l)%nat -> nth k (scale_from_f h2 j l) 0 = scale_cell_f h2 (j + k) (nth k l 0).
Proof.
  induction l as [|x l IH]; intros j k Hk; [cbn in Hk; lia|]. destruct k as [|k]; cbn [scale_from_f nth]; [now rewrite Nat.add_0_r|]. cbn [length] in Hk. rewrite IH by lia. f_equal. lia.
Qed.
Lemma nth_zeros {A} (l : list A) k : nth k (map (fun _ => 0) l) 0 = 0.
Proof. revert k. induction l as [|x l IH]; intros [|k]; cbn; auto. Qed.

(** Each cell of the 2D beam density is the sum of the linear clouds at the true positions, up to rounding; so is what is kept for
    the next layer. *)
Theorem C75_2d_beam_density : forall h h2 dxi rho_l l i,
  ordinary_step h -> near_square h h2 -> ordinary_step dxi -> (Z.of_nat (length rho_l) <= 2 ^ 46)%Z -> (0 <= i < 2 ^ 49)%Z -> (2 * Z.of_nat (length l) <= 2 ^ 52)%Z ->
  (forall x, In x rho_l -> is_double x) ->
  (forall b, In b l -> ordinary (q_norm (pt b)) /\ in_layer dxi i (xi (pt b)) /\ 0 <= rad (pt b) <= (INR (length rho_l) - 2) * h) ->
  exists rho next, layout2_f h h2 dxi rho_l l i = Some (rho, next) /\ length rho = length rho_l /\ length next = length rho_l /\
  forall k, (k < length rho_l)%nat ->
  Rabs (nth k rho 0 * (match k with O => h ^ 2 / 6 | _ => INR k * h ^ 2 end) - (nth k rho_l 0 + cic_upper h dxi (- (IZR (i + 1) * dxi)) l k))
    <= (50 + 2 * INR (length rho_l) + IZR i + 8 * INR (length l)) * rounding * (Rabs (nth k rho_l 0) + sum_sizes (map (fun b => q_norm (pt b)) l)) + 2 * INR (S k) * h ^ 2 * underflow /\
  Rabs (nth k next 0 - cic_lower h dxi (- (IZR (i + 1) * dxi)) l k)
    <= (50 + 2 * INR (length rho_l) + IZR i + 8 * INR (length l)) * rounding * sum_sizes (map (fun b => q_norm (pt b)) l).
Proof.
  intros h h2 dxi rho_l l i Hh Hn Hd HN Hi Hl Hr Hf. rewrite rounding_u. change underflow with eta. set (n := length rho_l) in *. set (next0 := map (fun _ : R => 0) rho_l).
  assert (D1 : alld next0). { intros x Hx. unfold next0 in Hx. apply in_map_iff in Hx. destruct Hx as (? & <- & _). apply double_0. }
  assert (L1 : length next0 = n) by (unfold next0; now rewrite map_length).
  destruct (deposit_moved n h dxi i l rho_l next0 Hh Hd ltac:(lia) Hi Hf eq_refl L1 Hr D1) as (o0 & o1 & E & M0 & M1 & _). exists (scale_from_f h2 0 o0), o1.
  split; [unfold layout2_f; fold next0; rewrite E; reflexivity|]. split; [rewrite scale_length; exact M0|]. split; [exact M1|]. intros k Hk.
  assert (EQ : deposit_f l rho_l next0 (double (IZR (i + 1) * - dxi)) h dxi =
    bind (add_at_f rho_l (map (fun b => (fl h b, vf h dxi i 0 false b)) l)) (fun o0 => bind (add_at_f o0 (map (fun b => ((fl h b + 1)%Z, vf h dxi i 0 true b)) l)) (fun o0' =>
    bind (add_at_f next0 (map (fun b => (fl h b, vf h dxi i 1 false b)) l)) (fun o1 => bind (add_at_f o1 (map (fun b => ((fl h b + 1)%Z, vf h dxi i 1 true b)) l)) (fun o1' => Some (o0', o1')))))).
  { unfold deposit_f. rewrite !map_map. reflexivity. }
  rewrite EQ in E. clear EQ. destruct (add_at_f rho_l _) as [p0|] eqn:E1; [|discriminate E]. cbn [bind] in E. destruct (add_at_f p0 _) as [p0'|] eqn:E2; [|discriminate E]. cbn [bind] in E. destruct (add_at_f next0 _) as [p1|] eqn:E3; [|discriminate E]. cbn [bind] in E. destruct (add_at_f p1 _) as [p1'|] eqn:E4; [|discriminate E]. cbn [bind] in E. injection E as -> ->.
  destruct (cell2 n h dxi i Hh Hd HN Hi 0 l rho_l p0 o0 k ltac:(cbn; auto) Hr Hl Hf E1 E2) as [A0 B0]. destruct (cell2 n h dxi i Hh Hd HN Hi 1 l next0 p1 o1 k ltac:(cbn; auto) D1 Hl Hf E3 E4) as [A1 _].
  unfold sum_sizes. rewrite (map_map _ Rabs). fold (sizes2 l). assert (S0 := sizes2_pos l). unfold next0 in A1. rewrite nth_zeros, Rabs_R0, !Rplus_0_l in A1.
  change (sumR (map (due2 h dxi i 0 k) l)) with (cic_upper h dxi (- (IZR (i + 1) * dxi)) l k) in A0. change (sumR (map (due2 h dxi i 1 k) l)) with (cic_lower h dxi (- (IZR (i + 1) * dxi)) l k) in A1.
  assert (U := u_pos). assert (Kn := pos_INR n). assert (Kl := pos_INR (length l)). assert (Ki : 0 <= IZR i) by (apply IZR_le; lia). assert (G := Rabs_pos (nth k rho_l 0)).
  assert (Q0 : 0 <= u * (Rabs (nth k rho_l 0) + sizes2 l)) by (apply Rmult_le_pos; lra). assert (Q1 : 0 <= INR (length l) * (u * (Rabs (nth k rho_l 0) + sizes2 l))) by (apply Rmult_le_pos; lra).
  assert (Q2 : 0 <= u * sizes2 l) by (apply Rmult_le_pos; lra). assert (Q3 : 0 <= INR (length l) * (u * sizes2 l)) by (apply Rmult_le_pos; lra). split.
  - rewrite scale_nth by (rewrite M0; exact Hk). cbn [Nat.add]. assert (D := scaled h h2 k (nth k o0 0) Hh Hn). fold (volume h k).
    set (x := nth k o0 0) in *. match type of A0 with Rabs (_ - ?e) <= _ => replace (scale_cell_f h2 k x * volume h k - e) with ((scale_cell_f h2 k x * volume h k - x) + (x - e)) by ring end. eapply Rle_trans; [apply Rabs_triang|].
    assert (K : 6 * u * Rabs x <= 6 * u * (4 * (Rabs (nth k rho_l 0) + sizes2 l))) by (apply Rmult_le_compat_l; lra). lra.
  - eapply Rle_trans; [exact A1|]. lra.
Qed.

(** A particle a quarter of a cell off a node, in the middle of the first layer. *)
Example C75_2d_beam_case : exists rho next, layout2_f (1/2) (1/4) (1/2) (repeat 0 6) [fresh (mkPart (- (1/4)) (9/8) 1000 0 0 1 1 1)] 0 = Some (rho, next) /\
  Rabs (nth 2 rho 0 * (1/2) - 1 / 2 * (3 / 4)) <= 100 * rounding.
Proof.
  assert (B0 : border (1/2) 0 = 0) by (rewrite case_border by lia; lra). assert (B1 : border (1/2) 1 = - (1/2)) by (rewrite case_border by lia; lra).
  assert (F : forall b, In b [fresh (mkPart (- (1/4)) (9/8) 1000 0 0 1 1 1)] -> ordinary (q_norm (pt b)) /\ in_layer (1/2) 0 (xi (pt b)) /\ 0 <= rad (pt b) <= (INR (length (repeat 0 6)) - 2) * (1/2)).
  { intros b [<-|[]]. cbn [fresh pt q_norm xi rad]. unfold in_layer. cbn [Z.add]. rewrite B0, B1, repeat_length. replace (INR 6) with 6 by (cbn; lra). split; [right; apply case_ordinary; rewrite Rabs_pos_eq; lra|]. lra. }
  assert (Dz : forall x, In x (repeat 0 6) -> is_double x) by (intros x Hx; apply repeat_spec in Hx; subst; apply double_0).
  destruct (C75_2d_beam_density (1/2) (1/4) (1/2) (repeat 0 6) [fresh (mkPart (- (1/4)) (9/8) 1000 0 0 1 1 1)] 0 case_step case_square case_step ltac:(cbn; lia) ltac:(lia) ltac:(cbn; lia) Dz F) as (rho & next & E & _ & _ & K).
  exists rho, next. split; [exact E|]. destruct (K 2%nat ltac:(rewrite repeat_length; lia)) as [K0 _]. unfold cic_upper, sum_sizes in K0. cbn [map sumR length fresh pt q_norm xi rad repeat nth Z.add] in K0. rewrite Rabs_R0, (Rabs_pos_eq 1) in K0 by lra.
  assert (HH : hat (9 / 8 / (1 / 2) - INR 2) = 3 / 4). { unfold hat. replace (9 / 8 / (1/2) - INR 2) with (1 / 4) by (cbn; field). rewrite Rabs_pos_eq by lra. unfold Rmax. destruct (Rle_dec _ _); lra. }
  rewrite HH in K0. replace (INR 6) with 6 in K0 by (cbn; lra). replace (INR 1) with 1 in K0 by reflexivity. replace (INR 3) with 3 in K0 by (cbn; lra). replace (INR 2) with 2 in K0 by (cbn; lra). assert (UN : underflow <= rounding) by (apply bpow_le; lia).
  match type of K0 with Rabs ?e <= _ => replace (nth 2 rho 0 * (1/2) - 1 / 2 * (3 / 4)) with e by field end. eapply Rle_trans; [exact K0|]. assert (U := u_pos). rewrite rounding_u in *. lra.
Qed.

Print Assumptions C75_2d_beam_density.
