(** Lemmas for C75: one cell of an array filled by rounded additions; Lipschitz bounds of the shapes. *)
From Coq Require Import Reals ZArith List Bool Lra Lia Psatz FunctionalExtensionality.
From Flocq Require Import Core.
From Verif Require Import Float_Model Float_Proofs Beam2D_Model Beam2D_Spec Beam2D_Free Beam3D_Model Beam3D_Spec Shape_Model Shape_Spec Shape_Proofs Rounded3D_Model RoundedBeam_Spec RoundedBeam_Model RoundedSum_Proofs RoundedWeight_Proofs RoundedDep_Model RoundedDep_Spec RoundedDep_Proofs.
Import ListNotations.
Open Scope R_scope.

(** ** One cell *)
Section OneCell.
  Context {A : Type} (eqb : A -> A -> bool) (eqb_spec : forall a b, eqb a b = true <-> a = b).
  Definition hits (c : A) (l : list (A * R)) : list R := map snd (filter (fun cv => eqb (fst cv) c) l).
  Lemma hits_app c l l' : hits c (l ++ l') = hits c l ++ hits c l'.
  Proof. unfold hits. rewrite filter_app, map_app. reflexivity. Qed.
  Lemma puts_app g l l' : puts eqb g (l ++ l') = puts eqb (puts eqb g l) l'.
  Proof. unfold puts. apply fold_left_app. Qed.
  Lemma put_eq g c c' v : eqb c' c = true -> put eqb g c' v c = double (g c + v).
  Proof. intros E. apply eqb_spec in E. subst. unfold put. rewrite (proj2 (eqb_spec c c) eq_refl). reflexivity. Qed.
  Lemma put_ne g c c' v : eqb c' c = false -> put eqb g c' v c = g c.
  Proof. intros E. unfold put. destruct (eqb c c') eqn:F; [|reflexivity]. apply eqb_spec in F. subst. rewrite (proj2 (eqb_spec c' c') eq_refl) in E. discriminate. Qed.
  Lemma puts_cell c : forall l g, (forall a, is_double (g a)) -> (forall v, In v (hits c l) -> is_double v) ->
    added (g c) (Rabs (g c)) (hits c l) (puts eqb g l c) (Rabs (puts eqb g l c)).
  Proof.
    induction l as [|[c' v] l IH]; intros g Hg Hl; [apply added_nil|]. unfold hits in *. cbn [filter fst] in *. change (puts eqb g ((c', v) :: l)) with (puts eqb (put eqb g c' v) l).
    assert (Hg' : forall a, is_double (put eqb g c' v a)) by (intros a; unfold put; destruct (eqb a c'); [apply double_double|apply Hg]). destruct (eqb c' c) eqn:E; cbn [map snd] in *.
    - specialize (IH (put eqb g c' v) Hg' (fun v' I => Hl v' (or_intror I))). assert (K := added_one (g c) (Rabs (g c)) (g c) v (Hg c) (Hl v (or_introl eq_refl)) (Rle_refl _)).
      rewrite (put_eq _ _ _ _ E) in IH. replace (g c - g c + double (g c + v)) with (double (g c + v)) in K by ring. replace (Rabs (g c) - Rabs (g c) + Rabs (double (g c + v))) with (Rabs (double (g c + v))) in K by ring.
      apply (added_app _ _ [v] _ _ (map snd (filter (fun cv => eqb (fst cv) c) l)) _ _ (Rabs_pos (g c)) K IH).
    - specialize (IH (put eqb g c' v) Hg' Hl). rewrite (put_ne _ _ _ _ E) in IH. exact IH.
  Qed.
  (** many particles, each hitting the cell at most once *)
  Lemma cell_close {P} (C : P -> list (A * R)) (exact size : P -> R) E c (l : list P) : 0 <= E -> E * u <= / 10 -> (Z.of_nat (length l) <= 2 ^ 52)%Z ->
    (forall p, In p l -> 0 <= size p /\ Rabs (exact p) <= 1.5 * size p /\ (length (hits c (C p)) <= 1)%nat /\ (forall v, In v (hits c (C p)) -> is_double v) /\ Rabs (sumR (hits c (C p)) - exact p) <= E * u * size p) ->
    forall g, (forall a, is_double (g a)) ->
    let S := sumR (map size l) in
    Rabs (puts eqb g (flat_map C l) c - (g c + sumR (map exact l))) <= (E + 3.2 * INR (length l)) * u * (Rabs (g c) + S) /\ Rabs (puts eqb g (flat_map C l) c) <= 4 * (Rabs (g c) + S).
  Proof.
    intros HE HEu Hn H g Hg S. assert (U := u_pos).
    assert (M : forall m, incl m l -> (length (hits c (flat_map C m)) <= length m)%nat /\ (forall v, In v (hits c (flat_map C m)) -> is_double v) /\ 0 <= sumR (map size m) /\
      Rabs (sumR (hits c (flat_map C m)) - sumR (map exact m)) <= E * u * sumR (map size m) /\ sum_abs (hits c (flat_map C m)) <= 1.6 * sumR (map size m)).
    { induction m as [|p m IH]; intros Hm; [cbn; split; [lia|]; split; [tauto|]; split; [lra|]; unfold sum_abs; cbn; replace (0 - 0) with 0 by ring; rewrite Rabs_R0; split; lra|].
      destruct (H p (Hm p (or_introl eq_refl))) as (H0 & H1 & H2 & H3 & H4). destruct (IH (fun x I => Hm x (or_intror I))) as (K0 & K1 & K2 & K3 & K4). cbn [flat_map map sumR length]. rewrite hits_app, app_length, sumR_app, sum_abs_app.
      split; [lia|]. split; [intros v Hv; apply in_app_iff in Hv; destruct Hv; auto|]. split; [lra|]. split.
      - match goal with |- Rabs ?e <= _ => replace e with ((sumR (hits c (C p)) - exact p) + (sumR (hits c (flat_map C m)) - sumR (map exact m))) by ring end. eapply Rle_trans; [apply Rabs_triang|]. lra.
      - assert (K5 : sum_abs (hits c (C p)) <= 1.6 * size p); [|lra]. assert (K6 : E * u * size p <= / 10 * size p) by (apply Rmult_le_compat_r; lra).
        destruct (hits c (C p)) as [|v [|w t]]; [unfold sum_abs; cbn; lra| |cbn in H2; lia]. unfold sum_abs. cbn [map sumR] in *. rewrite Rplus_0_r in *. replace v with ((v - exact p) + exact p) by ring. eapply Rle_trans; [apply Rabs_triang|]. lra. }
    destruct (M l (fun x I => I)) as (L & D & P0 & B & Sz). fold S in P0, B, Sz. destruct (puts_cell c (flat_map C l) g Hg D) as [X Y].
    set (v := hits c (flat_map C l)) in *. set (r := puts eqb g (flat_map C l) c) in *. clearbody v r. assert (Lk : INR (length v) <= INR (length l)) by (now apply le_INR).
    assert (Pw : (1 + u) ^ length v - 1 <= 2 * INR (length l) * u). { eapply Rle_trans; [apply pow_u_le; lia|]. apply Rmult_le_compat_r; lra. }
    assert (P1 := pow_u_ge (length v)). assert (K := pos_INR (length l)). assert (SV := sum_abs_pos v). assert (G0 := Rabs_pos (g c)).
    assert (G : INR (length l) * u <= / 2). { assert (INR (length l) <= IZR (2 ^ 52)) by (rewrite INR_IZR_INZ; apply IZR_le; lia). assert (V := u_small). replace (IZR (2 ^ 53)) with (2 * IZR (2 ^ 52)) in V by (rewrite <- mult_IZR; reflexivity). nra. }
    split.
    - replace (r - (g c + sumR (map exact l))) with ((r - g c - sumR v) + (sumR v - sumR (map exact l))) by ring. eapply Rle_trans; [apply Rabs_triang|].
      assert (F : (Rabs (g c) + sum_abs v) * ((1 + u) ^ length v - 1) <= (1.6 * (Rabs (g c) + S)) * (2 * INR (length l) * u)) by (apply Rmult_le_compat; lra).
      assert (F2 : E * u * S <= E * u * (Rabs (g c) + S)) by (apply Rmult_le_compat_l; [apply Rmult_le_pos; lra|lra]). replace ((E + 3.2 * INR (length l)) * u * (Rabs (g c) + S)) with (E * u * (Rabs (g c) + S) + 1.6 * (Rabs (g c) + S) * (2 * INR (length l) * u)) by lra. lra.
    - eapply Rle_trans; [exact Y|]. replace (4 * (Rabs (g c) + S)) with (2 * (Rabs (g c) + S) * 2) by lra. apply Rmult_le_compat; lra.
  Qed.
End OneCell.

(** ** The quartic spline *)
Lemma w4_lip x y k : - (1/2) <= x <= 1/2 -> - (1/2) <= y <= 1/2 -> In k places -> Rabs (weight4 x k - weight4 y k) <= Rabs (x - y).
Proof.
  intros Hx Hy Hk.
  assert (K : exists c, weight4 x k - weight4 y k = (x - y) * c /\ -1 <= c <= 1).
  { assert (X2 : 0 <= x * x <= 1/4) by nra. assert (Y2 : 0 <= y * y <= 1/4) by nra. assert (XY : -(1/4) <= x * y <= 1/4) by nra. assert (Sxy : -1 <= x + y <= 1) by lra.
    assert (T : -1 <= (x + y) * (x * x + y * y) <= 1) by nra.
    cbn [places In] in Hk. destruct Hk as [<-|[<-|[<-|[<-|[<-|[]]]]]]; cbn [weight4].
    - exists (- ((1 - x - y) * ((1/2 - x) ^ 2 + (1/2 - y) ^ 2)) / 24). split; [field|]. assert (0 <= (1/2 - x) ^ 2 + (1/2 - y) ^ 2 <= 2) by nra. assert (0 <= (1 - x - y) * ((1/2 - x) ^ 2 + (1/2 - y) ^ 2) <= 4) by nra. lra.
    - exists (- (11 / 24) + (x + y) / 4 + (x * x + x * y + y * y) / 6 - (x + y) * (x * x + y * y) / 6). split; [field|]. split; [lra|]. nra.
    - exists (- ((x + y) * 5 / 8) + (x + y) * (x * x + y * y) / 4). split; [field|]. lra.
    - exists (11 / 24 + (x + y) / 4 - (x * x + x * y + y * y) / 6 - (x + y) * (x * x + y * y) / 6). split; [field|]. split; lra.
    - exists ((1 + x + y) * ((1/2 + x) ^ 2 + (1/2 + y) ^ 2) / 24). split; [field|]. assert (0 <= (1/2 + x) ^ 2 + (1/2 + y) ^ 2 <= 2) by nra. assert (0 <= (1 + x + y) * ((1/2 + x) ^ 2 + (1/2 + y) ^ 2) <= 4) by nra. lra. }
  destruct K as (c & -> & Hc). rewrite Rabs_mult. assert (Rabs c <= 1) by (apply Rabs_le; lra). assert (P := Rabs_pos (x - y)). nra.
Qed.
Lemma spline_piece k s t : IZR k - 1/2 <= s <= IZR k + 1/2 -> IZR k - 1/2 <= t <= IZR k + 1/2 -> Rabs (spline4 s - spline4 t) <= Rabs (s - t).
Proof.
  intros Hs Ht. assert (D : In k places \/ (k <= -3)%Z \/ (3 <= k)%Z). { destruct (Z_le_gt_dec k (-3)); [auto|]. destruct (Z_le_gt_dec 3 k); [auto|]. left. cbn. lia. }
  destruct D as [D|D].
  - replace (spline4 s) with (weight4 (IZR k - s) k) by (rewrite w4_spline by (try lra; exact D); f_equal; ring). replace (spline4 t) with (weight4 (IZR k - t) k) by (rewrite w4_spline by (try lra; exact D); f_equal; ring).
    eapply Rle_trans; [apply w4_lip; try lra; exact D|]. replace (IZR k - s - (IZR k - t)) with (- (s - t)) by ring. rewrite Rabs_Ropp. lra.
  - assert (O : 5/2 <= Rabs s /\ 5/2 <= Rabs t). { destruct D as [D|D]; apply IZR_le in D; split; [rewrite Rabs_left by lra|rewrite Rabs_left by lra|rewrite Rabs_pos_eq by lra|rewrite Rabs_pos_eq by lra]; lra. }
    rewrite !spline_out by apply O. replace (0 - 0) with 0 by ring. rewrite Rabs_R0. apply Rabs_pos.
Qed.
Lemma spline_lip s t : Rabs (s - t) <= 1 -> Rabs (spline4 s - spline4 t) <= Rabs (s - t).
Proof.
  assert (M : forall s t, s <= t -> t - s <= 1 -> Rabs (spline4 s - spline4 t) <= t - s).
  { clear. intros s t L H. assert (F := floorR_spec (s + 1/2)). set (k := floorR (s + 1/2)) in *. destruct (Rle_dec t (IZR k + 1/2)) as [T|T].
    - eapply Rle_trans; [apply (spline_piece k); lra|]. rewrite (Rabs_minus_sym s t), Rabs_pos_eq by lra. lra.
    - set (b := IZR k + 1/2) in *. replace (spline4 s - spline4 t) with ((spline4 s - spline4 b) + (spline4 b - spline4 t)) by ring. eapply Rle_trans; [apply Rabs_triang|].
      assert (A := spline_piece k s b ltac:(unfold b; lra) ltac:(unfold b; lra)). assert (B := spline_piece (k + 1) b t ltac:(rewrite plus_IZR; unfold b; lra) ltac:(rewrite plus_IZR; unfold b in *; lra)).
      rewrite (Rabs_minus_sym s b), (Rabs_pos_eq (b - s)) in A by (unfold b; lra). rewrite (Rabs_minus_sym b t), (Rabs_pos_eq (t - b)) in B by lra. lra. }
  intros H. destruct (Rle_dec s t) as [L|L].
  - rewrite (Rabs_minus_sym s), (Rabs_pos_eq (t - s)) in * by lra. apply M; lra.
  - rewrite (Rabs_pos_eq (s - t)) in * by lra. rewrite Rabs_minus_sym. apply M; lra.
Qed.
Lemma spline_range s : 0 <= spline4 s <= 1.
Proof.
  assert (F := floorR_spec (s + 1/2)). set (k := floorR (s + 1/2)) in *. assert (D : In k places \/ (k <= -3)%Z \/ (3 <= k)%Z). { destruct (Z_le_gt_dec k (-3)); [auto|]. destruct (Z_le_gt_dec 3 k); [auto|]. left. cbn. lia. }
  destruct D as [D|D].
  - replace (spline4 s) with (weight4 (IZR k - s) k) by (rewrite w4_spline by (try lra; exact D); f_equal; ring). assert (P := w4_pos (IZR k - s) k ltac:(lra) D). assert (Q := w4_le (IZR k - s) k ltac:(lra) D). rewrite Rabs_pos_eq in Q by exact P. lra.
  - rewrite spline_out; [lra|]. destruct D as [D|D]; apply IZR_le in D; [rewrite Rabs_left by lra|rewrite Rabs_pos_eq by lra]; lra.
Qed.
(** the weight of any cell, zero outside the five cells around *)
Definition near5 (k : Z) : bool := ((-2 <=? k) && (k <=? 2))%Z.
Lemma near5_in k : near5 k = true <-> In k places.
Proof. unfold near5. rewrite andb_true_iff, !Z.leb_le. cbn. lia. Qed.
Definition ext (w : Z -> R) (k : Z) : R := if near5 k then w k else 0.
Definition frac (X : R) : R := X - IZR (floorR X) - 1/2.
Lemma frac_range X : - (1/2) <= frac X <= 1/2.
Proof. unfold frac. assert (F := floorR_spec X). lra. Qed.
Lemma ext_spline n X a : ext (weight4 (frac X)) (a - cell n X) = spline4 (IZR (a - n / 2) - (X - 1/2)).
Proof.
  unfold ext, cell. destruct (near5 (a - (floorR X + n / 2))) eqn:E.
  - apply near5_in in E. rewrite w4_spline by (try exact E; apply frac_range). f_equal. unfold frac. rewrite !minus_IZR, plus_IZR. lra.
  - symmetry. apply spline_out. assert (F := frac_range X). unfold frac in F. assert (D : (a - (floorR X + n / 2) <= -3 \/ 3 <= a - (floorR X + n / 2))%Z).
    { destruct (Z_le_gt_dec (a - (floorR X + n / 2)) (-3)); [auto|]. destruct (Z_le_gt_dec 3 (a - (floorR X + n / 2))); [auto|]. rewrite (proj2 (near5_in _)) in E; [discriminate|]. cbn. lia. }
    rewrite minus_IZR. destruct D as [D|D]; apply IZR_le in D; rewrite minus_IZR, plus_IZR in D; [rewrite Rabs_left by lra|rewrite Rabs_pos_eq by lra]; lra.
Qed.
Lemma loc_f_near X : Rabs (loc_f double X - frac X) <= 2.1 * u.
Proof.
  unfold loc_f, frac. rewrite half_is. assert (F := floorR_spec X). set (t := X - IZR (floorR X)) in *. assert (U := u_pos). assert (T := u_tiny).
  assert (E1 := round_error t). assert (E2 := round_error (double t - 1/2)). assert (Et : eta <= / 10000 * u). { assert (K := eta_small 1 ltac:(split; [lra|]; change 1 with (bpow radix2 0); apply bpow_le; lia)). lra. }
  assert (T1 : 0 <= double t <= 1) by (split; [apply (double_ge_int _ 0)|apply (double_le_int _ 1)]; try lia; unfold t; lra).
  rewrite (Rabs_pos_eq t) in E1 by (unfold t; lra). assert (Rabs (double t - 1/2) <= 1/2) by (apply Rabs_le; lra).
  replace (double (double t - 1 / 2) - (t - 1 / 2)) with ((double (double t - 1/2) - (double t - 1/2)) + (double t - t)) by ring. eapply Rle_trans; [apply Rabs_triang|].
  assert (u * t <= u * 1) by (apply Rmult_le_compat_l; unfold t; lra). assert (u * Rabs (double t - 1/2) <= u * (1/2)) by (apply Rmult_le_compat_l; lra). lra.
Qed.
(** from the position as computed to the true one *)
Lemma ext_near n X a x e : Rabs (X - (x + 1/2)) <= e -> e <= 1 -> Rabs (ext (weight4 (loc_f double X)) (a - cell n X) - spline4 (IZR (a - n / 2) - x)) <= 2.1 * u + e.
Proof.
  intros H He. assert (A : Rabs (ext (weight4 (loc_f double X)) (a - cell n X) - ext (weight4 (frac X)) (a - cell n X)) <= 2.1 * u).
  { unfold ext. destruct (near5 (a - cell n X)) eqn:E; [|replace (0 - 0) with 0 by ring; rewrite Rabs_R0; assert (U := u_pos); lra]. apply near5_in in E. eapply Rle_trans; [apply w4_lip; [apply loc_f_in|apply frac_range|exact E]|]. apply loc_f_near. }
  rewrite ext_spline in A. assert (S : Rabs (IZR (a - n / 2) - (X - 1 / 2) - (IZR (a - n / 2) - x)) <= e). { replace (IZR (a - n / 2) - (X - 1 / 2) - (IZR (a - n / 2) - x)) with (- (X - (x + 1/2))) by ring. rewrite Rabs_Ropp. exact H. }
  assert (B := spline_lip (IZR (a - n / 2) - (X - 1/2)) (IZR (a - n / 2) - x) ltac:(lra)).
  set (v := ext (weight4 (loc_f double X)) (a - cell n X)) in *. replace (v - spline4 (IZR (a - n / 2) - x)) with ((v - spline4 (IZR (a - n / 2) - (X - 1/2))) + (spline4 (IZR (a - n / 2) - (X - 1/2)) - spline4 (IZR (a - n / 2) - x))) by ring.
  eapply Rle_trans; [apply Rabs_triang|]. lra.
Qed.
(** the hits of one particle *)
Lemma filter_one {K} (f : K -> bool) (k0 : K) l : NoDup l -> (forall k, f k = true -> k = k0) -> filter f l = [] /\ ~ (In k0 l /\ f k0 = true) \/ filter f l = [k0] /\ In k0 l /\ f k0 = true.
Proof.
  intros Hd Hf. induction Hd as [|x l Hx Hd IH]; [left; cbn; tauto|]. cbn [filter]. destruct (f x) eqn:E.
  - assert (x = k0) by auto. subst x. right. destruct IH as [[IH _]|(_ & IH & _)]; [|contradiction]. rewrite IH. cbn. auto.
  - destruct IH as [[IH IH']|(IH & I1 & I2)]; [left|right; cbn; auto]. split; [exact IH|]. intros [[->|I1] I2]; [congruence|tauto].
Qed.
Lemma pairs_nodup : NoDup pairs.
Proof. apply nodup_prod; repeat constructor; cbn; intuition lia. Qed.
Lemma pair_hits cx cy (v : Z * Z -> R) a b :
  hits eqz (a, b) (map (fun k => ((cx + fst k, cy + snd k)%Z, v k)) pairs) = if near5 (a - cx) && near5 (b - cy) then [v (a - cx, b - cy)%Z] else [].
Proof.
  unfold hits. assert (E : forall l, map snd (filter (fun cv : (Z * Z) * R => eqz (fst cv) (a, b)) (map (fun k => ((cx + fst k, cy + snd k)%Z, v k)) l)) = map v (filter (fun k => eqz (cx + fst k, cy + snd k)%Z (a, b)) l)).
  { induction l as [|k l IH]; [reflexivity|]. cbn [map filter fst]. destruct (eqz _ _); cbn [map snd]; now rewrite IH. }
  rewrite E. destruct (filter_one (fun k => eqz (cx + fst k, cy + snd k)%Z (a, b)) (a - cx, b - cy)%Z pairs pairs_nodup) as [[F G]|(F & G & G')].
  - intros [kx ky] H. apply eqz_spec in H. injection H as H1 H2. cbn in H1, H2. f_equal; lia.
  - rewrite F. destruct (near5 (a - cx) && near5 (b - cy)) eqn:N; [|reflexivity]. exfalso. apply G. apply andb_true_iff in N. destruct N as [N1 N2]. split; [apply in_prod; now apply near5_in|]. apply eqz_spec. cbn. f_equal; lia.
  - rewrite F. apply in_prod_iff in G. destruct G as [G1 G2]. apply near5_in in G1, G2. rewrite G1, G2. reflexivity.
Qed.
Lemma product3 wx wy w sx sy s ex ey e : 0 <= wx <= 1 -> 0 <= wy <= 1 -> 0 <= sx <= 1 -> 0 <= sy <= 1 -> Rabs w <= 1.5 -> Rabs (wx - sx) <= ex -> Rabs (wy - sy) <= ey -> Rabs (w - s) <= e ->
  Rabs (wx * wy * w - sx * sy * s) <= 1.5 * ex + 1.5 * ey + e.
Proof.
  intros Hx Hy Hsx Hsy Hw Ex Ey E. replace (wx * wy * w - sx * sy * s) with ((wx - sx) * (wy * w) + (sx * ((wy - sy) * w) + sx * sy * (w - s))) by ring.
  eapply Rle_trans; [apply Rabs_triang|]. eapply Rle_trans; [apply Rplus_le_compat_l, Rabs_triang|]. rewrite !Rabs_mult, (Rabs_pos_eq wy), (Rabs_pos_eq sx), (Rabs_pos_eq sy) by lra.
  assert (P := Rabs_pos w). assert (P1 := Rabs_pos (wx - sx)). assert (P2 := Rabs_pos (wy - sy)). assert (P3 := Rabs_pos (w - s)).
  assert (A : wy * Rabs w <= 1.5) by nra. assert (A0 : 0 <= wy * Rabs w) by nra. assert (K1 : Rabs (wx - sx) * (wy * Rabs w) <= ex * 1.5) by (apply Rmult_le_compat; lra).
  assert (B : Rabs (wy - sy) * Rabs w <= ey * 1.5) by (apply Rmult_le_compat; lra). assert (B0 : 0 <= Rabs (wy - sy) * Rabs w) by nra. assert (K2 : sx * (Rabs (wy - sy) * Rabs w) <= 1 * (ey * 1.5)) by (apply Rmult_le_compat; lra).
  assert (C : 0 <= sx * sy <= 1) by nra. assert (K3 : sx * sy * Rabs (w - s) <= 1 * e) by (apply Rmult_le_compat; lra). lra.
Qed.
