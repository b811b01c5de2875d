(** Lemmas for C76: sums of rounded products; a window of cells under a shape. *)
From Coq Require Import Reals ZArith List Bool Lra Lia Psatz.
From Flocq Require Import Core.
From Verif Require Import Float_Model Float_Proofs Beam2D_Model Beam2D_Spec Beam2D_Free Shape_Model Shape_Spec Shape_Proofs Plasma3D_Push Rounded3D_Model RoundedBeam_Spec RoundedSum_Proofs RoundedWeight_Proofs RoundedDep_Model RoundedDep_Spec RoundedDep_Proofs RoundedCell_Proofs.
Import ListNotations.
Open Scope R_scope.

(** ** A list of numbers added up one rounding at a time *)
Lemma fold_added : forall vs s, is_double s -> (forall v, In v vs -> is_double v) -> let t := fold_left (fun s v => double (s + v)) vs s in is_double t /\ added s (Rabs s) vs t (Rabs t).
Proof.
  induction vs as [|v vs IH]; intros s Hs Hv; [split; [exact Hs|apply added_nil]|]. cbn [fold_left]. destruct (IH (double (s + v)) (double_double _) (fun w I => Hv w (or_intror I))) as [D A]. split; [exact D|].
  assert (K := added_one s (Rabs s) s v Hs (Hv v (or_introl eq_refl)) (Rle_refl _)). replace (s - s + double (s + v)) with (double (s + v)) in K by ring. replace (Rabs s - Rabs s + Rabs (double (s + v))) with (Rabs (double (s + v))) in K by ring.
  exact (added_app _ _ [v] _ _ vs _ _ (Rabs_pos s) K A).
Qed.
Lemma fold_map {A B C} (g : C -> B -> C) (f : A -> B) l : forall s, fold_left g (map f l) s = fold_left (fun s a => g s (f a)) l s.
Proof. induction l as [|a l IH]; intros s; [reflexivity|]. apply IH. Qed.
(** the sum of at most 1000 rounded terms, each near its exact value, the exact ones of size S together *)
Lemma fold_close {A} (v V : A -> R) (l : list A) e M Sz : (length l <= 1000)%nat -> 0 <= e <= 1000 -> 0 <= M -> (forall k, In k l -> is_double (v k)) -> (forall k, In k l -> Rabs (v k - V k) <= e * u * M) -> sumR (map (fun k => Rabs (V k)) l) <= Sz * M -> Sz <= 10 ->
  Rabs (fold_left (fun s k => double (s + v k)) l 0 - sumR (map V l)) <= (INR (length l) * (e + 2 * Sz) + 0.01) * u * M.
Proof.
  intros Hn He HM Hd Hc HS HS2. rewrite <- (fold_map (fun s v => double (s + v)) v l 0). destruct (fold_added (map v l) 0 double_0) as [_ [Ad _]]. { intros w Hw. apply in_map_iff in Hw. destruct Hw as (k & <- & Hk). auto. }
  assert (C := sum_close v V _ l Hc). assert (B := sum_size v V _ l Hc). rewrite Rabs_R0 in Ad. unfold sum_abs in Ad. rewrite map_length, map_map in Ad. set (t := fold_left _ _ 0) in *. clearbody t.
  assert (Pw := pow_u_le (length l) ltac:(lia)). assert (P1 := pow_u_ge (length l)). assert (U := u_pos). assert (T := u_tiny). assert (N0 := pos_INR (length l)). assert (N1 : INR (length l) <= 1000) by (replace 1000 with (INR 1000) by (rewrite INR_IZR_INZ; reflexivity); now apply le_INR).
  assert (HU : 0 <= u * M) by (apply Rmult_le_pos; lra). set (n := INR (length l)) in *. set (s := sumR (map (fun x => Rabs (v x)) l)) in *.
  assert (S0 : 0 <= s) by (unfold s; clear; induction l as [|x l IH]; cbn; [lra|]; assert (K := Rabs_pos (v x)); lra).
  assert (nE : 0 <= n * e <= 1000000) by (split; [apply Rmult_le_pos; lra|]; replace 1000000 with (1000 * 1000) by lra; apply Rmult_le_compat; lra).
  assert (K0 : n * (e * u * M) <= 0.000001 * M). { replace (n * (e * u * M)) with (n * e * u * M) by ring. apply Rmult_le_compat_r; [lra|]. apply Rle_trans with (1000000 * / 1000000000000); [apply Rmult_le_compat; lra|lra]. }
  assert (K1 : s * ((1 + u) ^ length l - 1) <= (Sz * M + 0.000001 * M) * (2 * n * u)) by (apply Rmult_le_compat; lra).
  replace (t - sumR (map V l)) with ((t - 0 - sumR (map v l)) + (sumR (map v l) - sumR (map V l))) by ring. eapply Rle_trans; [apply Rabs_triang|]. rewrite Rplus_0_l in Ad.
  assert (K2 : 0.000001 * M * (2 * n * u) <= 0.01 * u * M). { replace (0.000001 * M * (2 * n * u)) with (0.000002 * n * (u * M)) by lra. replace (0.01 * u * M) with (0.01 * (u * M)) by lra. apply Rmult_le_compat_r; lra. }
  replace ((n * (e + 2 * Sz) + 0.01) * u * M) with (n * (e * u * M) + (Sz * M) * (2 * n * u) + 0.01 * u * M) by ring. lra.
Qed.

(** ** Sums over the grid *)
Lemma sumZ_le n f g : (forall a, (0 <= a < Z.of_nat n)%Z -> f a <= g a) -> sumZ n f <= sumZ n g.
Proof. induction n as [|n IH]; intros H; cbn; [lra|]. assert (K := H (Z.of_nat n) ltac:(lia)). assert (K2 := IH ltac:(intros; apply H; lia)). lra. Qed.
Lemma sumZ_abs n f : Rabs (sumZ n f) <= sumZ n (fun a => Rabs (f a)).
Proof. induction n as [|n IH]; cbn; [rewrite Rabs_R0; lra|]. eapply Rle_trans; [apply Rabs_triang|]. lra. Qed.
Lemma sumZ_minus n f g : sumZ n f - sumZ n g = sumZ n (fun a => f a - g a).
Proof. induction n as [|n IH]; cbn; [ring|]. rewrite <- IH. ring. Qed.
Lemma sumZ_pos n f : (forall a, (0 <= a < Z.of_nat n)%Z -> 0 <= f a) -> 0 <= sumZ n f.
Proof. intros H. rewrite <- (sumZ_0 n). apply sumZ_le. auto. Qed.
Lemma gsum_close n f g b : (forall x y, (0 <= x < Z.of_nat n)%Z -> (0 <= y < Z.of_nat n)%Z -> Rabs (f x y - g x y) <= b x y) -> Rabs (gsum n f - gsum n g) <= gsum n b.
Proof.
  intros H. unfold gsum. rewrite sumZ_minus. eapply Rle_trans; [apply sumZ_abs|]. apply sumZ_le. intros a Ha. rewrite sumZ_minus. eapply Rle_trans; [apply sumZ_abs|]. apply sumZ_le. intros. now apply H.
Qed.
Lemma sumZ_seven n c f e : 0 <= e -> (forall a, (0 <= a < Z.of_nat n)%Z -> f a <= e) -> (forall a, (0 <= a < Z.of_nat n)%Z -> (a <= c - 4 \/ c + 4 <= a)%Z -> f a = 0) -> sumZ n f <= 7 * e.
Proof.
  intros He Hf H0. pose (d := fun k a => if (a =? c + k)%Z then e else 0).
  apply Rle_trans with (sumZ n (fun a => d (-3)%Z a + (d (-2)%Z a + (d (-1)%Z a + (d 0%Z a + (d 1%Z a + (d 2%Z a + d 3%Z a))))))).
  - apply sumZ_le. intros a Ha. assert (D : forall k, 0 <= d k a) by (intros k; unfold d; destruct (_ =? _)%Z; lra).
    assert (D3 := D (-3)%Z). assert (D2 := D (-2)%Z). assert (D1 := D (-1)%Z). assert (D0 := D 0%Z). assert (E1 := D 1%Z). assert (E2 := D 2%Z). assert (E3 := D 3%Z).
    destruct (Z_le_gt_dec a (c - 4)); [rewrite H0 by lia; lra|]. destruct (Z_le_gt_dec (c + 4) a); [rewrite H0 by lia; lra|].
    assert (K : exists k, a = (c + k)%Z /\ In k [-3; -2; -1; 0; 1; 2; 3]%Z) by (exists (a - c)%Z; split; [lia|cbn; lia]). destruct K as (k & -> & Hk).
    assert (X : d k (c + k)%Z = e) by (unfold d; now rewrite Z.eqb_refl). specialize (Hf _ Ha). cbn [In] in Hk. destruct Hk as [<-|[<-|[<-|[<-|[<-|[<-|[<-|[]]]]]]]]; lra.
  - unfold d. rewrite !sumZ_plus, !sumZ_delta. assert (B : forall b : bool, (if b then e else 0) <= e) by (intros []; lra).
    repeat match goal with |- context [if ?b then e else 0] => let v := fresh "v" in pose proof (B b); set (v := if b then e else 0) in * end. lra.
Qed.
(** two nearby shapes see nearly the same field *)
Section Window.
  Variables (n : nat) (M e : R) (cx cy : Z) (wx wy sx sy : Z -> R) (F : grid).
  Hypotheses (HM : 0 <= M) (He : 0 <= e) (HF : forall a b, (0 <= a < Z.of_nat n)%Z -> (0 <= b < Z.of_nat n)%Z -> Rabs (F a b) <= M).
  Hypotheses (Wy0 : forall b, 0 <= wy b) (Sx0 : forall a, 0 <= sx a) (Wy1 : sumZ n wy = 1) (Sx1 : sumZ n sx = 1).
  Hypotheses (Dx : forall a, Rabs (wx a - sx a) <= e) (Dy : forall b, Rabs (wy b - sy b) <= e).
  Hypotheses (Ox : forall a, (a <= cx - 4 \/ cx + 4 <= a)%Z -> wx a = 0 /\ sx a = 0) (Oy : forall b, (b <= cy - 4 \/ cy + 4 <= b)%Z -> wy b = 0 /\ sy b = 0).
  Lemma window_close : Rabs (gsum n (fun a b => F a b * (wx a * wy b)) - gsum n (fun a b => F a b * (sx a * sy b))) <= 14 * e * M.
  Proof.
    eapply Rle_trans; [apply (gsum_close n _ _ (fun a b => M * (Rabs (wx a - sx a) * wy b + sx a * Rabs (wy b - sy b))))|].
    - intros a b Ha Hb. replace (F a b * (wx a * wy b) - F a b * (sx a * sy b)) with (F a b * ((wx a - sx a) * wy b + sx a * (wy b - sy b))) by ring. rewrite Rabs_mult. apply Rmult_le_compat; try apply Rabs_pos; [now apply HF|].
      eapply Rle_trans; [apply Rabs_triang|]. rewrite !Rabs_mult, (Rabs_pos_eq (wy b)), (Rabs_pos_eq (sx a)) by auto. lra.
    - rewrite gsum_scal, gsum_plus, !gsum_prod, Wy1, Sx1.
      assert (A : sumZ n (fun a => Rabs (wx a - sx a)) <= 7 * e). { apply (sumZ_seven n cx); [exact He|intros; apply Dx|]. intros a _ Ha. destruct (Ox a Ha) as [-> ->]. replace (0 - 0) with 0 by ring. apply Rabs_R0. }
      assert (B : sumZ n (fun a => Rabs (wy a - sy a)) <= 7 * e). { apply (sumZ_seven n cy); [exact He|intros; apply Dy|]. intros a _ Ha. destruct (Oy a Ha) as [-> ->]. replace (0 - 0) with 0 by ring. apply Rabs_R0. }
      replace (14 * e * M) with (M * (7 * e + 7 * e)) by ring. apply Rmult_le_compat_l; lra.
  Qed.
End Window.
(** 25 terms and the sum over the grid *)
Lemma ext_five n c (w : Z -> R) g : (forall k, In k places -> (0 <= c + k < Z.of_nat n)%Z) ->
  sumZ n (fun a => g a * ext w (a - c)) = g (c + -2)%Z * w (-2)%Z + (g (c + -1)%Z * w (-1)%Z + (g (c + 0)%Z * w 0%Z + (g (c + 1)%Z * w 1%Z + (g (c + 2)%Z * w 2%Z + 0)))).
Proof.
  intros H. assert (L := H (-2)%Z ltac:(cbn; auto)). assert (U := H 2%Z ltac:(cbn; auto 10)). rewrite (sumZ_five n c); [|lia|lia|].
  - assert (E : forall k, In k places -> ext w (c + k - c) = w k). { intros k Hk. replace (c + k - c)%Z with k by lia. unfold ext. now rewrite (proj2 (near5_in k) Hk). }
    rewrite !E by (cbn; auto 10). reflexivity.
  - intros a _ Ha. unfold ext. destruct (near5 (a - c)) eqn:E; [|ring]. apply near5_in in E. contradiction.
Qed.
Lemma ext_sum n c x : (forall k, In k places -> (0 <= c + k < Z.of_nat n)%Z) -> sumZ n (fun a => ext (weight4 x) (a - c)) = 1.
Proof.
  intros H. rewrite (sumZ_ext n _ (fun a => 1 * ext (weight4 x) (a - c))) by (intros; ring). rewrite (ext_five n c (weight4 x) (fun _ => 1) H). assert (S := w4_sum x). unfold sum5 in S. lra.
Qed.
Lemma pairs_gsum n cx cy wx wy (F : grid) : (forall k, In k places -> (0 <= cx + k < Z.of_nat n)%Z) -> (forall k, In k places -> (0 <= cy + k < Z.of_nat n)%Z) ->
  sumR (map (fun k => F (cx + fst k)%Z (cy + snd k)%Z * (wx (fst k) * wy (snd k))) pairs) = gsum n (fun a b => F a b * (ext wx (a - cx) * ext wy (b - cy))).
Proof.
  intros Hx Hy. unfold gsum. rewrite (sumZ_ext n _ (fun a => sumZ n (fun b => F a b * ext wy (b - cy)) * ext wx (a - cx))).
  2:{ intros a Ha. rewrite Rmult_comm, <- sumZ_scal. apply sumZ_ext. intros. ring. }
  rewrite (ext_five n cx wx (fun a => sumZ n (fun b => F a b * ext wy (b - cy))) Hx). rewrite !(fun a => ext_five n cy wy (fun b => F a b) Hy). unfold pairs, places. cbn [list_prod map app sumR fst snd]. ring.
Qed.
