(** The FFT-based transforms of the GPU are the sine and cosine transforms of the CPU. *)
From Coq Require Import Reals ZArith List Bool Lra Lia FunctionalExtensionality.
From Verif Require Import Plasma2D_Model Plasma2D_Ode Plasma2D_Dens Plasma3D_Model Spectral Gpu_Model.
Import ListNotations.
Open Scope R_scope.

Lemma sumN_first n f : sumN (S n) f = f 0%nat + sumN n (fun i => f (S i)).
Proof. induction n as [|n IH]; [cbn; ring|]. rewrite sumN_S, IH, sumN_S. ring. Qed.
Lemma sumN_rev n f : sumN n f = sumN n (fun i => f (n - 1 - i)%nat).
Proof.
  induction n as [|n IH]; [reflexivity|]. rewrite sumN_S, IH, sumN_first.
  replace (S n - 1 - 0)%nat with n by lia. rewrite Rplus_comm. f_equal. apply sumN_ext. intros i Hi. f_equal. lia.
Qed.

(** ** One dimension *)
Definition oddext (N : nat) (x : arr) : arr := fun i =>
  if ((1 <=? i) && (i <? N + 1))%nat%bool then x (i - 1)%nat
  else if ((N + 2 <=? i) && (i <? 2 * N + 2))%nat%bool then - x (2 * N + 1 - i)%nat else 0.
Definition evenext (N : nat) (x : arr) : arr := fun i =>
  if (i <? N)%nat then x i else if (i <? 2 * N - 2)%nat then x (2 * N - 2 - i)%nat else 0.

Ltac nb := repeat match goal with
  | |- context [(?a <=? ?b)%nat] => destruct (Nat.leb_spec a b); try lia
  | |- context [(?a <? ?b)%nat] => destruct (Nat.ltb_spec a b); try lia
  | |- context [(?a =? ?b)%nat] => destruct (Nat.eqb_spec a b); try lia end; cbn [andb orb negb].

Lemma sum_odd N x s (phi : arr) : (forall a, (1 <= a <= N)%nat -> phi (2 * N + 2 - a)%nat = s * phi a) ->
  sumN (2 * N + 2) (fun a => oddext N x a * phi a) = (1 - s) * sumN N (fun n => x n * phi (n + 1)%nat).
Proof.
  intros H. replace (2 * N + 2)%nat with (1 + (N + (1 + N)))%nat by lia. rewrite !sumN_add.
  rewrite (sumN_ext N (fun i => oddext N x (1 + (N + (1 + i)))%nat * _) (fun i => - x (N - 1 - i)%nat * phi (N + 2 + i)%nat)).
  2:{ intros i Hi. unfold oddext. nb. replace (2 * N + 1 - (1 + (N + (1 + i))))%nat with (N - 1 - i)%nat by lia. replace (1 + (N + (1 + i)))%nat with (N + 2 + i)%nat by lia. reflexivity. }
  rewrite (sumN_rev N (fun i => - x (N - 1 - i)%nat * _)).
  rewrite (sumN_ext N (fun i => - x (N - 1 - (N - 1 - i))%nat * _) (fun i => (- s) * (x i * phi (i + 1)%nat))).
  2:{ intros i Hi. replace (N - 1 - (N - 1 - i))%nat with i by lia. replace (N + 2 + (N - 1 - i))%nat with (2 * N + 2 - (i + 1))%nat by lia. rewrite H by lia. ring. }
  rewrite (sumN_ext N (fun i => oddext N x (1 + i)%nat * _) (fun i => x i * phi (i + 1)%nat)).
  2:{ intros i Hi. unfold oddext. nb. replace (1 + i - 1)%nat with i by lia. replace (1 + i)%nat with (i + 1)%nat by lia. reflexivity. }
  rewrite sumN_scal. cbn [sumN]. assert (Z1 : oddext N x 0%nat = 0) by (unfold oddext; nb; reflexivity).
  assert (Z2 : oddext N x (1 + (N + 0))%nat = 0) by (unfold oddext; nb; reflexivity). rewrite Z1, Z2. ring.
Qed.
Lemma sum_even N x s (phi : arr) : (2 <= N)%nat -> (forall a, (1 <= a <= N - 2)%nat -> phi (2 * N - 2 - a)%nat = s * phi a) ->
  sumN (2 * N - 2) (fun a => evenext N x a * phi a) = x 0%nat * phi 0%nat + x (N - 1)%nat * phi (N - 1)%nat + (1 + s) * sumN (N - 2) (fun n => x (n + 1)%nat * phi (n + 1)%nat).
Proof.
  intros HN H. replace (2 * N - 2)%nat with (1 + ((N - 2) + (1 + (N - 2))))%nat at 1 by lia. rewrite !sumN_add.
  rewrite (sumN_ext (N - 2) (fun i => evenext N x (1 + (N - 2 + (1 + i)))%nat * _) (fun i => x (N - 2 - i)%nat * phi (N + i)%nat)).
  2:{ intros i Hi. unfold evenext. nb. replace (2 * N - 2 - (1 + (N - 2 + (1 + i))))%nat with (N - 2 - i)%nat by lia. replace (1 + (N - 2 + (1 + i)))%nat with (N + i)%nat by lia. reflexivity. }
  rewrite (sumN_rev (N - 2) (fun i => x (N - 2 - i)%nat * _)).
  rewrite (sumN_ext (N - 2) (fun i => x (N - 2 - (N - 2 - 1 - i))%nat * _) (fun i => s * (x (i + 1)%nat * phi (i + 1)%nat))).
  2:{ intros i Hi. replace (N - 2 - (N - 2 - 1 - i))%nat with (i + 1)%nat by lia. replace (N + (N - 2 - 1 - i))%nat with (2 * N - 2 - (i + 1))%nat by lia. rewrite H by lia. ring. }
  rewrite (sumN_ext (N - 2) (fun i => evenext N x (1 + i)%nat * _) (fun i => x (i + 1)%nat * phi (i + 1)%nat)).
  2:{ intros i Hi. unfold evenext. nb. replace (1 + i)%nat with (i + 1)%nat by lia. reflexivity. }
  rewrite sumN_scal. cbn [sumN]. assert (Z1 : evenext N x 0%nat = x 0%nat) by (unfold evenext; nb; reflexivity).
  replace (1 + (N - 2 + 0))%nat with (N - 1)%nat by lia.
  assert (Z2 : evenext N x (N - 1)%nat = x (N - 1)%nat) by (unfold evenext; nb; reflexivity). rewrite Z1, Z2. ring.
Qed.
Lemma INR_pos n : (0 < n)%nat -> INR n <> 0. Proof. intros H. apply not_0_INR. lia. Qed.
(** the phase 2 pi a k / A of one direction *)
Definition ph (A k a : nat) : R := 2 * PI * (INR a * INR k / INR A).
Lemma ph_mirror A k a : (0 < A)%nat -> (a <= A)%nat -> ph A k (A - a) = - ph A k a + 2 * INR k * PI.
Proof. intros HA Ha. unfold ph. rewrite minus_INR by auto. field. now apply INR_pos. Qed.
Lemma sin_mirror A k a : (0 < A)%nat -> (a <= A)%nat -> sin (ph A k (A - a)) = - sin (ph A k a).
Proof. intros. rewrite ph_mirror by auto. rewrite sin_period, sin_neg. reflexivity. Qed.
Lemma cos_mirror A k a : (0 < A)%nat -> (a <= A)%nat -> cos (ph A k (A - a)) = cos (ph A k a).
Proof. intros. rewrite ph_mirror by auto. rewrite cos_period, cos_neg. reflexivity. Qed.
Lemma odd_sin M x k : sumN (2 * M + 2) (fun a => oddext M x a * sin (ph (2 * M + 2) k a)) = 2 * sumN M (fun n => x n * sin (PI * INR k * INR (n + 1) / INR (M + 1))).
Proof.
  rewrite (sum_odd M x (-1)). 2:{ intros a Ha. rewrite sin_mirror by lia. ring. }
  replace (1 - -1) with 2 by ring. f_equal. apply sumN_ext. intros n Hn. do 2 f_equal. unfold ph.
  replace (2 * M + 2)%nat with (2 * (M + 1))%nat by lia. rewrite mult_INR. assert (Z := INR_pos (M + 1)%nat ltac:(lia)). replace (INR 2) with 2 by reflexivity. field. exact Z.
Qed.
Lemma odd_cos M x k : sumN (2 * M + 2) (fun a => oddext M x a * cos (ph (2 * M + 2) k a)) = 0.
Proof. rewrite (sum_odd M x 1). 2:{ intros a Ha. rewrite cos_mirror by lia. ring. } ring. Qed.
Lemma ph_half N k : (2 <= N)%nat -> ph (2 * N - 2) k (N - 1) = INR k * PI.
Proof.
  intros H. unfold ph. replace (2 * N - 2)%nat with (2 * (N - 1))%nat by lia. rewrite mult_INR. assert (Z := INR_pos (N - 1)%nat ltac:(lia)). replace (INR 2) with 2 by reflexivity. field. exact Z.
Qed.
Lemma ph_0 A k : ph A k 0 = 0. Proof. unfold ph, Rdiv. cbn [INR]. ring. Qed.
Lemma even_cos N x k : (2 <= N)%nat -> sumN (2 * N - 2) (fun a => evenext N x a * cos (ph (2 * N - 2) k a)) = dct_1 N x k.
Proof.
  intros HN. rewrite (sum_even N x 1) by (auto; intros; rewrite cos_mirror by lia; ring).
  rewrite ph_0, cos_0, ph_half, cos_npi by auto. unfold dct_1. replace (1 + 1) with 2 by ring. rewrite Rmult_1_r, (Rmult_comm (x (N - 1)%nat)). f_equal. f_equal. apply sumN_ext. intros n Hn.
  do 2 f_equal. unfold ph. replace (2 * N - 2)%nat with (2 * (N - 1))%nat by lia. rewrite mult_INR. assert (Z := INR_pos (N - 1)%nat ltac:(lia)). replace (INR 2) with 2 by reflexivity. field. exact Z.
Qed.
Lemma even_sin N x k : (2 <= N)%nat -> sumN (2 * N - 2) (fun a => evenext N x a * sin (ph (2 * N - 2) k a)) = 0.
Proof.
  intros HN. rewrite (sum_even N x (-1)) by (auto; intros; rewrite sin_mirror by lia; ring).
  rewrite ph_0, sin_0, ph_half, sin_npi by auto. ring.
Qed.

(** ** Two dimensions *)
Lemma phase_split A B k l a b : phase A B k l a b = ph A k a + ph B l b.
Proof. unfold phase, ph. ring. Qed.
(** an array extended in both directions, linearly *)
Lemma ext_lin (E : arr -> arr) : (forall x y i, E (fun n => x n + y n) i = E x i + E y i) -> (forall c x i, E (fun n => c * x n) i = c * E x i) -> (forall i, E (fun _ => 0) i = 0) ->
  forall A (g : arr) (x : nat -> arr) b, sumN A (fun a => E (x a) b * g a) = E (fun n => sumN A (fun a => x a n * g a)) b.
Proof.
  intros EP ES E0 A g x b. induction A as [|A IH]; [cbn [sumN]; now rewrite E0|]. rewrite sumN_S, IH.
  rewrite (Rmult_comm (E (x A) b)), <- ES, <- EP. f_equal. apply functional_extensionality. intros n. rewrite sumN_S. ring.
Qed.
Lemma oddext_lin N A (g : arr) (x : nat -> arr) b : sumN A (fun a => oddext N (x a) b * g a) = oddext N (fun n => sumN A (fun a => x a n * g a)) b.
Proof.
  apply (ext_lin (oddext N)); intros; unfold oddext; destruct (_ && _)%bool; auto; destruct (_ && _)%bool; ring.
Qed.
Lemma evenext_lin N A (g : arr) (x : nat -> arr) b : sumN A (fun a => evenext N (x a) b * g a) = evenext N (fun n => sumN A (fun a => x a n * g a)) b.
Proof.
  apply (ext_lin (evenext N)); intros; unfold evenext; destruct (_ <? _)%nat; auto; destruct (_ <? _)%nat; ring.
Qed.
Definition dsum2 (A B : nat) (p : arr2) (f g : arr) : R := sumN A (fun a => sumN B (fun b => p a b * (f a * g b))).
Lemma dsum2_swap A B p f g : dsum2 A B p f g = sumN B (fun b => sumN A (fun a => p a b * f a) * g b).
Proof.
  unfold dsum2. rewrite sumN_swap. apply sumN_ext. intros b _. rewrite Rmult_comm, <- sumN_scal. apply sumN_ext. intros a _. ring.
Qed.
Lemma re_split A B p k l : rfft2_re A B p k l =
  dsum2 A B p (fun a => cos (ph A k a)) (fun b => cos (ph B l b)) - dsum2 A B p (fun a => sin (ph A k a)) (fun b => sin (ph B l b)).
Proof.
  unfold rfft2_re, dsum2. transitivity (sumN A (fun a => 1 * sumN B (fun b => p a b * (cos (ph A k a) * cos (ph B l b))) + (-1) * sumN B (fun b => p a b * (sin (ph A k a) * sin (ph B l b))))); [|rewrite sum_lin; ring].
  apply sumN_ext. intros a _. rewrite <- sum_lin. apply sumN_ext. intros b _. rewrite phase_split, cos_plus. ring.
Qed.
Lemma im_split A B p k l : rfft2_im A B p k l =
  - (dsum2 A B p (fun a => sin (ph A k a)) (fun b => cos (ph B l b)) + dsum2 A B p (fun a => cos (ph A k a)) (fun b => sin (ph B l b))).
Proof.
  unfold rfft2_im, dsum2. f_equal. transitivity (sumN A (fun a => 1 * sumN B (fun b => p a b * (sin (ph A k a) * cos (ph B l b))) + 1 * sumN B (fun b => p a b * (cos (ph A k a) * sin (ph B l b))))); [|rewrite sum_lin; ring].
  apply sumN_ext. intros a _. rewrite <- sum_lin. apply sumN_ext. intros b _. rewrite phase_split, sin_plus. ring.
Qed.
Lemma dsum2_ext A B p p' f g : (forall a b, (a < A)%nat -> (b < B)%nat -> p a b = p' a b) -> dsum2 A B p f g = dsum2 A B p' f g.
Proof. intros H. unfold dsum2. apply sumN_ext. intros a Ha. apply sumN_ext. intros b Hb. rewrite H by auto. reflexivity. Qed.
Lemma odd_zero N i : oddext N (fun _ => 0) i = 0.
Proof. unfold oddext. destruct (_ && _)%bool; auto. destruct (_ && _)%bool; ring. Qed.
Lemma even_zero N i : evenext N (fun _ => 0) i = 0.
Proof. unfold evenext. destruct (_ <? _)%nat; auto. destruct (_ <? _)%nat; ring. Qed.

(** Both directions odd (the padding of dst2d), both even (dct2d), odd-even (mix2d). *)
Definition pad_oo (N : nat) (arr : arr2) : arr2 := fun a b => oddext N (fun j => oddext N (fun i => arr i j) a) b.
Definition pad_ee (N : nat) (arr : arr2) : arr2 := fun a b => evenext N (fun j => evenext N (fun i => arr i j) a) b.
Definition pad_oe (M N : nat) (arr : arr2) : arr2 := fun a b => evenext N (fun j => oddext M (fun i => arr i j) a) b.

Lemma oo_sums N arr f g : dsum2 (2 * N + 2) (2 * N + 2) (pad_oo N arr) f g =
  sumN (2 * N + 2) (fun b => oddext N (fun j => sumN (2 * N + 2) (fun a => oddext N (fun i => arr i j) a * f a)) b * g b).
Proof. rewrite dsum2_swap. apply sumN_ext. intros b _. f_equal. unfold pad_oo. apply (oddext_lin N _ f (fun a j => oddext N (fun i => arr i j) a)). Qed.
Lemma ee_sums N arr f g : dsum2 (2 * N - 2) (2 * N - 2) (pad_ee N arr) f g =
  sumN (2 * N - 2) (fun b => evenext N (fun j => sumN (2 * N - 2) (fun a => evenext N (fun i => arr i j) a * f a)) b * g b).
Proof. rewrite dsum2_swap. apply sumN_ext. intros b _. f_equal. unfold pad_ee. apply (evenext_lin N _ f (fun a j => evenext N (fun i => arr i j) a)). Qed.
Lemma oe_sums M N arr f g : dsum2 (2 * M + 2) (2 * N - 2) (pad_oe M N arr) f g =
  sumN (2 * N - 2) (fun b => evenext N (fun j => sumN (2 * M + 2) (fun a => oddext M (fun i => arr i j) a * f a)) b * g b).
Proof. rewrite dsum2_swap. apply sumN_ext. intros b _. f_equal. unfold pad_oe. apply (evenext_lin N _ f (fun a j => oddext M (fun i => arr i j) a)). Qed.
(** the sine transform with the frequency not shifted *)
Definition dst_0 (M : nat) (x : arr) : arr := fun k => 2 * sumN M (fun n => x n * sin (PI * INR k * INR (n + 1) / INR (M + 1))).
Lemma oo_transform N arr k l : rfft2_re (2 * N + 2) (2 * N + 2) (pad_oo N arr) k l = - dst_0 N (fun j => dst_0 N (fun i => arr i j) k) l.
Proof.
  rewrite re_split, !oo_sums.
  rewrite (sumN_ext _ (fun b => oddext N (fun j => sumN _ (fun a => oddext N (fun i => arr i j) a * cos _)) b * _) (fun b => 0)).
  2:{ intros b _. replace (fun j => sumN (2 * N + 2) (fun a => oddext N (fun i => arr i j) a * cos (ph (2 * N + 2) k a))) with (fun _ : nat => 0) by (apply functional_extensionality; intros j; now rewrite odd_cos).
      rewrite odd_zero. ring. }
  rewrite (sumN_zero _ (fun _ => 0)) by auto. rewrite odd_sin. unfold dst_0. rewrite Rminus_0_l. do 3 f_equal. apply functional_extensionality. intros j. rewrite odd_sin. reflexivity.
Qed.
Lemma ee_transform N arr k l : (2 <= N)%nat -> rfft2_re (2 * N - 2) (2 * N - 2) (pad_ee N arr) k l = dct_1 N (fun j => dct_1 N (fun i => arr i j) k) l.
Proof.
  intros HN. rewrite re_split, !ee_sums.
  rewrite (sumN_ext _ (fun b => evenext N (fun j => sumN _ (fun a => evenext N (fun i => arr i j) a * sin _)) b * _) (fun b => 0)).
  2:{ intros b _. replace (fun j => sumN (2 * N - 2) (fun a => evenext N (fun i => arr i j) a * sin (ph (2 * N - 2) k a))) with (fun _ : nat => 0) by (apply functional_extensionality; intros j; now rewrite even_sin).
      rewrite even_zero. ring. }
  rewrite (sumN_zero _ (fun _ => 0)) by auto. rewrite even_cos by auto. rewrite Rminus_0_r. f_equal. apply functional_extensionality. intros j. rewrite even_cos by auto. reflexivity.
Qed.
Lemma oe_transform M N arr k l : (2 <= N)%nat -> rfft2_im (2 * M + 2) (2 * N - 2) (pad_oe M N arr) k l = - dct_1 N (fun j => dst_0 M (fun i => arr i j) k) l.
Proof.
  intros HN. rewrite im_split, !oe_sums. f_equal.
  rewrite (sumN_ext _ (fun b => evenext N (fun j => sumN _ (fun a => oddext M (fun i => arr i j) a * cos _)) b * _) (fun b => 0)).
  2:{ intros b _. replace (fun j => sumN (2 * M + 2) (fun a => oddext M (fun i => arr i j) a * cos (ph (2 * M + 2) k a))) with (fun _ : nat => 0) by (apply functional_extensionality; intros j; now rewrite odd_cos).
      rewrite even_zero. ring. }
  rewrite (sumN_zero _ (fun _ => 0)) by auto. rewrite even_cos by auto. rewrite Rplus_0_r. f_equal. apply functional_extensionality. intros j. rewrite odd_sin. reflexivity.
Qed.
Lemma re_ext A B p p' k l : (forall a b, (a < A)%nat -> (b < B)%nat -> p a b = p' a b) -> rfft2_re A B p k l = rfft2_re A B p' k l.
Proof. intros H. unfold rfft2_re. apply sumN_ext. intros a Ha. apply sumN_ext. intros b Hb. now rewrite H. Qed.
Lemma im_ext A B p p' k l : (forall a b, (a < A)%nat -> (b < B)%nat -> p a b = p' a b) -> rfft2_im A B p k l = rfft2_im A B p' k l.
Proof. intros H. unfold rfft2_im. f_equal. apply sumN_ext. intros a Ha. apply sumN_ext. intros b Hb. now rewrite H. Qed.

Ltac same := rewrite ?Ropp_involutive; try ring; repeat (f_equal; try lia); try ring.
Lemma dst2d_gpu_eq N arr : dst2d_gpu N arr = dst2d N arr.
Proof.
  apply functional_extensionality. intros k. apply functional_extensionality. intros l. unfold dst2d_gpu, cut1, opp2.
  rewrite (re_ext _ _ _ (pad_oo N arr)).
  - rewrite oo_transform, Ropp_involutive. unfold dst2d, ax1, ax0, dst_1, dst_0. reflexivity.
  - intros a b Ha Hb. unfold put, pad_oo, oddext, fliplr, flipud, zeros2. nb; same.
Qed.
Lemma dct2d_gpu_eq N arr : (2 <= N)%nat -> dct2d_gpu N arr = opp2 (dct2d N arr).
Proof.
  intros HN. apply functional_extensionality. intros k. apply functional_extensionality. intros l. unfold dct2d_gpu, opp2. f_equal.
  rewrite (re_ext _ _ _ (pad_ee N arr)).
  - rewrite ee_transform by auto. unfold dct2d, ax1, ax0. reflexivity.
  - intros a b Ha Hb. unfold put, pad_ee, evenext, fliplr, flipud, zeros2. nb; same.
Qed.
Lemma dst_0_shift M x k : dst_0 M x k = if ((k =? 0) || (k =? M + 1))%nat%bool then 0 else dst_1 M x (k - 1)%nat.
Proof.
  unfold dst_0, dst_1. destruct (Nat.eqb_spec k 0) as [->|K0]; cbn [orb].
  - rewrite sumN_zero; [ring|]. intros n _. cbn [INR]. replace (PI * 0 * INR (n + 1) / INR (M + 1)) with 0 by (unfold Rdiv; ring). rewrite sin_0. ring.
  - destruct (Nat.eqb_spec k (M + 1)) as [->|K1].
    + rewrite sumN_zero; [ring|]. intros n _. assert (Z := INR_pos (M + 1)%nat ltac:(lia)). replace (PI * INR (M + 1) * INR (n + 1) / INR (M + 1)) with (INR (n + 1) * PI) by (field; auto).
      rewrite sin_npi. ring.
    + replace (k - 1 + 1)%nat with k by lia. reflexivity.
Qed.
Lemma dct_1_zero N k : dct_1 N (fun _ => 0) k = 0.
Proof. unfold dct_1. rewrite sumN_zero; [ring|]. intros. ring. Qed.
Lemma mix2d_gpu_eq M N arr : (2 <= N)%nat -> mix2d_gpu M N arr = pad_rows (M + 2) (mix2d M N arr).
Proof.
  intros HN. apply functional_extensionality. intros k. apply functional_extensionality. intros l. unfold mix2d_gpu, opp2.
  rewrite (im_ext _ _ _ (pad_oe M N arr)).
  - rewrite oe_transform, Ropp_involutive by auto. unfold pad_rows, mix2d, ax1, ax0. replace (M + 2 - 1)%nat with (M + 1)%nat by lia.
    replace (fun j => dst_0 M (fun i => arr i j) k) with (fun j => if ((k =? 0) || (k =? M + 1))%nat%bool then 0 else dst_1 M (fun i => arr i j) (k - 1)%nat) by (apply functional_extensionality; intros j; now rewrite dst_0_shift).
    destruct ((k =? 0) || (k =? M + 1))%nat%bool; [apply dct_1_zero|reflexivity].
  - intros a b Ha Hb. unfold put, pad_oe, oddext, evenext, fliplr, flipud, zeros2. nb; same.
Qed.

(** ** The field solver *)
Lemma dst_1_ext M x x' k : (forall i, (i < M)%nat -> x i = x' i) -> dst_1 M x k = dst_1 M x' k.
Proof. intros H. unfold dst_1. f_equal. apply sumN_ext. intros n Hn. now rewrite H. Qed.
Lemma mixed_gpu_eq N h coeff rhs : (2 <= N)%nat -> mixed_with mix2d_gpu N h coeff rhs = solve_mixed N h coeff rhs.
Proof.
  intros HN. unfold mixed_with, solve_mixed. rewrite !mix2d_gpu_eq by auto. replace (N - 2 + 2)%nat with N by lia. f_equal.
  unfold mix2d, ax1, ax0. apply functional_extensionality. intros i. apply functional_extensionality. intros k. f_equal. apply functional_extensionality. intros j.
  apply dst_1_ext. intros a Ha. unfold times, inner_rows, pad_rows. nb. replace (a + 1 - 1)%nat with a by lia. reflexivity.
Qed.
Lemma dct_1_opp N x k : dct_1 N (fun i => - x i) k = - dct_1 N x k.
Proof. unfold dct_1. rewrite (sumN_ext _ _ (fun n => (-1) * (x (n + 1)%nat * cos (PI * INR k * INR (n + 1) / INR (N - 1))))) by (intros; ring). rewrite sumN_scal. ring. Qed.
Lemma dct2d_opp N a : dct2d N (opp2 a) = opp2 (dct2d N a).
Proof.
  unfold dct2d, ax1, ax0, opp2. apply functional_extensionality. intros k. apply functional_extensionality. intros l. rewrite <- dct_1_opp. f_equal. apply functional_extensionality. intros j. apply dct_1_opp.
Qed.
Lemma Bz_gpu_eq N h c : (2 <= N)%nat -> Bz_with dct2d_gpu N h c = calculate_Bz N h c.
Proof.
  intros HN. unfold Bz_with, calculate_Bz. cbn zeta.
  assert (E : forall rhs, dct2d_gpu N (times (dct2d_gpu N rhs) (neumann_matrix N h)) = dct2d N (times (dct2d N rhs) (neumann_matrix N h))).
  { intros rhs. rewrite !dct2d_gpu_eq by auto. replace (times (opp2 (dct2d N rhs)) (neumann_matrix N h)) with (opp2 (times (dct2d N rhs) (neumann_matrix N h))).
    - rewrite dct2d_opp. unfold opp2. apply functional_extensionality. intros i. apply functional_extensionality. intros j. ring.
    - unfold opp2, times. apply functional_extensionality. intros i. apply functional_extensionality. intros j. ring. }
  rewrite E. reflexivity.
Qed.
Lemma fields_gpu_eq N h X coeff f fp rb rbp cp c : (2 <= N)%nat ->
  compute_fields_gpu N h X coeff f fp rb rbp cp c = compute_fields3 N h X coeff f fp rb rbp cp c.
Proof.
  intros HN. unfold compute_fields_gpu, fields_with, compute_fields3. rewrite Bz_gpu_eq by auto.
  unfold Ez_with, Phi_with, calculate_Ez, calculate_Phi. rewrite !dst2d_gpu_eq.
  unfold transverse_with, calculate_Ex_Ey_Bx_By. rewrite !mixed_gpu_eq by auto. reflexivity.
Qed.
