(** Theorems C64: with the same input the 3D plasma and the beam density come out the same whether the
    processing unit is the GPU or the CPU, whatever the order of the atomic additions. *)
From Coq Require Import Reals ZArith List Bool Lra Lia Permutation.
From Verif Require Import Beam2D_Model Beam2D_Spec Beam3D_Model Beam3D_Spec Plasma2D_Model Shape_Model Shape_Spec Shape_Proofs
  Plasma3D_Model Plasma3D_Spec Gpu_Model Gpu_Spec Gpu_Fft Gpu_Proofs Gpu_Run Layer3D_Spec Layer3D_Proofs Props_Layer3D.
Import ListNotations.
Open Scope R_scope.

(** The transforms built on rfft2 of the reflected array are scipy's: dstn type 1, dctn type 1 up to
    the sign (which cancels as it is always applied twice), and dst along one axis with dct along the
    other, framed by two rows of zeros. *)
Theorem C64_transforms : forall N arr, (2 <= N)%nat ->
  (forall k l, dst2d_gpu N arr k l = dst2d N arr k l) /\
  (forall k l, dct2d_gpu N arr k l = - dct2d N arr k l) /\
  (forall M k l, (k < M)%nat -> mix2d_gpu M N arr (k + 1)%nat l = mix2d M N arr k l /\ mix2d_gpu M N arr 0%nat l = 0 /\ mix2d_gpu M N arr (M + 1)%nat l = 0).
Proof.
  intros N arr HN. rewrite dst2d_gpu_eq, dct2d_gpu_eq by auto. split; [reflexivity|]. split; [reflexivity|].
  intros M k l Hk. rewrite mix2d_gpu_eq by auto. unfold pad_rows. replace (M + 2 - 1)%nat with (M + 1)%nat by lia.
  assert (E1 : ((k + 1 =? 0) || (k + 1 =? M + 1))%nat%bool = false) by (apply orb_false_intro; apply Nat.eqb_neq; lia).
  assert (E2 : ((M + 1 =? 0) || (M + 1 =? M + 1))%nat%bool = true) by (rewrite Nat.eqb_refl; apply orb_true_r).
  repeat match goal with |- context [if ?c then _ else _] => first [replace c with false by (symmetry; rewrite ?orb_false_iff, ?andb_false_iff, ?Nat.eqb_neq, ?Nat.leb_gt, ?Nat.ltb_ge; lia) | replace c with true by (symmetry; rewrite ?orb_true_iff, ?andb_true_iff, ?Nat.eqb_eq, ?Nat.leb_le, ?Nat.ltb_lt; lia)] end.
  replace (k + 1 - 1)%nat with k by lia. auto.
Qed.
Print Assumptions C64_transforms.

(** The field solver of the GPU is the field solver of the CPU. *)
Theorem C64_fields : forall N h X coeff it fprev rb rbp cp c, (2 <= N)%nat ->
  compute_fields_gpu N h X coeff it fprev rb rbp cp c = compute_fields3 N h X coeff it fprev rb rbp cp c.
Proof. intros. now apply fields_gpu_eq. Qed.
Print Assumptions C64_fields.

(** Density and currents of any charged particles inside the grid come out the same in every cell,
    whatever the order in which the threads' additions are performed. *)
Theorem C64_deposit_any_order : forall o n h l a b, fair o -> h <> 0 ->
  (forall p, In p l -> t_q p <> 0 -> inside n h (at_x p) /\ inside n h (at_y p)) -> (0 <= a < n)%Z -> (0 <= b < n)%Z ->
  let g := deposit_plasma_gpu o n h l in let c := deposit_plasma n h l in
  c_ro g a b = c_ro c a b /\ c_jx g a b = c_jx c a b /\ c_jy g a b = c_jy c a b /\ c_jz g a b = c_jz c a b.
Proof. intros. apply deposit_gpu_eq; auto. Qed.
Print Assumptions C64_deposit_any_order.

(** The charge of a beam layer is spread over the same cells in the same shares. *)
Theorem C64_beam_density_any_order : forall o n h dxi idx l out a b, fair o -> h <> 0 ->
  (forall p, In p l -> inside n h (b_x p) /\ inside n h (b_y p)) -> (0 <= a < n)%Z -> (0 <= b < n)%Z ->
  fst (deposit_beam_gpu o n h dxi idx l out) a b = fst (deposit3 n h dxi idx l out) a b /\
  snd (deposit_beam_gpu o n h dxi idx l out) a b = snd (deposit3 n h dxi idx l out) a b.
Proof. intros. now apply deposit_beam_gpu_eq. Qed.
Print Assumptions C64_beam_density_any_order.

(** One layer on the GPU follows the same predictor-corrector scheme as on the CPU (C60). *)
Theorem C64_layer_follows_the_scheme : forall s L pad sigma oe oi rb rbp st,
  u_n s = (L + 1)%nat -> (2 <= L)%nat -> Nat.odd (u_n s) = true -> 0 < u_h s -> (3 <= pad)%Z -> u_b s = wall (u_n s) (u_h s) pad -> 0 < u_b s ->
  0 <= u_coeff s -> 0 < u_limit s -> (forall k, fair (oe k)) -> (forall k, fair (oi k)) ->
  let pp := fst (fst st) in let average := gauss_average (K_ pp) sigma in
  (u_decl s = true -> (3 <= K_ pp)%nat) -> calm s pp ->
  layer3 average s L rb rbp st (step_gpu average oe oi s rb rbp st).
Proof.
  intros s L pad sigma oe oi rb rbp st HN HL Ho Hh Hp Hb Hpos Hc Hd He Hi pp average HK HC.
  apply (layer_gpu_ok s L pad HN HL Ho Hh Hp Hb Hpos Hc Hd); auto. apply gauss_local.
Qed.
Print Assumptions C64_layer_follows_the_scheme.

(** Any number of layers: from the same arrays, with the same beam densities on the nodes and any
    orders of the additions, the GPU ends with the same particles, fields, densities and currents as
    the CPU, as long as the particles stay calm on the CPU. *)
Theorem C64_run_on_gpu_is_run_on_cpu : forall s L pad sigma rs ls st st',
  u_n s = (L + 1)%nat -> (2 <= L)%nat -> Nat.odd (u_n s) = true -> 0 < u_h s -> (3 <= pad)%Z -> u_b s = wall (u_n s) (u_h s) pad -> 0 < u_b s ->
  0 <= u_coeff s -> 0 < u_limit s ->
  let K := K_ (fst (fst st)) in let average := gauss_average K sigma in
  (u_decl s = true -> (3 <= K)%nat) ->
  Forall2 (same_beam L) rs ls -> Forall fair_launch ls ->
  (forall r1 r2, rs = r1 ++ r2 -> r2 <> [] -> calm s (fst (fst (cpu_layers average s r1 st)))) ->
  same_arrays s L st st' ->
  same_arrays s L (cpu_layers average s rs st) (gpu_layers average s ls st').
Proof.
  intros s L pad sigma rs ls st st' HN HL Ho Hh Hp Hb Hpos Hc Hd K average HK HB HF HC S.
  apply (run_gpu_cpu s L pad HN HL Ho Hh Hp Hb Hpos Hc Hd); auto. apply gauss_local.
Qed.
Print Assumptions C64_run_on_gpu_is_run_on_cpu.

(** Two runs on the GPU whose additions are ordered differently agree. *)
Theorem C64_gpu_runs_agree : forall s L pad sigma ls ls' st,
  u_n s = (L + 1)%nat -> (2 <= L)%nat -> Nat.odd (u_n s) = true -> 0 < u_h s -> (3 <= pad)%Z -> u_b s = wall (u_n s) (u_h s) pad -> 0 < u_b s ->
  0 <= u_coeff s -> 0 < u_limit s ->
  let K := K_ (fst (fst st)) in let average := gauss_average K sigma in
  (u_decl s = true -> (3 <= K)%nat) ->
  map (fun l => (l_rb l, l_rbp l)) ls = map (fun l => (l_rb l, l_rbp l)) ls' -> Forall fair_launch ls -> Forall fair_launch ls' ->
  (forall r1 r2, map (fun l => (l_rb l, l_rbp l)) ls = r1 ++ r2 -> r2 <> [] -> calm s (fst (fst (cpu_layers average s r1 st)))) ->
  same_arrays s L (gpu_layers average s ls st) (gpu_layers average s ls' st).
Proof.
  intros s L pad sigma ls ls' st HN HL Ho Hh Hp Hb Hpos Hc Hd K average HK HM HF HF' HC.
  assert (R : same_arrays s L st st). { apply same_arrays_iff. split; [split; [reflexivity|split; [intros i j _ _; reflexivity|destruct (u_ions s); [reflexivity|intros i j _ _; reflexivity]]]|]. split; [apply fields_eq_refl|repeat split; intros i j _ _; reflexivity]. }
  assert (B : forall l, Forall2 (same_beam L) (map (fun l => (l_rb l, l_rbp l)) l) l).
  { induction l; constructor; auto. split; intros i j _ _; reflexivity. }
  set (rs := map (fun l => (l_rb l, l_rbp l)) ls) in *.
  assert (A1 := run_gpu_cpu s L pad HN HL Ho Hh Hp Hb Hpos Hc Hd average rs ls st st (B ls) HF (gauss_local K sigma) HK HC R).
  assert (B' : Forall2 (same_beam L) rs ls') by (rewrite HM; apply B).
  assert (A2 := run_gpu_cpu s L pad HN HL Ho Hh Hp Hb Hpos Hc Hd average rs ls' st st B' HF' (gauss_local K sigma) HK HC R).
  refine (same_arrays_trans s L _ _ _ _ A2).
  apply same_arrays_iff. apply same_arrays_iff in A1. destruct A1 as ([E [E1 E2]] & F & T). split; [|split].
  - split; [auto|]. rewrite <- E. split; [intros i j Hi Hj; symmetry; apply E1; auto|]. destruct (u_ions s); [auto|intros i j Hi Hj; symmetry; apply E2; auto].
  - unfold fields_eq in *. intuition auto using nodes_eq_sym.
  - unfold totals_eq in *. intuition auto using nodes_eq_sym.
Qed.
Print Assumptions C64_gpu_runs_agree.

(** The hypotheses are met: the additions performed backwards, the solver and particles of C60, one
    layer; and the order matters to the program, if not to its result. *)
Definition backwards : order := fun _ l => rev l.
Example C64_nonvacuous : fair backwards /\ fair_launch (mkL zeros2 zeros2 (fun _ => backwards) (fun _ => backwards)) /\ backwards 0%nat [(1%Z, 1); (2%Z, 1)] <> [(1%Z, 1); (2%Z, 1)] /\
  (forall f c r1 r2, [(zeros2, zeros2)] = r1 ++ r2 -> r2 <> [] ->
     calm ex_solver (fst (fst (cpu_layers (gauss_average 3 1) ex_solver r1 (ex_parts, f, c))))).
Proof.
  assert (A : fair backwards) by (intros k l; apply Permutation_rev).
  split; [exact A|]. split; [split; intros; exact A|]. split; [cbn; intros E; injection E; intros; discriminate|].
  intros f c r1 r2 E H. destruct r1 as [|r r1].
  - cbn [cpu_layers fold_left fst]. apply C60_nonvacuous.
  - destruct r1; destruct r2; cbn in E; try discriminate. contradiction.
Qed.
