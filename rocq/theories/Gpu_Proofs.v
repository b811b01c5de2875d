(** The kernels of the GPU compute what the CPU computes. *)
From Coq Require Import Reals ZArith List Bool Lra Lia Permutation FunctionalExtensionality.
From Verif Require Import Beam2D_Model Beam2D_Spec Beam2D_Free Beam3D_Model Beam3D_Spec Beam3D_Proofs Plasma2D_Model Shape_Model Shape_Spec Shape_Proofs Plasma3D_Model Plasma3D_Spec Plasma3D_Move Plasma3D_Push
  Filter3D_Proofs Props_Plasma3D_Init Gpu_Model Gpu_Spec Gpu_Fft Layer3D_Spec Layer3D_Proofs.
Import ListNotations.
Open Scope R_scope.

Lemma weight4_gpu_eq x k : In k places -> weight4_gpu x k = weight4 x k.
Proof. unfold places. intros [<-|[<-|[<-|[<-|[<-|[]]]]]]; unfold weight4_gpu, weight4; cbn [Z.eqb Pos.eqb]; field. Qed.
Lemma floor_unique x z : IZR z <= x < IZR z + 1 -> floorR x = z.
Proof.
  intros [A B]. destruct (floorR_spec x) as [C D].
  assert (IZR z < IZR (floorR x + 1)) by (rewrite plus_IZR; lra). assert (IZR (floorR x) < IZR (z + 1)) by (rewrite plus_IZR; lra). apply lt_IZR in H, H0. lia.
Qed.
Lemma floor_half n : floorR (IZR n / 2) = (n / 2)%Z.
Proof.
  apply floor_unique. assert (D := Z.div_mod n 2 ltac:(lia)). assert (M := Z.mod_pos_bound n 2 ltac:(lia)).
  assert (E : IZR n = 2 * IZR (n / 2) + IZR (n mod 2)) by (rewrite D at 1; rewrite plus_IZR, mult_IZR; reflexivity).
  assert (M1 : (n mod 2 = 0 \/ n mod 2 = 1)%Z) by lia. destruct M1 as [M1|M1]; rewrite M1 in E; lra.
Qed.
Lemma cell_gpu_eq n x : cell_gpu n x = cell n x.
Proof. unfold cell_gpu, cell. now rewrite floor_half. Qed.
Lemma gamma_gpu_eq m px py pz : gamma_gpu m px py pz = gamma3 m px py pz.
Proof. unfold gamma_gpu, gamma3. f_equal. ring. Qed.

(** ** Deposition, for any order of the additions *)
Definition got (l : list (Z * R)) (z : Z) : R := fold_right (fun a s => (if (z =? fst a)%Z then snd a else 0) + s) 0 l.
Lemma got_cons i v l z : got ((i, v) :: l) z = (if (z =? i)%Z then v else 0) + got l z. Proof. reflexivity. Qed.
Lemma run_val l : forall m z, fold_left atomic_add l m z = m z + got l z.
Proof.
  induction l as [|[i v] l IH]; intros m z; cbn [fold_left]; [cbn; ring|]. rewrite IH, got_cons. unfold atomic_add. cbn [fst snd].
  destruct (z =? i)%Z; ring.
Qed.
Lemma got_perm l l' z : Permutation l l' -> got l z = got l' z.
Proof. intros P. induction P; try destruct x as [i v]; try destruct y as [i' v']; rewrite ?got_cons; lra. Qed.
Lemma got_app l l' z : got (l ++ l') z = got l z + got l' z.
Proof. induction l as [|[i v] l IH]; cbn [app]; [cbn; ring|]. rewrite !got_cons, IH. ring. Qed.
Lemma got_flat {X} (f : X -> list (Z * R)) l z : got (flat_map f l) z = sumR (map (fun p => got (f p) z) l).
Proof. induction l as [|p l IH]; [reflexivity|]. cbn [flat_map map]. rewrite got_app, IH. reflexivity. Qed.
Lemma run_adds_val o l z : Permutation l (o l) -> run_adds o l z = got l z.
Proof. intros P. unfold run_adds. rewrite run_val, (got_perm l (o l) z P). ring. Qed.
Lemma idx_inj n a b i j : (0 <= a < n)%Z -> (0 <= b < n)%Z -> (0 <= i < n)%Z -> (0 <= j < n)%Z -> (b + n * a =? idx_gpu n i j)%Z = ((a =? i) && (b =? j))%Z%bool.
Proof.
  intros Ha Hb Hi Hj. unfold idx_gpu. destruct (Z.eqb_spec a i) as [->|A].
  - cbn [andb]. destruct (Z.eqb_spec b j), (Z.eqb_spec (b + n * i) (j + n * i)); auto; lia.
  - cbn [andb]. apply Z.eqb_neq. intros E. apply A. assert (n * (a - i) = j - b)%Z by lia. assert (- n < n * (a - i) < n)%Z by lia.
    destruct (Z.lt_trichotomy (a - i) 0) as [L|[L|L]]; [|lia|].
    + assert (n * (a - i) <= n * (-1))%Z by (apply Z.mul_le_mono_nonneg_l; lia). lia.
    + assert (n * 1 <= n * (a - i))%Z by (apply Z.mul_le_mono_nonneg_l; lia). lia.
Qed.
Lemma thread_got n norm h x y v a b : norm <> 0 -> inside n h x -> inside n h y -> (0 <= a < n)%Z -> (0 <= b < n)%Z ->
  got (thread_adds n norm (x / h + 0.5) (y / h + 0.5) v) (b + n * a)%Z = v * shape n h x y a b / norm ^ 2.
Proof.
  intros Hh Ix Iy Ha Hb.
  transitivity (deposit_one n norm (x / h + 0.5) (y / h + 0.5) (fun w => v * w) zero_grid a b).
  2:{ rewrite deposit_one_val; [unfold zero_grid; rewrite Rmult_1_r; ring|exact Hh|ring|intros; ring]. }
  unfold deposit_one. cbv beta zeta.
  rewrite (outer_val _ _ (fun kx ky => v * (weight4 (loc (x / h + 0.5)) kx / norm * weight4 (loc (y / h + 0.5)) ky / norm))).
  unfold zero_grid. rewrite Rplus_0_l. unfold thread_adds. cbv beta zeta. rewrite got_flat. rewrite !cell_gpu_eq.
  assert (Cx := inside_cell n h x Ix). assert (Cy := inside_cell n h y Iy).
  set (cx := cell n (x / h + 0.5)) in *. set (cy := cell n (y / h + 0.5)) in *.
  assert (IN : forall kx, In kx places -> forall l, incl l places ->
     got (map (fun ky => (idx_gpu n (cx + kx) (cy + ky), v * (weight4_gpu (loc (x / h + 0.5)) kx / norm * weight4_gpu (loc (y / h + 0.5)) ky / norm))) l) (b + n * a)%Z =
     (if (a =? cx + kx)%Z then fold_right (fun ky s => (if (b =? cy + ky)%Z then v * (weight4 (loc (x / h + 0.5)) kx / norm * weight4 (loc (y / h + 0.5)) ky / norm) else 0) + s) 0 l else 0)).
  { intros kx Hkx. induction l as [|ky l IH]; intros Hl; [cbn; destruct (_ =? _)%Z; reflexivity|].
    cbn [map]. unfold got in *. cbn [fold_right fst snd]. rewrite IH by (intros z Hz; apply Hl; now right). assert (Hky : In ky places) by (apply Hl; now left).
    rewrite idx_inj by auto. rewrite !weight4_gpu_eq by auto. destruct (a =? cx + kx)%Z, (b =? cy + ky)%Z; cbn [andb]; ring. }
  assert (OUT : forall l, incl l places ->
    sumR (map (fun kx => got (map (fun ky => (idx_gpu n (cx + kx) (cy + ky), v * (weight4_gpu (loc (x / h + 0.5)) kx / norm * weight4_gpu (loc (y / h + 0.5)) ky / norm))) places) (b + n * a)%Z) l) =
    fold_right (fun kx s => (if (a =? cx + kx)%Z then fold_right (fun ky s => (if (b =? cy + ky)%Z then v * (weight4 (loc (x / h + 0.5)) kx / norm * weight4 (loc (y / h + 0.5)) ky / norm) else 0) + s) 0 places else 0) + s) 0 l).
  { induction l as [|kx l IH]; intros Hl; [reflexivity|]. cbn [map]. unfold sumR in *. cbn [fold_right]. rewrite IH by (intros z Hz; apply Hl; now right).
    rewrite IN by (try (apply Hl; now left); intros z Hz; exact Hz). reflexivity. }
  apply OUT. intros z Hz. exact Hz.
Qed.
(** charged particles inside the grid *)
Definition charged_inside (n : Z) (h : R) (p : pt3) : Prop := t_q p <> 0 -> inside n h (at_x p) /\ inside n h (at_y p).
Lemma adds_ro_got n h p a b : h <> 0 -> charged_inside n h p -> (0 <= a < n)%Z -> (0 <= b < n)%Z ->
  got (adds_ro n h p) (b + n * a)%Z = rho_of p * shape n h (at_x p) (at_y p) a b / h ^ 2.
Proof.
  intros Hh Hp Ha Hb. unfold adds_ro, rho_of. destruct (Req_EM_T (t_q p) 0) as [E|E]; [rewrite E; cbn; unfold Rdiv; ring|]. destruct (Hp E) as [Ix Iy].
  rewrite (thread_got n h h (at_x p) (at_y p)) by auto. rewrite gamma_gpu_eq. unfold energy3, gamma3. reflexivity.
Qed.
Lemma adds_j_got n h mom p a b : h <> 0 -> charged_inside n h p -> (0 <= a < n)%Z -> (0 <= b < n)%Z ->
  got (adds_j n h mom p) (b + n * a)%Z = rho_of p * (mom p / energy3 p) * shape n h (at_x p) (at_y p) a b / h ^ 2.
Proof.
  intros Hh Hp Ha Hb. unfold adds_j, rho_of. destruct (Req_EM_T (t_q p) 0) as [E|E]; [rewrite E; cbn; unfold Rdiv; ring|]. destruct (Hp E) as [Ix Iy].
  rewrite (thread_got n h h (at_x p) (at_y p)) by auto. rewrite gamma_gpu_eq. unfold energy3, gamma3, Rdiv. ring.
Qed.
Lemma sumR_ext {X} (f g : X -> R) l : (forall p, In p l -> f p = g p) -> sumR (map f l) = sumR (map g l).
Proof. intros H. f_equal. now apply map_ext_in. Qed.
Lemma deposit_gpu_eq o n h l a b : fair o -> h <> 0 -> (forall p, In p l -> charged_inside n h p) -> (0 <= a < n)%Z -> (0 <= b < n)%Z ->
  let g := deposit_plasma_gpu o n h l in let c := deposit_plasma n h l in
  c_ro g a b = c_ro c a b /\ c_jx g a b = c_jx c a b /\ c_jy g a b = c_jy c a b /\ c_jz g a b = c_jz c a b.
Proof.
  intros Ho Hh Hl Ha Hb g c. destruct (deposit_plasma_val n h l a b Hh) as (A & B & C & D). unfold c. rewrite A, B, C, D.
  unfold g, deposit_plasma_gpu. cbn [c_ro c_jx c_jy c_jz]. unfold as_grid.
  replace ((0 <=? a) && (a <? n) && (0 <=? b) && (b <? n))%Z%bool with true.
  2:{ symmetry. rewrite !andb_true_iff, !Z.leb_le, !Z.ltb_lt. lia. }
  rewrite !run_adds_val by apply Ho. rewrite !got_flat. unfold cell_sum.
  split; [|split; [|split]]; apply sumR_ext; intros p Hp; [apply adds_ro_got; auto|..]; rewrite adds_j_got by auto; reflexivity.
Qed.

(** ** Movement *)
Lemma fold_left_ext_in {A B} (f g : A -> B -> A) l : (forall s k, In k l -> f s k = g s k) -> forall s, fold_left f l s = fold_left g l s.
Proof. induction l as [|k l IH]; intros H s; [reflexivity|]. cbn [fold_left]. rewrite H by now left. apply IH. intros. apply H. now right. Qed.
Lemma at_flat_idx n a i j : (0 <= i < n)%Z -> (0 <= j < n)%Z -> at_flat n a (idx_gpu n i j) = a (Z.to_nat i) (Z.to_nat j).
Proof.
  intros Hi Hj. unfold at_flat, idx_gpu. f_equal; f_equal.
  - rewrite Z.mul_comm, Z.div_add by lia. rewrite Z.div_small by lia. lia.
  - rewrite Z.mul_comm, Z.mod_add by lia. apply Z.mod_small. lia.
Qed.
Lemma gather_gpu_eq n h x y a : inside n h x -> inside n h y -> gather_gpu n h x y a = gather_at n h x y a.
Proof.
  intros Ix Iy. unfold gather_gpu, gather_at, gather. cbv beta zeta. apply fold_left_ext_in. intros s kx Hkx. apply fold_left_ext_in. intros s' ky Hky.
  rewrite !cell_gpu_eq, !weight4_gpu_eq, at_flat_idx; auto; apply inside_cell; auto.
Qed.
Lemma walls_gpu_eq b x : walls_gpu b x = reflect1 b x.
Proof. unfold walls_gpu, reflect1. destruct (Rlt_dec b x); destruct (Rlt_dec _ (- b)); reflexivity. Qed.
Lemma move_free_gpu_eq X p : move_free_gpu1 X p = move_free1 X p.
Proof. unfold move_free_gpu1, move_free1. now rewrite gamma_gpu_eq. Qed.
Definition tail_gpu (b X : R) (p g : pt3) (px py pz dpx dpy dpz : R) : pt3 :=
    let gamma := gamma3 (t_m g) px py pz in
    let x_offt := t_dx p + px / (gamma - pz) * X in
    let y_offt := t_dy p + py / (gamma - pz) * X in
    let '(x, gx) := reflect1 b (t_x0 p + x_offt) in
    let '(y, gy) := reflect1 b (t_y0 p + y_offt) in
    let x_offt := if gx then x - t_x0 p else x_offt in
    let y_offt := if gy then y - t_y0 p else y_offt in
    let px := if gx || gy then 0 else t_px p + dpx in
    let py := if gx || gy then 0 else t_py p + dpy in
    let pz := if gx || gy then 0 else t_pz p + dpz in
    if (if Rle_dec b x then true else false) || (if Rle_dec x (- b) then true else false)
       || (if Rle_dec b y then true else false) || (if Rle_dec y (- b) then true else false)
    then mkT (t_x0 g) (t_y0 g) 0 0 0 0 0 0 (t_m g) (t_cx g) (t_cy g)
    else mkT (t_x0 g) (t_y0 g) x_offt y_offt px py pz (t_q g) (t_m g) (t_cx g) (t_cy g).
Lemma reflect_same b x : snd (reflect1 b x) = false -> fst (reflect1 b x) = x.
Proof. unfold reflect1. destruct (Rlt_dec b x); destruct (Rlt_dec _ (- b)); cbn [fst snd]; intros; auto; discriminate. Qed.
Lemma tail_eq b X p g px py pz d1 d2 d3 : tail_gpu b X p g px py pz d1 d2 d3 = finish3 b X p g (px, py, pz) (d1, d2, d3).
Proof.
  unfold tail_gpu, finish3, reflect_off. cbv zeta. set (gm := gamma3 _ _ _ _). set (dx := t_dx p + px / (gm - pz) * X). set (dy := t_dy p + py / (gm - pz) * X).
  assert (Sx := reflect_same b (t_x0 p + dx)). assert (Sy := reflect_same b (t_y0 p + dy)).
  destruct (reflect1 b (t_x0 p + dx)) as [x gx]. destruct (reflect1 b (t_y0 p + dy)) as [y gy]. cbn [fst snd] in *.
  assert (Ex : t_x0 p + (if gx then x - t_x0 p else dx) = x) by (destruct gx; [ring|symmetry; auto]).
  assert (Ey : t_y0 p + (if gy then y - t_y0 p else dy) = y) by (destruct gy; [ring|symmetry; auto]).
  rewrite Ex, Ey. rewrite orb_assoc. destruct (_ || _)%bool; reflexivity.
Qed.
Lemma move_smart_gpu_eq n h b X f p g :
  (t_q g <> 0 -> inside n h (fst (reflect1 b (t_x0 p + (t_dx p + t_dx g) / 2))) /\ inside n h (fst (reflect1 b (t_y0 p + (t_dy p + t_dy g) / 2)))) ->
  move_smart_gpu1 n h b X f p g = move_smart1 n h b X f p g.
Proof.
  intros HI. unfold move_smart_gpu1, move_smart1. destruct (Req_EM_T (t_q g) 0) as [Z|Z]; [reflexivity|]. specialize (HI Z).
  assert (EG : gamma_gpu = gamma3) by (do 4 (apply functional_extensionality; intros); apply gamma_gpu_eq). rewrite EG.
  assert (EW : walls_gpu = reflect1) by (do 2 (apply functional_extensionality; intros); apply walls_gpu_eq). rewrite EW. clear EG EW.
  destruct (reflect1 b (t_x0 p + (t_dx p + t_dx g) / 2)) as [x fx]. destruct (reflect1 b (t_y0 p + (t_dy p + t_dy g) / 2)) as [y fy]. cbn [fst] in HI. destruct HI as [Ix Iy].
  assert (EE : gather_gpu n h x y = gather_at n h x y) by (apply functional_extensionality; intros; now apply gather_gpu_eq). rewrite EE. clear EE.
  unfold fields_at3. cbv beta zeta.
  assert (P0 : (if (fx || fy)%bool then (0, 0, 0) else (t_px p, t_py p, t_pz p)) = (if (fx || fy)%bool then 0 else t_px p, if (fx || fy)%bool then 0 else t_py p, if (fx || fy)%bool then 0 else t_pz p)) by (destruct (fx || fy)%bool; reflexivity).
  rewrite P0. exact (tail_eq b X p g _ _ _ _ _ _).
Qed.

(** ** Noise filter *)
Lemma flat_get {T} K (a : nat -> nat -> T) i u : (u < K)%nat -> a ((i * K + u) / K)%nat ((i * K + u) mod K)%nat = a i u.
Proof.
  intros H. rewrite (Nat.add_comm (i * K)), Nat.div_add, Nat.mod_add by lia. rewrite Nat.div_small, Nat.mod_small by lia. reflexivity.
Qed.
Lemma inhom_rows_eq K a i j : (3 <= K)%nat -> (j < K)%nat -> inhom_rows K a i j = inhomogeneity1 K (a i) j.
Proof.
  intros HK Hj. unfold inhom_rows, inhomogeneity1. assert (D := fun u => flat_get K a i u). set (d := fun z => a (z / K)%nat (z mod K)%nat).
  assert (D' : forall u, (u < K)%nat -> d (i * K + u)%nat = a i u) by exact D. clearbody d. clear D. unfold inhom_thread.
  assert (M0 : ((i * K + j) mod K)%nat = j) by (rewrite Nat.add_comm, Nat.mod_add by lia; apply Nat.mod_small; lia).
  assert (M1 : ((i * K + j + 1) mod K =? 0)%nat = (j =? K - 1)%nat).
  { replace (i * K + j + 1)%nat with ((j + 1) + i * K)%nat by lia. rewrite Nat.mod_add by lia. destruct (Nat.eqb_spec j (K - 1)) as [->|N].
    - replace (K - 1 + 1)%nat with K by lia. rewrite Nat.mod_same by lia. reflexivity.
    - rewrite Nat.mod_small by lia. apply Nat.eqb_neq. lia. }
  rewrite M0, M1, D' by auto.
  destruct (Nat.eqb_spec j 0) as [->|J0]; cbn [negb andb].
  - replace (i * K + 0 + 1)%nat with (i * K + 1)%nat by lia. replace (i * K + 0 + 2)%nat with (i * K + 2)%nat by lia. rewrite !D' by lia. reflexivity.
  - destruct (Nat.eqb_spec j (K - 1)) as [->|J1]; cbn [negb andb].
    + replace (i * K + (K - 1) - 1)%nat with (i * K + (K - 2))%nat by lia. replace (i * K + (K - 1) - 2)%nat with (i * K + (K - 3))%nat by lia. rewrite !D' by lia. reflexivity.
    + replace (i * K + j - 1)%nat with (i * K + (j - 1))%nat by lia. replace (i * K + j + 1)%nat with (i * K + (j + 1))%nat by lia. rewrite !D' by lia.
      destruct (nz (a i (j - 1)%nat)), (nz (a i j)); reflexivity.
Qed.
Lemma inhomogeneity_gpu_eq K a : (3 <= K)%nat -> each K (fun i j => inhomogeneity_gpu K a i j = inhomogeneity K a i j).
Proof. intros HK i j Hi Hj. unfold inhomogeneity_gpu, inhomogeneity, transpose, ax1, ax0. rewrite !inhom_rows_eq by auto. reflexivity. Qed.
Lemma rough_gpu_ok K a : (3 <= K)%nat -> each K (fun i j => inhomogeneity_gpu K a i j = roughness K a i j).
Proof. intros HK i j Hi Hj. rewrite inhomogeneity_gpu_eq by auto. now apply rough_ok. Qed.
Lemma filter_gpu_ok average K X coef damp dmax a prev : (3 <= K)%nat -> 0 < dmax -> local K average ->
  smoothed average K X coef damp dmax prev a (noise_filter_gpu average K X coef damp dmax a prev).
Proof.
  intros HK Hd Hl. unfold smoothed. cbn zeta. intros i j Hi Hj. 
  split; [unfold same_particle; auto|]. do 4 (split; [reflexivity|]).
  set (b := noise_filter_gpu average K X coef damp dmax a prev).
  assert (CX : each K (fun i j => t_cx (b i j) = roughness K (fun i j => t_dx (a i j)) i j - average (roughness K (fun i j => t_dx (a i j))) i j)).
  { intros i' j' Hi' Hj'. unfold b, noise_filter_gpu. cbn [t_cx]. rewrite rough_gpu_ok by auto. f_equal. apply Hl; auto. now apply rough_gpu_ok. }
  assert (CY : each K (fun i j => t_cy (b i j) = roughness K (fun i j => t_dy (a i j)) i j - average (roughness K (fun i j => t_dy (a i j))) i j)).
  { intros i' j' Hi' Hj'. unfold b, noise_filter_gpu. cbn [t_cy]. rewrite rough_gpu_ok by auto. f_equal. apply Hl; auto. now apply rough_gpu_ok. }
  split; [now apply CX|]. split; [now apply CY|].
  split.
  - transitivity (t_px (a i j) + momentum_change K X coef damp dmax (fun i j => t_cx (b i j)) (fun i j => t_cx (prev i j)) (fun i j => t_cx (b i j)) (fun i j => t_cy (b i j)) i j); [reflexivity|].
    f_equal. unfold momentum_change, ax0, ax1. rewrite !handed_ok by auto. f_equal; [f_equal|]; [apply handed_ext; auto; intros; rewrite fade_limit by auto; ring|apply handed_ext; auto; intros; rewrite fade_limit by auto; ring|].
    rewrite fade_limit by auto. ring.
  - transitivity (t_py (a i j) + momentum_change K X coef damp dmax (fun i j => t_cy (b i j)) (fun i j => t_cy (prev i j)) (fun i j => t_cx (b i j)) (fun i j => t_cy (b i j)) i j); [reflexivity|].
    f_equal. unfold momentum_change, ax0, ax1. rewrite !handed_ok by auto. f_equal; [f_equal|]; [apply handed_ext; auto; intros; rewrite fade_limit by auto; ring|apply handed_ext; auto; intros; rewrite fade_limit by auto; ring|].
    rewrite fade_limit by auto. ring.
Qed.

(** ** Currents *)
Definition sorts_inside (s : solver3) (p : parts3) : Prop := of_sorts s (K_ p) (fun sort i j => charged_inside (Z.of_nat (u_n s)) (u_h s) (sort p i j)) True.
Lemma carried_gpu_ok oe oi s p : fair oe -> fair oi -> u_h s <> 0 -> sorts_inside s p -> carried_by s p (compute_rhoj_gpu oe oi (Z.of_nat (u_n s)) (u_h s) (u_ions s) p).
Proof.
  intros He Hi Hh [Pe Pi]. assert (C := carried_ok s p Hh). unfold carried_by in *. cbn zeta in *.
  assert (T : forall u v, (u < u_n s)%nat -> (v < u_n s)%nat -> forall g, In g [c_ro; c_jx; c_jy; c_jz] ->
    total3 g (compute_rhoj_gpu oe oi (Z.of_nat (u_n s)) (u_h s) (u_ions s) p) u v = total3 g (compute_rhoj3 (Z.of_nat (u_n s)) (u_h s) (u_ions s) p) u v).
  { intros u v Hu Hv g Hg. unfold total3, compute_rhoj_gpu, compute_rhoj3. cbn [r_e r_i].
    assert (IN : forall a, each (K_ p) (fun i j => charged_inside (Z.of_nat (u_n s)) (u_h s) (a i j)) -> forall q, In q (ravel (K_ p) a) -> charged_inside (Z.of_nat (u_n s)) (u_h s) q).
    { intros a Ha q Hq. apply ravel_In in Hq. destruct Hq as (i & j & Li & Lj & ->). now apply Ha. }
    assert (DE := deposit_gpu_eq oe (Z.of_nat (u_n s)) (u_h s) (ravel (K_ p) (el p)) (Z.of_nat u) (Z.of_nat v) He Hh (IN _ Pe) ltac:(lia) ltac:(lia)). cbn zeta in DE.
    f_equal.
    - cbn [In] in Hg. destruct Hg as [<-|[<-|[<-|[<-|[]]]]]; apply DE.
    - destruct (u_ions s); [reflexivity|].
      assert (DI := deposit_gpu_eq oi (Z.of_nat (u_n s)) (u_h s) (ravel (K_ p) (io p)) (Z.of_nat u) (Z.of_nat v) Hi Hh (IN _ Pi) ltac:(lia) ltac:(lia)). cbn zeta in DI.
      cbn [In] in Hg. destruct Hg as [<-|[<-|[<-|[<-|[]]]]]; apply DI. }
  destruct C as (C1 & C2 & C3 & C4).
  split; [|split; [|split]]; intros u v Hu Hv; rewrite T by (auto; cbn; auto); auto.
Qed.

(** ** One layer *)
Section Layer.
  Variables (s : solver3) (L : nat) (pad : Z).
  Hypothesis HN : u_n s = (L + 1)%nat.
  Hypothesis HL : (2 <= L)%nat.
  Hypothesis Hodd : Nat.odd (u_n s) = true.
  Hypothesis Hh : 0 < u_h s.
  Hypothesis Hpad : (3 <= pad)%Z.
  Hypothesis Hb : u_b s = wall (u_n s) (u_h s) pad.
  Hypothesis Hpos : 0 < u_b s.
  Hypothesis Hc : 0 <= u_coeff s.
  Hypothesis Hdmax : 0 < u_limit s.
  Notation n := (u_n s).
  Notation h := (u_h s).
  Notation b := (u_b s).
  Notation X := (u_xi s).
  Notation mv := (move_smart1 (Z.of_nat n) h b X).
  Notation mvg := (move_smart_gpu1 (Z.of_nat n) h b X).
  Notation calm1 := (calm1 s).
  Lemma grid_in z : - b <= z <= b -> inside (Z.of_nat n) h z.
  Proof. exact (in_grid s L pad HN HL Hodd Hh Hpad Hb z). Qed.
  Lemma mid_gpu f p g :
    (t_q g <> 0 -> - (3 * b) <= t_x0 p + (t_dx p + t_dx g) / 2 <= 5 * b /\ - (3 * b) <= t_y0 p + (t_dy p + t_dy g) / 2 <= 5 * b) ->
    mvg f p g = mv f p g.
  Proof.
    intros H. apply move_smart_gpu_eq. intros Q. destruct (H Q) as [A B]. rewrite !mirror_reflect by exact Hpos.
    split; apply grid_in; apply mirror_range; auto.
  Qed.
  Lemma gpu_first f p : calm1 p -> mvg f p (move_free1 X p) = mv f p (move_free1 X p).
  Proof.
    intros [Hm Hq]. destruct (coast_ok X p Hm) as (C1 & C2 & _ & _ & Q & _). apply mid_gpu. rewrite Q. intros Hq0. destruct (Hq Hq0) as ([W1 W2] & R1 & R2).
    rewrite C1, C2. apply Rabs_def2 in W1, W2. unfold at_x, at_y in W1, W2.
    assert (forall z c, Rabs z <= c -> - c <= z <= c) as AB by (intros z c; unfold Rabs; destruct (Rcase_abs z); lra).
    apply AB in R1, R2. lra.
  Qed.
  Lemma gpu_next f p g : same_particle p g -> (t_q g <> 0 -> within b p /\ within b g) -> mvg f p g = mv f p g.
  Proof.
    intros (S1 & S2 & S3) W. apply mid_gpu. intros Hq0. destruct (W Hq0) as [[W1 W2] [W3 W4]].
    apply Rabs_def2 in W1, W2, W3, W4. unfold at_x, at_y in *. rewrite S1 in W3. rewrite S2 in W4. lra.
  Qed.
  Lemma within_inside p : (t_q p <> 0 -> within b p) -> charged_inside (Z.of_nat n) h p.
  Proof. intros W Q. destruct (W Q) as [A B]. apply Rabs_def2 in A, B. split; apply grid_in; lra. Qed.
  Lemma three_gpu f1 f2 f3 p : calm1 p ->
    let p0 := move_free1 X p in let p1 := mv f1 p p0 in let p2 := mv f2 p p1 in let p3 := mv f3 p p2 in
    (mvg f1 p p0 = p1 /\ mvg f2 p p1 = p2 /\ mvg f3 p p2 = p3) /\
    (charged_inside (Z.of_nat n) h p1 /\ charged_inside (Z.of_nat n) h p2 /\ charged_inside (Z.of_nat n) h p3).
  Proof.
    intros C p0 p1 p2 p3. assert (C0 : coasted X p p0) by (apply coast_ok, C). 
    assert (S0 : same_particle p p0) by apply C0.
    destruct (push_after s f1 p p0 C S0) as (S1 & Q1 & W1). { intros H. assert (t_q p0 = t_q p) by apply C0. congruence. } fold p1 in S1, Q1, W1.
    destruct (push_after s f2 p p1 C S1 Q1) as (S2 & Q2 & W2). fold p2 in S2, Q2, W2.
    destruct (push_after s f3 p p2 C S2 Q2) as (S3 & Q3 & W3). fold p3 in S3, Q3, W3.
    split; [split; [now apply gpu_first|split; apply gpu_next; auto]|].
    split; [|split]; apply within_inside; intros Q; [apply W1|apply W2|apply W3]; exact Q.
  Qed.
  Lemma layer_gpu_ok o o' average rb rbp st : (forall k, fair (o k)) -> (forall k, fair (o' k)) ->
    local (K_ (fst (fst st))) average -> (u_decl s = true -> (3 <= K_ (fst (fst st)))%nat) -> calm s (fst (fst st)) ->
    layer3 average s L rb rbp st (step_gpu average o o' s rb rbp st).
  Proof.
    intros Ho Ho'. destruct st as [[pp fp] cp]. cbn [fst]. intros Hl HK [Ce Ci].
    set (rhoj := fun k => compute_rhoj_gpu (o k) (o' k) (Z.of_nat n) h (u_ions s)).
    set (p0 := move_free_gpu s pp). set (p1 := move_smart_gpu s fp pp p0).
    assert (FO : forall it c, let r := compute_fields_gpu n h X (u_coeff s) it fp rb rbp cp c in fields_of L h X (u_coeff s) it fp rb rbp cp c (fst r) (snd r)).
    { intros it c. rewrite fields_gpu_eq by lia. exact (fields_ok n L h X (u_coeff s) it fp rb rbp cp c HN HL ltac:(lra) Hc). } cbn zeta in FO.
    assert (E1 := FO fp (rhoj 0%nat p1)).
    set (r1 := compute_fields_gpu n h X (u_coeff s) fp fp rb rbp cp (rhoj 0%nat p1)) in *.
    set (p2 := move_smart_gpu s (snd r1) pp p1).
    assert (E2 := FO (snd r1) (rhoj 1%nat p2)).
    set (r2 := compute_fields_gpu n h X (u_coeff s) (snd r1) fp rb rbp cp (rhoj 1%nat p2)) in *.
    set (p3 := move_smart_gpu s (snd r2) pp p2).
    set (p4 := if u_decl s then mkP3 (K_ p3) (noise_filter_gpu average (K_ p3) X (u_force s) (u_damp s) (u_limit s) (el p3) (el pp)) (io p3) else p3).
    assert (ST : step_gpu average o o' s rb rbp (pp, fp, cp) = (p4, fst r2, rhoj 2%nat p4)).
    { unfold step_gpu. cbv zeta. fold p0. fold p1. change (compute_rhoj_gpu (o 0%nat) (o' 0%nat) (Z.of_nat n) h (u_ions s) p1) with (rhoj 0%nat p1). fold r1. fold p2.
      change (compute_rhoj_gpu (o 1%nat) (o' 1%nat) (Z.of_nat n) h (u_ions s) p2) with (rhoj 1%nat p2). fold r2. unfold p4, p3. destruct r2 as [u v]. reflexivity. }
    unfold layer3. rewrite ST. clear ST. destruct r2 as [ff fh2]. cbn [fst snd] in *. unfold p3 in *. clear p3. set (p3 := move_smart_gpu s fh2 pp p2) in *.
    exists p0, p1, p2, p3, (rhoj 0%nat p1), (rhoj 1%nat p2), (fst r1), (snd r1), fh2.
    assert (G : forall q, calm1 q -> let q0 := move_free_gpu1 X q in let q1 := mvg fp q q0 in let q2 := mvg (snd r1) q q1 in let q3 := mvg fh2 q q2 in
       (coasted X q q0 /\ Layer3D_Spec.pushed n h b X fp q q0 q1 /\ Layer3D_Spec.pushed n h b X (snd r1) q q1 q2 /\ Layer3D_Spec.pushed n h b X fh2 q q2 q3) /\
       (charged_inside (Z.of_nat n) h q1 /\ charged_inside (Z.of_nat n) h q2 /\ charged_inside (Z.of_nat n) h q3)).
    { intros q Cq. rewrite move_free_gpu_eq. destruct (three_gpu fp (snd r1) fh2 q Cq) as [(T1 & T2 & T3) I].
      assert (P := three_pushes s L pad HN HL Hodd Hh Hpad Hb Hpos fp (snd r1) fh2 q Cq). cbn zeta in *. rewrite T1, T2, T3. split; [exact P|exact I]. }
    assert (EE : each (K_ pp) _) by (intros i j Hi Hj; exact (G (el pp i j) (Ce i j Hi Hj))).
    assert (II : match u_ions s with Mobile3 => each (K_ pp) (fun i j =>
        (coasted X (io pp i j) (io p0 i j) /\ Layer3D_Spec.pushed n h b X fp (io pp i j) (io p0 i j) (io p1 i j) /\ Layer3D_Spec.pushed n h b X (snd r1) (io pp i j) (io p1 i j) (io p2 i j) /\ Layer3D_Spec.pushed n h b X fh2 (io pp i j) (io p2 i j) (io p3 i j)) /\
        (charged_inside (Z.of_nat n) h (io p1 i j) /\ charged_inside (Z.of_nat n) h (io p2 i j) /\ charged_inside (Z.of_nat n) h (io p3 i j)))
        | Background3 _ => io p0 = io pp /\ io p1 = io pp /\ io p2 = io pp /\ io p3 = io pp end).
    { clear EE. unfold p3, p2, p1, p0, move_smart_gpu, move_free_gpu, map_sorts in *. cbn [io el K_] in *. destruct (u_ions s); [auto|].
      intros i j Hi Hj. exact (G (io pp i j) (Ci i j Hi Hj)). }
    assert (S1 : sorts_inside s p1). { split; [intros i j Hi Hj; exact (proj1 (proj2 (EE i j Hi Hj)))|]. destruct (u_ions s); [exact I|]. intros i j Hi Hj. apply (II i j Hi Hj). }
    assert (S2 : sorts_inside s p2). { split; [intros i j Hi Hj; exact (proj1 (proj2 (proj2 (EE i j Hi Hj))))|]. destruct (u_ions s); [exact I|]. intros i j Hi Hj. apply (II i j Hi Hj). }
    assert (S3 : sorts_inside s p3). { split; [intros i j Hi Hj; exact (proj2 (proj2 (proj2 (EE i j Hi Hj))))|]. destruct (u_ions s); [exact I|]. intros i j Hi Hj. apply (II i j Hi Hj). }
    assert (S4 : sorts_inside s p4). { unfold p4. destruct (u_decl s); [|exact S3]. destruct S3 as [S3 S3']. split; [exact S3|exact S3']. }
    split; [|split; [|split; [|split; [|split; [|split; [|split; [|split; [|split; [|split]]]]]]]]].
    - split; [reflexivity|]. split; [intros i j Hi Hj; exact (proj1 (proj1 (EE i j Hi Hj)))|]. destruct (u_ions s); [apply II|]. intros i j Hi Hj. apply (II i j Hi Hj).
    - split; [reflexivity|]. split; [intros i j Hi Hj; exact (proj1 (proj2 (proj1 (EE i j Hi Hj))))|]. destruct (u_ions s); [apply II|]. intros i j Hi Hj. apply (II i j Hi Hj).
    - apply carried_gpu_ok; auto. lra.
    - exact E1.
    - split; [reflexivity|]. split; [intros i j Hi Hj; exact (proj1 (proj2 (proj2 (proj1 (EE i j Hi Hj)))))|]. destruct (u_ions s); [apply II|]. intros i j Hi Hj. apply (II i j Hi Hj).
    - apply carried_gpu_ok; auto. lra.
    - exact E2.
    - split; [reflexivity|]. split; [intros i j Hi Hj; exact (proj2 (proj2 (proj2 (proj1 (EE i j Hi Hj)))))|]. destruct (u_ions s); [apply II|]. intros i j Hi Hj. apply (II i j Hi Hj).
    - unfold p4. destruct (u_decl s); reflexivity.
    - unfold p4. destruct (u_decl s); [|reflexivity]. split; [|reflexivity]. cbn [el]. change (K_ p3) with (K_ pp). now apply filter_gpu_ok; auto.
    - apply carried_gpu_ok; auto. lra.
  Qed.
End Layer.

(** ** The beam density *)
Lemma beam_adds_eq n h dxi idx pl p : beam_adds n h dxi idx pl p =
  thread_adds n 1 (b_x p / h + 0.5) (b_y p / h + 0.5) (b_q p * weight1_gpu ((- dxi * IZR idx - b_xi p) / dxi) pl).
Proof. unfold beam_adds, thread_adds. cbv beta zeta. f_equal. apply functional_extensionality. intros kx. apply map_ext. intros ky. f_equal. field. Qed.
Lemma deposit_beam_gpu_eq o n h dxi idx l out a b : fair o -> h <> 0 -> (forall p, In p l -> inside n h (b_x p) /\ inside n h (b_y p)) -> (0 <= a < n)%Z -> (0 <= b < n)%Z ->
  fst (deposit_beam_gpu o n h dxi idx l out) a b = fst (deposit3 n h dxi idx l out) a b /\
  snd (deposit_beam_gpu o n h dxi idx l out) a b = snd (deposit3 n h dxi idx l out) a b.
Proof.
  intros Ho Hh Hl Ha Hb. destruct (deposit3_val n h dxi idx Hh l out a b) as [A B]. rewrite A, B. clear A B.
  unfold deposit_beam_gpu, as_grid. cbn [fst snd].
  replace ((0 <=? a) && (a <? n) && (0 <=? b) && (b <? n))%Z%bool with true.
  2:{ symmetry. rewrite !andb_true_iff, !Z.leb_le, !Z.ltb_lt. lia. }
  rewrite !run_val. rewrite <- !(got_perm _ _ _ (Ho _ _)), !got_flat.
  assert (F : forall g : grid, flatten n g (b + n * a)%Z = g a b).
  { intros g. unfold flatten. rewrite (Z.mul_comm n a), Z.div_add, Z.mod_add, Z.div_small, Z.mod_small by lia. f_equal. }
  rewrite !F. split; f_equal; apply sumR_ext; intros p Hp; destruct (Hl p Hp) as [Ix Iy]; rewrite beam_adds_eq, thread_got by (auto; lra);
  unfold dist_from_top; set (D := (- dxi * IZR idx - b_xi p) / dxi); unfold weight1_gpu; cbn [Z.eqb Pos.eqb]; field.
Qed.
