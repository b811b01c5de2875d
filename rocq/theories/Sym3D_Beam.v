(** Lemmas for C58: the 3D beam code commutes with exchanging the axes (on the GPU). *)
From Coq Require Import Reals ZArith List Bool Lra Lia FunctionalExtensionality.
From Verif Require Import Beam2D_Model Shape_Model Shape_Spec Shape_Proofs Beam3D_Model Sym3D_Spec.
Import ListNotations.
Open Scope R_scope.

Ltac fext := repeat (apply functional_extensionality; intro).
Definition swap_vec (v : vec) : vec := (vy v, vx v, vz v).
Definition swap_ax (v : vec) : vec := (- vy v, - vx v, - vz v).
Lemma gam_swap qm px py pz : gam qm py px pz = gam qm px py pz.
Proof. unfold gam. f_equal. ring. Qed.

(** ** Deposition *)
Lemma deposit_one_swap n h x y q c g :
  deposit_one n 1 (y / h + 0.5) (x / h + 0.5) (fun w => q * (w * c)) (swap_grid g) =
  swap_grid (deposit_one n 1 (x / h + 0.5) (y / h + 0.5) (fun w => q * (w * c)) g).
Proof. fext. unfold swap_grid. rewrite !deposit_one_val; [|lra|ring|intros; ring|lra|ring|intros; ring]. unfold shape. f_equal. f_equal. ring. Qed.
Definition swap2 (o : grid * grid) : grid * grid := (swap_grid (fst o), swap_grid (snd o)).
Lemma deposit3_swap n h dxi idx l : forall o, deposit3 n h dxi idx (map swap_b l) (swap2 o) = swap2 (deposit3 n h dxi idx l o).
Proof.
  induction l as [|p l IH]; intros o; [reflexivity|]. unfold deposit3 in *. cbn [map fold_left]. rewrite <- IH. f_equal.
  unfold swap2. cbn [fst snd swap_b b_q b_xi b_x b_y]. now rewrite !deposit_one_swap.
Qed.
Lemma layout3_swap n h dxi rho l idx : layout3 n h dxi (swap_grid rho) (map swap_b l) idx = swap2 (layout3 n h dxi rho l idx).
Proof.
  unfold layout3. destruct l as [|p l]; [reflexivity|]. cbn [map]. change (swap_b p :: map swap_b l) with (map swap_b (p :: l)).
  change (swap_grid rho, zero_grid) with (swap2 (rho, zero_grid)). rewrite deposit3_swap. destruct (deposit3 n h dxi idx (p :: l) (rho, zero_grid)). reflexivity.
Qed.
(** ** Source *)
Lemma filter_map_len {X} (f : X -> X) (g : X -> bool) l : (forall p, g (f p) = g p) -> List.length (filter g (map f l)) = List.length (filter g l).
Proof. intros H. induction l as [|p l IH]; [reflexivity|]. cbn. rewrite H. destruct (g p); cbn; auto. Qed.
Lemma get_layer_swap dxi src i : get_layer3 dxi (map swap_b src) i = (map swap_b (fst (get_layer3 dxi src i)), map swap_b (snd (get_layer3 dxi src i))).
Proof. unfold get_layer3. cbn [fst snd]. rewrite filter_map_len by reflexivity. now rewrite firstn_map, skipn_map. Qed.
(** ** Mover *)
Lemma start3_swap hv e ts p : start3 hv e ts (swap_b p) = option_map swap_b (start3 hv e ts p).
Proof. unfold start3. cbn [swap_b b_qm b_pz b_xi b_x b_y b_px b_py b_q b_id]. destruct (halve_loop _ _ _); reflexivity. Qed.
Lemma map_opt_swap {X Y} (f : X -> option Y) (a : X -> X) (b : Y -> Y) l : (forall p, f (a p) = option_map b (f p)) ->
  map_opt f (map a l) = option_map (map b) (map_opt f l).
Proof.
  intros H. induction l as [|p l IH]; [reflexivity|]. cbn [map map_opt]. rewrite H. destruct (f p) as [y|]; [|reflexivity]. cbn [option_map bind].
  rewrite IH. destruct (map_opt f l); reflexivity.
Qed.
Lemma start_layer_swap hv e ts l k : start_layer3 hv e ts (map swap_b l) k = option_map (map swap_b) (start_layer3 hv e ts l k).
Proof.
  unfold start_layer3. rewrite map_length, firstn_map, (map_opt_swap _ swap_b swap_b) by apply start3_swap.
  destruct (map_opt _ _); [|reflexivity]. cbn [option_map]. now rewrite skipn_map, map_app.
Qed.
Lemma half3_swap p : half3 (swap_b p) = swap_vec (half3 p).
Proof. unfold half3, swap_vec, vx, vy, vz. cbn [fst snd swap_b b_qm b_px b_py b_pz b_x b_y b_xi b_dt]. now rewrite gam_swap. Qed.
Lemma interp_swap c xi_k x y z f g : interp3 c xi_k y x z (swap_grid f) (swap_grid g) = interp3 c xi_k x y z f g.
Proof. unfold interp3. rewrite !gather_val by (intros; ring). unfold swap_grid, places. cbn [fold_right]. ring. Qed.
Lemma interp_ax c xi_k x y z f g : interp3 c xi_k y x z (swap_axial_grid f) (swap_axial_grid g) = - interp3 c xi_k x y z f g.
Proof. unfold interp3. rewrite !gather_val by (intros; ring). unfold swap_axial_grid, places. cbn [fold_right]. ring. Qed.
Definition swap_eb (eb : vec * vec) : vec * vec := (swap_vec (fst eb), swap_ax (snd eb)).
Lemma fields_at_swap c idx h fk fk1 : fields_at c idx (swap_vec h) (swap_bfields fk) (swap_bfields fk1) = swap_eb (fields_at c idx h fk fk1).
Proof.
  unfold fields_at, swap_eb, swap_vec, swap_ax, vx, vy, vz, swap_bfields. cbn [fst snd Ex Ey Ez Bx By Bz]. now rewrite !interp_swap, !interp_ax.
Qed.
Lemma cpu_swap p eb : update_cpu (swap_b p) (swap_eb eb) = (swap_vec (fst (update_cpu p eb)), swap_vec (snd (update_cpu p eb))).
Proof.
  destruct eb as [[[ex ey] ez] [[bx bw] bz]]. unfold update_cpu, swap_eb, swap_vec, swap_ax, vx, vy, vz. cbn [fst snd swap_b b_qm b_px b_py b_pz b_x b_y b_xi b_dt].
  rewrite gam_swap. set (g := gam _ _ _ _). set (s := Rsgn _ * _ / 2).
  set (hx := b_px p + s * (ex + b_py p / g * bz - b_pz p / g * bw)).
  set (hy := b_py p + s * (ey + b_pz p / g * bx - b_px p / g * bz)).
  set (hz := b_pz p + s * (ez + b_px p / g * bw - b_py p / g * bx)).
  replace (b_py p + s * (ey + b_px p / g * - bz - b_pz p / g * - bx)) with hy by (unfold hy; ring).
  replace (b_px p + s * (ex + b_pz p / g * - bw - b_py p / g * - bz)) with hx by (unfold hx; ring).
  replace (b_pz p + s * (ez + b_py p / g * - bx - b_px p / g * - bw)) with hz by (unfold hz; ring).
  now rewrite gam_swap.
Qed.
Lemma hc_gamma_swap qm pm b : hc_gamma qm (swap_vec pm) (swap_ax b) = hc_gamma qm pm b.
Proof.
  destruct pm as [[px py] pz], b as [[bx bw] bz]. unfold hc_gamma, swap_vec, swap_ax, vx, vy, vz. cbn [fst snd]. rewrite gam_swap.
  set (g := gam qm px py pz). 
  replace (- bw * - bw + - bx * - bx + - bz * - bz) with (bx * bx + bw * bw + bz * bz) by ring.
  replace (- bw * py + - bx * px + - bz * pz) with (- (bx * px + bw * py + bz * pz)) by ring.
  do 4 f_equal. ring.
Qed.
Lemma hc_rotate_swap pm t : hc_rotate (swap_vec pm) (swap_ax t) = swap_vec (hc_rotate pm t).
Proof.
  destruct pm as [[px py] pz], t as [[tx ty] tz]. unfold hc_rotate, swap_vec, swap_ax, vx, vy, vz. cbn [fst snd].
  replace (1 + - ty * - ty + - tx * - tx + - tz * - tz) with (1 + tx * tx + ty * ty + tz * tz) by ring.
  replace (1 - - ty * - ty - - tx * - tx - - tz * - tz) with (1 - tx * tx - ty * ty - tz * tz) by ring.
  set (tp := 1 + _ + _ + _). set (tm := 1 - _ - _ - _). f_equal; [f_equal|]; unfold Rdiv; ring.
Qed.
Lemma gpu_swap p eb : update_gpu (swap_b p) (swap_eb eb) = (swap_vec (fst (update_gpu p eb)), swap_vec (snd (update_gpu p eb))).
Proof.
  destruct eb as [e b]. unfold update_gpu, swap_eb. cbn [fst snd]. rewrite half3_swap. change (b_qm (swap_b p)) with (b_qm p). change (b_dt (swap_b p)) with (b_dt p).
  set (s := Rsgn _ * _ / 2). set (pm := (b_px p + s * vx e, b_py p + s * vy e, b_pz p + s * vz e)).
  change (b_px (swap_b p) + s * vx (swap_vec e), b_py (swap_b p) + s * vy (swap_vec e), b_pz (swap_b p) + s * vz (swap_vec e)) with (swap_vec pm).
  replace (s * vx (swap_ax b), s * vy (swap_ax b), s * vz (swap_ax b)) with (swap_ax (s * vx b, s * vy b, s * vz b))
    by (unfold swap_ax, vx, vy, vz; cbn [fst snd]; f_equal; [f_equal|]; ring).
  set (bb := (s * vx b, s * vy b, s * vz b)). rewrite hc_gamma_swap. set (g := hc_gamma _ pm bb).
  replace (vx (swap_ax bb) / g, vy (swap_ax bb) / g, vz (swap_ax bb) / g) with (swap_ax (vx bb / g, vy bb / g, vz bb / g))
    by (unfold swap_ax, vx, vy, vz; cbn [fst snd]; f_equal; [f_equal|]; unfold Rdiv; ring).
  rewrite hc_rotate_swap. set (r := hc_rotate pm _). clearbody r.
  unfold swap_vec, vx, vy, vz. cbn [fst snd]. now rewrite gam_swap.
Qed.
Lemma update_swap u p eb : update u (swap_b p) (swap_eb eb) = (swap_vec (fst (update u p eb)), swap_vec (snd (update u p eb))).
Proof. destruct u; [apply cpu_swap|apply gpu_swap]. Qed.
Lemma lost_swap x y r : is_lost3 y x r = is_lost3 x y r.
Proof. unfold is_lost3. now rewrite Rplus_comm. Qed.
Lemma loop3_swap u c idx fk fk1 steps : forall p,
  loop3 u c idx (swap_bfields fk) (swap_bfields fk1) steps (swap_b p) =
  let '(q, lost, fell) := loop3 u c idx fk fk1 steps p in (swap_b q, lost, fell).
Proof.
  induction steps as [|k IH]; intros p; [reflexivity|]. cbn [loop3]. rewrite half3_swap. destruct (half3 p) as [[hx hy] hz].
  unfold swap_vec at 1. cbn [vx vy vz fst snd]. destruct (not_in_layer hz _); [reflexivity|]. rewrite lost_swap. destruct (is_lost3 hx hy (lost_radius c)); [reflexivity|].
  change (hy, hx, hz) with (swap_vec (hx, hy, hz)). rewrite fields_at_swap, update_swap.
  destruct (update u p (fields_at c idx (hx, hy, hz) fk fk1)) as [p' x']. cbn [fst snd].
  replace (is_lost3 (vx (swap_vec x')) (vy (swap_vec x')) (lost_radius c)) with (is_lost3 (vx x') (vy x') (lost_radius c)) by (rewrite <- lost_swap; reflexivity).
  destruct (is_lost3 (vx x') (vy x') (lost_radius c)); [reflexivity|].
  rewrite <- IH. reflexivity.
Qed.
Lemma move_one_swap c idx fk fk1 p :
  move_one3 GPU c idx (swap_bfields fk) (swap_bfields fk1) (swap_b p) =
  (swap_b (fst (move_one3 GPU c idx fk fk1 p)), snd (move_one3 GPU c idx fk fk1 p)).
Proof.
  unfold move_one3. change (b_rem (swap_b p)) with (b_rem p). rewrite loop3_swap. destruct (loop3 GPU c idx fk fk1 (b_rem p) p) as [[q lost] fell]. reflexivity.
Qed.
Lemma filter_fst_swap {F} (g : F -> bool) (r : list (part3 * F)) :
  map fst (filter (fun x => g (snd x)) (map (fun x => (swap_b (fst x), snd x)) r)) = map swap_b (map fst (filter (fun x => g (snd x)) r)).
Proof. induction r as [|[p f] r IH]; [reflexivity|]. cbn. destruct (g f); cbn; now rewrite IH. Qed.
Lemma move_layer_swap hv c l k i fk fk1 :
  move_layer3 GPU hv c (map swap_b l) k i (swap_bfields fk) (swap_bfields fk1) =
  option_map (fun r => let '(a, b, d) := r in (map swap_b a, map swap_b b, map swap_b d)) (move_layer3 GPU hv c l k i fk fk1).
Proof.
  unfold move_layer3. rewrite start_layer_swap. destruct (start_layer3 hv (c_energy c) (c_time_step c) l k) as [l'|]; [|reflexivity]. cbn [option_map].
  f_equal. rewrite map_map.
  assert (E : map (fun x => move_one3 GPU c (i - 1) (swap_bfields fk) (swap_bfields fk1) (swap_b x)) l' =
              map (fun x => (swap_b (fst x), snd x)) (map (move_one3 GPU c (i - 1) fk fk1) l')).
  { rewrite map_map. apply map_ext. intros. apply move_one_swap. }
  rewrite E. set (r := map (move_one3 GPU c (i - 1) fk fk1) l').
  rewrite (filter_fst_swap (fun f : bool * bool * bool => fst (fst f))), (filter_fst_swap (fun f : bool * bool * bool => snd (fst f))), (filter_fst_swap (fun f : bool * bool * bool => snd f)).
  reflexivity.
Qed.
Section Run.
  Variable Pl : Type.
  Variable plasma plasma' : Pl -> grid -> grid -> Pl.
  Variable pl_fields : Pl -> fields3.
  Variable sw : Pl -> Pl.
  Hypothesis plasma_sw : forall s a b, plasma' (sw s) (swap_grid a) (swap_grid b) = sw (plasma s a b).
  Hypothesis fields_sw : forall s, pl_fields (sw s) = swap_bfields (pl_fields s).
  Lemma iter3_swap hv c i s :
    iter3 Pl plasma' pl_fields GPU hv c i (swap_run sw s) = option_map (swap_run sw) (iter3 Pl plasma pl_fields GPU hv c i s).
  Proof.
    unfold iter3. cbn [swap_run s_src s_move s_fell s_lost s_drain s_rho s_prev s_pl]. rewrite get_layer_swap.
    destruct (get_layer3 (c_dxi c) (s_src Pl s) i) as [layer src']. cbn [fst snd]. rewrite layout3_swap.
    destruct (layout3 (c_n c) (c_h c) (c_dxi c) (s_rho Pl s) layer i) as [rho rho']. unfold swap2. cbn [fst snd].
    rewrite plasma_sw, !fields_sw, move_layer_swap.
    destruct (move_layer3 GPU hv c (s_move Pl s) (s_fell Pl s) i _ _) as [[[lost moved] fell]|]; [|reflexivity]. cbn [option_map]. f_equal.
    unfold swap_run, push_layer3. cbn [s_src s_move s_fell s_lost s_drain s_rho s_prev s_pl]. rewrite !map_app, map_length. reflexivity.
  Qed.
  Lemma run3_swap hv c n : forall i s,
    run3 Pl plasma' pl_fields GPU hv c n i (swap_run sw s) = option_map (swap_run sw) (run3 Pl plasma pl_fields GPU hv c n i s).
  Proof.
    induction n as [|n IH]; intros i s; [reflexivity|]. cbn [run3]. rewrite iter3_swap. destruct (iter3 Pl plasma pl_fields GPU hv c i s); [apply IH|reflexivity].
  Qed.
End Run.
