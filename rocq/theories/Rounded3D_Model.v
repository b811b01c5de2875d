(** The 3D plasma layer once more (lcode/plasma3d/{weights,rhoj,move,fields,solver,noise_filter}.py), this time with
    every arithmetic operation followed by a rounding [rnd]; [rnd] = [double] of Float_Model is binary64,
    [rnd] = the identity gives back Plasma3D_Model (Rounded3D_Proofs.exact_step).
    The operations are in the order of the source: Python evaluates a * b / c from the left; numba expands x ** 2 as
    x * x, x ** 3 as (x * x) * x and x ** 4 as (x * x) * (x * x).
    Simplifications: overflow, nan and inf are left out.  The transforms dstn, dctn, dst, dct and the averaging
    real(ifft2(fourier_gaussian(fft2(.)))) are parameters: their order of operations is scipy's. *)
From Coq Require Import Reals ZArith List Bool.
From Verif Require Import Beam2D_Model Plasma2D_Model Shape_Model Plasma3D_Model.
Import ListNotations.
Open Scope R_scope.

(** What scipy does to an array. *)
Record transforms := mkTr { tr_dst2d : arr2 -> arr2; tr_dct2d : arr2 -> arr2; tr_mix2d : arr2 -> arr2; tr_average : arr2 -> arr2 }.
(** The arrays that initialization.py:15-67 computes once. *)
Record matrices := mkMx { mx_dirichlet : arr2; mx_mixed : arr2; mx_neumann : arr2 }.

Section Rounded.
  Variable rnd : R -> R.
  Local Notation "x (+) y" := (rnd (x + y)) (at level 50, left associativity).
  Local Notation "x (-) y" := (rnd (x - y)) (at level 50, left associativity).
  Local Notation "x (.) y" := (rnd (x * y)) (at level 40, left associativity).
  Local Notation "x (/) y" := (rnd (x / y)) (at level 40, left associativity).
  Definition f2 (x : R) : R := x (.) x.
  Definition f3 (x : R) : R := f2 x (.) x.
  Definition f4 (x : R) : R := f2 x (.) f2 x.
  Definition half : R := 1 (/) 2.

  (** ** weights.py *)
  (** weights.py:13-32 *)
  Definition weight4_f (x : R) (place : Z) : R :=
    match place with
    | (-2)%Z => f4 (half (-) x) (/) 24
    | (-1)%Z => 19 (/) 96 (-) (11 (/) 24) (.) x (+) f2 x (/) 4 (+) f3 x (/) 6 (-) f4 x (/) 6
    | 0%Z => 115 (/) 192 (-) f2 x (.) 5 (/) 8 (+) f4 x (/) 4
    | 1%Z => 19 (/) 96 (+) (11 (/) 24) (.) x (+) f2 x (/) 4 (-) f3 x (/) 6 (-) f4 x (/) 6
    | 2%Z => f4 (half (+) x) (/) 24
    | _ => 0
    end.
  (** weights.py:52-55, move.py:95-98 *)
  Definition loc_f (x_h : R) : R := x_h (-) IZR (floorR x_h) (-) half.
  (** weights.py:61-67: out[ix, iy] += v *)
  Definition add_cell_f (g : grid) (ix iy : Z) (v : R) : grid :=
    fun a b => if (a =? ix)%Z then if (b =? iy)%Z then g a b (+) v else g a b else g a b.
  (** weights.py:57-67, one output array: [d] is dro, djx, djy or djz *)
  Definition deposit_one_f (n : Z) (h x_h y_h d : R) (out : grid) : grid :=
    fold_left (fun g kx =>
      let wx := weight4_f (loc_f x_h) kx (/) h in
      fold_left (fun g ky =>
        let w := wx (.) weight4_f (loc_f y_h) ky (/) h in
        add_cell_f g (cell n x_h + kx) (cell n y_h + ky) (d (.) w)) places g) places out.
  (** sqrt(m**2 + px**2 + py**2 + pz**2), weights.py:46; move.py:109, 118, 128 add pz**2 second *)
  Definition gamma_a (m px py pz : R) : R := rnd (sqrt (f2 m (+) f2 px (+) f2 py (+) f2 pz)).
  Definition gamma_b (m px py pz : R) : R := rnd (sqrt (f2 m (+) f2 pz (+) f2 px (+) f2 py)).
  (** weights.py:42-67; the positions of lines 271-274 *)
  Definition deposit_plasma_one_f (n : Z) (h : R) (o : dens3) (p : pt3) : dens3 :=
    if Req_EM_T (t_q p) 0 then o
    else
      let g := gamma_a (t_m p) (t_px p) (t_py p) (t_pz p) in
      let dro := t_q p (/) (1 (-) t_pz p (/) g) in
      let djx := t_px p (.) (dro (/) g) in let djy := t_py p (.) (dro (/) g) in let djz := t_pz p (.) (dro (/) g) in
      let x_h := (t_x0 p (+) t_dx p) (/) h (+) half in let y_h := (t_y0 p (+) t_dy p) (/) h (+) half in
      mkD3 (deposit_one_f n h x_h y_h dro (c_ro o)) (deposit_one_f n h x_h y_h djx (c_jx o))
           (deposit_one_f n h x_h y_h djy (c_jy o)) (deposit_one_f n h x_h y_h djz (c_jz o)).
  Definition deposit_plasma_f (n : Z) (h : R) (l : list pt3) : dens3 := fold_left (deposit_plasma_one_f n h) l zero_dens3.
  (** rhoj.py:14-27 *)
  Definition compute_rhoj3_f (n : Z) (h : R) (im : ions3) (ps : parts3) : cur3 :=
    mkC3 (deposit_plasma_f n h (ravel (K_ ps) (el ps)))
         (match im with
          | Background3 ro => mkD3 ro zero_grid zero_grid zero_grid
          | Mobile3 => deposit_plasma_f n h (ravel (K_ ps) (io ps))
          end).

  (** ** move.py *)
  (** move.py:29-49, one coordinate *)
  Definition reflect1_f (b x : R) : R * bool :=
    let '(x1, f1) := if Rlt_dec b x then (2 (.) b (-) x, true) else (x, false) in
    if Rlt_dec x1 (- b) then (-2 (.) b (-) x1, true) else (x1, f1).
  Definition reflect_off_f (b x0 dx : R) : R := let '(x, f) := reflect1_f b (x0 (+) dx) in if f then x (-) x0 else dx.
  (** move.py:93-106 *)
  Definition gather_at_f (n : Z) (h x y : R) (f : arr2) : R :=
    let x_h := x (/) h (+) half in let y_h := y (/) h (+) half in
    fold_left (fun s kx =>
      let wx := weight4_f (loc_f x_h) kx in
      fold_left (fun s ky =>
        let w := wx (.) weight4_f (loc_f y_h) ky in
        s (+) f (Z.to_nat (cell n x_h + kx)) (Z.to_nat (cell n y_h + ky)) (.) w) places s) places 0.
  Definition fields_at3_f (n : Z) (h x y : R) (f : fields3) : R * R * R * R * R * R :=
    let g := gather_at_f n h x y in (g (Ex f), g (Ey f), g (Ez f), g (Bx f), g (By f), g (Bz f)).
  (** move.py:109-114 = 118-123 *)
  Definition force3_f (m q X : R) (e : R * R * R * R * R * R) (p : R * R * R) : R * R * R :=
    let '(ex, ey, ez, bx, b_y, bz) := e in let '(px, py, pz) := p in
    let g := gamma_b m px py pz in
    let vx := px (/) g in let vy := py (/) g in let vz := pz (/) g in
    let f := q (.) X (/) (1 (-) pz (/) g) in
    (f (.) (ex (+) vy (.) bz (-) vz (.) b_y), f (.) (ey (-) vx (.) bz (+) vz (.) bx), f (.) (ez (+) vx (.) b_y (-) vy (.) bx)).
  Definition half_kick_f (o d : R * R * R) : R * R * R :=
    let '(ox, oy, oz) := o in let '(dx, dy, dz) := d in (ox (+) dx (/) 2, oy (+) dy (/) 2, oz (+) dz (/) 2).
  (** move.py:127-148 *)
  Definition finish3_f (b X : R) (prev full : pt3) (pm d : R * R * R) : pt3 :=
    let '(px, py, pz) := pm in let '(dpx, dpy, dpz) := d in
    let g := gamma_b (t_m full) px py pz in
    let dx := t_dx prev (+) px (/) (g (-) pz) (.) X in
    let dy := t_dy prev (+) py (/) (g (-) pz) (.) X in
    let fl := orb (snd (reflect1_f b (t_x0 prev (+) dx))) (snd (reflect1_f b (t_y0 prev (+) dy))) in
    let dx' := reflect_off_f b (t_x0 prev) dx in
    let dy' := reflect_off_f b (t_y0 prev) dy in
    let mom := fun o c => if fl then 0 else o (+) c in
    let x := t_x0 prev (+) dx' in let y := t_y0 prev (+) dy' in
    let out := orb (orb (if Rle_dec b x then true else false) (if Rle_dec x (- b) then true else false))
                   (orb (if Rle_dec b y then true else false) (if Rle_dec y (- b) then true else false)) in
    if out then mkT (t_x0 full) (t_y0 full) 0 0 0 0 0 0 (t_m full) (t_cx full) (t_cy full)
    else mkT (t_x0 full) (t_y0 full) dx' dy' (mom (t_px prev) dpx) (mom (t_py prev) dpy) (mom (t_pz prev) dpz)
             (t_q full) (t_m full) (t_cx full) (t_cy full).
  (** move.py:71-148 *)
  Definition move_smart1_f (n : Z) (h b X : R) (f : fields3) (prev full : pt3) : pt3 :=
    if Req_EM_T (t_q full) 0 then full
    else
      let '(x, fx) := reflect1_f b (t_x0 prev (+) (t_dx prev (+) t_dx full) (/) 2) in
      let '(y, fy) := reflect1_f b (t_y0 prev (+) (t_dy prev (+) t_dy full) (/) 2) in
      let o := (t_px prev, t_py prev, t_pz prev) in
      let p0 := if orb fx fy then (0, 0, 0) else o in
      let e := fields_at3_f n h x y f in
      let pm1 := half_kick_f o (force3_f (t_m full) (t_q full) X e p0) in
      let d := force3_f (t_m full) (t_q full) X e pm1 in
      finish3_f b X prev full (half_kick_f o d) d.
  (** move.py:152-165 *)
  Definition move_free1_f (X : R) (p : pt3) : pt3 :=
    if Req_EM_T (t_m p) 0 then p
    else
      let g := gamma_b (t_m p) (t_px p) (t_py p) (t_pz p) in
      mkT (t_x0 p) (t_y0 p) (t_dx p (+) t_px p (/) (g (-) t_pz p) (.) X) (t_dy p (+) t_py p (/) (g (-) t_pz p) (.) X)
          (t_px p) (t_py p) (t_pz p) (t_q p) (t_m p) (t_cx p) (t_cy p).

  (** ** fields.py *)
  Variables (tr : transforms) (mx : matrices).
  Definition times_f (a b : arr2) : arr2 := fun i j => a i j (.) b i j.
  (** fields.py:264-275 *)
  Definition sum_sorts_f (c : cur3) : curs :=
    let s := fun f : dens3 -> grid => fun i j => to_arr2 (f (r_e c)) i j (+) to_arr2 (f (r_i c)) i j in
    mkCs (s c_ro) (s c_jx) (s c_jy) (s c_jz).
  (** fields.py:113-143 *)
  Definition calculate_Ez_f (N : nat) (h : R) (c : curs) : arr2 :=
    let rhs := fun i j => - ((s_jx c (i + 2)%nat (j + 1)%nat (-) s_jx c i (j + 1)%nat)
                             (+) (s_jy c (i + 1)%nat (j + 2)%nat (-) s_jy c (i + 1)%nat j)) (/) (h (.) 2) in
    pad N (tr_dst2d tr (times_f (tr_dst2d tr rhs) (mx_dirichlet mx))).
  (** fields.py:146-164 *)
  Definition calculate_Phi_f (N : nat) (c : curs) : arr2 :=
    let rhs := inner (fun i j => s_ro c i j (-) s_jz c i j) in
    pad N (tr_dst2d tr (times_f (tr_dst2d tr rhs) (mx_dirichlet mx))).
  (** fields.py:169-178 *)
  Definition d_dx_f (N : nat) (h : R) (a : arr2) : arr2 := fun i j =>
    on_inner N (fun i j => a (i + 1)%nat j (-) a (i - 1)%nat j) i j (/) (h (.) 2).
  Definition d_dy_f (N : nat) (h : R) (a : arr2) : arr2 := fun i j =>
    on_inner N (fun i j => a i (j + 1)%nat (-) a i (j - 1)%nat) i j (/) (h (.) 2).
  (** fields.py:223-235 *)
  Definition solve_mixed_f (N : nat) (rhs : arr2) : arr2 :=
    pad_rows N (tr_mix2d tr (times_f (mx_mixed mx) (tr_mix2d tr (inner_rows rhs)))).
  (** fields.py:181-239 *)
  Definition calculate_Ex_Ey_Bx_By_f (N : nat) (h X coeff : R) (f : fields3) (rb_full rb_prev : arr2) (cf cp : curs) : arr2 * arr2 * arr2 * arr2 :=
    let ro_half := fun i j => (s_ro cf i j (+) rb_full i j (+) s_ro cp i j (+) rb_prev i j) (/) 2 in
    let jz_half := fun i j => (s_jz cf i j (+) rb_full i j (+) s_jz cp i j (+) rb_prev i j) (/) 2 in
    let djx_dxi := fun i j => (s_jx cp i j (-) s_jx cf i j) (/) X in
    let djy_dxi := fun i j => (s_jy cp i j (-) s_jy cf i j) (/) X in
    let ex := fun i j => - (d_dx_f N h ro_half i j (-) djx_dxi i j (-) coeff (.) Ex f i j) in
    let ey := fun i j => - (d_dy_f N h ro_half i j (-) djy_dxi i j (-) coeff (.) Ey f i j) in
    let bx := fun i j => d_dy_f N h jz_half i j (-) djy_dxi i j (+) coeff (.) Bx f i j in
    let b_y := fun i j => - (d_dx_f N h jz_half i j (-) djx_dxi i j (-) coeff (.) By f i j) in
    (transpose (solve_mixed_f N (transpose ex)), solve_mixed_f N ey,
     solve_mixed_f N bx, transpose (solve_mixed_f N (transpose b_y))).
  (** Bz.mean(): numpy adds pairwise; the order is a parameter of no theorem here (a left-to-right sum is used) *)
  Fixpoint sum_f (n : nat) (f : arr) : R := match n with O => 0 | S n' => sum_f n' f (+) f n' end.
  Definition mean2_f (N : nat) (a : arr2) : R := sum_f N (fun i => sum_f N (fun j => a i j)) (/) (INR N * INR N).
  (** fields.py:242-283 *)
  Definition calculate_Bz_f (N : nat) (h : R) (c : curs) : arr2 :=
    let djx_dy := pad N (fun i j => s_jx c (i + 1)%nat (j + 2)%nat (-) s_jx c (i + 1)%nat j) in
    let djy_dx := pad N (fun i j => s_jy c (i + 2)%nat (j + 1)%nat (-) s_jy c i (j + 1)%nat) in
    let rhs := fun i j => - (djx_dy i j (-) djy_dx i j) (/) (h (.) 2) in
    let bz := tr_dct2d tr (times_f (tr_dct2d tr rhs) (mx_neumann mx)) in
    fun i j => bz i j (-) mean2_f N bz.
  (** fields.py:294-346: (full, half) *)
  Definition compute_fields3_f (N : nat) (h X coeff : R) (f fprev : fields3) (rb_full rb_prev : arr2) (cprev cfull : cur3) : fields3 * fields3 :=
    let cf := sum_sorts_f cfull in let cp := sum_sorts_f cprev in
    let '(ex, ey, bx, b_y) := calculate_Ex_Ey_Bx_By_f N h X coeff f rb_full rb_prev cf cp in
    let full := fun half prev : arr2 => fun i j => 2 (.) half i j (-) prev i j in
    let ez := calculate_Ez_f N h cf in let bz := calculate_Bz_f N h cf in let phi := calculate_Phi_f N cf in
    (mkF3 (full ex (Ex fprev)) (full ey (Ey fprev)) ez (full bx (Bx fprev)) (full b_y (By fprev)) bz phi,
     mkF3 ex ey (fun i j => (ez i j (+) Ez fprev i j) (/) 2) bx b_y (fun i j => (bz i j (+) Bz fprev i j) (/) 2) phi).

  (** ** noise_filter.py *)
  (** noise_filter.py:55-77, 126 *)
  Definition inhomogeneity1_f (K : nat) (d : arr) : arr := fun j =>
    if (j =? 0)%nat then if nz (d 0%nat) && nz (d 1%nat) && nz (d 2%nat) then d 0%nat (-) 2 (.) d 1%nat (+) d 2%nat else 0
    else if (j =? K - 1)%nat then
      if nz (d (K - 1)%nat) && nz (d (K - 2)%nat) && nz (d (K - 3)%nat) then d (K - 1)%nat (-) 2 (.) d (K - 2)%nat (+) d (K - 3)%nat else 0
    else if nz (d j) && nz (d (j - 1)%nat) && nz (d (j + 1)%nat) then d j (-) (d (j - 1)%nat (+) d (j + 1)%nat) (/) 2 else 0.
  Definition inhomogeneity_f (K : nat) (a : arr2) : arr2 := fun i j =>
    (ax1 (inhomogeneity1_f K) a i j (+) ax0 (inhomogeneity1_f K) a i j) (/) 2.
  (** noise_filter.py:166-168 *)
  Definition d_limit_f (dmax cx cy : R) : R :=
    let d := cx (.) cx (+) cy (.) cy in if Rlt_dec d (f2 dmax) then 1 (-) d (/) f2 dmax else 0.
  (** noise_filter.py:171-172, 207-221: the seven in-place additions to px[i, j] (py[i, j]) *)
  Definition kicked_f (K : nat) (X coef damp dmax : R) (c c_prev cx cy : arr2) (p : R) (i j : nat) : R :=
    let lim := fun i j => d_limit_f dmax (cx i j) (cy i j) in
    let w := fun i j => X (.) (- coef (.) c i j (.) lim i j) in
    let p1 := if (1 <=? i)%nat && (i <? K - 1)%nat then p (+) w i j (/) 2 else p in
    let p2 := if (2 <=? i)%nat && (i <? K)%nat then p1 (-) w (i - 1)%nat j (/) 4 else p1 in
    let p3 := if (i <? K - 2)%nat then p2 (-) w (i + 1)%nat j (/) 4 else p2 in
    let p4 := if (1 <=? j)%nat && (j <? K - 1)%nat then p3 (+) w i j (/) 2 else p3 in
    let p5 := if (2 <=? j)%nat && (j <? K)%nat then p4 (-) w i (j - 1)%nat (/) 4 else p4 in
    let p6 := if (j <? K - 2)%nat then p5 (-) w i (j + 1)%nat (/) 4 else p5 in
    p6 (-) X (.) damp (.) lim i j (.) (c i j (-) c_prev i j).
  Definition noise_filter_f (K : nat) (X coef damp dmax : R) (a prev : nat -> nat -> pt3) : nat -> nat -> pt3 :=
    let dx := inhomogeneity_f K (fun i j => t_dx (a i j)) in let dy := inhomogeneity_f K (fun i j => t_dy (a i j)) in
    let ax := tr_average tr dx in let ay := tr_average tr dy in
    let cx := fun i j => dx i j (-) ax i j in let cy := fun i j => dy i j (-) ay i j in
    fun i j => let p := a i j in
      mkT (t_x0 p) (t_y0 p) (t_dx p) (t_dy p)
          (kicked_f K X coef damp dmax cx (fun i j => t_cx (prev i j)) cx cy (t_px p) i j)
          (kicked_f K X coef damp dmax cy (fun i j => t_cy (prev i j)) cx cy (t_py p) i j)
          (t_pz p) (t_q p) (t_m p) (cx i j) (cy i j).

  (** ** solver.py *)
  Definition move_free_f (s : solver3) (ps : parts3) : parts3 :=
    map_sorts (u_ions s) (fun a i j => move_free1_f (u_xi s) (a i j)) ps.
  Definition move_smart_f (s : solver3) (f : fields3) (prev full : parts3) : parts3 :=
    let mv := fun a b : nat -> nat -> pt3 => fun i j => move_smart1_f (Z.of_nat (u_n s)) (u_h s) (u_b s) (u_xi s) f (a i j) (b i j) in
    mkP3 (K_ full) (mv (el prev) (el full)) (match u_ions s with Background3 _ => io full | Mobile3 => mv (io prev) (io full) end).
  (** solver.py:28-77 *)
  Definition step_dxi3_f (s : solver3) (rb_full rb_prev : arr2) (st : state3) : state3 :=
    let '(pp, fp, cp) := st in
    let rhoj := compute_rhoj3_f (Z.of_nat (u_n s)) (u_h s) (u_ions s) in
    let flds := fun f c => compute_fields3_f (u_n s) (u_h s) (u_xi s) (u_coeff s) f fp rb_full rb_prev cp c in
    let p1 := move_smart_f s fp pp (move_free_f s pp) in
    let fh1 := snd (flds fp (rhoj p1)) in
    let p2 := move_smart_f s fh1 pp p1 in
    let '(ff, fh2) := flds fh1 (rhoj p2) in
    let p3 := move_smart_f s fh2 pp p2 in
    let p4 := if u_decl s
              then mkP3 (K_ p3) (noise_filter_f (K_ p3) (u_xi s) (u_force s) (u_damp s) (u_limit s) (el p3) (el pp)) (io p3) else p3 in
    (p4, ff, rhoj p4).
  (** One layer after another; each with the beam's charge on it and on the layer before it. *)
  Fixpoint run3_f (s : solver3) (beams : list (arr2 * arr2)) (st : state3) : state3 :=
    match beams with [] => st | (rf, rp) :: l => run3_f s l (step_dxi3_f s rf rp st) end.

  (** ** initialization.py:278-408, from the particles that make_plasma_single returns: their positions (x_init,
      y_init), charges and masses *)
  Definition init_plasma_f (n : Z) (h : R) (K : nat) (x0 y0 q m : arr2) (mobile : bool) (ion_mass : R) : state3 * ions3 :=
    let e := fun i j => mkT (x0 i j) (y0 i j) 0 0 0 0 0 (q i j) (m i j) 0 0 in
    let ions := fun i j => mkT (x0 i j) (y0 i j) 0 0 0 0 0 (- q i j) (ion_mass (.) m i j) 0 0 in
    if mobile then ((mkP3 K e ions, zero_fields3, zero_cur3), Mobile3)
    else ((mkP3 K e e, zero_fields3, zero_cur3),
          Background3 (fun a b => - c_ro (deposit_plasma_f n h (ravel K e)) a b)).
  (** initialization.py:72-104: coordinate number k of the grid for a whole fineness; the negative half is the
      positive one reversed with the sign changed *)
  Definition plasma_grid_f (steps : Z) (h : R) (f : nat) (k : nat) : R :=
    let half := (Z.to_nat (steps / 2) * f)%nat in
    let step := h (/) INR f in
    if Nat.odd f then
      if (half - 1 <=? k)%nat then INR (k - (half - 1)) (.) step else - (INR (half - 1 - k) (.) step)
    else if (half <=? k)%nat then (0.5 + INR (k - half)) (.) step else - ((0.5 + INR (half - 1 - k)) (.) step).
  (** move.py:321 *)
  Definition wall_f (N : nat) (h : R) (bound_padding : Z) : R := h (.) (INR N (/) 2 (-) IZR bound_padding).
End Rounded.
