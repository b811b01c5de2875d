(** Model of the 3D (Cartesian) plasma code: lcode/plasma3d/{weights,rhoj,move,fields,solver,
    initialization,noise_filter}.py.

    Simplifications: floats are exact reals (no rounding, overflow or NaN); a 2D array is a function
    of its two indices together with its size; that the indices used by deposition and
    interpolation are inside is proved separately (C30, C31).  The CPU kernels are modelled here; the CUDA
    texts and the FFT-based transforms of the GPU are modelled in Gpu_Model.  scipy.fftpack's dst and
    dct of type 1 are taken at their documented definition.  numpy's fft2 / ifft2 and scipy.ndimage.fourier_gaussian are taken at their
    documented definition too. *)
From Coq Require Import Reals ZArith List Bool.
From Verif Require Import Beam2D_Model Plasma2D_Model Shape_Model.
Import ListNotations.
Open Scope R_scope.

Definition arr2 := nat -> nat -> R.
Definition zeros2 : arr2 := fun _ _ => 0.

(** One plasma particle: initial position, offset, momentum, charge, mass, and the chaotic
    displacement of the last layer (noise filter). *)
Record pt3 := mkT { t_x0 : R; t_y0 : R; t_dx : R; t_dy : R; t_px : R; t_py : R; t_pz : R; t_q : R; t_m : R;
                    t_cx : R; t_cy : R }.

(** ** weights.py *)
Definition gamma3 (m px py pz : R) : R := sqrt (m ^ 2 + px ^ 2 + py ^ 2 + pz ^ 2).
Record dens3 := mkD3 { c_ro : grid; c_jx : grid; c_jy : grid; c_jz : grid }.
Definition zero_dens3 : dens3 := mkD3 zero_grid zero_grid zero_grid zero_grid.
(** weights.py:43-67: one particle; x_h = (x_init + x_offt) / grid_step_size + 0.5 (lines 241-244) *)
Definition deposit_plasma_one (n : Z) (h : R) (o : dens3) (p : pt3) : dens3 :=
  if Req_EM_T (t_q p) 0 then o
  else
    let g := gamma3 (t_m p) (t_px p) (t_py p) (t_pz p) in
    let dro := t_q p / (1 - t_pz p / g) in
    let djx := t_px p * (dro / g) in let djy := t_py p * (dro / g) in let djz := t_pz p * (dro / g) in
    let x_h := (t_x0 p + t_dx p) / h + 0.5 in let y_h := (t_y0 p + t_dy p) / h + 0.5 in
    mkD3 (deposit_one n h x_h y_h (fun w => dro * w) (c_ro o)) (deposit_one n h x_h y_h (fun w => djx * w) (c_jx o))
         (deposit_one n h x_h y_h (fun w => djy * w) (c_jy o)) (deposit_one n h x_h y_h (fun w => djz * w) (c_jz o)).
Definition deposit_plasma (n : Z) (h : R) (l : list pt3) : dens3 := fold_left (deposit_plasma_one n h) l zero_dens3.
(** .ravel() of a K x K array *)
Definition ravel {X} (K : nat) (a : nat -> nat -> X) : list X :=
  flat_map (fun i => map (fun j => a i j) (seq 0 K)) (seq 0 K).

(** ** rhoj.py:14-27, weights.py:216-262: row 0 electrons, row 1 ions *)
Record cur3 := mkC3 { r_e : dens3; r_i : dens3 }.
Record parts3 := mkP3 { K_ : nat; el : nat -> nat -> pt3; io : nat -> nat -> pt3 }.
Inductive ions3 := Background3 (ro_initial : grid) | Mobile3.
Definition compute_rhoj3 (n : Z) (h : R) (im : ions3) (ps : parts3) : cur3 :=
  mkC3 (deposit_plasma n h (ravel (K_ ps) (el ps)))
       (match im with
        | Background3 ro => mkD3 ro zero_grid zero_grid zero_grid
        | Mobile3 => deposit_plasma n h (ravel (K_ ps) (io ps))
        end).

(** ** move.py *)
(** move.py:29-49 for one coordinate: (new position, reflected?).  Both tests look at the current x. *)
Definition reflect1 (b x : R) : R * bool :=
  let '(x1, f1) := if Rlt_dec b x then (2 * b - x, true) else (x, false) in
  if Rlt_dec x1 (- b) then (-2 * b - x1, true) else (x1, f1).
(** the same for the offset: recomputed from the new position only when reflected *)
Definition reflect_off (b x0 dx : R) : R := let '(x, f) := reflect1 b (x0 + dx) in if f then x - x0 else dx.
(** move.py:93-106 *)
Definition gather_at (n : Z) (h x y : R) (f : arr2) : R :=
  gather n (x / h + 0.5) (y / h + 0.5) (fun a b w => f (Z.to_nat a) (Z.to_nat b) * w).
Record fields3 := mkF3 { Ex : arr2; Ey : arr2; Ez : arr2; Bx : arr2; By : arr2; Bz : arr2; Phi : arr2 }.
(** move.py:108-115 = 118-124: the momentum change from the momenta (px, py, pz) *)
Definition force3 (m q X : R) (e : R * R * R * R * R * R) (p : R * R * R) : R * R * R :=
  let '(ex, ey, ez, bx, b_y, bz) := e in let '(px, py, pz) := p in
  let g := gamma3 m px py pz in
  let vx := px / g in let vy := py / g in let vz := pz / g in
  let f := q * X / (1 - pz / g) in
  (f * (ex + vy * bz - vz * b_y), f * (ey - vx * bz + vz * bx), f * (ez + vx * b_y - vy * bx)).
Definition half_kick (o d : R * R * R) : R * R * R :=
  let '(ox, oy, oz) := o in let '(dx, dy, dz) := d in (ox + dx / 2, oy + dy / 2, oz + dz / 2).
(** the six fields at the middle point *)
Definition fields_at3 (n : Z) (h x y : R) (f : fields3) : R * R * R * R * R * R :=
  let g := gather_at n h x y in (g (Ex f), g (Ey f), g (Ez f), g (Bx f), g (By f), g (Bz f)).
(** move.py:127-148: from the momenta at the middle [pm] and the change [d] *)
Definition finish3 (b X : R) (prev full : pt3) (pm d : R * R * R) : pt3 :=
  let '(px, py, pz) := pm in let '(dpx, dpy, dpz) := d in
  let g := gamma3 (t_m full) px py pz in
  let dx := t_dx prev + px / (g - pz) * X in
  let dy := t_dy prev + py / (g - pz) * X in
  let fl := orb (snd (reflect1 b (t_x0 prev + dx))) (snd (reflect1 b (t_y0 prev + dy))) in
  let dx' := reflect_off b (t_x0 prev) dx in
  let dy' := reflect_off b (t_y0 prev) dy in
  let mom := fun o c => if fl then 0 else o + c in
  let x := t_x0 prev + dx' in let y := t_y0 prev + dy' in
  let out := orb (orb (if Rle_dec b x then true else false) (if Rle_dec x (- b) then true else false))
                 (orb (if Rle_dec b y then true else false) (if Rle_dec y (- b) then true else false)) in
  if out then mkT (t_x0 full) (t_y0 full) 0 0 0 0 0 0 (t_m full) (t_cx full) (t_cy full)
  else mkT (t_x0 full) (t_y0 full) dx' dy' (mom (t_px prev) dpx) (mom (t_py prev) dpy) (mom (t_pz prev) dpz)
           (t_q full) (t_m full) (t_cx full) (t_cy full).
(** move.py:71-148 *)
Definition move_smart1 (n : Z) (h b X : R) (f : fields3) (prev full : pt3) : pt3 :=
  if Req_EM_T (t_q full) 0 then full
  else
    let '(x, fx) := reflect1 b (t_x0 prev + (t_dx prev + t_dx full) / 2) in
    let '(y, fy) := reflect1 b (t_y0 prev + (t_dy prev + t_dy full) / 2) in
    let o := (t_px prev, t_py prev, t_pz prev) in
    let p0 := if orb fx fy then (0, 0, 0) else o in
    let e := fields_at3 n h x y f in
    let pm1 := half_kick o (force3 (t_m full) (t_q full) X e p0) in
    let d := force3 (t_m full) (t_q full) X e pm1 in
    finish3 b X prev full (half_kick o d) d.
(** move.py:152-165 *)
Definition move_free1 (X : R) (p : pt3) : pt3 :=
  if Req_EM_T (t_m p) 0 then p
  else
    let g := gamma3 (t_m p) (t_px p) (t_py p) (t_pz p) in
    mkT (t_x0 p) (t_y0 p) (t_dx p + t_px p / (g - t_pz p) * X) (t_dy p + t_py p / (g - t_pz p) * X)
        (t_px p) (t_py p) (t_pz p) (t_q p) (t_m p) (t_cx p) (t_cy p).

(** ** fields.py *)
(** scipy.fftpack.dst(x, type=1), length M *)
Definition dst_1 (M : nat) (x : arr) : arr := fun k =>
  2 * sumN M (fun n => x n * sin (PI * INR (k + 1) * INR (n + 1) / INR (M + 1))).
(** scipy.fftpack.dct(x, type=1), length N *)
Definition dct_1 (N : nat) (x : arr) : arr := fun k =>
  x 0%nat + (-1) ^ k * x (N - 1)%nat + 2 * sumN (N - 2) (fun n => x (n + 1)%nat * cos (PI * INR k * INR (n + 1) / INR (N - 1))).
(** fields.py:16-29: along axis 0 / axis 1 *)
Definition ax0 (t : arr -> arr) (a : arr2) : arr2 := fun k j => t (fun i => a i j) k.
Definition ax1 (t : arr -> arr) (a : arr2) : arr2 := fun i k => t (fun j => a i j) k.
Definition dst2d (M : nat) (a : arr2) : arr2 := ax1 (dst_1 M) (ax0 (dst_1 M) a).
Definition dct2d (N : nat) (a : arr2) : arr2 := ax1 (dct_1 N) (ax0 (dct_1 N) a).
(** mix2d without the padding rows (fields.py:89, 91 cut them off after the first use) *)
Definition mix2d (M N : nat) (a : arr2) : arr2 := ax1 (dct_1 N) (ax0 (dst_1 M) a).
(** [1:-1, 1:-1], and the inverse padding with one ring / one row of zeros *)
Definition inner (a : arr2) : arr2 := fun i j => a (i + 1)%nat (j + 1)%nat.
Definition inner_rows (a : arr2) : arr2 := fun i j => a (i + 1)%nat j.
Definition pad (N : nat) (a : arr2) : arr2 := fun i j =>
  if (i =? 0)%nat || (i =? N - 1)%nat || (j =? 0)%nat || (j =? N - 1)%nat then 0 else a (i - 1)%nat (j - 1)%nat.
Definition pad_rows (N : nat) (a : arr2) : arr2 := fun i j =>
  if (i =? 0)%nat || (i =? N - 1)%nat then 0 else a (i - 1)%nat j.
Definition transpose (a : arr2) : arr2 := fun i j => a j i.
Definition times (a b : arr2) : arr2 := fun i j => a i j * b i j.

(** initialization.py:15-67: lam[k] = 4 / h**2 * sin(k pi / (2 (N - 1)))**2 *)
Definition lam (N : nat) (h : R) (k : nat) : R := 4 / h ^ 2 * sin (INR k * PI / (2 * INR (N - 1))) ^ 2.
Definition dirichlet_matrix (N : nat) (h : R) : arr2 := fun i j =>
  1 / (lam N h (i + 1) + lam N h (j + 1)) / (2 * INR (N - 1)) ^ 2.
Definition mixed_matrix (N : nat) (h coeff : R) : arr2 := fun i j =>
  1 / (lam N h (i + 1) + lam N h j + coeff) / (2 * INR (N - 1)) ^ 2.
Definition neumann_matrix (N : nat) (h : R) : arr2 := fun i j =>
  (if (i =? 0)%nat && (j =? 0)%nat then 0 else 1 / (lam N h i + lam N h j)) / (2 * INR (N - 1)) ^ 2.

(** Sums over the two sorts (fields.py:264-275) *)
Record curs := mkCs { s_ro : arr2; s_jx : arr2; s_jy : arr2; s_jz : arr2 }.
Definition to_arr2 (g : grid) : arr2 := fun i j => g (Z.of_nat i) (Z.of_nat j).
Definition sum_sorts (c : cur3) : curs :=
  let s := fun f : dens3 -> grid => fun i j => to_arr2 (f (r_e c)) i j + to_arr2 (f (r_i c)) i j in
  mkCs (s c_ro) (s c_jx) (s c_jy) (s c_jz).
(** fields.py:113-143; the indices of the inner arrays are those of [1:-1] *)
Definition calculate_Ez (N : nat) (h : R) (c : curs) : arr2 :=
  let rhs := fun i j => - ((s_jx c (i + 2)%nat (j + 1)%nat - s_jx c i (j + 1)%nat)
                           + (s_jy c (i + 1)%nat (j + 2)%nat - s_jy c (i + 1)%nat j)) / (h * 2) in
  let f := times (dst2d (N - 2) rhs) (dirichlet_matrix N h) in
  pad N (dst2d (N - 2) f).
(** fields.py:146-164 *)
Definition calculate_Phi (N : nat) (h : R) (c : curs) : arr2 :=
  let rhs := inner (fun i j => s_ro c i j - s_jz c i j) in
  let f := times (dst2d (N - 2) rhs) (dirichlet_matrix N h) in
  pad N (dst2d (N - 2) f).
(** fields.py:169-178 *)
Definition on_inner (N : nat) (f : arr2) : arr2 := fun i j =>
  if (i =? 0)%nat || (i =? N - 1)%nat || (j =? 0)%nat || (j =? N - 1)%nat then 0 else f i j.
Definition d_dx (N : nat) (h : R) (a : arr2) : arr2 := fun i j => on_inner N (fun i j => a (i + 1)%nat j - a (i - 1)%nat j) i j / (h * 2).
Definition d_dy (N : nat) (h : R) (a : arr2) : arr2 := fun i j => on_inner N (fun i j => a i (j + 1)%nat - a i (j - 1)%nat) i j / (h * 2).
(** fields.py:223-235: one transverse field from its right-hand side *)
Definition solve_mixed (N : nat) (h coeff : R) (rhs : arr2) : arr2 :=
  let f := times (mixed_matrix N h coeff) (mix2d (N - 2) N (inner_rows rhs)) in
  pad_rows N (mix2d (N - 2) N f).
(** fields.py:181-239: (Ex, Ey, Bx, By) *)
Definition calculate_Ex_Ey_Bx_By (N : nat) (h X coeff : R) (f : fields3) (rb_full rb_prev : arr2) (cf cp : curs) : arr2 * arr2 * arr2 * arr2 :=
  let ro_half := fun i j => (s_ro cf i j + rb_full i j + s_ro cp i j + rb_prev i j) / 2 in
  let jz_half := fun i j => (s_jz cf i j + rb_full i j + s_jz cp i j + rb_prev i j) / 2 in
  let djx_dxi := fun i j => (s_jx cp i j - s_jx cf i j) / X in
  let djy_dxi := fun i j => (s_jy cp i j - s_jy cf i j) / X in
  let ex := fun i j => - (d_dx N h ro_half i j - djx_dxi i j - coeff * Ex f i j) in
  let ey := fun i j => - (d_dy N h ro_half i j - djy_dxi i j - coeff * Ey f i j) in
  let bx := fun i j => d_dy N h jz_half i j - djy_dxi i j + coeff * Bx f i j in
  let b_y := fun i j => - (d_dx N h jz_half i j - djx_dxi i j - coeff * By f i j) in
  (transpose (solve_mixed N h coeff (transpose ex)), solve_mixed N h coeff ey,
   solve_mixed N h coeff bx, transpose (solve_mixed N h coeff (transpose b_y))).
(** fields.py:242-283 *)
Definition mean2 (N : nat) (a : arr2) : R := sumN N (fun i => sumN N (fun j => a i j)) / (INR N * INR N).
Definition calculate_Bz (N : nat) (h : R) (c : curs) : arr2 :=
  let djx_dy := pad N (fun i j => s_jx c (i + 1)%nat (j + 2)%nat - s_jx c (i + 1)%nat j) in
  let djy_dx := pad N (fun i j => s_jy c (i + 2)%nat (j + 1)%nat - s_jy c i (j + 1)%nat) in
  let rhs := fun i j => - (djx_dy i j - djy_dx i j) / (h * 2) in
  let f := times (dct2d N rhs) (neumann_matrix N h) in
  let bz := dct2d N f in
  fun i j => bz i j - mean2 N bz.
(** fields.py:294-346: (full, half) *)
Definition compute_fields3 (N : nat) (h X coeff : R) (f fprev : fields3) (rb_full rb_prev : arr2) (cprev cfull : cur3) : fields3 * fields3 :=
  let cf := sum_sorts cfull in let cp := sum_sorts cprev in
  let '(ex, ey, bx, b_y) := calculate_Ex_Ey_Bx_By N h X coeff f rb_full rb_prev cf cp in
  let full := fun half prev : arr2 => fun i j => 2 * half i j - prev i j in
  let ez := calculate_Ez N h cf in let bz := calculate_Bz N h cf in let phi := calculate_Phi N h cf in
  (mkF3 (full ex (Ex fprev)) (full ey (Ey fprev)) ez (full bx (Bx fprev)) (full b_y (By fprev)) bz phi,
   mkF3 ex ey (fun i j => (ez i j + Ez fprev i j) / 2) bx b_y (fun i j => (bz i j + Bz fprev i j) / 2) phi).

(** ** noise_filter.py *)
(** noise_filter.py:55-77 along axis 1 (axis = 0 in the call; the other axis by transposition) *)
Definition nz (x : R) : bool := if Req_EM_T x 0 then false else true.
Definition inhomogeneity1 (K : nat) (d : arr) : arr := fun j =>
  if (j =? 0)%nat then if nz (d 0%nat) && nz (d 1%nat) && nz (d 2%nat) then d 0%nat - 2 * d 1%nat + d 2%nat else 0
  else if (j =? K - 1)%nat then
    if nz (d (K - 1)%nat) && nz (d (K - 2)%nat) && nz (d (K - 3)%nat) then d (K - 1)%nat - 2 * d (K - 2)%nat + d (K - 3)%nat else 0
  else if nz (d j) && nz (d (j - 1)%nat) && nz (d (j + 1)%nat) then d j - (d (j - 1)%nat + d (j + 1)%nat) / 2 else 0.
Definition inhomogeneity (K : nat) (a : arr2) : arr2 := fun i j =>
  (ax1 (inhomogeneity1 K) a i j + ax0 (inhomogeneity1 K) a i j) / 2.
(** noise_filter.py:166-168 *)
Definition d_limit (dmax cx cy : R) : R :=
  let d := cx * cx + cy * cy in if Rlt_dec d (dmax ^ 2) then 1 - d / dmax ^ 2 else 0.
(** one of px[1:-1, :] += w/2; px[2:, :] -= w/4; px[:-2, :] -= w/4 with w = xi_step * force: what
    row i gets from the force along axis 0 (noise_filter.py:207-209) *)
Definition spread1 (K : nat) (w : arr) : arr := fun i =>
  (if (1 <=? i)%nat && (i <? K - 1)%nat then w i / 2 else 0)
  - (if (2 <=? i)%nat && (i <? K)%nat then w (i - 1)%nat / 4 else 0)
  - (if (i <? K - 2)%nat then w (i + 1)%nat / 4 else 0).
(** noise_filter.py:134-135: real(ifft2(fourier_gaussian(fft2(a), sigma))) of a K x K array.
    fourier_gaussian multiplies frequency (k, l) by exp(-2 pi^2 sigma^2 (k'^2 + l'^2) / K^2), k' and l'
    the signed frequencies; the real part of exp(2 pi i (k (i - i') + l (j - j')) / K) is the cosine. *)
Definition signed_freq (K k : nat) : R := if (2 * k <? K + 1)%nat then INR k else INR k - INR K.
Definition gauss_weight (K : nat) (sigma : R) (k l : nat) : R :=
  exp (- 2 * PI ^ 2 * sigma ^ 2 * (signed_freq K k ^ 2 + signed_freq K l ^ 2) / INR K ^ 2).
Definition gauss_average (K : nat) (sigma : R) (a : arr2) : arr2 := fun i j =>
  sumN K (fun k => sumN K (fun l => gauss_weight K sigma k l *
    sumN K (fun i' => sumN K (fun j' =>
      a i' j' * cos (2 * PI * (INR k * (INR i - INR i') + INR l * (INR j - INR j')) / INR K))))) / INR K ^ 2.
Section Filter.
  (** the averaging of noise_filter.py:134-135, a parameter here: [gauss_average K sigma] in the code *)
  Variable average : arr2 -> arr2.
  (** noise_filter.py:93-223.  The in-place additions to px are independent of px, so their order
      does not matter. *)
  Definition momentum_change (K : nat) (X coef damp dmax : R) (c c_prev cx cy : arr2) : arr2 := fun i j =>
    let lim := fun i j => d_limit dmax (cx i j) (cy i j) in
    let w := fun i j => X * (- coef * c i j * lim i j) in
    ax0 (spread1 K) w i j + ax1 (spread1 K) w i j - X * damp * lim i j * (c i j - c_prev i j).
  Definition noise_filter (K : nat) (X coef damp dmax : R) (a prev : nat -> nat -> pt3) : nat -> nat -> pt3 :=
    let dx := inhomogeneity K (fun i j => t_dx (a i j)) in let dy := inhomogeneity K (fun i j => t_dy (a i j)) in
    let cx := fun i j => dx i j - average dx i j in let cy := fun i j => dy i j - average dy i j in
    let mx := momentum_change K X coef damp dmax cx (fun i j => t_cx (prev i j)) cx cy in
    let my := momentum_change K X coef damp dmax cy (fun i j => t_cy (prev i j)) cx cy in
    fun i j => let p := a i j in
      mkT (t_x0 p) (t_y0 p) (t_dx p) (t_dy p) (t_px p + mx i j) (t_py p + my i j) (t_pz p) (t_q p) (t_m p) (cx i j) (cy i j).

  (** ** solver.py *)
  Record solver3 := mkS3 { u_n : nat; u_h : R; u_xi : R; u_b : R; u_coeff : R; u_ions : ions3; u_decl : bool;
                           u_force : R; u_damp : R; u_limit : R }.
  (** move.py:346-377, per sort *)
  Definition map_sorts (im : ions3) (f : (nat -> nat -> pt3) -> nat -> nat -> pt3) (ps : parts3) : parts3 :=
    mkP3 (K_ ps) (f (el ps)) (match im with Background3 _ => io ps | Mobile3 => f (io ps) end).
  Definition move_free (s : solver3) (ps : parts3) : parts3 :=
    map_sorts (u_ions s) (fun a i j => move_free1 (u_xi s) (a i j)) ps.
  Definition move_smart (s : solver3) (f : fields3) (prev full : parts3) : parts3 :=
    let mv := fun a b : nat -> nat -> pt3 => fun i j => move_smart1 (Z.of_nat (u_n s)) (u_h s) (u_b s) (u_xi s) f (a i j) (b i j) in
    mkP3 (K_ full) (mv (el prev) (el full)) (match u_ions s with Background3 _ => io full | Mobile3 => mv (io prev) (io full) end).
  Definition state3 := (parts3 * fields3 * cur3)%type.
  (** solver.py:28-77 *)
  Definition step_dxi3 (s : solver3) (rb_full rb_prev : arr2) (st : state3) : state3 :=
    let '(pp, fp, cp) := st in
    let rhoj := compute_rhoj3 (Z.of_nat (u_n s)) (u_h s) (u_ions s) in
    let flds := fun f c => compute_fields3 (u_n s) (u_h s) (u_xi s) (u_coeff s) f fp rb_full rb_prev cp c in
    let p1 := move_smart s fp pp (move_free s pp) in
    let fh1 := snd (flds fp (rhoj p1)) in
    let p2 := move_smart s fh1 pp p1 in
    let '(ff, fh2) := flds fh1 (rhoj p2) in
    let p3 := move_smart s fh2 pp p2 in
    let p4 := if u_decl s
              then mkP3 (K_ p3) (noise_filter (K_ p3) (u_xi s) (u_force s) (u_damp s) (u_limit s) (el p3) (el pp)) (io p3) else p3 in
    (p4, ff, rhoj p4).
End Filter.

(** ** initialization.py *)
(** initialization.py:72-104, fineness a positive integer: coordinate number k of the grid, and how
    many there are.  [half] = steps // 2 * fineness. *)
Definition grid_size (steps : Z) (f : nat) : nat :=
  let half := (Z.to_nat (steps / 2) * f)%nat in
  if Nat.odd f then (2 * half - 1)%nat else (2 * half)%nat.
Definition plasma_grid (steps : Z) (h : R) (f : nat) (k : nat) : R :=
  let half := (Z.to_nat (steps / 2) * f)%nat in
  if Nat.odd f then (INR k - INR (half - 1)) * (h / INR f)
  else (INR k - INR half + 0.5) * (h / INR f).
(** initialization.py:107-139; [coef] is the density profile of profile_initial_plasma *)
Definition init_electrons3 (steps : Z) (h : R) (f : nat) (coef : R -> R -> R) : nat -> nat -> pt3 := fun i j =>
  let x := plasma_grid steps h f i in let y := plasma_grid steps h f j in
  mkT x y 0 0 0 0 0 (-1 / INR f ^ 2 * h ^ 2 * coef x y) (1 / INR f ^ 2 * h ^ 2 * coef x y) 0 0.
Definition zero_fields3 : fields3 := mkF3 zeros2 zeros2 zeros2 zeros2 zeros2 zeros2 zeros2.
Definition zero_cur3 : cur3 := mkC3 zero_dens3 zero_dens3.
(** initialization.py:278-408 without the dual approach (with it, line 307 reads the undefined name
    pu_type: NameError) *)
Definition init_plasma3 (N : nat) (h : R) (padding : Z) (f : nat) (coef : R -> R -> R) (mobile : bool) (ion_mass : R) : state3 * ions3 :=
  let steps := (Z.of_nat N - 2 * padding)%Z in
  let e := init_electrons3 steps h f coef in
  let K := grid_size steps f in
  let ro := c_ro (deposit_plasma (Z.of_nat N) h (ravel K e)) in
  if mobile then
    let i := fun a b => let p := e a b in mkT (t_x0 p) (t_y0 p) 0 0 0 0 0 (- t_q p) (ion_mass * t_m p) 0 0 in
    ((mkP3 K e i, zero_fields3, zero_cur3), Mobile3)
  else ((mkP3 K e e, zero_fields3, zero_cur3), Background3 (fun a b => - ro a b)).
(** move.py:321 *)
Definition wall (N : nat) (h : R) (bound_padding : Z) : R := h * (INR N / 2 - IZR bound_padding).

(** ** The dual plasma approach (GPU only; see the note at init_plasma3) *)
(** initialization.py:142-153 *)
Definition coarse_size (steps : Z) (c : Z) : nat := (2 * Z.to_nat (steps / (c * 2)) - 1)%nat.
Definition coarse_grid (steps : Z) (h : R) (c : Z) (k : nat) : R :=
  (INR k - INR (Z.to_nat (steps / (c * 2)) - 1)) * (h * IZR c).
(** xp.searchsorted(coarse, x): the number of coarse points below x (left side) *)
Definition searchsorted (n : nat) (g : nat -> R) (x : R) : nat :=
  length (filter (fun k => if Rlt_dec (g k) x then true else false) (seq 0 n)).
(** initialization.py:233-248, for one fine coordinate x: (prev index, next index, influence_prev,
    influence_next) *)
Definition influence (n : nat) (g : nat -> R) (step x : R) : nat * nat * R * R :=
  let ind := Z.of_nat (searchsorted n g x) in
  let clip := fun z => Z.to_nat (Z.min (Z.max z 0) (Z.of_nat n - 1)) in
  let nx := clip ind in let pv := clip (ind - 1)%Z in
  let ip := (g nx - x) / step in let inx := (x - g pv) / step in
  let '(ip1, inx1) := if (nx =? 0)%nat then (0, 1) else (ip, inx) in
  let '(ip2, inx2) := if (pv =? n - 1)%nat then (1, 0) else (ip1, inx1) in
  (pv, nx, ip2, inx2).
(** weights.py:86-117: bilinear mix of one coarse array at a fine particle *)
Definition mix (a b : nat * nat * R * R) (v : arr2) : R :=
  let '(pi, ni, wpi, wni) := a in let '(pj, nj, wpj, wnj) := b in
  wpi * wpj * v pi pj + wpi * wnj * v pi nj + wni * wpj * v ni pj + wni * wnj * v ni nj.
(** initialization.py:187-245, the coarse particles: coarseness c, a positive integer *)
Definition init_coarse (steps : Z) (h : R) (c : Z) : nat -> nat -> pt3 := fun i j =>
  mkT (coarse_grid steps h c i) (coarse_grid steps h c j) 0 0 0 0 0 (- IZR c ^ 2 * h ^ 2) (IZR c ^ 2 * h ^ 2) 0 0.
(** weights.py:217-252, 70-117: the fine particle (i, j); its initial position is that of the fine
    grid, which is plasma_grid (initialization.py:158-189 = 72-104 for an integer fineness). *)
Definition coarse_to_fine (steps : Z) (h : R) (c : Z) (f : nat) (cp : nat -> nat -> pt3) : nat -> nat -> pt3 := fun i j =>
  let small := 1 / (IZR c * INR f) ^ 2 in
  let infl := fun k => influence (coarse_size steps c) (coarse_grid steps h c) (h * IZR c) (plasma_grid steps h f k) in
  let mx := fun g : pt3 -> R => mix (infl i) (infl j) (fun a b => g (cp a b)) in
  mkT (plasma_grid steps h f i) (plasma_grid steps h f j) (mx t_dx) (mx t_dy) (small * mx t_px) (small * mx t_py) (small * mx t_pz)
      (small * mx t_q) (small * mx t_m) 0 0.
