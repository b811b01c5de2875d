(** Model of the GPU variant (processing-unit-type = gpu) of the 3D plasma: the CUDA kernel texts of
    lcode/plasma3d/{weights,move,noise_filter}.py and the FFT-based transforms of
    lcode/plasma3d/fields.py:33-107.  The code around the kernels is shared with the CPU (it uses
    config.xp), so solver.py, the right-hand sides and the noise filter are the same definitions here
    with the kernels exchanged.

    Simplifications: floats are exact reals, int is unbounded; an array handed to a kernel is read and
    written at its flat (row-major) index, as cupy's raw arguments are.  One thread per particle; the
    atomic additions of all the threads happen one after the other in an order that is a parameter
    ([order], any permutation).  cp.fft.rfft2 is taken at its documented definition
    (sum of p[a, b] exp(-2 pi i (a k / A + b l / B))).  The dual plasma approach is not included: with
    it deposit_plasma reads `particles` before it is assigned (weights.py:260-262, UnboundLocalError). *)
From Coq Require Import Reals ZArith List Bool.
From Verif Require Import Beam2D_Model Plasma2D_Model Shape_Model Beam3D_Model Plasma3D_Model.
Import ListNotations.
Open Scope R_scope.

(** ** weights.py *)
(** weights.py:125-147 *)
Definition weight4_gpu (x : R) (place : Z) : R :=
  if (place =? -2)%Z then (1 / 2 - x) * (1 / 2 - x) * (1 / 2 - x) * (1 / 2 - x) / 24
  else if (place =? -1)%Z then 19 / 96 - 11 / 24 * x + x * x / 4 + x * x * x / 6 - x * x * x * x / 6
  else if (place =? 0)%Z then 115 / 192 - 5 / 8 * x * x + x * x * x * x / 4
  else if (place =? 1)%Z then 19 / 96 + 11 / 24 * x + x * x / 4 - x * x * x / 6 - x * x * x * x / 6
  else if (place =? 2)%Z then (1 / 2 + x) * (1 / 2 + x) * (1 / 2 + x) * (1 / 2 + x) / 24
  else 0.
(** weights.py:172-175 = move.py:217-220: grid_steps is a float64 there *)
Definition cell_gpu (n : Z) (x_h : R) : Z := (floorR x_h + floorR (IZR n / 2))%Z.
(** weights.py:181, move.py:227: (iy + ky) + grid_steps * (ix + kx) *)
Definition idx_gpu (n ix iy : Z) : Z := (iy + n * ix)%Z.
(** The memory of one output array, and atomicAdd(&out[idx], v) *)
Definition mem := Z -> R.
Definition atomic_add (m : mem) (a : Z * R) : mem := fun z => if (z =? fst a)%Z then m z + snd a else m z.
(** weights.py:177-188: the atomic additions of one thread to one array, [v] times the weight *)
Definition thread_adds (n : Z) (h x_h y_h v : R) : list (Z * R) :=
  flat_map (fun kx =>
    let wx := weight4_gpu (loc x_h) kx / h in
    map (fun ky =>
      let w := wx * weight4_gpu (loc y_h) ky / h in
      (idx_gpu n (cell_gpu n x_h + kx) (cell_gpu n y_h + ky), v * w)) places) places.
(** weights.py:161-190: the additions of the thread of one particle, for the four arrays *)
Definition gamma_gpu (m px py pz : R) : R := sqrt (m * m + px * px + py * py + pz * pz).
Definition adds_ro (n : Z) (h : R) (p : pt3) : list (Z * R) :=
  if Req_EM_T (t_q p) 0 then []
  else
    let g := gamma_gpu (t_m p) (t_px p) (t_py p) (t_pz p) in
    let dro := t_q p / (1 - t_pz p / g) in
    thread_adds n h ((t_x0 p + t_dx p) / h + 0.5) ((t_y0 p + t_dy p) / h + 0.5) dro.
Definition adds_j (n : Z) (h : R) (mom : pt3 -> R) (p : pt3) : list (Z * R) :=
  if Req_EM_T (t_q p) 0 then []
  else
    let g := gamma_gpu (t_m p) (t_px p) (t_py p) (t_pz p) in
    let dro := t_q p / (1 - t_pz p / g) in
    thread_adds n h ((t_x0 p + t_dx p) / h + 0.5) ((t_y0 p + t_dy p) / h + 0.5) (mom p * (dro / g)).
(** The order in which the hardware performs the additions to array number k. *)
Definition order := nat -> list (Z * R) -> list (Z * R).
Definition run_adds (o : list (Z * R) -> list (Z * R)) (l : list (Z * R)) : mem := fold_left atomic_add (o l) (fun _ => 0).
(** the array of n x n cells in that memory *)
Definition as_grid (n : Z) (m : mem) : grid := fun a b =>
  if ((0 <=? a) && (a <? n) && (0 <=? b) && (b <? n))%Z%bool then m (b + n * a)%Z else 0.
(** weights.py:249-284 for one sort *)
Definition deposit_plasma_gpu (o : order) (n : Z) (h : R) (l : list pt3) : dens3 :=
  mkD3 (as_grid n (run_adds (o 0%nat) (flat_map (adds_ro n h) l)))
       (as_grid n (run_adds (o 1%nat) (flat_map (adds_j n h t_px) l)))
       (as_grid n (run_adds (o 2%nat) (flat_map (adds_j n h t_py) l)))
       (as_grid n (run_adds (o 3%nat) (flat_map (adds_j n h t_pz) l))).
(** rhoj.py:14-27; [oe] and [oi] for the two launches *)
Definition compute_rhoj_gpu (oe oi : order) (n : Z) (h : R) (im : ions3) (ps : parts3) : cur3 :=
  mkC3 (deposit_plasma_gpu oe n h (ravel (K_ ps) (el ps)))
       (match im with
        | Background3 ro => mkD3 ro zero_grid zero_grid zero_grid
        | Mobile3 => deposit_plasma_gpu oi n h (ravel (K_ ps) (io ps))
        end).

(** ** move.py *)
(** an n x n array at a flat index *)
Definition at_flat (n : Z) (a : arr2) (z : Z) : R := a (Z.to_nat (z / n)) (Z.to_nat (z mod n)).
(** move.py:214-234, one component *)
Definition gather_gpu (n : Z) (h x y : R) (a : arr2) : R :=
  let x_h := x / h + 0.5 in let y_h := y / h + 0.5 in
  fold_left (fun s kx =>
    let wx := weight4_gpu (loc x_h) kx in
    fold_left (fun s ky =>
      let w := wx * weight4_gpu (loc y_h) ky in
      s + at_flat n a (idx_gpu n (cell_gpu n x_h + kx) (cell_gpu n y_h + ky)) * w) places s) places 0.
(** move.py:197-212 and 262-281: one coordinate against the two walls; reflected? *)
Definition walls_gpu (b x : R) : R * bool :=
  let x1 := if Rlt_dec b x then 2 * b - x else x in
  let f1 := if Rlt_dec b x then true else false in
  let x2 := if Rlt_dec x1 (- b) then -2 * b - x1 else x1 in
  let f2 := if Rlt_dec x1 (- b) then true else f1 in (x2, f2).
(** move.py:188-286: the thread of one particle; [p] from the previous layer, [g] the current estimate,
    in whose arrays the result is written *)
Definition move_smart_gpu1 (n : Z) (h b X : R) (f : fields3) (p g : pt3) : pt3 :=
  if Req_EM_T (t_q g) 0 then g
  else
    let '(x_half, fx) := walls_gpu b (t_x0 p + (t_dx p + t_dx g) / 2) in
    let '(y_half, fy) := walls_gpu b (t_y0 p + (t_dy p + t_dy g) / 2) in
    let px := if fx || fy then 0 else t_px p in
    let py := if fx || fy then 0 else t_py p in
    let pz := if fx || fy then 0 else t_pz p in
    let ga := gather_gpu n h x_half y_half in
    let ex := ga (Ex f) in let ey := ga (Ey f) in let ez := ga (Ez f) in
    let bx := ga (Bx f) in let b_y := ga (By f) in let bz := ga (Bz f) in
    let gamma := gamma_gpu (t_m g) px py pz in
    let vx := px / gamma in let vy := py / gamma in let vz := pz / gamma in
    let factor := t_q g * X / (1 - pz / gamma) in
    let dpx := factor * (ex + vy * bz - vz * b_y) in
    let dpy := factor * (ey - vx * bz + vz * bx) in
    let dpz := factor * (ez + vx * b_y - vy * bx) in
    let px := t_px p + dpx / 2 in let py := t_py p + dpy / 2 in let pz := t_pz p + dpz / 2 in
    let gamma := gamma_gpu (t_m g) px py pz in
    let vx := px / gamma in let vy := py / gamma in let vz := pz / gamma in
    let factor := t_q g * X / (1 - pz / gamma) in
    let dpx := factor * (ex + vy * bz - vz * b_y) in
    let dpy := factor * (ey - vx * bz + vz * bx) in
    let dpz := factor * (ez + vx * b_y - vy * bx) in
    let px := t_px p + dpx / 2 in let py := t_py p + dpy / 2 in let pz := t_pz p + dpz / 2 in
    let gamma := gamma_gpu (t_m g) px py pz in
    let x_offt := t_dx p + px / (gamma - pz) * X in
    let y_offt := t_dy p + py / (gamma - pz) * X in
    let '(x, gx) := walls_gpu b (t_x0 p + x_offt) in
    let '(y, gy) := walls_gpu b (t_y0 p + y_offt) in
    let x_offt := if gx then x - t_x0 p else x_offt in
    let y_offt := if gy then y - t_y0 p else y_offt in
    let px := if gx || gy then 0 else t_px p + dpx in
    let py := if gx || gy then 0 else t_py p + dpy in
    let pz := if gx || gy then 0 else t_pz p + dpz in
    if (if Rle_dec b x then true else false) || (if Rle_dec x (- b) then true else false)
       || (if Rle_dec b y then true else false) || (if Rle_dec y (- b) then true else false)
    then mkT (t_x0 g) (t_y0 g) 0 0 0 0 0 0 (t_m g) (t_cx g) (t_cy g)
    else mkT (t_x0 g) (t_y0 g) x_offt y_offt px py pz (t_q g) (t_m g) (t_cx g) (t_cy g).
(** move.py:302-311 *)
Definition move_free_gpu1 (X : R) (p : pt3) : pt3 :=
  if Req_EM_T (t_m p) 0 then p
  else
    let g := gamma_gpu (t_m p) (t_px p) (t_py p) (t_pz p) in
    mkT (t_x0 p) (t_y0 p) (t_dx p + t_px p / (g - t_pz p) * X) (t_dy p + t_py p / (g - t_pz p) * X)
        (t_px p) (t_py p) (t_pz p) (t_q p) (t_m p) (t_cx p) (t_cy p).

(** ** fields.py *)
(** p[r0:r1, c0:c1] = src; cp.fliplr and cp.flipud of an array with so many columns / rows *)
Definition put (r0 r1 c0 c1 : nat) (src p : arr2) : arr2 := fun i j =>
  if ((r0 <=? i) && (i <? r1) && (c0 <=? j) && (j <? c1))%nat%bool then src (i - r0)%nat (j - c0)%nat else p i j.
Definition fliplr (cols : nat) (a : arr2) : arr2 := fun i j => a i (cols - 1 - j)%nat.
Definition flipud (rows : nat) (a : arr2) : arr2 := fun i j => a (rows - 1 - i)%nat j.
Definition opp2 (a : arr2) : arr2 := fun i j => - a i j.
Definition cut1 (a : arr2) : arr2 := fun i j => a (i + 1)%nat (j + 1)%nat.
(** cp.fft.rfft2 of an A x B array: real and imaginary part *)
Definition phase (A B k l a b : nat) : R := 2 * PI * (INR a * INR k / INR A + INR b * INR l / INR B).
Definition rfft2_re (A B : nat) (p : arr2) : arr2 := fun k l => sumN A (fun a => sumN B (fun b => p a b * cos (phase A B k l a b))).
Definition rfft2_im (A B : nat) (p : arr2) : arr2 := fun k l => - sumN A (fun a => sumN B (fun b => p a b * sin (phase A B k l a b))).
(** fields.py:36-56 *)
Definition dst2d_gpu (N : nat) (arr : arr2) : arr2 :=
  let p := zeros2 in
  let p := put 1 (N + 1) 1 (N + 1) arr p in
  let p := put 1 (N + 1) (N + 2) (2 * N + 2) (opp2 (fliplr N arr)) p in
  let p := put (N + 2) (2 * N + 2) 1 (N + 1) (opp2 (flipud N arr)) p in
  let p := put (N + 2) (2 * N + 2) (N + 2) (2 * N + 2) (fliplr N (flipud N arr)) p in
  cut1 (opp2 (rfft2_re (2 * N + 2) (2 * N + 2) p)).
(** fields.py:58-79 *)
Definition dct2d_gpu (N : nat) (arr : arr2) : arr2 :=
  let p := zeros2 in
  let p := put 0 N 0 N arr p in
  let p := put N (2 * N - 2) 0 N (fun i j => flipud N arr (i + 1)%nat j) p in
  let p := put 0 N N (2 * N - 2) (fun i j => fliplr N arr i (j + 1)%nat) p in
  let p := put N (2 * N - 2) N (2 * N - 2) (fun i j => flipud N (fliplr N arr) (i + 1)%nat (j + 1)%nat) p in
  opp2 (rfft2_re (2 * N - 2) (2 * N - 2) p).
(** fields.py:81-107; arr has M rows and N columns, the result M + 2 rows *)
Definition mix2d_gpu (M N : nat) (arr : arr2) : arr2 :=
  let p := zeros2 in
  let p := put 1 (M + 1) 0 N arr p in
  let p := put (M + 2) (2 * M + 2) 0 N (opp2 (flipud M arr)) p in
  let p := put 1 (M + 1) (N - 1) (2 * N - 2) (fliplr N arr) p in
  let p := put (M + 2) (2 * M + 2) (N - 1) (2 * N - 2) (opp2 (flipud M (fliplr N arr))) p in
  opp2 (rfft2_im (2 * M + 2) (2 * N - 2) p).

(** fields.py:110-346 with the transforms it is given: dst2d of an M x M array, dct2d of an N x N
    array, and mix2d of an M x N array with two more rows. *)
Section Solve.
  Variable dst : nat -> arr2 -> arr2.
  Variable dct : nat -> arr2 -> arr2.
  Variable mixt : nat -> nat -> arr2 -> arr2.
  (** fields.py:113-143 *)
  Definition Ez_with (N : nat) (h : R) (c : curs) : arr2 :=
    let rhs := fun i j => - ((s_jx c (i + 2)%nat (j + 1)%nat - s_jx c i (j + 1)%nat)
                             + (s_jy c (i + 1)%nat (j + 2)%nat - s_jy c (i + 1)%nat j)) / (h * 2) in
    let f := times (dst (N - 2)%nat rhs) (dirichlet_matrix N h) in
    pad N (dst (N - 2)%nat f).
  (** fields.py:146-164 *)
  Definition Phi_with (N : nat) (h : R) (c : curs) : arr2 :=
    let rhs := inner (fun i j => s_ro c i j - s_jz c i j) in
    let f := times (dst (N - 2)%nat rhs) (dirichlet_matrix N h) in
    pad N (dst (N - 2)%nat f).
  (** fields.py:223-235 *)
  Definition mixed_with (N : nat) (h coeff : R) (rhs : arr2) : arr2 :=
    let f := times (mixed_matrix N h coeff) (inner_rows (mixt (N - 2)%nat N (inner_rows rhs))) in
    mixt (N - 2)%nat N f.
  (** fields.py:181-239 *)
  Definition transverse_with (N : nat) (h X coeff : R) (f : fields3) (rb_full rb_prev : arr2) (cf cp : curs) : arr2 * arr2 * arr2 * arr2 :=
    let ro_half := fun i j => (s_ro cf i j + rb_full i j + s_ro cp i j + rb_prev i j) / 2 in
    let jz_half := fun i j => (s_jz cf i j + rb_full i j + s_jz cp i j + rb_prev i j) / 2 in
    let djx_dxi := fun i j => (s_jx cp i j - s_jx cf i j) / X in
    let djy_dxi := fun i j => (s_jy cp i j - s_jy cf i j) / X in
    let ex := fun i j => - (d_dx N h ro_half i j - djx_dxi i j - coeff * Ex f i j) in
    let ey := fun i j => - (d_dy N h ro_half i j - djy_dxi i j - coeff * Ey f i j) in
    let bx := fun i j => d_dy N h jz_half i j - djy_dxi i j + coeff * Bx f i j in
    let b_y := fun i j => - (d_dx N h jz_half i j - djx_dxi i j - coeff * By f i j) in
    (transpose (mixed_with N h coeff (transpose ex)), mixed_with N h coeff ey,
     mixed_with N h coeff bx, transpose (mixed_with N h coeff (transpose b_y))).
  (** fields.py:242-283 *)
  Definition Bz_with (N : nat) (h : R) (c : curs) : arr2 :=
    let djx_dy := pad N (fun i j => s_jx c (i + 1)%nat (j + 2)%nat - s_jx c (i + 1)%nat j) in
    let djy_dx := pad N (fun i j => s_jy c (i + 2)%nat (j + 1)%nat - s_jy c i (j + 1)%nat) in
    let rhs := fun i j => - (djx_dy i j - djy_dx i j) / (h * 2) in
    let f := times (dct N rhs) (neumann_matrix N h) in
    let bz := dct N f in
    fun i j => bz i j - mean2 N bz.
  (** fields.py:294-346 *)
  Definition fields_with (N : nat) (h X coeff : R) (f fprev : fields3) (rb_full rb_prev : arr2) (cprev cfull : cur3) : fields3 * fields3 :=
    let cf := sum_sorts cfull in let cp := sum_sorts cprev in
    let '(ex, ey, bx, b_y) := transverse_with N h X coeff f rb_full rb_prev cf cp in
    let full := fun half prev : arr2 => fun i j => 2 * half i j - prev i j in
    let ez := Ez_with N h cf in let bz := Bz_with N h cf in let phi := Phi_with N h cf in
    (mkF3 (full ex (Ex fprev)) (full ey (Ey fprev)) ez (full bx (Bx fprev)) (full b_y (By fprev)) bz phi,
     mkF3 ex ey (fun i j => (ez i j + Ez fprev i j) / 2) bx b_y (fun i j => (bz i j + Bz fprev i j) / 2) phi).
End Solve.
Definition compute_fields_gpu := fields_with dst2d_gpu dct2d_gpu mix2d_gpu.

(** ** noise_filter.py:8-49: the thread i of size**2, and the array it fills *)
Definition inhom_thread (size : nat) (d : arr) (i : nat) : R :=
  if negb (i mod size =? 0)%nat && negb ((i + 1) mod size =? 0)%nat then
    if nz (d (i - 1)%nat) && nz (d i) && nz (d (i + 1)%nat) then d i - (d (i - 1)%nat + d (i + 1)%nat) / 2 else 0
  else if (i mod size =? 0)%nat then
    if nz (d i) && nz (d (i + 1)%nat) && nz (d (i + 2)%nat) then d i - 2 * d (i + 1)%nat + d (i + 2)%nat else 0
  else
    if nz (d i) && nz (d (i - 1)%nat) && nz (d (i - 2)%nat) then d i - 2 * d (i - 1)%nat + d (i - 2)%nat else 0.
(** noise_filter.py:36-48: .ravel(), the kernel, .reshape(size, size) *)
Definition inhom_rows (K : nat) (a : arr2) : arr2 := fun i j =>
  inhom_thread K (fun z => a (z / K)%nat (z mod K)%nat) (i * K + j)%nat.
(** noise_filter.py:113-131: half the sum over both axes *)
Definition inhomogeneity_gpu (K : nat) (a : arr2) : arr2 := fun i j =>
  (inhom_rows K a i j + transpose (inhom_rows K (transpose a)) i j) / 2.
Section Step.
  Variable average : arr2 -> arr2.
  (** noise_filter.py:93-223 *)
  Definition noise_filter_gpu (K : nat) (X coef damp dmax : R) (a prev : nat -> nat -> pt3) : nat -> nat -> pt3 :=
    let dx := inhomogeneity_gpu K (fun i j => t_dx (a i j)) in let dy := inhomogeneity_gpu K (fun i j => t_dy (a i j)) in
    let cx := fun i j => dx i j - average dx i j in let cy := fun i j => dy i j - average dy i j in
    let mx := momentum_change K X coef damp dmax cx (fun i j => t_cx (prev i j)) cx cy in
    let my := momentum_change K X coef damp dmax cy (fun i j => t_cy (prev i j)) cx cy in
    fun i j => let p := a i j in
      mkT (t_x0 p) (t_y0 p) (t_dx p) (t_dy p) (t_px p + mx i j) (t_py p + my i j) (t_pz p) (t_q p) (t_m p) (cx i j) (cy i j).
  Definition move_free_gpu (s : solver3) (ps : parts3) : parts3 :=
    map_sorts (u_ions s) (fun a i j => move_free_gpu1 (u_xi s) (a i j)) ps.
  Definition move_smart_gpu (s : solver3) (f : fields3) (prev full : parts3) : parts3 :=
    let mv := fun a b : nat -> nat -> pt3 => fun i j => move_smart_gpu1 (Z.of_nat (u_n s)) (u_h s) (u_b s) (u_xi s) f (a i j) (b i j) in
    mkP3 (K_ full) (mv (el prev) (el full)) (match u_ions s with Background3 _ => io full | Mobile3 => mv (io prev) (io full) end).
  (** solver.py:28-77; [o k] and [o' k] order the additions of the two launches of deposition number k *)
  Definition step_gpu (o o' : nat -> order) (s : solver3) (rb_full rb_prev : arr2) (st : state3) : state3 :=
    let '(pp, fp, cp) := st in
    let rhoj := fun k => compute_rhoj_gpu (o k) (o' k) (Z.of_nat (u_n s)) (u_h s) (u_ions s) in
    let flds := fun f c => compute_fields_gpu (u_n s) (u_h s) (u_xi s) (u_coeff s) f fp rb_full rb_prev cp c in
    let p1 := move_smart_gpu s fp pp (move_free_gpu s pp) in
    let fh1 := snd (flds fp (rhoj 0%nat p1)) in
    let p2 := move_smart_gpu s fh1 pp p1 in
    let '(ff, fh2) := flds fh1 (rhoj 1%nat p2) in
    let p3 := move_smart_gpu s fh2 pp p2 in
    let p4 := if u_decl s
              then mkP3 (K_ p3) (noise_filter_gpu (K_ p3) (u_xi s) (u_force s) (u_damp s) (u_limit s) (el p3) (el pp)) (io p3) else p3 in
    (p4, ff, rhoj 2%nat p4).
End Step.

(** ** The beam density, lcode/beam3d/weights.py:70-138 and 152-163 *)

(** weights.py:70-79 *)
Definition weight1_gpu (x : R) (place : Z) : R := if (place =? 0)%Z then x else if (place =? 1)%Z then 1 - x else 0.
(** weights.py:117-132: the additions of the thread of one particle to out_ro0 ([pl] = 0) or out_ro1
    ([pl] = 1); weight4_cupy of the beam (weights.py:82-103) is the text modelled above *)
Definition beam_adds (n : Z) (h dxi : R) (idx pl : Z) (p : part3) : list (Z * R) :=
  let xi_layer := - dxi * IZR idx in
  let xi_loc := (xi_layer - b_xi p) / dxi in
  let x_h := b_x p / h + 0.5 in let y_h := b_y p / h + 0.5 in
  flat_map (fun kx =>
    let wx := weight4_gpu (loc x_h) kx in
    map (fun ky =>
      let w := wx * weight4_gpu (loc y_h) ky in
      (idx_gpu n (cell_gpu n x_h + kx) (cell_gpu n y_h + ky), b_q p * (w * weight1_gpu xi_loc pl))) places) places.
Definition flatten (n : Z) (g : grid) : mem := fun z => g (z / n)%Z (z mod n)%Z.
Definition deposit_beam_gpu (o : order) (n : Z) (h dxi : R) (idx : Z) (l : list part3) (out : grid * grid) : grid * grid :=
  (as_grid n (fold_left atomic_add (o 0%nat (flat_map (beam_adds n h dxi idx 0) l)) (flatten n (fst out))),
   as_grid n (fold_left atomic_add (o 1%nat (flat_map (beam_adds n h dxi idx 1) l)) (flatten n (snd out)))).
