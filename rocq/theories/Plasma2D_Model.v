(** Model of the 2D (cylindrical) plasma code: lcode/plasma/{ode,fields,rhoj,move,solver,initialization}.py.

    Simplifications: floats are exact reals (no rounding, overflow or NaN, so the np.isfinite tests
    of move.py always succeed); a 1D array is a function of its index together with its size, and
    that every index used is inside is proved separately (C25); arrays that the code updates in
    place are returned.  The class Arrays is a record; the dict {'electrons': .., 'ions': ..} is a
    pair. *)
From Coq Require Import Reals ZArith List Bool.
From Verif Require Import Beam2D_Model.
Import ListNotations.
Open Scope R_scope.

Definition arr := nat -> R.
Definition zeros : arr := fun _ => 0.
(** out[i] += v *)
Definition add_at (a : arr) (i : nat) (v : R) : arr := fun k => if (k =? i)%nat then a k + v else a k.
(** out[i] = v *)
Definition set_at (a : arr) (i : nat) (v : R) : arr := fun k => if (k =? i)%nat then v else a k.

(** ** ode.py *)
(** ode.py:26-30 (mode 'forward') *)
Fixpoint cumtrapz_fwd (y : arr) (dx : R) (i : nat) : R :=
  match i with
  | O => 0
  | S idx => cumtrapz_fwd y dx idx + dx * ((y (S idx) + y idx) / 2)
  end.
(** ode.py:31-35 (mode 'backward'): element [length - 1 - k] *)
Fixpoint cumtrapz_bwd_from (y : arr) (dx : R) (length k : nat) : R :=
  match k with
  | O => 0
  | S k' => let idx := (length - 2 - k')%nat in
            cumtrapz_bwd_from y dx length k' - dx * ((y (S idx) + y idx) / 2)
  end.
Definition cumtrapz_bwd (length : nat) (y : arr) (dx : R) : arr :=
  fun i => cumtrapz_bwd_from y dx length (length - 1 - i).

(** ode.py:41-54: forward elimination, (alpha[i], beta[i]) for i < nr *)
Fixpoint sweep (right_part previous_factor : arr) (r_step : R) (i : nat) : R * R :=
  match i with
  | O => (0, 0)
  | S i' =>
    let '(alpha, beta) := sweep right_part previous_factor r_step i' in
    let a := 1 + 0.5 / INR i in
    let b := 2 + previous_factor i * r_step ^ 2 + 1 / INR i ^ 2 in
    let c := 1 - 0.5 / INR i in
    let d := r_step ^ 2 * right_part i in
    let denom := 1 / (b - c * alpha) in
    (a * denom, (c * beta - d) * denom)
  end.
(** ode.py:55-61: element [nr - k] of the result *)
Fixpoint back_from (right_part previous_factor : arr) (r_step : R) (b0 b1 : R) (nr k : nat) : R :=
  match k with
  | O => let '(alpha, beta) := sweep right_part previous_factor r_step (nr - 1) in
         let d := r_step * right_part nr in (b0 * beta - d) / (b1 - b0 * alpha)
  | S k' => let '(alpha, beta) := sweep right_part previous_factor r_step (nr - S k') in
            beta + back_from right_part previous_factor r_step b0 b1 nr k' * alpha
  end.
Definition tridiagonal_solve (size : nat) (right_part previous_factor : arr) (r_step : R) (boundaries : R * R) : arr :=
  let nr := (size - 1)%nat in
  fun i => back_from right_part previous_factor r_step (fst boundaries) (snd boundaries) nr (nr - i).
(** ode.py:64-68 *)
Definition tridiagonal_solve_neumann_like (size : nat) (right_part previous_factor : arr) (r_step : R) : arr :=
  let nr := INR (size - 1) in
  tridiagonal_solve size right_part previous_factor r_step (- (nr - 1) / (nr - 1 / 2), - nr / (nr - 1 / 2)).
(** ode.py:71-74 *)
Definition tridiagonal_solve_dirichlet (size : nat) (right_part previous_factor : arr) (r_step : R) : arr :=
  tridiagonal_solve size right_part previous_factor r_step (0, -1).

(** ** fields.py *)
(** fields.py:43-52 *)
Definition compute_e_r (n : nat) (total_rho j_r j_r_prev e_r_prev factor : arr) (r_step xi_step : R) : arr :=
  let right_part := fun i =>
    if (i =? 0)%nat then 0
    else if (i =? n - 1)%nat then (total_rho (n - 2)%nat + total_rho (n - 1)%nat) / 2
    else (j_r i - j_r_prev i) / xi_step - factor i * e_r_prev i + (total_rho (S i) - total_rho (i - 1)%nat) / 2 / r_step in
  tridiagonal_solve_neumann_like n right_part factor r_step.
(** fields.py:82-89 *)
Definition compute_e_phi (n : nat) (j_f j_f_prev e_f_prev factor : arr) (r_step xi_step : R) : arr :=
  let right_part := fun i =>
    if (i =? 0)%nat then 0 else if (i =? n - 1)%nat then 0
    else (j_f i - j_f_prev i) / xi_step - factor i * e_f_prev i in
  tridiagonal_solve_dirichlet n right_part factor r_step.
(** fields.py:110-112 *)
Definition compute_e_z (n : nat) (j_r : arr) (r_step : R) : arr := cumtrapz_bwd n j_r r_step.
(** fields.py:137-147 *)
Definition compute_b_phi (n : nat) (rho j_z e_r : arr) (r_step : R) : arr :=
  let t := cumtrapz_fwd (fun i => INR i * (rho i - j_z i)) r_step in
  fun i => e_r i - (if (i =? 0)%nat then t i else t i / INR i).
Fixpoint sumN (n : nat) (f : arr) : R := match n with O => 0 | S n' => sumN n' f + f n' end.
(** fields.py:168-177 *)
Definition compute_b_z (n : nat) (j_f : arr) (r_step : R) : arr :=
  let b := cumtrapz_bwd n (fun i => - j_f i) r_step in
  let magnetic_flux := sumN n (fun i => (2 * INR i + 1) * b i) in
  fun i => b i - magnetic_flux / INR (n - 1) ^ 2.
(** fields.py:180-198 *)
Definition prev_factor (rho j_r j_f j_z : arr) : arr := fun j =>
  let electron_density := rho j - 1 in
  let f :=
    if Rlt_dec (-0.1) electron_density then 0
    else
      let invgamma_sq := 1 - (j_r j ^ 2 + j_f j ^ 2 + j_z j ^ 2) / electron_density ^ 2 in
      if Rle_dec invgamma_sq 0 then 0
      else 3 * (1 / sqrt invgamma_sq - 1) - 5 in
  (if Rlt_dec f 0 then 0 else f) + 1.

Record fields2 := mkF2 { f_er : arr; f_ef : arr; f_ez : arr; f_bf : arr; f_bz : arr }.
(** Densities of one sort of particles; the code keeps row 0 for electrons, row 1 for ions. *)
Record dens := mkD { d_rho : arr; d_jr : arr; d_jf : arr; d_jz : arr }.
Record currents2 := mkJ { row_e : dens; row_i : dens }.
(** np.sum(.., axis=0) *)
Definition total (c : currents2) (f : dens -> arr) : arr := fun i => f (row_e c) i + f (row_i c) i.
Definition avg (a b : arr) : arr := fun i => (a i + b i) / 2.
Definition avg_fields (a b : fields2) : fields2 :=
  mkF2 (avg (f_er a) (f_er b)) (avg (f_ef a) (f_ef b)) (avg (f_ez a) (f_ez b)) (avg (f_bf a) (f_bf b)) (avg (f_bz a) (f_bz b)).
(** fields.py:203-266: (new fields, their average with the previous ones) *)
Definition compute_fields (n : nat) (r_step : R) (fields fields_prev : fields2) (rho_beam : arr)
           (cur_prev cur : currents2) (xi_step : R) : fields2 * fields2 :=
  let f := avg_fields fields fields_prev in
  let factor := prev_factor (d_rho (row_e cur)) (d_jr (row_e cur)) (d_jf (row_e cur)) (d_jz (row_e cur)) in
  let total_rho := fun i => total cur d_rho i + rho_beam i in
  let e_r := compute_e_r n total_rho (total cur d_jr) (total cur_prev d_jr) (f_er f) factor r_step xi_step in
  let e_f := compute_e_phi n (total cur d_jf) (total cur_prev d_jf) (f_ef f) (fun _ => 1) r_step xi_step in
  let e_z := compute_e_z n (total cur d_jr) r_step in
  let b_f := compute_b_phi n (total cur d_rho) (total cur d_jz) e_r r_step in
  let b_z := compute_b_z n (total cur d_jf) r_step in
  let nf := mkF2 e_r e_f e_z b_f b_z in
  (nf, avg_fields nf fields_prev).

(** ** rhoj.py *)
(** rhoj.py:12-23 *)
Definition weight_quadratic (x : R) (place : Z) : R :=
  match place with
  | (-1)%Z => (x - 1 / 2) ^ 2 / 2
  | 0%Z => 3 / 4 - x ^ 2
  | 1%Z => (x + 1 / 2) ^ 2 / 2
  | _ => 0
  end.

Record pl2 := mkPl { r_ : R; pr_ : R; pf_ : R; pz_ : R; q_ : R; m_ : R; age_ : R }.

(** The four "+=" of rhoj.py:54-57 and 66-69; [sg] is -1 in the central cell. *)
Definition add4 (o : dens) (i : nat) (w sg : R) (drho djr djf djz : R) : dens :=
  mkD (add_at (d_rho o) i (drho * w)) (add_at (d_jr o) i (sg * (djr * w)))
      (add_at (d_jf o) i (sg * (djf * w))) (add_at (d_jz o) i (djz * w)).
(** rhoj.py:34-69: one particle.  The cell index is that of a particle with r >= 0. *)
Definition cell2 (h r : R) : Z := floorR (r / h + 0.5).
Definition deposit_particle (h : R) (n : nat) (o : dens) (p : pl2) : dens :=
  let gm := sqrt (m_ p ^ 2 + pr_ p ^ 2 + pf_ p ^ 2 + pz_ p ^ 2) in
  let dep := q_ p / (gm - pz_ p) in
  let drho := dep * gm in let djr := dep * pr_ p in let djf := dep * pf_ p in let djz := dep * pz_ p in
  let c := cell2 h (r_ p) in
  let x := r_ p / h - IZR c in
  let o1 := if (c =? 0)%Z then add4 o 1 (weight_quadratic x (-1)) (-1) drho djr djf djz else o in
  fold_left (fun o place =>
    let i := if (c =? Z.of_nat n - 1)%Z && (place =? 1)%Z then (n - 2)%nat else Z.to_nat (c + place) in
    add4 o i (weight_quadratic x place) 1 drho djr djf djz)
    (if (c =? 0)%Z then [0; 1] else [-1; 0; 1])%Z o1.
(** rhoj.py:71-78 *)
Definition close_ends (n : nat) (o : dens) : dens :=
  mkD (d_rho o) (set_at (set_at (d_jr o) 0 0) (n - 1) 0) (set_at (set_at (d_jf o) 0 0) (n - 1) 0)
      (set_at (d_jz o) (n - 1) 0).
Definition zero_dens : dens := mkD zeros zeros zeros zeros.
Definition deposit2 (h : R) (n : nat) (ps : list pl2) : dens :=
  close_ends n (fold_left (deposit_particle h n) ps zero_dens).
(** rhoj.py:83-92 *)
Definition cell_volume (h : R) (ppc n : nat) : arr := fun j =>
  let cpp := 1 / INR ppc in
  if (j =? n - 1)%nat then PI * h ^ 2 * (INR n - 45 / 32)
  else if (j =? 0)%nat then PI * h ^ 2 * ((13 + 2 * cpp ^ 2) / 32)
  else if (j =? 1)%nat then 2 * PI * h ^ 2 * INR j * ((193 + 2 * cpp ^ 2) / 192)
  else 2 * PI * h ^ 2 * INR j.
Definition per_volume (v : arr) (o : dens) : dens :=
  mkD (fun i => d_rho o i / v i) (fun i => d_jr o i / v i) (fun i => d_jf o i / v i) (fun i => d_jz o i / v i).
(** ion-model: background (fixed density, const_arrays.ni) or mobile *)
Inductive ions := Background (ni : arr) | Mobile.
Record particles2 := mkP2 { electrons : list pl2; ion_list : list pl2 }.
(** rhoj.py:101-127 *)
Definition compute_rhoj (h : R) (ppc n : nat) (im : ions) (ps : particles2) : currents2 :=
  let v := cell_volume h ppc n in
  mkJ (per_volume v (deposit2 h n (electrons ps)))
      (match im with
       | Background ni => mkD ni zeros zeros zeros
       | Mobile => per_volume v (deposit2 h n (ion_list ps))
       end).

(** ** move.py *)
(** move.py:7-37: (e_x, e_y, e_z, b_y, b_z); n = E_r.size *)
Definition interpolate2 (n : nat) (c : Z) (x : R) (f : fields2) : R * R * R * R * R :=
  let a1 := (x - 0.5) * (0.5 * (x - 0.5)) in
  let a2 := 0.75 - x ^ 2 in
  let a3 := (x + 0.5) * (0.5 * (x + 0.5)) in
  let jc := Z.to_nat c in
  if (Z.of_nat n <=? c)%Z then (0, 0, 0, 0, 0)
  else
    let jm0 := (jc - 1)%nat in
    let jp := if (c =? Z.of_nat n - 1)%Z then jm0 else (jc + 1)%nat in
    let jm := if (c =? Z.of_nat n - 1)%Z then jm0 else if (c =? 0)%Z then jp else jm0 in
    let sym := fun g : arr => a1 * g jm + a2 * g jc + a3 * g jp in
    let asym := fun g : arr => if (c =? 0)%Z then (a3 - a1) * g jm + a2 * g jc else a1 * g jm + a2 * g jc + a3 * g jp in
    (asym (f_er f), asym (f_ef f), sym (f_ez f), asym (f_bf f), sym (f_bz f)).
(** move.py:40-55 *)
Definition noise_at (n : nat) (amp : arr) (c : Z) (x r_step : R) : R :=
  if (Z.of_nat n <=? c)%Z then 0
  else if (c =? 0)%Z then 0
  else if Req_EM_T (amp (Z.to_nat c)) 0 then 0
  else
    let f := (PI * sin (PI * x) + cos (PI * x) / IZR c) / (PI ^ 2 + 1 / IZR c ^ 2) in
    amp (Z.to_nat c) * r_step * f.

Record pcfg2 := mkC2 { g_n : nat; g_h : R; g_rmax : R; g_bz : R }.
(** The particle removed from the simulation: r = max_radius / 2, everything else 0. *)
Definition killed (c : pcfg2) (p : pl2) (age : R) : pl2 := mkPl (g_rmax c / 2) 0 0 0 0 (m_ p) (age_ p - age).
(** move.py:104-107 and 121-124: the Lorentz force times the step *)
Definition kick (q : R) (e : R * R * R * R * R) (dl gm px py pz : R) : R * R * R :=
  let '(e_x, e_y, e_z, b_y, b_z) := e in
  (q * dl * (gm * e_x + py * b_z - pz * b_y), q * dl * (gm * e_y - pz * e_y - px * b_z),
   q * dl * (gm * e_z + px * b_y + py * e_y)).
(** move.py:89-95: is the middle point beyond the wall, and where it is put *)
Definition beyond (R0 r : R) : bool := if Rlt_dec r 0 then false else if Rlt_dec R0 r then true else false.
Definition fold_r (R0 r : R) : R := if Rlt_dec r 0 then - r else if Rlt_dec R0 r then 2 * R0 - r else r.
Definition outside (R0 r : R) : bool := if Rlt_dec r 0 then true else if Rlt_dec R0 r then true else false.
(** move.py:97-101: the fields on the particle, (e_x, e_y, e_z, b_y, b_z) *)
Definition fields_at (c : pcfg2) (f : fields2) (amp : arr) (r_half : R) : R * R * R * R * R :=
  let cell := cell2 (g_h c) r_half in
  let x := r_half / g_h c - IZR cell in
  let '(ex, ey, ez, b_y, b_z) := interpolate2 (g_n c) cell x f in
  (ex + noise_at (g_n c) amp cell x (g_h c), ey, ez, b_y, b_z).
(** move.py:126-165: the new particle (age already reduced) and the path, from the old radius, the
    starting momenta, the last momentum change, dl_t and gammam.  r_new being a square root, the
    branch r_new < 0 (line 147) is kept but never taken. *)
Definition finish (c : pcfg2) (p : pl2) (r_pred : R) (p0 d : R * R * R) (dl gm : R) : pl2 * R :=
  let '(p_xo, p_yo, p_zo) := p0 in let '(d_px, d_py, d_pz) := d in
  let R0 := g_rmax c in let r := r_ p in
  let dx := (p_xo + d_px / 2) * dl in
  let dy := (p_yo + d_py / 2) * dl in
  let px := p_xo + d_px in let py := p_yo + d_py in let pz := p_zo + d_pz in
  let x_new := r + dx in
  let r_new := sqrt (x_new ^ 2 + dy ^ 2) in
  let path := Rmax (Rmax (Rabs (r - r_new)) (Rabs (r - r_pred))) (Rabs (r_new - r_pred)) in
  let nz := if Req_EM_T r_new 0 then false else true in
  let p_r := if nz then (px * x_new + py * dy) / r_new else px in
  let p_f := if nz then (py * x_new - px * dy) / r_new else 0 in
  let over := beyond R0 r_new in
  let r2 := fold_r R0 r_new in
  let p_r2 := if Rlt_dec r_new 0 then - p_r else if over then 0 else p_r in
  let p_f2 := if over then 0 else p_f in
  let p_z2 := if over then 0 else pz in
  if outside R0 r2 then (killed c p 0, 0)
  else (mkPl r2 p_r2 p_f2 p_z2 (q_ p) (m_ p) (age_ p - gm * dl), path).
Definition sq4 (m a b d : R) : R := sqrt (m ^ 2 + a ^ 2 + b ^ 2 + d ^ 2).
(** move.py:103-124: from the fields at the middle point *)
Definition push_half (c : pcfg2) (p : pl2) (e : R * R * R * R * R) (r_pred xi_step : R) (p0 : R * R * R) (dl gm : R) : pl2 * R :=
  let '(p_xo, p_yo, p_zo) := p0 in
  let '(d_px, d_py, d_pz) := kick (q_ p) e dl gm p_xo p_yo p_zo in
  let px := p_xo + d_px / 2 in let py := p_yo + d_py / 2 in let pz := p_zo + d_pz / 2 in
  let gm2 := sq4 (m_ p) px py pz in
  if Req_EM_T gm2 pz then (killed c p 0, 0)
  else
    let dl2 := xi_step / (gm2 - pz) in
    finish c p r_pred p0 (kick (q_ p) e dl2 gm2 px py pz) dl2 gm2.
(** move.py:59-165: one step; the new particle (age already reduced) and the path.  [amp] is the
    noise amplitude; [f] already contains the external magnetic field.  The np.isfinite tests always
    succeed on reals. *)
Definition move_one2 (c : pcfg2) (f : fields2) (amp : arr) (xi_step : R) (p : pl2) : pl2 * R :=
  let R0 := g_rmax c in
  let gm := sq4 (m_ p) (pr_ p) (pf_ p) (pz_ p) in
  if Req_EM_T gm (pz_ p) then (killed c p 0, 0)
  else
    let dl := xi_step / (gm - pz_ p) in
    let r_pred := r_ p + pr_ p * dl / 2 in
    let r_half := fold_r R0 r_pred in
    if beyond R0 r_pred then
      if outside R0 r_half then (killed c p (m_ p * (xi_step / m_ p)), Rabs (r_ p - r_pred))
      else push_half c p (fields_at c f amp r_half) r_pred xi_step (0, 0, 0) (xi_step / m_ p) (m_ p)
    else
      if outside R0 r_half then (killed c p (gm * dl), Rabs (r_ p - r_pred))
      else push_half c p (fields_at c f amp r_half) r_pred xi_step (pr_ p, pf_ p, pz_ p) dl gm.

(** move.py:176-213: the while loop for one particle.  At every loop head the trial values equal the
    last saved ones, so one record is enough. *)
Fixpoint sub_loop (fuel : nat) (step : R -> pl2 -> pl2 * R) (r_step xi_step_p : R) (p : pl2) (xi_particle cur : R)
  : option pl2 :=
  if Rle_dec xi_particle (0.99999 * xi_step_p) then
    if Req_EM_T (q_ p) 0 then Some p
    else
      match fuel with
      | O => None
      | S fuel' =>
        let '(p', path) := step cur p in
        if (if Rle_dec r_step path then if Rlt_dec 0.0001 (cur / xi_step_p) then true else false else false)
        then sub_loop fuel' step r_step xi_step_p p xi_particle (cur / 2)
        else sub_loop fuel' step r_step xi_step_p p' (xi_particle + cur) cur
      end
  else Some p.
(** move.py:222-239 *)
Definition add_bz (c : pcfg2) (f : fields2) : fields2 :=
  mkF2 (f_er f) (f_ef f) (f_ez f) (f_bf f) (fun i => f_bz f i + g_bz c).
Definition move_list (fuel : nat) (c : pcfg2) (f : fields2) (amp : arr) (xi_step : R) (l : list pl2) : option (list pl2) :=
  map_opt (fun p => sub_loop fuel (move_one2 c (add_bz c f) amp) (g_h c) xi_step p 0 xi_step) l.
Definition move_particles2 (fuel : nat) (c : pcfg2) (f : fields2) (amp : arr) (xi_step : R) (ps : particles2) : option particles2 :=
  bind (move_list fuel c f amp xi_step (electrons ps)) (fun e =>
  bind (move_list fuel c f amp xi_step (ion_list ps)) (fun i => Some (mkP2 e i))).

(** ** solver.py *)
(** solver.py:10-19 *)
Definition noise_amplitude (n : nat) (cur : currents2) (enabled : bool) : arr :=
  let r0 := d_rho (row_e cur) in let r1 := d_rho (row_i cur) in
  let inner := fun i => 2 * (r0 i - r1 i) + (r1 (S i) + r1 (i - 1)%nat - r0 (S i) - r0 (i - 1)%nat) in
  fun i => if enabled then
             (if (i =? 0)%nat then 0 else if (i =? n - 1)%nat then - inner (n - 2)%nat else inner i) / 4
           else 0.
(** np.abs(xi_step_p * j_z).max() *)
Fixpoint max_upto (n : nat) (f : nat -> R) : R := match n with O => 0 | S n' => Rmax (max_upto n' f) (f n') end.
Definition charge_move (n : nat) (xi_step : R) (cur : currents2) : R :=
  Rmax (max_upto n (fun i => Rabs (xi_step * d_jz (row_e cur) i))) (max_upto n (fun i => Rabs (xi_step * d_jz (row_i cur) i))).

(** The substep bookkeeping of step_dxi (solver.py:40-98), over any notion of state: [need xi s] is
    the test of line 66-67, [adv xi s] what lines 59-64 and 75-88 compute. *)
Section Substeps.
  Variable St : Type.
  Variable need : R -> St -> option bool.
  Variable adv : R -> St -> option St.
  Variable max_depth : nat.
  (** solver.py:90-93: the inner while; (depth, counters, xi_step) *)
  Fixpoint unwind (depth : nat) (cnt : nat -> Z) (xi : R) : nat * (nat -> Z) * R :=
    match depth with
    | O => (O, cnt, xi)
    | S d => if (cnt depth =? 1)%Z then unwind d (fun k => if (k =? depth)%nat then 0%Z else cnt k) (xi * 10)
             else (depth, cnt, xi)
    end.
  Fixpoint step_loop (fuel : nat) (depth : nat) (cnt : nat -> Z) (xi : R) (s : St) : option St :=
    match fuel with
    | O => None
    | S fuel' =>
      bind (need xi s) (fun nd =>
      if nd && (depth <? max_depth)%nat then
        step_loop fuel' (S depth) (fun k => if (k =? S depth)%nat then 10%Z else cnt k) (xi / 10) s
      else
        bind (adv xi s) (fun s' =>
        let '(d', cnt', xi') := unwind depth cnt xi in
        let cnt2 := fun k => if (k =? d')%nat then (cnt' k - 1)%Z else cnt' k in
        if (d' =? 0)%nat then Some s' else step_loop fuel' d' cnt2 xi' s'))
    end.
End Substeps.

Record solver2 := mkS2 { v_c : pcfg2; v_ppc : nat; v_ions : ions; v_xi : R; v_sens : R; v_depth : nat;
                         v_path_lim : R; v_noise : bool; v_corr : nat }.
Definition pstate := (particles2 * fields2 * currents2)%type.
Definition predict (fuel : nat) (s : solver2) (xi : R) (st : pstate) : option (particles2 * currents2) :=
  let '(ps, f, cur) := st in
  option_map (fun ps' => (ps', compute_rhoj (g_h (v_c s)) (v_ppc s) (g_n (v_c s)) (v_ions s) ps'))
    (move_particles2 fuel (v_c s) f (noise_amplitude (g_n (v_c s)) cur (v_noise s)) xi ps).
Definition need2 (fuel : nat) (s : solver2) (xi : R) (st : pstate) : option bool :=
  option_map (fun x => if Rlt_dec (v_sens s) (charge_move (g_n (v_c s)) xi (snd x)) then true else false)
    (predict fuel s xi st).
(** solver.py:75-88 *)
Fixpoint correct (fuel : nat) (s : solver2) (rho_beam : arr) (xi : R) (k : nat) (st : pstate)
         (new : particles2 * fields2 * currents2) : option pstate :=
  match k with
  | O => Some new
  | S k' =>
    let '(ps, f, cur) := st in let '(_, fn, cn) := new in
    let '(fn', fa) := compute_fields (g_n (v_c s)) (g_h (v_c s)) fn f rho_beam cur cn xi in
    bind (move_particles2 fuel (v_c s) fa (noise_amplitude (g_n (v_c s)) cn (v_noise s)) xi ps) (fun ps' =>
    correct fuel s rho_beam xi k' st (ps', fn', compute_rhoj (g_h (v_c s)) (v_ppc s) (g_n (v_c s)) (v_ions s) ps'))
  end.
Definition adv2 (fuel : nat) (s : solver2) (rho_beam : arr) (xi : R) (st : pstate) : option pstate :=
  let '(ps, f, cur) := st in
  bind (predict fuel s xi st) (fun x => correct fuel s rho_beam xi (v_corr s) st (fst x, f, snd x)).
(** solver.py:38-98.  With trapped-path-limit <> 0 line 51 asks a dict for its attribute q
    (AttributeError). *)
Definition step_dxi2 (fuel : nat) (s : solver2) (rho_beam : arr) (st : pstate) : option pstate :=
  if Req_EM_T (v_path_lim s) 0 then
    step_loop pstate (need2 fuel s) (adv2 fuel s rho_beam) (v_depth s) fuel 0 (fun _ => 0%Z) (v_xi s) st
  else None.

(** ** initialization.py *)
(** initialization.py:9-16, in units: n_particles = int(window_width / r_step) * ppc; the profile
    coefficient multiplies charge and mass (profile_initial_plasma) and particles of zero charge are
    dropped. *)
Definition place_particles (w r_step : R) (ppc : nat) : list R :=
  let np := (Z.to_nat (floorR (w / r_step)) * ppc)%nat in
  let dr := w / INR np in
  map (fun k => (INR k + 0.5) * dr) (seq 0 np).
(** positions[1] - positions[0] = dr (at least two particles) *)
Definition init_electrons (w r_step : R) (ppc : nat) (coef : R -> R) (path_lim : R) : list pl2 :=
  let np := (Z.to_nat (floorR (w / r_step)) * ppc)%nat in
  let dr := w / INR np in
  filter (fun p => if Req_EM_T (q_ p) 0 then false else true)
    (map (fun r => mkPl r 0 0 0 (- (2 * PI * dr * r) * coef r) (2 * PI * dr * r * coef r)
                        (if Rlt_dec 0 path_lim then path_lim else 0)) (place_particles w r_step ppc)).
Definition zero_fields : fields2 := mkF2 zeros zeros zeros zeros zeros.
(** initialization.py:18-102: background ions (fields, particles, currents and the solver's ion
    density) *)
Definition init_background (w r_step : R) (ppc : nat) (coef : R -> R) (path_lim : R) : pstate * ions :=
  let n := S (Z.to_nat (floorR (w / r_step))) in
  let e := init_electrons w r_step ppc coef path_lim in
  let ne := d_rho (row_e (compute_rhoj r_step ppc n (Background zeros) (mkP2 e []))) in
  ((mkP2 e [], zero_fields, mkJ (mkD ne zeros zeros zeros) (mkD (fun i => - ne i) zeros zeros zeros)),
   Background (fun i => - ne i)).
(** initialization.py:83-95: mobile ions of mass ion_mass per charge *)
Definition init_mobile (w r_step : R) (ppc : nat) (coef : R -> R) (path_lim ion_mass : R) : pstate * ions :=
  let e := init_electrons w r_step ppc coef path_lim in
  let i := map (fun p => mkPl (r_ p) 0 0 0 (- q_ p) (ion_mass * - q_ p) 0) e in
  ((mkP2 e i, zero_fields, mkJ zero_dens zero_dens), Mobile).
