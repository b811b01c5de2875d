(** The 2D plasma layer once more (lcode/plasma/{ode,fields,rhoj,move,solver,initialization}.py), with every arithmetic
    operation followed by a rounding [rnd]; [rnd] = [double] of Float_Model is binary64, [rnd] = the identity gives
    back Plasma2D_Model (Rounded2D_Exact).  The operations are in the order of the source; x ** 2 is x * x.
    Simplifications: overflow, nan and inf are left out; pi is the rounded pi, sin and cos are the rounded ones; exact
    small integers are not rounded. *)
From Coq Require Import Reals ZArith List Bool.
From Verif Require Import Beam2D_Model Plasma2D_Model Rounded3D_Model.
Import ListNotations.
Open Scope R_scope.

Section Rounded.
  Variable rnd : R -> R.
  Local Notation "x (+) y" := (rnd (x + y)) (at level 50, left associativity).
  Local Notation "x (-) y" := (rnd (x - y)) (at level 50, left associativity).
  Local Notation "x (.) y" := (rnd (x * y)) (at level 40, left associativity).
  Local Notation "x (/) y" := (rnd (x / y)) (at level 40, left associativity).
  Local Notation f2 := (Rounded3D_Model.f2 rnd).
  Definition pi_f : R := rnd PI.

  (** ** ode.py *)
  (** ode.py:26-30 *)
  Fixpoint cumtrapz_fwd_f (y : arr) (dx : R) (i : nat) : R :=
    match i with
    | O => 0
    | S idx => cumtrapz_fwd_f y dx idx (+) dx (.) ((y (S idx) (+) y idx) (/) 2)
    end.
  (** ode.py:31-35 *)
  Fixpoint cumtrapz_bwd_from_f (y : arr) (dx : R) (length k : nat) : R :=
    match k with
    | O => 0
    | S k' => let idx := (length - 2 - k')%nat in
              cumtrapz_bwd_from_f y dx length k' (-) dx (.) ((y (S idx) (+) y idx) (/) 2)
    end.
  Definition cumtrapz_bwd_f (length : nat) (y : arr) (dx : R) : arr := fun i => cumtrapz_bwd_from_f y dx length (length - 1 - i).
  (** ode.py:41-54 *)
  Fixpoint sweep_f (right_part previous_factor : arr) (r_step : R) (i : nat) : R * R :=
    match i with
    | O => (0, 0)
    | S i' =>
      let '(alpha, beta) := sweep_f right_part previous_factor r_step i' in
      let a := 1 (+) 0.5 (/) INR i in
      let b := 2 (+) previous_factor i (.) f2 r_step (+) 1 (/) INR i ^ 2 in
      let c := 1 (-) 0.5 (/) INR i in
      let d := f2 r_step (.) right_part i in
      let denom := 1 (/) (b (-) c (.) alpha) in
      (a (.) denom, (c (.) beta (-) d) (.) denom)
    end.
  (** ode.py:55-61 *)
  Fixpoint back_from_f (right_part previous_factor : arr) (r_step : R) (b0 b1 : R) (nr k : nat) : R :=
    match k with
    | O => let '(alpha, beta) := sweep_f right_part previous_factor r_step (nr - 1) in
           let d := r_step (.) right_part nr in (b0 (.) beta (-) d) (/) (b1 (-) b0 (.) alpha)
    | S k' => let '(alpha, beta) := sweep_f right_part previous_factor r_step (nr - S k') in
              beta (+) back_from_f right_part previous_factor r_step b0 b1 nr k' (.) alpha
    end.
  Definition tridiagonal_solve_f (size : nat) (right_part previous_factor : arr) (r_step : R) (boundaries : R * R) : arr :=
    let nr := (size - 1)%nat in
    fun i => back_from_f right_part previous_factor r_step (fst boundaries) (snd boundaries) nr (nr - i).
  (** ode.py:64-68 *)
  Definition neumann_like_f (size : nat) (right_part previous_factor : arr) (r_step : R) : arr :=
    let nr := INR (size - 1) in
    tridiagonal_solve_f size right_part previous_factor r_step (- (nr - 1) (/) (nr (-) 1 / 2), - nr (/) (nr (-) 1 / 2)).
  (** ode.py:71-74 *)
  Definition dirichlet_f (size : nat) (right_part previous_factor : arr) (r_step : R) : arr :=
    tridiagonal_solve_f size right_part previous_factor r_step (0, -1).

  (** ** fields.py *)
  (** fields.py:43-52 *)
  Definition compute_e_r_f (n : nat) (total_rho j_r j_r_prev e_r_prev factor : arr) (r_step xi_step : R) : arr :=
    let right_part := fun i =>
      if (i =? 0)%nat then 0
      else if (i =? n - 1)%nat then (total_rho (n - 2)%nat (+) total_rho (n - 1)%nat) (/) 2
      else (j_r i (-) j_r_prev i) (/) xi_step (-) factor i (.) e_r_prev i (+) (total_rho (S i) (-) total_rho (i - 1)%nat) (/) 2 (/) r_step in
    neumann_like_f n right_part factor r_step.
  (** fields.py:82-89 *)
  Definition compute_e_phi_f (n : nat) (j_f j_f_prev e_f_prev factor : arr) (r_step xi_step : R) : arr :=
    let right_part := fun i =>
      if (i =? 0)%nat then 0 else if (i =? n - 1)%nat then 0
      else (j_f i (-) j_f_prev i) (/) xi_step (-) factor i (.) e_f_prev i in
    dirichlet_f n right_part factor r_step.
  (** fields.py:137-147 *)
  Definition compute_b_phi_f (n : nat) (rho j_z e_r : arr) (r_step : R) : arr :=
    let t := cumtrapz_fwd_f (fun i => INR i (.) (rho i (-) j_z i)) r_step in
    fun i => e_r i (-) (if (i =? 0)%nat then t i else t i (/) INR i).
  (** fields.py:168-177 *)
  Definition compute_b_z_f (n : nat) (j_f : arr) (r_step : R) : arr :=
    let b := cumtrapz_bwd_f n (fun i => - j_f i) r_step in
    let magnetic_flux := sum_f rnd n (fun i => (2 * INR i + 1) (.) b i) in
    fun i => b i (-) magnetic_flux (/) INR (n - 1) ^ 2.
  (** fields.py:180-198 *)
  Definition prev_factor_f (rho j_r j_f j_z : arr) : arr := fun j =>
    let electron_density := rho j (-) 1 in
    let f :=
      if Rlt_dec (rnd (-0.1)) electron_density then 0
      else
        let invgamma_sq := 1 (-) (f2 (j_r j) (+) f2 (j_f j) (+) f2 (j_z j)) (/) f2 electron_density in
        if Rle_dec invgamma_sq 0 then 0
        else 3 (.) (1 (/) rnd (sqrt invgamma_sq) (-) 1) (-) 5 in
    (if Rlt_dec f 0 then 0 else f) (+) 1.
  Definition total_f (c : currents2) (f : dens -> arr) : arr := fun i => f (row_e c) i (+) f (row_i c) i.
  Definition avg_f (a b : arr) : arr := fun i => (a i (+) b i) (/) 2.
  Definition avg_fields_f (a b : fields2) : fields2 :=
    mkF2 (avg_f (f_er a) (f_er b)) (avg_f (f_ef a) (f_ef b)) (avg_f (f_ez a) (f_ez b)) (avg_f (f_bf a) (f_bf b)) (avg_f (f_bz a) (f_bz b)).
  (** fields.py:203-266 *)
  Definition compute_fields_f (n : nat) (r_step : R) (fields fields_prev : fields2) (rho_beam : arr)
             (cur_prev cur : currents2) (xi_step : R) : fields2 * fields2 :=
    let f := avg_fields_f fields fields_prev in
    let factor := prev_factor_f (d_rho (row_e cur)) (d_jr (row_e cur)) (d_jf (row_e cur)) (d_jz (row_e cur)) in
    let total_rho := fun i => total_f cur d_rho i (+) rho_beam i in
    let e_r := compute_e_r_f n total_rho (total_f cur d_jr) (total_f cur_prev d_jr) (f_er f) factor r_step xi_step in
    let e_f := compute_e_phi_f n (total_f cur d_jf) (total_f cur_prev d_jf) (f_ef f) (fun _ => 1) r_step xi_step in
    let e_z := cumtrapz_bwd_f n (total_f cur d_jr) r_step in
    let b_f := compute_b_phi_f n (total_f cur d_rho) (total_f cur d_jz) e_r r_step in
    let b_z := compute_b_z_f n (total_f cur d_jf) r_step in
    let nf := mkF2 e_r e_f e_z b_f b_z in
    (nf, avg_fields_f nf fields_prev).

  (** ** rhoj.py *)
  (** rhoj.py:12-23 *)
  Definition weight_quadratic_f (x : R) (place : Z) : R :=
    match place with
    | (-1)%Z => f2 (x (-) 1 / 2) (/) 2
    | 0%Z => 3 / 4 (-) f2 x
    | 1%Z => f2 (x (+) 1 / 2) (/) 2
    | _ => 0
    end.
  Definition add_at_f (a : arr) (i : nat) (v : R) : arr := fun k => if (k =? i)%nat then a k (+) v else a k.
  (** rhoj.py:54-57 and 66-69 *)
  Definition add4_f (o : dens) (i : nat) (w sg : R) (drho djr djf djz : R) : dens :=
    mkD (add_at_f (d_rho o) i (drho (.) w)) (add_at_f (d_jr o) i (sg * (djr (.) w)))
        (add_at_f (d_jf o) i (sg * (djf (.) w))) (add_at_f (d_jz o) i (djz (.) w)).
  Definition cell2_f (h r : R) : Z := floorR (r (/) h (+) 0.5).
  Definition sq4_f (m a b d : R) : R := rnd (sqrt (f2 m (+) f2 a (+) f2 b (+) f2 d)).
  (** rhoj.py:34-69 *)
  Definition deposit_particle_f (h : R) (n : nat) (o : dens) (p : pl2) : dens :=
    let gm := sq4_f (m_ p) (pr_ p) (pf_ p) (pz_ p) in
    let dep := q_ p (/) (gm (-) pz_ p) in
    let drho := dep (.) gm in let djr := dep (.) pr_ p in let djf := dep (.) pf_ p in let djz := dep (.) pz_ p in
    let c := cell2_f h (r_ p) in
    let x := r_ p (/) h (-) IZR c in
    let o1 := if (c =? 0)%Z then add4_f o 1 (weight_quadratic_f x (-1)) (-1) drho djr djf djz else o in
    fold_left (fun o place =>
      let i := if (c =? Z.of_nat n - 1)%Z && (place =? 1)%Z then (n - 2)%nat else Z.to_nat (c + place) in
      add4_f o i (weight_quadratic_f x place) 1 drho djr djf djz)
      (if (c =? 0)%Z then [0; 1] else [-1; 0; 1])%Z o1.
  Definition deposit2_f (h : R) (n : nat) (ps : list pl2) : dens :=
    close_ends n (fold_left (deposit_particle_f h n) ps zero_dens).
  (** rhoj.py:83-92 *)
  Definition cell_volume_f (h : R) (ppc n : nat) : arr := fun j =>
    let cpp := 1 (/) INR ppc in
    if (j =? n - 1)%nat then pi_f (.) f2 h (.) (INR n (-) 45 / 32)
    else if (j =? 0)%nat then pi_f (.) f2 h (.) ((13 (+) 2 (.) f2 cpp) (/) 32)
    else if (j =? 1)%nat then 2 (.) pi_f (.) f2 h (.) INR j (.) ((193 (+) 2 (.) f2 cpp) (/) 192)
    else 2 (.) pi_f (.) f2 h (.) INR j.
  Definition per_volume_f (v : arr) (o : dens) : dens :=
    mkD (fun i => d_rho o i (/) v i) (fun i => d_jr o i (/) v i) (fun i => d_jf o i (/) v i) (fun i => d_jz o i (/) v i).
  (** rhoj.py:101-127 *)
  Definition compute_rhoj_f (h : R) (ppc n : nat) (im : ions) (ps : particles2) : currents2 :=
    let v := cell_volume_f h ppc n in
    mkJ (per_volume_f v (deposit2_f h n (electrons ps)))
        (match im with
         | Background ni => mkD ni zeros zeros zeros
         | Mobile => per_volume_f v (deposit2_f h n (ion_list ps))
         end).

  (** ** move.py *)
  (** move.py:7-37 *)
  Definition interpolate2_f (n : nat) (c : Z) (x : R) (f : fields2) : R * R * R * R * R :=
    let a1 := (x (-) 0.5) (.) (0.5 (.) (x (-) 0.5)) in
    let a2 := 0.75 (-) f2 x in
    let a3 := (x (+) 0.5) (.) (0.5 (.) (x (+) 0.5)) in
    let jc := Z.to_nat c in
    if (Z.of_nat n <=? c)%Z then (0, 0, 0, 0, 0)
    else
      let jm0 := (jc - 1)%nat in
      let jp := if (c =? Z.of_nat n - 1)%Z then jm0 else (jc + 1)%nat in
      let jm := if (c =? Z.of_nat n - 1)%Z then jm0 else if (c =? 0)%Z then jp else jm0 in
      let sym := fun g : arr => a1 (.) g jm (+) a2 (.) g jc (+) a3 (.) g jp in
      let asym := fun g : arr => if (c =? 0)%Z then (a3 (-) a1) (.) g jm (+) a2 (.) g jc else a1 (.) g jm (+) a2 (.) g jc (+) a3 (.) g jp in
      (asym (f_er f), asym (f_ef f), sym (f_ez f), asym (f_bf f), sym (f_bz f)).
  (** move.py:40-55 *)
  Definition noise_at_f (n : nat) (amp : arr) (c : Z) (x r_step : R) : R :=
    if (Z.of_nat n <=? c)%Z then 0
    else if (c =? 0)%Z then 0
    else if Req_EM_T (amp (Z.to_nat c)) 0 then 0
    else
      let f := (pi_f (.) rnd (sin (pi_f (.) x)) (+) rnd (cos (pi_f (.) x)) (/) IZR c) (/) (f2 pi_f (+) 1 (/) IZR c ^ 2) in
      amp (Z.to_nat c) (.) r_step (.) f.
  Definition killed_f (c : pcfg2) (p : pl2) (age : R) : pl2 := mkPl (g_rmax c (/) 2) 0 0 0 0 (m_ p) (age_ p (-) age).
  (** move.py:104-107, 121-124 *)
  Definition kick_f (q : R) (e : R * R * R * R * R) (dl gm px py pz : R) : R * R * R :=
    let '(e_x, e_y, e_z, b_y, b_z) := e in
    (q (.) dl (.) (gm (.) e_x (+) py (.) b_z (-) pz (.) b_y), q (.) dl (.) (gm (.) e_y (-) pz (.) e_y (-) px (.) b_z),
     q (.) dl (.) (gm (.) e_z (+) px (.) b_y (+) py (.) e_y)).
  Definition fold_r_f (R0 r : R) : R := if Rlt_dec r 0 then - r else if Rlt_dec R0 r then 2 (.) R0 (-) r else r.
  (** move.py:97-101 *)
  Definition fields_at_f (c : pcfg2) (f : fields2) (amp : arr) (r_half : R) : R * R * R * R * R :=
    let cell := cell2_f (g_h c) r_half in
    let x := r_half (/) g_h c (-) IZR cell in
    let '(ex, ey, ez, b_y, b_z) := interpolate2_f (g_n c) cell x f in
    (ex (+) noise_at_f (g_n c) amp cell x (g_h c), ey, ez, b_y, b_z).
  (** move.py:126-165 *)
  Definition finish_f (c : pcfg2) (p : pl2) (r_pred : R) (p0 d : R * R * R) (dl gm : R) : pl2 * R :=
    let '(p_xo, p_yo, p_zo) := p0 in let '(d_px, d_py, d_pz) := d in
    let R0 := g_rmax c in let r := r_ p in
    let dx := (p_xo (+) d_px (/) 2) (.) dl in
    let dy := (p_yo (+) d_py (/) 2) (.) dl in
    let px := p_xo (+) d_px in let py := p_yo (+) d_py in let pz := p_zo (+) d_pz in
    let x_new := r (+) dx in
    let r_new := rnd (sqrt (f2 x_new (+) f2 dy)) in
    let path := Rmax (Rmax (Rabs (r (-) r_new)) (Rabs (r (-) r_pred))) (Rabs (r_new (-) r_pred)) in
    let nz := if Req_EM_T r_new 0 then false else true in
    let p_r := if nz then (px (.) x_new (+) py (.) dy) (/) r_new else px in
    let p_f := if nz then (py (.) x_new (-) px (.) dy) (/) r_new else 0 in
    let over := beyond R0 r_new in
    let r2 := fold_r_f R0 r_new in
    let p_r2 := if Rlt_dec r_new 0 then - p_r else if over then 0 else p_r in
    let p_f2 := if over then 0 else p_f in
    let p_z2 := if over then 0 else pz in
    if outside R0 r2 then (killed_f c p 0, 0)
    else (mkPl r2 p_r2 p_f2 p_z2 (q_ p) (m_ p) (age_ p (-) gm (.) dl), path).
  (** move.py:103-124 *)
  Definition push_half_f (c : pcfg2) (p : pl2) (e : R * R * R * R * R) (r_pred xi_step : R) (p0 : R * R * R) (dl gm : R) : pl2 * R :=
    let '(p_xo, p_yo, p_zo) := p0 in
    let '(d_px, d_py, d_pz) := kick_f (q_ p) e dl gm p_xo p_yo p_zo in
    let px := p_xo (+) d_px (/) 2 in let py := p_yo (+) d_py (/) 2 in let pz := p_zo (+) d_pz (/) 2 in
    let gm2 := sq4_f (m_ p) px py pz in
    if Req_EM_T gm2 pz then (killed_f c p 0, 0)
    else
      let dl2 := xi_step (/) (gm2 (-) pz) in
      finish_f c p r_pred p0 (kick_f (q_ p) e dl2 gm2 px py pz) dl2 gm2.
  (** move.py:59-165 *)
  Definition move_one2_f (c : pcfg2) (f : fields2) (amp : arr) (xi_step : R) (p : pl2) : pl2 * R :=
    let R0 := g_rmax c in
    let gm := sq4_f (m_ p) (pr_ p) (pf_ p) (pz_ p) in
    if Req_EM_T gm (pz_ p) then (killed_f c p 0, 0)
    else
      let dl := xi_step (/) (gm (-) pz_ p) in
      let r_pred := r_ p (+) pr_ p (.) dl (/) 2 in
      let r_half := fold_r_f R0 r_pred in
      if beyond R0 r_pred then
        if outside R0 r_half then (killed_f c p (m_ p (.) (xi_step (/) m_ p)), Rabs (r_ p (-) r_pred))
        else push_half_f c p (fields_at_f c f amp r_half) r_pred xi_step (0, 0, 0) (xi_step (/) m_ p) (m_ p)
      else
        if outside R0 r_half then (killed_f c p (gm (.) dl), Rabs (r_ p (-) r_pred))
        else push_half_f c p (fields_at_f c f amp r_half) r_pred xi_step (pr_ p, pf_ p, pz_ p) dl gm.
  (** move.py:176-213 *)
  Fixpoint sub_loop_f (fuel : nat) (step : R -> pl2 -> pl2 * R) (r_step xi_step_p : R) (p : pl2) (xi_particle cur : R) : option pl2 :=
    if Rle_dec xi_particle (rnd 0.99999 (.) xi_step_p) then
      if Req_EM_T (q_ p) 0 then Some p
      else
        match fuel with
        | O => None
        | S fuel' =>
          let '(p', path) := step cur p in
          if (if Rle_dec r_step path then if Rlt_dec (rnd 0.0001) (cur (/) xi_step_p) then true else false else false)
          then sub_loop_f fuel' step r_step xi_step_p p xi_particle (cur (/) 2)
          else sub_loop_f fuel' step r_step xi_step_p p' (xi_particle (+) cur) cur
        end
    else Some p.
  (** move.py:222-239 *)
  Definition add_bz_f (c : pcfg2) (f : fields2) : fields2 := mkF2 (f_er f) (f_ef f) (f_ez f) (f_bf f) (fun i => f_bz f i (+) g_bz c).
  Definition move_list_f (fuel : nat) (c : pcfg2) (f : fields2) (amp : arr) (xi_step : R) (l : list pl2) : option (list pl2) :=
    map_opt (fun p => sub_loop_f fuel (move_one2_f c (add_bz_f c f) amp) (g_h c) xi_step p 0 xi_step) l.
  Definition move_particles2_f (fuel : nat) (c : pcfg2) (f : fields2) (amp : arr) (xi_step : R) (ps : particles2) : option particles2 :=
    bind (move_list_f fuel c f amp xi_step (electrons ps)) (fun e =>
    bind (move_list_f fuel c f amp xi_step (ion_list ps)) (fun i => Some (mkP2 e i))).

  (** ** solver.py *)
  (** solver.py:10-19 *)
  Definition noise_amplitude_f (n : nat) (cur : currents2) (enabled : bool) : arr :=
    let r0 := d_rho (row_e cur) in let r1 := d_rho (row_i cur) in
    let inner := fun i => 2 (.) (r0 i (-) r1 i) (+) (r1 (S i) (+) r1 (i - 1)%nat (-) r0 (S i) (-) r0 (i - 1)%nat) in
    fun i => if enabled then
               (if (i =? 0)%nat then 0 else if (i =? n - 1)%nat then - inner (n - 2)%nat else inner i) (/) 4
             else 0.
  Definition charge_move_f (n : nat) (xi_step : R) (cur : currents2) : R :=
    Rmax (max_upto n (fun i => Rabs (xi_step (.) d_jz (row_e cur) i))) (max_upto n (fun i => Rabs (xi_step (.) d_jz (row_i cur) i))).
  (** solver.py:40-98, the bookkeeping of the substeps; see Plasma2D_Model.Substeps *)
  Fixpoint unwind_f (depth : nat) (cnt : nat -> Z) (xi : R) : nat * (nat -> Z) * R :=
    match depth with
    | O => (O, cnt, xi)
    | S d => if (cnt depth =? 1)%Z then unwind_f d (fun k => if (k =? depth)%nat then 0%Z else cnt k) (xi (.) 10)
             else (depth, cnt, xi)
    end.
  Fixpoint step_loop_f (St : Type) (need : R -> St -> option bool) (adv : R -> St -> option St) (max_depth : nat)
           (fuel : nat) (depth : nat) (cnt : nat -> Z) (xi : R) (s : St) : option St :=
    match fuel with
    | O => None
    | S fuel' =>
      bind (need xi s) (fun nd =>
      if nd && (depth <? max_depth)%nat then
        step_loop_f St need adv max_depth fuel' (S depth) (fun k => if (k =? S depth)%nat then 10%Z else cnt k) (xi (/) 10) s
      else
        bind (adv xi s) (fun s' =>
        let '(d', cnt', xi') := unwind_f depth cnt xi in
        let cnt2 := fun k => if (k =? d')%nat then (cnt' k - 1)%Z else cnt' k in
        if (d' =? 0)%nat then Some s' else step_loop_f St need adv max_depth fuel' d' cnt2 xi' s'))
    end.
  Definition predict_f (fuel : nat) (s : solver2) (xi : R) (st : pstate) : option (particles2 * currents2) :=
    let '(ps, f, cur) := st in
    option_map (fun ps' => (ps', compute_rhoj_f (g_h (v_c s)) (v_ppc s) (g_n (v_c s)) (v_ions s) ps'))
      (move_particles2_f fuel (v_c s) f (noise_amplitude_f (g_n (v_c s)) cur (v_noise s)) xi ps).
  Definition need2_f (fuel : nat) (s : solver2) (xi : R) (st : pstate) : option bool :=
    option_map (fun x => if Rlt_dec (v_sens s) (charge_move_f (g_n (v_c s)) xi (snd x)) then true else false) (predict_f fuel s xi st).
  (** solver.py:75-88 *)
  Fixpoint correct_f (fuel : nat) (s : solver2) (rho_beam : arr) (xi : R) (k : nat) (st : pstate)
           (new : particles2 * fields2 * currents2) : option pstate :=
    match k with
    | O => Some new
    | S k' =>
      let '(ps, f, cur) := st in let '(_, fn, cn) := new in
      let '(fn', fa) := compute_fields_f (g_n (v_c s)) (g_h (v_c s)) fn f rho_beam cur cn xi in
      bind (move_particles2_f fuel (v_c s) fa (noise_amplitude_f (g_n (v_c s)) cn (v_noise s)) xi ps) (fun ps' =>
      correct_f fuel s rho_beam xi k' st (ps', fn', compute_rhoj_f (g_h (v_c s)) (v_ppc s) (g_n (v_c s)) (v_ions s) ps'))
    end.
  Definition adv2_f (fuel : nat) (s : solver2) (rho_beam : arr) (xi : R) (st : pstate) : option pstate :=
    let '(ps, f, cur) := st in
    bind (predict_f fuel s xi st) (fun x => correct_f fuel s rho_beam xi (v_corr s) st (fst x, f, snd x)).
  (** solver.py:38-98 *)
  Definition step_dxi2_f (fuel : nat) (s : solver2) (rho_beam : arr) (st : pstate) : option pstate :=
    if Req_EM_T (v_path_lim s) 0 then
      step_loop_f pstate (need2_f fuel s) (adv2_f fuel s rho_beam) (v_depth s) fuel 0 (fun _ => 0%Z) (v_xi s) st
    else None.

  (** ** initialization.py *)
  (** initialization.py:9-12; int(window_width / r_step) *)
  Definition cells_f (w r_step : R) : nat := Z.to_nat (floorR (w (/) r_step)).
  Definition place_particles_f (w r_step : R) (ppc : nat) : list R :=
    let np := (cells_f w r_step * ppc)%nat in
    let dr := w (/) INR np in
    map (fun k => (INR k + 0.5) (.) dr) (seq 0 np).
  (** initialization.py:14-16: positions[1] - positions[0] *)
  Definition spacing_f (l : list R) : R := nth 1 l 0 (-) nth 0 l 0.
  (** initialization.py:27-44 *)
  Definition init_electrons_f (w r_step : R) (ppc : nat) (coef : R -> R) : list pl2 :=
    let l := place_particles_f w r_step ppc in
    filter (fun p => if Req_EM_T (q_ p) 0 then false else true)
      (map (fun r => let mass := 2 (.) pi_f (.) spacing_f l (.) r in mkPl r 0 0 0 (- mass (.) coef r) (mass (.) coef r) 0) l).
  (** initialization.py:18-102 with background ions; :83-95 with mobile ones *)
  Definition init2_f (w r_step : R) (ppc : nat) (coef : R -> R) (mobile : option R) : pstate * ions :=
    let n := S (cells_f w r_step) in
    let e := init_electrons_f w r_step ppc coef in
    match mobile with
    | None =>
      let ne := d_rho (row_e (compute_rhoj_f r_step ppc n (Background zeros) (mkP2 e []))) in
      ((mkP2 e [], zero_fields, mkJ (mkD ne zeros zeros zeros) (mkD (fun i => - ne i) zeros zeros zeros)), Background (fun i => - ne i))
    | Some mass =>
      ((mkP2 e (map (fun p => mkPl (r_ p) 0 0 0 (- q_ p) (mass (.) (- q_ p)) 0) e), zero_fields, mkJ zero_dens zero_dens), Mobile)
    end.
End Rounded.
