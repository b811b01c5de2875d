(** Model of the axisymmetric beam code: lcode/beam/data.py, lcode/beam/beam_io.py,
    lcode/beam/weights.py, lcode/beam/beam_calculate.py, and the xi loop of
    lcode/push_solvers/push_solver.py:54-148.

    Simplifications: floats are exact reals; an array of structures is a list of records; a write
    or read outside an array is modelled explicitly as failure in deposition ([add_at]) and shown
    not to happen in interpolation (theorem C15_field_lookup_in_range); logging, printing and
    diagnostics are left out.  numpy.argsort with the default (unstable) algorithm is a parameter
    about which only sortedness is assumed. *)
From Coq Require Import Reals ZArith List Bool Permutation Sorting.Sorted.
Import ListNotations.
Open Scope R_scope.

(** data.py:4-6 (particle_dtype) *)
Record part := mkPart { xi : R; rad : R; p_z : R; p_r : R; ang : R; q_m : R; q_norm : R; pid : Z }.
(** data.py:8-31: a particle together with the per-particle arrays dt, remaining_steps and lost,
    "not stored in beam". *)
Record bpart := mkB { pt : part; dt : R; rem : nat; lost : bool }.

(** data.py:25-29: BeamParticles(size, particles) *)
Definition fresh (p : part) : bpart := mkB p 0 1 false.

(** ** Source and drain *)

(** beam_io.py:84-97; data.py:93-107.  [s_xi] is the xi view taken by sort(), [s_parts] the
    particles array: removing the stub particle shortens only the latter. *)
Record source := mkSrc { s_xi : list R; s_parts : list part; used : nat }.

(** beam_io.py:67-79 (find_sub_slice): the loop over [i]; [xs] is the array from index [i] on. *)
Fixpoint scan (xs : list R) (i start : nat) (xi_max xi_min : R) : nat * bool :=
  match xs with
  | [] => (i, false)
  | x :: t =>
    if Rlt_dec (x - xi_min) 0 then (i, false)
    else if Rlt_dec 0 (x - xi_max) then (start, true)
    else scan t (S i) start xi_max xi_min
  end.

(** beam_io.py:99-108.  [None] is the failed assertion xi_min < xi_max.  The result is the declared
    size and the particles of the slice, with fresh substepping data. *)
Definition get_beam_slice (s : source) (xi_max xi_min : R) : option (nat * list bpart * source) :=
  if Rlt_dec xi_min xi_max then
    let '(e, flag) := scan (skipn (used s) (s_xi s)) (used s) (used s) xi_max xi_min in
    Some ((e - used s)%nat, map fresh (firstn (e - used s) (skipn (used s) (s_parts s))),
          mkSrc (s_xi s) (s_parts s) (used s + (e - used s)))
  else None.

(** beam_io.py:110-133: MemoryBeamDrain keeps the pushed slices; beam_slice() concatenates the
    particles (dt, remaining_steps, lost are dropped here, as [pt] does). *)
Definition drain_push (d : list (list bpart)) (s : list bpart) : list (list bpart) :=
  match s with [] => d | _ => d ++ [s] end.
Definition drain_beam (d : list (list bpart)) : list part := map pt (concat d).

Section Calc.
  (** np.argsort(-xi) applied to the particles, and np.argsort of a boolean array applied to all
      per-particle arrays. *)
  Variable sort_xi : list part -> list part.
  Variable sort_bool : (bpart -> bool) -> list bpart -> list bpart.

  (** beam_io.py:83-97 *)
  Definition new_source (beam : list part) : source :=
    let l := sort_xi beam in
    match l with
    | [] => mkSrc [] [] 0
    | p0 :: _ =>
      mkSrc (map xi l) (if Rlt_dec (xi (last l p0) + 100000) 1 then removelast l else l) 0
    end.

  Definition count (f : bpart -> bool) (l : list bpart) : nat := length (filter f l).

  (** beam_calculate.py:451-489 (split_beam_slice); data.py:38-44 (get_subslice). *)
  Definition split_beam_slice (l : list bpart) (xi_end : R) : list bpart * list bpart * list bpart :=
    let s1 := rev (sort_bool lost l) in
    let lost_count := count lost s1 in
    let lost_slice := firstn lost_count s1 in
    let rest := skipn lost_count s1 in
    let moving := fun b => (0 <? rem b)%nat || (if Rlt_dec (xi (pt b)) xi_end then true else false) in
    let stable_count := (length rest - count moving rest)%nat in
    let s2 := sort_bool moving rest in
    (lost_slice, firstn stable_count s2, skipn stable_count s2).

  (** ** Weights: weights.py *)
  Definition floorR (x : R) : Z := (up x - 1)%Z.
  (** weights.py:11-23 *)
  Definition particle_weights (r x xi_end r_step xi_step : R) : Z * R * R * R * R :=
    let j := floorR (r / r_step) in
    let dxi := - (xi_end - x) / xi_step in
    let dr := r / r_step - IZR j in
    (j, dxi * (1 - dr), dxi * dr, (1 - dxi) * (1 - dr), (1 - dxi) * dr).

  (** weights.py:5-8: out[i] += v; [None] when the index is outside the array (undefined behaviour
      in the compiled code). *)
  Fixpoint add_nat (out : list R) (i : nat) (v : R) : option (list R) :=
    match out, i with
    | [], _ => None
    | x :: t, O => Some (x + v :: t)
    | x :: t, S i' => option_map (cons x) (add_nat t i' v)
    end.
  Definition add_at (out : list R) (i : Z) (v : R) : option (list R) :=
    if (i <? 0)%Z then None else add_nat out (Z.to_nat i) v.

  Definition bind {X Y} (o : option X) (f : X -> option Y) : option Y :=
    match o with Some x => f x | None => None end.

  (** weights.py:41-45.  The four array passes write to the same cells in another order; over exact
      reals the sums are the same, so particles are deposited one after another. *)
  Fixpoint deposit (l : list bpart) (out0 out1 : list R) (xi_end r_step xi_step : R)
    : option (list R * list R) :=
    match l with
    | [] => Some (out0, out1)
    | b :: t =>
      let '(j, a00, a01, a10, a11) :=
        particle_weights (rad (pt b)) (xi (pt b)) xi_end r_step xi_step in
      let v := q_norm (pt b) in
      bind (add_at out0 j (a00 * v)) (fun o0 =>
      bind (add_at o0 (j + 1) (a01 * v)) (fun o0' =>
      bind (add_at out1 j (a10 * v)) (fun o1 =>
      bind (add_at o1 (j + 1) (a11 * v)) (fun o1' =>
      deposit t o0' o1' xi_end r_step xi_step))))
    end.

  (** beam_calculate.py:409-412: x / r_step^2, cell 0 times 6, cell j divided by j. *)
  Definition scale_cell (r_step : R) (j : nat) (x : R) : R :=
    match j with O => x / r_step ^ 2 * 6 | _ => x / r_step ^ 2 / INR j end.
  Fixpoint scale_from (r_step : R) (j : nat) (l : list R) : list R :=
    match l with [] => [] | x :: t => scale_cell r_step j x :: scale_from r_step (S j) t end.

  (** beam_calculate.py:381-413 (layout_beam_layer); [rho_layout] is the state of the calculator.
      Returns the density of layer xi_i and the new state. *)
  Definition layout_beam_layer (r_step xi_step : R) (rho_layout : list R) (l : list bpart) (xi_i : Z)
    : option (list R * list R) :=
    let next := map (fun _ => 0) rho_layout in
    let xi_end := IZR (xi_i + 1) * (- xi_step) in
    bind (deposit l rho_layout next xi_end r_step xi_step) (fun o =>
    Some (scale_from r_step 0 (fst o), snd o)).

  (** ** Pusher *)
  Definition vec := (R * R * R)%type.
  Definition vx (v : vec) : R := fst (fst v).
  Definition vy (v : vec) : R := snd (fst v).
  Definition vz (v : vec) : R := snd v.
  Definition vadd (a b : vec) : vec := (vx a + vx b, vy a + vy b, vz a + vz b).
  Definition vscale (k : R) (a : vec) : vec := (k * vx a, k * vy a, k * vz a).
  (** np.sum(v ** 2) *)
  Definition vsq (a : vec) : R := vx a ^ 2 + vy a ^ 2 + vz a ^ 2.
  (** beam_calculate.py:41-49 *)
  Definition cross (a b : vec) : vec :=
    (vy a * vz b - vz a * vy b, vz a * vx b - vx a * vz b, vx a * vy b - vy a * vx b).
  Definition Rsgn (x : R) : R := if Rlt_dec 0 x then 1 else if Rlt_dec x 0 then -1 else 0.

  Record fields := mkF { E_r : list R; E_f : list R; E_z : list R; B_f : list R; B_z : list R }.

  Definition at_ (l : list R) (j : Z) : R := nth (Z.to_nat j) l 0.
  (** weights.py:49-53 *)
  Definition interpolate (v0 v1 : list R) (w : Z * R * R * R * R) : R :=
    let '(j, a00, a01, a10, a11) := w in
    a00 * at_ v0 j + a01 * at_ v0 (j + 1) + a10 * at_ v1 j + a11 * at_ v1 (j + 1).
  (** weights.py:57-69; [fk1] are the fields at xi_i, [fk] those at xi_i - 1. *)
  Definition particle_fields (x : vec) (fk1 fk : fields) (xi_k_1 r_step xi_step : R) : vec * vec :=
    let r := sqrt (vx x ^ 2 + vy x ^ 2) in
    let w := particle_weights r (vz x) xi_k_1 r_step xi_step in
    let e_x := interpolate (E_r fk) (E_r fk1) w in
    let e_y := interpolate (E_f fk) (E_f fk1) w in
    let e_z := interpolate (E_z fk) (E_z fk1) w in
    let b_y := interpolate (B_f fk) (B_f fk1) w in
    let b_z := interpolate (B_z fk) (B_z fk1) w in
    ((e_x, e_y, e_z), (- e_y, b_y, b_z)).

  (** Parameters read in configure_beam_pusher, beam_calculate.py:111-116 *)
  Record pcfg := mkP { r_step : R; xi_step : R; max_radius : R; magnetic_field : R;
                       time_step : R; sub_energy : R }.
  Definition lost_boundary (c : pcfg) : R := Rmax (0.9 * max_radius c) (max_radius c - 1).

  (** beam_calculate.py:53-59 *)
  Definition in_layer (x : vec) (xi_k_1 : R) : bool := if Rle_dec xi_k_1 (vz x) then true else false.
  Definition is_lost (x : vec) (rmax : R) : bool :=
    if Rle_dec (rmax ^ 2) (vx x ^ 2 + vy x ^ 2) then true else false.

  (** beam_calculate.py:63-74.  (Division by r = 0 gives an unspecified real here, inf or nan in the
      code.) *)
  Definition beam_to_vec (p : part) : vec * vec :=
    ((p_r p, ang p / rad p, p_z p), (rad p, 0, xi p)).
  (** beam_calculate.py:78-95.  The argument [lost] of vec_to_beam is always False in the code, so
      the id never changes; [ang] changes only with a magnetic field. *)
  Definition vec_to_beam (c : pcfg) (b : bpart) (x p : vec) (steps : nat) (l : bool) : bpart :=
    let r := sqrt (vx x ^ 2 + vy x ^ 2) in
    mkB (mkPart (vz x) r (vz p) ((vx x * vx p + vy x * vy p) / r)
                (if Req_EM_T (magnetic_field c) 0 then ang (pt b) else vx x * vy p - vy x * vx p)
                (q_m (pt b)) (q_norm (pt b)) (pid (pt b)))
        (dt b) steps l.

  (** beam_calculate.py:203-210: position at the middle of a substep *)
  Definition half_position (p : part) (d : R) : vec :=
    let '(pv, x) := beam_to_vec p in
    let gm := sqrt ((1 / q_m p) ^ 2 + vsq pv) in
    let h := vadd x (vscale (d / 2 / gm) pv) in
    (vx h, vy h, vz h - d / 2).

  (** beam_calculate.py:221-240: one completed substep, new position and momentum.  [eb] is the
      interpolated field at the middle of the substep, before the external field is added. *)
  Definition substep (c : pcfg) (p : part) (d : R) (eb : vec * vec) : vec * vec :=
    let '(pv, x) := beam_to_vec p in
    let gm := sqrt ((1 / q_m p) ^ 2 + vsq pv) in
    let e := fst eb in
    let b := (vx (snd eb), vy (snd eb), vz (snd eb) + magnetic_field c) in
    let ph := vadd pv (vscale (d / 2 * Rsgn (q_m p)) (vadd e (cross (vscale (/ gm) pv) b))) in
    let gmh := sqrt ((1 / q_m p) ^ 2 + vsq ph) in
    let x1 := vadd x (vscale (d / gmh) ph) in
    ((vx x1, vy x1, vz x1 - d), (2 * vx ph - vx pv, 2 * vy ph - vy pv, 2 * vz ph - vz pv)).

  (** beam_calculate.py:196-255: the loop "while steps > 0" for one particle.  [steps] is the value
      of the loop variable, equal to rem of the stored particle at every loop head. *)
  Fixpoint push_loop (c : pcfg) (fk1 fk : fields) (xi_end : R) (steps : nat) (b : bpart) : bpart :=
    match steps with
    | O => b
    | S steps' =>
      let '(pv, x) := beam_to_vec (pt b) in
      let xh := half_position (pt b) (dt b) in
      if negb (in_layer xh xi_end) then b
      else if is_lost xh (lost_boundary c) then vec_to_beam c b x pv steps true
      else
        let eb := particle_fields xh fk1 fk xi_end (r_step c) (xi_step c) in
        let '(x1, p1) := substep c (pt b) (dt b) eb in
        if is_lost x1 (lost_boundary c) then vec_to_beam c b x1 p1 steps' true
        else push_loop c fk1 fk xi_end steps' (vec_to_beam c b x1 p1 steps' (lost b))
    end.
  Definition push_particle (c : pcfg) (fk1 fk : fields) (xi_end : R) (b : bpart) : bpart :=
    push_loop c fk1 fk xi_end (rem b) b.

  (** beam_calculate.py:14-37: the loop "while dt > max_dt: dt /= 2".  [n] bounds the number of
      halvings; None when it is exhausted (theorem C14 shows it is not for enough n). *)
  Fixpoint halve_loop (n : nat) (d max_dt : R) : option R :=
    if Rlt_dec max_dt d then
      match n with O => None | S n' => halve_loop n' (d / 2) max_dt end
    else Some d.
  Definition max_sub_dt (qm pz energy : R) : R := sqrt (sqrt (1 / qm ^ 2 + pz ^ 2) / energy).

  (** beam_calculate.py:259-287 (init_substepping) and 335-343: initialise the newly received
      particles, i.e. those with dt = 0.  (1/dt).astype(int) truncates.  [halvings] is the fuel for
      [halve_loop]. *)
  Definition prepare (halvings : nat) (c : pcfg) (b : bpart) : option bpart :=
    if Req_EM_T (dt b) 0 then
      if Req_EM_T (sub_energy c) 0 then Some (mkB (pt b) (time_step c) (rem b) (lost b))
      else
        option_map (fun d => mkB (pt b) (d * time_step c) (Z.to_nat (floorR (1 / d))) (lost b))
          (halve_loop halvings 1 (max_sub_dt (q_m (pt b)) (p_z (pt b)) (sub_energy c)))
    else Some b.

  Fixpoint map_opt {X Y} (f : X -> option Y) (l : list X) : option (list Y) :=
    match l with
    | [] => Some []
    | x :: t => bind (f x) (fun y => option_map (cons y) (map_opt f t))
    end.

  (** beam_calculate.py:310-352 and 415-449: move_beam_layer = move then split. *)
  Definition move_beam_layer (halvings : nat) (c : pcfg) (l : list bpart) (xi_i : Z)
             (prev_fields new_fields : fields) : option (list bpart * list bpart * list bpart) :=
    let xi_end := IZR xi_i * - xi_step c in
    option_map (fun l' => split_beam_slice
                            (map (push_particle c new_fields prev_fields xi_end) l') xi_end)
               (map_opt (prepare halvings c) l).

  (** push_solver.py:97-129: the xi loop.  The plasma solver is the abstract [plasma] (a function of
      the state and of the beam density).  [n] iterations starting at [xi_i].  Result: layer still
      to be moved, all lost particles, drain, source.  [None]: an exception or undefined access. *)
  Variable Pl : Type.
  Variable plasma : Pl -> list R -> list R -> Pl.
  Variable pl_fields : Pl -> fields.

  Record loop_state := mkLS { ls_src : source; ls_move : list bpart; ls_lost : list bpart;
                              ls_drain : list (list bpart); ls_rho : list R; ls_prev : list R;
                              ls_plasma : Pl }.
  Definition xi_iter (halvings : nat) (c : pcfg) (xi_i : Z) (s : loop_state) : option loop_state :=
    bind (get_beam_slice (ls_src s) (IZR xi_i * - xi_step c) (IZR (xi_i + 1) * - xi_step c)) (fun g =>
    let '(_, layer, src') := g in
    bind (layout_beam_layer (r_step c) (xi_step c) (ls_rho s) layer xi_i) (fun d =>
    let '(rho, rho') := d in
    let pl' := plasma (ls_plasma s) rho (ls_prev s) in
    bind (move_beam_layer halvings c (ls_move s) xi_i (pl_fields (ls_plasma s)) (pl_fields pl')) (fun m =>
    let '(l, moved, fell) := m in
    Some (mkLS src' (layer ++ fell) (ls_lost s ++ l) (drain_push (ls_drain s) moved) rho' rho pl')))).
  Fixpoint xi_loop (halvings : nat) (c : pcfg) (n : nat) (xi_i : Z) (s : loop_state) : option loop_state :=
    match n with
    | O => Some s
    | S n' => bind (xi_iter halvings c xi_i s) (xi_loop halvings c n' (xi_i + 1))
    end.
End Calc.
