(** Model of lcode/diagnostics: utils.py, FXi/FXi.py, FXi/Strategy3D.py, FXi/StrategyCircular.py,
    slice.py, particles.py, and of the option parsing of diagnostics_3d.py.

    Numbers are real numbers, files are values (the name and what is stored under every key), the
    electron arrays are lists.  Not modelled: drawing of pictures, directories, GPU copies,
    and the classes of diagnostics_3d.py other than the names DiagnosticsFXi accepts and records (see Diag3D_Model). *)
From Coq Require Import Reals ZArith List Bool Ascii String.
From Verif Require Import Beam2D_Model Plasma2D_Model Shape_Model Plasma3D_Model.
Import ListNotations.
Local Open Scope list_scope.
Local Open Scope R_scope.

(** Python's round and np.round to an integer: nearest, ties to even (IEEE 754). *)
Definition nearest_even (x : R) : Z :=
  let f := floorR x in
  if Rlt_dec (x - IZR f) (1 / 2) then f
  else if Rlt_dec (1 / 2) (x - IZR f) then (f + 1)%Z
  else if Z.even f then f else (f + 1)%Z.
(** math.remainder(x, y) for finite y <> 0: x - n*y with n the integer nearest to x/y, ties to even. *)
Definition py_remainder (x y : R) : R := x - IZR (nearest_even (x / y)) * y.

(** A period given by the user: a number or math.inf. *)
Inductive period := Every (P : R) | Never.
(** utils.py:18-20 and 39-51: abs(remainder(x, y)); remainder(x, inf) = x. *)
Definition absremainder (x : R) (y : period) : R :=
  match y with Every P => Rabs (py_remainder x P) | Never => Rabs x end.
(** FXi.py:83-87, slice.py:67-68, particles.py:38-41 *)
Definition clamp_period (P : period) (step : R) : period :=
  match P with Every p => if Rlt_dec p step then Every step else P | Never => Never end.
(** utils.py:22-24 (slice.py:106-107, 115 and particles.py:50-55, 86 are the same test) *)
Definition condition_check (t : R) (P : period) (dt : R) : bool :=
  if Rle_dec (absremainder t P) (dt / 2) then true else false.

(** simulation.py:244, 264: the times of the steps one rank executes. *)
Definition rank_times (dt : R) (size rank steps : nat) : list R :=
  map (fun j => dt * INR (rank + 1) + INR j * (dt * INR size)) (seq 0 steps).

(** numpy's indexing of an axis of length n by i: negative indices count from the end, None is an
    IndexError. *)
Definition np_index (n i : Z) : option Z :=
  (if (0 <=? i) && (i <? n) then Some i else if (- n <=? i) && (i <? 0) then Some (i + n) else None)%Z.

(** What the solver shows the diagnostics at one layer, 3D (push_solver.py:265-270); square arrays of
    [l3_steps] cells.  [l3_chx], [l3_chy]: the electrons' dx_chaotic, dy_chaotic, as rows. *)
Record layer3 := mkL3 {
  l3_xi : R; l3_steps : Z;
  l3_ex : grid; l3_ey : grid; l3_ez : grid; l3_bx : grid; l3_by : grid; l3_bz : grid; l3_phi : grid;
  l3_ne : grid; l3_ni : grid; l3_beam : grid;
  l3_el : list pt3; l3_chx : list (list R); l3_chy : list (list R) }.
(** ... and in 2D (push_solver.py:132-140); arrays of [l2_n] cells. *)
Record layer2 := mkL2 {
  l2_xi : R; l2_n : Z; l2_er : Z -> R; l2_ef : Z -> R; l2_ez : Z -> R; l2_bf : Z -> R; l2_bz : Z -> R;
  l2_ne : Z -> R; l2_ni : Z -> R; l2_beam : Z -> R }.

(** ** FXi *)
(** FXi.py:16-45 *)
Inductive quantity :=
  | qEx | qEy | qEz | qBx | qBy | qBz | qPhi | qne | qni | qrho_beam | qSf
  | qdx | qdy | qdx_perp | qdy_perp.
Definition code (q : quantity) : Z :=
  match q with
  | qEx => 0x1 | qEy => 0x2 | qEz => 0x4 | qBx => 0x8 | qBy => 0x10 | qBz => 0x20 | qPhi => 0x40
  | qne => 0x80 | qni => 0x100 | qrho_beam => 0x200 | qSf => 0x400
  | qdx => 0x800 | qdy => 0x1000 | qdx_perp => 0x2000 | qdy_perp => 0x4000
  end.
(** the order of the tests in FXi.py:94-128 *)
Definition all_quantities : list quantity :=
  [qEx; qEy; qEz; qBx; qBy; qBz; qne; qni; qrho_beam; qPhi; qSf; qdx; qdy; qdx_perp; qdy_perp].
(** `if self.__f_xi & FXiType.Ex:` *)
Definition asked (mask : Z) (q : quantity) : bool := negb (Z.land mask (code q) =? 0)%Z.

(** A value stored for one layer: rows (a scalar is one row of one number). *)
Definition arr := list (list R).
Definition scalar (x : R) : arr := [[x]].
(** self._data: a defaultdict of lists; a key that is absent is an empty list here. *)
Definition data := string -> list arr.
Definition no_data : data := fun _ => [].
Definition add (name : string) (v : arr) (d : data) : data :=
  fun k => if String.eqb k name then d k ++ [v] else d k.

Fixpoint traverse {A B} (f : A -> option B) (l : list A) : option (list B) :=
  match l with
  | [] => Some []
  | a :: r => match f a, traverse f r with Some b, Some s => Some (b :: s) | _, _ => None end
  end.

(** Strategy3D.py:35-59: the cells of the probe lines (x, y); the default is one line at (0, 0), a 1D
    array of x means y = 0. *)
Definition probe3 (steps : Z) (h : R) (p : R * R) : Z * Z :=
  (steps / 2 + nearest_even (fst p / h), steps / 2 + nearest_even (snd p / h))%Z.
(** Strategy3D.py:63 (67-68, 72, 76): array[ax_x, ax_y] *)
Definition read3 (steps : Z) (g : grid) (ax : list (Z * Z)) : option arr :=
  option_map (fun r => [r])
    (traverse (fun c => match np_index steps (fst c), np_index steps (snd c) with
                        | Some i, Some j => Some (g i j) | _, _ => None end) ax).
(** StrategyCircular.py:22-37: the cells of the probe radii. *)
Definition probe2 (h : R) (p : R) : Z := nearest_even (p / h).
(** StrategyCircular.py:46: array[ax_r] *)
Definition read2 (n : Z) (g : Z -> R) (ax : list Z) : option arr :=
  option_map (fun r => [r]) (traverse (fun c => option_map g (np_index n c)) ax).

(** Strategy3D.py:6-25 calculate_energy_fluxes *)
Definition energy_flux (h : R) (l : layer3) : R :=
  let n := Z.to_nat (l3_steps l) in
  let Se := fun i j : nat =>
    let a := Z.of_nat i in let b := Z.of_nat j in
    (l3_ez l a b ^ 2 + l3_bz l a b ^ 2 + (l3_ex l a b - l3_by l a b) ^ 2 + (l3_ey l a b + l3_bx l a b) ^ 2) * h ^ 2 / 2 in
  let motion := fun p => sqrt (t_m p ^ 2 + t_px p ^ 2 + t_py p ^ 2 + t_pz p ^ 2) - t_m p in
  fold_right Rplus 0 (map motion (l3_el l)) + sumN n (fun i => sumN n (fun j => Se i j)).
(** Strategy3D.py:85-88: xp.amax(xp.absolute(...)); amax of an empty array raises. *)
Fixpoint amax (l : list R) : option R :=
  match l with
  | [] => None
  | x :: r => match amax r with None => Some x | Some m => Some (Rmax x m) end
  end.
Definition max_abs (a : list (list R)) : option R := amax (map Rabs (List.concat a)).
(** Strategy3D.py:90-95: the middle part a1:5*a1 of both axes, a1 = int(rows/6) *)
Definition cut {A} (from to : nat) (l : list A) : list A := firstn (to - from) (skipn from l).
Definition central (a : list (list R)) : list (list R) :=
  let a1 := (List.length a / 6)%nat in map (cut a1 (5 * a1)) (cut a1 (5 * a1) a).

(** Strategy3D.py:61-95: the key and the value stored for a quantity; None is an exception. *)
Definition process3 (h : R) (ax : list (Z * Z)) (q : quantity) (l : layer3) : option (string * arr) :=
  let rd g := read3 (l3_steps l) g ax in
  match q with
  | qEx => option_map (fun v => ("Ex"%string, v)) (rd (l3_ex l))
  | qEy => option_map (fun v => ("Ey"%string, v)) (rd (l3_ey l))
  | qEz => option_map (fun v => ("Ez"%string, v)) (rd (l3_ez l))
  | qBx => option_map (fun v => ("Bx"%string, v)) (rd (l3_bx l))
  | qBy => option_map (fun v => ("By"%string, v)) (rd (l3_by l))
  | qBz => option_map (fun v => ("Bz"%string, v)) (rd (l3_bz l))
  | qPhi => option_map (fun v => ("Phi"%string, v)) (rd (l3_phi l))
  | qne => option_map (fun v => ("ne"%string, v)) (rd (l3_ne l))
  | qni => option_map (fun v => ("ni"%string, v)) (rd (l3_ni l))
  | qrho_beam => option_map (fun v => ("rho_beam"%string, v)) (rd (l3_beam l))
  | qSf => Some ("Sf"%string, scalar (energy_flux h l))
  | qdx => option_map (fun v => ("dx_chaotic"%string, scalar v)) (max_abs (l3_chx l))
  | qdy => option_map (fun v => ("dy_chaotic"%string, scalar v)) (max_abs (l3_chy l))
  | qdx_perp => option_map (fun v => ("dx_chaotic_perp"%string, scalar v)) (max_abs (central (l3_chx l)))
  | qdy_perp => option_map (fun v => ("dy_chaotic_perp"%string, scalar v)) (max_abs (central (l3_chy l)))
  end.
(** StrategyCircular.py:6-12, 40-67; the outer None is an exception, the inner one "skip". *)
Definition process2 (ax : list Z) (q : quantity) (l : layer2) : option (option (string * arr)) :=
  let rd name g := option_map (fun v => Some (name, v)) (read2 (l2_n l) g ax) in
  match q with
  | qEx => rd "E_r"%string (l2_er l)
  | qEy => rd "E_f"%string (l2_ef l)
  | qEz => rd "E_z"%string (l2_ez l)
  | qBx => rd "B_f"%string (l2_bf l)
  | qBy => Some None
  | qBz => rd "B_z"%string (l2_bz l)
  | qne => rd "ne"%string (l2_ne l)
  | qni => rd "ni"%string (l2_ni l)
  | qrho_beam => rd "rho_beam"%string (l2_beam l)
  | qPhi | qSf | qdx | qdy | qdx_perp | qdy_perp => None
  end.

(** A file: the time in its name and what is stored in it. *)
Record file := mkF { f_time : R; f_data : data }.
(** The part of a diagnostic object that changes: is_first_step and _data. *)
Record diag := mkD { d_first : bool; d_data : data }.
(** FXi.py:65-67, slice.py:51, 58 *)
Definition new_diag (rank : nat) : diag := mkD (Nat.eqb rank 0) no_data.

(** One entry of the diagnostics at one layer: it returns the entries to append, in order. *)
(** FXi.py:92-132 in 3D *)
Definition entries3 (mask : Z) (h : R) (ax : list (Z * Z)) (l : layer3) : option (list (string * arr)) :=
  option_map (fun r => r ++ [("xi"%string, scalar (l3_xi l))])
    (traverse (fun q => process3 h ax q l) (filter (asked mask) all_quantities)).
(** FXi.py:92-132 in 2D *)
Definition entries2 (mask : Z) (ax : list Z) (l : layer2) : option (list (string * arr)) :=
  option_map (fun r => List.concat (map (fun o => match o with Some x => [x] | None => [] end) r)
                       ++ [("xi"%string, scalar (l2_xi l))])
    (traverse (fun q => process2 ax q l) (filter (asked mask) all_quantities)).

Definition add_all (es : list (string * arr)) (d : data) : data :=
  fold_left (fun d e => add (fst e) (snd e) d) es d.

Section Machine.
  Context {layer : Type}.
  Variable entries : R -> layer -> option (list (string * arr)).   (* given the time and the layer *)
  Variable P : period.                                             (* the clamped output period *)
  Variable dt : R.
  Definition is_output (s : diag) (t : R) : bool := d_first s || condition_check t P dt.
  (** FXi.py:89-132, slice.py:104-109; None is an exception. *)
  Definition after_step_dxi (t : R) (s : diag) (l : layer) : option diag :=
    if is_output s t then option_map (fun es => mkD (d_first s) (add_all es (d_data s))) (entries t l)
    else Some s.
  Fixpoint after_layers (t : R) (ls : list layer) (s : diag) : option diag :=
    match ls with
    | [] => Some s
    | l :: r => match after_step_dxi t s l with None => None | Some s' => after_layers t r s' end
    end.
  (** FXi.py:134-152, slice.py:111-133 (OutputType.NUMBERS) *)
  Definition dump (t : R) (s : diag) : diag * list file :=
    if negb (d_first s) && negb (condition_check t P dt) then (s, [])
    else (mkD false no_data, [mkF t (d_data s)]).
  (** push_solver.py:98-145, 236-284 as seen by one diagnostic: a time step. *)
  Definition diag_step (t : R) (ls : list layer) (s : diag) : option (diag * list file) :=
    option_map (dump t) (after_layers t ls s).
  (** simulation.py:247-264: the time steps of a rank, each with the layers it shows. *)
  Fixpoint diag_run (steps : list (R * list layer)) (s : diag) : option (diag * list file) :=
    match steps with
    | [] => Some (s, [])
    | (t, ls) :: r =>
      match diag_step t ls s with
      | None => None
      | Some (s', fs) => option_map (fun q => (fst q, fs ++ snd q)) (diag_run r s')
      end
    end.
End Machine.

(** ** Slices *)
Definition clip (x lo hi : Z) : Z := Z.min hi (Z.max lo x).
(** slice.py:166-167, 242-243 (hi = x_steps), 312-316 (hi = x_steps - 1) *)
Definition slice_index (steps hi : Z) (h x : R) : Z := clip (nearest_even (x / h) + steps / 2) 0 hi.
(** slice.py:169, 245, 318-319 *)
Definition zseq (from to : Z) : list Z := map (fun k => from + Z.of_nat k)%Z (seq 0 (Z.to_nat (to - from))).
Definition slice_grid (steps : Z) (h : R) (from to : Z) : list R := map (fun i => IZR (i - steps / 2) * h) (zseq from to).
(** slice.py:171 (hi = x_steps), 247 (hi = x_steps - 1): `x_steps // 2 + offset // grid_step_size` *)
Definition slice_offset (steps hi : Z) (h off : R) : Z := clip (steps / 2 + floorR (off / h)) 0 hi.

(** slice.py:18-39; the masks are those of FXiType without the particle quantities. *)
Definition slice_quantities : list quantity := [qEx; qEy; qEz; qBx; qBy; qBz; qne; qni; qrho_beam; qPhi].
Definition name3 (q : quantity) : string :=
  match q with
  | qEx => "Ex" | qEy => "Ey" | qEz => "Ez" | qBx => "Bx" | qBy => "By" | qBz => "Bz" | qPhi => "Phi"
  | qne => "ne" | qni => "ni" | qrho_beam => "rho_beam"
  | qSf => "Sf" | qdx => "dx_chaotic" | qdy => "dy_chaotic" | qdx_perp => "dx_chaotic_perp" | qdy_perp => "dy_chaotic_perp"
  end%string.
Definition field3 (q : quantity) (l : layer3) : grid :=
  match q with
  | qEx => l3_ex l | qEy => l3_ey l | qEz => l3_ez l | qBx => l3_bx l | qBy => l3_by l | qBz => l3_bz l
  | qPhi => l3_phi l | qne => l3_ne l | qni => l3_ni l | qrho_beam => l3_beam l
  | qSf | qdx | qdy | qdx_perp | qdy_perp => fun _ _ => 0
  end.
(** The plane, the range (with from_1, to_1 in xi), from slice.py:135-175, 213-252, 285-335. *)
Inductive plane := XI_X | XI_Y | X_Y.
Record slicer := mkS {
  s_plane : plane; s_from1 : R; s_to1 : R;         (* limits in xi, XI_X and XI_Y *)
  s_a : Z; s_b : Z;                                 (* from_2 : to_2, (X_Y: from_1 : to_1) *)
  s_c : Z; s_d : Z;                                 (* X_Y: from_2 : to_2 *)
  s_offset : Z;
  s_xi_period : period; s_dxi : R; s_P : period; s_dt : R }.
(** A numpy slice a:b of an axis of length n, 0 <= a: it stops at the end of the array. *)
Definition np_range (n a b : Z) : list Z := zseq a (Z.min n b).
(** slice.py:181 (XI_X), 255 (XI_Y), 337 (X_Y) *)
Definition slice_read (s : slicer) (n : Z) (g : grid) : option arr :=
  match s_plane s with
  | XI_X => option_map (fun j => [map (fun i => g i j) (np_range n (s_a s) (s_b s))]) (np_index n (s_offset s))
  | XI_Y => option_map (fun i => [map (fun j => g i j) (np_range n (s_a s) (s_b s))]) (np_index n (s_offset s))
  | X_Y => Some (map (fun i => map (fun j => g i j) (np_range n (s_c s) (s_d s))) (np_range n (s_a s) (s_b s)))
  end.
(** slice.py:176-177, 251-252: the layers outside the limits are skipped; 323-334: X_Y takes the
    layers at multiples of saving_xi_period (slice.py never clamps that one) at output times. *)
Definition slice_takes (s : slicer) (t xi : R) : bool :=
  match s_plane s with
  | XI_X | XI_Y => if Rlt_dec xi (s_to1 s) then false else if Rlt_dec (s_from1 s) xi then false else true
  | X_Y => condition_check t (s_P s) (s_dt s) && condition_check xi (s_xi_period s) (s_dxi s)
  end.
(** slice.py:172-210, 248-283, 330-365 *)
Definition slice_entries (mask : Z) (s : slicer) (t : R) (l : layer3) : option (list (string * arr)) :=
  if slice_takes s t (l3_xi l) then
    option_map (fun r => ("xi"%string, scalar (l3_xi l)) :: r)
      (traverse (fun q => option_map (fun v => (name3 q, v)) (slice_read s (l3_steps l) (field3 q l)))
                (filter (asked mask) slice_quantities))
  else Some [].
(** slice.py:135-171, 213-247: limits given or, by default, 0 .. -window_length and the window's width. *)
Definition mk_slicer_xi (p : plane) (steps : Z) (h length_ width : R) (limits : option ((R * R) * (R * R))) (off : R)
    (P : period) (dt dxi : R) (Pxi : period) : slicer :=
  let '((f1, t1), (f2, t2)) := match limits with None => ((0, - length_), (- width / 2, width / 2)) | Some l => l end in
  mkS p f1 t1 (slice_index steps steps h f2) (slice_index steps steps h t2) 0 0
      (match p with XI_X => slice_offset steps steps h off | _ => slice_offset steps (steps - 1) h off end) Pxi dxi P dt.
(** slice.py:285-320 *)
Definition mk_slicer_xy (steps : Z) (h width : R) (limits : option ((R * R) * (R * R)))
    (P : period) (dt dxi : R) (Pxi : period) : slicer :=
  let '((f1, t1), (f2, t2)) := match limits with None => ((- width / 2, width / 2), (- width / 2, width / 2)) | Some l => l end in
  let ix := slice_index steps (steps - 1) h in
  mkS X_Y 0 0 (ix f1) (ix t1) (ix f2) (ix t2) 0 Pxi dxi P dt.

(** slice.py:368-438, 2D: the range of radii ... *)
Record slicer2 := mkS2 { s2_from1 : R; s2_to1 : R; s2_a : Z; s2_b : Z }.
Definition mk_slicer2 (h length_ width : R) (limits : option ((R * R) * (R * R))) : slicer2 :=
  let steps := (floorR (width / h) + 1)%Z in
  let '((f1, t1), (f2, t2)) := match limits with None => ((0, - length_), (0, width)) | Some l => l end in
  mkS2 f1 t1 (clip (nearest_even (f2 / h)) 0 steps) (clip (nearest_even (t2 / h)) 0 steps).
(** slice.py:402 *)
Definition slice_grid2 (h : R) (s : slicer2) : list R := map (fun i => IZR i * h) (zseq (s2_a s) (s2_b s)).
(** ... and the entries; outer None: exception (Phi), inner None: skip (By). *)
Definition slice_process2 (s : slicer2) (q : quantity) (l : layer2) : option (option (string * arr)) :=
  let rd name g := Some (Some (name, [map g (np_range (l2_n l) (s2_a s) (s2_b s))])) in
  match q with
  | qEx => rd "Er"%string (l2_er l) | qEy => rd "Ef"%string (l2_ef l) | qEz => rd "Ez"%string (l2_ez l)
  | qBx => rd "Bf"%string (l2_bf l) | qBy => Some None | qBz => rd "Bz"%string (l2_bz l)
  | qne => rd "ne"%string (l2_ne l) | qni => rd "ni"%string (l2_ni l) | qrho_beam => rd "rho_beam"%string (l2_beam l)
  | _ => None
  end.
Definition slice_entries2 (mask : Z) (s : slicer2) (l : layer2) : option (list (string * arr)) :=
  if Rlt_dec (l2_xi l) (s2_to1 s) then Some [] else if Rlt_dec (s2_from1 s) (l2_xi l) then Some [] else
  option_map (fun r => ("xi"%string, scalar (l2_xi l)) :: List.concat (map (fun o => match o with Some x => [x] | None => [] end) r))
    (traverse (fun q => slice_process2 s q l) (filter (asked mask) slice_quantities)).

(** ** Particles (particles.py) *)
(** The files of ParticlesDiag: the beam, the plasma at the end of a step, and snapshots inside it. *)
Inductive pfile := BeamFile (t : R) | PlasmaFile (t : R) | Snapshot (t xi : R).
(** particles.py:57-83 *)
Definition particles_after (save_plasma : bool) (P Pxi : period) (dt dxi t xi : R) : list pfile :=
  match Pxi with
  | Never => []
  | Every _ => if (condition_check t P dt && condition_check xi Pxi dxi) && save_plasma then [Snapshot t xi] else []
  end.
(** particles.py:85-110 *)
Definition particles_dump (save_beam save_plasma : bool) (P : period) (dt t : R) (first : bool) : bool * list pfile :=
  if negb first && negb (condition_check t P dt) then (first, [])
  else (false, (if save_beam then [BeamFile t] else []) ++ (if save_plasma then [PlasmaFile t] else [])).
Fixpoint particles_run (save_beam save_plasma : bool) (P Pxi : period) (dt dxi : R) (steps : list (R * list R)) (first : bool) : list pfile :=
  match steps with
  | [] => []
  | (t, xis) :: r =>
    let '(first', fs) := particles_dump save_beam save_plasma P dt t first in
    List.concat (map (particles_after save_plasma P Pxi dt dxi t) xis) ++ fs
    ++ particles_run save_beam save_plasma P Pxi dt dxi r first'
  end.

(** ** File names *)
(** f'{current_time:08.2f}' (FXi.py:140, slice.py:118, particles.py:70, 92): the number of hundredths
    printed.  The zero-padded text of an integer number of hundredths determines that number. *)
Definition stamp (t : R) : Z := nearest_even (100 * t).

(** ** Option strings of diagnostics_3d.py *)
Definition space : ascii := " "%char.
Definition comma : ascii := ","%char.
(** str.split(',') *)
Fixpoint split_comma (l : list ascii) (cur : list ascii) : list (list ascii) :=
  match l with
  | [] => [rev cur]
  | a :: r => if Ascii.eqb a comma then rev cur :: split_comma r [] else split_comma r (a :: cur)
  end.
(** diagnostics_3d.py:24-31 *)
Definition from_str_into_list (s : string) : list string :=
  filter (fun n => negb (String.eqb n ""))
    (map string_of_list_ascii (split_comma (filter (fun a => negb (Ascii.eqb a space)) (list_ascii_of_string s)) [])).
(** diagnostics_3d.py:96-99: Python joins the adjacent literals 'ni' 'rho_beam'. *)
Definition allowed_f_xi : list string :=
  ["Ex"; "Ey"; "Ez"; "Bx"; "By"; "Bz"; "ne"; "nirho_beam"; "Phi"; "Sf";
   "dx_chaotic"; "dy_chaotic"; "dx_chaotic_perp"; "dy_chaotic_perp"]%string.
Definition mem (s : string) (l : list string) : bool := existsb (String.eqb s) l.
(** diagnostics_3d.py:105-112: the names to record; None is the exception. *)
Definition legacy_fxi (f_xi : string) : option (list string) :=
  let names := from_str_into_list f_xi in
  if forallb (fun n => mem n allowed_f_xi) names then Some names else None.
(** diagnostics_3d.py:188-222: the names something is appended for. *)
Definition legacy_recorded : list string :=
  ["Ex"; "Ey"; "Ez"; "Bx"; "By"; "Bz"; "Phi"; "ne"; "ni"; "rho_beam"; "Sf";
   "dx_chaotic"; "dy_chaotic"; "dx_chaotic_perp"; "dy_chaotic_perp"]%string.

(** FXi.py:140, slice.py:118: directory, prefix and time stamp.  The slice's plane is not part of the
    name. *)
Definition fxi_path (dir : string) (t : R) : string * string * Z := (dir, "f_xi_"%string, stamp t).
Definition slice_path (p : plane) (dir : string) (t : R) : string * string * Z := (dir, "slice_"%string, stamp t).
