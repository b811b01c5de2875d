(** What the 2D layer theorems (C63) say: one layer of the cylindrical plasma as a chain of
    predictor-corrector steps, independently of how the code computes it. *)
From Coq Require Import Reals ZArith List Bool.
From Verif Require Import Beam2D_Model Beam2D_Spec Plasma2D_Model Plasma2D_Spec Plasma2D_Push_Spec.
Import ListNotations.
Open Scope R_scope.

(** ** Motion of one particle *)
(** Field of the density ripples: amplitude [amp] at the node nearest to radius r (C26_declustering_field). *)
Definition ripple_field (n : nat) (h : R) (amp : nat -> R) (r : R) : R :=
  let k := Int_part (r / h + 1 / 2) in let x := r / h - IZR k in
  if ((0 <? k)%Z && (k <? Z.of_nat n)%Z)%bool
  then amp (Z.to_nat k) * h * ((PI * sin (PI * x) + cos (PI * x) / IZR k) / (PI ^ 2 + 1 / IZR k ^ 2)) else 0.
(** Electric and magnetic field on a particle at radius r, external field [g_bz] included. *)
Definition electric_at (c : pcfg2) (f : fields2) (amp : nat -> R) (r : R) : vec :=
  let I := fun sg F => interpolated (g_n c) sg (g_h c) r F in
  V (I (-1) (f_er f) + ripple_field (g_n c) (g_h c) amp r) (I (-1) (f_ef f)) (I 1 (f_ez f)).
Definition magnetic_at (c : pcfg2) (f : fields2) (r : R) : vec :=
  let I := fun sg F => interpolated (g_n c) sg (g_h c) r F in
  V (- I (-1) (f_ef f)) (I (-1) (f_bf f)) (I 1 (f_bz f) + g_bz c).
(** The particle is taken out: at rest and without charge. *)
Definition removed (c : pcfg2) (p p' : pl2) : Prop :=
  r_ p' = g_rmax c / 2 /\ pr_ p' = 0 /\ pf_ p' = 0 /\ pz_ p' = 0 /\ q_ p' = 0 /\ m_ p' = m_ p.
Definition largest3 (a b d : R) : R := Rmax (Rmax a b) d.
(** [stepped c f amp X p p' path]: the particle p makes one step of length X in the fields; [path] is
    how far it went.  The fields are those half way (mirrored in the axis or the wall if that is
    outside; beyond the wall the particle starts from rest). *)
Definition stepped (c : pcfg2) (f : fields2) (amp : nat -> R) (X : R) (p p' : pl2) (path : R) : Prop :=
  let R0 := g_rmax c in
  let rp := r_ p + pr_ p * (X / (gm_of p - pz_ p)) / 2 in
  exists rh, mirrored R0 rp rh /\
  (~ (0 <= rh <= R0) -> removed c p p' /\ path = Rabs (r_ p - rp)) /\
  (0 <= rh <= R0 ->
    exists p0, (rp <= R0 -> p0 = V (pr_ p) (pf_ p) (pz_ p)) /\ (R0 < rp -> p0 = V 0 0 0) /\
    let E := electric_at c f amp rh in let B := magnetic_at c f rh in
    let d := gain (q_ p) (m_ p) X E B p0 in
    let hm := middle (q_ p) (m_ p) X E B p0 in
    let dt := X / (energy (m_ p) hm - vz hm) in
    let x := r_ p + (vx p0 + vx d / 2) * dt in let y := (vy p0 + vy d / 2) * dt in
    let rn := sqrt (x ^ 2 + y ^ 2) in
    (rn <= 2 * R0 -> path = largest3 (Rabs (r_ p - rn)) (Rabs (r_ p - rp)) (Rabs (rn - rp))) /\
    (rn <= R0 -> r_ p' = rn /\ q_ p' = q_ p /\ m_ p' = m_ p /\ pz_ p' = vz p0 + vz d /\
       (0 < rn -> pr_ p' * rn = (vx p0 + vx d) * x + (vy p0 + vy d) * y /\ pf_ p' * rn = (vy p0 + vy d) * x - (vx p0 + vx d) * y) /\
       (rn = 0 -> pr_ p' = vx p0 + vx d /\ pf_ p' = 0)) /\
    (R0 < rn <= 2 * R0 -> r_ p' = 2 * R0 - rn /\ pr_ p' = 0 /\ pf_ p' = 0 /\ pz_ p' = 0 /\ q_ p' = q_ p /\ m_ p' = m_ p) /\
    (2 * R0 < rn -> removed c p p' /\ path = 0)).
(** [moved step h X cur done p p']: the particle goes on from [done] to X in steps of [cur], halved as
    often as a step would take it a cell or farther (down to X/10000); a removed one stops. *)
Inductive moved (step : R -> pl2 -> pl2 -> R -> Prop) (h X : R) : R -> R -> pl2 -> pl2 -> Prop :=
| Mv_stop cur d p : q_ p = 0 \/ 0.99999 * X < d -> moved step h X cur d p p
| Mv_halve cur d p p1 path p' : q_ p <> 0 -> d <= 0.99999 * X -> step cur p p1 path -> h <= path -> 0.0001 < cur / X ->
    moved step h X (cur / 2) d p p' -> moved step h X cur d p p'
| Mv_go cur d p p1 path p' : q_ p <> 0 -> d <= 0.99999 * X -> step cur p p1 path -> path < h \/ cur / X <= 0.0001 ->
    moved step h X cur (d + cur) p1 p' -> moved step h X cur d p p'.
(** The same particle except for its age, which nothing depends on. *)
Definition same_but_age (p q : pl2) : Prop :=
  r_ p = r_ q /\ pr_ p = pr_ q /\ pf_ p = pf_ q /\ pz_ p = pz_ q /\ q_ p = q_ q /\ m_ p = m_ q.
Definition all_moved (c : pcfg2) (f : fields2) (amp : nat -> R) (X : R) (ps ps' : particles2) : Prop :=
  let mv := moved (stepped c f amp) (g_h c) X X 0 in
  Forall2 mv (electrons ps) (electrons ps') /\ Forall2 mv (ion_list ps) (ion_list ps').

(** ** Density and currents on the n nodes *)
Definition ring (h : R) (ppc n j : nat) : R :=
  let e := (1 / INR ppc) ^ 2 in
  if (j =? n - 1)%nat then PI * h ^ 2 * (INR n - 45 / 32)
  else match j with
       | O => PI * h ^ 2 * (13 + 2 * e) / 32
       | 1%nat => 2 * PI * h ^ 2 * (193 + 2 * e) / 192
       | _ => 2 * PI * h ^ 2 * INR j
       end.
Definition sort_carries (h : R) (ppc n : nat) (l : list pl2) (d : dens) : Prop :=
  let sum := fun sg (f : pl2 -> R) i => sumR (map (fun p => f p / (gm_of p - pz_ p) * node_share n sg (r_ p / h) i) l) in
  forall i, (i < n)%nat ->
    ring h ppc n i * d_rho d i = sum 1 (fun p => q_ p * gm_of p) i /\
    ring h ppc n i * d_jz d i = (if (i =? n - 1)%nat then 0 else sum 1 (fun p => q_ p * pz_ p) i) /\
    ring h ppc n i * d_jr d i = (if (i =? 0)%nat || (i =? n - 1)%nat then 0 else sum (-1) (fun p => q_ p * pr_ p) i) /\
    ring h ppc n i * d_jf d i = (if (i =? 0)%nat || (i =? n - 1)%nat then 0 else sum (-1) (fun p => q_ p * pf_ p) i).
Definition carried2 (s : solver2) (ps : particles2) (cur : currents2) : Prop :=
  let c := v_c s in
  sort_carries (g_h c) (v_ppc s) (g_n c) (electrons ps) (row_e cur) /\
  match v_ions s with
  | Mobile => sort_carries (g_h c) (v_ppc s) (g_n c) (ion_list ps) (row_i cur)
  | Background ni => forall i, (i < g_n c)%nat ->
      d_rho (row_i cur) i = ni i /\ d_jr (row_i cur) i = 0 /\ d_jf (row_i cur) i = 0 /\ d_jz (row_i cur) i = 0
  end.
(** Amplitude of the density ripples at a node: a quarter of minus the second difference of the
    density of electrons less that of ions; 0 on the axis, reversed at the wall. *)
Definition ripples (n : nat) (on : bool) (cur : currents2) (amp : nat -> R) : Prop :=
  let u := fun i => d_rho (row_e cur) i - d_rho (row_i cur) i in
  (on = false -> forall i, (i < n)%nat -> amp i = 0) /\
  (on = true -> amp 0%nat = 0 /\ (forall i, (1 <= i <= n - 2)%nat -> amp i = - (u (i + 1)%nat - 2 * u i + u (i - 1)%nat) / 4) /\
     amp (n - 1)%nat = (u (n - 1)%nat - 2 * u (n - 2)%nat + u (n - 3)%nat) / 4).

(** ** Fields on the n nodes (C24) *)
(** The factor of the previous field: 1, or 3 (gamma - 1) - 4 if that is more, gamma being the
    Lorentz factor of the electron flow where there is an electron flow slower than light. *)
Definition stiffness (d : dens) (i : nat) : R :=
  let ne := d_rho d i - 1 in let v2 := (d_jr d i ^ 2 + d_jf d i ^ 2 + d_jz d i ^ 2) / ne ^ 2 in
  if Rlt_dec (-0.1) ne then 1 else if Rle_dec 1 v2 then 1 else Rmax 1 (3 * (1 / sqrt (1 - v2) - 1) - 4).
Definition fields_of2 (n : nat) (h X : R) (fn f : fields2) (rb : nat -> R) (cp cn : currents2) (new avg : fields2) : Prop :=
  let tot := fun (g : dens -> arr) c i => g (row_e c) i + g (row_i c) i in
  let k := stiffness (row_e cn) in let rho := fun i => tot d_rho cn i + rb i in
  (f_er new 0%nat = 0 /\ last_cell_divergence n h (f_er new) = (rho (n - 2)%nat + rho (n - 1)%nat) / 2 /\
   radial_equation n h k (fun i => (tot d_jr cn i - tot d_jr cp i) / X - k i * ((f_er fn i + f_er f i) / 2)
       + (rho (i + 1)%nat - rho (i - 1)%nat) / (2 * h)) (f_er new)) /\
  (f_ef new 0%nat = 0 /\ f_ef new (n - 1)%nat = 0 /\
   radial_equation n h (fun _ => 1) (fun i => (tot d_jf cn i - tot d_jf cp i) / X - (f_ef fn i + f_ef f i) / 2) (f_ef new)) /\
  (f_ez new (n - 1)%nat = 0 /\
   forall i, (i + 1 < n)%nat -> (f_ez new (i + 1)%nat - f_ez new i) / h = (tot d_jr cn i + tot d_jr cn (i + 1)%nat) / 2) /\
  (let g := fun i => INR i * h * (f_er new i - f_bf new i) in
   let sr := fun i => INR i * h * (tot d_rho cn i - tot d_jz cn i) in
   f_bf new 0%nat = 0 /\ forall i, (i + 1 < n)%nat -> (g (i + 1)%nat - g i) / h = (sr i + sr (i + 1)%nat) / 2) /\
  ((forall i, (i + 1 < n)%nat -> (f_bz new (i + 1)%nat - f_bz new i) / h = - (tot d_jf cn i + tot d_jf cn (i + 1)%nat) / 2) /\
   sumN (n - 1) (fun i => PI * ((INR (i + 1) * h) ^ 2 - (INR i * h) ^ 2) * f_bz new i) = 0) /\
  (forall F, In F [f_er; f_ef; f_ez; f_bf; f_bz] -> forall i, (i < n)%nat -> F avg i = (F new i + F f i) / 2).

(** ** One step of the plasma over X *)
(** The guess: particles moved in the fields as they are. *)
Definition guessed (s : solver2) (X : R) (st : pstate) (ps : particles2) (cur : currents2) : Prop :=
  let '(ps0, f, cur0) := st in
  exists amp, ripples (g_n (v_c s)) (v_noise s) cur0 amp /\ all_moved (v_c s) f amp X ps0 ps /\ carried2 s ps cur.
(** A correction: fields from the densities of the last attempt, particles moved again from the start
    in the average of these and the old fields. *)
Definition corrected (s : solver2) (rb : nat -> R) (X : R) (st new new' : pstate) : Prop :=
  let '(ps0, f, cur0) := st in let '(_, fn, cn) := new in let '(ps', fn', cn') := new' in
  exists avg amp, fields_of2 (g_n (v_c s)) (g_h (v_c s)) X fn f rb cur0 cn fn' avg /\
    ripples (g_n (v_c s)) (v_noise s) cn amp /\ all_moved (v_c s) avg amp X ps0 ps' /\ carried2 s ps' cn'.
Inductive times {A} (R : A -> A -> Prop) : nat -> A -> A -> Prop :=
| Ti_0 a : times R 0 a a
| Ti_S k a b d : R a b -> times R k b d -> times R (S k) a d.
Definition piece (s : solver2) (rb : nat -> R) (X : R) (st st' : pstate) : Prop :=
  exists ps1 c1, guessed s X st ps1 c1 /\ times (corrected s rb X st) (v_corr s) (ps1, snd (fst st), c1) st'.
(** Too long a step: the guess moves more charge than allowed past some node. *)
Definition moves_much (s : solver2) (X : R) (cur : currents2) : Prop :=
  exists i, (i < g_n (v_c s))%nat /\ (v_sens s < Rabs (X * d_jz (row_e cur) i) \/ v_sens s < Rabs (X * d_jz (row_i cur) i)).
Definition coarse (s : solver2) (X : R) (st : pstate) : Prop := exists ps c, guessed s X st ps c /\ moves_much s X c.
Definition fine (s : solver2) (X : R) (st : pstate) : Prop := exists ps c, guessed s X st ps c /\ ~ moves_much s X c.

(** ** A layer: a step too long is replaced by ten steps of a tenth, at most [depth] times over. *)
Inductive covered {St} (coarse fine : R -> St -> Prop) (piece : R -> St -> St -> Prop) : nat -> R -> St -> St -> Prop :=
| Co_piece d X s s' : d = 0%nat \/ fine X s -> piece X s s' -> covered coarse fine piece d X s s'
| Co_ten d X s s' : coarse X s -> chained coarse fine piece 10 d (X / 10) s s' -> covered coarse fine piece (S d) X s s'
with chained {St} (coarse fine : R -> St -> Prop) (piece : R -> St -> St -> Prop) : nat -> nat -> R -> St -> St -> Prop :=
| Ch_0 d X s : chained coarse fine piece 0 d X s s
| Ch_S k d X s s1 s' : covered coarse fine piece d X s s1 -> chained coarse fine piece k d X s1 s' -> chained coarse fine piece (S k) d X s s'.
Definition layer2 (s : solver2) (rb : nat -> R) (st st' : pstate) : Prop :=
  covered (coarse s) (fine s) (piece s rb) (v_depth s) (v_xi s) st st'.
(** Particles with mass between the axis and the wall. *)
Definition calm2 (s : solver2) (ps : particles2) : Prop :=
  forall p, In p (electrons ps ++ ion_list ps) -> 0 < m_ p /\ 0 <= r_ p <= g_rmax (v_c s).
(** Equal up to ages and values off the grid. *)
Definition same_nodes (n : nat) (u v : nat -> R) : Prop := forall i, (i < n)%nat -> u i = v i.
Definition same_dens (n : nat) (a b : dens) : Prop := forall g, In g [d_rho; d_jr; d_jf; d_jz] -> same_nodes n (g a) (g b).
Definition same_state (n : nat) (a b : pstate) : Prop :=
  let '(pa, fa, ca) := a in let '(pb, fb, cb) := b in
  Forall2 same_but_age (electrons pa) (electrons pb) /\ Forall2 same_but_age (ion_list pa) (ion_list pb) /\
  (forall F, In F [f_er; f_ef; f_ez; f_bf; f_bz] -> same_nodes n (F fa) (F fb)) /\
  same_dens n (row_e ca) (row_e cb) /\ same_dens n (row_i ca) (row_i cb).
