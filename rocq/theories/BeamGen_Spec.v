(** Specification vocabulary for the beam generator properties (C35, C36, C37, C53, C54).
    It uses only the records of BeamGen_Model (what the user describes and what comes out). *)
From Coq Require Import Reals ZArith List Permutation Sorted String.
From Verif Require Import Beam2D_Spec BeamGen_Model.
Import ListNotations.
Local Open Scope list_scope.
Local Open Scope R_scope.

(** Contract of np.argsort: a permutation of the indices that puts the keys in non-decreasing order. *)
Definition argsort_contract (argsort : list R -> list nat) : Prop :=
  forall keys, Permutation (argsort keys) (seq 0 (List.length keys)) /\
               StronglySorted Rle (map (fun k => nth k keys 0) (argsort keys)).
(** Contract of random_sample: values in [0, 1). *)
Definition unit_contract (g : rng) : Prop := forall i, 0 <= unit_draw g i < 1.

(** Length of a list of segments: the sum of their lengths. *)
Definition lengths (l : list segment) : R := sumR (map s_length l).
(** Segment [s] of the beam occupies the open interval (start - length, start), start being minus the
    lengths of the segments before it. *)
Definition occupies (segs : list segment) (s : segment) (start xi : R) : Prop :=
  exists before after, segs = before ++ s :: after /\ start = - lengths before /\
                       start - s_length s < xi < start.
(** A point where one segment ends. *)
Definition boundary (segs : list segment) (xi : R) : Prop :=
  exists before after, segs = before ++ after /\ xi = - lengths before.
Definition lengths_positive (segs : list segment) : Prop := forall s, In s segs -> 0 < s_length s.

(** Centre of layer [i], and membership of a position in it. *)
Definition layer_centre (step : R) (i : nat) : R := - (INR i + / 2) * step.
Definition in_layer (step : R) (i : nat) (xi : R) : Prop := - (INR i + 1) * step <= xi < - INR i * step.
(** Layer [i] belongs to the beam: its centre is ahead of the beam's end. *)
Definition beam_layer (b : beam_shape) (step : R) (i : nat) : Prop :=
  - lengths (b_segments b) < layer_centre step i.
(** The current the user asked for at [xi], inside segment [s]. *)
Definition wanted_current (b : beam_shape) (s : segment) (start xi : R) : R :=
  b_current b * s_ampl s * s_xishape s (start - xi) (s_length s).
(** [n] is the whole part of [x]. *)
Definition whole_part (x : R) (n : nat) : Prop := INR n <= x < INR n + 1.
(** [l] contains exactly [n] elements satisfying [P]. *)
Inductive counts {A} (P : A -> Prop) : list A -> nat -> Prop :=
| counts_nil : counts P [] 0
| counts_yes a l n : P a -> counts P l n -> counts P (a :: l) (S n)
| counts_no a l n : ~ P a -> counts P l n -> counts P (a :: l) n.
(** Distance of a particle from the axis (2D), from the segment's own axis (3D). *)
Definition radius_from (xshift yshift : R) (t : transverse) : R :=
  match t with T2 r _ _ => r | T3 x y _ _ => sqrt ((x - xshift) ^ 2 + (y - yshift) ^ 2) end.
(** The transverse size of the simulation window seen from the axis. *)
Definition half_width (c : gen_config) : R := if gc_three c then gc_width c / 2 else gc_width c.
(** Distribution function of the radius: a Gaussian of rms [radius] cut at [r_max]. *)
Definition cut_gauss_cdf (radius r_max r : R) : R :=
  (1 - exp (- r ^ 2 / (2 * radius ^ 2))) / (1 - exp (- r_max ^ 2 / (2 * radius ^ 2))).

(** What every particle of a layer whose centre is in segment [s] (at depth [dxi] in it) looks like. *)
Definition energy_ok (s : segment) (dxi : R) (draws : nat -> R) (pz : R) : Prop :=
  match s_eshape s with
  | EMono => pz = s_energy s
  | EUniform => Rmin (s_energy s) (s_espread s) <= pz <= Rmax (s_energy s) (s_espread s)
  | ELinear => pz = s_espread s + dxi / s_length s * (s_energy s - s_espread s)
  | EGauss => exists i, pz = s_energy s + s_espread s * draws i
  | EMulti n => exists k, (0 <= k < n)%Z /\ pz = s_espread s + IZR k / (IZR n - 1) * (s_energy s - s_espread s)
  end.
(** Transverse momenta: normal draws times the angular spread; in 2D the angular momentum is the
    radius times the second draw. *)
Definition spread_ok (sigma : R) (draws : nat -> R) (t : transverse) : Prop :=
  match t with
  | T2 r p_r M => exists i j, p_r = sigma * draws i /\ M = r * (sigma * draws j)
  | T3 _ _ px py => exists i j, px = sigma * draws i /\ py = sigma * draws j
  end.
Definition shape_of_geometry (three : bool) (t : transverse) : Prop :=
  match t with T2 _ _ _ => three = false | T3 _ _ _ _ => three = true end.
Definition particle_ok (c : gen_config) (b : beam_shape) (g : rng) (s : segment) (start : R) (i : nat) (q : gpart) : Prop :=
  let dxi := start - layer_centre (gc_step c) i in
  shape_of_geometry (gc_three c) (g_tr q) /\
  0 <= radius_from (s_xshift s) (s_yshift s) (g_tr q) < Rmax (9 / 10 * half_width c) (half_width c - 1) /\
  spread_ok (s_angspread s * s_energy s * s_angshape s dxi (s_length s)) (normal_draw g) (g_tr q) /\
  energy_ok s dxi (normal_draw g) (g_pz q).

(** Reasonable segments: positive length and radius; 'n' energies with n >= 2 (the registered ones). *)
Definition segments_ok (segs : list segment) : Prop :=
  forall s, In s segs -> 0 < s_length s /\ 0 < s_radius s /\
                         forall k, s_eshape s = EMulti k -> (2 <= k)%Z.
(** Nothing in the segment makes the random generator or a division fail. *)
Definition drawable (s : segment) : Prop :=
  s_mcr s <> 0 /\ s_radius s <> 0 /\
  (forall dxi, 0 < dxi < s_length s -> 0 <= s_angspread s * s_energy s * s_angshape s dxi (s_length s)) /\
  (s_eshape s = EGauss -> 0 <= s_espread s).

(** ** The dictionary of the user *)
(** The last binding of a key in a list of assignments. *)
Definition binding {V} (l : list (string * V)) (k : string) (v : V) : Prop :=
  exists l1 l2, l = l1 ++ (k, v) :: l2 /\ ~ In k (map fst l2).
(** The built-in values (manual, test 1 beam). *)
Definition builtin_segment : list (string * pval) :=
  [("length", PNum 5.01); ("ampl", PNum 1); ("xishape", PStr "cos"); ("radius", PNum 1);
   ("energy", PNum 1000); ("xshift", PNum 0); ("yshift", PNum 0); ("rshape", PStr "g");
   ("angspread", PNum 0.00001); ("angshape", PStr "l"); ("espread", PNum 0); ("eshape", PStr "m");
   ("mass_charge_ratio", PNum 1)]%string.
Definition builtin_shape : list (string * pval) :=
  [("current", PNum 0.05); ("particles_in_layer", PNum 2000); ("rng_seed", PNum 1)]%string.
(** The assignments of the 'default' dictionaries among the entries [d]. *)
Fixpoint defaults_in (d : list (string * bval)) : list (string * pval) :=
  match d with
  | [] => []
  | (k, BDict l) :: r => if String.eqb k "default" then l ++ defaults_in r else defaults_in r
  | (_, BVal _) :: r => defaults_in r
  end.
(** The dictionaries that describe segments, in order. *)
Fixpoint segment_entries (d : list (string * bval)) : list (string * list (string * pval)) :=
  match d with
  | [] => []
  | (k, BDict l) :: r => if String.eqb k "default" then segment_entries r else (k, l) :: segment_entries r
  | (_, BVal _) :: r => segment_entries r
  end.
(** The plain values among the entries. *)
Fixpoint plain_entries (d : list (string * bval)) : list (string * pval) :=
  match d with
  | [] => []
  | (k, BVal v) :: r => (k, v) :: plain_entries r
  | (_, BDict _) :: r => plain_entries r
  end.
(** Segment [s] has the values assigned by [l]. *)
Definition described_by (l : list (string * pval)) (s : segment) : Prop :=
  (forall k x, In (k, x) [("length", s_length s); ("ampl", s_ampl s); ("radius", s_radius s);
                          ("energy", s_energy s); ("xshift", s_xshift s); ("yshift", s_yshift s);
                          ("angspread", s_angspread s); ("espread", s_espread s);
                          ("mass_charge_ratio", s_mcr s)]%string -> binding l k (PNum x)) /\
  (exists n, binding l "xishape" (PStr n) /\ xishape_of n = Some (s_xishape s)) /\
  (exists n, binding l "angshape" (PStr n) /\ xishape_of n = Some (s_angshape s)) /\
  (exists n, binding l "eshape" (PStr n) /\ eshape_of n = Some (s_eshape s)) /\
  (exists n, binding l "rshape" (PStr n) /\ (n = "gaussian" \/ n = "g"))%string.
