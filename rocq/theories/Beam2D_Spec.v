(** Specification vocabulary for C10-C16. *)
From Coq Require Import Reals ZArith List Bool Permutation Sorting.Sorted.
From Verif Require Import Beam2D_Model.
Import ListNotations.
Open Scope R_scope.

(** What is assumed of numpy.argsort: a sorted rearrangement, in any order among equal keys. *)
Definition sort_xi_ok (s : list part -> list part) : Prop :=
  forall l, Permutation (s l) l /\ StronglySorted (fun a b => xi b <= xi a) (s l).
Definition sort_bool_ok (s : (bpart -> bool) -> list bpart -> list bpart) : Prop :=
  forall key l, Permutation (s key l) l /\
    StronglySorted (fun a b => key a = true -> key b = true) (s key l).

(** Ask the source for the [n] consecutive layers i, i+1, ... of width [dxi], as the xi loop does. *)
Fixpoint ask (s : source) (dxi : R) (i : Z) (n : nat) : option (list (nat * list bpart) * source) :=
  match n with
  | O => Some ([], s)
  | S n' =>
    match get_beam_slice s (IZR i * - dxi) (IZR (i + 1) * - dxi) with
    | None => None
    | Some (size, l, s1) =>
      match ask s1 dxi (i + 1) n' with None => None | Some (r, s2) => Some ((size, l) :: r, s2) end
    end
  end.

(** Layer [i] of width [dxi] is [-(i+1) dxi, -i dxi). *)
Definition in_xi_layer (dxi : R) (i : Z) (p : part) : bool :=
  if Rle_dec (- (IZR (i + 1) * dxi)) (xi p) then
    if Rlt_dec (xi p) (- (IZR i * dxi)) then true else false else false.
(** The same closed at the top, for the first layer. *)
Definition in_xi_layer_top (dxi : R) (i : Z) (p : part) : bool :=
  if Rle_dec (- (IZR (i + 1) * dxi)) (xi p) then
    if Rle_dec (xi p) (- (IZR i * dxi)) then true else false else false.

(** What never changes for a beam particle. *)
Definition ident (b : bpart) : Z * R * R := (pid (pt b), q_m (pt b), q_norm (pt b)).
Definition idents (l : list bpart) := map ident l.
(** Particles the source has not handed out yet. *)
Definition undelivered (s : source) : list bpart := map fresh (skipn (used s) (s_parts s)).

Fixpoint sumR (l : list R) : R := match l with [] => 0 | x :: t => x + sumR t end.
(** Charge of a layer from its density: cell 0 has volume h^2/6, cell j volume j h^2 (in the units
    of the code). *)
Fixpoint layer_charge (h : R) (j : nat) (rho : list R) : R :=
  match rho with
  | [] => 0
  | x :: t => x * (match j with O => h ^ 2 / 6 | _ => INR j * h ^ 2 end) + layer_charge h (S j) t
  end.
Definition total_charge (l : list bpart) : R := sumR (map (fun b => q_norm (pt b)) l).

(** [substeps c fk1 fk xi_end n b b']: [n] completed substeps lead from [b] to [b'], the middle of
    every substep lies in the layer (not behind [xi_end]) and inside the wall, and so does the end
    of every substep. *)
Inductive substeps (c : pcfg) (fk1 fk : fields) (xi_end : R) : nat -> bpart -> bpart -> Prop :=
| SS0 b : substeps c fk1 fk xi_end 0 b b
| SSS n b b' x1 p1 :
    let xh := half_position (pt b) (dt b) in
    (0 < rem b)%nat -> xi_end <= vz xh -> vx xh ^ 2 + vy xh ^ 2 < lost_boundary c ^ 2 ->
    substep c (pt b) (dt b) (particle_fields xh fk1 fk xi_end (r_step c) (xi_step c)) = (x1, p1) ->
    vx x1 ^ 2 + vy x1 ^ 2 < lost_boundary c ^ 2 ->
    substeps c fk1 fk xi_end n (vec_to_beam c b x1 p1 (rem b - 1) (lost b)) b' ->
    substeps c fk1 fk xi_end (S n) b b'.

(** Everything that happens to a particle between the moment it is handed out and the moment it
    is drained: in each layer it is prepared and pushed, in arbitrary fields. *)
Inductive history (h : nat) (c : pcfg) : nat -> bpart -> bpart -> Prop :=
| H_start b : history h c 0 b b
| H_layer n m b b1 b2 b3 fk1 fk xi_end :
    history h c n b b1 -> prepare h c b1 = Some b2 -> push_particle c fk1 fk xi_end b2 = b3 ->
    lost b3 = false -> substeps c fk1 fk xi_end m b2 b3 ->
    history h c (n + m) b b3.

(** No field anywhere on the grid. *)
Definition no_field (f : fields) : Prop :=
  forall l, In l [E_r f; E_f f; E_z f; B_f f; B_z f] -> forall j, nth j l 0 = 0.
(** Relativistic factor times mass over charge of a particle. *)
Definition gamma_m (p : part) : R := sqrt ((1 / q_m p) ^ 2 + (p_r p ^ 2 + (ang p / rad p) ^ 2 + p_z p ^ 2)).
(** Straight-line motion in the plane: position after time [t], starting on the x axis. *)
Definition line_x (p : part) (t : R) : R := rad p + t * (p_r p / gamma_m p).
Definition line_y (p : part) (t : R) : R := t * (ang p / rad p / gamma_m p).

(** Linear (cloud-in-cell) weight. *)
Definition hat (x : R) : R := Rmax 0 (1 - Rabs x).
(** What layer [upper] (at xi_end + dxi) and layer [lower] (at xi_end) receive in cell j. *)
Definition cic_upper (h dxi xi_end : R) (l : list bpart) (j : nat) : R :=
  sumR (map (fun b => q_norm (pt b) * ((xi (pt b) - xi_end) / dxi) * hat (rad (pt b) / h - INR j)) l).
Definition cic_lower (h dxi xi_end : R) (l : list bpart) (j : nat) : R :=
  sumR (map (fun b => q_norm (pt b) * (1 - (xi (pt b) - xi_end) / dxi) * hat (rad (pt b) / h - INR j)) l).
(** The particle touches only cells of a grid of [n] cells. *)
Definition on_grid (h : R) (n : nat) (b : bpart) : Prop :=
  0 <= rad (pt b) /\ rad (pt b) < h * INR (n - 1).
