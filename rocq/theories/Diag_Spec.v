(** What the diagnostics theorems (C33, C34, C49-C52) say, independently of how the code computes it. *)
From Coq Require Import Reals ZArith List Bool Ascii String.
From Verif Require Import Beam2D_Spec Shape_Model Plasma2D_Model Plasma3D_Model Diag_Model.
Import ListNotations.
Local Open Scope list_scope.
Local Open Scope R_scope.

(** ** C33.  A step at time t is due when it is within half a time step of a multiple of the period
    (a period shorter than the time step counts as the time step). *)
Definition due (P : period) (dt t : R) : Prop :=
  match P with
  | Every p => exists n : Z, Rabs (t - IZR n * Rmax p dt) <= dt / 2
  | Never => Rabs t <= dt / 2
  end.

(** ** C34, C49.  The output steps of a run: those due, and the first one of rank 0. *)
Inductive output_steps {layer} (P : period) (dt : R) : bool -> list (R * list layer) -> list (R * list layer) -> Prop :=
  | out_nil b : output_steps P dt b [] []
  | out_take b t ls r r' : b = true \/ due P dt t -> output_steps P dt false r r' ->
      output_steps P dt b ((t, ls) :: r) ((t, ls) :: r')
  | out_skip t ls r r' : ~ due P dt t -> output_steps P dt false r r' ->
      output_steps P dt false ((t, ls) :: r) r'.

(** The cell of an axis of [steps] cells whose centre is nearest to x is [steps/2 + n], n nearest to
    x/h; the centre of cell i is at (i - steps/2)*h. *)
Definition centre (steps : Z) (h : R) (i : Z) : R := IZR (i - steps / 2) * h.
Definition on_axis (steps i : Z) : Prop := (0 <= i < steps)%Z.

(** The flags a user combines with `|`. *)
Definition flags (qs : list quantity) : Z := fold_right Z.lor 0%Z (map code qs).
(** The names in the file, 3D. *)
Definition key3 (q : quantity) : string :=
  match q with
  | qEx => "Ex" | qEy => "Ey" | qEz => "Ez" | qBx => "Bx" | qBy => "By" | qBz => "Bz" | qPhi => "Phi"
  | qne => "ne" | qni => "ni" | qrho_beam => "rho_beam" | qSf => "Sf"
  | qdx => "dx_chaotic" | qdy => "dy_chaotic" | qdx_perp => "dx_chaotic_perp" | qdy_perp => "dy_chaotic_perp"
  end%string.
(** The field a quantity is read from. *)
Definition field_of (q : quantity) (l : layer3) : option grid :=
  match q with
  | qEx => Some (l3_ex l) | qEy => Some (l3_ey l) | qEz => Some (l3_ez l)
  | qBx => Some (l3_bx l) | qBy => Some (l3_by l) | qBz => Some (l3_bz l)
  | qPhi => Some (l3_phi l) | qne => Some (l3_ne l) | qni => Some (l3_ni l) | qrho_beam => Some (l3_beam l)
  | qSf | qdx | qdy | qdx_perp | qdy_perp => None
  end.
(** In 2D: the name and the array. *)
Definition key2 (q : quantity) : option string :=
  match q with
  | qEx => Some "E_r" | qEy => Some "E_f" | qEz => Some "E_z" | qBx => Some "B_f" | qBz => Some "B_z"
  | qne => Some "ne" | qni => Some "ni" | qrho_beam => Some "rho_beam"
  | _ => None
  end%string.
Definition field2_of (q : quantity) (l : layer2) : Z -> R :=
  match q with
  | qEx => l2_er l | qEy => l2_ef l | qEz => l2_ez l | qBx => l2_bf l | qBz => l2_bz l
  | qne => l2_ne l | qni => l2_ni l | qrho_beam => l2_beam l
  | _ => fun _ => 0
  end.
Definition supported2 (q : quantity) : Prop :=
  match q with qPhi | qSf | qdx | qdy | qdx_perp | qdy_perp => False | _ => True end.

(** The largest absolute value of an array. *)
Definition is_max_abs (a : list (list R)) (m : R) : Prop :=
  (exists x, In x (List.concat a) /\ Rabs x = m) /\ (forall x, In x (List.concat a) -> Rabs x <= m).
(** The central part: rows and columns a1 .. 5*a1 - 1, a1 a sixth of the rows. *)
Definition is_central (a c : list (list R)) : Prop :=
  let a1 := (List.length a / 6)%nat in
  List.length c = (4 * a1)%nat /\
  forall i, (i < 4 * a1)%nat -> List.length (nth i c []) = (4 * a1)%nat /\
    forall j, (j < 4 * a1)%nat -> nth j (nth i c []) 0 = nth (a1 + j) (nth (a1 + i) a []) 0.
Definition square (a : list (list R)) : Prop := forall row, In row a -> List.length row = List.length a.

(** What FXiDiag should store for a quantity at a layer, 3D; cells: the probe lines' cells. *)
Definition stored3 (h : R) (cells : list (Z * Z)) (q : quantity) (l : layer3) (v : arr) : Prop :=
  match q with
  | qSf => v = [[energy_flux h l]]
  | qdx => exists m, is_max_abs (l3_chx l) m /\ v = [[m]]
  | qdy => exists m, is_max_abs (l3_chy l) m /\ v = [[m]]
  | qdx_perp => exists m c, is_central (l3_chx l) c /\ is_max_abs c m /\ v = [[m]]
  | qdy_perp => exists m c, is_central (l3_chy l) c /\ is_max_abs c m /\ v = [[m]]
  | q => exists g, field_of q l = Some g /\ v = [map (fun c => g (fst c) (snd c)) cells]
  end.

(** ** C34, the option string: items between commas, spaces dropped. *)
Definition without_spaces (s : string) : string :=
  string_of_list_ascii (filter (fun a => negb (Ascii.eqb a " "%char)) (list_ascii_of_string s)).
Definition has_no (a : Ascii.ascii) (s : string) : Prop := ~ In a (list_ascii_of_string s).

(** ** C49, C50: slices *)
(** The layers a slice along xi keeps. *)
Definition in_limits (to from xi : R) : bool :=
  if Rle_dec to xi then if Rle_dec xi from then true else false else false.
(** The row of an XI_X / XI_Y slice: along x at fixed y, or along y at fixed x. *)
Definition line_of (p : plane) (cells : list Z) (fixed : Z) (g : grid) : list R :=
  match p with XI_Y => map (fun j => g fixed j) cells | _ => map (fun i => g i fixed) cells end.
(** Increasing runs of cells: all cells from a to b - 1. *)
Definition cells_between (a b : Z) (l : list Z) : Prop :=
  List.length l = Z.to_nat (b - a) /\ forall k, (k < List.length l)%nat -> nth k l 0%Z = (a + Z.of_nat k)%Z.
(** Time multiples for the XY slices and the snapshots. *)
Definition due_xi (P : period) (dxi xi : R) : Prop :=
  match P with Every p => exists n : Z, Rabs (xi - IZR n * p) <= dxi / 2 | Never => Rabs xi <= dxi / 2 end.
(** Names in the files of 2D slices. *)
Definition slice_key2 (q : quantity) : option string :=
  match q with
  | qEx => Some "Er" | qEy => Some "Ef" | qEz => Some "Ez" | qBx => Some "Bf" | qBz => Some "Bz"
  | qne => Some "ne" | qni => Some "ni" | qrho_beam => Some "rho_beam"
  | _ => None
  end%string.

(** ** C52.  Nothing moves and the fields carry no flux. *)
Definition at_rest (l : layer3) : Prop := forall p, In p (l3_el l) -> t_px p = 0 /\ t_py p = 0 /\ t_pz p = 0.
Definition no_flux (l : layer3) : Prop := forall a b, on_axis (l3_steps l) a -> on_axis (l3_steps l) b ->
  l3_ez l a b = 0 /\ l3_bz l a b = 0 /\ l3_ex l a b = l3_by l a b /\ l3_ey l a b = - l3_bx l a b.
