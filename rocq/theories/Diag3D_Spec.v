(** What C77 says, independently of how the code computes it. *)
From Coq Require Import Reals ZArith List Bool String.
From Verif Require Import Diag_Model Diag_Spec.
Import ListNotations.
Local Open Scope list_scope.
Local Open Scope R_scope.

(** The parts of a step's layers that are written while the window is passed: [writes l n] says that the layer l makes n
    writes of everything up to and including it; the layers [seen] have been passed already. *)
Inductive midway {layer} (writes : layer -> nat -> Prop) : list layer -> list layer -> list (list layer) -> Prop :=
  | mid_end seen : midway writes seen [] []
  | mid_layer seen l r n ps : writes l n -> midway writes (seen ++ [l]) r ps -> midway writes seen (l :: r) (repeat (seen ++ [l]) n ++ ps).
(** The writes of a run, each with its time and the layers it covers: for every due step what is written midway, then the
    whole step; nothing for the other steps. *)
Inductive written {layer} (P : period) (dt : R) (writes : layer -> nat -> Prop) : list (R * list layer) -> list (R * list layer) -> Prop :=
  | wr_end : written P dt writes [] []
  | wr_due t ls r ps ws : due P dt t -> midway writes [] ls ps -> written P dt writes r ws ->
      written P dt writes ((t, ls) :: r) (map (pair t) (ps ++ [ls]) ++ ws)
  | wr_skip t ls r ws : ~ due P dt t -> written P dt writes r ws -> written P dt writes ((t, ls) :: r) ws.

(** A layer within half a xi step of a multiple of the saving period. *)
Definition saving (S : period) (dxi : R) (l : layer3) (n : nat) : Prop :=
  (n = 1%nat /\ due S dxi (l3_xi l)) \/ (n = 0%nat /\ ~ due S dxi (l3_xi l)).

(** A file of DiagnosticsFXi made of the layers [ls] of the step at time t: xi, and a value per layer for every name; the
    rest is empty. *)
Definition line_file (names : list string) (h : R) (cells : list (Z * Z)) (w : R * list layer3) (f : file) : Prop :=
  f_time f = fst w /\
  f_data f "xi"%string = map (fun l => [[l3_xi l]]) (snd w) /\
  (forall q, In (key3 q) names -> Forall2 (stored3 h cells q) (snd w) (f_data f (key3 q))) /\
  (forall k, k <> "xi"%string -> (forall q, k = key3 q -> ~ In k names) -> f_data f k = []).

(** The layers between the limits, None being infinity. *)
Definition between (to from : option R) (xi : R) : Prop :=
  (forall y, to = Some y -> y <= xi) /\ (forall y, from = Some y -> xi <= y).
Inductive kept {A} (P : A -> Prop) : list A -> list A -> Prop :=
  | kept_nil : kept P [] []
  | kept_yes a l l' : P a -> kept P l l' -> kept P (a :: l) (a :: l')
  | kept_no a l l' : ~ P a -> kept P l l' -> kept P (a :: l) l'.
(** The cells of a limited row, n cells of width h: without a limit up to the border; a limit is met to half a cell. *)
Definition row_cells (n : Z) (h : R) (r_from r_to : option R) (cells : list Z) : Prop :=
  exists a b, cells_between a b cells /\ (0 <= a)%Z /\ (b <= n)%Z /\
    (r_from = None -> a = 0%Z) /\ (r_to = None -> b = n) /\
    (forall r j, r_from = Some r -> In j cells -> r - h / 2 <= centre n h j) /\
    (forall r j, r_to = Some r -> In j cells -> centre n h j <= r - h / 2) /\
    (forall j, on_axis n j -> (forall r, r_from = Some r -> r - h / 2 < centre n h j) ->
       (forall r, r_to = Some r -> centre n h j < r - h / 2) -> In j cells).
(** A file of DiagnosticsColormaps: of the layers between the limits, the cells of the central row; and the whole transverse grid. *)
Definition map_file (names : list string) (n : Z) (h : R) (xi_to xi_from r_from r_to : option R) (w : R * list layer3) (f : file) : Prop :=
  f_time f = fst w /\
  exists ls cells, kept (fun l => between xi_to xi_from (l3_xi l)) (snd w) ls /\ row_cells n h r_from r_to cells /\
    f_data f "xi"%string = map (fun l => [[l3_xi l]]) ls /\
    (forall q g, In (key3 q) names -> (forall l, In l ls -> field_of q l = Some (g l)) ->
       f_data f (key3 q) = map (fun l => [map (fun j => g l (n / 2)%Z j) cells]) ls) /\
    (exists grid, f_data f "transverse_grid"%string = [[grid]] /\ List.length grid = Z.to_nat n /\
       forall j, on_axis n j -> nth (Z.to_nat j) grid 0 = centre n h j) /\
    (forall k, k <> "xi"%string -> k <> "transverse_grid"%string -> ~ In k names -> f_data f k = []).
(** ... is written when a layer is near a multiple of the saving period, and once more by the layer that passes xi_to. *)
Definition map_saving (S : period) (dxi : R) (xi_to : option R) (l : layer3) (n : nat) : Prop :=
  exists a b, n = (a + b)%nat /\ saving S dxi l a /\
    (forall y, xi_to = Some y -> l3_xi l <= y <= l3_xi l + dxi -> b = 1%nat) /\
    ((forall y, xi_to = Some y -> ~ l3_xi l <= y <= l3_xi l + dxi) -> b = 0%nat).
