(** Specification vocabulary for C17-C21, C45, C46. *)
From Coq Require Import Reals ZArith List Bool Permutation Sorting.Sorted.
From Verif Require Import Beam2D_Model Beam2D_Spec Shape_Model Shape_Spec Beam3D_Model.
Import ListNotations.
Open Scope R_scope.

Definition sort3_ok (s : list part3 -> list part3) : Prop :=
  forall l, Permutation (s l) l /\ StronglySorted (fun a b => b_xi b <= b_xi a) (s l).

(** Ask the source for the n consecutive layers i, i+1, ... *)
Fixpoint ask3 (dxi : R) (src : list part3) (i : Z) (n : nat) : list (list part3) * list part3 :=
  match n with
  | O => ([], src)
  | S n' => let '(l, s1) := get_layer3 dxi src i in
            let '(r, s2) := ask3 dxi s1 (i + 1) n' in (l :: r, s2)
  end.

(** Layer i is -(i+1) dxi <= xi < -i dxi. *)
Definition xi_in (dxi : R) (i : Z) (p : part3) : Prop :=
  - (IZR (i + 1) * dxi) <= b_xi p /\ b_xi p < - (IZR i * dxi).

(** What a particle keeps: charge, charge-to-mass ratio and id (up to the sign that marks a loss). *)
Definition ident3 (p : part3) : R * R * Z := (b_q p, b_qm p, Z.abs (b_id p)).

(** One completed substep at the fields gathered at its midpoint. *)
Definition advance (u : unit_type) (c : cfg3) (idx : Z) (fk fk1 : fields3) (p : part3) : part3 :=
  let '(p', x') := update u p (fields_at c idx (half3 p) fk fk1) in
  mk3 (vz x') (vx x') (vy x') (vx p') (vy p') (vz p') (b_qm p) (b_q p) (b_id p) (b_dt p) (b_rem p - 1).
(** [n] completed substeps with every midpoint in layer [idx], all midpoints and ends inside the wall. *)
Inductive substeps3 (u : unit_type) (c : cfg3) (idx : Z) (fk fk1 : fields3) : nat -> part3 -> part3 -> Prop :=
| S3_0 p : substeps3 u c idx fk fk1 0 p p
| S3_S n p q : (0 < b_rem p)%nat -> - (IZR (idx + 1) * c_dxi c) <= snd (half3 p) ->
    fst (fst (half3 p)) ^ 2 + snd (fst (half3 p)) ^ 2 < lost_radius c ^ 2 ->
    b_x (advance u c idx fk fk1 p) ^ 2 + b_y (advance u c idx fk fk1 p) ^ 2 < lost_radius c ^ 2 ->
    substeps3 u c idx fk fk1 n (advance u c idx fk fk1 p) q ->
    substeps3 u c idx fk fk1 (S n) p q.

Definition total_charge3 (l : list part3) : R := sumR (map b_q l).
(** Transverse cells touched by a particle are on the grid. *)
Definition on_grid3 (n : Z) (h : R) (p : part3) : Prop := inside n h (b_x p) /\ inside n h (b_y p).
Definition dist_from_top (dxi : R) (idx : Z) (p : part3) : R := (- dxi * IZR idx - b_xi p) / dxi.

Definition p_of (p : part3) : vec := (b_px p, b_py p, b_pz p).
Definition zero_vec : vec := (0, 0, 0).

(** Everything that happens to a particle between the moment it is handed out and the moment it is
    drained: its substep is chosen once, then in each of some layers it makes some completed
    substeps in arbitrary fields. *)
Inductive history3 (u : unit_type) (h : nat) (c : cfg3) : nat -> part3 -> part3 -> Prop :=
| H3_start p q : start3 h (c_energy c) (c_time_step c) p = Some q -> history3 u h c 0 p q
| H3_layer n m p q r idx fk fk1 : history3 u h c n p q -> substeps3 u c idx fk fk1 m q r ->
    history3 u h c (n + m) p r.

(** No field anywhere. *)
Definition no_field3 (f : fields3) : Prop :=
  forall a b, Ex f a b = 0 /\ Ey f a b = 0 /\ Ez f a b = 0 /\ Bx f a b = 0 /\ By f a b = 0 /\ Bz f a b = 0.
(** Relativistic factor (times mass over charge) of a beam particle, and of a momentum. *)
Definition gam3 (p : part3) : R := sqrt ((1 / b_qm p) ^ 2 + b_px p ^ 2 + b_py p ^ 2 + b_pz p ^ 2).
Definition norm2 (v : vec) : R := vx v ^ 2 + vy v ^ 2 + vz v ^ 2.
Definition dot (a b : vec) : R := vx a * vx b + vy a * vy b + vz a * vz b.
Definition vcross (a b : vec) : vec :=
  (vy a * vz b - vz a * vy b, vz a * vx b - vx a * vz b, vx a * vy b - vy a * vx b).
(** No electric field anywhere. *)
Definition no_electric (f : fields3) : Prop := forall a b, Ex f a b = 0 /\ Ey f a b = 0 /\ Ez f a b = 0.
Definition no_magnetic (f : fields3) : Prop := forall a b, Bx f a b = 0 /\ By f a b = 0 /\ Bz f a b = 0.
(** The transverse coordinate of column (or row) [a]. *)
Definition coord (c : cfg3) (a : Z) : R := c_h c * IZR (a - c_n c / 2).
Definition layer_xi (c : cfg3) (idx : Z) : R := - (IZR idx * c_dxi c).

(** Deposit consecutive layers i, i+1, ...: the densities returned, and what is carried over. *)
Fixpoint layouts (n : Z) (h dxi : R) (rho_l : grid) (ls : list (list part3)) (i : Z) : list grid * grid :=
  match ls with
  | [] => ([], rho_l)
  | l :: t => let '(rho, next) := layout3 n h dxi rho_l l i in
              let '(r, e) := layouts n h dxi next t (i + 1) in (rho :: r, e)
  end.
