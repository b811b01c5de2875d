(** What C58 says: the 3D code does not know which transverse axis is called x and which y.
    Exchanging the axes exchanges the components of vectors; it is a reflection, so the magnetic field
    (an axial vector) also changes its sign. *)
From Coq Require Import Reals ZArith List Bool.
From Verif Require Import Beam2D_Model Plasma2D_Model Shape_Model Plasma3D_Model.
From Verif Require Beam3D_Model.
Import ListNotations.
Open Scope R_scope.

(** ** Plasma *)
Definition swap_pt (p : pt3) : pt3 :=
  mkT (t_y0 p) (t_x0 p) (t_dy p) (t_dx p) (t_py p) (t_px p) (t_pz p) (t_q p) (t_m p) (t_cy p) (t_cx p).
Definition swap_parts (ps : parts3) : parts3 :=
  mkP3 (K_ ps) (fun i j => swap_pt (el ps j i)) (fun i j => swap_pt (io ps j i)).
Definition swap_arr (a : arr2) : arr2 := fun i j => a j i.
Definition swap_axial (a : arr2) : arr2 := fun i j => - a j i.
Definition swap_fields (f : fields3) : fields3 :=
  mkF3 (swap_arr (Ey f)) (swap_arr (Ex f)) (swap_arr (Ez f))
       (swap_axial (By f)) (swap_axial (Bx f)) (swap_axial (Bz f)) (swap_arr (Phi f)).
Definition swap_grid (g : grid) : grid := fun a b => g b a.
Definition swap_dens (d : dens3) : dens3 :=
  mkD3 (swap_grid (c_ro d)) (swap_grid (c_jy d)) (swap_grid (c_jx d)) (swap_grid (c_jz d)).
Definition swap_cur (c : cur3) : cur3 := mkC3 (swap_dens (r_e c)) (swap_dens (r_i c)).
Definition swap_state (st : state3) : state3 :=
  let '(ps, f, c) := st in (swap_parts ps, swap_fields f, swap_cur c).
Definition swap_ions (im : ions3) : ions3 :=
  match im with Background3 ro => Background3 (swap_grid ro) | Mobile3 => Mobile3 end.
Definition swap_solver (s : solver3) : solver3 :=
  mkS3 (u_n s) (u_h s) (u_xi s) (u_b s) (u_coeff s) (swap_ions (u_ions s)) (u_decl s) (u_force s) (u_damp s) (u_limit s).

(** ** Beam *)
Import Beam3D_Model.
Definition swap_b (p : part3) : part3 :=
  mk3 (b_xi p) (b_y p) (b_x p) (b_py p) (b_px p) (b_pz p) (b_qm p) (b_q p) (b_id p) (b_dt p) (b_rem p).
Definition swap_axial_grid (g : grid) : grid := fun a b => - g b a.
Definition swap_bfields (f : Beam3D_Model.fields3) : Beam3D_Model.fields3 :=
  Beam3D_Model.mkF3 (swap_grid (Beam3D_Model.Ey f)) (swap_grid (Beam3D_Model.Ex f)) (swap_grid (Beam3D_Model.Ez f))
    (swap_axial_grid (Beam3D_Model.By f)) (swap_axial_grid (Beam3D_Model.Bx f)) (swap_axial_grid (Beam3D_Model.Bz f)).
(** the state of the xi loop, with any plasma state [Pl] that can be swapped by [sw] *)
Definition swap_run {Pl} (sw : Pl -> Pl) (s : Beam3D_Model.state3 Pl) : Beam3D_Model.state3 Pl :=
  Beam3D_Model.mkS3 Pl (map swap_b (s_src Pl s)) (map swap_b (s_move Pl s)) (s_fell Pl s) (map swap_b (s_lost Pl s))
    (map swap_b (s_drain Pl s)) (swap_grid (s_rho Pl s)) (swap_grid (s_prev Pl s)) (sw (s_pl Pl s)).
(** The order of the beam is decided by xi alone (np.argsort(-xi)): renaming the axes first or sorting
    first is the same. *)
Definition sorts_by_xi (sort3 : list part3 -> list part3) : Prop :=
  forall f, (forall p, b_xi (f p) = b_xi p) -> forall l, sort3 (map f l) = map f (sort3 l).

(** ** The plasma solver seen from the xi loop: one layer from the beam density of that layer and of
    the previous one (lcode/push_solvers/push_solver.py:234-247); fields as the beam mover reads them. *)
Definition plasma_layer (average : nat -> arr2 -> arr2) (s : solver3) (st : Plasma3D_Model.state3) (rho prev : grid) : Plasma3D_Model.state3 :=
  step_dxi3 (average (K_ (fst (fst st)))) s (to_arr2 rho) (to_arr2 prev) st.
Definition of_arr2 (a : arr2) : grid := fun i j => a (Z.to_nat i) (Z.to_nat j).
Definition seen_fields (st : Plasma3D_Model.state3) : Beam3D_Model.fields3 :=
  let f := snd (fst st) in
  Beam3D_Model.mkF3 (of_arr2 (Plasma3D_Model.Ex f)) (of_arr2 (Plasma3D_Model.Ey f)) (of_arr2 (Plasma3D_Model.Ez f)) (of_arr2 (Plasma3D_Model.Bx f)) (of_arr2 (Plasma3D_Model.By f)) (of_arr2 (Plasma3D_Model.Bz f)).
