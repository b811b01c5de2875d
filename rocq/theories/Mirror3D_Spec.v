(** What C65 says: the 3D code does not know left from right.  Mirroring the plane x -> -x changes the
    sign of the x component of vectors; the magnetic field is an axial vector, so its y and z components
    change sign.  Row i of an array of n rows becomes row n - 1 - i. *)
From Coq Require Import Reals ZArith List Bool.
From Verif Require Import Beam2D_Spec Plasma2D_Model Shape_Model Shape_Spec Plasma3D_Model Plasma3D_Spec Layer3D_Spec.
From Verif Require Beam3D_Model.
Import ListNotations.
Open Scope R_scope.

(** ** Plasma *)
Definition mir (n i : nat) : nat := (n - 1 - i)%nat.
Definition even_x (n : nat) (a : arr2) : arr2 := fun i j => a (mir n i) j.
Definition odd_x (n : nat) (a : arr2) : arr2 := fun i j => - a (mir n i) j.
Definition mirror_pt (p : pt3) : pt3 :=
  mkT (- t_x0 p) (t_y0 p) (- t_dx p) (t_dy p) (- t_px p) (t_py p) (t_pz p) (t_q p) (t_m p) (- t_cx p) (t_cy p).
Definition mirror_parts (ps : parts3) : parts3 :=
  mkP3 (K_ ps) (fun i j => mirror_pt (el ps (mir (K_ ps) i) j)) (fun i j => mirror_pt (io ps (mir (K_ ps) i) j)).
Definition mirror_fields (n : nat) (f : fields3) : fields3 :=
  mkF3 (odd_x n (Ex f)) (even_x n (Ey f)) (even_x n (Ez f)) (even_x n (Bx f)) (odd_x n (By f)) (odd_x n (Bz f)) (even_x n (Phi f)).
Definition even_g (n : nat) (g : grid) : grid := fun a b => g (Z.of_nat n - 1 - a)%Z b.
Definition odd_g (n : nat) (g : grid) : grid := fun a b => - g (Z.of_nat n - 1 - a)%Z b.
Definition mirror_dens (n : nat) (d : dens3) : dens3 :=
  mkD3 (even_g n (c_ro d)) (odd_g n (c_jx d)) (even_g n (c_jy d)) (even_g n (c_jz d)).
Definition mirror_cur (n : nat) (c : cur3) : cur3 := mkC3 (mirror_dens n (r_e c)) (mirror_dens n (r_i c)).
Definition mirror_state (n : nat) (st : state3) : state3 :=
  let '(ps, f, c) := st in (mirror_parts ps, mirror_fields n f, mirror_cur n c).
Definition mirror_ions (n : nat) (im : ions3) : ions3 :=
  match im with Background3 ro => Background3 (even_g n ro) | Mobile3 => Mobile3 end.
Definition mirror_solver (s : solver3) : solver3 :=
  mkS3 (u_n s) (u_h s) (u_xi s) (u_b s) (u_coeff s) (mirror_ions (u_n s) (u_ions s)) (u_decl s) (u_force s) (u_damp s) (u_limit s).

(** ** The same plasma: K x K electrons, K x K mobile ions, fields and total densities and currents on the
    nodes 0..L.  The array of ions that do not move is not looked at. *)
Definition same_plasma (s : solver3) (L : nat) (st st' : state3) : Prop :=
  let '(p, f, c) := st in let '(p', f', c') := st' in
  K_ p = K_ p' /\ of_sorts s (K_ p) (fun sort i j => sort p i j = sort p' i j) True /\
  (forall F, In F [Ex; Ey; Ez; Bx; By; Bz; Phi] -> nodes_eq L (F f) (F f')) /\
  (forall g, In g [c_ro; c_jx; c_jy; c_jz] -> nodes_eq L (total3 g c) (total3 g c')).

(** ** Flights.  Where a charged particle arrives in one push, before any reflection. *)
Definition arrives_at (n : nat) (h b X : R) (f : fields3) (prev guess : pt3) (x : R) : Prop :=
  let mx := t_x0 prev + (t_dx prev + t_dx guess) / 2 in let my := t_y0 prev + (t_dy prev + t_dy guess) / 2 in
  let '(E, B) := field_at n h f (mirror b mx) (mirror b my) in
  exists p0 : v3, (beyond b mx my -> p0 = (0, 0, 0)) /\ (~ beyond b mx my -> p0 = mom prev) /\
  let p1 := add3 (mom prev) (scale3 (X / 2) (rate_p (t_m guess) (t_q guess) E B p0)) in
  let d := scale3 X (rate_p (t_m guess) (t_q guess) E B p1) in
  x = at_x prev + X * rate_x (t_m guess) (add3 (mom prev) (scale3 (1 / 2) d)).
(** It does not fly more than the width of the window past a wall. *)
Definition near1 (s : solver3) (f : fields3) (prev guess : pt3) : Prop :=
  t_q guess <> 0 -> forall x, arrives_at (u_n s) (u_h s) (u_b s) (u_xi s) f prev guess x -> Rabs x <= 3 * u_b s.
Definition near (s : solver3) (f : fields3) (pp g : parts3) : Prop :=
  of_sorts s (K_ pp) (fun sort i j => near1 s f (sort pp i j) (sort g i j)) True.
(** In none of the three pushes of a layer. *)
Definition short_flights (s : solver3) (L : nat) (rb rbp : arr2) (st : state3) : Prop :=
  let '(pp, fp, cp) := st in
  let solved := fun it c full half => fields_of L (u_h s) (u_xi s) (u_coeff s) it fp rb rbp cp c full half in
  forall p0 p1 p2 c1 c2 full1 half1 full2 half2,
    all_coasted s pp p0 ->
    all_pushed s fp pp p0 p1 -> carried_by s p1 c1 -> solved fp c1 full1 half1 ->
    all_pushed s half1 pp p1 p2 -> carried_by s p2 c2 -> solved half1 c2 full2 half2 ->
    near s fp pp p0 /\ near s half1 pp p1 /\ near s half2 pp p2.

(** ** Beam *)
Import Beam3D_Model.
Definition mirror_b (p : part3) : part3 :=
  mk3 (b_xi p) (- b_x p) (b_y p) (- b_px p) (b_py p) (b_pz p) (b_qm p) (b_q p) (b_id p) (b_dt p) (b_rem p).
