(** What the 3D layer theorems (C60) say: one layer of the plasma as a predictor-corrector scheme,
    independently of how the code computes it. *)
From Coq Require Import Reals ZArith List Bool.
From Verif Require Import Beam2D_Spec Plasma2D_Model Shape_Model Shape_Spec Plasma3D_Model Plasma3D_Spec.
Import ListNotations.
Open Scope R_scope.

(** ** Motion *)
(** Mirrored in the wall at b, then in the wall at -b; a point between the walls stays. *)
Definition mirror (b x : R) : R := let y := Rmin x (2 * b - x) in Rmax y (- (2 * b) - y).
Definition beyond (b x y : R) : Prop := b < Rabs x \/ b < Rabs y.
(** Moved for one layer with constant momentum. *)
Definition coasted (X : R) (p g : pt3) : Prop :=
  t_dx g = t_dx p + X * rate_x (t_m p) (mom p) /\ t_dy g = t_dy p + X * rate_y (t_m p) (mom p) /\ mom g = mom p /\
  same_particle p g /\ t_q g = t_q p /\ t_cx g = t_cx p /\ t_cy g = t_cy p.
(** [new]: the particle [prev] pushed through the layer in the fields [f], [guess] being where it was
    expected to arrive.  The fields are taken half way, mirrored if that is outside; the first
    evaluation of the force then uses zero momentum.  Arriving beyond a wall: mirrored and stopped. *)
Definition pushed (n : nat) (h b X : R) (f : fields3) (prev guess new : pt3) : Prop :=
  same_particle guess new /\ t_cx new = t_cx guess /\ t_cy new = t_cy guess /\
  (t_q guess = 0 -> new = guess) /\
  (t_q guess <> 0 ->
    let mx := t_x0 prev + (t_dx prev + t_dx guess) / 2 in let my := t_y0 prev + (t_dy prev + t_dy guess) / 2 in
    let '(E, B) := field_at n h f (mirror b mx) (mirror b my) in
    exists p0 : v3, (beyond b mx my -> p0 = (0, 0, 0)) /\ (~ beyond b mx my -> p0 = mom prev) /\
    let p1 := add3 (mom prev) (scale3 (X / 2) (rate_p (t_m guess) (t_q guess) E B p0)) in
    let d := scale3 X (rate_p (t_m guess) (t_q guess) E B p1) in
    let pm := add3 (mom prev) (scale3 (1 / 2) d) in
    let x := at_x prev + X * rate_x (t_m guess) pm in let y := at_y prev + X * rate_y (t_m guess) pm in
    (Rabs (mirror b x) < b /\ Rabs (mirror b y) < b ->
       t_x0 prev + t_dx new = mirror b x /\ t_y0 prev + t_dy new = mirror b y /\ t_q new = t_q guess /\
       (beyond b x y -> mom new = (0, 0, 0)) /\ (~ beyond b x y -> mom new = add3 (mom prev) d)) /\
    (~ (Rabs (mirror b x) < b /\ Rabs (mirror b y) < b) -> absorbed new)).

(** ** All particles of both sorts; K x K of each *)
Definition each (K : nat) (P : nat -> nat -> Prop) : Prop := forall i j, (i < K)%nat -> (j < K)%nat -> P i j.
Definition of_sorts (s : solver3) (K : nat) (P : (parts3 -> nat -> nat -> pt3) -> nat -> nat -> Prop) (Q : Prop) : Prop :=
  each K (P el) /\ match u_ions s with Mobile3 => each K (P io) | Background3 _ => Q end.
Definition all_coasted (s : solver3) (pp g : parts3) : Prop :=
  K_ g = K_ pp /\ of_sorts s (K_ pp) (fun sort i j => coasted (u_xi s) (sort pp i j) (sort g i j)) (io g = io pp).
Definition all_pushed (s : solver3) (f : fields3) (pp g p : parts3) : Prop :=
  K_ p = K_ pp /\
  of_sorts s (K_ pp) (fun sort i j => pushed (u_n s) (u_h s) (u_b s) (u_xi s) f (sort pp i j) (sort g i j) (sort p i j)) (io p = io pp).

(** ** Density and currents on the nodes 0..n-1 *)
Definition spread (n K : nat) (h : R) (f : pt3 -> R) (a : nat -> nat -> pt3) (u v : nat) : R :=
  array_sum K (fun i j => f (a i j) * shape (Z.of_nat n) h (at_x (a i j)) (at_y (a i j)) (Z.of_nat u) (Z.of_nat v) / h ^ 2).
Definition carried_by (s : solver3) (p : parts3) (c : cur3) : Prop :=
  let sp := fun f sort u v => spread (u_n s) (K_ p) (u_h s) f (sort p) u v in
  let is := fun (g : dens3 -> grid) (f : pt3 -> R) (still : nat -> nat -> R) =>
    forall u v, (u < u_n s)%nat -> (v < u_n s)%nat ->
      total3 g c u v = sp f el u v + match u_ions s with Mobile3 => sp f io u v | Background3 _ => still u v end in
  is c_ro rho_of (fun u v => match u_ions s with Mobile3 => 0 | Background3 ro => ro (Z.of_nat u) (Z.of_nat v) end) /\
  is c_jx (fun q => rho_of q * vx_of q) (fun _ _ => 0) /\ is c_jy (fun q => rho_of q * vy_of q) (fun _ _ => 0) /\
  is c_jz (fun q => rho_of q * vz_of q) (fun _ _ => 0).

(** ** Fields on the nodes 0..L: [full] at the layer and [half] half way to it from [fprev], for the
    densities and currents [cp] before and [c] at the layer, beam densities [rbp] before and [rb] at
    the layer; [it] is the guess of the transverse fields. *)
Definition zero_edge (L : nat) (u : arr2) : Prop := forall a, (a <= L)%nat -> u a 0%nat = 0 /\ u a L = 0 /\ u 0%nat a = 0 /\ u L a = 0.
Definition zero_first (L : nat) (u : arr2) : Prop := forall a, (a <= L)%nat -> u 0%nat a = 0 /\ u L a = 0.
Definition zero_second (L : nat) (u : arr2) : Prop := forall a, (a <= L)%nat -> u a 0%nat = 0 /\ u a L = 0.
Definition inside_eq (L : nat) (u w : arr2) : Prop := forall i j, interior L i -> interior L j -> u i j = w i j.
Definition nodes_eq (L : nat) (u w : arr2) : Prop := forall i j, (i <= L)%nat -> (j <= L)%nat -> u i j = w i j.
Definition screened (h coeff : R) (L : nat) (u : arr2) : arr2 := fun i j => minus_laplacian h L u i j + coeff * u i j.
Definition fields_of (L : nat) (h X coeff : R) (it fprev : fields3) (rb rbp : arr2) (cp c : cur3) (full half : fields3) : Prop :=
  let lap := minus_laplacian h L in
  let ro := fun i j => (total3 c_ro c i j + rb i j + total3 c_ro cp i j + rbp i j) / 2 in
  let jz := fun i j => (total3 c_jz c i j + rb i j + total3 c_jz cp i j + rbp i j) / 2 in
  let jx' := fun i j => (total3 c_jx cp i j - total3 c_jx c i j) / X in
  let jy' := fun i j => (total3 c_jy cp i j - total3 c_jy c i j) / X in
  let curl := curl_j h L (total3 c_jx c) (total3 c_jy c) in
  (* longitudinal fields and the potential at the layer *)
  (zero_edge L (Ez full) /\ inside_eq L (lap (Ez full)) (fun i j => - (cdx h (total3 c_jx c) i j + cdy h (total3 c_jy c) i j))) /\
  (zero_edge L (Phi full) /\ inside_eq L (lap (Phi full)) (fun i j => total3 c_ro c i j - total3 c_jz c i j)) /\
  (array_sum (L + 1) (Bz full) = 0 /\ nodes_eq L (lap (Bz full)) (fun i j => curl i j - trapezoid_mean L curl)) /\
  (* transverse fields half way *)
  (zero_second L (Ex half) /\ forall i j, (i <= L)%nat -> interior L j -> screened h coeff L (Ex half) i j = - (inner_only L (cdx h ro) i j - jx' i j) + coeff * Ex it i j) /\
  (zero_first L (Ey half) /\ forall i j, interior L i -> (j <= L)%nat -> screened h coeff L (Ey half) i j = - (inner_only L (cdy h ro) i j - jy' i j) + coeff * Ey it i j) /\
  (zero_first L (Bx half) /\ forall i j, interior L i -> (j <= L)%nat -> screened h coeff L (Bx half) i j = inner_only L (cdy h jz) i j - jy' i j + coeff * Bx it i j) /\
  (zero_second L (By half) /\ forall i j, (i <= L)%nat -> interior L j -> screened h coeff L (By half) i j = - (inner_only L (cdx h jz) i j - jx' i j) + coeff * By it i j) /\
  (* half way is the average *)
  (forall F, In F [Ex; Ey; Ez; Bx; By; Bz] -> nodes_eq L (F half) (fun i j => (F full i j + F fprev i j) / 2)) /\
  nodes_eq L (Phi half) (Phi full).

(** ** Noise filter.  Bend of a row of K displacements at number j: how far the particle is from the
    middle of its neighbours; at the ends -2 times that of the next one; 0 next to a zero displacement. *)
Definition bend (K : nat) (d : nat -> R) (j : nat) : R :=
  let c := Nat.max 1 (Nat.min j (K - 2)) in
  if Req_EM_T (d (c - 1)%nat * d c * d (c + 1)%nat) 0 then 0
  else (if (j =? c)%nat then 1 else -2) * (d c - (d (c - 1)%nat + d (c + 1)%nat) / 2).
Definition roughness (K : nat) (a : arr2) : arr2 := fun i j => (bend K (fun k => a i k) j + bend K (fun k => a k j) i) / 2.
(** Kicks given by the inner particles of a row: half to oneself, minus a quarter to each neighbour. *)
Definition inner_of (K : nat) (w : nat -> R) (i : nat) : R := if ((1 <=? i) && (i <=? K - 2))%nat then w i else 0.
Definition handed (K : nat) (w : nat -> R) (i : nat) : R :=
  inner_of K w i / 2 - (match i with O => 0 | S k => inner_of K w k / 4 end) - inner_of K w (i + 1) / 4.
Definition smoothed (average : arr2 -> arr2) (K : nat) (X coef damp dmax : R) (prev a b : nat -> nat -> pt3) : Prop :=
  let rx := roughness K (fun i j => t_dx (a i j)) in let ry := roughness K (fun i j => t_dy (a i j)) in
  let at_b := fun f : pt3 -> R => fun i j => f (b i j) in
  let str := fun i j => fade dmax (t_cx (b i j)) (t_cy (b i j)) in
  let kick := fun (c : pt3 -> R) i j =>
    let w := fun i j => - X * coef * c (b i j) * str i j in
    handed K (fun k => w k j) i + handed K (fun k => w i k) j - X * damp * str i j * (c (b i j) - c (prev i j)) in
  each K (fun i j => same_particle (a i j) (b i j) /\ t_dx (b i j) = t_dx (a i j) /\ t_dy (b i j) = t_dy (a i j) /\
    t_pz (b i j) = t_pz (a i j) /\ t_q (b i j) = t_q (a i j) /\
    t_cx (b i j) = rx i j - average rx i j /\ t_cy (b i j) = ry i j - average ry i j /\
    t_px (b i j) = t_px (a i j) + kick t_cx i j /\ t_py (b i j) = t_py (a i j) + kick t_cy i j).
(** [average] looks at the K x K displacements only. *)
Definition local (K : nat) (average : arr2 -> arr2) : Prop :=
  forall u w, each K (fun i j => u i j = w i j) -> each K (fun i j => average u i j = average w i j).

(** ** One layer.  Two passes: push in the fields of the previous layer, solve for the fields; push
    again from the start in those, solve again; push in the new fields; smooth. *)
Definition layer3 (average : arr2 -> arr2) (s : solver3) (L : nat) (rb rbp : arr2) (st st' : state3) : Prop :=
  let '(pp, fp, cp) := st in let '(p4, ff, c4) := st' in
  let solved := fun it c full half => fields_of L (u_h s) (u_xi s) (u_coeff s) it fp rb rbp cp c full half in
  exists p0 p1 p2 p3 c1 c2 full1 half1 half2,
    all_coasted s pp p0 /\
    all_pushed s fp pp p0 p1 /\ carried_by s p1 c1 /\ solved fp c1 full1 half1 /\
    all_pushed s half1 pp p1 p2 /\ carried_by s p2 c2 /\ solved half1 c2 ff half2 /\
    all_pushed s half2 pp p2 p3 /\
    K_ p4 = K_ pp /\
    (if u_decl s then smoothed average (K_ pp) (u_xi s) (u_force s) (u_damp s) (u_limit s) (el pp) (el p3) (el p4) /\ io p4 = io p3
     else p4 = p3) /\
    carried_by s p4 c4.
(** Before the layer the charged particles are between the walls, have mass and do not fly farther
    than twice the width of the window in one layer. *)
Definition calm (s : solver3) (pp : parts3) : Prop :=
  of_sorts s (K_ pp) (fun sort i j => let p := sort pp i j in t_m p <> 0 /\ (t_q p <> 0 -> within (u_b s) p /\
    Rabs (u_xi s * rate_x (t_m p) (mom p)) <= 4 * u_b s /\ Rabs (u_xi s * rate_y (t_m p) (mom p)) <= 4 * u_b s)) True.
