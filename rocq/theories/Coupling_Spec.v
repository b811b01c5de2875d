(** Specification vocabulary for C59: how one time step couples the beam and the plasma.

    A time step goes through the layers i, i+1, ...; layer i+k is -(i+k+1) dxi <= xi < -(i+k) dxi
    (the first one closed at the top).  Nothing here mentions the loop of the code. *)
From Coq Require Import Reals ZArith List Bool.
From Verif Require Import Beam2D_Model Beam2D_Spec Shape_Model Shape_Spec Beam3D_Model Beam3D_Spec.
Import ListNotations.
Open Scope R_scope.

(** The plasma that has seen the beam densities [rhos], layer after layer; each layer is computed from
    the plasma of the layer ahead, the density of this layer and that of the layer ahead. *)
Fixpoint wake {Pl D} (plasma : Pl -> D -> D -> Pl) (pl : Pl) (prev : D) (rhos : list D) : Pl :=
  match rhos with [] => pl | r :: t => wake plasma (plasma pl r prev) r t end.

(** ** 2D *)
Definition bottom (dxi : R) (i : Z) (k : nat) : R := - (IZR (i + Z.of_nat k + 1) * dxi).
(** The particles of the beam that lie in layer i + k. *)
Definition layer_of (dxi : R) (i : Z) (beam : list part) (k : nat) : list bpart :=
  map fresh (filter (fun p => match k with O => in_xi_layer_top dxi i p | _ => in_xi_layer dxi (i + Z.of_nat k) p end) beam).
Definition ring_volume (h : R) (j : nat) : R := match j with O => h ^ 2 / 6 | _ => INR j * h ^ 2 end.
(** Density of layer i + k at node j: the clouds of this layer and those of the layer ahead ([carry]
    before the first one). *)
Definition beam_density (h dxi : R) (i : Z) (beam : list part) (carry : list R) (k j : nat) : R :=
  ((match k with O => nth j carry 0 | S k' => cic_lower h dxi (bottom dxi i k') (layer_of dxi i beam k') j end)
   + cic_upper h dxi (bottom dxi i k) (layer_of dxi i beam k) j) / ring_volume h j.
Definition density_row (h dxi : R) (i : Z) (beam : list part) (carry : list R) (k : nat) : list R :=
  map (beam_density h dxi i beam carry k) (seq 0 (length carry)).
(** The plasma after the first n layers. *)
Definition plasma_after {Pl} (plasma : Pl -> list R -> list R -> Pl) (pl : Pl) (prev carry : list R)
  (h dxi : R) (i : Z) (beam : list part) (n : nat) : Pl :=
  wake plasma pl prev (map (density_row h dxi i beam carry) (seq 0 n)).

(** A pass of one particle through layer i + k: as many substeps as have their middle in the layer and
    remain to be done, in the fields of the plasma at the two ends of the layer. *)
Definition pass (c : pcfg) (i : Z) (F : nat -> fields) (k m : nat) (b b' : bpart) : Prop :=
  substeps c (F (S (S k))) (F (S k)) (bottom (xi_step c) i k) m b b' /\
  (rem b' = 0%nat \/ vz (half_position (pt b') (dt b')) < bottom (xi_step c) i k).
(** [flight h c i F p k l m b]: particle p of layer i + k gets its substep, goes through the layers
    i + k, ..., i + l, makes m substeps altogether and is then b.  [F n] are the fields after n layers. *)
Inductive flight (h : nat) (c : pcfg) (i : Z) (F : nat -> fields) (p : part) (k : nat) : nat -> nat -> bpart -> Prop :=
| Fl_first m b b' : prepare h c (fresh p) = Some b -> pass c i F k m b b' -> flight h c i F p k k m b'
| Fl_next l m m' b b' : flight h c i F p k l m b ->
    ((0 < rem b)%nat \/ xi (pt b) < bottom (xi_step c) i l) ->
    pass c i F (S l) m' b b' -> flight h c i F p k (S l) (m + m') b'.

(** ** 3D *)
Definition layer_of3 (dxi : R) (i : Z) (beam : list part3) (k : nat) : list part3 :=
  filter (in_layer3 dxi (i + Z.of_nat k)) beam.
Definition beam_density3 (n : Z) (h dxi : R) (i : Z) (beam : list part3) (carry : grid) (k : nat) : grid := fun a b =>
  ((match k with
    | O => carry a b
    | S k' => sumR (map (fun p => b_q p * (1 - dist_from_top dxi (i + Z.of_nat k') p) * shape n h (b_x p) (b_y p) a b) (layer_of3 dxi i beam k'))
    end)
   + sumR (map (fun p => b_q p * dist_from_top dxi (i + Z.of_nat k) p * shape n h (b_x p) (b_y p) a b) (layer_of3 dxi i beam k))) / h ^ 2.
Definition plasma_after3 {Pl} (plasma : Pl -> grid -> grid -> Pl) (pl : Pl) (prev carry : grid)
  (n : Z) (h dxi : R) (i : Z) (beam : list part3) (k : nat) : Pl :=
  wake plasma pl prev (map (beam_density3 n h dxi i beam carry) (seq 0 k)).

(** The coordinate the mover compares with the end of the layer (xi on the GPU, x on the CPU). *)
Definition compared (u : unit_type) (q : part3) : R := match u with CPU => b_x q | GPU => b_xi q end.
Definition pass3 (u : unit_type) (c : cfg3) (i : Z) (F : nat -> fields3) (k m : nat) (p q : part3) : Prop :=
  substeps3 u c (i + Z.of_nat k) (F (S k)) (F (S (S k))) m p q /\
  (b_rem q = 0%nat \/ snd (half3 q) < bottom (c_dxi c) i k).
Inductive flight3 (u : unit_type) (h : nat) (c : cfg3) (i : Z) (F : nat -> fields3) (p : part3) (k : nat) : nat -> nat -> part3 -> Prop :=
| Fl3_first m q q' : start3 h (c_energy c) (c_time_step c) p = Some q -> pass3 u c i F k m q q' -> flight3 u h c i F p k k m q'
| Fl3_next l m m' q q' : flight3 u h c i F p k l m q ->
    ((0 < b_rem q)%nat \/ compared u q < bottom (c_dxi c) i l) ->
    pass3 u c i F (S l) m' q q' -> flight3 u h c i F p k (S l) (m + m') q'.
