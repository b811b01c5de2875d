(** What the GPU theorems (C64) say. *)
From Coq Require Import Reals ZArith List Bool Permutation.
From Verif Require Import Beam2D_Spec Plasma2D_Model Shape_Model Shape_Spec Plasma3D_Model Plasma3D_Spec Gpu_Model Layer3D_Spec.
Import ListNotations.
Open Scope R_scope.

(** An order of atomic additions loses none and invents none. *)
Definition fair (o : order) : Prop := forall k l, Permutation l (o k l).
(** The same arrays: K x K particles of each sort, fields and total densities and currents on the
    nodes 0..L.  Still ions are not moved by either code. *)
Definition same_arrays (s : solver3) (L : nat) (st st' : state3) : Prop :=
  let '(p, f, c) := st in let '(p', f', c') := st' in
  K_ p = K_ p' /\ of_sorts s (K_ p) (fun sort i j => sort p i j = sort p' i j) (io p = io p') /\
  (forall F, In F [Ex; Ey; Ez; Bx; By; Bz; Phi] -> nodes_eq L (F f) (F f')) /\
  (forall g, In g [c_ro; c_jx; c_jy; c_jz] -> nodes_eq L (total3 g c) (total3 g c')).
(** The input of a layer on the GPU: beam densities at and before the layer, orders of the additions
    of its depositions for electrons and for ions. *)
Record launch := mkL { l_rb : arr2; l_rbp : arr2; l_oe : nat -> order; l_oi : nat -> order }.
Definition fair_launch (l : launch) : Prop := (forall k, fair (l_oe l k)) /\ (forall k, fair (l_oi l k)).
Definition gpu_layers (average : arr2 -> arr2) (s : solver3) (ls : list launch) (st : state3) : state3 :=
  fold_left (fun st l => step_gpu average (l_oe l) (l_oi l) s (l_rb l) (l_rbp l) st) ls st.
Definition cpu_layers (average : arr2 -> arr2) (s : solver3) (rs : list (arr2 * arr2)) (st : state3) : state3 :=
  fold_left (fun st r => step_dxi3 average s (fst r) (snd r) st) rs st.
Definition same_beam (L : nat) (r : arr2 * arr2) (l : launch) : Prop := nodes_eq L (fst r) (l_rb l) /\ nodes_eq L (snd r) (l_rbp l).
