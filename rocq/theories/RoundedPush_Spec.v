(** Specification vocabulary for C78: one substep of a beam particle in binary64. *)
From Coq Require Import Reals ZArith List.
From Flocq Require Import Core.
From Verif Require Import Float_Model Beam2D_Model Beam3D_Model RoundedBeam_Spec.
Import ListNotations.
Open Scope R_scope.

(** Charge-to-mass ratios that are neither huge nor tiny. *)
Definition ordinary_ratio (qm : R) : Prop := bpow radix2 (-100) <= Rabs qm <= bpow radix2 100.
(** The coordinates and the momentum of the particle are doubles. *)
Definition stored3 (p : part3) : Prop :=
  is_double (b_x p) /\ is_double (b_y p) /\ is_double (b_xi p) /\ is_double (b_px p) /\ is_double (b_py p) /\ is_double (b_pz p).
