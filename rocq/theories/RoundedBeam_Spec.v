(** Notions for C73. *)
From Coq Require Import Reals ZArith List Bool.
From Flocq Require Import Core.
From Verif Require Import Float_Model Beam2D_Model Beam3D_Model.
Import ListNotations.
Open Scope R_scope.

(** A number that a double can hold. *)
Definition is_double (x : R) : Prop := double x = x.
(** Steps that are neither absurdly small nor absurdly large. *)
Definition fine_step (dxi : R) : Prop := bpow radix2 (-900) <= dxi <= bpow radix2 900.
(** The border in front of layer i: the double nearest to -i dxi. *)
Definition border (dxi : R) (i : Z) : R := double (- (IZR i * dxi)).
(** Between two borders; the first layer asked for also owns its front border. *)
Definition owns (first : bool) (lo hi x : R) : Prop := lo <= x /\ (x < hi \/ first = true /\ x = hi).
Definition owns_b (first : bool) (lo hi x : R) : bool :=
  if Rle_dec lo x then (if Rlt_dec x hi then true else first && (if Req_EM_T x hi then true else false)) else false.
