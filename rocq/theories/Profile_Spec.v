(** What the plasma profile theorems (C38, C39, C55) say, independently of how the code computes it. *)
From Coq Require Import Reals List String.
From Verif Require Import Beam2D_Spec Profile_Model.
Import ListNotations.
Local Open Scope list_scope.
Local Open Scope R_scope.

(** One line of the longitudinal table: a stretch of length [z_len] over which the density goes linearly
    from [z_from] to [z_to] (kind 'L'), or a line of any other kind (density 1). *)
Inductive zseg := ZLin (len from to : R) | ZOther (len : R).
Definition z_len (s : zseg) : R := match s with ZLin l _ _ => l | ZOther l => l end.
(** A line of words says [s]. *)
Inductive zline (float_of : string -> option R) : list string -> zseg -> Prop :=
| zline_lin wl wa wb l a b more : float_of wl = Some l -> float_of wa = Some a -> float_of wb = Some b ->
    zline float_of (wl :: wa :: "L"%string :: wb :: more) (ZLin l a b)
| zline_other wl wa k l more : float_of wl = Some l -> k <> "L"%string ->
    zline float_of (wl :: wa :: k :: more) (ZOther l).
Definition z_total (segs : list zseg) : R := sumR (map z_len segs).
(** Density of the table at time [t] (measured from its start): linear interpolation inside the segment
    that contains [t], 1 inside other segments and after the end. *)
Definition z_density (segs : list zseg) (t v : R) : Prop :=
  (exists before s after, segs = before ++ s :: after /\
     z_total before <= t < z_total before + z_len s /\
     match s with
     | ZLin l a b => v = a + (b - a) * ((t - z_total before) / l)
     | ZOther _ => v = 1
     end) \/
  (z_total segs <= t /\ v = 1).
(** Consecutive linear segments that join: each starts where the previous one ended. *)
Fixpoint joined (segs : list zseg) : Prop :=
  match segs with
  | ZLin l a b :: rest =>
      0 < l /\ match rest with ZLin _ a' _ :: _ => a' = b | _ => True end /\ joined rest
  | ZOther _ :: _ => False
  | [] => True
  end.
Definition slopes_at_most (S : R) (segs : list zseg) : Prop :=
  forall l a b, In (ZLin l a b) segs -> Rabs (b - a) <= S * l.

(** The radial shapes the names stand for. *)
Definition stepwise_ideal (w w2 r : R) : R :=
  if Rle_dec r w then 1 else if Rlt_dec r w2 then (w2 - r) / (w2 - w) else 0.
Definition channel_ideal (w w2 d2 r : R) : R :=
  if Rle_dec r w then d2 else if Rlt_dec r w2 then d2 + (1 - d2) * ((r - w) / (w2 - w)) else 1.
