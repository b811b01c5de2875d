(** The beam source once more, with every floating-point operation rounded to a double: lcode/beam/beam_io.py (find_sub_slice,
    MemoryBeamSource), lcode/beam3d/beam_io.py (BeamSource) and the borders of layers in push_solver.py:157-160.

    Numbers are the real values of doubles; overflow, nan and inf are left out (the theorems bound the sizes).  Whole numbers of
    layers are converted to doubles exactly below 2^53 and are not rounded here. *)
From Coq Require Import Reals ZArith List Bool.
From Verif Require Import Float_Model Beam2D_Model Beam3D_Model.
Import ListNotations.
Open Scope R_scope.

(** push_solver.py:157-160: xi_i * -self.dxi *)
Definition border2 (dxi : R) (i : Z) : R := double (IZR i * - dxi).
(** beam3d/beam_io.py:34-35: - self.xi_step_size * plasma_layer_idx *)
Definition border3 (dxi : R) (i : Z) : R := double (- dxi * IZR i).

(** beam_io.py:67-79 *)
Fixpoint scan_f (xs : list R) (i start : nat) (xi_max xi_min : R) : nat * bool :=
  match xs with
  | [] => (i, false)
  | x :: t =>
    if Rlt_dec (double (x - xi_min)) 0 then (i, false)
    else if Rlt_dec 0 (double (x - xi_max)) then (start, true)
    else scan_f t (S i) start xi_max xi_min
  end.
(** beam_io.py:99-108 *)
Definition get_beam_slice_f (s : source) (xi_max xi_min : R) : option (nat * list bpart * source) :=
  if Rlt_dec xi_min xi_max then
    let '(e, flag) := scan_f (skipn (used s) (s_xi s)) (used s) (used s) xi_max xi_min in
    Some ((e - used s)%nat, map fresh (firstn (e - used s) (skipn (used s) (s_parts s))),
          mkSrc (s_xi s) (s_parts s) (used s + (e - used s)))
  else None.
(** beam_io.py:83-97 *)
Definition new_source_f (sort_xi : list part -> list part) (beam : list part) : source :=
  let l := sort_xi beam in
  match l with
  | [] => mkSrc [] [] 0
  | p0 :: _ => mkSrc (map xi l) (if Rlt_dec (double (xi (last l p0) + 100000)) 1 then removelast l else l) 0
  end.
(** push_solver.py:93-98: the requests of the xi loop for the n layers i, i + 1, ... *)
Fixpoint ask_f (s : source) (dxi : R) (i : Z) (n : nat) : option (list (nat * list bpart) * source) :=
  match n with
  | O => Some ([], s)
  | S n' =>
    match get_beam_slice_f s (border2 dxi i) (border2 dxi (i + 1)) with
    | None => None
    | Some (size, l, s1) =>
      match ask_f s1 dxi (i + 1) n' with None => None | Some (r, s2) => Some ((size, l) :: r, s2) end
    end
  end.

(** beam3d/beam_io.py:29-47 *)
Definition in_layer3_f (dxi : R) (idx : Z) (p : part3) : bool :=
  if Rle_dec (border3 dxi (idx + 1)) (b_xi p) then
    if Rlt_dec (b_xi p) (border3 dxi idx) then true else false else false.
Definition get_layer3_f (dxi : R) (src : list part3) (idx : Z) : list part3 * list part3 :=
  let layer_length := List.length (filter (in_layer3_f dxi idx) src) in
  (firstn layer_length src, skipn layer_length src).
(** push_solver.py:229-232 *)
Fixpoint ask3_f (dxi : R) (src : list part3) (i : Z) (n : nat) : list (list part3) * list part3 :=
  match n with
  | O => ([], src)
  | S n' => let '(l, s1) := get_layer3_f dxi src i in
            let '(r, s2) := ask3_f dxi s1 (i + 1) n' in (l :: r, s2)
  end.
