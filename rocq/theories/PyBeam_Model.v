(** lcode/beam_generator/beam_generator2.py: the beam generator with distributions given as functions (public, no caller
    in the package).  Numbers are real.  Simplified: partic_in_layer, xi-step and the peak density are positive (division
    by zero raises in the code); a distribution returns as many values as it is asked for (numpy raises otherwise); the printed messages are left out; a row of the resulting table is a record. *)
From Coq Require Import Reals ZArith List String Bool.
From Verif Require Import Float_Model LegacyBeam_Model.
Import ListNotations.
Open Scope R_scope.

(** beam_generator2.py:19-22, 32-34: what a distribution is: a function from the number of values to the values, with the
    attributes med and (Gauss only) f0 *)
Record distr := mkDistr { draw : nat -> list R; med : R; f0 : option R }.
(** numpy: linspace(p1, p2, N+2)[1:-1] *)
Definition inner_points (p1 p2 : R) (N : nat) : list R := map (fun k => p1 + INR (S k) * (p2 - p1) / INR (S N)) (seq 0 N).
(** beam_generator2.py:16-17, 26-27: the limits as probabilities *)
Definition low (cdf : R -> R) (vmin : option R) : R := match vmin with None => 0 | Some v => cdf v end.
Definition high (cdf : R -> R) (vmax : option R) : R := match vmax with None => 1 | Some v => cdf v end.
(** beam_generator2.py:14-22.  [cdf], [ppf]: scipy.stats.norm.cdf and norm.ppf; norm.ppf(q, med, sigma) is
    med + sigma * ppf q. *)
Definition Gauss (cdf ppf : R -> R) (m sigma : R) (vmin vmax : option R) : distr :=
  mkDistr (fun N => map (fun q => m + sigma * ppf q) (inner_points (low cdf vmin) (high cdf vmax) N)) m (Some (1 / sqrt (2 * PI) / sigma)).
(** scipy.stats.weibull_min(2).cdf and ppf *)
Definition weibull_cdf (x : R) : R := if Rle_dec 0 x then 1 - exp (- (x ^ 2)) else 0.
Definition weibull_ppf (p : R) : R := sqrt (- ln (1 - p)).
(** beam_generator2.py:24-34; [sigma] is stored and not used *)
Definition rGauss (sigma : R) (vmin vmax : option R) : distr :=
  mkDistr (fun N => map weibull_ppf (inner_points (low weibull_cdf vmin) (high weibull_cdf vmax) N)) 0 None.

(** beam_generator2.py:118, 141: a row of the table; the column orders are those of the two particle types *)
Inductive row :=
| Row2 (xi r pz pr M qm q : R) (id : nat)
| Row3 (xi x y pz px py qm q : R) (id : nat).
(** beam_generator2.py:119, 142 *)
Definition stub2 : row := Row2 (-100000) 0 0 0 0 1 0 0.
Definition stub3 : row := Row3 (-100000) 0 0 0 0 0 1 0 0.
(** returns None after a warning; raises; returns the table *)
Inductive answer := Nothing | Raises | Beam (l : list row).
Definition some_or {A} (o : option A) (d : A) : A := match o with Some a => a | None => d end.

Section Make.
  (** [sh k]: what the k-th call of numpy.random.shuffle does *)
  Variable sh : nat -> list R -> list R.
  (** beam_generator2.py:69-89: x, y (if drawn) and r *)
  Definition radial (N : nat) (x_d y_d r_d : option distr) : option (option (list R * list R) * list R) :=
    match r_d with
    | None => match x_d with
              | None => None
              | Some dx => let x := sh 0 (draw dx N) in
                           let y := sh 1 (draw (some_or y_d dx) N) in
                           Some (Some (x, y), map (fun k => sqrt (nth k x 0 ^ 2 + nth k y 0 ^ 2)) (seq 0 N))
              end
    | Some dr => Some (None, sh 0 (map Rabs (draw dr N)))
    end.
  (** beam_generator2.py:91-113: pr and M, the latter not yet multiplied by r *)
  Definition transverse (N : nat) (gamma : R) (xy : option (list R * list R)) (r : list R) (px_d py_d ang_d : option distr) : option (list R * list R) :=
    match ang_d with
    | None => match px_d, xy with
              | Some dp, Some (x, y) =>
                let px := sh 2 (draw dp N) in
                let py := sh 3 (draw (some_or py_d dp) N) in
                let pr := map (fun k => (nth k x 0 * nth k px 0 + nth k y 0 * nth k py 0) / nth k r 0) (seq 0 N) in
                Some (pr, map (fun k => sqrt (nth k px 0 ^ 2 + nth k py 0 ^ 2 - nth k pr 0 ^ 2)) (seq 0 N))
              | _, _ => None
              end
    | Some da => Some (sh 2 (map (Rmult gamma) (draw da N)), sh 3 (map (Rmult gamma) (draw da N)))
    end.
  (** beam_generator2.py:57-62: which drawn coordinates are kept *)
  Definition kept (savehead : bool) (window_length x : R) : bool :=
    if Rle_dec (- window_length) x then (if savehead then true else if Rle_dec x 0 then true else false) else false.
  (** beam_generator2.py:51-52 *)
  Definition current (Ipeak ppl : R) : R := 2 * Ipeak / 17.03331478052319 / ppl.
  (** beam_generator2.py:40-42 *)
  Definition refused (q_m Ipeak : R) : bool := if Req_EM_T q_m 1 then (if Rlt_dec 0 Ipeak then true else false) else false.
  (** beam_generator2.py:36-156.  [found]: a beamfile.bin is in the directory [saveto].  152-155: the table is a numpy array and
      has no attribute values; the name head is not defined. *)
  Definition make_beam2 (geom : string) (window_length xi_step : R) (xi_d pz_d : distr) (Ipeak : R) (x_d y_d r_d px_d py_d ang_d : option distr)
             (q_m ppl : R) (savehead saveto found : bool) : answer :=
    if refused q_m Ipeak then Nothing
    else if saveto && found then Raises
    else match f0 xi_d with
    | None => Raises
    | Some f =>
      let q := current Ipeak ppl in
      let xi := sort_desc (fun x => x) (filter (kept savehead window_length) (draw xi_d (Z.to_nat (py_round (ppl / xi_step / f))))) in
      let N := List.length xi in
      let table :=
        if String.eqb geom "c" || String.eqb geom "circ" then
          match radial N x_d y_d r_d with
          | None => None
          | Some (xy, r) =>
            match transverse N (med pz_d) xy r px_d py_d ang_d with
            | None => None
            | Some (pr, M) =>
              let pz := sh 4 (draw pz_d N) in
              Some (map (fun k => Row2 (nth k xi 0) (nth k r 0) (nth k pz 0) (nth k pr 0) (nth k M 0 * nth k r 0) q_m q k) (seq 0 N) ++ [stub2])
            end
          end
        else if String.eqb geom "3d" then
          match x_d, px_d with
          | Some dx, Some dp =>
            let x := sh 0 (draw dx N) in let y := sh 1 (draw (some_or y_d dx) N) in
            let pz := sh 2 (draw pz_d N) in
            let px := sh 3 (draw dp N) in let py := sh 4 (draw (some_or py_d dp) N) in
            Some (map (fun k => Row3 (nth k xi 0) (nth k x 0) (nth k y 0) (nth k pz 0) (nth k px 0) (nth k py 0) q_m q k) (seq 0 N) ++ [stub3])
          | _, _ => None
          end
        else None in
      match table with
      | None => Raises
      | Some l => if saveto || savehead then Raises else Beam l
      end
    end.
End Make.
