(** Theorems C80: beams made by beam_generator2.make_beam. *)
From Coq Require Import Reals ZArith List String Bool Permutation Sorted Lra Lia Psatz.
From Flocq Require Import Core.
From Verif Require Import Float_Model LegacyBeam_Model LegacyBeam_Proofs PyBeam_Model PyBeam_Spec.
Import ListNotations.
Open Scope R_scope.

Lemma nth_seq (l : list R) : map (fun k => nth k l 0) (seq 0 (List.length l)) = l.
Proof.
  induction l as [|a l IH]; [reflexivity|]. cbn [List.length seq map nth]. f_equal. rewrite <- seq_shift, map_map. exact IH.
Qed.
Lemma nth_seq_n (l : list R) n : List.length l = n -> map (fun k => nth k l 0) (seq 0 n) = l.
Proof. intros <-. apply nth_seq. Qed.
Lemma shuffled (sh : nat -> list R -> list R) k l n : (forall j v, Permutation v (sh j v)) -> List.length l = n -> Permutation (map (fun i => nth i (sh k l) 0) (seq 0 n)) l.
Proof. intros H E. rewrite nth_seq_n; [symmetry; apply H|]. rewrite <- (Permutation_length (H k l)). exact E. Qed.
Lemma sorted_here l : decreasing (sort_desc (fun x : R => x) l).
Proof.
  assert (H := sort_down R (fun x => x) l). unfold decreasing. induction H as [|x k Fa D IH]; constructor; assumption.
Qed.
Lemma both_maps {A B C} (P : B -> C -> Prop) (f : A -> B) (g : A -> C) ks : (forall k, In k ks -> P (f k) (g k)) -> Forall2 P (map f ks) (map g ks).
Proof. induction ks as [|k ks IH]; intros H; cbn; constructor; [apply H; now left|apply IH; intros j Hj; apply H; now right]. Qed.
(** radius, radial and angular momentum of a particle off the axis *)
Lemma turn x y px py : x ^ 2 + y ^ 2 <> 0 -> let r := sqrt (x ^ 2 + y ^ 2) in let pr := (x * px + y * py) / r in let M := sqrt (px ^ 2 + py ^ 2 - pr ^ 2) * r in
  r * pr = x * px + y * py /\ M = Rabs (x * py - y * px) /\ pr ^ 2 + (M / r) ^ 2 = px ^ 2 + py ^ 2.
Proof.
  intros H r pr M. assert (R0 : 0 < x ^ 2 + y ^ 2) by (assert (0 <= x ^ 2) by apply pow2_ge_0; assert (0 <= y ^ 2) by apply pow2_ge_0; lra). assert (Rp : 0 < r) by (apply sqrt_lt_R0; exact R0). assert (R2 : r * r = x ^ 2 + y ^ 2) by (apply sqrt_sqrt; lra).
  assert (A1 : r * pr = x * px + y * py) by (unfold pr; field; lra). assert (A2 : (px ^ 2 + py ^ 2 - pr ^ 2) * (r * r) = (x * py - y * px) ^ 2).
  { replace ((px ^ 2 + py ^ 2 - pr ^ 2) * (r * r)) with ((px ^ 2 + py ^ 2) * (r * r) - (r * pr) ^ 2) by ring. rewrite A1, R2. ring. }
  assert (A3 : 0 <= px ^ 2 + py ^ 2 - pr ^ 2). { apply (Rmult_le_reg_r (r * r)); [nra|]. rewrite A2, Rmult_0_l. apply pow2_ge_0. }
  split; [exact A1|]. split.
  - unfold M. rewrite <- (sqrt_square r) at 1 by lra. rewrite <- sqrt_mult by (try exact A3; nra). rewrite A2, <- Rsqr_pow2. apply sqrt_Rsqr_abs.
  - replace (M / r) with (sqrt (px ^ 2 + py ^ 2 - pr ^ 2)) by (unfold M; field; lra). rewrite pow2_sqrt by exact A3. ring.
Qed.

(** the table that is returned *)
Section Table.
  Variables (sh : nat -> list R -> list R) (geom : string) (L dxi : R) (xi_d pz_d : distr) (I : R) (x_d y_d r_d px_d py_d ang_d : option distr) (qm ppl : R) (savehead saveto found : bool) (l : list row).
  Hypothesis Sh : forall k v, Permutation v (sh k v).
  Hypothesis Run : make_beam2 sh geom L dxi xi_d pz_d I x_d y_d r_d px_d py_d ang_d qm ppl savehead saveto found = Beam l.
  Let drawn f := draw xi_d (Z.to_nat (py_round (ppl / dxi / f))).
  Let xis f := sort_desc (fun x : R => x) (filter (in_window L) (drawn f)).
  Let q := 2 * I / 17.03331478052319 / ppl.
  (** what a successful run looks like *)
  Lemma run_shape : savehead = false /\ saveto = false /\ refused qm I = false /\ exists f, f0 xi_d = Some f /\
    let xi := xis f in let N := List.length xi in
    (((geom = "c" \/ geom = "circ")%string /\ exists xy r pr M, radial sh N x_d y_d r_d = Some (xy, r) /\ transverse sh N (med pz_d) xy r px_d py_d ang_d = Some (pr, M) /\
        l = map (fun k => Row2 (nth k xi 0) (nth k r 0) (nth k (sh 4 (draw pz_d N)) 0) (nth k pr 0) (nth k M 0 * nth k r 0) qm q k) (seq 0 N) ++ [stub2]) \/
     (geom = "3d"%string /\ exists dx dp, x_d = Some dx /\ px_d = Some dp /\
        l = map (fun k => Row3 (nth k xi 0) (nth k (sh 0 (draw dx N)) 0) (nth k (sh 1 (draw (some_or y_d dx) N)) 0) (nth k (sh 2 (draw pz_d N)) 0) (nth k (sh 3 (draw dp N)) 0) (nth k (sh 4 (draw (some_or py_d dp) N)) 0) qm q k) (seq 0 N) ++ [stub3])).
  Proof.
    unfold make_beam2 in Run. destruct (refused qm I) eqn:Rf; [discriminate Run|]. destruct (saveto && found); [discriminate Run|]. destruct (f0 xi_d) as [f|] eqn:F; [|discriminate Run].
    assert (Ke : savehead = false -> forall v, filter (kept savehead L) v = filter (in_window L) v) by (intros ->; reflexivity).
    destruct savehead; [exfalso; match type of Run with match ?t with Some _ => _ | None => _ end = _ => destruct t; [rewrite orb_true_r in Run|]; discriminate Run end|].
    destruct saveto; [exfalso; match type of Run with match ?t with Some _ => _ | None => _ end = _ => destruct t; discriminate Run end|]. cbn [orb] in Run.
    split; [reflexivity|]. split; [reflexivity|]. split; [reflexivity|]. exists f. split; [reflexivity|]. cbv zeta. rewrite Ke in Run by reflexivity. fold (drawn f) in Run. fold (xis f) in Run. set (xi := xis f) in *. set (N := List.length xi) in *.
    destruct (String.eqb geom "c" || String.eqb geom "circ") eqn:G.
    - left. split; [apply orb_true_iff in G; destruct G as [G|G]; apply String.eqb_eq in G; tauto|]. destruct (radial sh N x_d y_d r_d) as [[xy r]|]; [|discriminate Run]. destruct (transverse sh N _ xy r _ _ _) as [[pr M]|] eqn:T; [|discriminate Run]. exists xy, r, pr, M. injection Run as <-. repeat split; assumption || reflexivity.
    - right. destruct (String.eqb geom "3d") eqn:G3; [|discriminate Run]. split; [now apply String.eqb_eq|]. destruct x_d as [dx|]; [|discriminate Run]. destruct px_d as [dp|]; [|discriminate Run]. exists dx, dp. injection Run as <-. repeat split.
  Qed.
End Table.

(** Every row: in the window, decreasing xi, exactly the drawn coordinates that are in the window, numbered from zero,
    with the charge that partic_in_layer such particles need for the peak current. *)
Theorem C80_table : forall sh geom L dxi xi_d pz_d I x_d y_d r_d px_d py_d ang_d qm ppl savehead saveto found l,
  (forall k v, Permutation v (sh k v)) -> full pz_d ->
  make_beam2 sh geom L dxi xi_d pz_d I x_d y_d r_d px_d py_d ang_d qm ppl savehead saveto found = Beam l ->
  exists f rows stub, f0 xi_d = Some f /\ l = rows ++ [stub] /\ row_xi stub = -100000 /\ row_q stub = 0 /\
    decreasing (map row_xi rows) /\ Permutation (map row_xi rows) (filter (in_window L) (draw xi_d (Z.to_nat (py_round (ppl / dxi / f))))) /\
    Forall (fun w => row_qm w = qm /\ row_q w = 2 * I / 17.03331478052319 / ppl /\ - L <= row_xi w <= 0) rows /\
    map row_id rows = seq 0 (List.length rows) /\ Permutation (map row_pz rows) (draw pz_d (List.length rows)).
Proof.
  intros sh geom L dxi xi_d pz_d I x_d y_d r_d px_d py_d ang_d qm ppl savehead saveto found l Sh Fp Run.
  destruct (run_shape _ _ _ _ _ _ _ _ _ _ _ _ _ _ _ _ _ _ _ Run) as (_ & _ & _ & f & F & C). cbv zeta in C. set (dr := draw xi_d (Z.to_nat (py_round (ppl / dxi / f)))) in *. set (xi := sort_desc (fun x : R => x) (filter (in_window L) dr)) in *. set (N := List.length xi) in *.
  assert (P : Permutation xi (filter (in_window L) dr)) by apply sort_perm. assert (D : decreasing xi) by apply sorted_here.
  assert (W : forall k, In k (seq 0 N) -> - L <= nth k xi 0 <= 0).
  { intros k Hk. apply in_seq in Hk. assert (Hi : In (nth k xi 0) xi) by (apply nth_In; fold N; lia). apply (Permutation_in _ P) in Hi. apply filter_In in Hi. destruct Hi as [_ Hi]. unfold in_window in Hi. destruct (Rle_dec _ _) as [H1|]; [|discriminate Hi]. destruct (Rle_dec _ _) as [H2|]; [|discriminate Hi]. split; assumption. }
  exists f. destruct C as [[_ (xy & r & pr & M & _ & _ & ->)]|[_ (dx & dp & _ & _ & ->)]].
  - set (row k := Row2 _ _ _ _ _ _ _ k). exists (map row (seq 0 N)), stub2. assert (X : map row_xi (map row (seq 0 N)) = xi) by (rewrite map_map; apply nth_seq).
    do 2 (split; [assumption || reflexivity|]). do 2 (split; [reflexivity|]). rewrite X. split; [exact D|]. split; [exact P|]. split; [apply Forall_map, Forall_forall; intros k Hk; cbn; split; [reflexivity|]; split; [reflexivity|now apply W]|].
    rewrite map_length, seq_length, !map_map. split; [cbn [row row_id]; apply map_id|]. apply shuffled; [exact Sh|apply Fp].
  - set (row k := Row3 _ _ _ _ _ _ _ _ k). exists (map row (seq 0 N)), stub3. assert (X : map row_xi (map row (seq 0 N)) = xi) by (rewrite map_map; apply nth_seq).
    do 2 (split; [assumption || reflexivity|]). do 2 (split; [reflexivity|]). rewrite X. split; [exact D|]. split; [exact P|]. split; [apply Forall_map, Forall_forall; intros k Hk; cbn; split; [reflexivity|]; split; [reflexivity|now apply W]|].
    rewrite map_length, seq_length, !map_map. split; [cbn [row row_id]; apply map_id|]. apply shuffled; [exact Sh|apply Fp].
Qed.

(** 3D: the other columns are the drawn values in some order; without a distribution for y (p_y) that of x (p_x) is used. *)
Theorem C80_3d_columns : forall sh L dxi xi_d pz_d I x_d y_d r_d px_d py_d ang_d qm ppl savehead saveto found rows stub,
  (forall k v, Permutation v (sh k v)) -> (forall d, x_d = Some d \/ y_d = Some d \/ px_d = Some d \/ py_d = Some d -> full d) ->
  make_beam2 sh "3d" L dxi xi_d pz_d I x_d y_d r_d px_d py_d ang_d qm ppl savehead saveto found = Beam (rows ++ [stub]) ->
  exists dx dp, x_d = Some dx /\ px_d = Some dp /\ let N := List.length rows in
    Permutation (map (col3 (fun _ x _ _ _ _ => x)) rows) (draw dx N) /\
    Permutation (map (col3 (fun _ _ y _ _ _ => y)) rows) (draw (match y_d with Some dy => dy | None => dx end) N) /\
    Permutation (map (col3 (fun _ _ _ _ px _ => px)) rows) (draw dp N) /\
    Permutation (map (col3 (fun _ _ _ _ _ py => py)) rows) (draw (match py_d with Some dy => dy | None => dp end) N).
Proof.
  intros sh L dxi xi_d pz_d I x_d y_d r_d px_d py_d ang_d qm ppl savehead saveto found rows stub Sh Fd Run.
  destruct (run_shape _ _ _ _ _ _ _ _ _ _ _ _ _ _ _ _ _ _ _ Run) as (_ & _ & _ & f & F & C). cbv zeta in C. destruct C as [[[C|C] _]|[_ (dx & dp & -> & -> & El)]]; try discriminate C. set (xi := sort_desc _ _) in *. apply app_inj_tail in El. destruct El as [-> _].
  exists dx, dp. do 2 (split; [reflexivity|]). cbv zeta. rewrite map_length, seq_length, !map_map. set (N := List.length xi). repeat split; cbn [col3]; apply shuffled; try exact Sh; try (apply Fd; tauto); [destruct y_d|destruct py_d]; apply Fd; cbn; tauto.
Qed.

(** 2D, from distributions of x, y, p_x, p_y: every row holds the radius, the radial momentum and the size of the angular
    momentum of one particle (off the axis), so the momentum across the beam is kept. *)
Theorem C80_2d_momentum : forall sh geom L dxi xi_d pz_d I dx y_d dp py_d qm ppl savehead saveto found rows stub,
  (forall k v, Permutation v (sh k v)) -> (forall d, d = dx \/ y_d = Some d \/ d = dp \/ py_d = Some d -> full d) -> geom <> "3d"%string ->
  make_beam2 sh geom L dxi xi_d pz_d I (Some dx) y_d None (Some dp) py_d None qm ppl savehead saveto found = Beam (rows ++ [stub]) ->
  exists parts : list (R * R * R * R), let N := List.length rows in
    Forall2 (fun t w => let '(x, y, px, py) := t in x ^ 2 + y ^ 2 <> 0 -> turned x y px py w) parts rows /\
    Permutation (map (fun t => fst (fst (fst t))) parts) (draw dx N) /\
    Permutation (map (fun t => snd (fst (fst t))) parts) (draw (match y_d with Some dy => dy | None => dx end) N) /\
    Permutation (map (fun t => snd (fst t)) parts) (draw dp N) /\
    Permutation (map snd parts) (draw (match py_d with Some dy => dy | None => dp end) N).
Proof.
  intros sh geom L dxi xi_d pz_d I dx y_d dp py_d qm ppl savehead saveto found rows stub Sh Fd G Run.
  destruct (run_shape _ _ _ _ _ _ _ _ _ _ _ _ _ _ _ _ _ _ _ Run) as (_ & _ & _ & f & F & C). cbv zeta in C. destruct C as [[_ (xy & r & pr & M & Hr & Ht & El)]|[C _]]; [|contradiction]. set (xi := sort_desc _ _) in *. set (N := List.length xi) in *. apply app_inj_tail in El. destruct El as [-> _].
  cbn [radial] in Hr. injection Hr as <- <-. cbn [transverse] in Ht. injection Ht as <- <-. rewrite map_length, seq_length.
  set (X := sh 0%nat (draw dx N)). set (Y := sh 1%nat _). set (PX := sh 2%nat (draw dp N)). set (PY := sh 3%nat _).
  exists (map (fun k => (nth k X 0, nth k Y 0, nth k PX 0, nth k PY 0)) (seq 0 N)). cbv zeta. rewrite !map_map. cbn [fst snd].
  split; [|repeat split; apply shuffled; try exact Sh; try (apply Fd; tauto); [destruct y_d|destruct py_d]; apply Fd; cbn; tauto].
  assert (Nt : forall g k, (k < N)%nat -> nth k (map g (seq 0 N)) 0 = g k) by (intros g k Hk; rewrite (nth_indep _ 0 (g 0%nat)) by (rewrite map_length, seq_length; exact Hk); rewrite map_nth, seq_nth by exact Hk; reflexivity).
  apply both_maps. intros k Hk. apply in_seq in Hk. intros Hne. rewrite !Nt by lia. cbn [turned]. split; [reflexivity|]. apply turn. exact Hne.
Qed.

(** No beam is returned when it is to be saved, for a geometry other than 'c', 'circ' and '3d' (the simulation itself accepts '2d'
    and '3d' in any case), for positive q_m = 1 currents, or when xi is drawn from rGauss. *)
Theorem C80_saving_refuted : forall sh geom L dxi xi_d pz_d I x_d y_d r_d px_d py_d ang_d qm ppl savehead saveto found l,
  make_beam2 sh geom L dxi xi_d pz_d I x_d y_d r_d px_d py_d ang_d qm ppl savehead saveto found = Beam l -> savehead = false /\ saveto = false.
Proof. intros. edestruct run_shape as (A & B & _); [eassumption|]. split; assumption. Qed.
Theorem C80_geometry_2d_refuted : forall sh geom L dxi xi_d pz_d I x_d y_d r_d px_d py_d ang_d qm ppl savehead saveto found l,
  make_beam2 sh geom L dxi xi_d pz_d I x_d y_d r_d px_d py_d ang_d qm ppl savehead saveto found = Beam l -> (geom <> "2d" /\ geom <> "2D" /\ geom <> "3D")%string.
Proof. intros. edestruct run_shape as (_ & _ & _ & f & _ & C); [eassumption|]. cbv zeta in C. destruct C as [[[->| ->] _]|[-> _]]; repeat split; discriminate. Qed.
Theorem C80_positive_current : forall sh geom L dxi xi_d pz_d I x_d y_d r_d px_d py_d ang_d ppl savehead saveto found, 0 < I ->
  make_beam2 sh geom L dxi xi_d pz_d I x_d y_d r_d px_d py_d ang_d 1 ppl savehead saveto found = Nothing.
Proof. intros. unfold make_beam2, refused. destruct (Req_EM_T 1 1) as [_|Ne]; [|now contradiction Ne]. destruct (Rlt_dec 0 I); [reflexivity|contradiction]. Qed.

(** The sense of rotation is lost: two beams that rotate in opposite senses give the same table. *)
Definition fixed (l : list R) (m : R) (f : option R) : distr := mkDistr (fun n => firstn n (l ++ repeat 0 n)) m f.
Lemma fixed_full l m f : full (fixed l m f).
Proof. intros n. cbn. rewrite firstn_length, app_length, repeat_length. lia. Qed.
Theorem C80_rotation_sense_refuted : exists sh L dxi xi_d pz_d I dx dy dp dp' py ppl l x y px px' py_,
  (forall k v, Permutation v (sh k v)) /\ Forall full [xi_d; pz_d; dx; dy; dp; dp'; py] /\
  make_beam2 sh "circ" L dxi xi_d pz_d I (Some dx) (Some dy) None (Some dp) (Some py) None 1 ppl false false false = Beam l /\
  make_beam2 sh "circ" L dxi xi_d pz_d I (Some dx) (Some dy) None (Some dp') (Some py) None 1 ppl false false false = Beam l /\
  draw dx 1 = [x] /\ draw dy 1 = [y] /\ draw dp 1 = [px] /\ draw dp' 1 = [px'] /\ draw py 1 = [py_] /\ List.length l = 2%nat /\
  x * py_ - y * px < 0 < x * py_ - y * px'.
Proof.
  exists (fun _ l => l), 1, 1, (fixed [-1/2] (-1/2) (Some 1)), (fixed [100] 100 None), (-1), (fixed [0] 0 None), (fixed [1] 0 None), (fixed [2] 0 None), (fixed [-2] 0 None), (fixed [0] 0 None), 1.
  exists [Row2 (-1/2) 1 100 0 2 1 (2 * -1 / 17.03331478052319 / 1) 0; stub2], 0, 1, 2, (-2), 0.
  split; [intros k v; reflexivity|]. split; [repeat constructor; apply fixed_full|].
  assert (N1 : Z.to_nat (py_round (1 / 1 / 1)) = 1%nat). { replace (1 / 1 / 1) with 1 by field. unfold py_round. rewrite (Zrnd_IZR ZnearestE 1). reflexivity. }
  assert (Go : forall a, a ^ 2 = 4 -> make_beam2 (fun _ l => l) "circ" 1 1 (fixed [-1/2] (-1/2) (Some 1)) (fixed [100] 100 None) (-1) (Some (fixed [0] 0 None)) (Some (fixed [1] 0 None)) None (Some (fixed [a] 0 None)) (Some (fixed [0] 0 None)) None 1 1 false false false
    = Beam [Row2 (-1/2) 1 100 0 2 1 (2 * -1 / 17.03331478052319 / 1) 0; stub2]).
  { intros a Ha. unfold make_beam2, refused. destruct (Req_EM_T 1 1) as [_|Ne]; [|now contradiction Ne]. destruct (Rlt_dec 0 (-1)) as [Hc|_]; [lra|]. change (f0 (fixed [-1/2] (-1/2) (Some 1))) with (Some 1). cbn [andb]. cbv zeta. rewrite N1.
    assert (Fx : filter (kept false 1) (draw (fixed [-1/2] (-1/2) (Some 1)) 1) = [-1/2]). { unfold fixed. cbn [draw app repeat firstn filter]. unfold kept at 1. destruct (Rle_dec (- (1)) (-1/2)) as [_|Hc]; [|lra]. destruct (Rle_dec (-1/2) 0) as [_|Hc]; [|lra]. reflexivity. }
    rewrite Fx. cbn [sort_desc fold_right insert_desc List.length String.eqb Ascii.eqb Bool.eqb orb radial transverse some_or fixed draw app repeat firstn seq map nth med]. f_equal. unfold current.
    replace (0 ^ 2 + 1 ^ 2) with 1 by ring. rewrite sqrt_1. replace ((0 * a + 1 * 0) / 1) with 0 by field. replace (a ^ 2 + 0 ^ 2 - 0 ^ 2) with (2 * 2) by (rewrite Ha; ring). rewrite sqrt_square by lra. rewrite Rmult_1_r. reflexivity. }
  split; [apply Go; ring|]. split; [apply Go; ring|]. cbn. repeat split; lra.
Qed.

(** a 3D beam: three coordinates are drawn, two of them in the window, and shuffling reverses *)
Example C80_3d_case : make_beam2 (fun _ l => rev l) "3d" 1 1 (fixed [-1/2; -1/4; 3] (-1/2) (Some 1)) (fixed [100; 200] 100 None) (-1) (Some (fixed [1; 2] 0 None)) None None (Some (fixed [3; 4] 0 None)) (Some (fixed [5; 6] 0 None)) None 1 3 false false false
  = Beam [Row3 (-1/4) 2 2 200 4 6 1 (2 * -1 / 17.03331478052319 / 3) 0; Row3 (-1/2) 1 1 100 3 5 1 (2 * -1 / 17.03331478052319 / 3) 1; stub3].
Proof.
  assert (N3 : Z.to_nat (py_round (3 / 1 / 1)) = 3%nat). { replace (3 / 1 / 1) with 3 by field. unfold py_round. rewrite (Zrnd_IZR ZnearestE 3). reflexivity. }
  unfold make_beam2, refused. destruct (Req_EM_T 1 1) as [_|Ne]; [|now contradiction Ne]. destruct (Rlt_dec 0 (-1)) as [Hc|_]; [lra|]. change (f0 (fixed [-1/2; -1/4; 3] (-1/2) (Some 1))) with (Some 1). cbn [andb]. cbv zeta. rewrite N3.
  assert (Fx : filter (kept false 1) (draw (fixed [-1/2; -1/4; 3] (-1/2) (Some 1)) 3) = [-1/2; -1/4]).
  { unfold fixed. cbn [draw app repeat firstn filter]. unfold kept. repeat (match goal with |- context [Rle_dec ?a ?b] => destruct (Rle_dec a b) as [?|?]; try lra end). reflexivity. }
  assert (So : sort_desc (fun x : R => x) [-1/2; -1/4] = [-1/4; -1/2]). { unfold sort_desc. cbn [fold_right insert_desc]. destruct (Rle_dec (-1/4) (-1/2)) as [?|?]; [lra|reflexivity]. }
  rewrite Fx, So. reflexivity.
Qed.
