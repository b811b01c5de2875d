(** Theorems C49 (slices, particles), C50 (positions), C51 (file names), C52 (energy flux), C34 (option
    strings). *)
From Coq Require Import Reals ZArith List Bool String Ascii Lra Lia Psatz.
From Verif Require Import Beam2D_Model Beam2D_Spec Beam2D_Free Beam2D_Ex Shape_Model Plasma2D_Model Plasma2D_Ode Plasma3D_Model Diag_Model Diag_Spec Diag_Proofs Diag_Slices.
Import ListNotations.
Local Open Scope list_scope.
Local Open Scope R_scope.

(** ** C49: SliceDiag *)
(** XI_X and XI_Y slices: a file per output step; every layer of that step whose xi is between the
    limits gives one row per quantity asked for, taken along x (or y) at the fixed line; other layers
    and other steps give nothing. *)
Theorem C49_slice_files : forall p P dt dxi Pxi h n length_ width limits off qs rank (steps : list (R * list layer3)),
  0 < dt -> p <> X_Y ->
  let s := mk_slicer_xi p n h length_ width limits off (clamp_period P dt) dt dxi Pxi in
  on_axis n (s_offset s) -> (forall t ls l, In (t, ls) steps -> In l ls -> l3_steps l = n) ->
  exists s' fs outs,
    diag_run (slice_entries (flags qs) s) (clamp_period P dt) dt steps (new_diag rank) = Some (s', fs) /\
    output_steps P dt (Nat.eqb rank 0) steps outs /\
    Forall2 (fun step f => f_time f = fst step /\
       let '(from, to) := match limits with None => (0, - length_) | Some l => fst l end in
       let kept := filter (fun l => in_limits to from (l3_xi l)) (snd step) in
       exists cells, cells_between (s_a s) (Z.min n (s_b s)) cells /\
       f_data f "xi"%string = map (fun l => [[l3_xi l]]) kept /\
       (forall q, In q qs -> (forall l, field_of q l <> None) ->
          f_data f (key3 q) = map (fun l => match field_of q l with Some g => [line_of p cells (s_offset s) g] | None => [] end) kept) /\
       (forall q, ~ In q qs -> (forall l, field_of q l <> None) -> f_data f (key3 q) = [])) outs fs.
Proof.
  intros p P dt dxi Pxi h n length_ width limits off qs rank steps Hdt Hp s Ho Hn.
  assert (SP : s_plane s = p) by (unfold s, mk_slicer_xi; destruct limits as [[[? ?] [? ?]]|]; reflexivity).
  assert (LP : line_plane (s_plane s)) by (rewrite SP; exact Hp).
  destruct (slice_files P dt qs s rank steps Hdt) as (s' & fs & outs & E & O & F).
  { intros t ls l g I1 I2. rewrite (Hn t ls l I1 I2), slice_read_line by auto. eauto. }
  exists s', fs, outs. split; [exact E|]. split; [exact O|]. pose proof (outs_incl _ _ _ _ _ O) as I.
  apply (Forall2_impl' _ _ _ _ F). intros [t ls] f X (A & B & C & D). split; [exact A|]. cbn [fst snd] in *.
  assert (K : filter (fun l => slice_takes s t (l3_xi l)) ls =
    filter (fun l => in_limits (s_to1 s) (s_from1 s) (l3_xi l)) ls) by (apply filter_ext; intros l; now apply takes_line).
  rewrite K in B, C. assert (Ef : match limits with None => (0, - length_) | Some l => fst l end = (s_from1 s, s_to1 s)).
  { unfold s, mk_slicer_xi. destruct limits as [[[? ?] [? ?]]|]; reflexivity. }
  rewrite Ef. cbv zeta. exists (zseq (s_a s) (Z.min n (s_b s))). split; [apply zseq_cells|]. split; [exact B|]. split.
  - intros q Hq Hf. rewrite C; auto. 2:{ apply (slice_in' q (mkL3 0 0 (fun _ _ => 0) (fun _ _ => 0) (fun _ _ => 0) (fun _ _ => 0) (fun _ _ => 0) (fun _ _ => 0) (fun _ _ => 0) (fun _ _ => 0) (fun _ _ => 0) (fun _ _ => 0) [] [] [])). apply Hf. }
    apply map_ext_in. intros l Hl. apply filter_In in Hl. unfold slice_val. rewrite (Hn t ls l (I _ X) (proj1 Hl)), slice_read_line, SP by auto.
    destruct (field_of q l) as [g|] eqn:G; [|exfalso; now apply (Hf l)]. now rewrite (field3_of q l g G).
  - intros q Hq Hf. apply D; auto. apply (slice_in' q (mkL3 0 0 (fun _ _ => 0) (fun _ _ => 0) (fun _ _ => 0) (fun _ _ => 0) (fun _ _ => 0) (fun _ _ => 0) (fun _ _ => 0) (fun _ _ => 0) (fun _ _ => 0) (fun _ _ => 0) [] [] [])). apply Hf.
Qed.
Print Assumptions C49_slice_files.
Definition plain (x : R) : layer3 :=
  let g := fun _ _ => x in mkL3 (- x) 9 g g g g g g g g g g [] [] [].
Example C49_slice_ex : let s := mk_slicer_xi XI_X 9 1 10 9 None 0 (clamp_period (Every 10) 1) 1 1 Never in
  on_axis 9 (s_offset s) /\ l3_steps (plain 3) = 9%Z /\ in_limits (-10) 0 (l3_xi (plain 3)) = true /\ in_limits (-10) 0 (l3_xi (plain 11)) = false.
Proof.
  cbv zeta. split; [|split; [reflexivity|]].
  - unfold mk_slicer_xi. cbn [s_offset]. unfold slice_offset. replace (0 / 1) with 0 by field. rewrite (floor_unique 0 0) by (simpl; lra).
    split; vm_compute; congruence.
  - unfold in_limits, plain. cbn [l3_xi]. split; repeat (destruct (Rle_dec _ _)); auto; lra.
Qed.

(** X_Y slices keep the layers near multiples of saving_xi_period, but only at times that are due:
    the first step, although it is written out, gives an empty file. *)
Theorem C49_xy_slice_files : forall P dt dxi pxi h n width limits qs rank (steps : list (R * list layer3)),
  0 < dt -> 0 < pxi ->
  let s := mk_slicer_xy n h width limits (clamp_period P dt) dt dxi (Every pxi) in
  (forall t ls l, In (t, ls) steps -> In l ls -> l3_steps l = n) ->
  exists s' fs outs,
    diag_run (slice_entries (flags qs) s) (clamp_period P dt) dt steps (new_diag rank) = Some (s', fs) /\
    output_steps P dt (Nat.eqb rank 0) steps outs /\
    Forall2 (fun step f => f_time f = fst step /\ exists kept rows cols,
       cells_between (s_a s) (Z.min n (s_b s)) rows /\ cells_between (s_c s) (Z.min n (s_d s)) cols /\
       (due P dt (fst step) -> exists keep, kept = filter keep (snd step) /\ forall l, keep l = true <-> due_xi (Every pxi) dxi (l3_xi l)) /\
       (~ due P dt (fst step) -> kept = []) /\
       f_data f "xi"%string = map (fun l => [[l3_xi l]]) kept /\
       (forall q, In q qs -> (forall l, field_of q l <> None) ->
          f_data f (key3 q) = map (fun l => match field_of q l with Some g => map (fun i => map (fun j => g i j) cols) rows | None => [] end) kept)) outs fs.
Proof.
  intros P dt dxi pxi h n width limits qs rank steps Hdt Hpx s Hn.
  assert (SP : s_plane s = X_Y /\ s_P s = clamp_period P dt /\ s_dt s = dt /\ s_dxi s = dxi /\ s_xi_period s = Every pxi)
    by (unfold s, mk_slicer_xy; destruct limits as [[[? ?] [? ?]]|]; repeat split). destruct SP as (S1 & S2 & S3 & S4 & S5).
  assert (RD : forall g, slice_read s n g = Some (map (fun i => map (fun j => g i j) (zseq (s_c s) (Z.min n (s_d s)))) (zseq (s_a s) (Z.min n (s_b s))))).
  { intros g. unfold slice_read. rewrite S1. reflexivity. }
  destruct (slice_files P dt qs s rank steps Hdt) as (s' & fs & outs & E & O & F).
  { intros t ls l g I1 I2. rewrite (Hn t ls l I1 I2), RD. eauto. }
  exists s', fs, outs. split; [exact E|]. split; [exact O|]. pose proof (outs_incl _ _ _ _ _ O) as I.
  apply (Forall2_impl' _ _ _ _ F). intros [t ls] f X (A & B & C & D). split; [exact A|]. cbn [fst snd] in *.
  exists (filter (fun l => slice_takes s t (l3_xi l)) ls), (zseq (s_a s) (Z.min n (s_b s))), (zseq (s_c s) (Z.min n (s_d s))).
  split; [apply zseq_cells|]. split; [apply zseq_cells|].
  assert (T : forall xi, slice_takes s t xi = condition_check t (clamp_period P dt) dt && condition_check xi (Every pxi) dxi).
  { intros xi. unfold slice_takes. now rewrite S1, S2, S3, S4, S5. }
  split; [|split; [|split]].
  - intros HD. exists (fun l => slice_takes s t (l3_xi l)). split; auto. intros l. rewrite T. apply condition_due in HD; auto. rewrite HD. simpl andb.
    apply condition_xi. intros q Eq. inversion Eq. lra.
  - intros HD. apply condition_due_false in HD; auto. assert (G : forall l, slice_takes s t (l3_xi l) = false) by (intros; rewrite T, HD; reflexivity).
    clear - G. induction ls; simpl; auto. now rewrite G.
  - exact B.
  - intros q Hq Hf. rewrite C; auto. 2:{ apply (slice_in' q (mkL3 0 0 (fun _ _ => 0) (fun _ _ => 0) (fun _ _ => 0) (fun _ _ => 0) (fun _ _ => 0) (fun _ _ => 0) (fun _ _ => 0) (fun _ _ => 0) (fun _ _ => 0) (fun _ _ => 0) [] [] [])). apply Hf. }
    apply map_ext_in. intros l Hl. apply filter_In in Hl. unfold slice_val. rewrite (Hn t ls l (I _ X) (proj1 Hl)), RD.
    destruct (field_of q l) as [g|] eqn:G; [|exfalso; now apply (Hf l)]. now rewrite (field3_of q l g G).
Qed.
Print Assumptions C49_xy_slice_files.
(** ... so "the first step is recorded" fails for X_Y slices. *)
Theorem C49_xy_first_step_refuted : exists P dt dxi pxi h n width t (ls : list layer3) f s',
  0 < dt /\ ls <> [] /\ (forall l, In l ls -> l3_steps l = n /\ due_xi (Every pxi) dxi (l3_xi l)) /\
  diag_run (slice_entries (flags [qEz]) (mk_slicer_xy n h width None (clamp_period P dt) dt dxi (Every pxi))) (clamp_period P dt) dt [(t, ls)] (new_diag 0) = Some (s', [f]) /\
  f_data f "xi"%string = [] /\ f_data f "Ez"%string = [].
Proof.
  assert (ND : ~ due (Every 10) 1 1).
  { intros [n Hn]. rewrite Rmax_left in Hn by lra. apply abs_le_inv in Hn. assert (n <= 0)%Z by (apply IZR_lt1; simpl; lra). assert (0 < n)%Z by (apply lt_IZR; simpl; lra). lia. }
  destruct (C49_xy_slice_files (Every 10) 1 1 1 1 9 9 None [qEz] 0 [(1, [plain 3])] ltac:(lra) ltac:(lra)) as (s' & fs & outs & E & O & F).
  { intros t ls l [X|[]]. inversion X; subst. intros [<-|[]]. reflexivity. }
  assert (Eo : outs = [(1, [plain 3])]) by (apply (output_unique (Every 10) 1 true [(1, [plain 3])]); [exact O|]; apply out_take; [auto|constructor]).
  subst outs. inversion F as [|? y ? l' H1 H2]; subst. inversion H2; subst. destruct H1 as (A & kept & rows & cols & _ & _ & _ & K & X & Q). cbn [fst snd] in *.
  exists (Every 10), 1, 1, 1, 1, 9%Z, 9, 1, [plain 3], y, s'. rewrite X, (K ND). split; [lra|]. split; [discriminate|]. split.
  { intros l [<-|[]]. split; [reflexivity|]. exists (-3)%Z. unfold plain. cbn [l3_xi]. replace (-(3) - -3 * 1) with 0 by ring. rewrite Rabs_R0. lra. }
  split; [exact E|]. split; [reflexivity|]. change "Ez"%string with (key3 qEz). rewrite Q by (simpl; auto; discriminate). now rewrite (K ND).
Qed.
Print Assumptions C49_xy_first_step_refuted.

(** ** C49: ParticlesDiag: the beam and the plasma are saved at the output steps and at no other;
    snapshots inside a step exactly at the due times and due layers. *)
Theorem C49_particle_files : forall sb sp P dt dxi pxi rank (steps outs : list (R * list R)), 0 < dt -> 0 < dxi ->
  output_steps P dt (Nat.eqb rank 0) steps outs ->
  let fs := particles_run sb sp (clamp_period P dt) (clamp_period pxi dxi) dt dxi steps (Nat.eqb rank 0) in
  (forall t, In (BeamFile t) fs <-> sb = true /\ exists ls, In (t, ls) outs) /\
  (forall t, In (PlasmaFile t) fs <-> sp = true /\ exists ls, In (t, ls) outs) /\
  (forall t xi, In (Snapshot t xi) fs <-> sp = true /\ pxi <> Never /\ due P dt t /\ due pxi dxi xi /\ exists ls, In (t, ls) steps /\ In xi ls).
Proof.
  intros sb sp P dt dxi pxi rank steps outs Hdt Hdxi. generalize (Nat.eqb rank 0) as b.
  assert (SN : forall t xi t' xi', In (Snapshot t xi) (particles_after sp (clamp_period P dt) (clamp_period pxi dxi) dt dxi t' xi') <->
     sp = true /\ pxi <> Never /\ due P dt t' /\ due pxi dxi xi' /\ t = t' /\ xi = xi').
  { intros t xi t' xi'. unfold particles_after. destruct pxi as [q|]; [|simpl; split; [contradiction|intros (_ & N & _); congruence]].
    destruct (clamp_period (Every q) dxi) as [q'|] eqn:Eq. 2:{ simpl in Eq. destruct (Rlt_dec q dxi); discriminate. }
    rewrite <- Eq. rewrite <- (condition_due P dt t' Hdt), <- (condition_due (Every q) dxi xi' Hdxi).
    destruct (condition_check t' _ dt), (condition_check xi' _ dxi), sp; simpl; split; intros H; try contradiction;
      repeat match goal with H : _ /\ _ |- _ => destruct H end; try discriminate.
    - destruct H as [H|[]]. inversion H; subst. repeat split; auto; discriminate.
    - left. congruence. }
  assert (NB : forall t t' xi', ~ In (BeamFile t) (particles_after sp (clamp_period P dt) (clamp_period pxi dxi) dt dxi t' xi')).
  { intros. unfold particles_after. destruct (clamp_period pxi dxi); [|intros []]. destruct (_ && sp); [intros [X|[]]; discriminate|intros []]. }
  assert (NP : forall t t' xi', ~ In (PlasmaFile t) (particles_after sp (clamp_period P dt) (clamp_period pxi dxi) dt dxi t' xi')).
  { intros. unfold particles_after. destruct (clamp_period pxi dxi); [|intros []]. destruct (_ && sp); [intros [X|[]]; discriminate|intros []]. }
  assert (DU : forall b t, b = true \/ due P dt t -> particles_dump sb sp (clamp_period P dt) dt t b = (false, (if sb then [BeamFile t] else []) ++ (if sp then [PlasmaFile t] else []))).
  { intros b t H. unfold particles_dump. destruct H as [->|H]; [reflexivity|]. apply condition_due in H; auto. rewrite H. now rewrite andb_false_r. }
  assert (DS : forall t, ~ due P dt t -> particles_dump sb sp (clamp_period P dt) dt t false = (false, [])).
  { intros t H. unfold particles_dump. apply condition_due_false in H; auto. now rewrite H. }
  intros b O. cbv zeta. induction O as [b|b t ls r r' Hd O IH|t ls r r' Hd O IH]; simpl particles_run.
  - simpl. repeat split; try contradiction; intros; repeat match goal with H : _ /\ _ |- _ => destruct H | H : exists _, _ |- _ => destruct H end; contradiction.
  - rewrite DU by auto. destruct IH as (I1 & I2 & I3). split; [|split].
    + intros t0. rewrite !in_app_iff, I1. rewrite in_concat. split.
      * intros [(x & Hx & Hi)|[[H|H]|H]].
        -- apply in_map_iff in Hx. destruct Hx as (xi & <- & _). now apply NB in Hi.
        -- destruct sb; [|contradiction]. destruct H as [H|[]]. inversion H; subst. split; auto. exists ls. simpl; auto.
        -- destruct sp; [destruct H as [H|[]]; discriminate|contradiction].
        -- destruct H as (H & ls' & H'). split; auto. exists ls'. simpl; auto.
      * intros (-> & ls' & [H|H]); [inversion H; subst; right; left; left; simpl; auto|]. right. right. eauto.
    + intros t0. rewrite !in_app_iff, I2. rewrite in_concat. split.
      * intros [(x & Hx & Hi)|[[H|H]|H]].
        -- apply in_map_iff in Hx. destruct Hx as (xi & <- & _). now apply NP in Hi.
        -- destruct sb; [destruct H as [H|[]]; discriminate|contradiction].
        -- destruct sp; [|contradiction]. destruct H as [H|[]]. inversion H; subst. split; auto. exists ls. simpl; auto.
        -- destruct H as (H & ls' & H'). split; auto. exists ls'. simpl; auto.
      * intros (-> & ls' & [H|H]); [inversion H; subst; right; left; right; simpl; auto|]. right. right. eauto.
    + intros t0 xi. rewrite !in_app_iff, I3. rewrite in_concat. split.
      * intros [(x & Hx & Hi)|[[H|H]|H]].
        -- apply in_map_iff in Hx. destruct Hx as (xi' & <- & Hl). apply SN in Hi. destruct Hi as (? & ? & ? & ? & -> & ->). repeat split; auto. exists ls. simpl; auto.
        -- destruct sb; [destruct H as [H|[]]; discriminate|contradiction].
        -- destruct sp; [destruct H as [H|[]]; discriminate|contradiction].
        -- destruct H as (? & ? & ? & ? & ls' & H' & H''). repeat split; auto. exists ls'. simpl; auto.
      * intros (-> & ? & ? & ? & ls' & [H'|H'] & Hx).
        -- inversion H'; subst. left. exists (particles_after true (clamp_period P dt) (clamp_period pxi dxi) dt dxi t0 xi). split; [now apply in_map|]. apply SN. auto 10.
        -- right. right. repeat split; auto. eauto.
  - rewrite DS by auto. destruct IH as (I1 & I2 & I3). split; [|split].
    + intros t0. rewrite !in_app_iff, I1. rewrite in_concat. split.
      * intros [(x & Hx & Hi)|[[]|H]]; auto. apply in_map_iff in Hx. destruct Hx as (xi & <- & _). now apply NB in Hi.
      * tauto.
    + intros t0. rewrite !in_app_iff, I2. rewrite in_concat. split.
      * intros [(x & Hx & Hi)|[[]|H]]; auto. apply in_map_iff in Hx. destruct Hx as (xi & <- & _). now apply NP in Hi.
      * tauto.
    + intros t0 xi. rewrite !in_app_iff, I3. rewrite in_concat. split.
      * intros [(x & Hx & Hi)|[[]|H]].
        -- apply in_map_iff in Hx. destruct Hx as (xi' & <- & Hl). apply SN in Hi. destruct Hi as (_ & _ & C & _). contradiction.
        -- destruct H as (? & ? & ? & ? & ls' & H' & H''). repeat split; auto. exists ls'. simpl; auto.
      * intros (-> & ? & ? & ? & ls' & [H'|H'] & Hx); [inversion H'; subst; contradiction|]. right. right. repeat split; auto. eauto.
Qed.
Print Assumptions C49_particle_files.
Example C49_particle_ex : output_steps (Every 10) 1 (Nat.eqb 0 0) [(1, [-1])] [(1, [-1])] /\ due (Every (1/2)) 1 (-1).
Proof. split; [apply out_take; [left; reflexivity|constructor]|]. exists (-1)%Z. rewrite Rmax_right by lra. replace (-1 - -1 * 1) with 0 by ring. rewrite Rabs_R0. lra. Qed.

(** 2D slices: the same with the 2D names, at the radii from_2 .. to_2. *)
Theorem C49_slice_files_2d : forall P dt h n length_ width limits qs rank (steps : list (R * list layer2)), 0 < dt ->
  let s := mk_slicer2 h length_ width limits in
  (forall q, In q qs -> q <> qPhi) -> (forall t ls l, In (t, ls) steps -> In l ls -> l2_n l = n) ->
  exists s' fs outs,
    diag_run (fun _ => slice_entries2 (flags qs) s) (clamp_period P dt) dt steps (new_diag rank) = Some (s', fs) /\
    output_steps P dt (Nat.eqb rank 0) steps outs /\
    Forall2 (fun step f => f_time f = fst step /\
       let '(from, to) := match limits with None => (0, - length_) | Some l => fst l end in
       let kept := filter (fun l => in_limits to from (l2_xi l)) (snd step) in
       exists cells, cells_between (s2_a s) (Z.min n (s2_b s)) cells /\
       f_data f "xi"%string = map (fun l => [[l2_xi l]]) kept /\
       (forall q k, slice_key2 q = Some k -> In q qs -> f_data f k = map (fun l => [map (field2_of q l) cells]) kept) /\
       (forall q k, slice_key2 q = Some k -> ~ In q qs -> f_data f k = [])) outs fs.
Proof.
  intros P dt h n length_ width limits qs rank steps Hdt s Hq Hn.
  destruct (output_total P dt Hdt steps (Nat.eqb rank 0)) as (outs & O).
  pose proof (outs_incl _ _ _ _ _ O) as I.
  destruct (run_total (fun _ => slice_entries2 (flags qs) s) P dt Hdt steps _ outs O) as (s' & fs & E).
  { intros t ls X. apply (traverse_total (fun _ => slice_entries2 (flags qs) s) t). intros l Hl. destruct (slice_entries2_spec qs s l Hq) as (es & Ee & _). eauto. }
  exists s', fs, outs. split; [exact E|]. split; [exact O|].
  destruct (run_files _ P dt Hdt _ _ _ _ E) as (o2 & O2 & F). rewrite <- (output_unique _ _ _ _ _ O _ O2) in F.
  apply (Forall2_impl' _ _ _ _ F). intros [t ls] f X Hh. split; [apply Hh|]. cbn [fst snd].
  assert (Ef : match limits with None => (0, - length_) | Some l => fst l end = (s2_from1 s, s2_to1 s)).
  { unfold s, mk_slicer2. destruct limits as [[[? ?] [? ?]]|]; reflexivity. }
  rewrite Ef. cbv zeta.
  destruct (holds_layers _ t ls f (fun l es => if in_limits (s2_to1 s) (s2_from1 s) (l2_xi l) then under "xi"%string es = [scalar (l2_xi l)] /\
     forall q k, slice_key2 q = Some k -> (In q qs -> under k es = [[map (field2_of q l) (zseq (s2_a s) (Z.min (l2_n l) (s2_b s)))]]) /\ (~ In q qs -> under k es = [])
     else es = []) Hh) as (ess & F2 & D).
  { intros l Hl. now apply slice_entries2_spec. }
  exists (zseq (s2_a s) (Z.min n (s2_b s))). split; [apply zseq_cells|]. split; [|split].
  - rewrite D. apply (concat_filter ls). apply (Forall2_impl' _ _ _ _ F2). intros l es _. destruct (in_limits _ _ _); tauto.
  - intros q k K Hqq. rewrite D. apply (concat_filter ls). apply (Forall2_impl' _ _ _ _ F2). intros l es Hl. destruct (in_limits _ _ _); auto. intros [_ A].
    rewrite <- (Hn t ls l (I _ X) Hl). now apply (A q k K).
  - intros q k K Hqq. rewrite D. apply (concat_filter_none ls ess _ (fun l => in_limits (s2_to1 s) (s2_from1 s) (l2_xi l))). apply (Forall2_impl' _ _ _ _ F2). intros l es _. destruct (in_limits _ _ _); auto. intros [_ A]. now apply (A q k K).
Qed.
Print Assumptions C49_slice_files_2d.

(** ** C50: where the recorded values are taken *)
(** A probe line inside the window is read at the cell whose centre is nearest. *)
Theorem C50_probe_lines : forall n h x y, 0 < h ->
  let '(i, j) := probe3 n h (x, y) in Rabs (centre n h i - x) <= h / 2 /\ Rabs (centre n h j - y) <= h / 2.
Proof.
  intros n h x y H. unfold probe3, centre. cbn [fst snd].
  split; rewrite Z.add_simpl_l; apply ne_div_range; auto.
Qed.
Print Assumptions C50_probe_lines.
Theorem C50_probe_radius : forall h r, 0 < h -> Rabs (IZR (probe2 h r) * h - r) <= h / 2.
Proof. intros h r H. unfold probe2. now apply ne_div_range. Qed.
Print Assumptions C50_probe_radius.
(** A probe line left of the window is not refused: the value of another place is recorded. *)
Theorem C50_probe_outside_refuted : exists n h x, 0 < h /\ (0 < n)%Z /\
  forall g, exists i j, read3 n g [probe3 n h (x, 0)] = Some [[g i j]] /\ 8 * h < Rabs (centre n h i - x).
Proof.
  exists 9%Z, 1, (-5). split; [lra|]. split; [lia|]. intros g. exists 8%Z, 4%Z.
  assert (E : probe3 9 1 (-5, 0) = (-1, 4)%Z).
  { unfold probe3. cbn [fst snd]. replace (-5 / 1) with (IZR (-5)) by field. replace (0 / 1) with (IZR 0) by field. rewrite !ne_int. reflexivity. }
  rewrite E. split; [reflexivity|]. unfold centre. change (8 - 9 / 2)%Z with 4%Z. replace (4 * 1 - -5) with 9 by ring. rewrite Rabs_right; lra.
Qed.
Print Assumptions C50_probe_outside_refuted.

(** The cells of an XI_X or XI_Y slice: all whose centre is between the limits (half a cell inside),
    none more than half a cell outside, and the stored coordinates are the centres. *)
Theorem C50_slice_cells : forall p n h length_ width f1 t1 f2 t2 off P dt dxi Pxi, 0 < h -> (0 <= n)%Z ->
  let s := mk_slicer_xi p n h length_ width (Some ((f1, t1), (f2, t2))) off P dt dxi Pxi in
  exists cells, cells_between (s_a s) (Z.min n (s_b s)) cells /\ slice_grid n h (s_a s) (s_b s) = map (centre n h) cells /\
    (forall i, on_axis n i -> f2 + h / 2 <= centre n h i -> centre n h i < t2 - h / 2 -> In i cells) /\
    (forall i, In i cells -> on_axis n i /\ f2 - h / 2 <= centre n h i <= t2 - h / 2).
Proof.
  intros p n h length_ width f1 t1 f2 t2 off P dt dxi Pxi H Hn s.
  assert (A : s_a s = slice_index n n h f2) by (unfold s, mk_slicer_xi; reflexivity).
  assert (B : s_b s = slice_index n n h t2) by (unfold s, mk_slicer_xi; reflexivity).
  assert (Bn : (s_b s <= n)%Z) by (rewrite B; unfold slice_index, clip; lia).
  exists (zseq (s_a s) (Z.min n (s_b s))). split; [apply zseq_cells|]. split.
  { rewrite Z.min_r by auto. reflexivity. }
  rewrite A, B. split.
  - intros i Hi L U. apply range_cells; auto. split; auto. split; [apply ne_div_le|apply ne_div_gt]; auto.
  - intros i Hi. apply range_cells in Hi; auto. destruct Hi as [O [L U]]. split; [auto|]. unfold centre.
    pose proof (abs_le_inv _ _ (ne_div_range h f2 _ H eq_refl)). pose proof (abs_le_inv _ _ (ne_div_range h t2 _ H eq_refl)).
    apply IZR_le in L. assert (U' : (i - n / 2 <= nearest_even (t2 / h) - 1)%Z) by lia. apply IZR_le in U'. rewrite minus_IZR in U'. rewrite minus_IZR in L, U' |- *.
    split; nra.
Qed.
Print Assumptions C50_slice_cells.
(** The line of an XI_X / XI_Y slice is the grid line at or just below the offset. *)
Theorem C50_slice_line : forall p n h length_ width limits off P dt dxi Pxi, 0 < h -> (0 < n)%Z ->
  - IZR (n / 2) * h <= off < IZR (n - n / 2) * h ->
  let s := mk_slicer_xi p n h length_ width limits off P dt dxi Pxi in
  on_axis n (s_offset s) /\ centre n h (s_offset s) <= off < centre n h (s_offset s) + h.
Proof.
  intros p n h length_ width limits off P dt dxi Pxi H Hn [L U] s.
  set (z := floorR (off / h)). pose proof (floorR_spec (off / h)) as F. fold z in F.
  assert (Eo : off = off / h * h) by (field; lra).
  assert (L' : - IZR (n / 2) <= off / h) by (apply (Rmult_le_reg_r h); auto; lra).
  assert (U' : off / h < IZR (n - n / 2)) by (apply (Rmult_lt_reg_r h); auto; lra).
  assert (Z1 : (- (n / 2) <= z)%Z). { apply IZR_lt1. rewrite opp_IZR. lra. }
  assert (Z2 : (z < n - n / 2)%Z). { apply lt_IZR. lra. }
  assert (Es : s_offset s = (n / 2 + z)%Z).
  { unfold s, mk_slicer_xi. destruct limits as [[[? ?] [? ?]]|]; cbn [s_offset]; unfold slice_offset; fold z; destruct p; apply clip_id; lia. }
  rewrite Es. split; [split; lia|]. unfold centre. rewrite Z.add_simpl_l, Eo. split; nra.
Qed.
Print Assumptions C50_slice_line.
Example C50_slice_line_ex : - IZR (9 / 2) * 1 <= 0.9 < IZR (9 - 9 / 2) * 1.
Proof. change (9 / 2)%Z with 4%Z. change (9 - 4)%Z with 5%Z. lra. Qed.
(** It is not the nearest line ... *)
Theorem C50_nearest_line_refuted : exists n h off, 0 < h /\ (0 < n)%Z /\ forall p length_ width limits P dt dxi Pxi,
  let s := mk_slicer_xi p n h length_ width limits off P dt dxi Pxi in
  h / 2 < Rabs (centre n h (s_offset s) - off) /\ on_axis n (s_offset s + 1) /\ Rabs (centre n h (s_offset s + 1) - off) < h / 2.
Proof.
  exists 9%Z, 1, 0.9. split; [lra|]. split; [lia|]. intros p length_ width limits P dt dxi Pxi s.
  assert (Es : s_offset s = 4%Z).
  { unfold s, mk_slicer_xi. assert (F : floorR (0.9 / 1) = 0%Z) by (apply floor_unique; simpl; lra).
    destruct limits as [[[? ?] [? ?]]|]; cbn [s_offset]; unfold slice_offset; rewrite F; destruct p; reflexivity. }
  rewrite Es. unfold centre, on_axis. change (4 - 9 / 2)%Z with 0%Z. change (4 + 1 - 9 / 2)%Z with 1%Z. change (4 + 1)%Z with 5%Z.
  split; [|split; [lia|]].
  - rewrite Rabs_left; lra.
  - rewrite Rabs_right; lra.
Qed.
Print Assumptions C50_nearest_line_refuted.
(** ... and an offset right of the window raises for XI_X, but gives the last line for XI_Y. *)
Theorem C50_line_outside_refuted : forall n h off length_ width limits P dt dxi Pxi g, 0 < h -> (0 < n)%Z -> IZR (n - n / 2) * h <= off ->
  slice_read (mk_slicer_xi XI_X n h length_ width limits off P dt dxi Pxi) n g = None /\
  exists cells, slice_read (mk_slicer_xi XI_Y n h length_ width limits off P dt dxi Pxi) n g = Some [line_of XI_Y cells (n - 1) g].
Proof.
  intros n h off length_ width limits P dt dxi Pxi g H Hn L.
  assert (Z1 : (n - n / 2 <= floorR (off / h))%Z).
  { pose proof (floorR_spec (off / h)) as F. apply IZR_lt1. assert (IZR (n - n / 2) <= off / h); [|lra].
    apply (Rmult_le_reg_r h); auto. replace (off / h * h) with off by (field; lra). auto. }
  assert (EX : slice_offset n n h off = n) by (unfold slice_offset, clip; lia).
  assert (EY : slice_offset n (n - 1) h off = (n - 1)%Z) by (unfold slice_offset, clip; lia).
  split.
  - unfold mk_slicer_xi, slice_read. destruct limits as [[[? ?] [? ?]]|]; cbn [s_plane s_offset]; rewrite EX;
    (replace (np_index n n) with (@None Z); [reflexivity|]; unfold np_index; destruct (Z.leb_spec 0 n), (Z.ltb_spec n n), (Z.leb_spec (- n) n), (Z.ltb_spec n 0); simpl; auto; lia).
  - unfold mk_slicer_xi, slice_read. destruct limits as [[[? ?] [? ?]]|]; cbn [s_plane s_offset]; rewrite EY, np_index_in by (split; lia); eexists; reflexivity.
Qed.
Print Assumptions C50_line_outside_refuted.
(** By default the whole window is recorded when (n - 1)/2 is odd; when it is even the last column is
    missing. *)
Theorem C50_default_window : forall p k h length_ off P dt dxi Pxi i, 0 < h -> (0 <= k)%Z ->
  let n := (2 * k + 1)%Z in
  let s := mk_slicer_xi p n h length_ (IZR n * h) None off P dt dxi Pxi in
  In i (zseq (s_a s) (Z.min n (s_b s))) <-> (0 <= i < n)%Z /\ (Z.even k = true -> i <> n - 1)%Z.
Proof.
  intros p k h length_ off P dt dxi Pxi i H K n s. rewrite zseq_in. unfold s, mk_slicer_xi. cbn [s_a s_b]. unfold n.
  rewrite default_lower by lia || auto. rewrite default_upper by auto. destruct (Z.even k); split; intros; try lia; split; try lia; intros; discriminate.
Qed.
Print Assumptions C50_default_window.
Theorem C50_whole_window_refuted : exists n h, 0 < h /\ (0 < n)%Z /\ forall p length_ off P dt dxi Pxi,
  let s := mk_slicer_xi p n h length_ (IZR n * h) None off P dt dxi Pxi in ~ In (n - 1)%Z (zseq (s_a s) (Z.min n (s_b s))).
Proof.
  exists 9%Z, 1. split; [lra|]. split; [lia|]. intros p length_ off P dt dxi Pxi. 
  pose proof (C50_default_window p 4 1 length_ off P dt dxi Pxi 8 ltac:(lra) ltac:(lia)) as X. cbv zeta in X |- *. change (2 * 4 + 1)%Z with 9%Z in X.
  intros I. apply X in I. destruct I as [_ I]. apply I; reflexivity.
Qed.
Print Assumptions C50_whole_window_refuted.
(** An X_Y slice never contains the last row and column, whatever limits are asked for. *)
Theorem C50_xy_last_cells_refuted : forall n h width limits P dt dxi Pxi, (0 < n)%Z ->
  let s := mk_slicer_xy n h width limits P dt dxi Pxi in
  ~ In (n - 1)%Z (zseq (s_a s) (Z.min n (s_b s))) /\ ~ In (n - 1)%Z (zseq (s_c s) (Z.min n (s_d s))).
Proof.
  intros n h width limits P dt dxi Pxi Hn s. rewrite !zseq_in. unfold s, mk_slicer_xy. destruct limits as [[[? ?] [? ?]]|]; cbn [s_a s_b s_c s_d]; unfold slice_index, clip; lia.
Qed.
Print Assumptions C50_xy_last_cells_refuted.
(** 2D: the default range stops before the outermost radius; the coordinates are those of the cells. *)
Theorem C50_default_2d : forall m h length_ i, 0 < h -> (0 <= m)%Z ->
  let s := mk_slicer2 h length_ (IZR m * h) None in
  slice_grid2 h s = map (fun i => IZR i * h) (zseq (s2_a s) (s2_b s)) /\
  (In i (zseq (s2_a s) (Z.min (m + 1) (s2_b s))) <-> (0 <= i < m)%Z).
Proof.
  intros m h length_ i H Hm s. split; [reflexivity|]. rewrite zseq_in. unfold s, mk_slicer2. cbn [s2_a s2_b].
  replace (0 / h) with (IZR 0) by (simpl; field; lra). replace (IZR m * h / h) with (IZR m) by (field; lra). rewrite !ne_int.
  rewrite (floor_unique (IZR m) m) by lra. unfold clip. lia.
Qed.
Print Assumptions C50_default_2d.
(** By default every layer inside the window is kept. *)
Theorem C50_default_layers : forall k dxi length_, 0 < dxi -> INR k * dxi <= length_ -> in_limits (- length_) 0 (- (INR k * dxi)) = true.
Proof.
  intros k dxi length_ H L. unfold in_limits. pose proof (pos_INR k). destruct (Rle_dec _ _); [|lra]. destruct (Rle_dec _ _); auto. nra.
Qed.
Print Assumptions C50_default_layers.

(** ** C51: file names *)
(** Two different time steps longer than a hundredth are written to different files. *)
Theorem C51_distinct_files : forall dt k k' dir p, 1 / 100 < dt -> k <> k' ->
  fxi_path dir (INR k * dt) <> fxi_path dir (INR k' * dt) /\ slice_path p dir (INR k * dt) <> slice_path p dir (INR k' * dt).
Proof.
  intros dt k k' dir p H N.
  assert (S : stamp (INR k * dt) <> stamp (INR k' * dt)).
  { destruct (lt_eq_lt_dec k k') as [[L|E]|L]; [now apply stamp_distinct|contradiction|]. intros E. symmetry in E. revert E. now apply stamp_distinct. }
  split; unfold fxi_path, slice_path; intros E; inversion E; contradiction.
Qed.
Print Assumptions C51_distinct_files.
(** The same for a time step that is a whole number of hundredths. *)
Theorem C51_distinct_files_whole : forall m k k' dir, (1 <= m)%nat -> k <> k' ->
  fxi_path dir (INR k * (INR m / 100)) <> fxi_path dir (INR k' * (INR m / 100)).
Proof. intros m k k' dir H N E. unfold fxi_path in E. inversion E as [E']. rewrite !stamp_whole in E'. nia. Qed.
Print Assumptions C51_distinct_files_whole.
(** With a shorter time step the output of one step overwrites another's. *)
Theorem C51_short_step_refuted : exists dt k k', 0 < dt /\ k <> k' /\ forall dir, fxi_path dir (INR k * dt) = fxi_path dir (INR k' * dt).
Proof.
  exists (4 / 1000), 2%nat, 3%nat. split; [lra|]. split; [lia|]. intros dir. unfold fxi_path. f_equal. unfold stamp.
  rewrite (ne_unique (100 * (INR 2 * (4 / 1000))) 1) by (simpl; apply Rabs_def1; lra). rewrite (ne_unique (100 * (INR 3 * (4 / 1000))) 1) by (simpl; apply Rabs_def1; lra). reflexivity.
Qed.
Print Assumptions C51_short_step_refuted.
(** Slices of different planes in one directory are written to one file. *)
Theorem C51_two_slices_refuted : exists p p', p <> p' /\ forall dir t, slice_path p dir t = slice_path p' dir t.
Proof. exists XI_X, XI_Y. split; [discriminate|reflexivity]. Qed.
Print Assumptions C51_two_slices_refuted.

(** ** C52: the energy flux *)
Theorem C52_flux_nonnegative : forall h l, 0 <= energy_flux h l.
Proof.
  intros h l. unfold energy_flux. cbv zeta. apply Rplus_le_le_0_compat.
  - apply fold_nonneg. intros x Hx. apply in_map_iff in Hx. destruct Hx as (p & <- & _). pose proof (sq_sum_ge (t_m p) (t_px p) (t_py p) (t_pz p)). lra.
  - apply sumN_nonneg. intros i _. apply sumN_nonneg. intros j _. pose proof (pow2_ge_0 h).
    match goal with |- 0 <= ?a * _ / 2 => assert (0 <= a) by (repeat apply Rplus_le_le_0_compat; apply pow2_ge_0) end. nra.
Qed.
Print Assumptions C52_flux_nonnegative.
Theorem C52_flux_zero : forall h l, 0 < h -> (forall p, In p (l3_el l) -> 0 <= t_m p) ->
  energy_flux h l = 0 <-> at_rest l /\ no_flux l.
Proof.
  intros h l H M. unfold energy_flux. cbv zeta.
  set (mo := fun p => sqrt (t_m p ^ 2 + t_px p ^ 2 + t_py p ^ 2 + t_pz p ^ 2) - t_m p).
  set (Q := fun a b => l3_ez l a b ^ 2 + l3_bz l a b ^ 2 + (l3_ex l a b - l3_by l a b) ^ 2 + (l3_ey l a b + l3_bx l a b) ^ 2).
  set (Se := fun i j : nat => (l3_ez l (Z.of_nat i) (Z.of_nat j) ^ 2 + l3_bz l (Z.of_nat i) (Z.of_nat j) ^ 2 + (l3_ex l (Z.of_nat i) (Z.of_nat j) - l3_by l (Z.of_nat i) (Z.of_nat j)) ^ 2 + (l3_ey l (Z.of_nat i) (Z.of_nat j) + l3_bx l (Z.of_nat i) (Z.of_nat j)) ^ 2) * h ^ 2 / 2).
  assert (QP : forall a b, 0 <= Q a b) by (intros; unfold Q; repeat apply Rplus_le_le_0_compat; apply pow2_ge_0).
  assert (SE : forall i j, Se i j = Q (Z.of_nat i) (Z.of_nat j) * h ^ 2 / 2) by reflexivity.
  assert (SP : forall i j, 0 <= Se i j) by (intros; rewrite SE; pose proof (QP (Z.of_nat i) (Z.of_nat j)); pose proof (pow2_ge_0 h); nra).
  assert (MP : forall x, In x (map mo (l3_el l)) -> 0 <= x).
  { intros x Hx. apply in_map_iff in Hx. destruct Hx as (p & <- & _). unfold mo. pose proof (sq_sum_ge (t_m p) (t_px p) (t_py p) (t_pz p)). lra. }
  set (n := Z.to_nat (l3_steps l)).
  assert (F1 : 0 <= fold_right Rplus 0 (map mo (l3_el l))) by now apply fold_nonneg.
  assert (F2 : 0 <= sumN n (fun i => sumN n (fun j => Se i j))) by (apply sumN_nonneg; intros; apply sumN_nonneg; auto).
  change (fold_right Rplus 0 (map mo (l3_el l)) + sumN n (fun i => sumN n (fun j => Se i j)) = 0 <-> at_rest l /\ no_flux l). split.
  - intros E. assert (E1 : fold_right Rplus 0 (map mo (l3_el l)) = 0) by lra. assert (E2 : sumN n (fun i => sumN n (fun j => Se i j)) = 0) by lra. split.
    + intros p Hp. apply (sq_sum_eq (t_m p)); auto. assert (mo p = 0) by (apply (fold_zero_inv _ MP E1); now apply in_map). unfold mo in H0. lra.
    + intros a b [A1 A2] [B1 B2].
      assert (X : Se (Z.to_nat a) (Z.to_nat b) = 0).
      { apply (sumN_zero_inv n (fun j => Se (Z.to_nat a) j)); auto; [|unfold n; lia].
        apply (sumN_zero_inv n (fun i => sumN n (fun j => Se i j))); auto; [|unfold n; lia]. intros; apply sumN_nonneg; auto. }
      rewrite SE, !Z2Nat.id in X by auto. assert (Y : Q a b = 0). { assert (0 < h ^ 2) by (apply pow_lt; auto). nra. }
      unfold Q in Y. pose proof (pow2_ge_0 (l3_ez l a b)). pose proof (pow2_ge_0 (l3_bz l a b)). pose proof (pow2_ge_0 (l3_ex l a b - l3_by l a b)). pose proof (pow2_ge_0 (l3_ey l a b + l3_bx l a b)).
      assert (SQ : forall x, x ^ 2 = 0 -> x = 0) by (intros; nra).
      repeat split; [apply SQ; lra|apply SQ; lra| |]; [assert (l3_ex l a b - l3_by l a b = 0) by (apply SQ; lra); lra|assert (l3_ey l a b + l3_bx l a b = 0) by (apply SQ; lra); lra].
  - intros [A B]. assert (Z1 : fold_right Rplus 0 (map mo (l3_el l)) = 0).
    { clear - A M. assert (G : forall p, In p (l3_el l) -> mo p = 0).
      { intros p Hp. destruct (A p Hp) as (X & Y & Z). unfold mo. rewrite X, Y, Z. replace (t_m p ^ 2 + 0 ^ 2 + 0 ^ 2 + 0 ^ 2) with (t_m p ^ 2) by ring. rewrite sqrt_pow2 by auto. lra. }
      clear - G. induction (l3_el l); simpl; auto. rewrite G by (simpl; auto). rewrite IHl0 by (intros; apply G; simpl; auto). lra. }
    assert (Z2 : sumN n (fun i => sumN n (fun j => Se i j)) = 0).
    { apply sumN_zero. intros i Hi. apply sumN_zero. intros j Hj.
      rewrite SE. destruct (B (Z.of_nat i) (Z.of_nat j)) as (X & Y & Z & W); [unfold on_axis, n in *; lia|unfold on_axis, n in *; lia|]. unfold Q. rewrite X, Y, Z, W. field. }
    lra.
Qed.
Print Assumptions C52_flux_zero.
Example C52_ex : energy_flux 1 (plain 0) = 0 /\ energy_flux 1 (plain 1) <> 0.
Proof.
  split.
  - apply C52_flux_zero; [lra|intros p []|]. split; [intros p []|]. intros a b _ _. unfold plain; simpl. repeat split; ring.
  - intros E. apply C52_flux_zero in E; [|lra|intros p []]. destruct E as [_ E]. destruct (E 0%Z 0%Z) as [X _]; try (split; simpl; lia). unfold plain in X; simpl in X. lra.
Qed.

(** ** C34: option strings of DiagnosticsFXi *)
(** The names are the items between the commas, without spaces and without empty items. *)
Theorem C34_names_parsed : forall items, (forall i, In i items -> has_no ","%char i) ->
  from_str_into_list (String.concat "," items) = filter (fun n => negb (String.eqb n "")) (map without_spaces items).
Proof. exact parse_items. Qed.
Print Assumptions C34_names_parsed.
Example C34_names_ex : from_str_into_list " Ez, Ey , ,Bx,," = ["Ez"; "Ey"; "Bx"]%string.
Proof. reflexivity. Qed.
(** The documented names, except two, are accepted in any combination, and whatever is not accepted
    raises. *)
Theorem C34_accepted_names : forall items, (forall i, In i items -> has_no ","%char i) ->
  (exists names, legacy_fxi (String.concat "," items) = Some names) <->
  (forall i, In i items -> without_spaces i = ""%string \/ In (without_spaces i) allowed_f_xi).
Proof.
  intros items H. unfold legacy_fxi. cbv zeta. rewrite (parse_items items H).
  assert (MEM : forall n l, mem n l = true <-> In n l).
  { intros n l. unfold mem. rewrite existsb_exists. split; [intros (x & X & E); apply String.eqb_eq in E; now subst|intros X; exists n; split; auto; apply String.eqb_refl]. }
  split.
  - intros [names E] i Hi. destruct (forallb _ _) eqn:F; [|discriminate]. rewrite forallb_forall in F.
    destruct (String.eqb_spec (without_spaces i) "") as [->|N]; [auto|]. right. apply MEM. apply F. apply filter_In. split; [now apply in_map|].
    destruct (String.eqb_spec (without_spaces i) ""); auto.
  - intros A. assert (F : forallb (fun n => mem n allowed_f_xi) (filter (fun n => negb (String.eqb n "")) (map without_spaces items)) = true).
    { apply forallb_forall. intros n Hn. apply filter_In in Hn. destruct Hn as [Hn Hb]. apply in_map_iff in Hn. destruct Hn as (i & <- & Hi).
      destruct (A i Hi) as [E|E]; [rewrite E in Hb; discriminate|now apply MEM]. }
    rewrite F. eauto.
Qed.
Print Assumptions C34_accepted_names.
(** 'ni' and 'rho_beam' can be recorded but are refused; 'nirho_beam' is accepted and never recorded. *)
Theorem C34_documented_names_refuted :
  (In "ni"%string legacy_recorded /\ legacy_fxi "ni" = None) /\ (In "rho_beam"%string legacy_recorded /\ legacy_fxi "rho_beam" = None) /\
  (legacy_fxi "nirho_beam" = Some ["nirho_beam"%string] /\ ~ In "nirho_beam"%string legacy_recorded) /\
  (forall n, In n legacy_recorded -> n <> "ni"%string -> n <> "rho_beam"%string -> legacy_fxi n = Some [n]).
Proof.
  split; [split; [simpl; tauto|reflexivity]|]. split; [split; [simpl; tauto|reflexivity]|]. split.
  - split; [reflexivity|]. simpl. intuition discriminate.
  - intros n H A B. simpl in H. repeat (destruct H as [<-|H]; [try congruence; reflexivity|]). contradiction.
Qed.
Print Assumptions C34_documented_names_refuted.
