(** Theorems C50 (the X_Y slices). *)
From Coq Require Import Reals ZArith List Bool Lra Lia Psatz.
From Verif Require Import Diag_Model Diag_Spec Diag_Proofs Diag_Slices Props_Diag2 SliceXY_Model.
Import ListNotations.
Local Open Scope R_scope.
Lemma xy_cells n h f t i : 0 < h -> (0 < n)%Z ->
  (on_axis n i -> (i <> n - 1)%Z -> f + h / 2 <= centre n h i -> centre n h i < t - h / 2 -> In i (zseq (slice_index n (n - 1) h f) (slice_index n (n - 1) h t))) /\
  (In i (zseq (slice_index n (n - 1) h f) (slice_index n (n - 1) h t)) -> on_axis n i /\ (i <> n - 1)%Z /\ f - h / 2 <= centre n h i <= t - h / 2).
Proof.
  intros H Hn. split.
  - intros O Ne L U. assert (A := ne_div_le h f _ H L). assert (B := ne_div_gt h t _ H U). apply zseq_in. unfold slice_index, clip, on_axis in *. lia.
  - intros Hi. apply zseq_in in Hi. assert (K : on_axis n i /\ (i <> n - 1)%Z /\ (nearest_even (f / h) <= i - n / 2 < nearest_even (t / h))%Z) by (unfold slice_index, clip, on_axis in *; lia).
    destruct K as (O & Ne & L & U). split; [exact O|]. split; [exact Ne|]. unfold centre.
    pose proof (abs_le_inv _ _ (ne_div_range h f _ H eq_refl)). pose proof (abs_le_inv _ _ (ne_div_range h t _ H eq_refl)).
    apply IZR_le in L. assert (U' : (i - n / 2 <= nearest_even (t / h) - 1)%Z) by lia. apply IZR_le in U'. rewrite minus_IZR in U'. rewrite minus_IZR in L, U' |- *. split; nra.
Qed.
Lemma index_below n h x : (0 < n)%Z -> (slice_index n (n - 1) h x <= n - 1)%Z.
Proof. intros H. unfold slice_index, clip. lia. Qed.
(** An X_Y slice with the limits f1..t1 in x and f2..t2 in y holds the table of the field over consecutive cells xs and ys: all
    cells, but the last of the axis, whose centres are between the limits of their axis (half a cell inside), and no cells more
    than half a cell outside. *)
Theorem C50_xy_slice_cells : forall n h width f1 t1 f2 t2 P dt dxi Pxi g, 0 < h -> (0 < n)%Z ->
  let s := mk_slicer_xy n h width (Some ((f1, t1), (f2, t2))) P dt dxi Pxi in
  exists xs ys, cells_between (s_a s) (s_b s) xs /\ cells_between (s_c s) (s_d s) ys /\
    slice_read s n g = Some (map (fun i => map (fun j => g i j) ys) xs) /\
    (forall i, on_axis n i -> (i <> n - 1)%Z -> f1 + h / 2 <= centre n h i -> centre n h i < t1 - h / 2 -> In i xs) /\
    (forall i, In i xs -> on_axis n i /\ (i <> n - 1)%Z /\ f1 - h / 2 <= centre n h i <= t1 - h / 2) /\
    (forall j, on_axis n j -> (j <> n - 1)%Z -> f2 + h / 2 <= centre n h j -> centre n h j < t2 - h / 2 -> In j ys) /\
    (forall j, In j ys -> on_axis n j /\ (j <> n - 1)%Z /\ f2 - h / 2 <= centre n h j <= t2 - h / 2) /\
    (* the stored coordinates are the centres of these cells, when there are as many in x as in y; otherwise it raises *)
    xy_grid n h s = (if Nat.eqb (length xs) (length ys) then Some [map (centre n h) xs; map (centre n h) ys] else None).
Proof.
  intros n h width f1 t1 f2 t2 P dt dxi Pxi g H Hn s. exists (zseq (s_a s) (s_b s)), (zseq (s_c s) (s_d s)).
  split; [apply zseq_cells|]. split; [apply zseq_cells|]. unfold s, mk_slicer_xy. cbn [s_a s_b s_c s_d]. split.
  { unfold slice_read, np_range. cbn [s_plane s_a s_b s_c s_d]. assert (A := index_below n h t1 Hn). assert (B := index_below n h t2 Hn). rewrite !Z.min_r by lia. reflexivity. }
  split; [intros i; apply xy_cells; assumption|]. split; [intros i; apply xy_cells; assumption|]. split; [intros i; apply xy_cells; assumption|]. split; [intros i; apply xy_cells; assumption|].
  unfold xy_grid, vstack2, slice_grid. cbn [s_a s_b s_c s_d]. rewrite !map_length. reflexivity.
Qed.
Print Assumptions C50_xy_slice_cells.
(** So a rectangle that is not a square cannot be asked for: on every grid of five cells or more the construction raises. *)
Theorem C50_xy_rectangle_refuted : forall n h width P dt dxi Pxi, 0 < h -> (5 <= n)%Z ->
  xy_grid n h (mk_slicer_xy n h width (Some ((- h, h), (- h, 0))) P dt dxi Pxi) = None /\
  exists x y, xy_grid n h (mk_slicer_xy n h width (Some ((- h, h), (- h, h))) P dt dxi Pxi) = Some [x; y] /\ x = [- h; 0] /\ y = [- h; 0].
Proof.
  intros n h width P dt dxi Pxi H Hn. assert (D := Z.div_mod n 2 ltac:(lia)). assert (M := Z.mod_pos_bound n 2 ltac:(lia)).
  assert (I : forall z, (-2 <= z <= 1)%Z -> slice_index n (n - 1) h (IZR z * h) = (n / 2 + z)%Z).
  { intros z Hz. unfold slice_index. replace (IZR z * h / h) with (IZR z) by (field; lra). rewrite ne_int. unfold clip. lia. }
  assert (I1 : slice_index n (n - 1) h (- h) = (n / 2 + -1)%Z) by (rewrite <- I by lia; f_equal; simpl; ring).
  assert (I2 : slice_index n (n - 1) h h = (n / 2 + 1)%Z) by (rewrite <- I by lia; f_equal; simpl; ring).
  assert (I0 : slice_index n (n - 1) h 0 = (n / 2 + 0)%Z) by (rewrite <- I by lia; f_equal; simpl; ring).
  assert (Z2 : zseq (n / 2 + -1) (n / 2 + 1) = [n / 2 - 1; n / 2]%Z) by (unfold zseq; replace (n / 2 + 1 - (n / 2 + -1))%Z with 2%Z by lia; change (Z.to_nat 2) with 2%nat; cbn [seq map]; f_equal; [lia|f_equal; lia]).
  assert (Z1 : zseq (n / 2 + -1) (n / 2 + 0) = [n / 2 - 1]%Z) by (unfold zseq; replace (n / 2 + 0 - (n / 2 + -1))%Z with 1%Z by lia; change (Z.to_nat 1) with 1%nat; cbn [seq map]; f_equal; lia).
  unfold xy_grid, mk_slicer_xy, slice_grid. cbn [s_a s_b s_c s_d]. rewrite I1, I2, I0, Z1, Z2. cbn [map]. split; [reflexivity|].
  replace (n / 2 - 1 - n / 2)%Z with (-1)%Z by lia. replace (n / 2 - n / 2)%Z with 0%Z by lia. do 2 eexists. split; [reflexivity|]. split; (f_equal; [simpl; ring|f_equal; simpl; ring]).
Qed.
Print Assumptions C50_xy_rectangle_refuted.
