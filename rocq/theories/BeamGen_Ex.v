(** A concrete sort, a concrete generator and concrete beams that meet the hypotheses of the theorems. *)
From Coq Require Import Reals ZArith List Bool String Permutation Sorted Lra Lia Psatz.
From Verif Require Import Beam2D_Model Beam2D_Spec Beam2D_Free BeamGen_Model BeamGen_Spec BeamGen_Proofs BeamGen_Beam.
Import ListNotations.
Local Open Scope list_scope.
Local Open Scope R_scope.

(** Insertion sort of indices by key. *)
Fixpoint insert_idx (key : nat -> R) (k : nat) (l : list nat) : list nat :=
  match l with
  | [] => [k]
  | j :: r => if Rle_dec (key k) (key j) then k :: j :: r else j :: insert_idx key k r
  end.
Definition isort (keys : list R) : list nat :=
  fold_right (insert_idx (fun k => nth k keys 0)) [] (seq 0 (List.length keys)).
Lemma insert_perm key k l : Permutation (insert_idx key k l) (k :: l).
Proof.
  induction l as [|j l IH]; simpl; auto. destruct (Rle_dec (key k) (key j)); auto.
  rewrite IH. apply perm_swap.
Qed.
Lemma insert_sorted key k l : StronglySorted Rle (map key l) -> StronglySorted Rle (map key (insert_idx key k l)).
Proof.
  induction l as [|j l IH]; intros H; simpl; [repeat constructor|].
  destruct (Rle_dec (key k) (key j)) as [L|L]; simpl.
  - constructor; [assumption|]. simpl in H. inversion H as [|? ? S F]; subst. constructor; [assumption|].
    eapply Forall_impl; [|exact F]. intros a Ha. lra.
  - simpl in H. inversion H as [|? ? S F]; subst. constructor; [now apply IH|].
    apply Forall_forall. intros a Ha.
    assert (P := Permutation_map key (insert_perm key k l)). apply (Permutation_in _ P) in Ha.
    destruct Ha as [<-|Ha]; [lra|]. rewrite Forall_forall in F. now apply F.
Qed.
Lemma isort_contract : argsort_contract isort.
Proof.
  intros keys. unfold isort. generalize (seq 0 (List.length keys)) as l.
  induction l as [|k l [P S]]; simpl; [split; constructor|]. split.
  - rewrite insert_perm. now constructor.
  - now apply insert_sorted.
Qed.
Definition ex_rng : rng := mkRng (fun i => if Nat.even i then 1 / 3 else 1 / 2) (fun _ => 1) (fun _ => 4%Z).
Lemma ex_rng_unit : unit_contract ex_rng.
Proof. intros i. simpl. destruct (Nat.even i); lra. Qed.
(** A flat segment of length 1 and amplitude [a], shifted by [x]. *)
Definition flat_segment (a x : R) : segment :=
  mkSeg 1 a (fun _ _ => 1) 1 1000 x 0 0.001 (fun _ _ => 1) 0 EMono 1.
Definition flat_beam (a x : R) : beam_shape := mkShape 1 3 [flat_segment a x].
Lemma flat_ok a x : segments_ok (b_segments (flat_beam a x)).
Proof. intros s [<-|[]]. simpl. split; [lra|]. split; [lra|]. intros k E. discriminate E. Qed.
Lemma flat_drawable a x s : In s (b_segments (flat_beam a x)) -> drawable s.
Proof. intros [<-|[]]. unfold drawable. simpl. split; [lra|]. split; [lra|]. split; [intros; lra|]. intros E; discriminate E. Qed.
Definition ex_config (three : bool) : gen_config := mkGC (1 / 2) three 10.
Lemma no_boundary_succeeds argsort c b g :
  0 < gc_step c -> 0 < b_ppl b -> b_current b <> 0 -> lengths_positive (b_segments b) ->
  (forall s, In s (b_segments b) -> drawable s) ->
  (forall i, beam_layer b (gc_step c) i -> ~ boundary (b_segments b) (layer_centre (gc_step c) i)) ->
  exists beam, generate_beam_array argsort c b g = Some beam.
Proof.
  intros HS HP HC HL HD HN. unfold generate_beam_array.
  destruct (Req_EM_T (gc_step c) 0); [lra|]. destruct (Req_EM_T (b_ppl b) 0); [lra|].
  destruct (Req_EM_T (b_current b) 0); [contradiction|].
  rewrite currents_eq. destruct (gen_layers_succeeds c b g (layer_count b (gc_step c)) 0 0) as [ps ->]; [|eauto].
  intros i p Hi. assert (BL : beam_layer b (gc_step c) i) by (apply layer_count_spec; [assumption|lia]).
  assert (C0 : layer_centre (gc_step c) i < 0).
  { unfold layer_centre. assert (0 <= INR i) by apply pos_INR. nra. }
  destruct (some_segment (b_segments b) 0 (layer_centre (gc_step c) i)) as (s & st & E).
  - unfold beam_layer in BL. lra.
  - intros bf af E F. apply (HN i BL). exists bf, af. split; [assumption|lra].
  - apply (gen_layer_succeeds c b g p i s st); auto. now apply get_segment_iff.
Qed.
Lemma flat_layers a x i : beam_layer (flat_beam a x) (1 / 2) i -> (i < 2)%nat.
Proof.
  unfold beam_layer, layer_centre, lengths. simpl. intros H.
  destruct (le_lt_dec 2 i) as [L|L]; [|assumption]. apply le_INR in L. simpl in L. lra.
Qed.
Lemma flat_generates three a x argsort g : exists beam, generate_beam_array argsort (ex_config three) (flat_beam a x) g = Some beam.
Proof.
  apply no_boundary_succeeds; simpl; try lra.
  - intros s [<-|[]]. simpl. lra.
  - apply flat_drawable.
  - intros i Hi (bf & af & E & X). apply flat_layers in Hi.
    destruct bf as [|s [|t bf]]; simpl in E.
    + unfold lengths, layer_centre in X; simpl in X. assert (0 <= INR i) by apply pos_INR. lra.
    + injection E as <- _. unfold lengths, layer_centre in X; simpl in X.
      destruct i as [|[|i]]; try lia; simpl in X; lra.
    + destruct bf; discriminate.
Qed.
