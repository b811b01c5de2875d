(** Layers in a row on the GPU and on the CPU. *)
From Coq Require Import Reals ZArith List Bool Lra Lia Permutation.
From Verif Require Import Beam2D_Model Beam2D_Spec Plasma2D_Model Shape_Model Shape_Spec Shape_Proofs Plasma3D_Model Plasma3D_Spec
  Gpu_Model Gpu_Spec Gpu_Fft Gpu_Proofs Layer3D_Spec Layer3D_Proofs.
Import ListNotations.
Open Scope R_scope.

Lemma same_arrays_iff s L st st' : same_arrays s L st st' <->
  parts_eq s (fst (fst st)) (fst (fst st')) /\ fields_eq L (snd (fst st)) (snd (fst st')) /\ totals_eq L (snd st) (snd st').
Proof.
  destruct st as [[p f] c], st' as [[p' f'] c']. unfold same_arrays, parts_eq, fields_eq, totals_eq. cbn [fst snd]. split.
  - intros (A & B & C & D). split; [split; assumption|]. split; [repeat split; apply C; cbn; tauto|repeat split; apply D; cbn; tauto].
  - intros ((A & B) & (F1 & F2 & F3 & F4 & F5 & F6 & F7) & (T1 & T2 & T3 & T4)). split; [exact A|]. split; [exact B|]. split.
    + intros F H. cbn [In] in H. destruct H as [<-|[<-|[<-|[<-|[<-|[<-|[<-|[]]]]]]]]; assumption.
    + intros g H. cbn [In] in H. destruct H as [<-|[<-|[<-|[<-|[]]]]]; assumption.
Qed.
Lemma nodes_eq_sym L u w : nodes_eq L u w -> nodes_eq L w u. Proof. intros E i j Hi Hj. symmetry. now apply E. Qed.
Lemma nodes_eq_trans L u v w : nodes_eq L u v -> nodes_eq L v w -> nodes_eq L u w.
Proof. intros A B i j Hi Hj. rewrite A by auto. now apply B. Qed.
Lemma same_arrays_trans s L a b c : same_arrays s L a b -> same_arrays s L b c -> same_arrays s L a c.
Proof.
  destruct a as [[p f] t], b as [[p' f'] t'], c as [[p'' f''] t'']. intros (A & [B1 B2] & C & D) (A' & [B1' B2'] & C' & D').
  split; [congruence|]. split.
  - split; [intros i j Hi Hj; rewrite B1 by auto; apply B1'; congruence|]. destruct (u_ions s); [congruence|]. intros i j Hi Hj; rewrite B2 by auto; apply B2'; congruence.
  - split; intros F HF; eapply nodes_eq_trans; eauto.
Qed.
Lemma fields_start_ext L h X coeff it it' fp fp' rb rb' rbp rbp' cp cp' c full half : 
  fields_eq L it it' -> fields_eq L fp fp' -> nodes_eq L rb rb' -> nodes_eq L rbp rbp' -> totals_eq L cp cp' ->
  fields_of L h X coeff it fp rb rbp cp c full half -> fields_of L h X coeff it' fp' rb' rbp' cp' c full half.
Proof.
  intros (I1 & I2 & _ & I4 & I5 & _) (P1 & P2 & P3 & P4 & P5 & P6 & P7) HR HP (T1 & T2 & T3 & T4) A. unfold fields_of in *. cbn zeta in *.
  destruct A as (A1 & A3 & A5 & (A7 & A8) & (A9 & A10) & (A11 & A12) & (A13 & A14) & A15 & A16).
  set (ro := fun i j => (total3 c_ro c i j + rb i j + total3 c_ro cp i j + rbp i j) / 2) in *.
  set (ro' := fun i j => (total3 c_ro c i j + rb' i j + total3 c_ro cp' i j + rbp' i j) / 2) in *.
  set (jz := fun i j => (total3 c_jz c i j + rb i j + total3 c_jz cp i j + rbp i j) / 2) in *.
  set (jz' := fun i j => (total3 c_jz c i j + rb' i j + total3 c_jz cp' i j + rbp' i j) / 2) in *.
  assert (RO : nodes_eq L ro ro') by (intros i j Hi Hj; unfold ro, ro'; rewrite T1, HR, HP by auto; reflexivity).
  assert (JZ : nodes_eq L jz jz') by (intros i j Hi Hj; unfold jz, jz'; rewrite T4, HR, HP by auto; reflexivity).
  destruct (cd_ext h L _ _ RO) as [RX RY]. destruct (cd_ext h L _ _ JZ) as [JX JY].
  split; [exact A1|]. split; [exact A3|]. split; [exact A5|].
  split. { split; [exact A7|]. intros i j Hi Hj. rewrite A8 by auto. assert (j <= L)%nat by (unfold interior in Hj; lia). rewrite I1, T2, (inner_only_ext L _ _ RX) by auto. reflexivity. }
  split. { split; [exact A9|]. intros i j Hi Hj. rewrite A10 by auto. assert (i <= L)%nat by (unfold interior in Hi; lia). rewrite I2, T3, (inner_only_ext L _ _ RY) by auto. reflexivity. }
  split. { split; [exact A11|]. intros i j Hi Hj. rewrite A12 by auto. assert (i <= L)%nat by (unfold interior in Hi; lia). rewrite I4, T3, (inner_only_ext L _ _ JY) by auto. reflexivity. }
  split. { split; [exact A13|]. intros i j Hi Hj. rewrite A14 by auto. assert (j <= L)%nat by (unfold interior in Hj; lia). rewrite I5, T2, (inner_only_ext L _ _ JX) by auto. reflexivity. }
  split; [|exact A16]. intros F HF i j Hi Hj. rewrite (A15 F HF i j Hi Hj). f_equal. f_equal.
  cbn [In] in HF. destruct HF as [<-|[<-|[<-|[<-|[<-|[<-|[]]]]]]]; auto.
Qed.
Lemma coasted_ext s pp pp' g : parts_eq s pp pp' -> all_coasted s pp g -> all_coasted s pp' g.
Proof.
  intros [E [E1 E2]] [A [A1 A2]]. split; [congruence|]. rewrite <- E. split.
  - intros i j Hi Hj. rewrite <- E1 by auto. auto.
  - destruct (u_ions s); [congruence|]. intros i j Hi Hj. rewrite <- E2 by auto. auto.
Qed.
Lemma pushed_ext n h b X L f f' prev g p : n = (L + 1)%nat -> fields_eq L f f' -> pushed n h b X f prev g p -> pushed n h b X f' prev g p.
Proof.
  intros HN HF (A & B & C & D & E). split; [exact A|]. split; [exact B|]. split; [exact C|]. split; [exact D|]. intros Hq. specialize (E Hq). cbn zeta in *.
  rewrite <- (field_at_ext L n h f f') by auto. exact E.
Qed.
Lemma all_pushed_ext s L f f' pp pp' g p : u_n s = (L + 1)%nat -> parts_eq s pp pp' -> fields_eq L f f' -> all_pushed s f pp g p -> all_pushed s f' pp' g p.
Proof.
  intros HN [E [E1 E2]] HF [A [A1 A2]]. split; [congruence|]. rewrite <- E. split.
  - intros i j Hi Hj. rewrite <- E1 by auto. eapply pushed_ext; eauto. 
  - destruct (u_ions s); [congruence|]. intros i j Hi Hj. rewrite <- E2 by auto. eapply pushed_ext; eauto.
Qed.
Lemma smoothed_ext average K X coef damp dmax prev prev' a b : each K (fun i j => prev i j = prev' i j) ->
  smoothed average K X coef damp dmax prev a b -> smoothed average K X coef damp dmax prev' a b.
Proof. intros E A. unfold smoothed, each in *. cbv beta zeta in *. intros i j Hi Hj. specialize (A i j Hi Hj). rewrite (E i j Hi Hj) in A. exact A. Qed.

Lemma layer_start_ext average s L rb rb' rbp rbp' st st' st1 : u_n s = (L + 1)%nat -> nodes_eq L rb rb' -> nodes_eq L rbp rbp' -> same_arrays s L st st' ->
  layer3 average s L rb rbp st st1 -> layer3 average s L rb' rbp' st' st1.
Proof.
  intros HN HR HP S. apply same_arrays_iff in S. destruct st as [[pp fp] cp], st' as [[pp' fp'] cp'], st1 as [[p4 ff] c4]. cbn [fst snd] in S. destruct S as (E & F & T).
  intros (p0 & p1 & p2 & p3 & c1 & c2 & full1 & half1 & half2 & A0 & A1 & A2 & A3 & A4 & A5 & A6 & A7 & A8 & A9 & A10).
  assert (EK := proj1 E).
  exists p0, p1, p2, p3, c1, c2, full1, half1, half2.
  split; [eapply coasted_ext; eauto|]. split; [eapply all_pushed_ext; eauto|]. split; [exact A2|].
  split; [eapply fields_start_ext; [| | | | |exact A3]; auto|].
  split; [eapply all_pushed_ext; eauto using fields_eq_refl|]. split; [exact A5|].
  split; [eapply fields_start_ext; [| | | | |exact A6]; auto using fields_eq_refl|].
  split; [eapply all_pushed_ext; eauto using fields_eq_refl|]. split; [congruence|]. split; [|exact A10].
  destruct (u_decl s); [|exact A9]. destruct A9 as [A9 A9']. split; [|exact A9']. rewrite <- EK. eapply smoothed_ext; [|exact A9]. exact (proj1 (proj2 E)).
Qed.
Lemma calm_ext s pp pp' : parts_eq s pp pp' -> calm s pp -> calm s pp'.
Proof.
  intros [E [E1 E2]] [A1 A2]. unfold calm. rewrite <- E. split.
  - intros i j Hi Hj. rewrite <- E1 by auto. apply A1; auto.
  - destruct (u_ions s); [exact I|]. intros i j Hi Hj. rewrite <- E2 by auto. apply A2; auto.
Qed.

Section Run.
  Variables (s : solver3) (L : nat) (pad : Z).
  Hypothesis HN : u_n s = (L + 1)%nat.
  Hypothesis HL : (2 <= L)%nat.
  Hypothesis Hodd : Nat.odd (u_n s) = true.
  Hypothesis Hh : 0 < u_h s.
  Hypothesis Hpad : (3 <= pad)%Z.
  Hypothesis Hb : u_b s = wall (u_n s) (u_h s) pad.
  Hypothesis Hpos : 0 < u_b s.
  Hypothesis Hc : 0 <= u_coeff s.
  Hypothesis Hdmax : 0 < u_limit s.
  Lemma layer_gpu_cpu average rb rb' rbp rbp' oe oi st st' : (forall k, fair (oe k)) -> (forall k, fair (oi k)) -> local (K_ (fst (fst st))) average ->
    (u_decl s = true -> (3 <= K_ (fst (fst st)))%nat) -> calm s (fst (fst st)) ->
    nodes_eq L rb rb' -> nodes_eq L rbp rbp' -> same_arrays s L st st' ->
    same_arrays s L (step_dxi3 average s rb rbp st) (step_gpu average oe oi s rb' rbp' st').
  Proof.
    intros He Hi Hl HK HC HR HP S. assert (S' := S). apply same_arrays_iff in S'. destruct S' as (E & _). assert (EK := proj1 E).
    assert (A := layer_ok s L pad HN HL Hodd Hh Hpad Hb Hpos Hc Hdmax average rb rbp st Hl HK HC).
    assert (B := layer_gpu_ok s L pad HN HL Hodd Hh Hpad Hb Hpos Hc Hdmax oe oi average rb' rbp' st' He Hi).
    rewrite <- EK in B. specialize (B Hl HK (calm_ext s _ _ E HC)).
    assert (A' := layer_start_ext average s L rb rb' rbp rbp' st st' _ HN HR HP S A).
    apply same_arrays_iff. apply (layer_det average s L rb' rbp' st'); auto; rewrite <- ?EK; auto. apply Rgt_not_eq, Hh.
  Qed.
  Lemma cpu_K average rb rbp st : K_ (fst (fst (step_dxi3 average s rb rbp st))) = K_ (fst (fst st)).
  Proof. unfold step_dxi3. destruct st as [[pp fp] cp]. cbv zeta. destruct (compute_fields3 _ _ _ _ _ _ _ _ _ _) as [ff fh]. cbn [fst]. destruct (u_decl s); cbn [fst K_]; reflexivity. Qed.
  Lemma run_gpu_cpu average : forall rs ls st st', Forall2 (same_beam L) rs ls -> Forall fair_launch ls -> local (K_ (fst (fst st))) average ->
    (u_decl s = true -> (3 <= K_ (fst (fst st)))%nat) ->
    (forall r1 r2, rs = r1 ++ r2 -> r2 <> [] -> calm s (fst (fst (cpu_layers average s r1 st)))) ->
    same_arrays s L st st' -> same_arrays s L (cpu_layers average s rs st) (gpu_layers average s ls st').
  Proof.
    induction rs as [|r rs IH]; intros ls st st' HB HF Hl HK HC S; inversion HB as [|? l ? ls' B1 B2]; subst; [exact S|].
    inversion HF as [|? ? [F1 F1'] F2]; subst. cbn [cpu_layers gpu_layers fold_left]. apply IH; auto.
    - rewrite cpu_K. exact Hl.
    - rewrite cpu_K. exact HK.
    - intros r1 r2 E H. exact (HC (r :: r1) r2 ltac:(rewrite E; reflexivity) H).
    - destruct B1 as [B1 B1']. apply layer_gpu_cpu; auto. apply (HC [] (r :: rs) eq_refl). discriminate.
  Qed.
End Run.
