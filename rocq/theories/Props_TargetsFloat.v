(** C82 once more: what the recorders of targets.py do with the times that the simulation really computes. *)
From Coq Require Import Reals ZArith List Bool Arith Lia Lra.
From Verif Require Import Beam2D_Model Float_Model Float_Proofs Targets_Model Targets_Spec Props_Targets.
Import ListNotations.
Open Scope R_scope.

Lemma no_multiple x y k : 0 < y -> IZR k * y < x < (IZR k + 1) * y -> multiple x y = Some false.
Proof.
  intros Hy [A B]. destruct (multiple_spec x y ltac:(lra)) as (b & E & M). rewrite E. destruct b; [|reflexivity]. exfalso. destruct (proj1 M eq_refl) as [j Hj]. 
  assert (C : IZR k < IZR j < IZR k + 1) by (split; apply (Rmult_lt_reg_r y); lra). destruct C as [C1 C2]. rewrite <- plus_IZR in C2. apply lt_IZR in C1. apply lt_IZR in C2. lia.
Qed.
Lemma a07 : double 0.07 = IZR 5044031582654956 / IZR (2 ^ 56). Proof. apply double_dec; try lia. apply Rabs_def1; cbn; lra. Qed.
Lemma a21 : double 0.21 = IZR 7566047373982433 / IZR (2 ^ 55). Proof. apply double_dec; try lia. apply Rabs_def1; cbn; lra. Qed.
Lemma clock_0 : clock (double 0.07) 1 0 0 = IZR 5044031582654956 / IZR (2 ^ 56).
Proof. cbn [clock Nat.add Z.of_nat Pos.of_succ_nat]. rewrite a07, Rmult_1_r. apply double_dec; try lia. apply Rabs_def1; cbn; lra. Qed.
Lemma clock_1 : clock (double 0.07) 1 0 1 = IZR 5044031582654956 / IZR (2 ^ 55).
Proof. change (clock (double 0.07) 1 0 1) with (double (clock (double 0.07) 1 0 0 + clock (double 0.07) 1 0 0)). rewrite clock_0. apply double_dec; try lia. apply Rabs_def1; cbn; lra. Qed.
Lemma clock_2 : clock (double 0.07) 1 0 2 = IZR 7566047373982434 / IZR (2 ^ 55).
Proof. change (clock (double 0.07) 1 0 2) with (double (clock (double 0.07) 1 0 1 + clock (double 0.07) 1 0 0)). rewrite clock_0, clock_1. apply double_dec; try lia. apply Rabs_def1; cbn; lra. Qed.

(** In steps of 0.07 the third step is at 0.21000000000000002 (the times of simulation.py:244, 264 in binary64), which is not a
    multiple of the period 0.21: the recorders, which ask for the remainder 0, miss it whatever it holds.  The diagnostics that ask
    for a remainder within half a time step do not (C66_every_kth_step_is_output).  t - 0 and the remainder of two positive
    doubles are exact in binary64. *)
Theorem C82_periods_in_binary64_refuted : forall (P : Type) (l1 l2 l3 : list (list P)) (m1 m2 m3 : list (list R)) r w h save,
  let time j := clock (double 0.07) 1 0 j in
  run (beam_process (mkPd 0 1 (double 0.21))) 0 [(time 0%nat, l1); (time 1%nat, l2); (time 2%nat, l3)] [] = Some [] /\
  run (field_process (mkFc r 0 1 (double 0.21) w h save)) 0 [(time 0%nat, m1); (time 1%nat, m2); (time 2%nat, m3)] (mkFs [] []) = Some (mkFs [] []).
Proof.
  intros P l1 l2 l3 m1 m2 m3 r w h save time.
  assert (B : forall j, (j < 3)%nat -> 0 <= time j <= 1 /\ multiple (time j - 0) (double 0.21) = Some false).
  { intros j Hj. destruct j as [|[|[|]]]; [| | |lia]; unfold time; rewrite ?clock_0, ?clock_1, ?clock_2, a21; (split; [cbn; lra|]); [apply (no_multiple _ _ 0)|apply (no_multiple _ _ 0)|apply (no_multiple _ _ 1)]; cbn; lra. }
  destruct (B 0%nat ltac:(lia)) as (R0 & M0). destruct (B 1%nat ltac:(lia)) as (R1 & M1). destruct (B 2%nat ltac:(lia)) as (R2 & M2). clear B. set (p := double 0.21) in *. generalize dependent (time 0%nat). generalize dependent (time 1%nat). generalize dependent (time 2%nat). intros t2 R2 M2 t1 R1 M1 t0 R0 M0.
  assert (Bs : forall t (l : list (list P)) k s, 0 <= t <= 1 -> multiple (t - 0) p = Some false -> layers (beam_process (mkPd 0 1 p)) t k l s = Some s).
  { intros t l. induction l as [|a l IH]; intros k s Ht M; cbn [layers]; [reflexivity|]. unfold beam_process at 1. cbn [d_start d_end d_period]. destruct (Rlt_dec t 0); [lra|]. destruct (Rlt_dec 1 t); [lra|]. rewrite M. now apply IH. }
  assert (Fs : forall t l k s, 0 <= t <= 1 -> multiple (t - 0) p = Some false -> layers (field_process (mkFc r 0 1 p w h save)) t k l s = Some s).
  { intros t l. induction l as [|a l IH]; intros k s Ht M; cbn [layers]; [reflexivity|]. unfold field_process at 1. cbn [f_start f_end f_period]. destruct (Rlt_dec t 0); [lra|]. destruct (Rlt_dec 1 t); [lra|]. rewrite M. now apply IH. }
  cbn [run]. rewrite !Bs, !Fs by assumption. split; reflexivity.
Qed.
