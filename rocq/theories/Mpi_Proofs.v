From Coq Require Import List Arith Bool Lia ZArith Sorting.Sorted.
From Coq Require Import ZifyBool ZifyNat.
From Verif Require Import Ring Ring_Proofs Mpi_Model.
Import ListNotations.

Lemma spn_iff P N r q : 0 < P -> r < P -> (q < steps_per_node P N r <-> q * P + r < N).
Proof.
  intros HP Hr. unfold steps_per_node.
  pose proof (Nat.div_mod N P ltac:(lia)) as D. pose proof (Nat.mod_upper_bound N P ltac:(lia)) as M.
  destruct (Nat.ltb_spec r (N mod P)); nia.
Qed.

Section MP.
  Variable A : Type.
  Variable Src : Type.
  Variable mk_source : list A -> Src.
  Variable get_slice : Src -> nat -> list A * Src.
  Variable Sig : Type.
  Variable kinit : nat -> Sig.
  Variable kern : Sig -> nat -> list A -> Sig * list A.
  Variable L : nat.
  Variable beam0 : list A.
  Variable P : nat.
  Variable N : nat.
  Hypothesis HP : 0 < P.
  Hypothesis HL : 0 < L.

  Notation msg := (Mpi_Model.msg A).
  Notation tr := (Mpi_Model.tr A Src).
  Notation rin := (ref_in A Src mk_source get_slice Sig kinit kern L beam0 P).
  Notation rout := (ref_out A Src mk_source get_slice Sig kinit kern L beam0 P).
  Notation slices := (Mpi_Model.slices A Src get_slice).
  Notation run_kernel := (Mpi_Model.run_kernel A Sig kern).
  Notation spn := (steps_per_node P N).
  Notation rank_program := (Mpi_Model.rank_program A Src mk_source get_slice Sig kinit kern L beam0 P N).

  Lemma slices_length n : forall s i, length (slices s i n) = n.
  Proof. induction n as [|n IH]; intros s i; simpl; auto. destruct (get_slice s i); simpl; auto. Qed.
  Lemma run_kernel_length ins : forall s i, length (run_kernel s i ins) = length ins.
  Proof. induction ins as [|b r IH]; intros s i; simpl; auto. destruct (kern s i b); simpl; auto. Qed.
  Lemma rin_length g : length (rin g) = L.
  Proof.
    induction g as [|g IH]; cbn [ref_in]; [apply slices_length|].
    destruct (S g mod P =? 0); [apply slices_length|].
    rewrite app_length. simpl. pose proof (run_kernel_length (rin g) (kinit (g+1)) 0) as E.
    destruct (run_kernel (kinit (g + 1)) 0 (rin g)); simpl in *; lia.
  Qed.
  Lemma rout_length g : length (rout g) = L.
  Proof. unfold ref_out. rewrite run_kernel_length. apply rin_length. Qed.

  Section Rank.
  Variable r : nat.
  Hypothesis Hr : r < P.

  Definition g_of (q : nat) := q * P + r.
  Definition is_final (q : nat) : bool := g_of q + 1 =? N.

  Fixpoint loop_ev (q i : nat) (ins outs : list (list A)) : list (event msg) :=
    match ins, outs with
    | b :: ins', o :: outs' =>
      (if r =? 0 then [] else [ERecv (LLayer (g_of q - 1) i, b)]) ++
      (if is_final q || (r =? P - 1) || (i =? 0) then [] else [ESend (LLayer (g_of q) (i - 1), o)]) ++
      loop_ev q (i + 1) ins' outs'
    | _, _ => []
    end.
  Definition end_ev (q : nat) : list (event msg) :=
    if is_final q then []
    else if P =? 1 then []
    else if r =? P - 1 then [ESend (LBeam (g_of q), concat (rout (g_of q)))]
    else ESend (LLayer (g_of q) (L - 1), []) ::
         (if (r =? 0) && (g_of q + P <? N)
          then [ERecv (LBeam (g_of q + P - 1), concat (rout (g_of q + P - 1)))] else []).
  Definition step_ev (q : nat) : list (event msg) :=
    loop_ev q 0 (rin (g_of q)) (rout (g_of q)) ++ end_ev q.
  Definition rank_ev : list (event msg) := flat_map step_ev (seq 0 (spn r)).

  Notation layers := (Mpi_Model.layers A Src get_slice Sig kern P N r).
  Notation exec := (@exec msg tr).

  Lemma layers_exec (ins : list (list A)) : forall q i s (st : tr) ins0 outs0 k ev (Q : tr -> Prop),
    processed st = q ->
    (is_final q || (r =? P - 1) = false -> skip_first A Src st = (i =? 0)) ->
    (r = 0 -> slices (initial_source A Src st) i (length ins) = ins) ->
    (forall st', processed st' = q -> time A Src st' = time A Src st -> log st' = log st ->
        (is_final q || (r =? P - 1) = true -> final_drain st' = final_drain st ++ run_kernel s i ins) ->
        exists x, exec (k st' (ins0 ++ ins) (outs0 ++ run_kernel s i ins)) ev x /\ Q x) ->
    exists x, exec (layers (length ins) i s st ins0 outs0 k) (loop_ev q i ins (run_kernel s i ins) ++ ev) x /\ Q x.
  Proof.
    induction ins as [|b ins IH]; intros q i s st ins0 outs0 k ev Q Hq Hsk Hsrc Hk.
    - simpl. rewrite <- (app_nil_r ins0), <- (app_nil_r outs0). apply Hk; auto.
      intros _. simpl. now rewrite app_nil_r.
    - cbn [length Mpi_Model.layers Mpi_Model.run_kernel].
      destruct (kern s i b) as [s' o] eqn:Ek.
      assert (Hrk : run_kernel s i (b :: ins) = o :: run_kernel s' (i + 1) ins)
        by (cbn [Mpi_Model.run_kernel]; rewrite Ek; reflexivity).
      rewrite Hrk in Hk.
      cbn [loop_ev].
      (* after the pull *)
      assert (AfterPull : forall st1 : tr, processed st1 = q -> time A Src st1 = time A Src st -> log st1 = log st ->
         final_drain st1 = final_drain st -> skip_first A Src st1 = skip_first A Src st ->
         (r = 0 -> slices (initial_source A Src st1) (i + 1) (length ins) = ins) ->
         exists x, exec (push A Src P N r st1 i o (fun st2 => layers (length ins) (i + 1) s' st2 (ins0 ++ [b]) (outs0 ++ [o]) k))
           (((if is_final q || (r =? P - 1) || (i =? 0) then [] else [ESend (LLayer (g_of q) (i - 1), o)]) ++
            loop_ev q (i + 1) ins (run_kernel s' (i + 1) ins)) ++ ev) x /\ Q x).
      { intros st1 H1 H2 H3 H4 H5 H6. unfold push, final_step. rewrite H1.
        change (q * P + r + 1 =? N) with (is_final q).
        assert (Rec : forall st2 : tr, processed st2 = q -> time A Src st2 = time A Src st -> log st2 = log st ->
           (is_final q || (r =? P - 1) = true -> final_drain st2 = final_drain st ++ [o]) ->
           (is_final q || (r =? P - 1) = false -> skip_first A Src st2 = false) ->
           (r = 0 -> slices (initial_source A Src st2) (i + 1) (length ins) = ins) ->
           exists x, exec (layers (length ins) (i + 1) s' st2 (ins0 ++ [b]) (outs0 ++ [o]) k)
             (loop_ev q (i + 1) ins (run_kernel s' (i + 1) ins) ++ ev) x /\ Q x).
        { intros st2 K1 K2 K3 K4 K5 K6. apply IH; auto.
          - intros Hf. rewrite K5 by auto. symmetry. apply Nat.eqb_neq. lia.
          - intros st' M1 M2 M3 M4. rewrite <- !app_assoc. apply Hk; auto; try congruence.
            intros Hf. rewrite M4, K4 by auto. rewrite <- app_assoc. reflexivity. }
        destruct (is_final q || (r =? P - 1)) eqn:Ef.
        - simpl. apply Rec; simpl; auto; congruence.
        - rewrite H5, (Hsk eq_refl). destruct (i =? 0) eqn:Ei; cbn [orb].
          + simpl. apply Rec; simpl; auto; discriminate.
          + simpl. unfold cur. rewrite H1. change (q * P + r) with (g_of q).
            match goal with |- exists x, Ring.exec (Send _ (Mpi_Model.layers _ _ _ _ _ _ _ _ _ _ _ ?st2 _ _ _)) _ x /\ _ =>
              destruct (Rec st2) as (x & X1 & X2); simpl; auto; try discriminate end.
            exists x. split; [apply ExSend; exact X1|exact X2]. }
      unfold pull, first_step.
      destruct (r =? 0) eqn:Er.
      + rewrite orb_true_r.
        assert (r = 0) by (apply Nat.eqb_eq; auto). specialize (Hsrc H).
        cbn [length Mpi_Model.slices] in Hsrc.
        destruct (get_slice (initial_source A Src st) i) as [b' src'] eqn:Es.
        injection Hsrc as E1 E2. subst b'. rewrite Ek. simpl app at 2.
        apply AfterPull; simpl; auto.
      + cbn [orb andb]. simpl app at 2.
        destruct (AfterPull st) as (x & X1 & X2); auto; [intros ->; discriminate|].
        exists x. split; [apply ExRecv; cbn [snd]; rewrite Ek; exact X1|exact X2].
  Qed.

  Notation time_loop := (Mpi_Model.time_loop A Src mk_source get_slice Sig kinit kern L P N r).

  Definition rec_of (q : nat) : srec A := mkRec (g_of q + 1) (rin (g_of q)) (rout (g_of q)).

  (** What is observable of a rank when it returns. *)
  Definition rank_done (st : tr) : Prop :=
    log st = map rec_of (seq 0 (spn r)) /\
    processed st = spn r /\
    final_drain st = (if (0 <? spn r) && is_final (spn r - 1) then rout (N - 1) else []).

  Lemma g_of_S q : g_of (q + 1) = g_of q + P.
  Proof. unfold g_of. lia. Qed.

  Lemma rin_next_ring q : r = 0 -> 0 < q -> rin (g_of q) = slices (mk_source (concat (rout (g_of q - 1)))) 0 L.
  Proof.
    intros Hr0 Hq. unfold g_of, ref_out. rewrite Hr0, Nat.add_0_r.
    destruct (q * P) as [|g'] eqn:E; [nia|]. cbn [ref_in].
    assert (S g' mod P = 0) by (rewrite <- E; apply Nat.mod_mul; lia).
    rewrite H. cbn [Nat.eqb]. replace (S g' - 1) with g' by lia. reflexivity.
  Qed.

  Lemma rin_next_layer q : 0 < r -> rin (g_of q) = tl (rout (g_of q - 1)) ++ [[]].
  Proof.
    intros Hr0. unfold g_of, ref_out.
    destruct (q * P + r) as [|g'] eqn:E; [lia|]. cbn [ref_in].
    assert (S g' mod P = r).
    { rewrite <- E, Nat.add_comm, Nat.mod_add by lia. apply Nat.mod_small; lia. }
    rewrite H. destruct (Nat.eqb_spec r 0); [lia|]. replace (S g' - 1) with g' by lia. reflexivity.
  Qed.

  Lemma time_loop_exec n : forall q (st : tr),
    q + n = spn r -> processed st = q -> skip_first A Src st = true ->
    (r = 0 -> 0 < n -> slices (initial_source A Src st) 0 L = rin (g_of q)) ->
    final_drain st = (if (0 <? q) && is_final (q - 1) then rout (N - 1) else []) ->
    time A Src st = g_of q + 1 -> log st = map rec_of (seq 0 q) ->
    exists x, exec (time_loop n st) (flat_map step_ev (seq q n)) x /\ rank_done x.
  Proof.
    induction n as [|n IH]; intros q st Hn Hq Hsk Hsrc Hdr Ht Hlog.
    - simpl. exists st. split; [constructor|]. replace (spn r) with q by lia.
      unfold rank_done. replace (spn r) with q by lia. repeat split; auto.
    - assert (Hqn : g_of q < N) by (unfold g_of; apply spn_iff; auto; lia).
      assert (Hdr0 : final_drain st = []).
      { rewrite Hdr. destruct (Nat.ltb_spec 0 q); cbn [andb]; auto.
        unfold is_final, g_of in *. destruct (Nat.eqb_spec ((q - 1) * P + r + 1) N); auto. nia. }
      (* state after the whole step, before looping *)
      assert (Hlast : last_step A Src P N r st = negb (g_of q + P <? N)).
      { unfold last_step. rewrite Hq. 
        assert (HS := spn_iff P N r (q + 1) HP Hr). unfold g_of in *.
        destruct (Nat.eqb_spec (q + 1) (spn r)); destruct (Nat.ltb_spec (q * P + r + P) N); cbn [negb]; auto; exfalso; nia. }
      assert (IHapp : forall p sk src dr t lg, p = q + 1 -> sk = true ->
          (r = 0 -> 0 < n -> slices src 0 L = rin (g_of (q+1))) ->
          dr = (if is_final q then rout (N - 1) else []) ->
          t = g_of q + 1 + P -> lg = map rec_of (seq 0 (q + 1)) ->
          exists x, exec (time_loop n (mkTr A Src p sk src dr t lg)) (flat_map step_ev (seq (S q) n)) x /\ rank_done x).
      { intros p sk src dr t lg A1 A2 A3 A4 A5 A6. replace (S q) with (q + 1) by lia. apply IH; simpl; auto; try lia.
        - rewrite A4. replace (q + 1 - 1) with q by lia.
          destruct (Nat.ltb_spec 0 (q+1)); [reflexivity|lia].
        - rewrite A5, g_of_S. lia. }
      cbn [seq flat_map]. cbn [Mpi_Model.time_loop].
      pose proof (rin_length (g_of q)) as HLen.
      (* determine the result by analysing next_step *)
      assert (NS : forall st1 : tr, processed st1 = q -> time A Src st1 = g_of q + 1 ->
          log st1 = map rec_of (seq 0 q) ->
          (is_final q || (r =? P - 1) = true -> final_drain st1 = rout (g_of q)) ->
          exists x, exec (next_step A Src mk_source L P N r
             (mkTr A Src (processed st1) (skip_first A Src st1) (initial_source A Src st1) (final_drain st1)
                   (time A Src st1) (log st1 ++ [mkRec (time A Src st1) (rin (g_of q)) (rout (g_of q))]))
             (fun st2 => time_loop n (mkTr A Src (processed st2) (skip_first A Src st2) (initial_source A Src st2) (final_drain st2)
                   (time A Src st2 + P) (log st2))))
             (end_ev q ++ flat_map step_ev (seq (S q) n)) x /\ rank_done x).
      { intros st1 B1 B2 B3 B4.
        assert (HlogS : log st1 ++ [mkRec (time A Src st1) (rin (g_of q)) (rout (g_of q))] = map rec_of (seq 0 (q+1))).
        { rewrite B3, B2. replace (q + 1) with (S q) by lia. rewrite seq_S, map_app. reflexivity. }
        unfold next_step, end_ev.
        assert (F : final_step A Src P N r (mkTr A Src (processed st1) (skip_first A Src st1) (initial_source A Src st1) (final_drain st1)
                   (time A Src st1) (log st1 ++ [mkRec (time A Src st1) (rin (g_of q)) (rout (g_of q))])) = is_final q).
        { unfold final_step, is_final, g_of. simpl. now rewrite B1. }
        assert (La : last_step A Src P N r (mkTr A Src (processed st1) (skip_first A Src st1) (initial_source A Src st1) (final_drain st1)
                   (time A Src st1) (log st1 ++ [mkRec (time A Src st1) (rin (g_of q)) (rout (g_of q))])) = negb (g_of q + P <? N)).
        { rewrite <- Hlast. unfold last_step. simpl. now rewrite B1, Hq. }
        rewrite F, La. clear F La.
        cbn [processed skip_first initial_source final_drain time log].
        assert (Cur : cur A Src P r (mkTr A Src (processed st1) (skip_first A Src st1) (initial_source A Src st1) (final_drain st1)
                   (time A Src st1) (log st1 ++ [mkRec (time A Src st1) (rin (g_of q)) (rout (g_of q))])) = g_of q).
        { unfold cur, g_of; cbn [processed]. now rewrite B1. }
        rewrite Cur. unfold drained. cbn [final_drain].
        destruct (is_final q) eqn:Ef.
        { cbn [orb] in B4. specialize (B4 eq_refl). rewrite app_nil_l. apply IHapp; auto; try congruence; try lia.
          - intros Hr0 Hn0. exfalso. unfold is_final in Ef.
            assert (H : q + 1 < spn r) by lia. apply spn_iff in H; auto. unfold g_of in *. lia.
          - rewrite B4. f_equal. unfold is_final in Ef. lia. }
        cbn [orb] in B4.
        destruct (P =? 1) eqn:EP.
        { assert (Hr0 : r = 0) by lia. assert (Hlst : (r =? P - 1) = true) by lia.
          specialize (B4 Hlst). rewrite app_nil_l. apply IHapp; auto; try congruence; try lia.
          intros _ Hn0. rewrite B4.
          rewrite rin_next_ring by lia. do 4 f_equal. rewrite g_of_S. lia. }
        destruct (r =? P - 1) eqn:Elast.
        { specialize (B4 eq_refl). rewrite B4.
          edestruct IHapp as (x & X1 & X2); [| | | | | |exists x; split; [apply ExSend; exact X1|exact X2]];
            auto; try congruence; try lia. }
        destruct (r =? 0) eqn:Er0; cbn [andb].
        - rewrite negb_involutive. destruct (g_of q + P <? N) eqn:Elt.
          + edestruct IHapp as (x & X1 & X2);
              [| | | | | |exists x; split; [apply ExSend; apply ExRecv; cbn [snd]; exact X1|exact X2]];
              auto; try congruence; try lia.
            intros _ _. rewrite rin_next_ring by lia. now rewrite g_of_S.
          + edestruct IHapp as (x & X1 & X2);
              [| | | | | |exists x; split; [apply ExSend; exact X1|exact X2]];
              auto; try congruence; try lia.
            intros _ Hn0. exfalso.
            assert (H : q + 1 < spn r) by lia. apply spn_iff in H; auto. unfold g_of in *. lia.
        - edestruct IHapp as (x & X1 & X2);
              [| | | | | |exists x; split; [apply ExSend; exact X1|exact X2]];
              auto; try congruence; try lia. }
      pose proof (layers_exec (rin (g_of q)) q 0 (kinit (time A Src st)) st [] []) as LE.
      rewrite HLen in LE. rewrite Ht in LE |- *.
      unfold step_ev at 1. rewrite <- app_assoc.
      apply LE; auto.
      + intros Hr0. apply Hsrc; auto; lia.
      + intros st' C1 C2 C3 C4. rewrite !app_nil_l.
        apply NS; auto; try congruence.
        intros Hf. rewrite (C4 Hf), Hdr0. reflexivity.
  Qed.

  Lemma rank_exec : exists x, exec (rank_program r) rank_ev x /\ rank_done x.
  Proof.
    unfold Mpi_Model.rank_program, rank_ev. apply time_loop_exec; auto.
    intros Hr0 _. unfold g_of, init_tr. rewrite Hr0. reflexivity.
  Qed.
  End Rank.

  (** *** Matching of sends and receives *)
  Fixpoint number (g i : nat) (l : list (list A)) : list msg :=
    match l with [] => [] | x :: l' => (LLayer g i, x) :: number g (i + 1) l' end.

  Lemma number_app g l1 : forall i l2, number g i (l1 ++ l2) = number g i l1 ++ number g (i + length l1) l2.
  Proof.
    induction l1 as [|x l1 IH]; intros i l2; cbn [number app length].
    - now rewrite Nat.add_0_r.
    - rewrite IH. do 3 f_equal. lia.
  Qed.

  Lemma recvs_app' (a b : list (event msg)) : recvs (a ++ b) = recvs a ++ recvs b.
  Proof. apply flat_map_app. Qed.
  Lemma sends_app' (a b : list (event msg)) : sends (a ++ b) = sends a ++ sends b.
  Proof. apply flat_map_app. Qed.

  Lemma recvs_loop_pos r q : 0 < r -> forall ins outs i, length ins = length outs ->
    recvs (loop_ev r q i ins outs) = number (g_of r q - 1) i ins.
  Proof.
    intros Hr. induction ins as [|b ins IH]; intros [|o outs] i Hl; simpl in Hl; try discriminate; auto.
    cbn [loop_ev number]. rewrite !recvs_app'. rewrite IH by lia.
    destruct (Nat.eqb_spec r 0); [lia|].
    destruct (is_final r q || (r =? P - 1) || (i =? 0)); reflexivity.
  Qed.
  Lemma recvs_loop_0 q : forall ins outs i, recvs (loop_ev 0 q i ins outs) = [].
  Proof.
    induction ins as [|b ins IH]; intros [|o outs] i; auto.
    cbn [loop_ev]. rewrite !recvs_app', IH.
    destruct (is_final 0 q || (0 =? P - 1) || (i =? 0)); reflexivity.
  Qed.
  Lemma sends_loop_none r q : is_final r q || (r =? P - 1) = true -> forall ins outs i, sends (loop_ev r q i ins outs) = [].
  Proof.
    intros H. induction ins as [|b ins IH]; intros [|o outs] i; auto.
    cbn [loop_ev]. rewrite !sends_app', IH, H. cbn [orb]. destruct (r =? 0); reflexivity.
  Qed.
  Lemma sends_loop_pos r q : is_final r q || (r =? P - 1) = false -> forall ins outs i,
    0 < i -> length ins = length outs -> sends (loop_ev r q i ins outs) = number (g_of r q) (i - 1) outs.
  Proof.
    intros H. induction ins as [|b ins IH]; intros [|o outs] i Hi Hl; simpl in Hl; try discriminate; auto.
    cbn [loop_ev number]. rewrite !sends_app', IH by lia. rewrite H. cbn [orb].
    destruct (Nat.eqb_spec i 0); [lia|]. replace (i + 1 - 1) with (i - 1 + 1) by lia.
    destruct (r =? 0); reflexivity.
  Qed.
  Lemma sends_loop r q : is_final r q || (r =? P - 1) = false -> forall ins outs,
    length ins = length outs -> sends (loop_ev r q 0 ins outs) = number (g_of r q) 0 (tl outs).
  Proof.
    intros H [|b ins] [|o outs] Hl; simpl in Hl; try discriminate; auto.
    cbn [loop_ev tl]. rewrite !sends_app', sends_loop_pos by (auto; lia). rewrite orb_true_r. simpl.
    destruct (r =? 0); reflexivity.
  Qed.

  Definition lm (g : nat) : list msg := number g 0 (tl (rout g) ++ [[]]).

  Lemma sends_step r q : r + 1 < P -> sends (step_ev r q) = if is_final r q then [] else lm (g_of r q).
  Proof.
    intros Hr. unfold step_ev, end_ev. rewrite sends_app'.
    destruct (is_final r q) eqn:Ef.
    - rewrite sends_loop_none by (now rewrite Ef). reflexivity.
    - destruct (Nat.eqb_spec P 1); [lia|]. destruct (Nat.eqb_spec r (P - 1)) as [|Hn]; [lia|].
      rewrite sends_loop.
      + unfold lm. rewrite number_app. f_equal.
        assert (E : length (tl (rout (g_of r q))) = L - 1).
        { pose proof (rout_length (g_of r q)). destruct (rout (g_of r q)); simpl in *; lia. }
        rewrite E. simpl. destruct ((r =? 0) && (g_of r q + P <? N)); reflexivity.
      + rewrite Ef. apply Nat.eqb_neq. exact Hn.
      + rewrite rin_length, rout_length. reflexivity.
  Qed.
  Lemma sends_step_last q : 1 < P -> sends (step_ev (P - 1) q) =
    if q * P + P <? N then [(LBeam (q * P + P - 1), concat (rout (q * P + P - 1)))] else
      (if is_final (P - 1) q then [] else [(LBeam (q * P + P - 1), concat (rout (q * P + P - 1)))]).
  Proof.
    intros HP1. unfold step_ev, end_ev. rewrite sends_app', sends_loop_none by (rewrite Nat.eqb_refl; apply orb_true_r).
    assert (G : g_of (P - 1) q = q * P + P - 1) by (unfold g_of; lia).
    unfold is_final. rewrite G.
    destruct (Nat.eqb_spec P 1); [lia|]. rewrite Nat.eqb_refl.
    destruct (Nat.ltb_spec (q * P + P) N); destruct (Nat.eqb_spec (q * P + P - 1 + 1) N); try lia; reflexivity.
  Qed.
  Lemma recvs_step_0 q : 1 < P -> recvs (step_ev 0 q) =
    if q * P + P <? N then [(LBeam (q * P + P - 1), concat (rout (q * P + P - 1)))] else [].
  Proof.
    intros HP1. unfold step_ev, end_ev. rewrite recvs_app', recvs_loop_0.
    assert (G : g_of 0 q = q * P) by (unfold g_of; lia).
    unfold is_final. rewrite G.
    destruct (Nat.eqb_spec P 1); [lia|]. destruct (Nat.eqb_spec 0 (P-1)); [lia|]. cbn [Nat.eqb andb].
    destruct (Nat.ltb_spec (q * P + P) N); destruct (Nat.eqb_spec (q * P + 1) N); try lia; reflexivity.
  Qed.
  Lemma recvs_step_pos r q : 0 < r -> r < P -> recvs (step_ev r q) = lm (g_of r q - 1).
  Proof.
    intros H0 Hr. unfold step_ev, end_ev. rewrite recvs_app', recvs_loop_pos by (rewrite ?rin_length, ?rout_length; auto).
    rewrite rin_next_layer by auto.
    destruct (is_final r q); [apply app_nil_r|]. destruct (P =? 1); [apply app_nil_r|].
    destruct (r =? P - 1); [apply app_nil_r|]. destruct (Nat.eqb_spec r 0); [lia|]. apply app_nil_r.
  Qed.

  Lemma sends_flat (f : nat -> list (event msg)) l : sends (flat_map f l) = flat_map (fun q => sends (f q)) l.
  Proof. induction l as [|x l IH]; simpl; auto. now rewrite sends_app', IH. Qed.
  Lemma recvs_flat (f : nat -> list (event msg)) l : recvs (flat_map f l) = flat_map (fun q => recvs (f q)) l.
  Proof. induction l as [|x l IH]; simpl; auto. now rewrite recvs_app', IH. Qed.

  Lemma flat_map_range {X} (f h : nat -> list X) n K : n <= K ->
    (forall q, q < n -> f q = h q) -> (forall q, n <= q -> h q = []) ->
    flat_map f (seq 0 n) = flat_map h (seq 0 K).
  Proof.
    intros HK H1 H2. replace K with (n + (K - n)) by lia. rewrite seq_app, flat_map_app.
    replace (flat_map h (seq (0 + n) (K - n))) with (@nil X).
    - rewrite app_nil_r. rewrite !flat_map_concat_map. f_equal. apply map_ext_in.
      intros q Hq. apply in_seq in Hq. apply H1. lia.
    - symmetry. generalize (K - n) as m. intros m.
      assert (G : forall m s, n <= s -> flat_map h (seq s m) = []).
      { induction m0 as [|m0 IH]; intros s Hs; simpl; auto. rewrite H2, IH; auto. }
      apply G. lia.
  Qed.

  Lemma spn_le r : spn r <= N \/ P = 0.
  Proof. destruct (Nat.eq_dec P 0); [right; auto|left].
    unfold steps_per_node. pose proof (Nat.div_mod N P ltac:(lia)). 
    destruct (Nat.ltb_spec r (N mod P)); nia. Qed.

  Lemma ring_match r : r < P -> sends (rank_ev r) = recvs (rank_ev (succ_rank P r)).
  Proof.
    intros Hr. unfold rank_ev. rewrite sends_flat, recvs_flat.
    assert (HN : forall r', spn r' <= N) by (intros r'; destruct (spn_le r'); lia).
    destruct (Nat.eq_dec (r + 1) P) as [Elast|Hlast].
    - assert (Hs : succ_rank P r = 0) by (unfold succ_rank; rewrite Elast; apply Nat.mod_same; lia).
      rewrite Hs. replace r with (P - 1) by lia.
      destruct (Nat.eq_dec P 1) as [EP|NP].
      + (* a single process *)
        assert (Z1 : forall q, sends (step_ev (P-1) q) = []).
        { intros q. unfold step_ev, end_ev. rewrite sends_app', sends_loop_none by (rewrite Nat.eqb_refl; apply orb_true_r).
          rewrite EP. cbn [Nat.eqb]. now destruct (is_final (1 - 1) q). }
        assert (Z2 : forall q, recvs (step_ev 0 q) = []).
        { intros q. unfold step_ev, end_ev. rewrite recvs_app', recvs_loop_0.
          rewrite EP. cbn [Nat.eqb]. now destruct (is_final 0 q). }
        rewrite (flat_map_range _ (fun _ => []) (spn (P-1)) N), (flat_map_range _ (fun _ => []) (spn 0) N); auto.
      + set (h := fun q => if q * P + P <? N then [(LBeam (q * P + P - 1), concat (rout (q * P + P - 1)))] else []).
        rewrite (flat_map_range _ h (spn (P-1)) N), (flat_map_range _ h (spn 0) N); auto.
        * intros q _. apply recvs_step_0. lia.
        * intros q Hq. unfold h. destruct (Nat.ltb_spec (q * P + P) N); auto.
          assert (q < spn 0) by (apply spn_iff; lia). lia.
        * intros q Hq. rewrite sends_step_last by lia. unfold h. destruct (Nat.ltb_spec (q * P + P) N); auto.
          apply spn_iff in Hq; try lia. unfold is_final, g_of.
          destruct (Nat.eqb_spec (q * P + (P - 1) + 1) N); [reflexivity|lia].
        * intros q Hq. unfold h. destruct (Nat.ltb_spec (q * P + P) N); auto.
          assert (q < spn (P - 1)) by (apply spn_iff; lia). lia.
    - assert (Hs : succ_rank P r = r + 1) by (unfold succ_rank; apply Nat.mod_small; lia).
      rewrite Hs.
      set (h := fun q => if q * P + r + 1 <? N then lm (q * P + r) else []).
      rewrite (flat_map_range _ h (spn r) N), (flat_map_range _ h (spn (r+1)) N); auto.
      + intros q Hq. rewrite recvs_step_pos by lia. unfold h, g_of. apply spn_iff in Hq; try lia.
        destruct (Nat.ltb_spec (q * P + r + 1) N); [|lia]. f_equal. lia.
      + intros q Hq. unfold h. destruct (Nat.ltb_spec (q * P + r + 1) N); auto.
        assert (q < spn (r + 1)) by (apply spn_iff; lia). lia.
      + intros q Hq. rewrite sends_step by lia. unfold h, is_final, g_of. apply spn_iff in Hq; try lia.
        destruct (Nat.eqb_spec (q * P + r + 1) N); destruct (Nat.ltb_spec (q * P + r + 1) N); try lia; reflexivity.
      + intros q Hq. unfold h. destruct (Nat.ltb_spec (q * P + r + 1) N); auto.
        assert (q < spn r) by (apply spn_iff; lia). lia.
  Qed.

  (** *** Timestamps *)
  Definition M := 3 * P + 2 * L + 1.
  Definition tsl (l : label) : nat :=
    match l with
    | LLayer g i => M * (g / P) + 3 * (g mod P) + 2 * i
    | LBeam g => M * (g / P) + M - 1
    end.
  Definition tsm (m : msg) : nat := tsl (fst m).
  Notation tse := (fun e : event msg => tsm (ev_msg e)).

  Definition sorted_in (lo hi : nat) (l : list nat) : Prop :=
    StronglySorted lt l /\ Forall (fun x => lo <= x < hi) l.
  Lemma sorted_in_app lo m1 m2 hi a b : sorted_in lo m1 a -> sorted_in m2 hi b -> m1 <= m2 ->
    lo <= m2 -> m1 <= hi -> sorted_in lo hi (a ++ b).
  Proof.
    intros [A1 A2] [B1 B2] H1 H2 H3. split.
    - induction A1 as [|x l Hl IH Hx]; simpl; auto. inversion A2; subst. constructor; auto.
      apply Forall_app. split; auto. rewrite Forall_forall in *. intros y Hy. specialize (B2 y Hy). lia.
    - apply Forall_app. split.
      + eapply Forall_impl; [|exact A2]. simpl. intros; lia.
      + eapply Forall_impl; [|exact B2]. simpl. intros; lia.
  Qed.
  Lemma sorted_in_nil lo hi : sorted_in lo hi []. Proof. split; constructor. Qed.
  Lemma sorted_in_one lo hi x : lo <= x < hi -> sorted_in lo hi [x].
  Proof. intros H. split; repeat constructor; lia. Qed.
  Lemma sorted_in_weak lo hi lo' hi' l : sorted_in lo hi l -> lo' <= lo -> hi <= hi' -> sorted_in lo' hi' l.
  Proof. intros [A1 A2] H1 H2. split; auto. eapply Forall_impl; [|exact A2]. simpl. intros; lia. Qed.

  Lemma div_g q r : r < P -> (q * P + r) / P = q.
  Proof. intros H. rewrite Nat.div_add_l, Nat.div_small by lia. lia. Qed.
  Lemma mod_g q r : r < P -> (q * P + r) mod P = r.
  Proof. intros H. rewrite Nat.add_comm, Nat.mod_add by lia. now apply Nat.mod_small. Qed.

  Lemma ts_layer q r i b : r < P -> tsm (LLayer (g_of r q) i, b) = M * q + 3 * r + 2 * i.
  Proof. intros H. unfold tsm, tsl, g_of; simpl fst. cbv iota. now rewrite div_g, mod_g. Qed.
  Lemma ts_layer_prev q r i b : 0 < r -> r < P -> tsm (LLayer (g_of r q - 1) i, b) = M * q + 3 * (r - 1) + 2 * i.
  Proof.
    intros H0 H. replace (g_of r q - 1) with (g_of (r-1) q) by (unfold g_of; lia). apply ts_layer. lia.
  Qed.

  (** all loop events from iteration [i]: between 3r+2i-3 and 3r+2(i+n)-3 (shifted by 3 to stay in nat) *)
  Lemma loop_sorted r q : r < P -> forall ins outs i, length ins = length outs ->
    StronglySorted lt (map tse (loop_ev r q i ins outs)) /\
    Forall (fun x => M * q + 3 * r + 2 * i <= x + 3 /\ M * q <= x /\ x + 3 < M * q + 3 * r + 2 * (i + length ins))
           (map tse (loop_ev r q i ins outs)).
  Proof.
    intros Hr. induction ins as [|b ins IH]; intros [|o outs] i Hl; simpl in Hl; try discriminate.
    - simpl. split; constructor.
    - cbn [loop_ev]. destruct (IH outs (i + 1) ltac:(lia)) as [S1 F1].
      assert (F1' : Forall (fun x => M * q + 3 * r + 2 * i <= x + 3 /\ M * q <= x /\
              x + 3 < M * q + 3 * r + 2 * (i + length (b :: ins))) (map tse (loop_ev r q (i+1) ins outs))).
      { eapply Forall_impl; [|exact F1]. simpl. intros; lia. }
      set (B := if is_final r q || (r =? P - 1) || (i =? 0) then [] else [ESend (LLayer (g_of r q) (i - 1), o)]).
      assert (S2 : StronglySorted lt (map tse (B ++ loop_ev r q (i+1) ins outs)) /\
                   Forall (fun x => M * q + 3 * r + 2 * i <= x + 3 /\ M * q <= x /\
              x + 3 < M * q + 3 * r + 2 * (i + length (b :: ins))) (map tse (B ++ loop_ev r q (i+1) ins outs)) /\
                   Forall (fun x => M * q + 3 * r + 2 * i <= x + 2) (map tse (B ++ loop_ev r q (i+1) ins outs))).
      { unfold B. destruct (is_final r q || (r =? P - 1) || (i =? 0)) eqn:E; cbn [app map ev_msg].
        - repeat split; auto. eapply Forall_impl; [|exact F1]. simpl. intros; lia.
        - rewrite ts_layer by auto. apply orb_false_iff in E. destruct E as [_ E]. apply Nat.eqb_neq in E.
          repeat split; constructor; auto; simpl length; try lia.
          + eapply Forall_impl; [|exact F1]. simpl. intros; lia.
          + eapply Forall_impl; [|exact F1]. simpl. intros; lia. }
      destruct S2 as (S2 & F2 & F3).
      destruct (Nat.eqb_spec r 0) as [->|Hr0]; cbn [app]; [split; auto|].
      cbn [map ev_msg]. rewrite ts_layer_prev by lia. split; constructor; auto.
      + eapply Forall_impl; [|exact F3]. simpl. intros; lia.
      + simpl length. lia.
  Qed.

  Lemma step_sorted r q : r < P -> sorted_in (M * q) (M * q + M) (map tse (step_ev r q)).
  Proof.
    intros Hr. unfold step_ev. rewrite map_app.
    destruct (loop_sorted r q Hr (rin (g_of r q)) (rout (g_of r q)) 0) as [S1 F1].
    { rewrite rin_length, rout_length; auto. }
    rewrite rin_length in F1. simpl plus in F1.
    apply sorted_in_app with (m1 := M * q + 3 * r + 2 * L - 2) (m2 := M * q + 3 * r + 2 * L - 2); unfold M in *; try lia.
    - split; auto. eapply Forall_impl; [|exact F1]. simpl. intros; lia.
    - unfold end_ev. destruct (is_final r q); [apply sorted_in_nil|]. destruct (P =? 1); [apply sorted_in_nil|].
      destruct (Nat.eqb_spec r (P - 1)) as [->|].
      + apply sorted_in_one. cbn [ev_msg]. unfold tsm, tsl, g_of; simpl fst. cbv iota.
        rewrite div_g by lia. unfold M. lia.
      + change (map tse (?a :: ?l)) with (tse a :: map tse l).
        change (?a :: ?l) with ([a] ++ l) at 1.
        apply sorted_in_app with (m1 := M * q + 3 * r + 2 * L - 1) (m2 := M * q + 3 * r + 2 * L - 1); unfold M in *; try lia.
        * apply sorted_in_one. cbn [ev_msg]. rewrite ts_layer by auto. unfold M. lia.
        * destruct ((r =? 0) && (g_of r q + P <? N)) eqn:E; [|apply sorted_in_nil].
          apply andb_prop in E. destruct E as [E _]. apply Nat.eqb_eq in E.
          apply sorted_in_one. cbn [ev_msg]. unfold tsm, tsl; simpl fst. cbv iota.
          replace (g_of r q + P - 1) with (q * P + (P - 1)) by (unfold g_of; lia).
          rewrite div_g by lia. unfold M. lia.
  Qed.

  Lemma rank_sorted r : r < P -> StronglySorted lt (map tse (rank_ev r)).
  Proof.
    intros Hr. unfold rank_ev.
    assert (G : forall n s, sorted_in (M * s) (M * (s + n)) (map tse (flat_map (step_ev r) (seq s n)))).
    { induction n as [|n IH]; intros s; simpl; [apply sorted_in_nil|]. rewrite map_app.
      apply sorted_in_app with (m1 := M * s + M) (m2 := M * (S s)).
      - now apply step_sorted.
      - eapply sorted_in_weak; [apply IH|lia|]. nia.
      - lia.
      - lia.
      - nia. }
    apply (G (spn r) 0).
  Qed.

  (** *** Feeding a process its reference events *)
  Fixpoint feed (d : tr) (ev : list (event msg)) (p : Ring.proc msg tr) : tr :=
    match p with
    | Ret x => x
    | Send _ k => match ev with ESend _ :: ev' => feed d ev' k | _ => d end
    | Recv k => match ev with ERecv m :: ev' => feed d ev' (k m) | _ => d end
    end.
  Lemma feed_exec d p ev x : Ring.exec p ev x -> feed d ev p = x.
  Proof. induction 1; simpl; auto. Qed.
  Definition rank_result (r : nat) : tr :=
    feed (init_tr A Src mk_source beam0 r) (rank_ev r) (rank_program r).
  Lemma rank_result_exec r : r < P -> Ring.exec (rank_program r) (rank_ev r) (rank_result r) /\ rank_done r (rank_result r).
  Proof.
    intros Hr. destruct (rank_exec r Hr) as (x & X1 & X2).
    unfold rank_result. rewrite (feed_exec _ _ _ _ X1). auto.
  Qed.

  (** *** Main theorems *)
  Notation init := (init_conf msg tr rank_program).
  Lemma mpi_progress n c : steps msg tr P n init c -> finished msg tr P c \/ exists c', sync_step msg tr P c c'.
  Proof.
    apply ring_progress with (evs := rank_ev) (result := rank_result) (ts := tsm); auto.
    - intros r Hr. apply rank_result_exec; auto.
    - apply ring_match.
    - apply rank_sorted.
  Qed.
  Lemma mpi_bounded n c : steps msg tr P n init c -> n <= total P (fun r => 2 * length (rank_ev r)).
  Proof.
    apply ring_bounded with (result := rank_result) (ts := tsm); auto.
    - intros r Hr. apply rank_result_exec; auto.
    - apply ring_match.
    - apply rank_sorted.
  Qed.
  Lemma mpi_results n c r x : steps msg tr P n init c -> r < P -> pr c r = Ret x -> rank_done r x.
  Proof.
    intros Hs Hr E.
    assert (x = rank_result r).
    { refine (ring_result msg tr P HP rank_program rank_ev rank_result tsm _ _ _ n c Hs r x Hr E).
      - intros r' Hr'. apply rank_result_exec; auto.
      - apply ring_match.
      - apply rank_sorted. }
    subst. now apply rank_result_exec.
  Qed.
End MP.
