From Coq Require Import List Arith Lia ZArith Sorting.Sorted.
From Coq Require Import ZifyBool ZifyNat.
From Verif Require Import Ring.
Import ListNotations.
Ltac Zify.zify_post_hook ::= Z.div_mod_to_equations.

Section RP.
  Variable msg : Type.
  Variable res : Type.
  Variable P : nat.
  Hypothesis HP : 0 < P.
  Notation proc := (proc msg res).
  Notation conf := (conf msg res).
  Notation succ := (succ_rank P).
  Notation pred := (pred_rank P).

  Lemma succ_lt r : succ r < P. Proof. apply Nat.mod_upper_bound. lia. Qed.
  Lemma pred_lt r : pred r < P. Proof. apply Nat.mod_upper_bound. lia. Qed.
  Lemma succ_pred r : r < P -> succ (pred r) = r.
  Proof.
    intros H. unfold succ_rank, pred_rank. rewrite Nat.add_mod_idemp_l by lia.
    replace (r + P - 1 + 1) with (r + 1 * P) by lia.
    rewrite Nat.mod_add by lia. now apply Nat.mod_small.
  Qed.
  Lemma pred_succ r : r < P -> pred (succ r) = r.
  Proof.
    intros H. unfold succ_rank, pred_rank.
    destruct (Nat.eq_dec (r + 1) P) as [E|E].
    - rewrite E, Nat.mod_same by lia. rewrite Nat.mod_small; lia.
    - rewrite (Nat.mod_small (r+1)) by lia. replace (r + 1 + P - 1) with (r + 1 * P) by lia.
      rewrite Nat.mod_add by lia. now apply Nat.mod_small.
  Qed.
  Lemma pred_inj a b : a < P -> b < P -> pred a = pred b -> a = b.
  Proof. intros Ha Hb E. rewrite <- (succ_pred a Ha), <- (succ_pred b Hb). now rewrite E. Qed.

  (** Reference events and results of every rank. *)
  Variable prog : nat -> proc.
  Variable evs : nat -> list (event msg).
  Variable result : nat -> res.
  Variable ts : msg -> nat.
  Hypothesis Hexec : forall r, r < P -> exec (prog r) (evs r) (result r).
  Hypothesis Hmatch : forall r, r < P -> sends (evs r) = recvs (evs (succ r)).
  Hypothesis Hts : forall r, r < P -> StronglySorted lt (map (fun e => ts (ev_msg e)) (evs r)).

  (** Invariant: rank r has done [done r], has [todo r] left. *)
  Record inv (c : conf) (dn td : nat -> list (event msg)) : Prop := {
    iv_split : forall r, r < P -> dn r ++ td r = evs r;
    iv_exec : forall r, r < P -> exec (pr c r) (td r) (result r);
    (* messages sent so far (including one posted) = received ones ++ channel *)
    iv_chan : forall r, r < P ->
       sends (dn r) ++ (match td r with ESend m :: _ => if posted c r then [m] else [] | _ => [] end)
       = recvs (dn (succ r)) ++ chan c r;
    iv_posted : forall r, r < P -> posted c r = true -> exists m l, td r = ESend m :: l
  }.

  Lemma sends_app (a b : list (event msg)) : sends (a ++ b) = sends a ++ sends b.
  Proof. apply flat_map_app. Qed.
  Lemma recvs_app (a b : list (event msg)) : recvs (a ++ b) = recvs a ++ recvs b.
  Proof. apply flat_map_app. Qed.

  Lemma inv_init : inv (init_conf _ _ prog) (fun _ => []) evs.
  Proof.
    constructor; simpl; auto.
    - intros r Hr. destruct (evs r) as [|[m|m] l]; reflexivity.
    - intros r Hr H; discriminate.
  Qed.

  Lemma upd_same {X} (f : nat -> X) i x : upd f i x i = x.
  Proof. unfold upd. now rewrite Nat.eqb_refl. Qed.
  Lemma upd_other {X} (f : nat -> X) i j x : j <> i -> upd f i x j = f j.
  Proof. intros H. unfold upd. apply Nat.eqb_neq in H. now rewrite H. Qed.

  Lemma exec_send_inv m k ev x : exec (@Send msg res m k) ev x -> exists l, ev = ESend m :: l /\ exec k l x.
  Proof. intros H; inversion H; subst; eauto. Qed.
  Lemma exec_recv_inv k ev x : exec (@Recv msg res k) ev x -> exists m l, ev = ERecv m :: l /\ exec (k m) l x.
  Proof. intros H; inversion H; subst; eauto. Qed.

  (** Termination: each rank's event costs at most two transitions. *)
  Definition weight (td : list (event msg)) (po : bool) : nat :=
    2 * length td - (if po then 1 else 0).
  Fixpoint total (n : nat) (f : nat -> nat) : nat :=
    match n with O => 0 | S k => total k f + f k end.

  Lemma total_ext n f g : (forall i, i < n -> f i = g i) -> total n f = total n g.
  Proof. induction n as [|n IH]; intros H; simpl; auto. rewrite IH, H; auto. Qed.
  Lemma total_dec n f g r : r < n -> (forall i, i < n -> i <> r -> f i = g i) -> g r < f r -> total n g < total n f.
  Proof.
    induction n as [|n IH]; intros Hr He Hd; [lia|]. simpl.
    destruct (Nat.eq_dec r n) as [->|].
    - rewrite (total_ext n f g); [lia|]. intros; apply He; lia.
    - assert (total n g < total n f). { apply IH; auto; try lia. }
      rewrite (He n); lia.
  Qed.

  Definition meas (c : conf) (td : nat -> list (event msg)) := total P (fun r => weight (td r) (posted c r)).

  (** The head of the channel is what the receiver's reference trace expects. *)
  Lemma inv_step c c' dn td : inv c dn td -> step _ _ P c c' ->
    exists dn' td', inv c' dn' td' /\ meas c' td' < meas c td.
  Proof.
    intros I H. destruct I as [Is Ie Ic Ip].
    assert (Adv : forall c r m k, r < P -> (forall r, r < P -> exec (pr c r) (td r) (result r)) ->
        (forall r, r < P ->
         sends (dn r) ++ (match td r with ESend m :: _ => if posted c r then [m] else [] | _ => [] end)
           = recvs (dn (succ r)) ++ chan c r) ->
        (forall r, r < P -> posted c r = true -> exists m l, td r = ESend m :: l) ->
        pr c r = Send m k -> posted c r = true ->
        exists dn' td', inv (mkConf _ _ (upd (pr c) r k) (upd (posted c) r false) (chan c)) dn' td' /\
          meas (mkConf _ _ (upd (pr c) r k) (upd (posted c) r false) (chan c)) td' < meas c td).
    { clear c c' H Ie Ic Ip. intros c r m k Hr Ie Ic Ip Hpr Hpo.
      pose proof (Ie r Hr) as E. rewrite Hpr in E. apply exec_send_inv in E. destruct E as (l & Htd & E).
      exists (upd dn r (dn r ++ [ESend m])), (upd td r l).
      split; [|apply total_dec with r; auto;
               [intros i _ Hi; cbn; now rewrite !upd_other by auto
               |cbn; rewrite !upd_same, Htd, Hpo; unfold weight; simpl; lia]].
      constructor; simpl.
      - intros r' Hr'. unfold upd. destruct (Nat.eqb_spec r' r) as [->|]; auto.
        rewrite <- app_assoc. simpl. rewrite <- Htd. auto.
      - intros r' Hr'. unfold upd. destruct (Nat.eqb_spec r' r) as [->|]; auto.
      - intros r' Hr'. specialize (Ic r' Hr').
        assert (R : recvs (upd dn r (dn r ++ [ESend m]) (succ r')) = recvs (dn (succ r'))).
        { unfold upd. destruct (Nat.eqb_spec (succ r') r) as [->|]; auto.
          rewrite recvs_app. simpl. now rewrite app_nil_r. }
        rewrite R. unfold upd. destruct (Nat.eqb_spec r' r) as [->|]; auto.
        rewrite Htd, Hpo in Ic. rewrite sends_app. simpl.
        rewrite <- Ic. destruct l as [|[?|?] ?]; now rewrite app_nil_r.
      - intros r' Hr'. unfold upd. destruct (Nat.eqb_spec r' r) as [->|]; [discriminate|auto]. }
    inversion H; subst.
    - (* post *)
      pose proof (Ie r H0) as E. rewrite H1 in E. apply exec_send_inv in E. destruct E as (l & Htd & E).
      exists dn, td.
      split; [|apply total_dec with r; auto;
               [intros i _ Hi; cbn; now rewrite !upd_other by auto
               |cbn; rewrite !upd_same, Htd, H2; unfold weight; simpl; lia]].
      constructor; simpl; auto.
      + intros r' Hr'. specialize (Ic r' Hr'). unfold upd.
        destruct (Nat.eqb_spec r' r) as [->|]; auto.
        rewrite Htd, H2 in *. rewrite app_nil_r in Ic. rewrite Ic, app_assoc. reflexivity.
      + intros r' Hr'. unfold upd. destruct (Nat.eqb_spec r' r) as [->|]; eauto.
    - eapply Adv; eauto.
    - eapply Adv; eauto.
    - (* recv *)
      pose proof (Ie r H0) as E. rewrite H1 in E. apply exec_recv_inv in E. destruct E as (m' & l & Htd & E).
      assert (m' = m).
      { pose proof (Ic (pred r) (pred_lt r)) as C. rewrite succ_pred in C by auto. rewrite H2 in C.
        pose proof (Hmatch (pred r) (pred_lt r)) as M. rewrite succ_pred in M by auto.
        rewrite <- (Is r H0), recvs_app, Htd in M. simpl in M.
        assert (PF : exists rest', sends (evs (pred r)) = recvs (dn r) ++ (m :: rest) ++ rest').
        { rewrite <- (Is (pred r) (pred_lt r)), sends_app.
          destruct (td (pred r)) as [|[x|x] t] eqn:T; simpl in *.
          - rewrite app_nil_r in C. exists []. rewrite C, !app_nil_r. reflexivity.
          - destruct (posted c (pred r)).
            + exists (sends t). change (sends (dn (pred r)) ++ x :: sends t = recvs (dn r) ++ (m :: rest) ++ sends t).
              replace (sends (dn (pred r)) ++ x :: sends t) with ((sends (dn (pred r)) ++ [x]) ++ sends t)
                by (rewrite <- app_assoc; reflexivity).
              rewrite C, <- app_assoc. reflexivity.
            + rewrite app_nil_r in C. exists (x :: sends t). rewrite C, <- app_assoc. reflexivity.
          - rewrite app_nil_r in C. exists (sends t). rewrite C, <- app_assoc. reflexivity. }
        destruct PF as (rest' & PF). rewrite PF in M. apply app_inv_head in M. simpl in M. congruence. }
      subst m'.
      exists (upd dn r (dn r ++ [ERecv m])), (upd td r l).
      split; [|apply total_dec with r; auto;
               [intros i _ Hi; cbn; now rewrite !upd_other by auto
               |cbn; rewrite !upd_same, Htd; unfold weight; simpl; destruct (posted c r) eqn:Po;
                [destruct (Ip r H0 Po) as (? & ? & X); congruence|lia]]].
      constructor; simpl.
      + intros r' Hr'. unfold upd. destruct (Nat.eqb_spec r' r) as [->|]; auto.
        rewrite <- app_assoc. simpl. rewrite <- Htd. auto.
      + intros r' Hr'. unfold upd. destruct (Nat.eqb_spec r' r) as [->|]; auto.
      + intros r' Hr'. pose proof (Ic r' Hr') as C.
        assert (S1 : sends (upd dn r (dn r ++ [ERecv m]) r') ++
            match upd td r l r' with ESend m0 :: _ => if posted c r' then [m0] else [] | _ => [] end =
            sends (dn r') ++ match td r' with ESend m0 :: _ => if posted c r' then [m0] else [] | _ => [] end).
        { unfold upd. destruct (Nat.eqb_spec r' r) as [->|]; auto.
          rewrite sends_app, Htd. simpl. rewrite !app_nil_r.
          destruct (posted c r) eqn:Po.
          - destruct (Ip r Hr' Po) as (? & ? & X). congruence.
          - destruct l as [|[?|?] ?]; now rewrite app_nil_r. }
        rewrite S1, C. unfold upd.
        destruct (Nat.eqb_spec (succ r') r) as [E1|N1].
        * assert (r' = pred r) by (rewrite <- E1; symmetry; now apply pred_succ). subst r'.
          rewrite Nat.eqb_refl. rewrite succ_pred by auto. rewrite H2, recvs_app, <- app_assoc. reflexivity.
        * destruct (Nat.eqb_spec r' (pred r)) as [E2|N2]; auto.
          exfalso. apply N1. rewrite E2. now apply succ_pred.
      + intros r' Hr' Po. unfold upd. destruct (Nat.eqb_spec r' r) as [->|]; auto.
        destruct (Ip r Hr' Po) as (? & ? & X). congruence.
  Qed.

  (** A finite set of ranks with pending work has one with the least timestamp. *)
  Definition cur_ts (td : nat -> list (event msg)) (r : nat) : option nat :=
    match td r with [] => None | e :: _ => Some (ts (ev_msg e)) end.
  Lemma min_rank td : (forall r, r < P -> td r = []) \/
     exists r e l, r < P /\ td r = e :: l /\
       forall r' e' l', r' < P -> td r' = e' :: l' -> ts (ev_msg e) <= ts (ev_msg e').
  Proof.
    assert (G : forall n, n <= P -> (forall r, r < n -> td r = []) \/
     exists r e l, r < n /\ td r = e :: l /\
       forall r' e' l', r' < n -> td r' = e' :: l' -> ts (ev_msg e) <= ts (ev_msg e')).
    { induction n as [|n IH]; intros Hn; [left; intros; lia|].
      destruct (IH ltac:(lia)) as [H|(r & e & l & Hr & Htd & Hmin)].
      - destruct (td n) as [|e l] eqn:E.
        + left. intros r Hr. destruct (Nat.eq_dec r n) as [->|]; auto. apply H; lia.
        + right. exists n, e, l. repeat split; auto. intros r' e' l' Hr' E'.
          destruct (Nat.eq_dec r' n) as [->|]; [rewrite E in E'; injection E' as <- _; lia|].
          rewrite (H r' ltac:(lia)) in E'; discriminate.
      - destruct (td n) as [|e' l'] eqn:E.
        + right. exists r, e, l. repeat split; auto. intros r' e' l' Hr' E'.
          destruct (Nat.eq_dec r' n) as [->|]; [congruence|]. apply (Hmin r' e' l'); [lia|exact E'].
        + destruct (le_lt_dec (ts (ev_msg e)) (ts (ev_msg e'))) as [Le|Lt].
          * right. exists r, e, l. repeat split; auto. intros r' e'' l'' Hr' E'.
            destruct (Nat.eq_dec r' n) as [->|]; [rewrite E in E'; injection E' as <- _; lia|].
            apply (Hmin r' e'' l''); [lia|exact E'].
          * right. exists n, e', l'. repeat split; auto. intros r' e'' l'' Hr' E'.
            destruct (Nat.eq_dec r' n) as [->|]; [rewrite E in E'; injection E' as <- _; lia|].
            specialize (Hmin r' e'' l'' ltac:(lia) E'). lia. }
    exact (G P (le_n P)).
  Qed.

  Lemma ts_le_later r dnr e l : r < P -> dnr ++ e :: l = evs r ->
    forall e', In e' l -> ts (ev_msg e) < ts (ev_msg e').
  Proof.
    intros Hr E e' Hin. pose proof (Hts r Hr) as S. rewrite <- E in S. clear E.
    rewrite map_app in S.
    induction dnr as [|d dnr IH]; simpl in S.
    - inversion S as [|? ? _ F]; subst. rewrite Forall_forall in F. apply F. 
      apply in_map_iff. eauto.
    - inversion S; subst. auto.
  Qed.

  Lemma in_sends m l : In m (@sends msg l) -> exists e, In e l /\ ev_msg e = m.
  Proof.
    intros H. apply in_flat_map in H. destruct H as (e & He & Hm). exists e. split; auto.
    destruct e; simpl in Hm; (destruct Hm as [->|[]] || destruct Hm); auto.
  Qed.
  Lemma in_recvs m l : In m (@recvs msg l) -> exists e, In e l /\ ev_msg e = m.
  Proof.
    intros H. apply in_flat_map in H. destruct H as (e & He & Hm). exists e. split; auto.
    destruct e; simpl in Hm; (destruct Hm as [->|[]] || destruct Hm); auto.
  Qed.

  Lemma exec_ret_inv x ev y : exec (@Ret msg res x) ev y -> ev = [] /\ x = y.
  Proof. intros H; inversion H; subst; auto. Qed.
  Lemma exec_nil_inv p x : exec p (@nil (event msg)) x -> p = @Ret msg res x.
  Proof. intros H; inversion H; subst; auto. Qed.
  Lemma exec_esend_inv p m l x : exec p (ESend m :: l) x -> exists k, p = @Send msg res m k.
  Proof. intros H; inversion H; subst; eauto. Qed.
  Lemma exec_erecv_inv p m l x : exec p (ERecv m :: l) x -> exists k, p = @Recv msg res k.
  Proof. intros H; inversion H; subst; eauto. Qed.

  Lemma inv_progress c dn td : inv c dn td ->
    (forall r, r < P -> td r = []) \/ exists c', sync_step _ _ P c c'.
  Proof.
    intros I. destruct I as [Is Ie Ic Ip].
    destruct (min_rank td) as [H|(r & e & l & Hr & Htd & Hmin)]; [left; exact H|right].
    destruct e as [m|m].
    - destruct (exec_esend_inv (pr c r) m l (result r)) as (k & Hpr).
      { rewrite <- Htd; auto. }
      destruct (posted c r) eqn:Po; [|eexists; eapply SsPost; eauto].
      destruct (chan c r) as [|m0 rest] eqn:Ch; [eexists; eapply SsComplete; eauto|].
      (* the receiver has a pending receive for the head of the channel *)
      pose proof (Ic r Hr) as C. rewrite Htd, Po, Ch in C.
      pose proof (Hmatch r Hr) as M.
      rewrite <- (Is r Hr), Htd, sends_app in M. simpl in M.
      change (m :: sends l) with ([m] ++ sends l) in M. rewrite app_assoc, C in M.
      rewrite <- (Is (succ r) (succ_lt r)), recvs_app, <- app_assoc in M.
      apply app_inv_head in M. simpl in M.
      destruct (td (succ r)) as [|e' l'] eqn:T; [discriminate|].
      assert (Hle := Hmin _ _ _ (succ_lt r) T).
      (* m0 is ts <= ts m *)
      assert (Hm0 : ts m0 <= ts m).
      { assert (In m0 (sends (dn r) ++ [m]) ) as Hin.
        { rewrite C. apply in_or_app. right. left. reflexivity. }
        apply in_app_or in Hin. destruct Hin as [Hin|[->|[]]]; [|lia].
        apply in_sends in Hin. destruct Hin as (e0 & He0 & <-).
        apply in_split in He0. destruct He0 as (a & b & Hab).
        pose proof (Is r Hr) as Ev. rewrite Htd, Hab, <- app_assoc in Ev. simpl in Ev.
        pose proof (ts_le_later r _ _ _ Hr Ev (ESend m)). simpl in H.
        assert (ts (ev_msg e0) < ts m) by (apply H; apply in_or_app; right; left; reflexivity). lia. }
      destruct e' as [m'|m'].
      + exfalso. simpl in M.
        assert (In m0 (recvs l')) as Hin by (rewrite <- M; left; reflexivity).
        apply in_recvs in Hin. destruct Hin as (e0 & He0 & <-).
        pose proof (Is (succ r) (succ_lt r)) as Ev. rewrite T in Ev.
        pose proof (ts_le_later _ _ _ _ (succ_lt r) Ev e0 He0). simpl in *. lia.
      + destruct (exec_erecv_inv (pr c (succ r)) m' l' (result (succ r))) as (k' & Hpr').
        { rewrite <- T; apply Ie; apply succ_lt. }
        eexists. eapply SsRecv with (r := succ r); [apply succ_lt|exact Hpr'|].
        rewrite pred_succ by auto. exact Ch.
    - destruct (exec_erecv_inv (pr c r) m l (result r)) as (k & Hpr).
      { rewrite <- Htd; auto. }
      destruct (chan c (pred r)) as [|m0 rest] eqn:Ch.
      + pose proof (Ic (pred r) (pred_lt r)) as C. rewrite succ_pred, Ch, app_nil_r in C by auto.
        pose proof (Hmatch (pred r) (pred_lt r)) as M. rewrite succ_pred in M by auto.
        rewrite <- (Is r Hr), Htd, recvs_app in M. simpl in M. rewrite <- C in M.
        rewrite <- (Is (pred r) (pred_lt r)), sends_app, <- app_assoc in M.
        apply app_inv_head in M.
        destruct (td (pred r)) as [|e' l'] eqn:T; [discriminate|].
        assert (Hle := Hmin _ _ _ (pred_lt r) T).
        assert (X : forall e0, In e0 l' -> ev_msg e0 = m -> False).
        { intros e0 He0 <-. pose proof (Is (pred r) (pred_lt r)) as Ev. rewrite T in Ev.
          pose proof (ts_le_later _ _ _ _ (pred_lt r) Ev e0 He0). simpl in *. lia. }
        destruct e' as [m'|m'].
        * destruct (posted c (pred r)) eqn:Po.
          -- exfalso. simpl in M. injection M as M.
             assert (Hin : In m (sends l')) by (rewrite M; left; reflexivity).
             apply in_sends in Hin. destruct Hin as (e0 & A & B). eapply X; eauto.
          -- destruct (exec_esend_inv (pr c (pred r)) m' l' (result (pred r))) as (k' & Hpr').
             { rewrite <- T; apply Ie; apply pred_lt. }
             eexists. eapply SsPost with (r := pred r); [apply pred_lt|exact Hpr'|exact Po].
        * exfalso. simpl in M.
          assert (Hin : In m (sends l')) by (rewrite M; left; reflexivity).
          apply in_sends in Hin. destruct Hin as (e0 & A & B). eapply X; eauto.
      + eexists. eapply SsRecv; eauto.
  Qed.

  Lemma reach_inv n c : steps _ _ P n (init_conf _ _ prog) c -> exists dn td, inv c dn td.
  Proof.
    intros H. remember (init_conf _ _ prog) as c0 eqn:E. revert E.
    induction H as [c0|n c0 c1 c2 H IH Hs]; intros ->.
    - exists (fun _ => []), evs. apply inv_init.
    - destruct (IH eq_refl) as (dn & td & I). destruct (inv_step _ _ _ _ I Hs) as (dn' & td' & I' & _). eauto.
  Qed.

  Lemma all_done_finished c dn td : inv c dn td -> (forall r, r < P -> td r = []) ->
    finished _ _ P c /\ forall r, r < P -> pr c r = Ret (result r).
  Proof.
    intros I H. destruct I as [Is Ie Ic Ip].
    assert (R : forall r, r < P -> pr c r = Ret (result r)).
    { intros r Hr. apply exec_nil_inv. rewrite <- (H r Hr). auto. }
    split; [|exact R]. intros r Hr. split; [eauto|]. split.
    - pose proof (Ic r Hr) as C. rewrite (H r Hr), app_nil_r in C.
      pose proof (Hmatch r Hr) as M.
      rewrite <- (Is r Hr), <- (Is (succ r) (succ_lt r)), (H r Hr), (H _ (succ_lt r)), !app_nil_r in M.
      rewrite M in C. rewrite <- (app_nil_r (recvs (dn (succ r)))) in C at 1.
      apply app_inv_head in C. auto.
    - destruct (posted c r) eqn:Po; auto. destruct (Ip r Hr Po) as (? & ? & X).
      rewrite (H r Hr) in X. discriminate.
  Qed.

  (** Main results. *)
  Lemma ring_progress n c : steps _ _ P n (init_conf _ _ prog) c ->
    finished _ _ P c \/ exists c', sync_step _ _ P c c'.
  Proof.
    intros H. destruct (reach_inv n c H) as (dn & td & I).
    destruct (inv_progress c dn td I) as [D|D]; [left|right; exact D].
    eapply all_done_finished; eauto.
  Qed.

  Lemma ring_result n c : steps _ _ P n (init_conf _ _ prog) c ->
    forall r x, r < P -> pr c r = Ret x -> x = result r.
  Proof.
    intros H r x Hr E. destruct (reach_inv n c H) as (dn & td & I).
    pose proof (iv_exec _ _ _ I r Hr) as X. rewrite E in X. apply exec_ret_inv in X. tauto.
  Qed.

  Lemma reach_meas n c : steps _ _ P n (init_conf _ _ prog) c ->
    exists dn td, inv c dn td /\ n + meas c td <= meas (init_conf _ _ prog) evs.
  Proof.
    intros H. remember (init_conf _ _ prog) as c0 eqn:E. revert E.
    induction H as [c0|n c0 c1 c2 H IH Hs]; intros ->.
    - exists (fun _ => []), evs. split; [apply inv_init|lia].
    - destruct (IH eq_refl) as (dn & td & I & M). 
      destruct (inv_step _ _ _ _ I Hs) as (dn' & td' & I' & M'). exists dn', td'. split; auto. lia.
  Qed.

  (** Every execution is finite: at most twice the number of reference events. *)
  Lemma ring_bounded n c : steps _ _ P n (init_conf _ _ prog) c ->
    n <= total P (fun r => 2 * length (evs r)).
  Proof.
    intros H. destruct (reach_meas n c H) as (dn & td & _ & M).
    unfold meas in M at 2. simpl in M. unfold weight in M.
    rewrite (total_ext P _ (fun r => 2 * length (evs r))) in M by (intros; simpl; lia). lia.
  Qed.
End RP.
