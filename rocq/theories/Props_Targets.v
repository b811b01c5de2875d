(** Theorems C82: the recorders of diagnostics/targets.py and diagnostics_list.py. *)
From Coq Require Import Reals ZArith List Bool Arith Lra Lia.
From Verif Require Import Beam2D_Model Beam2D_Free Targets_Model Targets_Spec.
Import ListNotations.
Open Scope R_scope.

(** ** Python's % and dictionaries *)
Lemma multiple_spec x y : y <> 0 -> exists b, multiple x y = Some b /\ (b = true <-> exists k, x = IZR k * y).
Proof.
  intros Hy. unfold multiple. destruct (Req_EM_T y 0); [contradiction|]. eexists. split; [reflexivity|]. unfold is_zero. destruct (Req_EM_T _ 0) as [E|N]; split; intros H; try reflexivity; try discriminate.
  - exists (floorR (x / y)). lra.
  - exfalso. apply N. destruct H as [k Hk]. assert (Q : x / y = IZR k) by (rewrite Hk; field; exact Hy). rewrite Q. assert (F : floorR (IZR k) = k). { unfold floorR. assert (U := archimed (IZR k)). assert (U1 : (k < up (IZR k))%Z) by (apply lt_IZR; lra). assert (U2 : (up (IZR k) <= k + 1)%Z) by (apply le_IZR; rewrite plus_IZR; lra). lia. } rewrite F, Hk. ring.
Qed.
Section Dict.
  Context {V : Type}.
  Lemma get_new (d : list (R * V)) k : ~ In k (map fst d) -> dict_get d k = None.
  Proof. induction d as [|[k' v] d IH]; intros H; cbn; [reflexivity|]. destruct (Req_EM_T k' k) as [->|]; [exfalso; apply H; now left|]. apply IH. intros I. apply H. now right. Qed.
  Lemma set_new (d : list (R * V)) k v : ~ In k (map fst d) -> dict_set d k v = d ++ [(k, v)].
  Proof. induction d as [|[k' v'] d IH]; intros H; cbn; [reflexivity|]. destruct (Req_EM_T k' k) as [->|]; [exfalso; apply H; now left|]. rewrite IH; [reflexivity|]. intros I. apply H. now right. Qed.
  Lemma get_last (d : list (R * V)) k v : ~ In k (map fst d) -> dict_get (d ++ [(k, v)]) k = Some v.
  Proof. induction d as [|[k' v'] d IH]; intros H; cbn; [now destruct (Req_EM_T k k)|]. destruct (Req_EM_T k' k) as [->|]; [exfalso; apply H; now left|]. apply IH. intros I. apply H. now right. Qed.
  Lemma set_last (d : list (R * V)) k v v' : ~ In k (map fst d) -> dict_set (d ++ [(k, v)]) k v' = d ++ [(k, v')].
  Proof. induction d as [|[k' w] d IH]; intros H; cbn; [now destruct (Req_EM_T k k)|]. destruct (Req_EM_T k' k) as [->|]; [exfalso; apply H; now left|]. rewrite IH; [reflexivity|]. intros I. apply H. now right. Qed.
End Dict.
Lemma picked_in {X} (P : X -> Prop) l m x : picked P l m -> In x m -> In x l /\ P x.
Proof. induction 1 as [|y l m Hy _ IH|y l m Hy _ IH]; [intros []| |]; [intros [<-|I]; [split; [now left|exact Hy]|destruct (IH I); split; [now right|assumption]]|intros I; destruct (IH I); split; [now right|assumption]]. Qed.


(** ** Fields *)
Definition taken (r : option Z) (row : list R) : item := match r with None => Row row | Some i => Num (numbered row i) end.
Definition fits (c : fcfg) (row : list R) : Prop :=
  match f_r c with None => length row = f_h c | Some i => (- Z.of_nat (length row) <= i < Z.of_nat (length row))%Z end.
Lemma item_of c row : fits c row -> field_item c row = Some (taken (f_r c) row).
Proof.
  unfold fits, field_item, taken. destruct (f_r c) as [i|]; intros H; [|now rewrite H, Nat.eqb_refl]. unfold py_get, numbered. destruct (Z.leb_spec 0 i) as [L|L].
  - replace (Z.ltb i 0) with false by (symmetry; apply Z.ltb_ge; exact L). rewrite (nth_error_nth' row 0) by lia. reflexivity.
  - replace (Z.ltb i 0) with true by (symmetry; apply Z.ltb_lt; exact L). destruct (Z.leb_spec 0 (Z.of_nat (length row) + i)) as [L2|L2]; [|lia]. rewrite (nth_error_nth' row 0) by lia. reflexivity.
Qed.
Definition so_far (c : fcfg) (done : list (list R)) : record := map (fun row => Some (taken (f_r c) row)) done ++ repeat None (f_w c - length done).
Section Fields.
  Variables (c : fcfg) (t : R).
  Hypotheses (HP : f_period c <> 0) (HW : (0 < f_w c)%nat).
  Lemma field_off : ~ on_time (f_start c) (f_end c) (f_period c) t -> forall l k s, layers (field_process c) t k l s = Some s.
  Proof.
    intros N. induction l as [|row l IH]; intros k s; cbn; [reflexivity|]. assert (E : field_process c t k row s = Some s); [|rewrite E; apply IH]. unfold field_process. destruct (Rlt_dec t (f_start c)) as [|L1]; [reflexivity|]. destruct (Rlt_dec (f_end c) t) as [|L2]; [reflexivity|].
    destruct (multiple_spec (t - f_start c) (f_period c) HP) as ([|] & -> & M); [|reflexivity]. exfalso. apply N. split; [lra|]. destruct M as [M _]. exact (M eq_refl).
  Qed.
  Hypothesis On : on_time (f_start c) (f_end c) (f_period c) t.
  Lemma field_one idx row done d fs s : fits c row -> length done = idx -> (idx < f_w c)%nat -> ~ In t (map fst d) -> f_files s = fs ->
    (if (idx =? 0)%nat then f_data s = d else f_data s = d ++ [(t, so_far c done)]) ->
    field_process c t idx row s = Some (mkFs (d ++ [(t, so_far c (done ++ [row]))]) (if ((idx =? f_w c - 1)%nat && f_save c)%bool then fs ++ [(t, d ++ [(t, so_far c (done ++ [row]))])] else fs)).
  Proof.
    intros Hf Hl Hi Hn Hfs Hd. destruct On as [[O1 O2] O3]. unfold field_process. destruct (Rlt_dec t (f_start c)) as [|L1]; [lra|]. destruct (Rlt_dec (f_end c) t) as [|L2]; [lra|]. destruct (multiple_spec (t - f_start c) (f_period c) HP) as (b & -> & M). replace b with true by (symmetry; apply M; exact O3). clear M.
    cbv zeta. assert (D : (if (idx =? 0)%nat then dict_set (f_data s) t (repeat None (f_w c)) else f_data s) = d ++ [(t, so_far c done)]).
    { destruct (Nat.eqb_spec idx 0) as [Z|Z]; [|exact Hd]. rewrite Hd, set_new by exact Hn. destruct done; [|cbn in Hl; lia]. unfold so_far. cbn. now rewrite Nat.sub_0_r. }
    rewrite D, get_last, (item_of c row Hf) by exact Hn. unfold set_item. assert (Lf : length (so_far c done) = f_w c) by (unfold so_far; rewrite app_length, map_length, repeat_length; lia). rewrite Lf. destruct (Nat.ltb_spec idx (f_w c)) as [_|]; [|lia].
    assert (SI : firstn idx (so_far c done) ++ Some (taken (f_r c) row) :: skipn (S idx) (so_far c done) = so_far c (done ++ [row])).
    { unfold so_far. rewrite map_app, app_length. cbn [map length]. rewrite firstn_app, skipn_app, map_length, Hl, Nat.sub_diag. rewrite firstn_all2 by (rewrite map_length; lia). rewrite skipn_all2 by (rewrite map_length; lia). replace (S idx - idx)%nat with 1%nat by lia. cbn [firstn app].
      rewrite app_nil_r, <- app_assoc. f_equal. cbn [app]. f_equal. destruct (f_w c - idx)%nat as [|m] eqn:Em; [lia|]. cbn [repeat skipn]. f_equal. lia. }
    rewrite SI, set_last by exact Hn. now rewrite Hfs.
  Qed.
  Lemma field_layers l : forall done d fs s, Forall (fits c) l -> (length done + length l = f_w c)%nat -> ~ In t (map fst d) -> f_files s = fs -> l <> [] ->
    (if (length done =? 0)%nat then f_data s = d else f_data s = d ++ [(t, so_far c done)]) ->
    layers (field_process c) t (length done) l s = Some (mkFs (d ++ [(t, so_far c (done ++ l))]) (if f_save c then fs ++ [(t, d ++ [(t, so_far c (done ++ l))])] else fs)).
  Proof.
    induction l as [|row l IH]; intros done d fs s Hf Hw Hn Hfs Hne Hd; [contradiction|]. inversion Hf as [|? ? F1 F2]; subst. cbn [length] in Hw. cbn [layers]. rewrite (field_one (length done) row done d (f_files s) s F1 eq_refl ltac:(lia) Hn eq_refl Hd).
    destruct l as [|row' l'].
    - cbn [layers]. cbn [length] in Hw. replace (length done =? f_w c - 1)%nat with true by (symmetry; apply Nat.eqb_eq; lia). reflexivity.
    - cbn [length] in Hw. replace (length done =? f_w c - 1)%nat with false by (symmetry; apply Nat.eqb_neq; lia). cbn [andb]. replace (S (length done)) with (length (done ++ [row])) by (rewrite app_length; cbn; lia).
      rewrite (IH (done ++ [row]) d (f_files s)); [now rewrite <- app_assoc|exact F2|rewrite app_length; cbn [length]; lia|exact Hn|reflexivity|discriminate|]. replace (length (done ++ [row]) =? 0)%nat with false by (symmetry; apply Nat.eqb_neq; rewrite app_length; cbn; lia). reflexivity.
  Qed.
End Fields.
Lemma prefixes_snoc {X} (l : list X) x : prefixes (l ++ [x]) = prefixes l ++ [l ++ [x]].
Proof.
  unfold prefixes. rewrite app_length. cbn [length]. replace (length l + 1)%nat with (S (length l)) by lia. rewrite seq_S, map_app. cbn [map]. f_equal.
  - apply map_ext_in. intros k Hk. apply in_seq in Hk. rewrite firstn_app. replace (k - length l)%nat with 0%nat by lia. cbn [firstn]. apply app_nil_r.
  - f_equal. apply firstn_all2. rewrite app_length. cbn. lia.
Qed.

(** Every time step on time is recorded with all its layers, nothing else is, and after each of them a file is written with all
    that has been recorded so far. *)
Theorem C82_fields : forall c steps, f_period c <> 0 -> (0 < f_w c)%nat -> NoDup (map fst steps) ->
  (forall t l, In (t, l) steps -> length l = f_w c /\ forall row, In row l -> match f_r c with None => length row = f_h c | Some i => (- Z.of_nat (length row) <= i < Z.of_nat (length row))%Z end) ->
  exists sel, picked (fun s => on_time (f_start c) (f_end c) (f_period c) (fst s)) steps sel /\
  let data := map (fun s => (fst s, map (fun row => Some (match f_r c with None => Row row | Some i => Num (numbered row i) end)) (snd s))) sel in
  run (field_process c) 0 steps (mkFs [] []) = Some (mkFs data (if f_save c then combine (map fst sel) (prefixes data) else [])).
Proof.
  intros c steps HP HW ND HL. pose (ent := fun s : R * list (list R) => (fst s, map (fun row => Some (taken (f_r c) row)) (snd s))).
  assert (Gen : forall steps pre, NoDup (map fst pre ++ map fst steps) -> (forall t l, In (t, l) steps -> length l = f_w c /\ Forall (fits c) l) ->
    exists sel, picked (fun s => on_time (f_start c) (f_end c) (f_period c) (fst s)) steps sel /\
      run (field_process c) 0 steps (mkFs (map ent pre) (if f_save c then combine (map fst pre) (prefixes (map ent pre)) else [])) = Some (mkFs (map ent (pre ++ sel)) (if f_save c then combine (map fst (pre ++ sel)) (prefixes (map ent (pre ++ sel))) else []))).
  { clear steps ND HL. induction steps as [|[t l] steps IH]; intros pre ND HL; [exists []; split; [constructor|]; now rewrite app_nil_r|]. destruct (HL t l (or_introl eq_refl)) as [Ll Lf]. cbn [run].
    assert (Dec : on_time (f_start c) (f_end c) (f_period c) t \/ ~ on_time (f_start c) (f_end c) (f_period c) t).
    { destruct (multiple_spec (t - f_start c) (f_period c) HP) as (b & _ & M). destruct (Rlt_dec t (f_start c)) as [L1|L1]; [right; intros [[? ?] _]; lra|]. destruct (Rlt_dec (f_end c) t) as [L2|L2]; [right; intros [[? ?] _]; lra|]. destruct b; [left|right]; [split; [lra|now apply M]|intros [_ W]; apply M in W; discriminate]. }
    cbn [map fst] in ND. destruct Dec as [On|Off].
    - assert (Fresh : ~ In t (map fst (map ent pre))). { rewrite map_map. cbn [ent fst]. change (map (fun x => fst x) pre) with (map fst pre). apply NoDup_remove_2 in ND. intros I. apply ND. apply in_or_app. now left. }
      assert (LS := field_layers c t HP HW On l [] (map ent pre) (f_files (mkFs (map ent pre) (if f_save c then combine (map fst pre) (prefixes (map ent pre)) else []))) (mkFs (map ent pre) (if f_save c then combine (map fst pre) (prefixes (map ent pre)) else [])) Lf Ll Fresh eq_refl ltac:(intros ->; cbn in Ll; lia) eq_refl). cbn [length app f_files] in LS. rewrite LS.
      assert (SF : so_far c l = map (fun row => Some (taken (f_r c) row)) l) by (unfold so_far; rewrite Ll, Nat.sub_diag; apply app_nil_r). rewrite SF. change (t, map (fun row => Some (taken (f_r c) row)) l) with (ent (t, l)).
      destruct (IH (pre ++ [(t, l)])) as (sel & Ps & Rs); [rewrite map_app, <- app_assoc; exact ND|intros t' l' I; exact (HL t' l' (or_intror I))|]. exists ((t, l) :: sel). split; [now constructor|].
      rewrite <- app_assoc in Rs. cbn [app] in Rs. rewrite <- Rs. f_equal. rewrite !map_app. cbn [map fst]. f_equal. destruct (f_save c); [|reflexivity]. rewrite prefixes_snoc. assert (Lc : length (map fst pre) = length (prefixes (map ent pre))) by (unfold prefixes; rewrite !map_length, seq_length, ?map_length; reflexivity).
      clear - Lc. revert Lc. generalize (map fst pre) as a. generalize (prefixes (map ent pre)) as b. intros b a. revert b. induction a as [|x a IHa]; intros [|y b] Lc; cbn in Lc |- *; try discriminate; [reflexivity|]. f_equal. apply IHa. now injection Lc.
    - rewrite (field_off c t HP Off). destruct (IH pre) as (sel & Ps & Rs); [apply NoDup_remove_1 in ND; exact ND|intros t' l' I; exact (HL t' l' (or_intror I))|]. exists sel. split; [now constructor|exact Rs]. }
  destruct (Gen steps []) as (sel & Ps & Rs); [exact ND|intros t l I; destruct (HL t l I) as [L1 L2]; split; [exact L1|]; apply Forall_forall; exact L2|]. exists sel. split; [exact Ps|]. cbn [app map] in Rs. cbv zeta. destruct (f_save c); exact Rs.
Qed.

(** ** Particles *)
Section Store.
  Context {P : Type} (test : R -> option bool) (process : R -> nat -> list P -> @store P -> option (@store P)).
  Hypothesis Shape : forall t idx slice s, process t idx slice s =
    match test t with
    | None => None
    | Some false => Some s
    | Some true => let d := if (idx =? 0)%nat then dict_set s t [] else s in match dict_get d t with Some a => Some (dict_set d t (a ++ slice)) | None => None end
    end.
  Lemma store_off t l : test t = Some false -> forall k s, layers process t k l s = Some s.
  Proof. intros H. induction l as [|a l IH]; intros k s; cbn; [reflexivity|]. rewrite Shape, H. apply IH. Qed.
  Lemma store_later t l : test t = Some true -> forall k d a, ~ In t (map fst d) -> layers process t (S k) l (d ++ [(t, a)]) = Some (d ++ [(t, a ++ concat l)]).
  Proof.
    intros H. induction l as [|b l IH]; intros k d a Hn; cbn [layers concat]; [now rewrite app_nil_r|]. rewrite Shape, H. cbv zeta. cbn [Nat.eqb]. rewrite get_last, set_last by exact Hn. rewrite (IH (S k) d (a ++ b) Hn). now rewrite app_assoc.
  Qed.
  Lemma store_on t l : test t = Some true -> l <> [] -> forall d, ~ In t (map fst d) -> layers process t 0 l d = Some (d ++ [(t, concat l)]).
  Proof.
    intros H Hl d Hn. destruct l as [|b l]; [contradiction|]. cbn [layers concat]. rewrite Shape, H. cbv zeta. cbn [Nat.eqb]. rewrite set_new by exact Hn. rewrite get_last, set_last by exact Hn. cbn [app]. now apply store_later.
  Qed.
  Lemma store_run (W : R -> Prop) : (forall t, exists b, test t = Some b /\ (b = true <-> W t)) -> forall steps, NoDup (map fst steps) -> (forall t l, In (t, l) steps -> l <> []) ->
    exists sel, picked (fun s => W (fst s)) steps sel /\ run process 0 steps [] = Some (map (fun s => (fst s, concat (snd s))) sel).
  Proof.
    intros HW. pose (ent := fun s : R * list (list P) => (fst s, concat (snd s))).
    assert (Gen : forall steps pre, NoDup (map fst pre ++ map fst steps) -> (forall t l, In (t, l) steps -> l <> []) -> exists sel, picked (fun s => W (fst s)) steps sel /\ run process 0 steps (map ent pre) = Some (map ent (pre ++ sel))).
    { induction steps as [|[t l] steps IH]; intros pre ND HL; [exists []; split; [constructor|]; now rewrite app_nil_r|]. cbn [run]. cbn [map fst] in ND. destruct (HW t) as (b & Tb & Wb). destruct b.
      - assert (Fresh : ~ In t (map fst (map ent pre))). { rewrite map_map. cbn [ent fst]. change (map (fun x => fst x) pre) with (map fst pre). apply NoDup_remove_2 in ND. intros I. apply ND. apply in_or_app. now left. }
        rewrite (store_on t l Tb (HL t l (or_introl eq_refl)) _ Fresh). destruct (IH (pre ++ [(t, l)])) as (sel & Ps & Rs); [rewrite map_app, <- app_assoc; exact ND|intros t' l' I; exact (HL t' l' (or_intror I))|].
        exists ((t, l) :: sel). split; [constructor; [now apply Wb|exact Ps]|]. rewrite <- app_assoc in Rs. cbn [app] in Rs. rewrite <- Rs. f_equal. now rewrite map_app.
      - rewrite (store_off t l Tb). destruct (IH pre) as (sel & Ps & Rs); [apply NoDup_remove_1 in ND; exact ND|intros t' l' I; exact (HL t' l' (or_intror I))|]. exists sel. split; [|exact Rs]. constructor; [|exact Ps]. cbn [fst]. intros Hw. apply Wb in Hw. discriminate. }
    intros steps ND HL. exact (Gen steps [] ND HL).
  Qed.
  Lemma store_late k t l s : test t = Some true -> l <> [] -> ~ In t (map fst s) -> layers process t (S k) l s = None.
  Proof. intros H Hl Hn. destruct l as [|b l]; [contradiction|]. cbn [layers]. rewrite Shape, H. cbv zeta. cbn [Nat.eqb]. now rewrite get_new. Qed.
End Store.
Lemma window_test t0 t1 p : p <> 0 -> forall t, exists b, (if Rlt_dec t t0 then Some false else if Rlt_dec t1 t then Some false else multiple (t - t0) p) = Some b /\ (b = true <-> on_time t0 t1 p t).
Proof.
  intros Hp t. destruct (Rlt_dec t t0) as [L|L]; [exists false; split; [reflexivity|split; [discriminate|intros [[? ?] _]; lra]]|]. destruct (Rlt_dec t1 t) as [L2|L2]; [exists false; split; [reflexivity|split; [discriminate|intros [[? ?] _]; lra]]|].
  destruct (multiple_spec (t - t0) p Hp) as (b & E & M). exists b. split; [exact E|]. split; [intros B; apply M in B; split; [lra|exact B]|intros [_ B]; now apply M].
Qed.
Lemma beam_shape {P} (c : pdcfg) t idx (slice : list P) s : beam_process c t idx slice s =
  match (if Rlt_dec t (d_start c) then Some false else if Rlt_dec (d_end c) t then Some false else multiple (t - d_start c) (d_period c)) with
  | None => None | Some false => Some s
  | Some true => let d := if (idx =? 0)%nat then dict_set s t [] else s in match dict_get d t with Some a => Some (dict_set d t (a ++ slice)) | None => None end
  end.
Proof. unfold beam_process. destruct (Rlt_dec t (d_start c)); [reflexivity|]. destruct (Rlt_dec (d_end c) t); reflexivity. Qed.

(** The beam of every time step on time is recorded, layer after layer; nothing else is. *)
Theorem C82_beam : forall (P : Type) (c : pdcfg) (steps : list (R * list (list P))), d_period c <> 0 -> NoDup (map fst steps) -> (forall t l, In (t, l) steps -> l <> []) ->
  exists sel, picked (fun s => on_time (d_start c) (d_end c) (d_period c) (fst s)) steps sel /\ run (beam_process c) 0 steps [] = Some (map (fun s => (fst s, concat (snd s))) sel).
Proof. intros P c steps HP ND HL. exact (store_run _ _ (beam_shape c) _ (window_test _ _ _ HP) steps ND HL). Qed.
(** The same for the recorder of diagnostics_list.py, with an end other than 0 or with none. *)
Theorem C82_listed_beam : forall (P : Type) (c : tcfg) (steps : list (R * list (list P))), t_period c <> 0 -> t_end c <> Some 0 -> NoDup (map fst steps) -> (forall t l, In (t, l) steps -> l <> []) ->
  exists sel, picked (fun s => (t_start c <= fst s /\ match t_end c with Some e => fst s <= e | None => True end) /\ whole_periods (t_start c) (t_period c) (fst s)) steps sel /\
  run (t_beam_process c) 0 steps [] = Some (map (fun s => (fst s, concat (snd s))) sel).
Proof.
  intros P c steps HP HE ND HL. apply (store_run (t_process c) _ (fun t idx slice s => eq_refl) (fun t => (t_start c <= t /\ match t_end c with Some e => t <= e | None => True end) /\ whole_periods (t_start c) (t_period c) t)); [|exact ND|exact HL].
  intros t. unfold t_process. destruct (multiple_spec (t - t_start c) (t_period c) HP) as (b & E & M). rewrite E. destruct (t_end c) as [e|].
  - assert (Z : is_zero e = false) by (unfold is_zero; destruct (Req_EM_T e 0) as [->|]; [now elim HE|reflexivity]). rewrite Z. cbn [negb andb]. destruct (Rlt_dec e t) as [L|L]; [exists false; split; [reflexivity|split; [discriminate|intros [[? ?] _]; lra]]|].
    cbn [orb]. destruct (Rlt_dec t (t_start c)) as [L2|L2]; [exists false; split; [reflexivity|split; [discriminate|intros [[? ?] _]; lra]]|]. exists b. split; [reflexivity|]. split; [intros B; apply M in B; split; [lra|exact B]|intros [_ B]; now apply M].
  - cbn [orb]. destruct (Rlt_dec t (t_start c)) as [L2|L2]; [exists false; split; [reflexivity|split; [discriminate|intros [[? ?] _]; lra]]|]. exists b. split; [reflexivity|]. split; [intros B; apply M in B; split; [split; [lra|exact I]|exact B]|intros [_ B]; now apply M].
Qed.
(** The plasma recorder makes an entry for every time step in its window; only those on time are filled. *)
Theorem C82_plasma : forall (P : Type) (c : pdcfg) (steps : list (R * list (list P))), d_period c <> 0 -> NoDup (map fst steps) -> (forall t l, In (t, l) steps -> l <> []) ->
  exists sel data, picked (fun s => d_start c <= fst s <= d_end c) steps sel /\ run (plasma_process c) 0 steps [] = Some data /\
  Forall2 (fun s e => fst e = fst s /\ (whole_periods (d_start c) (d_period c) (fst s) -> snd e = concat (snd s)) /\ (~ whole_periods (d_start c) (d_period c) (fst s) -> snd e = [])) sel data.
Proof.
  intros P c steps HP ND HL.
  assert (Off : forall t (l : list (list P)) k s, ~ (d_start c <= t <= d_end c) -> layers (plasma_process c) t k l s = Some s).
  { intros t l. induction l as [|a l IH]; intros k s H; cbn; [reflexivity|]. unfold plasma_process at 1. destruct (Rlt_dec t (d_start c)); [now apply IH|]. destruct (Rlt_dec (d_end c) t); [now apply IH|]. exfalso. apply H. lra. }
  assert (Later : forall t (l : list (list P)) b, d_start c <= t <= d_end c -> multiple (t - d_start c) (d_period c) = Some b -> forall k d a, ~ In t (map fst d) -> layers (plasma_process c) t (S k) l (d ++ [(t, a)]) = Some (d ++ [(t, a ++ if b then concat l else [])])).
  { intros t l b W Mb. induction l as [|x l IH]; intros k d a Hn; cbn [layers concat]; [destruct b; now rewrite app_nil_r|]. unfold plasma_process at 1. destruct (Rlt_dec t (d_start c)); [lra|]. destruct (Rlt_dec (d_end c) t); [lra|]. cbv zeta. cbn [Nat.eqb]. rewrite Mb. destruct b; [rewrite get_last, set_last by exact Hn; rewrite (IH (S k) d (a ++ x) Hn), <- app_assoc; reflexivity|]. now rewrite (IH (S k) d a Hn). }
  assert (First : forall t (l : list (list P)) b d, d_start c <= t <= d_end c -> multiple (t - d_start c) (d_period c) = Some b -> l <> [] -> ~ In t (map fst d) -> layers (plasma_process c) t 0 l d = Some (d ++ [(t, if b then concat l else [])])).
  { intros t l b d W Mb Hl Hn. destruct l as [|x l]; [contradiction|]. cbn [layers concat]. unfold plasma_process at 1. destruct (Rlt_dec t (d_start c)); [lra|]. destruct (Rlt_dec (d_end c) t); [lra|]. cbv zeta. cbn [Nat.eqb]. rewrite Mb, set_new by exact Hn. destruct b; [rewrite get_last, set_last by exact Hn; cbn [app]; now rewrite (Later t l true W Mb 0%nat d x Hn)|]. rewrite (Later t l false W Mb 0%nat d [] Hn). reflexivity. }
  assert (Gen : forall (steps : list (R * list (list P))) d, NoDup (map fst d ++ map fst steps) -> (forall t l, In (t, l) steps -> l <> []) ->
    exists sel data, picked (fun s => d_start c <= fst s <= d_end c) steps sel /\ run (plasma_process c) 0 steps d = Some (d ++ data) /\
    Forall2 (fun s e => fst e = fst s /\ (whole_periods (d_start c) (d_period c) (fst s) -> snd e = concat (snd s)) /\ (~ whole_periods (d_start c) (d_period c) (fst s) -> snd e = [])) sel data).
  { clear steps ND HL. induction steps as [|[t l] steps IH]; intros d ND HL; [exists [], []; split; [constructor|split; [now rewrite app_nil_r|constructor]]|]. cbn [run]. cbn [map fst] in ND. assert (HL' : forall t' l', In (t', l') steps -> l' <> []) by (intros t' l' I; exact (HL t' l' (or_intror I))).
    assert (Dec : d_start c <= t <= d_end c \/ ~ (d_start c <= t <= d_end c)) by (destruct (Rle_dec (d_start c) t); destruct (Rle_dec t (d_end c)); [left|right|right|right]; lra).
    destruct Dec as [W|W].
    - destruct (multiple_spec (t - d_start c) (d_period c) HP) as (b & Mb & Wb). assert (Hn : ~ In t (map fst d)) by (apply NoDup_remove_2 in ND; intros I; apply ND; apply in_or_app; now left).
      rewrite (First t l b d W Mb (HL t l (or_introl eq_refl)) Hn). destruct (IH (d ++ [(t, if b then concat l else [])])) as (sel & data & Ps & Rs & Fs); [rewrite map_app, <- app_assoc; exact ND|exact HL'|].
      exists ((t, l) :: sel), ((t, if b then concat l else []) :: data). split; [now constructor|]. split; [rewrite Rs, <- app_assoc; reflexivity|]. constructor; [|exact Fs]. cbn [fst snd]. split; [reflexivity|]. split; intros Hw; [apply Wb in Hw; now rewrite Hw|]. destruct b; [|reflexivity]. exfalso. apply Hw. now apply Wb.
    - rewrite (Off t l 0%nat d W). destruct (IH d) as (sel & data & Ps & Rs & Fs); [apply NoDup_remove_1 in ND; exact ND|exact HL'|]. exists sel, data. split; [now constructor|]. split; assumption. }
  destruct (Gen steps [] ND HL) as (sel & data & Ps & Rs & Fs). exists sel, data. repeat split; assumption.
Qed.

(** ** Deviations *)
(** The loop of the program begins with layer 1 (push_solver.py:97-98, with the plasma layer starting at xi = 0; its call of process is commented out there, 135-137): without layer 0 the recorders of fields and of the
    beam raise at the first time step on time. *)
Theorem C82_without_layer_0_refuted : forall k t l steps,
  (forall c data files, on_time (f_start c) (f_end c) (f_period c) t -> f_period c <> 0 -> l <> [] -> ~ In t (map fst data) -> run (field_process c) (S k) ((t, l) :: steps) (mkFs data files) = None) /\
  (forall (c : pdcfg) data, on_time (d_start c) (d_end c) (d_period c) t -> d_period c <> 0 -> l <> [] -> ~ In t (map fst data) -> run (beam_process c) (S k) ((t, l) :: steps) data = None).
Proof.
  intros k t l steps. split.
  - intros c data files [[O1 O2] O3] HP Hl Hn. cbn [run]. destruct l as [|row l]; [contradiction|]. cbn [layers]. unfold field_process at 1. destruct (Rlt_dec t (f_start c)); [lra|]. destruct (Rlt_dec (f_end c) t); [lra|]. destruct (multiple_spec (t - f_start c) (f_period c) HP) as (b & -> & M). replace b with true by (symmetry; apply M; exact O3). cbv zeta. cbn [Nat.eqb f_data]. now rewrite get_new.
  - intros c data On HP Hl Hn. cbn [run]. destruct (window_test (d_start c) (d_end c) (d_period c) HP t) as (b & E & M). replace b with true in E by (symmetry; now apply M). rewrite (store_late _ _ (beam_shape c) k t l data E Hl Hn). reflexivity.
Qed.
(** The plasma recorder fills its dictionary with time steps that are not on time. *)
Theorem C82_plasma_only_on_time_refuted : exists (c : pdcfg) (steps : list (R * list (list R))) data t, run (plasma_process c) 0 steps [] = Some data /\ In t (map fst data) /\ ~ whole_periods (d_start c) (d_period c) t.
Proof.
  assert (N : ~ whole_periods 0 100 1). { intros [k Hk]. assert (A : 0 < IZR k < 1) by lra. destruct A as [A B]. apply lt_IZR in A. apply lt_IZR in B. lia. }
  destruct (C82_plasma R (mkPd 0 2 100) [(1, [[5]])] ltac:(cbn; lra) ltac:(cbn; constructor; [intros []|constructor]) ltac:(intros t l [E|[]]; injection E as <- <-; discriminate)) as (sel & data & Ps & Rs & Fs).
  exists (mkPd 0 2 100), [(1, [[5]])], data, 1. split; [exact Rs|]. split; [|exact N]. inversion Ps as [|x l m Px Pm|x l m Px Pm]; subst; [|cbn in Px; lra]. inversion Fs as [|? e ? m' (E1 & _) Fm]; subst. left. exact E1.
Qed.
(** An end at 0 is taken for no end by the recorder of diagnostics_list.py. *)
Theorem C82_end_at_0_refuted : exists (c : tcfg) (steps : list (R * list (list R))) data t e, t_end c = Some e /\ run (t_beam_process c) 0 steps [] = Some data /\ In t (map fst data) /\ e < t.
Proof.
  destruct (C82_listed_beam R (mkTc (-1) None 1) [(1, [[5]])] ltac:(cbn; lra) ltac:(discriminate) ltac:(cbn; constructor; [intros []|constructor]) ltac:(intros t l [E|[]]; injection E as <- <-; discriminate)) as (sel & Ps & Rs).
  exists (mkTc (-1) (Some 0) 1), [(1, [[5]])], [(1, [5])], 1, 0. split; [reflexivity|]. split; [|split; [now left|lra]].
  assert (Sel : sel = [(1, [[5]])]). { inversion Ps as [|x l m Px Pm|x l m Px Pm]; subst; inversion Pm; subst; [reflexivity|]. exfalso. apply Px. cbn. split; [split; [lra|exact I]|]. exists 2%Z. cbn. lra. }
  subst sel. transitivity (run (t_beam_process (mkTc (-1) None 1)) 0 [(1, [[5]])] (@nil (R * list R))); [|exact Rs]. cbn [run layers]. unfold t_beam_process, t_process. cbn [t_end t_start t_period]. assert (Z : is_zero 0 = true) by (unfold is_zero; now destruct (Req_EM_T 0 0)). rewrite Z. reflexivity.
Qed.

(** ** Cases *)
(** Three time steps of a window of two layers and three cells, recorded every 2 from 1 on: the first and the third. *)
Example C82_fields_case : let c := mkFc (Some (-1)%Z) 1 9 2 2 3 true in
  let data := [(1, [Some (Num 3); Some (Num 6)]); (3, [Some (Num 0); Some (Num 1)])] in
  run (field_process c) 0 [(1, [[1; 2; 3]; [4; 5; 6]]); (2, [[7; 7; 7]; [7; 7; 7]]); (3, [[9; 9; 0]; [8; 8; 1]])] (mkFs [] []) = Some (mkFs data [(1, [(1, [Some (Num 3); Some (Num 6)])]); (3, data)]).
Proof.
  cbv zeta. set (steps := [(1, [[1; 2; 3]; [4; 5; 6]]); (2, [[7; 7; 7]; [7; 7; 7]]); (3, [[9; 9; 0]; [8; 8; 1]])]).
  destruct (C82_fields (mkFc (Some (-1)%Z) 1 9 2 2 3 true) steps) as (sel & Ps & Rs).
  - cbn. lra.
  - cbn. lia.
  - cbn. repeat constructor; cbn; intuition lra.
  - intros t l H. cbn in H. repeat (destruct H as [E|H]; [injection E as <- <-; cbn; split; [reflexivity|]; intros row [<-|[<-|[]]]; cbn; lia|]). destruct H.
  - rewrite Rs. assert (T1 : on_time 1 9 2 1) by (split; [lra|exists 0%Z; lra]). assert (T3 : on_time 1 9 2 3) by (split; [lra|exists 1%Z; lra]). assert (T2 : ~ on_time 1 9 2 2). { intros [_ [k Hk]]. assert (A : 0 < IZR k < 1) by lra. destruct A as [A B]. apply lt_IZR in A. apply lt_IZR in B. lia. }
    unfold steps in Ps. inversion Ps as [|x l m Px Pm|x l m Px Pm]; subst; [|now elim Px]. inversion Pm as [|x l m' Px' Pm'|x l m' Px' Pm']; subst; [now elim T2|]. inversion Pm' as [|x l m'' Px'' Pm''|x l m'' Px'' Pm'']; subst; [|now elim Px'']. inversion Pm''; subst. reflexivity.
Qed.
Example C82_beam_case : run (beam_process (mkPd 0 5 2)) 0 [(0, [[1; 2]; [3]]); (1, [[4]; []]); (2, [[]; [5; 6]])] [] = Some [(0, [1; 2; 3]); (2, [5; 6])].
Proof.
  destruct (C82_beam R (mkPd 0 5 2) [(0, [[1; 2]; [3]]); (1, [[4]; []]); (2, [[]; [5; 6]])]) as (sel & Ps & Rs).
  - cbn. lra.
  - cbn. repeat constructor; cbn; intuition lra.
  - intros t l H. cbn in H. repeat (destruct H as [E|H]; [injection E as <- <-; discriminate|]). destruct H.
  - rewrite Rs. assert (T1 : on_time 0 5 2 0) by (split; [lra|exists 0%Z; lra]). assert (T3 : on_time 0 5 2 2) by (split; [lra|exists 1%Z; lra]). assert (T2 : ~ on_time 0 5 2 1). { intros [_ [k Hk]]. assert (A : 0 < IZR k < 1) by lra. destruct A as [A B]. apply lt_IZR in A. apply lt_IZR in B. lia. }
    inversion Ps as [|x l m Px Pm|x l m Px Pm]; subst; [|now elim Px]. inversion Pm as [|x l m' Px' Pm'|x l m' Px' Pm']; subst; [now elim T2|]. inversion Pm' as [|x l m'' Px'' Pm''|x l m'' Px'' Pm'']; subst; [|now elim Px'']. inversion Pm''; subst. reflexivity.
Qed.
