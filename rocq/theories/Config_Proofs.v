From Coq Require Import List ZArith QArith Qround String Ascii Bool Lia Znumtheory Permutation Sorting.Sorted.
From Coq Require Import ZifyBool ZifyNat Lqa Qabs.
From Verif Require Import Config_Model Config_Spec.
Import ListNotations.
Open Scope string_scope.
Open Scope list_scope.
Open Scope Z_scope.

(** ** Dictionary *)
Lemma dict_get_set_same d k v : dict_get (dict_set d k v) k = Some v.
Proof.
  induction d as [|[k' v'] r IH]; simpl.
  - now rewrite String.eqb_refl.
  - destruct (String.eqb k k') eqn:E; simpl; rewrite E; auto.
Qed.

Lemma dict_get_set_other d k k2 v : k2 <> k -> dict_get (dict_set d k v) k2 = dict_get d k2.
Proof.
  intros Hne. induction d as [|[k' v'] r IH]; simpl.
  - apply String.eqb_neq in Hne. now rewrite Hne.
  - destruct (String.eqb k k') eqn:E; simpl.
    + apply String.eqb_eq in E; subst k'.
      apply String.eqb_neq in Hne. rewrite Hne. reflexivity.
    + destruct (String.eqb k2 k'); auto.
Qed.

Lemma last_write_nil k : last_write [] k = None. Proof. reflexivity. Qed.
Lemma last_write_snoc h k0 v k :
  last_write (h ++ [(k0, v)]) k = if String.eqb k k0 then Some v else last_write h k.
Proof.
  unfold last_write. rewrite rev_app_distr. simpl. now destruct (String.eqb k k0).
Qed.

Section S.
  Variable fshow : Q -> string.
  Variable has_cupy : bool.

  Notation set := (Config_Model.set fshow has_cupy).
  Notation update := (Config_Model.update fshow has_cupy).

  Notation fails := (Config_Spec.fails fshow has_cupy).
  Notation effective := (Config_Spec.effective fshow has_cupy).
  Notation call_writes := (Config_Spec.call_writes fshow has_cupy).
  Notation run_calls := (Config_Spec.run_calls fshow has_cupy).
  Notation run_call := (Config_Spec.run_call fshow has_cupy).

  Lemma set_spec c k v :
    (forall k', dict_get (values (fst (set c k v))) k' =
       if String.eqb k' k then Some (canonical k v) else dict_get (values c) k') /\
    snd (set c k v) = (if fails k v then Some ImportError else None).
  Proof.
    unfold Config_Model.set, adjust_on_set, Config_Spec.fails, get; simpl.
    destruct (String.eqb k "processing-unit-type") eqn:Ep.
    - apply String.eqb_eq in Ep; subst k.
      rewrite dict_get_set_same. simpl.
      assert (Hc : canonical "processing-unit-type" v = v) by reflexivity.
      rewrite Hc.
      assert (G : forall k', dict_get (dict_set (values c) "processing-unit-type" v) k' =
        if String.eqb k' "processing-unit-type" then Some v else dict_get (values c) k').
      { intros k'. destruct (String.eqb k' "processing-unit-type") eqn:E.
        - apply String.eqb_eq in E; subst; apply dict_get_set_same.
        - apply String.eqb_neq in E; now apply dict_get_set_other. }
      destruct (String.eqb (lower (py_str fshow v)) "cpu") eqn:E1; simpl.
      { apply String.eqb_eq in E1; rewrite E1; simpl; split; [exact G|reflexivity]. }
      destruct (String.eqb (lower (py_str fshow v)) "gpu") eqn:E2; simpl;
        [destruct has_cupy; simpl|]; (split; [exact G|reflexivity]).
    - simpl. destruct (String.eqb k "geometry") eqn:Eg; simpl.
      + apply String.eqb_eq in Eg; subst k.
        rewrite dict_get_set_same. unfold canonical; simpl.
        destruct v as [s| | | |]; simpl; [destruct (String.eqb s "circ") eqn:Ec; simpl| | | |];
          (split; [|reflexivity]); intros k';
          (destruct (String.eqb k' "geometry") eqn:E;
           [apply String.eqb_eq in E; subst; now rewrite ?dict_get_set_same
           |apply String.eqb_neq in E; now rewrite ?dict_get_set_other by assumption]).
      + unfold canonical; rewrite Eg; simpl. split; [|reflexivity].
        intros k'. destruct (String.eqb k' k) eqn:E;
           [apply String.eqb_eq in E; subst; now rewrite ?dict_get_set_same
           |apply String.eqb_neq in E; now rewrite ?dict_get_set_other by assumption].
  Qed.

  Definition agrees (c : cfg) (h : list (string * val)) : Prop :=
    forall k, dict_get (values c) k = option_map (canonical k) (last_write h k).

  Lemma agrees_set c h k v : agrees c h -> agrees (fst (set c k v)) (h ++ [(k, v)]).
  Proof.
    intros H k'. destruct (set_spec c k v) as [G _]. rewrite G, last_write_snoc.
    destruct (String.eqb k' k) eqn:E; [|apply H].
    apply String.eqb_eq in E; subst; reflexivity.
  Qed.

  Lemma agrees_update items : forall c h, agrees c h -> agrees (fst (update c items)) (h ++ effective items).
  Proof.
    induction items as [|[k v] r IH]; intros c h H; simpl.
    - now rewrite app_nil_r.
    - pose proof (agrees_set c h k v H) as H1. destruct (set_spec c k v) as [_ Hs].
      destruct (set c k v) as [c' e] eqn:E. simpl in *. subst e.
      destruct (fails k v); simpl; [exact H1|].
      specialize (IH c' _ H1). rewrite <- app_assoc in IH. exact IH.
  Qed.

  Lemma update_ok_all items : forall c c', update c items = (c', None) -> effective items = items.
  Proof.
    induction items as [|[k v] r IH]; intros c c' H; simpl in *; auto.
    destruct (set_spec c k v) as [_ Hs]. destruct (set c k v) as [c1 e]. simpl in Hs. subst e.
    destruct (fails k v); [discriminate|]. f_equal. eapply IH; eauto.
  Qed.

  Lemma agrees_calls l : forall c h, agrees c h -> agrees (run_calls c l) (h ++ flat_map call_writes l).
  Proof.
    induction l as [|o l IH]; intros c h H; simpl.
    - now rewrite app_nil_r.
    - rewrite app_assoc. apply IH. destruct o; simpl; [now apply agrees_set|now apply agrees_update].
  Qed.

  Lemma agrees_empty : agrees empty_cfg []. Proof. intros k; reflexivity. Qed.

  Lemma default_ok : snd (update empty_cfg default_config_values) = None.
  Proof. reflexivity. Qed.

  Lemma new_config_agrees user c : new_config fshow has_cupy user true = (c, None) ->
    agrees c (default_config_values ++ user).
  Proof.
    unfold new_config. intros H.
    destruct (update empty_cfg default_config_values) as [c0 [e|]] eqn:E; [discriminate|].
    pose proof (agrees_update default_config_values _ _ agrees_empty) as A.
    rewrite E in A. cbn [fst app] in A.
    rewrite (update_ok_all _ _ _ E) in A.
    pose proof (agrees_update user _ _ A) as B. rewrite H in B. cbn [fst] in B.
    now rewrite (update_ok_all _ _ _ H) in B.
  Qed.

  Lemma get_of_agrees c h k fb : agrees c h ->
    get fshow c k fb = match last_write h k with Some v => py_str fshow (canonical k v) | None => fb end.
  Proof. intros H. unfold get. rewrite H. now destruct (last_write h k). Qed.

  Lemma config_lww user c hist k fb :
    new_config fshow has_cupy user true = (c, None) ->
    get fshow (run_calls c hist) k fb =
      match last_write (default_config_values ++ user ++ flat_map call_writes hist) k with
      | Some v => py_str fshow (canonical k v) | None => fb end.
  Proof.
    intros H. apply get_of_agrees. rewrite app_assoc. apply agrees_calls. now apply new_config_agrees.
  Qed.

  Lemma copy_get c k fb : get fshow (copy_config fshow has_cupy c) k fb = get fshow c k fb.
  Proof. reflexivity. Qed.

  Lemma set_bool_getbool c k b fb : k <> "geometry" ->
     getbool fshow (fst (set c k (VBool b))) k fb = b.
  Proof.
    intros Hg. unfold getbool, get. destruct (set_spec c k (VBool b)) as [G _].
    rewrite G, String.eqb_refl. unfold canonical. simpl.
    rewrite andb_false_r. now destruct b.
  Qed.

  Notation picks := (Config_Spec.picks fshow has_cupy).

  Lemma set_xp c k v : xp (fst (set c k v)) = match picks (k, v) with Some x => x | None => xp c end.
  Proof.
    unfold Config_Model.set, adjust_on_set, Config_Spec.picks, get; simpl.
    destruct (String.eqb k "processing-unit-type") eqn:Ep.
    - apply String.eqb_eq in Ep; subst k. rewrite dict_get_set_same. simpl.
      destruct (String.eqb (lower (py_str fshow v)) "cpu"); simpl; [reflexivity|].
      destruct (String.eqb (lower (py_str fshow v)) "gpu"); simpl; [|reflexivity].
      destruct has_cupy; reflexivity.
    - simpl. match goal with |- context [if ?b then _ else _] => destruct b end; reflexivity.
  Qed.

  Lemma xp_update items : forall c, xp (fst (update c items)) =
      match last_pick fshow has_cupy (effective items) with Some x => x | None => xp c end.
  Proof.
    unfold last_pick.
    assert (G : forall items c, xp (fst (update c items)) =
      fold_left (fun a kv => match picks kv with Some x => x | None => a end) (effective items) (xp c)).
    { induction items0 as [|[k v] r IH]; intros c; simpl; [reflexivity|].
      pose proof (set_xp c k v) as X. destruct (set_spec c k v) as [_ Hs].
      destruct (set c k v) as [c' e]. simpl in *. subst e.
      destruct (fails k v); simpl; rewrite <- X; [reflexivity|apply IH]. }
    intros c. rewrite G. generalize (effective items) as l. intros l.
    assert (H : forall l a, fold_left (fun a kv => match picks kv with Some x => x | None => a end) l a =
       match fold_left (fun a kv => match picks kv with Some x => Some x | None => a end) l None with Some x => x | None => a end).
    { clear. intros l.
      assert (H : forall l o a, fold_left (fun a kv => match picks kv with Some x => x | None => a end) l (match o with Some x => x | None => a end) =
       match fold_left (fun a kv => match picks kv with Some x => Some x | None => a end) l o with Some x => x | None => a end).
      { induction l0 as [|kv l0 IH]; intros o a; simpl; [reflexivity|].
        destruct (picks kv) as [x|]; [apply (IH (Some x))|apply (IH o)]. }
      intros a. apply (H l None). }
    apply H.
  Qed.

  Lemma xp_calls l : forall c, xp (run_calls c l) =
      match last_pick fshow has_cupy (flat_map call_writes l) with Some x => x | None => xp c end.
  Proof.
    assert (LP : forall a b, last_pick fshow has_cupy (a ++ b) =
       match last_pick fshow has_cupy b with Some x => Some x | None => last_pick fshow has_cupy a end).
    { intros a b. unfold last_pick. rewrite fold_left_app.
      generalize (fold_left (fun a0 kv => match picks kv with Some x => Some x | None => a0 end) a None) as o.
      induction b as [|kv b IH]; intros o; simpl; [reflexivity|].
      destruct (picks kv) as [x|]; [|apply IH].
      assert (Hx : forall l x, exists y, fold_left (fun a0 kv => match picks kv with Some x => Some x | None => a0 end) l (Some x) = Some y).
      { clear. induction l as [|kv l IH]; intros x; simpl; [eauto|]. destruct (picks kv); apply IH. }
      destruct (Hx b x) as [y ->]. reflexivity. }
    induction l as [|o l IH]; intros c; simpl; [reflexivity|].
    rewrite IH, LP. destruct (last_pick fshow has_cupy (flat_map call_writes l)); [reflexivity|].
    destruct o as [k v|items]; simpl.
    - rewrite set_xp. unfold last_pick; simpl. now destruct (picks (k, v)).
    - apply xp_update.
  Qed.
End S.

(** ** factorize *)
Lemma first_divisor_spec n count : forall i, 2 <= i -> 
  (forall j, 2 <= j < i -> n mod j <> 0) ->
  i <= n -> n < i + Z.of_nat count ->
  exists p, first_divisor n i count = Some p /\ 2 <= p <= n /\ n mod p = 0 /\
            (forall j, 2 <= j < p -> n mod j <> 0).
Proof.
  induction count as [|c IH]; intros i Hi Hnd Hin Hc; simpl.
  - lia.
  - destruct (Z.eqb (n mod i) 0) eqn:E.
    + exists i. repeat split; auto; lia.
    + assert (Hne : i <> n). { intros ->. rewrite Z_mod_same_full in E. lia. }
      apply IH; try lia.
      intros j Hj. destruct (Z.eq_dec j i) as [->|]; [lia|]. apply Hnd; lia.
Qed.

Lemma least_divisor_prime n p : 2 <= p -> n mod p = 0 ->
  (forall j, 2 <= j < p -> n mod j <> 0) -> prime p.
Proof.
  intros Hp Hd Hl. apply prime_alt. split; [lia|].
  intros m Hm Hdiv. apply (Hl m); [lia|].
  apply Zdivide_mod. apply Zmod_divide in Hd; [|lia].
  eapply Z.divide_trans; eauto.
Qed.

Lemma factorize_fuel_spec f : forall n acc, (Z.to_nat n < f)%nat ->
  exists l, factorize_fuel f n acc = Some (acc ++ l) /\
    (n <= 1 -> l = []) /\
    (2 <= n -> Sorted Z.le l /\ Forall prime l /\ product l = n /\
       (forall p, In p l -> forall j, 2 <= j < hd 2 l -> n mod j <> 0)).
Proof.
  induction f as [|f IH]; intros n acc Hf; [lia|].
  cbn [factorize_fuel]. destruct (Z.leb n 1) eqn:E.
  - exists []. rewrite app_nil_r. repeat split; auto; try lia.
  - destruct (first_divisor_spec n (Z.to_nat (n-1)) 2) as (p & -> & Hp & Hd & Hmin); try lia.
    assert (Hdv : n = p * (n / p)). { apply Z.div_exact; lia. }
    assert (Hlt : n / p < n). { apply Z.div_lt; lia. }
    assert (Hpos : 1 <= n / p). { apply Z.div_le_lower_bound; lia. }
    destruct (IH (n / p) (acc ++ [p]) ltac:(lia)) as (l & -> & H1 & H2).
    exists (p :: l). rewrite <- app_assoc. split; [reflexivity|]. split; [lia|]. intros _.
    destruct (Z.eq_dec (n / p) 1) as [E1|E1].
    + rewrite (H1 ltac:(lia)). simpl. repeat split.
      * repeat constructor.
      * constructor; [|constructor]. eapply least_divisor_prime; eauto; lia.
      * lia.
      * intros _ _. exact Hmin.
    + destruct (H2 ltac:(lia)) as (Hs & Hpr & Hprod & _).
      assert (Hge : forall q, In q l -> p <= q).
      { intros q Hq. destruct (Z_lt_le_dec q p) as [Hlt2|]; [exfalso|assumption].
        assert (prime q) by (rewrite Forall_forall in Hpr; auto).
        pose proof (prime_ge_2 _ H). apply (Hmin q); [lia|].
        apply Zdivide_mod. rewrite Hdv. apply Z.divide_mul_r.
        rewrite <- Hprod. clear - Hq. unfold product.
        induction l as [|x l IHl]; simpl in *; [tauto|].
        destruct Hq as [->|Hq]; [apply Z.divide_mul_l, Z.divide_refl|apply Z.divide_mul_r; auto]. }
      repeat split.
      * constructor; auto. destruct l as [|q l]; constructor. apply Hge; left; reflexivity.
      * constructor; auto. eapply least_divisor_prime; eauto; lia.
      * unfold product in *; simpl. rewrite Hprod. lia.
      * intros _ _. exact Hmin.
Qed.

Lemma factorize_small n : n <= 1 -> factorize n = Some [].
Proof.
  intros H. unfold factorize. cbn [factorize_fuel].
  destruct (Z.leb_spec n 1); [reflexivity|lia].
Qed.

Lemma factorize_correct n : 2 <= n -> exists l, factorize n = Some l /\ prime_factorisation n l.
Proof.
  intros H. unfold factorize, prime_factorisation.
  destruct (factorize_fuel_spec (S (Z.to_nat n)) n [] ltac:(lia)) as (l & Hl & _ & H2).
  destruct (H2 H) as (A & B & C & _). exists l. auto.
Qed.

(** Uniqueness of prime factorisation. *)
Lemma product_perm l1 l2 : Permutation l1 l2 -> product l1 = product l2.
Proof.
  intros H; unfold product; induction H; simpl; try lia; nia.
Qed.
Lemma prime_list_pos l : Forall prime l -> 1 <= product l.
Proof.
  intros H; unfold product; induction H as [|p l Hp _ IH]; simpl; [lia|].
  pose proof (prime_ge_2 _ Hp). nia.
Qed.
Lemma prime_in_product p l : prime p -> Forall prime l -> (p | product l) -> In p l.
Proof.
  intros Hp Hl; induction Hl as [|q l Hq Hl IH]; unfold product; simpl; intros Hd.
  - apply Z.divide_1_r_nonneg in Hd; pose proof (prime_ge_2 _ Hp); lia.
  - apply prime_mult in Hd; auto. destruct Hd as [Hd|Hd]; [left|right; auto].
    symmetry; apply prime_div_prime; auto.
Qed.
Lemma prime_lists_unique l1 : forall l2, Forall prime l1 -> Forall prime l2 ->
  product l1 = product l2 -> Permutation l1 l2.
Proof.
  induction l1 as [|p l1 IH]; intros l2 H1 H2 E.
  - destruct l2 as [|q l2]; [constructor|]. exfalso.
    inversion H2; subst. unfold product in E; simpl in E.
    pose proof (prime_list_pos l2 H4). pose proof (prime_ge_2 _ H3). unfold product in *. nia.
  - inversion H1 as [|? ? Hp Hl]; subst.
    assert (Hin : In p l2).
    { apply prime_in_product; auto. rewrite <- E. unfold product; simpl.
      apply Z.divide_mul_l, Z.divide_refl. }
    apply in_split in Hin. destruct Hin as (a & b & ->).
    apply Permutation_cons_app. apply IH; auto.
    + rewrite Forall_app in *. destruct H2 as [A B]. inversion B; subst. auto.
    + assert (E2 : product (a ++ p :: b) = p * product (a ++ b)).
      { rewrite <- (product_perm (p :: a ++ b) (a ++ p :: b)); [reflexivity|].
        apply Permutation_middle. }
      rewrite E2 in E. unfold product in E at 1; simpl in E.
      pose proof (prime_ge_2 _ Hp). apply Z.mul_reg_l with p; [lia|exact E].
Qed.

Lemma prime_2' : prime 2. Proof. apply prime_2. Qed.
Lemma prime_3' : prime 3. Proof. apply prime_3. Qed.
Ltac small_prime p := apply prime_intro; [lia|];
  let n := fresh "n" in intros n Hn; apply Zgcd_1_rel_prime;
  assert (exists k, n = Z.of_nat k /\ (k < Z.to_nat p)%nat) as (k & -> & Hk) by (exists (Z.to_nat n); lia);
  do 13 (destruct k as [|k]; [try reflexivity; lia|]); exfalso; lia.
Lemma prime_5' : prime 5. Proof. small_prime 5. Qed.
Lemma prime_7' : prime 7. Proof. small_prime 7. Qed.
Lemma prime_11' : prime 11. Proof. small_prime 11. Qed.
Lemma prime_13' : prime 13. Proof. small_prime 13. Qed.
Lemma not_prime_4 : ~ prime 4.
Proof. intros [_ H]. specialize (H 2 ltac:(lia)).
  apply Zgcd_1_rel_prime in H. vm_compute in H. discriminate. Qed.

Lemma product_app a b : product (a ++ b) = product a * product b.
Proof. unfold product. induction a as [|x a IH]; cbn [fold_right app]; [lia|]. rewrite IH. lia. Qed.
Lemma product_repeat p n : product (repeat p n) = p ^ Z.of_nat n.
Proof.
  induction n as [|n IH]; [reflexivity|].
  rewrite Nat2Z.inj_succ, Z.pow_succ_r by lia. rewrite <- IH. reflexivity.
Qed.

Definition small_ps := [2; 3; 4; 5; 7; 11; 13].

Lemma count_z_perm x l1 l2 : Permutation l1 l2 -> count_z x l1 = count_z x l2.
Proof.
  intros H; unfold count_z. induction H; simpl; auto.
  - destruct (Z.eqb x x0); simpl; lia.
  - destruct (Z.eqb x x0), (Z.eqb x y); simpl; lia.
  - lia.
Qed.
Lemma count_z_app x a b : count_z x (a ++ b) = (count_z x a + count_z x b)%nat.
Proof. unfold count_z. rewrite filter_app, app_length. reflexivity. Qed.
Lemma count_z_repeat x y n : count_z x (repeat y n) = if Z.eqb x y then n else 0%nat.
Proof.
  unfold count_z. induction n as [|n IH]; simpl; [now destruct (Z.eqb x y)|].
  destruct (Z.eqb x y); simpl; auto.
Qed.

Definition canon_list a b c d e f :=
  repeat 2 a ++ repeat 3 b ++ repeat 5 c ++ repeat 7 d ++ repeat 11 e ++ repeat 13 f.
Lemma canon_list_prime a b c d e f : Forall prime (canon_list a b c d e f).
Proof.
  assert (R : forall p n, prime p -> Forall prime (repeat p n)).
  { intros p n Hp; induction n; simpl; constructor; auto. }
  unfold canon_list. rewrite !Forall_app.
  repeat split; apply R; auto using prime_2', prime_3', prime_5', prime_7', prime_11', prime_13'.
Qed.
Lemma canon_list_product a b c d e f : product (canon_list a b c d e f) =
  2 ^ Z.of_nat a * 3 ^ Z.of_nat b * 5 ^ Z.of_nat c * 7 ^ Z.of_nat d
              * 11 ^ Z.of_nat e * 13 ^ Z.of_nat f.
Proof. unfold canon_list. rewrite !product_app, !product_repeat. ring. Qed.

Lemma small_list_product l : forallb (fun f => existsb (Z.eqb f) small_ps) l = true -> ~ In 4 l ->
  product l = product (canon_list (count_z 2 l) (count_z 3 l) (count_z 5 l) (count_z 7 l) (count_z 11 l) (count_z 13 l)).
Proof.
  intros H H4. rewrite canon_list_product.
  induction l as [|x l IH]; [reflexivity|].
  cbn [forallb] in H. apply andb_prop in H. destruct H as [Hx Hl].
  assert (Hn4 : ~ In 4 l) by (intros I; apply H4; right; exact I).
  specialize (IH Hl Hn4).
  assert (Hc : x = 2 \/ x = 3 \/ x = 5 \/ x = 7 \/ x = 11 \/ x = 13).
  { apply existsb_exists in Hx. destruct Hx as (y & Hy & E). apply Z.eqb_eq in E; subst y.
    unfold small_ps in Hy. simpl in Hy.
    assert (x <> 4) by (intros ->; apply H4; left; reflexivity). lia. }
  assert (Hcz : forall y, count_z y (x :: l) = ((if Z.eqb y x then 1 else 0) + count_z y l)%nat).
  { intros y; unfold count_z; simpl. destruct (Z.eqb y x); reflexivity. }
  rewrite !Hcz. change (product (x :: l)) with (x * product l). rewrite IH.
  destruct Hc as [->|[->|[->|[->|[->| ->]]]]]; cbn [Z.eqb Pos.eqb Nat.add];
    rewrite Nat2Z.inj_succ, Z.pow_succ_r by lia; ring.
Qed.

Lemma factorize_no4 n l : factorize n = Some l -> ~ In 4 l.
Proof.
  intros H I. destruct (Z_le_gt_dec n 1).
  - rewrite factorize_small in H by lia. injection H as <-. destruct I.
  - destruct (factorize_correct n ltac:(lia)) as (l' & H' & _ & Hp & _).
    rewrite H in H'; injection H' as <-. rewrite Forall_forall in Hp.
    apply not_prime_4; auto.
Qed.

Lemma odd_mod n : negb (Z.eqb (n mod 2) 0) = Z.odd n.
Proof. rewrite Zmod_odd. now destruct (Z.odd n). Qed.

Lemma good_size_spec n : 0 <= n -> (good_size n = true <-> fft_friendly n).
Proof.
  intros Hn0. unfold good_size, fft_friendly.
  destruct (Z_le_gt_dec (n - 1) 1) as [Hs|Hs].
  - rewrite factorize_small by lia. rewrite odd_mod. cbn [forallb]. change (Nat.ltb (count_z 11 [] + count_z 13 []) 2) with true.
    cbn [andb]. split.
    + intros Ho. split; [exact Ho|]. left. assert (n = 0 \/ n = 1 \/ n = 2) as [->|[->| ->]] by lia; try reflexivity; discriminate.
    + tauto.
  - destruct (factorize_correct (n-1) ltac:(lia)) as (l & Hl & Hsrt & Hp & Hprod).
    pose proof (factorize_no4 _ _ Hl) as H4. rewrite Hl. rewrite !andb_true_iff, odd_mod, Nat.ltb_lt.
    change [2; 3; 4; 5; 7; 11; 13] with small_ps.
    split.
    + intros [[Ha Hc] Ho]. split; [exact Ho|]. right.
      exists (count_z 2 l), (count_z 3 l), (count_z 5 l), (count_z 7 l), (count_z 11 l), (count_z 13 l).
      split; [lia|]. rewrite <- Hprod, (small_list_product l Ha H4). apply canon_list_product.
    + intros [Ho [->|(a & b & c & d & e & f & Hef & E)]]; [lia|].
      rewrite <- canon_list_product in E. rewrite <- Hprod in E.
      apply prime_lists_unique in E; auto using canon_list_prime.
      split; [split|exact Ho].
      * apply forallb_forall. intros x Hx. apply (Permutation_in _ E) in Hx.
        unfold canon_list in Hx. rewrite !in_app_iff in Hx.
        destruct Hx as [Hx|[Hx|[Hx|[Hx|[Hx|Hx]]]]]; apply repeat_spec in Hx; subst x; reflexivity.
      * rewrite !(count_z_perm _ _ _ E). unfold canon_list. rewrite !count_z_app, !count_z_repeat. simpl. lia.
Qed.

(** ** The search *)
Lemma in_zrange lo hi x : In x (zrange lo hi) <-> lo <= x < hi.
Proof.
  unfold zrange. rewrite in_map_iff. split.
  - intros (i & <- & Hi). apply in_seq in Hi. lia.
  - intros H. exists (Z.to_nat (x - lo)). split; [lia|]. apply in_seq. lia.
Qed.

Lemma argmin_from_spec e l : forall b,
  (In (argmin_from e b l) (b :: l)) /\
  (forall x, In x (b :: l) -> Z.abs (argmin_from e b l - e) <= Z.abs (x - e)).
Proof.
  induction l as [|y l IH]; intros b; cbn [argmin_from].
  - split; [left; reflexivity|]. intros x [->|[]]; lia.
  - destruct (Z.ltb_spec (Z.abs (y - e)) (Z.abs (b - e))) as [Hlt|Hge].
    + destruct (IH y) as [I M]. split; [right; exact I|].
      intros x [->|Hx]; [|auto]. specialize (M y (or_introl eq_refl)). lia.
    + destruct (IH b) as [I M]. split; [destruct I; [left|right; right]; assumption|].
      intros x [->|[->|Hx]]; [apply M; left; reflexivity| |apply M; right; assumption].
      specialize (M b (or_introl eq_refl)). lia.
Qed.

(** On an ascending list the first minimum is the smallest minimiser. *)
Lemma argmin_from_least e l : forall b, StronglySorted Z.lt (b :: l) ->
  forall x, In x (b :: l) -> Z.abs (x - e) = Z.abs (argmin_from e b l - e) -> argmin_from e b l <= x.
Proof.
  induction l as [|y l IH]; intros b Hs x Hx Heq; cbn [argmin_from] in *.
  - destruct Hx as [->|[]]; lia.
  - inversion Hs as [|? ? Hs1 Hb]; subst. inversion Hs1 as [|? ? Hs2 Hy]; subst.
    rewrite Forall_forall in Hb, Hy.
    destruct (Z.ltb_spec (Z.abs (y - e)) (Z.abs (b - e))) as [Hlt|Hge].
    + destruct Hx as [->|Hx]; [|apply IH; auto].
      exfalso. destruct (argmin_from_spec e l y) as [_ M].
      specialize (M y (or_introl eq_refl)). lia.
    + assert (Hbl : StronglySorted Z.lt (b :: l)).
      { constructor; auto. rewrite Forall_forall. intros z Hz. apply Hb. right; exact Hz. }
      destruct Hx as [->|[->|Hx]].
      * apply IH; auto. left; reflexivity.
      * destruct (argmin_from_spec e l b) as [I M].
        specialize (M b (or_introl eq_refl)).
        assert (b < x) by (apply Hb; left; reflexivity).
        assert (Heb : Z.abs (b - e) = Z.abs (argmin_from e b l - e)) by lia.
        pose proof (IH b Hbl b (or_introl eq_refl) Heb). lia.
      * apply IH; auto. right; exact Hx.
Qed.

Lemma zrange_sorted lo hi : StronglySorted Z.lt (zrange lo hi).
Proof.
  unfold zrange. generalize (Z.to_nat (hi - lo)) as n. intros n.
  assert (G : forall s, StronglySorted Z.lt (map (fun i => lo + Z.of_nat i) (seq s n))).
  { induction n as [|n IH]; intros s; simpl; constructor; auto.
    rewrite Forall_forall. intros x Hx. apply in_map_iff in Hx. destruct Hx as (i & <- & Hi).
    apply in_seq in Hi. lia. }
  apply G.
Qed.
Lemma filter_ssorted (f : Z -> bool) l : StronglySorted Z.lt l -> StronglySorted Z.lt (filter f l).
Proof.
  induction 1 as [|x l Hs IH Hf]; simpl; [constructor|].
  destruct (f x); auto. constructor; auto. rewrite Forall_forall in *. intros y Hy.
  apply filter_In in Hy. apply Hf, Hy.
Qed.

Definition lower_bound e := if Z.ltb 0 (e - 100) then e - 100 else 0.

Lemma optimal_steps_some e n : optimal_steps e = Some n ->
  fft_friendly n /\ 0 <= n /\ e - 100 <= n < e + 100 /\
  (forall m, 0 <= m -> fft_friendly m -> Z.abs (n - e) <= Z.abs (m - e)) /\
  (forall m, 0 <= m -> fft_friendly m -> m < e + 100 -> Z.abs (m - e) = Z.abs (n - e) -> n <= m).
Proof.
  unfold optimal_steps. fold (lower_bound e). intros H.
  set (L := filter good_size (zrange (lower_bound e) (e + 100))) in *.
  assert (HL : forall x, In x L <-> lower_bound e <= x < e + 100 /\ fft_friendly x).
  { intros x. unfold L. rewrite filter_In, in_zrange. split; intros [A B]; split; auto;
      apply good_size_spec; auto; unfold lower_bound in A; destruct (Z.ltb_spec 0 (e-100)); lia. }
  assert (HS : StronglySorted Z.lt L) by apply filter_ssorted, zrange_sorted.
  destruct L as [|y l]; [discriminate|]. injection H as <-.
  destruct (argmin_from_spec e l y) as [I M].
  pose proof (argmin_from_least e l y HS) as Hleast.
  set (n := argmin_from e y l) in *. apply HL in I. destruct I as [Ir Ig].
  assert (Hlb : 0 <= lower_bound e /\ e - 100 <= lower_bound e /\ (forall m, 0 <= m -> e - 100 <= m -> lower_bound e <= m))
    by (unfold lower_bound; destruct (Z.ltb_spec 0 (e-100)); repeat split; lia).
  destruct Hlb as (Hl0 & Hl1 & Hl2).
  repeat split; auto; try lia.
  - apply Ig.
  - apply Ig.
  - intros m Hm Hg. destruct (Z_lt_le_dec m (e - 100)); [lia|].
    destruct (Z_lt_le_dec m (e + 100)); [|lia].
    apply M. apply HL. split; auto.
  - intros m Hm Hg Hlt Hd. destruct (Z_lt_le_dec m (e - 100)); [lia|].
    apply Hleast; auto. apply HL. split; auto.
Qed.

Lemma optimal_steps_none e : optimal_steps e = None <->
  (forall m, 0 <= m -> e - 100 <= m < e + 100 -> ~ fft_friendly m).
Proof.
  unfold optimal_steps. fold (lower_bound e).
  set (L := filter good_size (zrange (lower_bound e) (e + 100))).
  assert (HL : forall x, In x L <-> (0 <= x /\ e - 100 <= x < e + 100) /\ fft_friendly x).
  { intros x. unfold L. rewrite filter_In, in_zrange. unfold lower_bound.
    destruct (Z.ltb_spec 0 (e-100)); (split; intros [A B]; (split; [lia|]); apply good_size_spec; auto; lia). }
  split.
  - intros H m Hm Hr Hg. destruct L as [|y l]; [|discriminate].
    destruct (proj2 (HL m)); auto.
  - intros H. destruct L as [|y l]; [reflexivity|]. exfalso.
    destruct (proj1 (HL y) (or_introl eq_refl)) as [[A B] C]. exact (H y A B C).
Qed.

(** ** Totality up to 18301 by a chain of friendly numbers with gaps of at most 200 *)
Fixpoint friendly_chain (l : list Z) (from : Z) : bool :=
  match l with
  | [] => true
  | x :: r => (good_size x && Z.leb from x && Z.leb (x - from) 200 && friendly_chain r x)%bool
  end.
Fixpoint chain_last (l : list Z) (from : Z) : Z :=
  match l with [] => from | x :: r => chain_last r x end.

Lemma chain_covers l : forall from, 0 <= from -> friendly_chain l from = true -> good_size from = true ->
  forall e, from - 99 <= e -> e <= chain_last l from + 100 ->
  exists m, 0 <= m /\ e - 100 <= m < e + 100 /\ good_size m = true.
Proof.
  induction l as [|x l IH]; intros from H0 Hc Hg e H1 H2; cbn [friendly_chain chain_last] in *.
  - exists from; repeat split; auto; lia.
  - rewrite !andb_true_iff in Hc. destruct Hc as [[[Hx Ha] Hb] Hr].
    destruct (Z_le_gt_dec e (from + 100)).
    + exists from; repeat split; auto; lia.
    + apply (IH x); auto; lia.
Qed.

Definition the_chain : list Z :=
  [201; 401; 601; 801; 1001; 1201; 1401; 1601; 1801; 2001; 2201; 2401; 2601; 2801; 3001; 3201; 3361; 3529; 3697; 3889; 4051; 4225; 4411; 4609; 4803; 5001; 5201; 5401; 5601; 5761; 5941; 6049; 6241; 6401; 6601; 6751; 6931; 7129; 7291; 7489; 7681; 7841; 8001; 8193; 8321; 8449; 8641; 8821; 9001; 9101; 9241; 9409; 9605; 9801; 10001; 10193; 10369; 10561; 10753; 10921; 11089; 11265; 11341; 11521; 11701; 11881; 12001; 12151; 12349; 12545; 12741; 12937; 13123; 13313; 13501; 13651; 13825; 14001; 14113; 14257; 14407; 14581; 14743; 14851; 15001; 15121; 15289; 15401; 15601; 15751; 15877; 16039; 16201; 16385; 16501; 16641; 16801; 16897; 17011; 17151; 17281; 17473; 17641; 17837; 18001; 18201].
Lemma the_chain_ok : (friendly_chain the_chain 1 && good_size 1 && Z.eqb (chain_last the_chain 1) 18201)%bool = true.
Proof. vm_compute. reflexivity. Qed.

Lemma optimal_steps_total e : 0 <= e <= 18301 -> exists n, optimal_steps e = Some n.
Proof.
  intros He. pose proof the_chain_ok as H. rewrite !andb_true_iff in H. destruct H as [[H1 H2] H3].
  apply Z.eqb_eq in H3.
  destruct (chain_covers the_chain 1 ltac:(lia) H1 H2 e ltac:(lia) ltac:(lia)) as (m & A & B & C).
  destruct (optimal_steps e) as [n|] eqn:E; [eauto|].
  exfalso. apply (proj1 (optimal_steps_none e) E m A B). now apply good_size_spec.
Qed.

Lemma optimal_steps_18302 : optimal_steps 18302 = None.
Proof. vm_compute. reflexivity. Qed.

(** ** Adjustment of the configuration *)
Section Adj.
  Variable fshow : Q -> string.
  Variable parse : string -> option Q.
  Variable has_cupy : bool.

  Lemma set_plain c k v : k <> "geometry" -> k <> "processing-unit-type" ->
    set fshow has_cupy c k v = (mkCfg (dict_set (values c) k v) (xp c), None).
  Proof.
    intros H1 H2. unfold set, adjust_on_set.
    apply String.eqb_neq in H1, H2. rewrite H2, H1. reflexivity.
  Qed.

  Lemma adjust_window_ok c c' : adjust_window fshow parse has_cupy c = (c', None) ->
    let w := getfloat parse c "window-width" 0 in
    let h := getfloat parse c "transverse-step" 0 in
    exists n, optimal_steps (trunc (w / h)) = Some n /\ ~ (h == 0)%Q /\
      getint parse c' "window-width-steps" 0 = n /\
      (getfloat parse c' "window-width" 0 == inject_Z n * h)%Q /\
      (forall k, k <> "window-width" -> k <> "window-width-steps" -> getraw c' k = getraw c k).
  Proof.
    unfold adjust_window. intros H.
    set (w := getfloat parse c "window-width" 0) in *.
    set (h := getfloat parse c "transverse-step" 0) in *. cbv zeta.
    destruct (Qeq_bool h 0) eqn:Eh; [discriminate|].
    destruct (optimal_steps (trunc (w / h))) as [n|]; [|discriminate].
    exists n. split; [reflexivity|]. split.
    { intros C. apply Qeq_bool_iff in C. congruence. }
    rewrite !set_plain in H by discriminate. injection H as <-.
    unfold getint, getfloat, getraw; cbn [values]. rewrite !dict_get_set_same. cbn [to_float].
    rewrite dict_get_set_other by discriminate. rewrite dict_get_set_same. cbn [to_float].
    repeat split.
    - unfold trunc, inject_Z; simpl. now rewrite Z.quot_1_r.
    - intros k H1 H2. now rewrite !dict_get_set_other by auto.
  Qed.

  Lemma adjust_window_fail c c' e : adjust_window fshow parse has_cupy c = (c', Some e) ->
    let w := getfloat parse c "window-width" 0 in
    let h := getfloat parse c "transverse-step" 0 in
    c' = c /\ ((h == 0)%Q \/ optimal_steps (trunc (w / h)) = None).
  Proof.
    unfold adjust_window. intros H.
    set (w := getfloat parse c "window-width" 0) in *.
    set (h := getfloat parse c "transverse-step" 0) in *. cbv zeta.
    destruct (Qeq_bool h 0) eqn:Eh; [injection H as <- _; split; [reflexivity|left; now apply Qeq_bool_iff]|].
    destruct (optimal_steps (trunc (w / h))) as [n|]; [|injection H as <- _; auto].
    rewrite !set_plain in H by discriminate. discriminate.
  Qed.
End Adj.

(** ** round() *)
Lemma round_q_near q : (Qabs.Qabs (inject_Z (round_q q) - q) <= 1 # 2)%Q.
Proof.
  unfold round_q. pose proof (Qfloor_le q) as Hl. pose proof (Qlt_floor q) as Hu.
  set (f := Qfloor q) in *.
  assert (Hf1 : (inject_Z (f + 1) == inject_Z f + 1)%Q) by (rewrite inject_Z_plus; reflexivity).
  rewrite Hf1 in Hu.
  apply Qabs.Qabs_Qle_condition.
  destruct (Qcompare_spec (q - inject_Z f) (1 # 2)) as [E|E|E].
  - destruct (Z.even f); rewrite ?Hf1; split; Lqa.lra.
  - split; Lqa.lra.
  - rewrite Hf1. split; Lqa.lra.
Qed.

Lemma round_q_int z : round_q (inject_Z z) = z.
Proof.
  unfold round_q. rewrite Qfloor_Z. 
  destruct (Qcompare_spec (inject_Z z - inject_Z z) (1 # 2)) as [E|E|E]; auto; exfalso; lra.
Qed.

Section Adj2.
  Variable fshow : Q -> string.
  Variable parse : string -> option Q.
  Variable has_cupy : bool.
  Variable rt : Q -> Q.

  Notation adjust_fineness := (adjust_fineness fshow parse has_cupy rt).

  Lemma adjust_fineness_coarse c (s := rt (getfloat parse c "plasma-particles-per-cell" 0)) :
    (1 <= s)%Q ->
    exists c', adjust_fineness c = (c', None) /\
      getraw c' "plasma-fineness" = Some (VInt (round_q s)) /\
      getraw c' "plasma-particles-per-cell" = Some (VInt (round_q s * round_q s)) /\
      (forall k, k <> "plasma-fineness" -> k <> "plasma-particles-per-cell" -> getraw c' k = getraw c k).
  Proof.
    intros Hs. unfold Config_Model.adjust_fineness. fold s. repeat (rewrite set_plain by discriminate; cbv beta iota).
    destruct (Qle_bool 1 s) eqn:E; [|apply Qle_bool_iff in Hs; congruence].
    rewrite andb_false_r. eexists. split; [reflexivity|]. unfold getraw; cbn [values].
    split; [|split].
    - rewrite dict_get_set_other by discriminate. apply dict_get_set_same.
    - apply dict_get_set_same.
    - intros k H1 H2. now rewrite !dict_get_set_other by auto.
  Qed.

  Lemma adjust_fineness_fine c (s := rt (getfloat parse c "plasma-particles-per-cell" 0)) :
    (0 < s)%Q -> (s < 1)%Q ->
    exists c' m, adjust_fineness c = (c', None) /\ m = round_q (/ s) /\ 1 <= m /\
      getraw c' "plasma-fineness" = Some (VFloat (/ inject_Z m)) /\
      getraw c' "plasma-particles-per-cell" = Some (VFloat (/ inject_Z (m * m))) /\
      (forall k, k <> "plasma-fineness" -> k <> "plasma-particles-per-cell" -> getraw c' k = getraw c k).
  Proof.
    intros H0 H1. unfold Config_Model.adjust_fineness. fold s. repeat (rewrite set_plain by discriminate; cbv beta iota).
    destruct (Qle_bool s 0) eqn:E0; [apply Qle_bool_iff in E0; exfalso; lra|].
    destruct (Qle_bool 1 s) eqn:E1; [apply Qle_bool_iff in E1; exfalso; lra|].
    cbn [negb andb]. repeat (rewrite set_plain by discriminate; cbv beta iota).
    eexists. exists (round_q (/ s)). split; [reflexivity|]. split; [reflexivity|].
    split.
    { pose proof (round_q_near (/ s)) as N. apply Qabs_Qle_condition in N. destruct N as [N _].
      assert (Hi : (1 < / s)%Q).
      { assert (E : (s * / s == 1)%Q) by (apply Qmult_inv_r; lra).
        destruct (Qlt_le_dec 1 (/ s)) as [|Hle]; auto. exfalso.
        pose proof (Qmult_le_compat_r _ _ s Hle ltac:(lra)). lra. }
      assert (Hz : (1 # 2 < inject_Z (round_q (/ s)))%Q) by lra.
      unfold Qlt, inject_Z in Hz; simpl in Hz. lia. }
    unfold getraw; cbn [values]. split; [|split].
    - rewrite dict_get_set_other by discriminate. apply dict_get_set_same.
    - apply dict_get_set_same.
    - intros k A B. now rewrite !dict_get_set_other by auto.
  Qed.

  Definition adj3 := adjust_3d fshow parse has_cupy rt.

  Lemma adjust_3d_window c c' : get fshow c "geometry" "" = "3d" ->
    adj3 c = (c', None) ->
    let w := getfloat parse c "window-width" 0 in
    let h := getfloat parse c "transverse-step" 0 in
    exists n, optimal_steps (trunc (2 * w / h)) = Some n /\ ~ (h == 0)%Q /\
      getint parse c' "window-width-steps" 0 = n /\
      (getfloat parse c' "window-width" 0 == inject_Z n * h)%Q /\
      (getfloat parse c' "transverse-step" 0 == h)%Q.
  Proof.
    intros Hg H. unfold adj3, adjust_3d in H. rewrite Hg in H.
    change (String.eqb "3d" "3d") with true in H. cbv iota in H.
    rewrite set_plain in H by discriminate.
    set (w := getfloat parse c "window-width" 0) in *.
    set (h := getfloat parse c "transverse-step" 0) in *. cbv zeta.
    set (c1 := mkCfg (dict_set (values c) "window-width" (VFloat (2 * w))) (xp c)) in *.
    destruct (adjust_window fshow parse has_cupy c1) as [c2 [e|]] eqn:E2; [discriminate|].
    destruct (adjust_window_ok _ _ _ _ _ E2) as (n & H1 & H2 & H3 & H4 & H5).
    assert (W1 : getfloat parse c1 "window-width" 0 = (2 * w)%Q).
    { unfold getfloat, c1; cbn [values]. now rewrite dict_get_set_same. }
    assert (W2 : getfloat parse c1 "transverse-step" 0 = h).
    { unfold h, getfloat, c1; cbn [values]. now rewrite dict_get_set_other by discriminate. }
    rewrite W1, W2 in *.
    assert (K : forall k, (k = "window-width" \/ k = "window-width-steps" \/ k = "transverse-step") ->
                dict_get (values c') k = dict_get (values c2) k).
    { intros k Hk. destruct (adjust_fineness c2) as [c3 [e|]] eqn:E3; [discriminate|].
      assert (K3 : dict_get (values c3) k = dict_get (values c2) k).
      { unfold Config_Model.adjust_fineness in E3. repeat (rewrite set_plain in E3 by discriminate; cbv beta iota zeta in E3).
        match type of E3 with context [if ?b then _ else _] => destruct b end;
        repeat (rewrite set_plain in E3 by discriminate; cbv beta iota zeta in E3); injection E3 as <-; cbn [values];
        rewrite !dict_get_set_other by (intros ->; destruct Hk as [|[|]]; discriminate); reflexivity. }
      rewrite <- K3.
      match type of H with context [if ?b then _ else _] => destruct b end.
      - rewrite set_plain in H by discriminate. injection H as <-. cbn [values].
        apply dict_get_set_other. intros ->; destruct Hk as [|[|]]; discriminate.
      - injection H as <-. reflexivity. }
    exists n. split; [exact H1|]. split; [exact H2|].
    unfold getint, getfloat in *. rewrite !K by auto. split; [exact H3|]. split; [exact H4|].
    assert (Ht : getraw c2 "transverse-step" = getraw c1 "transverse-step") by (apply H5; discriminate).
    unfold getraw in Ht. rewrite Ht, W2. reflexivity.
  Qed.

  Lemma adjust_3d_rest c c' : get fshow c "geometry" "" = "3d" -> adj3 c = (c', None) ->
    let k0 := "field-solver-subtraction-coefficient" in
    (get fshow c k0 "" = "1" -> getraw c' k0 = Some (VFloat (1 + getfloat parse c "xi-step" 0))) /\
    (get fshow c k0 "" <> "1" -> getraw c' k0 = getraw c k0) /\
    (forall k, ~ In k [k0; "window-width"; "window-width-steps"; "plasma-fineness"; "plasma-particles-per-cell"] -> getraw c' k = getraw c k).
  Proof.
    intros Hg H k0. unfold adj3, adjust_3d in H. rewrite Hg in H. change (String.eqb "3d" "3d") with true in H. cbv iota in H.
    rewrite set_plain in H by discriminate.
    set (w := getfloat parse c "window-width" 0) in *.
    set (c1 := mkCfg (dict_set (values c) "window-width" (VFloat (2 * w))) (xp c)) in *.
    destruct (adjust_window fshow parse has_cupy c1) as [c2 [e|]] eqn:E2; [discriminate|].
    destruct (adjust_window_ok _ _ _ _ _ E2) as (n & _ & _ & _ & _ & H5).
    destruct (adjust_fineness c2) as [c3 [e|]] eqn:E3; [discriminate|].
    assert (K3 : forall k, k <> "plasma-fineness" -> k <> "plasma-particles-per-cell" -> dict_get (values c3) k = dict_get (values c2) k).
    { intros k N1 N2. unfold Config_Model.adjust_fineness in E3. repeat (rewrite set_plain in E3 by discriminate; cbv beta iota zeta in E3).
      match type of E3 with context [if ?b then _ else _] => destruct b end;
      repeat (rewrite set_plain in E3 by discriminate; cbv beta iota zeta in E3); injection E3 as <-; cbn [values];
      rewrite !dict_get_set_other by auto; reflexivity. }
    assert (K : forall k, ~ In k ["window-width"; "window-width-steps"; "plasma-fineness"; "plasma-particles-per-cell"] -> dict_get (values c3) k = dict_get (values c) k).
    { intros k Hk. cbn [In] in Hk. rewrite K3 by (intros ->; tauto). assert (A := H5 k). unfold getraw in A. rewrite A by (intros ->; tauto).
      unfold c1. cbn [values]. apply dict_get_set_other. intros ->; tauto. }
    assert (G : get fshow c3 k0 "" = get fshow c k0 "") by (unfold get; rewrite K; [reflexivity|cbn; intuition discriminate]).
    assert (X : getfloat parse c3 "xi-step" 0 = getfloat parse c "xi-step" 0) by (unfold getfloat; rewrite K; [reflexivity|cbn; intuition discriminate]).
    fold k0 in H. rewrite G, X in H.
    destruct (String.eqb_spec (get fshow c k0 "") "1") as [E|E].
    - rewrite set_plain in H by discriminate. injection H as <-. unfold getraw. cbn [values].
      split; [intros _; apply dict_get_set_same|]. split; [tauto|]. intros k Hk. cbn [In] in Hk. rewrite dict_get_set_other by (intros ->; tauto). apply K. cbn. tauto.
    - injection H as <-. unfold getraw. split; [tauto|]. split; [intros _; apply K; cbn; intuition discriminate|]. intros k Hk. apply K. cbn in *. tauto.
  Qed.

  Lemma adjust_3d_other c : get fshow c "geometry" "" <> "3d" -> adj3 c = (c, None).
  Proof. intros H. unfold adj3, adjust_3d. apply String.eqb_neq in H. now rewrite H. Qed.
End Adj2.

Definition cfg_3D_upper : cfg := Eval vm_compute in fst (new_config (fun _ => "") false [("geometry", VStr "3D")] true).
