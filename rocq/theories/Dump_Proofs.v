(** Lemmas for C67. *)
From Coq Require Import List ZArith QArith String Ascii Bool Lia Arith.
From Verif Require Import Config_Model Dump_Model Dump_Spec.
Import ListNotations.
Open Scope string_scope.

Definition quote : ascii := "'".
Definition colon : ascii := ":".
Lemma app_assoc' (a b c : string) : (a ++ b) ++ c = a ++ (b ++ c).
Proof. induction a; cbn; congruence. Qed.
Lemma app_nil' (a : string) : a ++ "" = a.
Proof. induction a; cbn; congruence. Qed.
Lemma len_app (a b : string) : String.length (a ++ b) = (String.length a + String.length b)%nat.
Proof. induction a; cbn; congruence. Qed.
Lemma app_inv (a b c : string) : a ++ b = a ++ c -> b = c.
Proof. induction a; cbn; intros H; [exact H|]. injection H as H. auto. Qed.

(** ** Where a key can match *)
(** what may follow an apostrophe *)
Fixpoint quote_ok (s : string) : bool :=
  match s with
  | EmptyString => false
  | String c t => if key_char c then quote_ok t else if Ascii.eqb c quote then match t with EmptyString => false | String d _ => negb (Ascii.eqb d colon) end else true
  end.
Fixpoint raw_ok (s : string) : bool :=
  match s with EmptyString => true | String c t => (if Ascii.eqb c quote then quote_ok t else true) && raw_ok t end.

Lemma quote_blocks k t rest : all_chars key_char k = true -> quote_ok t = true -> after_prefix (k ++ "': ") (t ++ rest) = None.
Proof.
  revert t. induction k as [|a k IH]; intros t Hk Ht.
  - destruct t as [|c t]; [discriminate|]. cbn [append after_prefix quote_ok] in *. fold quote. destruct (Ascii.eqb quote c) eqn:E; [|reflexivity].
    apply Ascii.eqb_eq in E. subst c. change (key_char quote) with false in Ht. cbn iota in Ht. rewrite Ascii.eqb_refl in Ht.
    destruct t as [|d t]; [discriminate|]. cbn [append after_prefix]. fold colon. rewrite Ascii.eqb_sym. apply negb_true_iff in Ht. now rewrite Ht.
  - destruct t as [|c t]; [discriminate|]. cbn [all_chars] in Hk. apply andb_prop in Hk as [Ha Hk]. cbn [append after_prefix].
    destruct (Ascii.eqb a c) eqn:E; [|reflexivity]. apply Ascii.eqb_eq in E. subst c. cbn [quote_ok] in Ht. rewrite Ha in Ht. now apply IH.
Qed.

Section Sub.
  Variable k : string.
  Variable m : string -> option string.
  Variable new : string.
  Hypothesis Hk : option_name k.
  Hypothesis Hm : forall s, after_prefix (key_text k) s = None -> m s = None.
  Hypothesis Hl : forall s r, m s = Some r -> (String.length r < String.length s)%nat.

  Lemma fuel_enough f : forall f' s, (String.length s <= f)%nat -> (String.length s <= f')%nat -> re_sub m new f s = re_sub m new f' s.
  Proof.
    induction f as [|f IH]; intros f' s H H'.
    - destruct s; [|cbn in H; lia]. destruct f'; reflexivity.
    - destruct s as [|c t]; [destruct f'; reflexivity|]. destruct f' as [|f']; [cbn in H'; lia|]. cbn [re_sub String.length] in *.
      destruct (m (String c t)) as [r|] eqn:E.
      + f_equal. apply Hl in E. cbn [String.length] in E. apply IH; lia.
      + f_equal. apply IH; lia.
  Qed.
  Lemma sub_skip c t : m (String c t) = None -> substitute m new (String c t) = String c (substitute m new t).
  Proof. intros E. unfold substitute. cbn [String.length re_sub]. now rewrite E. Qed.
  Lemma sub_hit s r : m s = Some r -> substitute m new s = new ++ substitute m new r.
  Proof.
    intros E. unfold substitute. assert (H := Hl _ _ E). destruct s as [|c t]; [cbn in H; lia|]. cbn [String.length re_sub]. rewrite E. f_equal.
    apply fuel_enough; cbn in H; lia.
  Qed.
  Lemma no_quote_no_match c t : Ascii.eqb c quote = false -> m (String c t) = None.
  Proof. intros H. apply Hm. unfold key_text. cbn [append after_prefix]. fold quote. rewrite Ascii.eqb_sym, H. reflexivity. Qed.
  Lemma sub_raw a s : raw_ok a = true -> substitute m new (a ++ s) = a ++ substitute m new s.
  Proof.
    induction a as [|c a IH]; intros H; [reflexivity|]. cbn [raw_ok] in H. apply andb_prop in H as [H1 H2]. cbn [append]. rewrite sub_skip; [now rewrite IH|].
    destruct (Ascii.eqb c quote) eqn:E; [|now apply no_quote_no_match]. apply Ascii.eqb_eq in E. subst c.
    apply Hm. unfold key_text. cbn [append after_prefix]. change (Ascii.eqb "'" quote) with true. cbn iota. apply quote_blocks; [apply Hk|exact H1].
  Qed.
  Lemma sub_keychars a s : all_chars key_char a = true -> substitute m new (a ++ s) = a ++ substitute m new s.
  Proof.
    induction a as [|c a IH]; intros H; [reflexivity|]. cbn [all_chars] in H. apply andb_prop in H as [H1 H2]. cbn [append]. rewrite sub_skip; [now rewrite IH|].
    apply no_quote_no_match. destruct (Ascii.eqb c quote) eqn:E; [|reflexivity]. apply Ascii.eqb_eq in E. subst c. discriminate.
  Qed.
End Sub.

Lemma key_differs k k' s : all_chars key_char k = true -> all_chars key_char k' = true -> k <> k' -> after_prefix (k ++ "': ") (k' ++ "': " ++ s) = None.
Proof.
  revert k'. induction k as [|a k IH]; intros k' H H' N.
  - destruct k' as [|c k']; [congruence|]. cbn [all_chars] in H'. apply andb_prop in H' as [H' _]. cbn [append after_prefix]. fold quote.
    destruct (Ascii.eqb quote c) eqn:E; [|reflexivity]. apply Ascii.eqb_eq in E. subst c. discriminate.
  - cbn [all_chars] in H. apply andb_prop in H as [Ha H]. destruct k' as [|c k'].
    + cbn [append after_prefix]. destruct (Ascii.eqb a "'") eqn:E; [|reflexivity]. apply Ascii.eqb_eq in E. subst a. discriminate.
    + cbn [all_chars] in H'. apply andb_prop in H' as [Hc H']. cbn [append after_prefix]. destruct (Ascii.eqb a c) eqn:E; [|reflexivity].
      apply Ascii.eqb_eq in E. subst c. apply IH; auto. congruence.
Qed.
Lemma prefix_self p s : after_prefix p (p ++ s) = Some s.
Proof. induction p as [|a p IH]; cbn; [reflexivity|]. now rewrite Ascii.eqb_refl. Qed.
Lemma prefix_app p q s : after_prefix (p ++ q) s = match after_prefix p s with Some t => after_prefix q t | None => None end.
Proof. revert s. induction p as [|a p IH]; intros [|b s]; cbn; auto. destruct (Ascii.eqb a b); auto. Qed.
Lemma prefix_some p s t : after_prefix p s = Some t -> s = p ++ t.
Proof.
  revert s. induction p as [|a p IH]; intros s H; [cbn in H; injection H as ->; reflexivity|]. destruct s as [|b s]; [discriminate|]. cbn in H.
  destruct (Ascii.eqb a b) eqn:E; [|discriminate]. apply Ascii.eqb_eq in E. subst b. cbn. now rewrite (IH s H).
Qed.
Lemma to_comma_len s t : to_comma s = Some t -> (String.length t <= String.length s)%nat.
Proof.
  revert t. induction s as [|c s IH]; cbn; intros t H; [discriminate|]. destruct (Ascii.eqb c ","); [injection H as <-; cbn; lia|].
  destruct (Ascii.eqb c _); [discriminate|]. apply IH in H. lia.
Qed.
Lemma match_option_blocked k s : after_prefix (key_text k) s = None -> match_option k s = None.
Proof. unfold match_option. now intros ->. Qed.
Lemma match_option_len k s r : match_option k s = Some r -> (String.length r < String.length s)%nat.
Proof.
  unfold match_option. destruct (after_prefix (key_text k) s) as [t|] eqn:E; [|discriminate]. intros H. apply to_comma_len in H. apply prefix_some in E. subst s.
  rewrite len_app. unfold key_text. cbn [append String.length]. lia.
Qed.
Lemma match_table_blocked k s : after_prefix (key_text k) s = None -> match_empty_table k s = None.
Proof. unfold match_empty_table. intros H. now rewrite prefix_app, H. Qed.
Lemma match_table_len k s r : match_empty_table k s = Some r -> (String.length r < String.length s)%nat.
Proof. unfold match_empty_table. intros H. apply prefix_some in H. subst s. rewrite len_app. unfold key_text. cbn [append String.length]. lia. Qed.

(** ** Pieces of the file *)
Inductive piece := Raw (s : string) | Item (k v : string).
Definition piece_text (p : piece) : string := match p with Raw s => s | Item k v => key_text k ++ v ++ "," end.
Definition render (l : list piece) : string := fold_right (fun p s => piece_text p ++ s) "" l.
Definition ok_piece (p : piece) : Prop := match p with Raw s => raw_ok s = true | Item k v => option_name k /\ raw_ok (v ++ ",") = true end.
Definition upd (k v : string) (p : piece) : piece := match p with Item k' v' => if String.eqb k k' then Item k v else p | _ => p end.

Lemma sub_other k m new k' v s : option_name k -> (forall s, after_prefix (key_text k) s = None -> m s = None) -> option_name k' -> raw_ok (v ++ ",") = true -> k <> k' ->
  substitute m new (piece_text (Item k' v) ++ s) = piece_text (Item k' v) ++ substitute m new s.
Proof.
  intros Hk Hm Hk' Hv N. cbn [piece_text]. unfold key_text. cbn [append]. rewrite sub_skip.
  2:{ apply Hm. unfold key_text. cbn [append after_prefix]. change (Ascii.eqb "'" "'") with true. cbn iota. rewrite !app_assoc'. apply key_differs; [apply Hk|apply Hk'|exact N]. }
  f_equal. rewrite !app_assoc'. rewrite (sub_keychars k m new Hm) by apply Hk'. f_equal. cbn [append]. rewrite sub_skip.
  2:{ apply Hm. destruct Hk as [K1 K2]. destruct k as [|a k]; [congruence|]. cbn [all_chars] in K2. apply andb_prop in K2 as [K2 _].
      unfold key_text. cbn [append after_prefix]. change (Ascii.eqb "'" "'") with true. cbn iota. destruct (Ascii.eqb a ":") eqn:E; [|reflexivity]. apply Ascii.eqb_eq in E. subst a. discriminate. }
  f_equal. rewrite sub_skip by now apply (no_quote_no_match k m). f_equal. rewrite sub_skip by now apply (no_quote_no_match k m). f_equal.
  change (String "," s) with ("," ++ s). rewrite <- (app_assoc' v ","). rewrite (sub_raw k m new Hk Hm) by exact Hv. now rewrite app_assoc'.
Qed.
Lemma to_comma_line v s : one_line v -> tidy v \/ (exists w, v = "'" ++ w ++ "'" /\ tidy w) -> to_comma (v ++ "," ++ s) = Some ("," ++ s).
Proof.
  intros H T. assert (C : all_chars (fun c => negb (Ascii.eqb c ",")) v = true).
  { assert (G : forall w, tidy w -> all_chars (fun c => negb (Ascii.eqb c ",")) w = true).
    { induction w as [|c w IH]; intros X; [reflexivity|]. unfold tidy in X. cbn [all_chars] in *. apply andb_prop in X as [X1 X2]. unfold tidy_char in X1.
      apply negb_true_iff, orb_false_iff in X1 as [_ X1]. rewrite X1. cbn. now apply IH. }
    destruct T as [T|(w & -> & T)]; [auto|]. cbn [append all_chars]. cbn [Ascii.eqb]. apply G in T. clear -T. induction w as [|c w IH]; [reflexivity|].
    cbn [append all_chars] in *. apply andb_prop in T as [T1 T2]. rewrite T1. cbn. auto. }
  clear T. induction v as [|c v IH]; [reflexivity|]. cbn [all_chars] in C. unfold one_line in H. cbn [all_chars] in H. apply andb_prop in C as [C1 C2]. apply andb_prop in H as [H1 H2].
  cbn [append to_comma]. apply negb_true_iff in C1, H1. rewrite C1, H1. now apply IH.
Qed.

(** entries that the two patterns match *)
Definition hit (m : string -> option string) (k v : string) : Prop := forall s, m (key_text k ++ v ++ "," ++ s) = Some ("," ++ s).
Lemma sub_pieces k m v' ps : option_name k -> (forall s, after_prefix (key_text k) s = None -> m s = None) -> (forall s r, m s = Some r -> (String.length r < String.length s)%nat) ->
  Forall ok_piece ps -> (forall v, In (Item k v) ps -> hit m k v) ->
  substitute m (key_text k ++ v') (render ps) = render (map (upd k v') ps).
Proof.
  intros Hk Hm Hl. induction 1 as [|p ps Hp Hps IH]; intros Hh; [reflexivity|]. cbn [render fold_right map].
  fold (render ps). fold (render (map (upd k v') ps)). assert (IH' := IH ltac:(intros v Hv; apply Hh; now right)). destruct p as [s|k' v].
  - cbn [piece_text upd]. cbn in Hp. rewrite (sub_raw k m _ Hk Hm) by exact Hp. now rewrite IH'.
  - cbn in Hp. destruct Hp as [Hk' Hv]. cbn [upd]. destruct (String.eqb k k') eqn:E.
    + apply String.eqb_eq in E. subst k'. cbn [piece_text]. rewrite !app_assoc'. rewrite (sub_hit m _ Hl _ ("," ++ render ps)).
      2:{ apply Hh. now left. }
      rewrite !app_assoc'. do 2 f_equal. cbn [append]. rewrite sub_skip by (now apply (no_quote_no_match k m)). now rewrite IH'.
    + apply String.eqb_neq in E. rewrite (sub_other k m _ k' v) by auto. now rewrite IH'.
Qed.

(** ** Where the key text occurs *)
Fixpoint blk (k p s : string) : Prop :=
  match p with EmptyString => True | String c t => after_prefix (key_text k) (String c (t ++ s)) = None /\ blk k t s end.
Lemma blk_app k p q s : blk k p (q ++ s) -> blk k q s -> blk k (p ++ q) s.
Proof. induction p as [|c p IH]; cbn [append blk]; auto. intros [H1 H2] Hq. split; [now rewrite app_assoc'|auto]. Qed.
Lemma blk_none k p : blk k p "" -> forall a b, p <> a ++ "'" ++ k ++ "': " ++ b.
Proof.
  intros H a. revert p H. induction a as [|c a IH]; intros p H b E.
  - subst p. cbn [append blk] in H. destruct H as [H _]. rewrite app_nil' in H.
    assert (G : String "'" (k ++ String "'" (String ":" (String " " b))) = key_text k ++ b) by (unfold key_text; cbn [append]; now rewrite !app_assoc').
    rewrite G, prefix_self in H. discriminate.
  - subst p. cbn [append blk] in H. destruct H as [_ H]. exact (IH _ H b eq_refl).
Qed.
Lemma blk_unique k p c t : blk k p (String c t) -> blk k t "" -> forall a b, p ++ String c t = a ++ "'" ++ k ++ "': " ++ b -> a = p.
Proof.
  intros Hp Ht. induction p as [|d p IH]; intros a b E.
  - destruct a as [|e a]; [reflexivity|]. cbn [append] in E. injection E as _ E. exfalso. exact (blk_none k t Ht a b E).
  - cbn [append blk] in *. destruct Hp as [H1 H2]. destruct a as [|e a].
    + exfalso. assert (G : String "'" (k ++ String "'" (String ":" (String " " b))) = key_text k ++ b) by (unfold key_text; cbn [append]; now rewrite !app_assoc').
      cbn [append] in E. rewrite E, G, prefix_self in H1. discriminate.
    + cbn [append] in E. injection E as -> E. f_equal. now apply (IH H2 a b).
Qed.
Lemma blk_char k c t : Ascii.eqb c quote = false -> after_prefix (key_text k) (String c t) = None.
Proof. intros H. unfold key_text. cbn [append after_prefix]. fold quote. rewrite Ascii.eqb_sym, H. reflexivity. Qed.
Lemma blk_raw k p s : option_name k -> raw_ok p = true -> blk k p s.
Proof.
  intros Hk. induction p as [|c p IH]; intros H; [exact I|]. cbn [raw_ok blk] in *. apply andb_prop in H as [H1 H2]. split; [|auto].
  destruct (Ascii.eqb c quote) eqn:E; [|now apply blk_char]. apply Ascii.eqb_eq in E. subst c.
  unfold key_text. cbn [append after_prefix]. change (Ascii.eqb "'" quote) with true. cbn iota. apply quote_blocks; [apply Hk|exact H1].
Qed.
Lemma blk_keychars k p s : all_chars key_char p = true -> blk k p s.
Proof.
  induction p as [|c p IH]; intros H; [exact I|]. cbn [all_chars blk] in *. apply andb_prop in H as [H1 H2]. split; [|auto].
  apply blk_char. destruct (Ascii.eqb c quote) eqn:E; [|reflexivity]. apply Ascii.eqb_eq in E. subst c. discriminate.
Qed.
Lemma blk_mark k s : option_name k -> blk k "': " s.
Proof.
  intros [K1 K2]. cbn [blk]. repeat split; try (now apply blk_char). destruct k as [|a k]; [congruence|]. cbn [all_chars] in K2. apply andb_prop in K2 as [K2 _].
  unfold key_text. cbn [append after_prefix]. change (Ascii.eqb "'" "'") with true. cbn iota. destruct (Ascii.eqb a ":") eqn:E; [|reflexivity]. apply Ascii.eqb_eq in E. subst a. discriminate.
Qed.
Lemma blk_rest k k' v s : option_name k -> option_name k' -> raw_ok (v ++ ",") = true -> blk k (k' ++ "': " ++ v ++ ",") s.
Proof.
  intros Hk Hk' Hv. apply blk_app; [apply blk_keychars; apply Hk'|]. apply blk_app; [now apply blk_mark|now apply blk_raw].
Qed.
Lemma blk_other k k' v s : option_name k -> option_name k' -> raw_ok (v ++ ",") = true -> k <> k' -> blk k (piece_text (Item k' v)) s.
Proof.
  intros Hk Hk' Hv N. cbn [piece_text]. unfold key_text. cbn [append blk]. split.
  - unfold key_text. cbn [append after_prefix]. change (Ascii.eqb "'" "'") with true. cbn iota. rewrite !app_assoc'. apply key_differs; [apply Hk|apply Hk'|exact N].
  - rewrite !app_assoc'. now apply blk_rest.
Qed.
Definition item_keys (ps : list piece) : list string := flat_map (fun p => match p with Item k _ => [k] | _ => [] end) ps.
Lemma blk_pieces k ps s : option_name k -> Forall ok_piece ps -> ~ In k (item_keys ps) -> blk k (render ps) s.
Proof.
  intros Hk. induction 1 as [|p ps Hp Hps IH]; intros N; [exact I|]. cbn [render fold_right]. fold (render ps). apply blk_app.
  - destruct p as [r|k' v]; [now apply blk_raw|]. destruct Hp. apply blk_other; auto. intros ->. apply N. cbn. now left.
  - apply IH. intros H. apply N. unfold item_keys. cbn [flat_map]. apply in_or_app. now right.
Qed.
Lemma render_app p q : render (p ++ q)%list = render p ++ render q.
Proof. induction p as [|a p IH]; [reflexivity|]. cbn [render fold_right List.app]. fold (render (p ++ q)%list) (render p). now rewrite IH, app_assoc'. Qed.
Lemma keys_app p q : item_keys (p ++ q)%list = (item_keys p ++ item_keys q)%list.
Proof. apply flat_map_app. Qed.
Lemma says_item ps k v : Forall ok_piece ps -> NoDup (item_keys ps) -> In (Item k v) ps -> says (render ps) k v.
Proof.
  intros H N Hi. apply in_split in Hi as (l & r & ->). rewrite keys_app in N. cbn [item_keys flat_map List.app] in N. fold (item_keys r) in N.
  apply Forall_app in H as [Hl Hr]. inversion Hr as [|? ? Hx Hr']; subst. destruct Hx as [Hk Hv]. assert (N' := NoDup_remove_2 _ _ _ N).
  exists (render l), (render r). rewrite render_app. cbn [render fold_right piece_text]. fold (render r). split.
  - unfold key_text. now rewrite !app_assoc'.
  - unfold key_text. cbn [append]. intros a b E. refine (blk_unique k (render l) _ _ _ _ a b E).
    + apply blk_pieces; auto. intros X. apply N', in_or_app. now left.
    + rewrite !app_assoc'. assert (G : k ++ "': " ++ v ++ "," ++ render r = (k ++ "': " ++ v ++ ",") ++ render r) by now rewrite !app_assoc'.
      change ("" ++ render r) with (render r). rewrite G. apply blk_app; [now apply blk_rest|]. apply blk_pieces; auto. intros X. apply N', in_or_app. now right.
Qed.
Lemma silent_item ps k : Forall ok_piece ps -> option_name k -> ~ In k (item_keys ps) -> silent (render ps) k.
Proof. intros H Hk N. unfold silent. apply blk_none. now apply blk_pieces. Qed.

(** ** Texts of values *)
Definition no_quote (s : string) : bool := all_chars (fun c => negb (Ascii.eqb c quote)) s.
Lemma all_app f a b : all_chars f (a ++ b) = (all_chars f a && all_chars f b)%bool.
Proof. induction a as [|c a IH]; [reflexivity|]. cbn [append all_chars]. now rewrite IH, andb_assoc. Qed.
Lemma all_weaken (f g : ascii -> bool) s : (forall c, f c = true -> g c = true) -> all_chars f s = true -> all_chars g s = true.
Proof. intros H. induction s as [|c s IH]; [reflexivity|]. cbn [all_chars]. intros X. apply andb_prop in X as [X1 X2]. now rewrite (H _ X1), IH. Qed.
Lemma tidy_no_quote s : tidy s -> no_quote s = true.
Proof. apply all_weaken. intros c H. unfold tidy_char in H. apply negb_true_iff, orb_false_iff in H as [H _]. fold quote in H. now rewrite H. Qed.
Lemma raw_no_quote a s : no_quote a = true -> raw_ok (a ++ s) = raw_ok s.
Proof.
  induction a as [|c a IH]; intros H; [reflexivity|]. unfold no_quote in H. cbn [all_chars] in H. apply andb_prop in H as [H1 H2]. apply negb_true_iff in H1. cbn [append raw_ok]. rewrite H1. cbn. now apply IH.
Qed.
Lemma quote_run a s : no_quote a = true -> quote_ok s = true -> quote_ok (a ++ s) = true.
Proof.
  intros H Hs. induction a as [|c a IH]; [exact Hs|]. unfold no_quote in H. cbn [all_chars] in H. apply andb_prop in H as [H1 H2]. apply negb_true_iff in H1. cbn [append quote_ok]. rewrite H1.
  destruct (key_char c); [now apply IH|reflexivity].
Qed.
Lemma raw_tidy v : tidy v -> raw_ok (v ++ ",") = true.
Proof. intros H. rewrite raw_no_quote by now apply tidy_no_quote. reflexivity. Qed.
Lemma raw_quoted v : tidy v -> raw_ok (("'" ++ v ++ "'") ++ ",") = true.
Proof.
  intros H. rewrite !app_assoc'. cbn [append raw_ok]. change (Ascii.eqb "'" quote) with true. cbn iota. apply tidy_no_quote in H.
  rewrite quote_run, raw_no_quote by auto. reflexivity.
Qed.
Lemma raw_table_body b : no_quote b = true -> raw_ok (("'''" ++ nl ++ b ++ nl ++ spaces8 ++ "'''") ++ ",") = true.
Proof.
  intros H. rewrite !app_assoc'. assert (G : forall x, raw_ok ("'''" ++ nl ++ x) = raw_ok x) by reflexivity. rewrite G, raw_no_quote by exact H. reflexivity.
Qed.
Lemma lower_char_quote c : Ascii.eqb (lower_ascii c) quote = Ascii.eqb c quote.
Proof. destruct c as [[] [] [] [] [] [] [] []]; reflexivity. Qed.
Lemma lower_char_tidy c : tidy_char (lower_ascii c) = tidy_char c.
Proof. destruct c as [[] [] [] [] [] [] [] []]; reflexivity. Qed.
Lemma lower_char_nl c : Ascii.eqb (lower_ascii c) (ascii_of_nat 10) = Ascii.eqb c (ascii_of_nat 10).
Proof. destruct c as [[] [] [] [] [] [] [] []]; reflexivity. Qed.
Lemma tidy_lower s : tidy s -> tidy (lower s).
Proof. unfold tidy. induction s as [|c s IH]; [reflexivity|]. cbn [lower all_chars]. intros H. apply andb_prop in H as [H1 H2]. rewrite lower_char_tidy, H1. cbn. auto. Qed.
Lemma line_lower s : one_line s -> one_line (lower s).
Proof. unfold one_line. induction s as [|c s IH]; [reflexivity|]. cbn [lower all_chars]. intros H. apply andb_prop in H as [H1 H2]. rewrite lower_char_nl, H1. cbn. auto. Qed.
Lemma all_lstrip f s : all_chars f s = true -> all_chars f (lstrip s) = true.
Proof. induction s as [|c s IH]; [reflexivity|]. cbn [lstrip]. intros H. destruct (is_space c); [|exact H]. cbn in H. apply andb_prop in H as [_ H]. auto. Qed.
Lemma all_rstrip f s : all_chars f s = true -> all_chars f (rstrip s) = true.
Proof.
  induction s as [|c s IH]; [reflexivity|]. cbn [rstrip all_chars]. intros H. apply andb_prop in H as [H1 H2]. apply IH in H2.
  destruct (is_space c && _)%bool; [reflexivity|]. cbn [all_chars]. now rewrite H1, H2.
Qed.
Lemma all_strip f s : all_chars f s = true -> all_chars f (strip s) = true.
Proof. intros H. now apply all_rstrip, all_lstrip. Qed.
Lemma all_split f s : all_chars f s = true -> Forall (fun l => all_chars f l = true) (split_lines s).
Proof.
  induction s as [|c s IH]; intros H; [cbn; constructor; [reflexivity|constructor]|]. cbn [all_chars] in H. apply andb_prop in H as [H1 H2]. specialize (IH H2). cbn [split_lines].
  destruct (Ascii.eqb c _); [constructor; [reflexivity|exact IH]|]. destruct (split_lines s) as [|l r]; [constructor; [cbn; now rewrite H1|constructor]|].
  inversion IH; subst. constructor; [cbn; now rewrite H1|assumption].
Qed.
Lemma all_concat f sep l : all_chars f sep = true -> Forall (fun s => all_chars f s = true) l -> all_chars f (String.concat sep l) = true.
Proof.
  intros Hs. induction 1 as [|a l Ha Hl IH]; [reflexivity|]. cbn [String.concat]. destruct l as [|b l]; [exact Ha|]. rewrite !all_app, Ha, Hs. exact IH.
Qed.
Lemma raw_table_text s : tidy s -> raw_ok (table_text s ++ ",") = true.
Proof.
  intros H. unfold table_text. apply raw_table_body. apply tidy_lower, tidy_no_quote in H. apply all_concat; [reflexivity|].
  apply all_strip, all_split in H. rewrite Forall_map. eapply Forall_impl; [|exact H]. cbn beta. intros a Ha. rewrite all_app. cbn [andb]. apply all_strip in Ha. now rewrite Ha.
Qed.

(** ** The default file in pieces *)
Definition listing_short : list piece :=
  [ Raw "    ";
    Item "geometry" "'circ'";
    Raw " # 'circ' or '3d' 

    # Here we set the type of processing unit: 'cpu' or 'gpu'.
    # For now, GPU can be used only for 3d simulations.
    ";
    Item "processing-unit-type" "'cpu'";
    Raw "

    # Parameters of simulation window:

    ## Transverse size of the window from axis to boundary and 
    ## transverse grid step (dr in 2d or dx(=dy) in 3d). 
    ## The window width is adjusted to the closest ""good"" value
    ## to ensure fft performance. 
    ";
    Item "window-width" "5.0";
    Raw "
    ";
    Item "transverse-step" "0.05";
    Raw "

    ## Window length along xi-axis and grid step in dxi.
    ";
    Item "window-length" "15.0";
    Raw "
    ";
    Item "xi-step" "0.05";
    Raw "

    ## Time limit for beam evolution and time step.
    ";
    Item "time-limit" "200.5";
    Raw "
    ";
    Item "time-step" "25";
    Raw "

    # Parameters of plasma model:

    ## The number of plasma particles per one cell must be the square of 
    ## an integer in 3d. This parameter will be adjusted in 3d geometry
    ## to the nearest integer squared (to 9 by default).
    ";
    Item "plasma-particles-per-cell" "10";
    Raw "
    ";
    Item "ion-model" "'mobile'";
    Raw " # 'mobile' or 'background'

    ## Mass of plasma ions in unita of electron mass
    ";
    Item "ion-mass" "1836";
    Raw "
    
    ## Plasma shaping mode: lagacy or function(t, x, y) -> density weights.
    ## t is the current time, x(y) is the position of the plasma particles.   
    ## The density of weights must have the same shape as x.  
    ## x = r, y = 0 in cylindrical geometry.  
    ";
    Item "plasma-shape" "'legacy'";
    Raw " 
    
    ## Transverse profile of plasma density settings.
    ## Example https://lcode.info/site-files/manual.pdf p. 16 
    ";
    Item "plasma-rshape" "'uniform'";
    Raw "
    ";
    Item "plasma-width" "1";
    Raw "
    ";
    Item "plasma-width-2" "0";
    Raw "
    ";
    Item "plasma-density-2" "0.5";
    Raw "

    ## Longitudinal profile of the plasma density. For 3d only. 
    ## Example https://lcode.info/site-files/manual.pdf p. 17
    ## Only linear increase/decrease are available. 
    ";
    Item "plasma-zshape" "'''
        '''";
    Raw "

    ## Declustering of plasma electrons
    ";
    Item "declustering-enabled" "False";
    Raw "
    ### The following parameters are used for 3d declustering, 
    ### In 2d they are ignored. 
    ";
    Item "declustering-averaging" "3";
    Raw "
    ";
    Item "declustering-force" "0.3";
    Raw "
    ";
    Item "declustering-damping" "0.1";
    Raw "
    ";
    Item "declustering-limit" "1e-3";
    Raw "

    # Parameters of beam model:
    ";
    Item "beam-substepping-energy" "2";
    Raw "

#This part of the configuration contains experimental and unfinished options. 
#There is no guarantee that it will work or develop in the future. 

    # Partially supported options: 

    # Plasma:
    ## External Bz amplitude, 2D only.
    ";
    Item "magnetic-field" "0";
    Raw "
    
    ## Plasma substepping for xi, 2d only
    ";
    Item "substepping-depth" "3";
    Raw "
    ";
    Item "substepping-sensitivity" "0.2";
    Raw "

    ## Parameters of the area available for motion of plasma particles, 3d only.
    ";
    Item "bound-padding-steps" "10";
    Raw "
    ";
    Item "plasma-padding-steps" "15";
    Raw "

    ## Dual plasma approache for 3d, only GPU  
    ";
    Item "dual-plasma-approach" "False";
    Raw "
    ";
    Item "plasma-coarseness" "5";
    Raw "
    
    # Beam:
    ## Works for 3d with an unusual beam configuration.
    ";
    Item "rigid-beam" "False";
    Raw " 
    ####

" ].
Definition listing_dev : list piece :=
  [ Raw "# Developer settings
    
    ## Only 3d, default value is 1+dxi
    ";
    Item "field-solver-subtraction-coefficient" "1";
    Raw " 
    
    ## Only 2d
    ## Plasma:
    ";
    Item "trapped-path-limit" "0";
    Raw "
    ";
    Item "correctotransverse-steps" "2";
    Raw " # Can we even change this???
" ].
Definition listing (extra : bool) : list piece := if extra then (listing_short ++ listing_dev)%list else listing_short.
Lemma listing_text extra : render (listing extra) = lines_text (listed_lines extra).
Proof. destruct extra; vm_compute; reflexivity. Qed.
Lemma listing_keys extra : item_keys (listing extra) = options_in extra.
Proof. destruct extra; vm_compute; reflexivity. Qed.
Definition file_pieces (version : string) (extra : bool) : list piece := (Raw (header version) :: listing extra ++ [Raw "}"])%list.
Lemma file_text version extra : render (file_pieces version extra) = runas_default version extra.
Proof. unfold file_pieces, runas_default. cbn [render fold_right piece_text]. fold (render (listing extra ++ [Raw "}"])%list). rewrite render_app, listing_text. reflexivity. Qed.
Lemma file_keys version extra : item_keys (file_pieces version extra) = options_in extra.
Proof. unfold file_pieces. cbn [item_keys flat_map List.app]. fold (item_keys (listing extra ++ [Raw "}"])%list). rewrite keys_app, listing_keys. cbn. apply app_nil_r. Qed.
Definition ok_piece_b (p : piece) : bool :=
  match p with Raw s => raw_ok s | Item k v => negb (String.eqb k "") && all_chars key_char k && raw_ok (v ++ ",") end.
Lemma ok_piece_dec p : ok_piece_b p = true -> ok_piece p.
Proof.
  destruct p; cbn; auto. intros H. apply andb_prop in H as [H H2]. apply andb_prop in H as [H0 H1]. repeat split; auto.
  intros ->. discriminate.
Qed.
Lemma listing_ok extra : Forall ok_piece (listing extra).
Proof. assert (H : forallb ok_piece_b (listing extra) = true) by (destruct extra; vm_compute; reflexivity). rewrite forallb_forall in H. apply Forall_forall. intros p Hp. now apply ok_piece_dec, H. Qed.
Lemma header_ok version : tidy version -> raw_ok (header version) = true.
Proof.
  intros H. unfold header, lines_text. cbn [fold_right]. rewrite !app_assoc'.
  repeat (rewrite raw_no_quote by (reflexivity || now apply tidy_no_quote)). reflexivity.
Qed.
Lemma file_ok version extra : tidy version -> Forall ok_piece (file_pieces version extra).
Proof. intros H. constructor; [now apply header_ok|]. apply Forall_app. split; [apply listing_ok|]. constructor; [reflexivity|constructor]. Qed.
Fixpoint nodup_b (l : list string) : bool := match l with [] => true | a :: r => negb (existsb (String.eqb a) r) && nodup_b r end.
Lemma nodup_dec l : nodup_b l = true -> NoDup l.
Proof.
  induction l as [|a l IH]; intros H; constructor; cbn in H; apply andb_prop in H as [H1 H2]; [|auto]. intros X. apply negb_true_iff in H1.
  assert (existsb (String.eqb a) l = true); [|congruence]. apply existsb_exists. exists a. split; [exact X|apply String.eqb_refl].
Qed.
Lemma options_nodup extra : NoDup (options_in extra).
Proof. apply nodup_dec. destruct extra; reflexivity. Qed.

(** ** What the loop writes *)
Section Loop.
  Variable fshow : Q -> string.
  Definition written (k : string) (v : val) : option string :=
    match turn fshow k v with
    | Replace _ _ =>
      Some (if String.eqb k "plasma-zshape" then match v with VStr s => table_text s | _ => "" end
            else if String.eqb k "plasma-rshape" then match v with VStr s => table_text s | _ => "" end
            else if is_str_key k then match v with VStr s => "'" ++ lower s ++ "'" | VObj r => "'external function " ++ r ++ "'" | _ => "" end
            else py_str fshow v)
    | _ => None
    end.
  Definition pat (k : string) : string -> option string := if String.eqb k "plasma-zshape" then match_empty_table k else match_option k.
  Lemma turn_written k v : (turn fshow k v = Fail /\ written k v = None) \/ (turn fshow k v = Skip /\ written k v = None) \/
    exists w, turn fshow k v = Replace (pat k) (key_text k ++ w) /\ written k v = Some w.
  Proof.
    unfold written, turn, pat. destruct (String.eqb k "plasma-zshape") eqn:Ez.
    - destruct v; auto. right. right. eauto.
    - destruct (String.eqb k "plasma-rshape") eqn:Er.
      + destruct v; auto. destruct (Nat.eqb _ 1); auto. right. right. eauto.
      + destruct (is_str_key k); [|right; right; eauto]. destruct v; auto; [right; right; eauto|]. destruct (String.eqb k "plasma-shape"); auto. right. right. eauto.
  Qed.
  Lemma pat_blocked k s : after_prefix (key_text k) s = None -> pat k s = None.
  Proof. unfold pat. destruct (String.eqb k _); [apply match_table_blocked|apply match_option_blocked]. Qed.
  Lemma pat_len k s r : pat k s = Some r -> (String.length r < String.length s)%nat.
  Proof. unfold pat. destruct (String.eqb k _); [apply match_table_len|apply match_option_len]. Qed.
  Lemma written_ok k v w : tidy_value fshow v -> written k v = Some w -> raw_ok (w ++ ",") = true.
  Proof.
    unfold tidy_value, written, turn. intros T. destruct (String.eqb k "plasma-zshape") eqn:Ez.
    - destruct v; try discriminate. intros H; injection H as <-. now apply raw_table_text.
    - destruct (String.eqb k "plasma-rshape") eqn:Er.
      + destruct v; try discriminate. destruct (Nat.eqb _ 1); try discriminate. intros H; injection H as <-. now apply raw_table_text.
      + destruct (is_str_key k); [|intros H; injection H as <-; now apply raw_tidy].
        destruct v; try discriminate; [intros H; injection H as <-; now apply raw_quoted, tidy_lower|]. destruct (String.eqb k "plasma-shape"); try discriminate. intros H; injection H as <-.
        assert (T' : tidy ("external function " ++ repr)) by (unfold tidy; rewrite all_app; exact T).
        apply raw_quoted in T'. rewrite app_assoc' in T'. exact T'.
  Qed.
  Definition fill (d : list (string * val)) (p : piece) : piece :=
    match p with
    | Item k v0 => match dict_get d k with Some v => match written k v with Some w => Item k w | None => p end | None => p end
    | _ => p
    end.
  Lemma dict_get_notin (d : list (string * val)) k : ~ In k (map fst d) -> dict_get d k = None.
  Proof. induction d as [|[k' v] d IH]; [reflexivity|]. cbn. intros N. destruct (String.eqb k k') eqn:E; [apply String.eqb_eq in E; subst; exfalso; apply N; now left|]. apply IH. intros X. apply N. now right. Qed.
  Lemma dict_get_in (d : list (string * val)) k v : NoDup (map fst d) -> In (k, v) d -> dict_get d k = Some v.
  Proof.
    induction d as [|[k' v'] d IH]; [intros _ []|]. cbn. intros N H. inversion N; subst. destruct H as [H|H].
    - injection H as -> ->. now rewrite String.eqb_refl.
    - destruct (String.eqb k k') eqn:E; [|auto]. apply String.eqb_eq in E. subst. exfalso. apply H2. apply in_map_iff. exists (k', v). auto.
  Qed.
  Lemma dict_get_some (d : list (string * val)) k v : dict_get d k = Some v -> In (k, v) d.
  Proof. induction d as [|[k' v'] d IH]; [discriminate|]. cbn. destruct (String.eqb k k') eqn:E; [|auto]. apply String.eqb_eq in E. subst. intros H; injection H as ->. now left. Qed.
  Lemma upd_ok k w ps : raw_ok (w ++ ",") = true -> Forall ok_piece ps -> Forall ok_piece (map (upd k w) ps).
  Proof.
    intros Hw H. rewrite Forall_map. eapply Forall_impl; [|exact H]. intros p Hp. destruct p as [s|k' v']; [exact Hp|]. cbn [upd].
    destruct (String.eqb k k') eqn:E; [|exact Hp]. apply String.eqb_eq in E. subst. destruct Hp. split; auto.
  Qed.
  Lemma upd_keys k w ps : item_keys (map (upd k w) ps) = item_keys ps.
  Proof.
    induction ps as [|p ps IH]; [reflexivity|]. unfold item_keys in *. cbn [map flat_map]. rewrite IH. f_equal. destruct p as [s|k' v']; [reflexivity|]. cbn [upd].
    destruct (String.eqb k k') eqn:E; [|reflexivity]. apply String.eqb_eq in E. now subst.
  Qed.
  Lemma turns_closed d : forall ps text, NoDup (map fst d) -> (forall k v, In (k, v) d -> option_name k /\ tidy_value fshow v) ->
    Forall ok_piece ps -> (forall k v, In (Item k v) ps -> In k (map fst d) -> hit (pat k) k v) ->
    turns fshow d (render ps) = Some text -> text = render (map (fill d) ps).
  Proof.
    induction d as [|[k v] d IH]; intros ps text N T Hp Hh E.
    - cbn in E. injection E as <-. f_equal. rewrite <- (map_id ps) at 1. apply map_ext. intros []; reflexivity.
    - cbn [map fst] in N. inversion N as [|? ? N1 N2]; subst. destruct (T k v (or_introl eq_refl)) as [Tk Tv]. cbn [turns] in E.
      assert (T' : forall k v, In (k, v) d -> option_name k /\ tidy_value fshow v) by (intros; apply T; now right).
      destruct (turn_written k v) as [[Et Ew]|[[Et Ew]|(w & Et & Ew)]]; rewrite Et in E; [discriminate| |].
      + rewrite (IH ps text N2 T' Hp ltac:(intros k' v' H1 H2; apply Hh; [exact H1|now right]) E). f_equal. apply map_ext. intros [s|k' v']; [reflexivity|]. cbn [fill dict_get].
        destruct (String.eqb k' k) eqn:Ek; [|reflexivity]. apply String.eqb_eq in Ek. subst. now rewrite Ew, (dict_get_notin d k N1).
      + rewrite (sub_pieces k (pat k) w ps) in E.
        2:exact Tk. 2:apply pat_blocked. 2:apply pat_len. 2:exact Hp. 2:{ intros v' Hv'. apply Hh; [exact Hv'|now left]. }
        rewrite (IH (map (upd k w) ps) text N2 T'); auto.
        * f_equal. rewrite map_map. apply map_ext. intros [s|k' v']; [reflexivity|]. cbn [upd fill dict_get]. rewrite (String.eqb_sym k' k). destruct (String.eqb k k') eqn:Ek.
          -- apply String.eqb_eq in Ek. subst k'. cbn [fill]. now rewrite Ew, (dict_get_notin d k N1).
          -- reflexivity.
        * apply upd_ok; [now apply (written_ok k v)|exact Hp].
        * intros k' v' H1 H2. apply Hh; [|now right]. apply in_map_iff in H1 as (p & Hp1 & Hp2). destruct p as [s|k2 v2]; [discriminate|]. cbn [upd] in Hp1.
          destruct (String.eqb k k2) eqn:Ek; [|congruence]. apply String.eqb_eq in Ek. subst. injection Hp1 as <- <-. contradiction.
  Qed.
  Lemma turns_some d : (forall k v, In (k, v) d -> turn fshow k v <> Fail) -> forall s, exists t, turns fshow d s = Some t.
  Proof.
    induction d as [|[k v] d IH]; intros H s; [eexists; reflexivity|]. cbn [turns]. assert (H0 := H k v (or_introl eq_refl)).
    destruct (turn fshow k v); [apply IH|apply IH|congruence]; intros; apply H; now right.
  Qed.
  Lemma fill_ok d ps : (forall k v, In (k, v) d -> tidy_value fshow v) -> Forall ok_piece ps -> Forall ok_piece (map (fill d) ps).
  Proof.
    intros T H. rewrite Forall_map. eapply Forall_impl; [|exact H]. intros [s|k v0] Hp; [exact Hp|]. cbn [fill]. destruct (dict_get d k) as [v|] eqn:E; [|exact Hp].
    destruct (written k v) as [w|] eqn:Ew; [|exact Hp]. destruct Hp. split; [assumption|]. apply (written_ok k v); [|exact Ew]. now apply (T k), dict_get_some.
  Qed.
  Lemma fill_keys d ps : item_keys (map (fill d) ps) = item_keys ps.
  Proof.
    induction ps as [|p ps IH]; [reflexivity|]. unfold item_keys in *. cbn [map flat_map]. rewrite IH. f_equal. destruct p as [s|k v0]; [reflexivity|]. cbn [fill].
    destruct (dict_get d k); [|reflexivity]. destruct (written k v); reflexivity.
  Qed.
End Loop.

Definition plain_b (v : string) : bool := all_chars (fun c => negb (Ascii.eqb c ",") && negb (Ascii.eqb c (ascii_of_nat 10))) v.
Lemma plain_comma v s : plain_b v = true -> to_comma (v ++ "," ++ s) = Some ("," ++ s).
Proof.
  induction v as [|c v IH]; intros H; [reflexivity|]. unfold plain_b in H. cbn [all_chars] in H. apply andb_prop in H as [H1 H2]. apply andb_prop in H1 as [H0 H1].
  apply negb_true_iff in H0, H1. cbn [append to_comma]. rewrite H0, H1. now apply IH.
Qed.
Lemma hit_plain k v : plain_b v = true -> hit (match_option k) k v.
Proof. intros H s. unfold match_option. rewrite prefix_self. now apply plain_comma. Qed.
Definition hit_b (p : piece) : bool :=
  match p with Raw _ => true | Item k v => if String.eqb k "plasma-zshape" then String.eqb v ("'''" ++ nl ++ spaces8 ++ "'''") else plain_b v end.
Lemma file_hits version extra k v : In (Item k v) (file_pieces version extra) -> hit (pat k) k v.
Proof.
  intros H. assert (B : forallb hit_b (listing extra) = true) by (destruct extra; vm_compute; reflexivity). rewrite forallb_forall in B.
  destruct H as [H|H]; [discriminate|]. apply in_app_or in H as [H|[H|[]]]; [|discriminate]. apply B in H. cbn [hit_b] in H. unfold pat. destruct (String.eqb k "plasma-zshape") eqn:E.
  - apply String.eqb_eq in H, E. subst. intros s. unfold match_empty_table. rewrite prefix_app, prefix_self. reflexivity.
  - now apply hit_plain.
Qed.
Lemma tidy_plain v : tidy v -> one_line v -> plain_b v = true.
Proof.
  unfold tidy, one_line, plain_b. induction v as [|c v IH]; [reflexivity|]. cbn [all_chars]. intros H1 H2. apply andb_prop in H1 as [H1 H1']. apply andb_prop in H2 as [H2 H2'].
  unfold tidy_char in H1. apply negb_true_iff, orb_false_iff in H1 as [_ H1]. rewrite H1, H2. cbn. auto.
Qed.
Lemma in_options extra version k : In k (options_in extra) -> exists v0, In (Item k v0) (file_pieces version extra).
Proof.
  rewrite <- (file_keys version). unfold item_keys. rewrite in_flat_map. intros ([s|k' v0] & H1 & H2); [destruct H2|]. destruct H2 as [->|[]]. eauto.
Qed.

(** ** Rows of a table *)
Definition row (l : string) : list (list string) := match words l with [] => [] | w => [w] end.
Lemma is_nl c : Ascii.eqb c (ascii_of_nat 10) = Nat.eqb (nat_of_ascii c) 10.
Proof. destruct c as [[] [] [] [] [] [] [] []]; reflexivity. Qed.
Lemma is_blank c : is_space c = blank_char c.
Proof. destruct c as [[] [] [] [] [] [] [] []]; reflexivity. Qed.
Lemma rows_from_eq l s : rows_from l s = match split_lines s with a :: r => (row (l ++ a) ++ flat_map row r)%list | [] => [] end.
Proof.
  revert l. induction s as [|c s IH]; intros l.
  - cbn. rewrite app_nil'. now rewrite app_nil_r.
  - cbn [rows_from split_lines]. rewrite is_nl. destruct (Nat.eqb _ 10).
    + rewrite IH. rewrite app_nil'. fold (row l). f_equal. destruct (split_lines s) eqn:E; [|reflexivity].
      destruct s as [|d s]; [discriminate|]. cbn in E. destruct (Ascii.eqb d _); [discriminate|]. destruct (split_lines s); discriminate.
    + rewrite IH. destruct (split_lines s) as [|a r] eqn:E.
      * destruct s as [|d s]; [discriminate|]. cbn in E. destruct (Ascii.eqb d _); [discriminate|]. destruct (split_lines s); discriminate.
      * rewrite app_assoc'. reflexivity.
Qed.
Lemma split_ne s : split_lines s <> [].
Proof. destruct s as [|d s]; [discriminate|]. cbn. destruct (Ascii.eqb d _); [discriminate|]. destruct (split_lines s); discriminate. Qed.
Lemma rows_eq s : rows s = flat_map row (split_lines s).
Proof. unfold rows. rewrite rows_from_eq. destruct (split_lines s) eqn:E; [reflexivity|]. reflexivity. Qed.
Lemma words_blank c t : blank_char c = true -> words (String c t) = words t.
Proof. cbn [words]. now intros ->. Qed.
Definition all_blank (s : string) : Prop := all_chars blank_char s = true.
Lemma words_all_blank b : all_blank b -> words b = [].
Proof. unfold all_blank. induction b as [|c b IH]; [reflexivity|]. cbn [all_chars]. intros H. apply andb_prop in H as [H1 H2]. rewrite words_blank; auto. Qed.
Lemma words_trail x b : all_blank b -> words (x ++ b) = words x.
Proof.
  intros H. induction x as [|c x IH]; [now apply words_all_blank|]. cbn [append words]. destruct (blank_char c); [exact IH|].
  destruct x as [|d x].
  - cbn [append]. destruct b as [|e b]; [reflexivity|]. unfold all_blank in H. cbn [all_chars] in H. apply andb_prop in H as [H1 H2]. rewrite H1. f_equal.
    rewrite words_blank by exact H1. now apply words_all_blank.
  - cbn [append] in *. destruct (blank_char d); rewrite IH; reflexivity.
Qed.
Lemma words_lead b x : all_blank b -> words (b ++ x) = words x.
Proof. unfold all_blank. induction b as [|c b IH]; [reflexivity|]. cbn [all_chars append]. intros H. apply andb_prop in H as [H1 H2]. rewrite words_blank; auto. Qed.
Lemma lstrip_eq s : exists b, all_blank b /\ s = b ++ lstrip s.
Proof.
  induction s as [|c s (b & Hb & E)]; [exists ""; split; reflexivity|]. cbn [lstrip]. destruct (is_space c) eqn:X; [|exists ""; split; reflexivity].
  exists (String c b). split; [unfold all_blank; cbn [all_chars]; rewrite <- is_blank, X; exact Hb|]. cbn [append]. now rewrite <- E.
Qed.
Lemma rstrip_eq s : exists b, all_blank b /\ s = rstrip s ++ b.
Proof.
  induction s as [|c s (b & Hb & E)]; [exists ""; split; reflexivity|]. cbn [rstrip]. destruct (is_space c) eqn:X; cbn [andb].
  - destruct (rstrip s) eqn:R.
    + exists (String c b). split; [unfold all_blank; cbn [all_chars]; rewrite <- is_blank, X; exact Hb|]. cbn in *. now rewrite E at 1.
    + exists b. split; [exact Hb|]. cbn [append] in *. now rewrite E at 1.
  - exists b. split; [exact Hb|]. cbn [append] in *. now rewrite E at 1.
Qed.
Lemma words_strip x : words (strip x) = words x.
Proof.
  unfold strip. destruct (lstrip_eq x) as (b & Hb & E). destruct (rstrip_eq (lstrip x)) as (b' & Hb' & E').
  rewrite E at 2. rewrite words_lead by exact Hb. rewrite E' at 2. now rewrite words_trail.
Qed.
Lemma split_app a b : split_lines (a ++ b) = match split_lines b with x :: r => (removelast (split_lines a) ++ (last (split_lines a) "" ++ x)%string :: r)%list | [] => [] end.
Proof.
  induction a as [|c a IH].
  - cbn. destruct (split_lines b) eqn:E; reflexivity.
  - cbn [append split_lines]. destruct (Ascii.eqb c _).
    + rewrite IH. destruct (split_lines b) as [|x r] eqn:E; [exfalso; exact (split_ne b E)|]. destruct (split_lines a) as [|y q] eqn:Ea; [exfalso; exact (split_ne a Ea)|]. reflexivity.
    + rewrite IH. destruct (split_lines b) as [|x r] eqn:E; [exfalso; exact (split_ne b E)|]. destruct (split_lines a) as [|y q] eqn:Ea; [exfalso; exact (split_ne a Ea)|].
      destruct q as [|z q]; reflexivity.
Qed.
Lemma rows_blank_split b : all_blank b -> Forall all_blank (split_lines b).
Proof. apply all_split. Qed.
Lemma flat_row_blank l : Forall all_blank l -> flat_map row l = [].
Proof. induction 1 as [|a l Ha Hl IH]; [reflexivity|]. cbn [flat_map]. rewrite IH. unfold row. now rewrite words_all_blank. Qed.
Lemma rows_lead b x : all_blank b -> rows (b ++ x) = rows x.
Proof.
  intros H. rewrite !rows_eq, split_app. destruct (split_lines x) as [|y r]; [reflexivity|]. rewrite flat_map_app. apply rows_blank_split in H.
  rewrite (app_removelast_last "" (split_ne b)) in H. apply Forall_app in H as [H1 H2]. inversion H2; subst.
  rewrite (flat_row_blank _ H1). cbn [List.app flat_map]. unfold row at 1 3. now rewrite words_lead.
Qed.
Lemma rows_trail x b : all_blank b -> rows (x ++ b) = rows x.
Proof.
  intros H. rewrite !rows_eq, split_app. apply rows_blank_split in H. destruct (split_lines b) as [|y r] eqn:Eb; [exfalso; exact (split_ne b Eb)|]. inversion H; subst.
  assert (N := split_ne x). rewrite (app_removelast_last "" N) at 3. rewrite !flat_map_app. cbn [flat_map]. rewrite (flat_row_blank r) by assumption. unfold row at 2 4. now rewrite words_trail.
Qed.
Lemma rows_strip x : rows (strip x) = rows x.
Proof.
  unfold strip. destruct (lstrip_eq x) as (b & Hb & E). destruct (rstrip_eq (lstrip x)) as (b' & Hb' & E').
  rewrite E at 2. rewrite rows_lead by exact Hb. rewrite E' at 2. now rewrite rows_trail.
Qed.
Lemma split_one_line a s : one_line a -> split_lines (a ++ nl ++ s) = a :: split_lines s.
Proof.
  unfold one_line. induction a as [|c a IH]; intros H; [reflexivity|]. cbn [all_chars] in H. apply andb_prop in H as [H1 H2]. apply negb_true_iff in H1. cbn [append split_lines]. rewrite H1. 
  change (String (ascii_of_nat 10) s) with (nl ++ s). change (String "010" ("" ++ s)) with (nl ++ s). now rewrite IH.
Qed.
Lemma one_line_split a : one_line a -> split_lines a = [a].
Proof. unfold one_line. induction a as [|c a IH]; intros H; [reflexivity|]. cbn [all_chars] in H. apply andb_prop in H as [H1 H2]. apply negb_true_iff in H1. cbn [split_lines]. now rewrite H1, IH. Qed.
Lemma rows_concat l : l <> [] -> Forall one_line l -> rows (String.concat nl l) = flat_map row l.
Proof.
  intros N H. rewrite rows_eq. f_equal. induction H as [|a l Ha Hl IH]; [congruence|]. cbn [String.concat]. destruct l as [|b l]; [now apply one_line_split|].
  rewrite split_one_line by exact Ha. f_equal. apply IH. discriminate.
Qed.
Lemma split_lines_one s : Forall one_line (split_lines s).
Proof.
  induction s as [|c s IH]; [constructor; [reflexivity|constructor]|]. cbn [split_lines]. destruct (Ascii.eqb c _) eqn:E; [constructor; [reflexivity|exact IH]|].
  destruct (split_lines s) as [|a r]; [constructor; [unfold one_line; cbn [all_chars]; now rewrite E|constructor]|]. inversion IH; subst. constructor; [|assumption]. unfold one_line in *. cbn [all_chars]. now rewrite E.
Qed.
Lemma table_rows s : exists body, table_text s = "'''" ++ body ++ "'''" /\ rows body = rows (lower s).
Proof.
  exists (nl ++ String.concat nl (map (fun x => spaces8 ++ strip x) (split_lines (strip (lower s)))) ++ nl ++ spaces8). split; [unfold table_text; now rewrite !app_assoc'|].
  rewrite rows_lead by reflexivity. rewrite rows_trail by reflexivity. rewrite rows_concat.
  - rewrite flat_map_concat_map, map_map, <- flat_map_concat_map. rewrite <- (rows_strip (lower s)), rows_eq. apply flat_map_ext. intros a. unfold row.
    rewrite words_lead by reflexivity. now rewrite words_strip.
  - assert (N := split_ne (strip (lower s))). destruct (split_lines _); [congruence|discriminate].
  - rewrite Forall_map. eapply Forall_impl; [|apply split_lines_one]. intros a Ha. unfold one_line in *. rewrite all_app. apply all_strip in Ha. now rewrite Ha.
Qed.

(** ** The file *)
Section File.
  Variable fshow : Q -> string.
  Variable parse : string -> option Q.
  Hypothesis numbers : forall q, tidy (fshow q).
  Definition is_3d (c : cfg) : Prop := exists g, dict_get (values c) "geometry" = Some (VStr g) /\ lower g = "3d".
  Lemma dump_pieces version extra c text : tidy version -> tidy_config fshow c -> dump fshow parse version extra c = Some text ->
    exists ps, Forall ok_piece ps /\ item_keys ps = options_in extra /\ text = render ps /\
      (forall k v w, In k (options_in extra) -> dict_get (values c) k = Some v -> written fshow k v = Some w -> (k = "window-width" -> ~ is_3d c) -> In (Item k w) ps) /\
      (forall w, is_3d c -> to_float parse (dict_get (values c) "window-width") = Some w -> In (Item "window-width" (fshow (w / 2)%Q)) ps) /\
      (forall k v v0, In (Item k v0) (listing extra) -> dict_get (values c) k = Some v -> written fshow k v = None -> k <> "window-width" -> In (Item k v0) ps).
  Proof.
    intros Hv (N & T & L) E. unfold dump in E. destruct (turns fshow (values c) (runas_default version extra)) as [s|] eqn:Et; [|discriminate].
    rewrite <- (file_text version extra) in Et. assert (T' : forall k v, In (k, v) (values c) -> tidy_value fshow v) by (intros k v H; now apply (T k)).
    apply turns_closed in Et; auto; [|now apply file_ok|intros k v H _; now apply (file_hits version extra)].
    set (ps := map (fill fshow (values c)) (file_pieces version extra)) in *.
    assert (Hok : Forall ok_piece ps) by (apply fill_ok; [exact T'|now apply file_ok]).
    assert (Hks : item_keys ps = options_in extra) by (unfold ps; rewrite fill_keys; apply file_keys).
    assert (Hin : forall k v w, In k (options_in extra) -> dict_get (values c) k = Some v -> written fshow k v = Some w -> In (Item k w) ps).
    { intros k v w Hk Hg Hw. destruct (in_options extra version k Hk) as (v0 & H0). unfold ps. apply in_map_iff. exists (Item k v0). split; [|exact H0]. cbn [fill]. now rewrite Hg, Hw. }
    assert (Hsk : forall k v v0, In (Item k v0) (listing extra) -> dict_get (values c) k = Some v -> written fshow k v = None -> In (Item k v0) ps).
    { intros k v v0 H0 Hg Hw. unfold ps. apply in_map_iff. exists (Item k v0). split; [cbn [fill]; now rewrite Hg, Hw|]. right. apply in_or_app. now left. }
    destruct (dict_get (values c) "geometry") as [[g| | | |]|] eqn:Eg; try discriminate. destruct (String.eqb (lower g) "3d") eqn:E3.
    - apply String.eqb_eq in E3. assert (D : is_3d c) by (exists g; auto).
      destruct (to_float parse (dict_get (values c) "window-width")) as [w|] eqn:Ew; [|discriminate].
      assert (E' : text = substitute (match_option "window-width") (key_text "window-width" ++ fshow (w / 2)%Q) s) by congruence. clear E. subst s text.
      assert (Ww : exists v, dict_get (values c) "window-width" = Some v).
      { destruct (dict_get (values c) "window-width"); [eauto|discriminate]. }
      destruct Ww as (v & Hg). assert (Hw : written fshow "window-width" v = Some (py_str fshow v)) by reflexivity.
      assert (Nk : NoDup (item_keys ps)) by (rewrite Hks; apply options_nodup).
      assert (Hw0 : In "window-width" (options_in extra)) by (destruct extra; cbn; auto).
      assert (K : option_name "window-width") by (split; [discriminate|reflexivity]).
      rewrite (sub_pieces "window-width" (match_option "window-width") (fshow (w / 2)%Q) ps K); auto.
      2:apply match_option_blocked. 2:apply match_option_len.
      2:{ intros v' Hv'. apply hit_plain. assert (X := Hin _ _ _ Hw0 Hg Hw). assert (v' = py_str fshow v) as ->.
          { apply in_split in X as (l & r & Xe). rewrite Xe in *. rewrite keys_app in Nk. cbn [item_keys flat_map List.app] in Nk. fold (item_keys r) in Nk. apply NoDup_remove_2 in Nk.
            apply in_app_or in Hv' as [H|[H|H]]; [|congruence|]; exfalso; apply Nk, in_or_app; [left|right]; unfold item_keys; apply in_flat_map; eexists; (split; [exact H|now left]). }
          assert (Hi := dict_get_some _ _ _ Hg). apply tidy_plain; [now apply (T "window-width")|apply (L "window-width" v Hi); discriminate]. }
      exists (map (upd "window-width" (fshow (w / 2)%Q)) ps). repeat split.
      + apply upd_ok; [now apply raw_tidy|exact Hok].
      + rewrite upd_keys. exact Hks.
      + intros k v' w' Hk Hg' Hw' Hn. assert (Nw : k <> "window-width") by (intros ->; now apply Hn). apply in_map_iff. exists (Item k w'). split; [|now apply (Hin k v')].
        cbn [upd]. destruct (String.eqb "window-width" k) eqn:Ek; [apply String.eqb_eq in Ek; congruence|reflexivity].
      + intros w' _ H. injection H as <-. apply in_map_iff. exists (Item "window-width" (py_str fshow v)). split; [reflexivity|now apply (Hin _ v)].
      + intros k v' v0 H0 Hg' Hw' Hn. apply in_map_iff. exists (Item k v0). split; [|now apply (Hsk k v')].
        cbn [upd]. destruct (String.eqb "window-width" k) eqn:Ek; [apply String.eqb_eq in Ek; congruence|reflexivity].
    - injection E as <-. exists ps. apply String.eqb_neq in E3. assert (D : ~ is_3d c) by (intros (g' & H1 & H2); congruence).
      repeat split; auto. { intros k v w H1 H2 H3 _. now apply (Hin k v). } { intros w H. contradiction. } { intros k v v0 H1 H2 H3 _. now apply (Hsk k v). }
  Qed.
  Lemma dump_some version extra c g : (forall k v, In (k, v) (values c) -> turn fshow k v <> Fail) -> dict_get (values c) "geometry" = Some (VStr g) ->
    (lower g = "3d" -> to_float parse (dict_get (values c) "window-width") <> None) -> exists text, dump fshow parse version extra c = Some text.
  Proof.
    intros H Hg Hw. unfold dump. destruct (turns_some fshow (values c) H (runas_default version extra)) as (s & ->). rewrite Hg. destruct (String.eqb (lower g) "3d") eqn:E; [|eauto].
    apply String.eqb_eq in E. specialize (Hw E). destruct (to_float parse _); [eauto|congruence].
  Qed.
End File.
Lemma count_words_go s : count_words false s = List.length (words s) /\
  count_words true s = match s with String d _ => if blank_char d then List.length (words s) else pred (List.length (words s)) | EmptyString => 0%nat end.
Proof.
  induction s as [|c s [IH1 IH2]]; [split; reflexivity|]. cbn [count_words words]. rewrite is_blank. destruct (blank_char c) eqn:B; [split; exact IH1|].
  rewrite IH2. destruct s as [|d t]; [split; reflexivity|]. destruct (blank_char d) eqn:D; [split; reflexivity|].
  assert (words (String d t) <> []). { cbn [words]. rewrite D. destruct t; [discriminate|]. destruct (blank_char a); [discriminate|]. destruct (words (String a t)); discriminate. }
  destruct (words (String d t)); [congruence|]. split; reflexivity.
Qed.
Lemma count_words_ok s : count_words false s = List.length (words s).
Proof. apply count_words_go. Qed.
