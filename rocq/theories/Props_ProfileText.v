(** Theorems C72 (the text of an LCODE beam profile is read as it is written). *)
From Coq Require Import List Bool Ascii String NArith Lia.
From Verif Require Import ProfileText_Model.
Import ListNotations.
Local Open Scope list_scope.
Local Open Scope char_scope.
(** ** Specification: how a profile is written *)
Definition is_letter (c : ascii) : Prop := In c (list_ascii_of_string "abcdefghijklmnopqrstuvwxyz").
Definition is_digit (c : ascii) : Prop := In c (list_ascii_of_string "0123456789").
Definition is_blank (c : ascii) : Prop := c = " " \/ c = "009" \/ c = "010" \/ c = "013".
Definition word (w : text) : Prop := w <> [] /\ Forall is_letter w.
Definition digits (w : text) : Prop := Forall is_digit w.
(** xishape, length, m/q, ... *)
Definition name (n : text) : Prop := word n \/ exists w c, word w /\ is_letter c /\ n = w ++ ["/"; c].
Definition sign (s : text) : Prop := s = [] \/ s = ["-"] \/ s = ["+"].
(** -1, 2.5, 3., .5, 1e-5, +2.0E6, ... *)
Definition numeral (v : text) : Prop :=
  exists s m e, sign s /\ v = s ++ m ++ e /\
    ((digits m /\ m <> []) \/ (exists i f, digits i /\ digits f /\ (i <> [] \/ f <> []) /\ m = i ++ "." :: f)) /\
    (e = [] \/ exists c t d, (c = "e" \/ c = "E") /\ sign t /\ digits d /\ d <> [] /\ e = c :: t ++ d).
Definition value (v : text) : Prop := numeral v \/ word v.
Definition gap (g : text) : Prop := Forall (fun c => is_blank c \/ c = ",") g.
Definition opt_blank (b : text) : Prop := b = [] \/ exists c, is_blank c /\ b = [c].
(** name=value, name = value; entries are kept apart by blanks and commas. *)
Inductive profile : list (text * text) -> text -> Prop :=
| p_end : forall g, gap g -> profile [] g
| p_entry : forall g n b1 b2 v rest l, gap g -> name n -> opt_blank b1 -> opt_blank b2 -> value v ->
    profile l rest -> (l <> [] -> exists c r, rest = c :: r /\ (is_blank c \/ c = ",")) ->
    profile ((n, v) :: l) (g ++ n ++ b1 ++ "=" :: b2 ++ v ++ rest).

(** ** Proof *)
Definition stops (p : ascii -> bool) (l : text) : Prop := match l with [] => True | c :: _ => p c = false end.
Lemma span_all p a r : Forall (fun c => p c = true) a -> stops p r -> span p (a ++ r) = (a, r).
Proof.
  intros H S. induction H as [|c a Hc _ IH]; cbn [app span].
  - destruct r as [|c r]; [reflexivity|]. cbn in S |- *. now rewrite S.
  - now rewrite Hc, IH.
Qed.
Lemma in_cases (P : ascii -> Prop) l c : In c l -> Forall P l -> P c.
Proof. intros H F. rewrite Forall_forall in F. auto. Qed.
Lemma letter_ok c : is_letter c -> letter c = true /\ digit c = false /\ white c = false /\ c <> "=" /\ c <> "/" /\ c <> "." /\ c <> "-" /\ c <> "+".
Proof. intros H. revert c H. apply Forall_forall. cbn. repeat constructor; discriminate. Qed.
Lemma digit_ok c : is_digit c -> letter c = false /\ digit c = true /\ white c = false /\ c <> "=" /\ c <> "/" /\ c <> "." /\ c <> "-" /\ c <> "+" /\ c <> "e" /\ c <> "E".
Proof. intros H. revert c H. apply Forall_forall. cbn. repeat constructor; discriminate. Qed.
Lemma sep_ok c : is_blank c \/ c = "," -> letter c = false /\ digit c = false /\ c <> "=" /\ c <> "/" /\ c <> "." /\ c <> "-" /\ c <> "+" /\ c <> "e" /\ c <> "E".
Proof. intros [[->|[->|[->| ->]]]| ->]; repeat split; try reflexivity; discriminate. Qed.
Lemma letters l : Forall is_letter l -> Forall (fun c => letter c = true) l.
Proof. apply Forall_impl. intros c H. apply (letter_ok c H). Qed.
Lemma digits_ok l : digits l -> Forall (fun c => digit c = true) l.
Proof. apply Forall_impl. intros c H. apply (digit_ok c H). Qed.
(** What may follow a value: nothing, a blank or a comma. *)
Definition ends (l : text) : Prop := match l with [] => True | c :: _ => is_blank c \/ c = "," end.
Lemma ends_letter l : ends l -> stops letter l. Proof. destruct l as [|c l]; [auto|]. intros H. apply (sep_ok c H). Qed.
Lemma ends_digit l : ends l -> stops digit l. Proof. destruct l as [|c l]; [auto|]. intros H. apply (sep_ok c H). Qed.
Lemma sign_at_ok s l : sign s -> match l with c :: _ => c <> "-" /\ c <> "+" | [] => True end -> sign_at (s ++ l) = (s, l).
Proof.
  intros [->|[->| ->]] H; cbn; try reflexivity. destruct l as [|c l]; [reflexivity|]. destruct H as [A B]. destruct c as [[] [] [] [] [] [] [] []]; try reflexivity; congruence.
Qed.
Lemma sign_at_none l : match l with c :: _ => c <> "-" /\ c <> "+" | [] => True end -> sign_at l = ([], l).
Proof. intros H. exact (sign_at_ok [] l (or_introl eq_refl) H). Qed.
Lemma not_e c : c <> "e" -> c <> "E" -> (Ascii.eqb c "e" || Ascii.eqb c "E")%bool = false.
Proof. intros A B. apply Ascii.eqb_neq in A, B. now rewrite A, B. Qed.
Lemma is_e c : c = "e" \/ c = "E" -> (Ascii.eqb c "e" || Ascii.eqb c "E")%bool = true.
Proof. intros [->| ->]; reflexivity. Qed.
Lemma exponent_ok e l : ends l -> (e = [] \/ exists c t d, (c = "e" \/ c = "E") /\ sign t /\ digits d /\ d <> [] /\ e = c :: t ++ d) -> exponent_at (e ++ l) = (e, l).
Proof.
  intros E [->|(c & t & d & Hc & Ht & Hd & Dn & ->)].
  - destruct l as [|c l]; [reflexivity|]. cbn [app exponent_at]. destruct (sep_ok c E) as (_ & _ & _ & _ & _ & _ & _ & A & B). now rewrite not_e.
  - cbn [app exponent_at]. rewrite is_e by exact Hc. rewrite <- app_assoc. rewrite sign_at_ok; [|exact Ht|destruct d as [|x d]; [congruence|]; cbn; inversion Hd; subst; destruct (digit_ok x ltac:(assumption)); tauto].
    rewrite span_all by (auto using digits_ok, ends_digit). destruct d; [congruence|reflexivity].
Qed.
(** After the mantissa comes the exponent or the end: no digit, no point. *)
Lemma tail_ok e l : ends l -> (e = [] \/ exists c t d, (c = "e" \/ c = "E") /\ sign t /\ digits d /\ d <> [] /\ e = c :: t ++ d) -> match e ++ l with [] => True | c :: _ => digit c = false /\ c <> "." end.
Proof.
  intros E [->|(c & t & d & [->| ->] & _ & _ & _ & ->)]; cbn [app]; try (split; [reflexivity|discriminate]). destruct l as [|c l]; [exact I|]. destruct (sep_ok c E); tauto.
Qed.
Lemma dot_dec c : {c = "."} + {c <> "."}. Proof. apply ascii_dec. Qed.
Lemma mantissa_plain i r : digits i -> i <> [] -> match r with [] => True | c :: _ => digit c = false /\ c <> "." end -> mantissa_at (i ++ r) = Some (i, r).
Proof.
  intros D N H. unfold mantissa_at. rewrite span_all; [|now apply digits_ok|destruct r; [exact I|apply H]]. destruct i as [|x i]; [congruence|]. destruct r as [|c r]; [reflexivity|]. destruct H as [_ H]. destruct c as [[] [] [] [] [] [] [] []]; try reflexivity; congruence.
Qed.
Lemma mantissa_point i f r : digits i -> digits f -> i <> [] \/ f <> [] -> match r with [] => True | c :: _ => digit c = false /\ c <> "." end -> mantissa_at ((i ++ "." :: f) ++ r) = Some (i ++ "." :: f, r).
Proof.
  intros D F N H. unfold mantissa_at. rewrite <- app_assoc. cbn [app]. rewrite span_all; [|now apply digits_ok|reflexivity].
  rewrite span_all; [|now apply digits_ok|destruct r; [exact I|apply H]].
  destruct i as [|x i]; [|reflexivity]. destruct f as [|y f]; [destruct N; congruence|reflexivity].
Qed.
Lemma number_ok v l : ends l -> numeral v -> number_at (v ++ l) = Some (v, l).
Proof.
  intros E (s & m & e & Hs & -> & Hm & He). unfold number_at. rewrite <- !app_assoc. rewrite sign_at_ok; [|exact Hs|].
  - assert (T := tail_ok e l E He). assert (M : mantissa_at (m ++ e ++ l) = Some (m, e ++ l)) by (destruct Hm as [[A B]|(i & f & A & B & C & ->)]; [now apply mantissa_plain|now apply mantissa_point]).
    rewrite M. rewrite exponent_ok by assumption. reflexivity.
  - destruct Hm as [[A B]|(i & f & A & B & C & ->)].
    + destruct m as [|x m]; [congruence|]. inversion A; subst. cbn. destruct (digit_ok x ltac:(assumption)); tauto.
    + destruct i as [|x i]; cbn; [split; discriminate|]. inversion A; subst. destruct (digit_ok x ltac:(assumption)); tauto.
Qed.
Lemma value_ok v l : ends l -> value v -> value_at (v ++ l) = Some (v, l).
Proof.
  intros E [N|[N W]]; unfold value_at; [now rewrite number_ok|].
  rewrite span_all by (auto using letters, ends_letter). destruct v as [|c v]; [congruence|]. inversion W; subst. destruct (letter_ok c ltac:(assumption)) as (A & B & C & D & E1 & F & G & H).
  assert (K : number_at ((c :: v) ++ l) = None).
  { unfold number_at. rewrite sign_at_none by (cbn; tauto). unfold mantissa_at. cbn [app span]. rewrite B. destruct c as [[] [] [] [] [] [] [] []]; try reflexivity; congruence. }
  now rewrite K.
Qed.
Lemma blank_white c : is_blank c -> white c = true /\ letter c = false /\ c <> "/" /\ c <> "=".
Proof. intros [->|[->|[->| ->]]]; repeat split; try reflexivity; discriminate. Qed.
Lemma name_ok n l : name n -> match l with [] => True | c :: _ => letter c = false /\ c <> "/" end -> name_at (n ++ l) = Some (n, l).
Proof.
  intros [[N W]|(w & c & [N W] & Hc & ->)] H; unfold name_at.
  - rewrite span_all by (first [now apply letters | destruct l; [exact I|apply H]]). destruct n as [|x n]; [congruence|]. destruct l as [|c l]; [reflexivity|]. destruct H as [_ H]. destruct c as [[] [] [] [] [] [] [] []]; try reflexivity; congruence.
  - rewrite <- app_assoc. cbn [app]. rewrite span_all by (first [now apply letters | reflexivity]). destruct w as [|x w]; [congruence|]. now rewrite (proj1 (letter_ok c Hc)).
Qed.
Lemma skip_ok b c l : opt_blank b -> white c = false -> skip_white (b ++ c :: l) = c :: l.
Proof. intros [->|(d & Hd & ->)] W; cbn; [now rewrite W|now rewrite (proj1 (blank_white d Hd))]. Qed.
Lemma value_head v : value v -> exists c r, v = c :: r /\ white c = false.
Proof.
  intros [(s & m & e & Hs & -> & Hm & He)|[N W]].
  - assert (M : exists c r, m = c :: r /\ white c = false).
    { destruct Hm as [[A B]|(i & f & A & B & C & ->)].
      - destruct m as [|x m]; [congruence|]. inversion A; subst. exists x, m. split; [reflexivity|apply (digit_ok x); assumption].
      - destruct i as [|x i]; [exists ".", f; split; reflexivity|]. inversion A; subst. exists x, (i ++ "." :: f). split; [reflexivity|apply (digit_ok x); assumption]. }
    destruct M as (c & r & -> & Wc). destruct Hs as [->|[->| ->]]; cbn [app]; do 2 eexists; (split; [reflexivity|]); auto.
  - destruct v as [|x v]; [congruence|]. inversion W; subst. exists x, v. split; [reflexivity|apply (letter_ok x); assumption].
Qed.
Lemma pair_ok n b1 b2 v l : name n -> opt_blank b1 -> opt_blank b2 -> value v -> ends l -> pair_at (n ++ b1 ++ "=" :: b2 ++ v ++ l) = Some (n, v, l).
Proof.
  intros Hn H1 H2 Hv E. unfold pair_at. rewrite name_ok; [|exact Hn|].
  - rewrite skip_ok by (auto; reflexivity). destruct (value_head v Hv) as (c & r & -> & Wc). cbn [app]. rewrite skip_ok by auto. change (c :: r ++ l) with ((c :: r) ++ l). now rewrite value_ok.
  - destruct H1 as [->|(d & Hd & ->)]; cbn; [split; [reflexivity|discriminate]|]. destruct (blank_white d Hd); tauto.
Qed.
Lemma gap_skip g : gap g -> forall fuel l, (List.length (g ++ l) <= fuel)%nat -> exists fuel', (List.length l <= fuel')%nat /\ findall fuel (g ++ l) = findall fuel' l.
Proof.
  intros G. induction G as [|c g Hc _ IH]; intros fuel l H; [exists fuel; auto|].
  cbn [app List.length] in H. destruct fuel as [|k]; [lia|]. cbn [app findall]. assert (P : pair_at (c :: g ++ l) = None) by (unfold pair_at, name_at; cbn [span]; now rewrite (proj1 (sep_ok c Hc))). rewrite P. apply IH. lia.
Qed.
Lemma profile_ends l t : profile l t -> (l <> [] -> exists c r, t = c :: r /\ (is_blank c \/ c = ",")) -> ends t.
Proof. intros P H. destruct P as [g G|]; [destruct G; [exact I|assumption]|]. destruct (H ltac:(discriminate)) as (c & r & E & S). rewrite E. exact S. Qed.
Lemma findall_ok l t : profile l t -> forall fuel, (List.length t <= fuel)%nat -> findall fuel t = l.
Proof.
  intros P. induction P as [g G|g n b1 b2 v rest l G Hn H1 H2 Hv P IH S]; intros fuel F.
  - rewrite <- (app_nil_r g) in F |- *. destruct (gap_skip g G fuel [] F) as (k & _ & ->). destruct k; reflexivity.
  - destruct (gap_skip g G fuel _ F) as (k & Fk & ->). clear F. assert (K := pair_ok n b1 b2 v rest Hn H1 H2 Hv (profile_ends _ _ P S)).
    assert (L : (List.length rest < List.length (n ++ b1 ++ "=" :: b2 ++ v ++ rest))%nat) by (rewrite !app_length; cbn [List.length]; rewrite !app_length; lia).
    destruct (n ++ b1 ++ "=" :: b2 ++ v ++ rest) as [|c r] eqn:E; [cbn in L; lia|]. destruct k as [|k]; [cbn in Fk; lia|]. cbn [findall]. rewrite K. f_equal. apply IH. cbn in Fk, L. lia.
Qed.
(** Every profile written with entries name = value, whatever the names, numbers and words, the blanks and the commas, is read
    as exactly these entries in their order. *)
Theorem C72_profile_text : forall entries txt, profile entries txt -> find_beam_profile_pars txt = entries.
Proof. intros l t P. apply findall_ok; [exact P|]. apply le_n. Qed.
Print Assumptions C72_profile_text.
(** A number is not cut: what is recorded for it is the whole numeral (2.0E-5, not 2). *)
Theorem C72_profile_numbers_whole : forall n v g, name n -> numeral v -> gap g -> find_beam_profile_pars (n ++ "=" :: v ++ g) = [(n, v)].
Proof.
  intros n v g Hn Hv Hg. apply C72_profile_text. assert (K := p_entry [] n [] [] v g [] (Forall_nil _) Hn (or_introl eq_refl) (or_introl eq_refl) (or_introl Hv) (p_end g Hg) ltac:(congruence)). exact K.
Qed.
Print Assumptions C72_profile_numbers_whole.
Definition txt (s : string) : text := list_ascii_of_string s.
(** Entries that are not so written are skipped without a word: a parameter whose name has a digit (the program's own xi0), a
    word with a capital letter, two blanks before the sign '='. *)
Theorem C72_every_entry_is_read_refuted : find_beam_profile_pars (txt "xi0=5, ampl=1") = [(txt "ampl", txt "1")] /\
  find_beam_profile_pars (txt "rshape=G, ampl=1") = [(txt "ampl", txt "1")] /\ find_beam_profile_pars (txt "length  =7, ampl=1") = [(txt "ampl", txt "1")] /\
  find_beam_profile_pars (txt "# old ampl=2") = [(txt "ampl", txt "2")].
Proof. repeat split; vm_compute; reflexivity. Qed.
Print Assumptions C72_every_entry_is_read_refuted.
Example C72_profile_text_nonvacuous : exists entries, profile entries (txt "xishape=cos, ampl = -2.5e-3,m/q=1.") /\ List.length entries = 3%nat /\ find_beam_profile_pars (txt "xishape=cos, ampl = -2.5e-3,m/q=1.") = entries.
Proof.
  exists [(txt "xishape", txt "cos"); (txt "ampl", txt "-2.5e-3"); (txt "m/q", txt "1.")]. split; [|split; [reflexivity|vm_compute; reflexivity]].
  assert (W : forall s, txt s <> [] -> forallb letter (txt s) = true -> word (txt s)).
  { intros s N F. split; [exact N|]. rewrite forallb_forall in F. apply Forall_forall. intros c Hc. specialize (F c Hc). clear - F. unfold is_letter. destruct c as [[] [] [] [] [] [] [] []]; vm_compute in F; try discriminate F; cbn; tauto. }
  apply (p_entry [] (txt "xishape") [] [] (txt "cos") (txt ", ampl = -2.5e-3,m/q=1.")); [constructor|left; apply W; [discriminate|reflexivity]|now left|now left|right; apply W; [discriminate|reflexivity]| |intros _; do 2 eexists; split; [reflexivity|now right]].
  apply (p_entry (txt ", ") (txt "ampl") [" "] [" "] (txt "-2.5e-3") (txt ",m/q=1.")).
  - constructor; [now right|constructor; [left; now left|constructor]].
  - left; apply W; [discriminate|reflexivity].
  - right. exists " ". split; [now left|reflexivity].
  - right. exists " ". split; [now left|reflexivity].
  - left. exists ["-"], (txt "2.5"), (txt "e-3"). split; [right; now left|]. split; [reflexivity|]. split.
    + right. exists ["2"], ["5"]. repeat split; try (constructor; [cbn; tauto|constructor]). left; discriminate.
    + right. exists "e", ["-"], ["3"]. repeat split; [now left|right; now left|constructor; [cbn; tauto|constructor]|discriminate].
  - apply (p_entry (txt ",") (txt "m/q") [] [] (txt "1.") []); [constructor; [now right|constructor]| |now left|now left| |constructor; constructor|congruence].
    + right. exists ["m"], "q". split; [apply (W "m"%string); [discriminate|reflexivity]|]. split; [cbn; tauto|reflexivity].
    + left. exists [], (txt "1."), []. split; [now left|]. split; [reflexivity|]. split; [|now left]. right. exists ["1"], []. repeat split; [constructor; [cbn; tauto|constructor]|constructor|left; discriminate].
  - intros _. do 2 eexists. split; [reflexivity|now right].
Qed.
