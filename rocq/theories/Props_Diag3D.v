(** C77.  The recording classes of diagnostics_3d.py: which files a run leaves and what is in them. *)
From Coq Require Import Reals ZArith List Bool String Lra Lia.
From Verif Require Import Beam2D_Model Beam2D_Spec Shape_Model Plasma2D_Model Plasma3D_Model Diag_Model Diag_Spec Diag_Proofs Diag3D_Model Diag3D_Spec Diag3D_Proofs.
Import ListNotations.
Local Open Scope list_scope.
Local Open Scope R_scope.

Lemma fx_run_spec c steps : 0 < x_dt c -> 0 < x_dxi c -> NoDup (x_names c) ->
  (forall t ls l, In (t, ls) steps -> In l ls -> readable3 (x_cells c) l) ->
  exists outs fs, fx_run c steps (no_data, []) = Some (no_data, fs) /\ written (x_P c) (x_dt c) (saving (x_S c) (x_dxi c)) steps outs /\
    Forall2 (line_file (x_names c) (x_h c) (x_cells c)) outs fs.
Proof.
  intros H1 H2 ND Hr.
  destruct (run_writes (x_P c) (x_dt c) (fun _ => true) (fun t _ => fx_due c t) (fx_entries c) (fx_ent c) (fx_saves c) (fun _ => false) (fx_due c) Some (fun d => d)
    (saving (x_S c) (x_dxi c))) with (steps := steps) (ws := @nil file) as (outs & W & E).
  - intros t. now apply condition_due.
  - intros t l. now rewrite andb_true_r.
  - intros l. now apply fx_saving.
  - intros t ls I D. split; [|reflexivity]. intros l Il _. apply fx_entries_ok. eapply Hr; eauto.
  - exists outs, (map (fun w => file_of (fun _ => true) (fx_ent c) (fun d => d) (fst w) (snd w)) outs). split; [exact E|]. split; [exact W|].
    assert (L : forall w l, In w outs -> In l (snd w) -> readable3 (x_cells c) l).
    { intros w l Iw Il. clear E. revert Hr Iw. induction W as [|t ls r ps ws D M W IH|t ls r ws D W IH]; intros Hr Iw; [contradiction| |apply IH; auto; intros; eapply Hr; simpl; eauto].
      apply in_app_iff in Iw. destruct Iw as [Iw|Iw]; [|apply IH; auto; intros; eapply Hr; simpl; eauto].
      apply in_map_iff in Iw. destruct Iw as (p & <- & Ip). simpl in Il.
      assert (Q : forall seen rest qs, midway (saving (x_S c) (x_dxi c)) seen rest qs -> forall p x, In p qs -> In x p -> In x (seen ++ rest)).
      { clear. induction 1 as [|seen l r n ps W M IH]; intros p x Ip Ix; [contradiction|]. apply in_app_iff in Ip. destruct Ip as [Ip|Ip].
        - apply repeat_spec in Ip. subst. rewrite in_app_iff in *. simpl in *. tauto.
        - specialize (IH p x Ip Ix). rewrite <- app_assoc in IH. exact IH. }
      apply (Hr t ls l); [simpl; auto|]. apply in_app_iff in Ip. destruct Ip as [Ip|[<-|[]]]; [|exact Il]. apply (Q _ _ _ M p l Ip Il). }
    clear E W. induction outs as [|[t ls] outs IH]; simpl; constructor; [apply fx_file; auto; intros; eapply (L (t, ls)); simpl; eauto|apply IH; intros; eapply L; simpl; eauto].
Qed.

(** ** DiagnosticsFXi *)
(** A diagnostic made from an option string that the class accepts, without repeated names, over any run: what is written,
    in order, is for every due step the part of the window passed at each layer near a multiple of saving_xi_period, and at
    last the whole step; every file holds one value per layer and name, in order, nothing of other steps.
    Later files of a step replace the earlier ones (same name). *)
Theorem C77_fxi_files : forall f_xi P S dt dxi h n probes c steps,
  new_fx f_xi P S dt dxi h n probes = Some c -> NoDup (from_str_into_list f_xi) -> 0 < dt -> 0 < dxi ->
  let names := from_str_into_list f_xi in
  let cells := map (fun p => (n / 2 + nearest_even (fst p / h), n / 2 + nearest_even (snd p / h))%Z) probes in
  (forall t ls l, In (t, ls) steps -> In l ls -> readable3 cells l) ->
  exists outs fs, fx_run c steps (no_data, []) = Some (no_data, fs) /\
    written P dt (saving S dxi) steps outs /\ Forall2 (line_file names h cells) outs fs.
Proof.
  intros f_xi P S dt dxi h n probes c steps E ND H1 H2. cbv zeta. intros Hr. unfold new_fx in E. destruct (legacy_fxi f_xi) as [names|] eqn:L; [|discriminate].
  assert (names = from_str_into_list f_xi) as -> by (unfold legacy_fxi in L; cbv zeta in L; destruct (forallb _ _); congruence).
  simpl in E. injection E as <-. apply (fx_run_spec (mkFx (from_str_into_list f_xi) P S dt dxi h (map (probe3 n h) probes)) steps); auto.
Qed.

(** A run stopped inside a due step: once a layer near a multiple of the saving period has been passed, the last file holds
    everything up to it. *)
Theorem C77_fxi_crash : forall c t a l b, 0 < x_dt c -> 0 < x_dxi c -> NoDup (x_names c) -> due (x_P c) (x_dt c) t -> due (x_S c) (x_dxi c) (l3_xi l) ->
  (forall l', In l' (a ++ l :: b) -> readable3 (x_cells c) l') ->
  exists d fs f b' b'', fx_layers c t (a ++ l :: b) (no_data, []) = Some (d, fs ++ [f]) /\ b = b' ++ b'' /\
    line_file (x_names c) (x_h c) (x_cells c) (t, a ++ l :: b') f.
Proof.
  intros c t a l b H1 H2 ND Dt Dl Hr.
  destruct (record_due (fun _ => true) (fun t _ => fx_due c t) (fx_entries c) (fx_ent c) (fx_saves c) (fun _ => false) (fx_due c) Some (fun d => d) (saving (x_S c) (x_dxi c)))
    with (t := t) (ls := a ++ l :: b) (seen := @nil layer3) (ws := @nil file) as (ps & M & E).
  - intros; now rewrite andb_true_r.
  - intros; now apply fx_saving.
  - now apply condition_due.
  - intros l' Il _. apply fx_entries_ok. auto.
  - reflexivity.
  - destruct (midway_reach _ _ _ _ M a l b eq_refl) as (qs & b' & b'' & -> & ->).
    { intros n [[-> _]|[-> N]]; [lia|contradiction]. }
    rewrite map_app in E. simpl in E. eexists _, _, _, b', b''. split; [exact E|]. split; [reflexivity|]. apply fx_file; auto.
    intros l' I. apply Hr. rewrite in_app_iff in *. simpl in *. rewrite in_app_iff. tauto.
Qed.

(** a run of two steps of three layers: due is the second one; the file is written at xi = 0, at xi = -2 and at the end *)
Definition plain_layer (x : R) : layer3 := let g := fun i j => x + IZR i in mkL3 (- x) 8 g g g g g g g g g g [] (repeat (repeat x 6) 6) (repeat (repeat x 6) 6).
Definition plain_layers := [plain_layer 0; plain_layer 1; plain_layer 2].
Lemma plain_readable x : readable3 [(4, 4)%Z; (5, 3)%Z] (plain_layer x).
Proof.
  unfold readable3, square. simpl. repeat split; try lia; try (intros row H; repeat destruct H as [<-|H]; try contradiction; reflexivity);
    destruct H as [<-|[<-|[]]]; simpl; lia.
Qed.
Lemma due_in p s t n : s <= p -> Rabs (t - IZR n * p) <= s / 2 -> due (Every p) s t.
Proof. intros H A. exists n. rewrite Rmax_left; auto. Qed.
Lemma due_not p s t n : 0 < s -> s <= p -> IZR n * p + s / 2 < t -> t < (IZR n + 1) * p - s / 2 -> ~ due (Every p) s t.
Proof.
  intros Hs H A B (k & K). rewrite Rmax_left in K by auto. apply abs_le_inv in K. destruct (Z_le_gt_dec k n) as [L|L].
  - apply IZR_le in L. nra.
  - assert (L' : (n + 1 <= k)%Z) by lia. apply IZR_le in L'. rewrite plus_IZR in L'. nra.
Qed.
Example C77_fxi_ex : exists c fs f, new_fx "Ez, Sf" (Every 2) (Every 2) 1 1 1 8 [(0, 0); (1, -1)] = Some c /\
  fx_run c [(1, plain_layers); (2, plain_layers)] (no_data, []) = Some (no_data, fs ++ [f]) /\ List.length fs = 2%nat /\
  f_time f = 2 /\ f_data f "xi"%string = [[[-0]]; [[-(1)]]; [[-(2)]]] /\ f_data f "Ez"%string = [[[0 + 4; 0 + 5]]; [[1 + 4; 1 + 5]]; [[2 + 4; 2 + 5]]] /\
  (forall f', In f' fs -> f_time f' = 2) /\ List.length (f_data f "Sf"%string) = 3%nat.
Proof.
  assert (N4 : forall z, (8 / 2 + nearest_even (IZR z / 1))%Z = (4 + z)%Z) by (intros z; replace (IZR z / 1) with (IZR z) by field; now rewrite ne_int).
  assert (E : exists c, new_fx "Ez, Sf" (Every 2) (Every 2) 1 1 1 8 [(0, 0); (1, -1)] = Some c) by (eexists; reflexivity).
  destruct E as (c & E). destruct (C77_fxi_files _ _ _ _ _ _ _ _ _ [(1, plain_layers); (2, plain_layers)] E) as (outs & fs & R & W & F).
  - change (from_str_into_list "Ez, Sf") with ["Ez"; "Sf"]%string. constructor; [simpl; intuition discriminate|constructor; [simpl; tauto|constructor]].
  - lra.
  - lra.
  - cbn [map fst snd]. rewrite !N4. intros t ls l I J. replace ls with plain_layers in J by (simpl in I; intuition congruence).
    destruct J as [<-|[<-|[<-|[]]]]; apply plain_readable.
  - assert (D1 : ~ due (Every 2) 1 1) by (apply (due_not _ _ _ 0); lra).
    assert (X0 : due (Every 2) 1 (-0)) by (apply (due_in _ _ _ 0); [lra|]; replace (-0 - 0 * 2) with 0 by ring; rewrite Rabs_R0; lra).
    assert (X1 : ~ due (Every 2) 1 (-(1))) by (apply (due_not _ _ _ (-1)); lra).
    assert (X2 : due (Every 2) 1 (-(2))) by (apply (due_in _ _ _ (-1)); [lra|]; replace (-(2) - -1 * 2) with 0 by ring; rewrite Rabs_R0; lra).
    assert (O : outs = map (pair 2) ([[plain_layer 0]; plain_layers; plain_layers])).
    { inversion W as [|? ? ? ? ? Dd ? ?|? ? ? ? Dn W']; subst; [contradiction|]. inversion W' as [|? ? ? ps ws Dd M W''|? ? ? ? D2 W'']; subst.
      - inversion W''; subst. rewrite app_nil_r. f_equal. f_equal. unfold plain_layers in M.
        inversion M as [|? ? ? n1 ps1 S1 M1]; subst. inversion M1 as [|? ? ? n2 ps2 S2 M2]; subst. inversion M2 as [|? ? ? n3 ps3 S3 M3]; subst. inversion M3; subst.
        destruct S1 as [[-> _]|[_ S1]]; [|contradiction]. destruct S2 as [[_ S2]|[-> _]]; [contradiction|]. destruct S3 as [[-> _]|[_ S3]]; [|contradiction]. reflexivity.
      - exfalso. apply D2. apply (due_in _ _ _ 1); [lra|]. replace (2 - 1 * 2) with 0 by ring. rewrite Rabs_R0. lra. }
    subst outs. cbn [map fst snd] in F. inversion F as [|w1 f1 ? ? F1 G1]; subst. inversion G1 as [|w2 f2 ? ? F2 G2]; subst. inversion G2 as [|w3 f3 ? ? F3 G3]; subst. inversion G3; subst.
    exists c, [f1; f2], f3. split; [exact E|]. split; [exact R|]. split; [reflexivity|].
    change (from_str_into_list "Ez, Sf") with ["Ez"; "Sf"]%string in F3.
    destruct F3 as (T3 & A3 & B3 & _). cbn [fst snd map] in *. rewrite !N4 in B3. split; [exact T3|]. split; [exact A3|]. split; [|split].
    + pose proof (B3 qEz ltac:(simpl; auto)) as Z. change (key3 qEz) with "Ez"%string in Z. revert Z. generalize (f_data f3 "Ez"%string). intros z Z.
      inversion Z as [|? z1 ? ? Z1 Y1]; subst. inversion Y1 as [|? z2 ? ? Z2 Y2]; subst. inversion Y2 as [|? z3 ? ? Z3 Y3]; subst. inversion Y3; subst.
      destruct Z1 as (g1 & Q1 & ->), Z2 as (g2 & Q2 & ->), Z3 as (g3 & Q3 & ->). injection Q1 as <-. injection Q2 as <-. injection Q3 as <-. reflexivity.
    + intros f' [<-|[<-|[]]]; [apply F1|apply F2].
    + pose proof (B3 qSf ltac:(simpl; auto)) as Z. clear -Z. change (key3 qSf) with "Sf"%string in Z. revert Z. generalize (f_data f3 "Sf"%string). intros z Z. inversion Z as [|? ? ? ? _ Z1]; subst. inversion Z1 as [|? ? ? ? _ Z2]; subst. inversion Z2 as [|? ? ? ? _ Z3]; subst. inversion Z3; subst. reflexivity.
Qed.

(** ** DiagnosticsColormaps *)
(** Without merging, with names of fields, r_to not below the window, and a first layer inside xi_to .. xi_from at every
    due step: the files are those of [written], with the layers between the limits and the cells between r_from and r_to. *)
Theorem C77_colormap_files : forall colormaps c steps,
  colormap_names colormaps = Some (m_names c) -> NoDup (m_names c) -> ~ In "y_offt"%string (m_names c) -> ~ In "y_plasma_particles"%string (m_names c) ->
  (0 < m_n c)%Z -> 0 < m_h c -> 0 < m_dt c -> 0 < m_dxi c -> (m_merge_r c <= 1)%Z -> (m_merge_xi c <= 1)%Z ->
  (forall r, m_r_to c = Some r -> centre (m_n c) (m_h c) 0 <= r) ->
  (forall t ls, In (t, ls) steps -> due (m_P c) (m_dt c) t -> exists l r, ls = l :: r /\ between (m_xi_to c) (m_xi_from c) (l3_xi l)) ->
  exists outs fs, cm_run c steps (no_data, []) = Some (no_data, fs) /\
    written (m_P c) (m_dt c) (map_saving (m_S c) (m_dxi c) (m_xi_to c)) steps outs /\
    Forall2 (map_file (m_names c) (m_n c) (m_h c) (m_xi_to c) (m_xi_from c) (m_r_from c) (m_r_to c)) outs fs.
Proof.
  intros s c steps E ND Y1 Y2 Hn Hh Ht Hx M1 M2 Hr Hs.
  assert (Hp : plain c).
  { unfold colormap_names in E. destruct (forallb _ _) eqn:F; [|discriminate]. injection E as E. rewrite E in F. rewrite forallb_forall in F.
    repeat (split; auto). - intros name I. apply mem_in. now apply F. - intros ->. contradiction. - intros ->. contradiction. }
  assert (Htop : top_ok c). { intros r Er. specialize (Hr r Er). unfold centre in Hr. rewrite minus_IZR in Hr. lra. }
  assert (NE : forall t ls a b, In (t, ls) steps -> due (m_P c) (m_dt c) t -> ls = a ++ b -> (a <> [] \/ b = []) -> filter (cm_kp c) a <> []).
  { intros t ls a b I D Ea Na. destruct (Hs t ls I D) as (l & r & -> & B). destruct a as [|x a]; [destruct Na as [Na| ->]; [congruence|discriminate]|].
    injection Ea as <- _. simpl. rewrite (proj2 (cm_kp_between c l) B). discriminate. }
  destruct (run_writes (m_P c) (m_dt c) (cm_kp c) (cm_keeps c) (cm_entries c) (cm_ent c) (cm_saves c) (cm_ends c) (cm_due c) (cm_pack c) (cm_pk c)
    (map_saving (m_S c) (m_dxi c) (m_xi_to c))) with (steps := steps) (ws := @nil file) as (outs & W & R).
  - intros t. now apply condition_due.
  - apply cm_keeps_split.
  - intros l. now apply cm_saving_ok.
  - intros t ls I D. split.
    + intros l _ _. apply cm_entries_ok; auto. intros name In1. split; intros ->; contradiction.
    + intros a b Ea Na. apply cm_pack_ok; auto. eapply NE; eauto.
  - eexists outs, _. split; [exact R|]. split; [exact W|]. cbn [app].
    assert (Q : forall w, In w outs -> exists t ls a b, In (t, ls) steps /\ due (m_P c) (m_dt c) t /\ ls = a ++ b /\ (a <> [] \/ b = []) /\ w = (t, a)).
    { clear R NE Hs. intros w Iw. revert Iw. induction W as [|t ls r ps ws D M W IH|t ls r ws D W IH]; intros Iw; [contradiction| |].
      - apply in_app_iff in Iw. destruct Iw as [Iw|Iw].
        + apply in_map_iff in Iw. destruct Iw as (p & <- & Ip). apply in_app_iff in Ip. destruct Ip as [Ip|[<-|[]]].
          * assert (G : forall seen rest qs, midway (map_saving (m_S c) (m_dxi c) (m_xi_to c)) seen rest qs -> forall p, In p qs -> exists a b, p = seen ++ a /\ rest = a ++ b /\ a <> []).
            { clear. induction 1 as [|seen l r n ps W M IH]; intros p Ip; [contradiction|]. apply in_app_iff in Ip. destruct Ip as [Ip|Ip].
              - apply repeat_spec in Ip. subst. exists [l], r. repeat split; discriminate.
              - destruct (IH p Ip) as (a & b & -> & -> & N). exists (l :: a), b. rewrite <- app_assoc. repeat split; discriminate. }
            destruct (G _ _ _ M p Ip) as (a & b & -> & -> & N). exists t, (a ++ b), a, b. simpl. repeat split; auto.
          * exists t, ls, ls, []. rewrite app_nil_r. simpl. repeat split; auto.
        + destruct (IH Iw) as (t' & ls' & a & b & I & X). exists t', ls', a, b. split; [simpl; auto|exact X].
      - destruct (IH Iw) as (t' & ls' & a & b & I & X). exists t', ls', a, b. split; [simpl; auto|exact X]. }
    clear R W. induction outs as [|w outs IH]; simpl; constructor.
    + destruct (Q w ltac:(simpl; auto)) as (t & ls & a & b & I & D & Ea & Na & ->). apply cm_file; auto. eapply NE; eauto.
    + apply IH. intros w' I'. apply Q. simpl; auto.
Qed.

(** the window -2 <= xi <= 0 and the cells around -1 .. 2 of 8: two layers are kept of three, cells 3, 4, 5 *)
Definition some_map (names : list string) (merge : Z) (from to : R) : cm := mkCm names (Every 1) (Every 100) 1 1 1 8 (Some from) (Some to) (Some (-1)) (Some 2) merge 1.
Example C77_colormap_ex : exists fs f, cm_run (some_map ["Ez"]%string 1 0 (-1)) [(1, plain_layers)] (no_data, []) = Some (no_data, fs ++ [f]) /\
  f_data f "xi"%string = [[[-0]]; [[-(1)]]] /\ f_data f "Ez"%string = [[[0 + 4; 0 + 4; 0 + 4]]; [[1 + 4; 1 + 4; 1 + 4]]] /\ List.length fs = 3%nat.
Proof.
  destruct (C77_colormap_files "Ez" (some_map ["Ez"]%string 1 0 (-1)) [(1, plain_layers)]) as (outs & fs & R & W & F); try reflexivity; try (simpl; lra); try (simpl; lia).
  - constructor; [simpl; tauto|constructor].
  - simpl. intuition discriminate.
  - simpl. intuition discriminate.
  - intros r E. injection E as <-. unfold centre. simpl. lra.
  - intros t ls [I|[]] _. injection I as <- <-. exists (plain_layer 0), [plain_layer 1; plain_layer 2]. split; [reflexivity|]. split; simpl; intros y E; injection E as <-; lra.
  - assert (O : outs = map (pair 1) ([[plain_layer 0]; [plain_layer 0; plain_layer 1]; plain_layers; plain_layers])).
    { inversion W as [|? ? ? ps ws Dd M W'|? ? ? ? Dn W']; subst.
      - inversion W'; subst. rewrite app_nil_r. f_equal. f_equal. unfold plain_layers in M.
        inversion M as [|? ? ? n1 ps1 S1 M1]; subst. inversion M1 as [|? ? ? n2 ps2 S2 M2]; subst. inversion M2 as [|? ? ? n3 ps3 S3 M3]; subst. inversion M3; subst.
        simpl in S1, S2, S3.
        assert (X0 : due (Every 100) 1 (-0)) by (apply (due_in _ _ _ 0); [lra|]; replace (-0 - 0 * 100) with 0 by ring; rewrite Rabs_R0; lra).
        assert (X1 : ~ due (Every 100) 1 (-(1))) by (apply (due_not _ _ _ (-1)); lra).
        assert (X2 : ~ due (Every 100) 1 (-(2))) by (apply (due_not _ _ _ (-1)); lra).
        destruct S1 as (a1 & b1 & -> & [[-> _]|[_ N1]] & _ & Z1); [|contradiction]. rewrite Z1 by (intros y E; injection E as <-; simpl; lra).
        destruct S2 as (a2 & b2 & -> & [[_ N2]|[-> _]] & Z2 & _); [contradiction|]. rewrite (Z2 (-1)) by (simpl; auto; lra).
        destruct S3 as (a3 & b3 & -> & [[_ N3]|[-> _]] & Z3 & _); [contradiction|]. rewrite (Z3 (-1)) by (simpl; auto; lra). reflexivity.
      - exfalso. apply Dn. apply (due_in _ _ _ 1); [simpl; lra|]. simpl. replace (1 - 1 * 1) with 0 by ring. rewrite Rabs_R0. lra. }
    subst outs. simpl in F. inversion F as [|w1 f1 ? ? F1 G1]; subst. inversion G1 as [|w2 f2 ? ? F2 G2]; subst. inversion G2 as [|w3 f3 ? ? F3 G3]; subst.
    inversion G3 as [|w4 f4 ? ? F4 G4]; subst. inversion G4; subst.
    exists [f1; f2; f3], f4. split; [exact R|]. destruct F4 as (_ & ls & cells & K & C & A & B & _). simpl in K, A, C.
    assert (ls = [plain_layer 0; plain_layer 1]) as ->.
    { assert (Y0 : between (Some (-1)) (Some 0) (-0)) by (split; intros y E; injection E as <-; lra).
      assert (Y1 : between (Some (-1)) (Some 0) (-(1))) by (split; intros y E; injection E as <-; lra).
      assert (Y2 : ~ between (Some (-1)) (Some 0) (-(2))) by (intros [Y _]; specialize (Y _ eq_refl); lra).
      unfold plain_layers in K. inversion K as [|? ? ? P1 K1|? ? ? P1 K1]; subst; [|contradiction]. inversion K1 as [|? ? ? P2 K2|? ? ? P2 K2]; subst; [|contradiction].
      inversion K2 as [|? ? ? P3 K3|? ? ? P3 K3]; subst; [contradiction|]. inversion K3; subst. reflexivity. }
    split; [exact A|]. split; [|reflexivity].
    change (f_data f4 "Ez"%string) with (f_data f4 (key3 qEz)). rewrite (B qEz l3_ez) by (simpl; auto).
    assert (cells = [3; 4; 5]%Z) as ->; [|reflexivity].
    destruct C as (a & b & (L & Nth) & A0 & B0 & _ & _ & Lo & Hi & All).
    assert (In1 : forall j, (3 <= j <= 5)%Z -> In j cells).
    { intros j Hj. apply All; [unfold on_axis; lia| |]; intros r E; injection E as <-; unfold centre; change (8 / 2)%Z with 4%Z; rewrite minus_IZR; assert (X : (3 <= j)%Z /\ (j <= 5)%Z) by lia; destruct X as [X Y]; apply IZR_le in X, Y; lra. }
    assert (In2 : forall j, In j cells -> (3 <= j <= 5)%Z).
    { intros j Ij. specialize (Lo _ j eq_refl Ij). specialize (Hi _ j eq_refl Ij). unfold centre in Lo, Hi. change (8 / 2)%Z with 4%Z in *. rewrite minus_IZR in Lo, Hi.
      assert (2 < j /\ j < 6)%Z; [|lia]. split; apply lt_IZR; lra. }
    assert (Len : (0 < List.length cells)%nat) by (specialize (In1 3%Z ltac:(lia)); destruct cells; [contradiction|simpl; lia]).
    assert (a = 3%Z).
    { pose proof (In2 _ (nth_In cells 0%Z Len)) as X. rewrite Nth in X by auto. destruct (In_nth cells 3%Z 0%Z (In1 3%Z ltac:(lia))) as (k & Hk & Ek). rewrite Nth in Ek by auto. lia. }
    assert (b = 6%Z).
    { assert (Lk : (List.length cells - 1 < List.length cells)%nat) by lia. pose proof (In2 _ (nth_In cells 0%Z Lk)) as X. rewrite Nth in X by auto.
      destruct (In_nth cells 5%Z 0%Z (In1 5%Z ltac:(lia))) as (k & Hk & Ek). rewrite Nth in Ek by auto. lia. }
    subst a b. change (Z.to_nat (6 - 3)) with 3%nat in L. destruct cells as [|c0 [|c1 [|c2 [|]]]]; try discriminate.
    pose proof (Nth 0%nat) as N0. pose proof (Nth 1%nat) as N1. pose proof (Nth 2%nat) as N2. simpl in N0, N1, N2. rewrite N0, N1, N2 by lia. reflexivity.
Qed.

(** The file's transverse_grid has a number for every cell of the window even when r_from, r_to cut the rows shorter: 8 here
    for rows of 3. *)
Theorem C77_grid_refuted : exists c fs f row, cm_run c [(1, plain_layers)] (no_data, []) = Some (no_data, fs ++ [f]) /\
  In [row] (f_data f "Ez"%string) /\ List.length row = 3%nat /\ exists grid, f_data f "transverse_grid"%string = [[grid]] /\ List.length grid = 8%nat.
Proof.
  destruct C77_colormap_ex as (fs & f & R & _ & Z & _).
  exists (some_map ["Ez"]%string 1 0 (-1)), fs, f, [0 + 4; 0 + 4; 0 + 4]. split; [exact R|]. split; [rewrite Z; simpl; auto|]. split; [reflexivity|].
  assert (G : forall steps s s', cm_run (some_map ["Ez"]%string 1 0 (-1)) steps s = Some s' ->
    (forall f, In f (snd s) -> exists grid, f_data f "transverse_grid"%string = [[grid]] /\ List.length grid = 8%nat) ->
    forall f, In f (snd s') -> exists grid, f_data f "transverse_grid"%string = [[grid]] /\ List.length grid = 8%nat).
  { set (c := some_map ["Ez"]%string 1 0 (-1)). set (good := fun f => exists grid, f_data f "transverse_grid"%string = [[grid]] /\ List.length grid = 8%nat).
    assert (Gw : forall t d ws ws', write (cm_due c) (cm_pack c) t d ws = Some ws' -> (forall f, In f ws -> good f) -> forall f, In f ws' -> good f).
    { intros t d ws ws' E H g I. unfold write in E. destruct (cm_due c t); [|injection E as <-; auto]. unfold cm_pack in E. destruct (traverse _ _); [|discriminate].
      destruct (_ && _); [discriminate|]. injection E as <-. apply in_app_iff in I. destruct I as [I|[<-|[]]]; [auto|]. exists (cm_grid c). split; reflexivity. }
    assert (Gr : forall t l s s', record (cm_keeps c) (cm_entries c) (cm_saves c) (cm_ends c) (cm_due c) (cm_pack c) t s l = Some s' ->
      (forall f, In f (snd s) -> good f) -> forall f, In f (snd s') -> good f).
    { intros t l s s' E H. unfold record in E. destruct (if cm_keeps c t l then _ else _) as [d|]; [|discriminate].
      destruct (if cm_saves c l then _ else _) as [ws|] eqn:E1; [|discriminate]. destruct (if cm_ends c l then _ else _) as [ws'|] eqn:E2; [|discriminate]. injection E as <-. simpl.
      assert (H1 : forall f, In f ws -> good f) by (destruct (cm_saves c l); [eapply Gw; eauto|injection E1 as <-; auto]).
      destruct (cm_ends c l); [eapply Gw; eauto|injection E2 as <-; auto]. }
    assert (Ga : forall t ls s s', record_all (cm_keeps c) (cm_entries c) (cm_saves c) (cm_ends c) (cm_due c) (cm_pack c) t ls s = Some s' ->
      (forall f, In f (snd s) -> good f) -> forall f, In f (snd s') -> good f).
    { intros t. induction ls as [|l ls IH]; intros s s' E H; simpl in E; [injection E as <-; auto|]. destruct (record _ _ _ _ _ _ t s l) as [s1|] eqn:E1; [|discriminate]. eapply IH; eauto. }
    induction steps as [|[t ls] steps IH]; intros s s' E H; simpl in E; [injection E as <-; auto|]. unfold record_step in E.
    destruct (record_all _ _ _ _ _ _ t ls s) as [[d ws]|] eqn:E1; [|discriminate]. destruct (write _ _ t d ws) as [ws'|] eqn:E2; [|discriminate]. simpl in E.
    eapply IH; [exact E|]. simpl. eapply Gw; [exact E2|apply (Ga _ _ _ _ E1 H)]. }
  apply (G _ _ _ R); [simpl; contradiction|simpl; rewrite in_app_iff; simpl; auto].
Qed.
(** Merging never works: with output_merging_r or output_merging_xi above one the first due step raises. *)
Theorem C77_merging_refuted : forall c t ls steps s, m_names c <> [] -> (1 < m_merge_r c \/ 1 < m_merge_xi c)%Z -> 0 < m_dt c -> due (m_P c) (m_dt c) t ->
  cm_run c ((t, ls) :: steps) s = None.
Proof.
  intros c t ls steps s N M Hdt D. apply run_fails.
  - now apply condition_due.
  - intros d. unfold cm_pack. destruct (traverse _ _); [|reflexivity]. destruct (m_names c) as [|x names]; [congruence|]. cbn [negb]. rewrite andb_true_r.
    replace ((1 <? m_merge_r c) || (1 <? m_merge_xi c))%Z with true; [reflexivity|]. symmetry. apply orb_true_iff. destruct M as [M|M]; apply Z.ltb_lt in M; auto.
Qed.
Example C77_merging_ex : cm_run (some_map ["Ez"]%string 2 0 (-1)) [(1, plain_layers)] (no_data, []) = None.
Proof.
  apply C77_merging_refuted; [discriminate|simpl; lia|simpl; lra|]. apply (due_in _ _ _ 1); [simpl; lra|]. simpl. replace (1 - 1 * 1) with 0 by ring. rewrite Rabs_R0. lra.
Qed.
(** A window that begins behind xi = 0 does not work either: the solver's first layer is xi = 0, a multiple of any saving
    period, nothing has been kept yet, and the run stops. *)
Theorem C77_late_window_refuted : forall c t l ls steps x, m_names c <> [] -> 0 < m_dt c -> 0 < m_dxi c -> due (m_P c) (m_dt c) t ->
  l3_xi l = 0 -> m_xi_from c = Some x -> x < 0 -> cm_run c ((t, l :: ls) :: steps) (no_data, []) = None.
Proof.
  intros c t l ls steps x N Hdt Hdx D Hl Hx Hneg.
  assert (O : cm_due c t = true) by now apply condition_due.
  assert (K : cm_keeps c t l = false). { unfold cm_keeps, below. rewrite Hx, Hl. destruct Rle_dec; [lra|]. now rewrite andb_false_r. }
  assert (Sv : cm_saves c l = true).
  { unfold cm_saves. apply condition_due; auto. unfold due. destruct (m_S c) as [p|]; rewrite Hl; [exists 0%Z; rewrite Rmult_0_l, Rminus_0_r|]; rewrite Rabs_R0; lra. }
  unfold cm_run. cbn [record_run]. unfold record_step. cbn [record_all]. unfold record. rewrite K, Sv. unfold write. cbn [fst snd]. rewrite O.
  replace (cm_pack c no_data) with (@None data); [reflexivity|]. unfold cm_pack. destruct (m_names c) as [|n names]; [congruence|]. reflexivity.
Qed.
Example C77_late_window_ex : cm_run (some_map ["Ez"]%string 1 (-1) (-2)) [(1, plain_layers)] (no_data, []) = None.
Proof.
  apply (C77_late_window_refuted _ _ _ _ _ (-1)); try discriminate; try (simpl; lra); try reflexivity.
  apply (due_in _ _ _ 1); [simpl; lra|]. simpl. replace (1 - 1 * 1) with 0 by ring. rewrite Rabs_R0. lra.
Qed.
(** The two names of plasma particles that the class accepts stop the run at the first layer inside the window. *)
Theorem C77_particle_maps_refuted :
  (exists names, colormap_names "y_offt, y_plasma_particles" = Some names) /\
  forall c t l ls steps s, In "y_offt"%string (m_names c) \/ In "y_plasma_particles"%string (m_names c) -> 0 < m_dt c -> due (m_P c) (m_dt c) t ->
    between (m_xi_to c) (m_xi_from c) (l3_xi l) -> cm_run c ((t, l :: ls) :: steps) s = None.
Proof.
  split; [eexists; reflexivity|]. intros c t l ls steps s Hn Hdt D B.
  assert (O : cm_due c t = true) by now apply condition_due.
  assert (K : cm_keeps c t l = true) by (rewrite cm_keeps_split, O; now apply cm_kp_between).
  unfold cm_run. cbn [record_run]. unfold record_step. cbn [record_all]. unfold record. rewrite K.
  replace (cm_entries c l) with (@None (list (string * arr))); [reflexivity|]. unfold cm_entries. symmetry.
  destruct Hn as [Hn|Hn]; rewrite (traverse_none _ _ _ Hn) by reflexivity; reflexivity.
Qed.
Example C77_particle_maps_ex : cm_run (some_map ["y_offt"]%string 1 0 (-2)) [(1, plain_layers)] (no_data, []) = None.
Proof.
  apply C77_particle_maps_refuted; try (simpl; auto; fail); try (simpl; lra).
  - apply (due_in _ _ _ 1); [simpl; lra|]. simpl. replace (1 - 1 * 1) with 0 by ring. rewrite Rabs_R0. lra.
  - split; intros y E; injection E as <-; simpl; lra.
Qed.
(** r_to below the window should leave no cell; it leaves all but the last ones (a negative end of a numpy slice). *)
Theorem C77_low_limit_refuted : let c := mkCm ["Ez"]%string (Every 1) (Every 100) 1 1 1 8 None None None (Some (-5)) 1 1 in
  (forall j, on_axis 8 j -> -5 < centre 8 1 j) /\
  forall l, cm_entries c l = Some [("xi"%string, [[l3_xi l]]); ("Ez"%string, [map (fun j => l3_ez l 4%Z j) [0; 1; 2; 3; 4; 5; 6]%Z])].
Proof.
  cbv zeta. split.
  - intros j [J _]. unfold centre. change (8 / 2)%Z with 4%Z. rewrite minus_IZR. apply IZR_le in J. lra.
  - intros l. rewrite cm_entries_ok; [|simpl; lia|intros name [<-|[]]; split; discriminate].
    unfold cm_ent, cm_val, cm_cells. assert (T : cm_to (mkCm ["Ez"]%string (Every 1) (Every 100) 1 1 1 8 None None None (Some (-5)) 1 1) = (-1)%Z).
    { unfold cm_to. cbn [m_r_to m_n m_h]. change (8 / 2)%Z with 4%Z. cbv zeta. destruct Rlt_dec; [lra|]. replace (4 + -5 / 1) with (IZR (-1)) by field. apply ne_int. }
    rewrite T. reflexivity.
Qed.
(** A name given twice to DiagnosticsFXi is recorded twice at every layer, so that its column has twice as many values as xi. *)
Theorem C77_repeated_name_refuted : exists c, new_fx "Ez, Ez" (Every 1) (Every 100) 1 1 1 8 [(0, 0)] = Some c /\
  forall l, readable3 [(4, 4)%Z] l -> fx_entries c l = Some [("xi"%string, [[l3_xi l]]); ("Ez"%string, [[l3_ez l 4%Z 4%Z]]); ("Ez"%string, [[l3_ez l 4%Z 4%Z]])].
Proof.
  eexists. split; [reflexivity|]. intros l Hl. unfold fx_entries. cbn [x_h x_cells x_names map]. unfold probe3. cbn [fst snd].
  replace (nearest_even (0 / 1)) with 0%Z by (replace (0 / 1) with (IZR 0) by (simpl; field); symmetry; apply ne_int). change (8 / 2 + 0)%Z with 4%Z.
  destruct Hl as (Hc & _). destruct (Hc (4, 4)%Z (or_introl eq_refl)) as [Ha _]. simpl in Ha.
  change (from_str_into_list "Ez, Ez") with ["Ez"; "Ez"]%string. cbn [traverse]. change (of_name "Ez") with (Some qEz). cbn [process3]. rewrite read3_in by exact Hc. reflexivity.
Qed.

(** ** DiagnosticsTransverse and SaveRunState *)
Lemma due_at_iff P S dt dxi t xi : 0 < dt -> 0 < dxi -> due_at P S dt dxi t xi = true <-> due P dt t /\ due S dxi xi.
Proof. intros A B. unfold due_at. rewrite andb_true_iff, !condition_due by auto. reflexivity. Qed.
Lemma due_at_false P S dt dxi t xi : 0 < dt -> 0 < dxi -> ~ due P dt t -> due_at P S dt dxi t xi = false.
Proof. intros A B N. destruct (due_at P S dt dxi t xi) eqn:E; [|reflexivity]. apply due_at_iff in E; tauto. Qed.

(** Numbers (or both) in DiagnosticsTransverse stop the run at the first layer due, whatever names were asked for: the
    solver passes a dictionary of species where the class reads attributes. *)
Theorem C77_transverse_refuted : forall c ions t a l b steps, v_type c <> Pictures -> 0 < v_dt c -> 0 < v_dxi c ->
  due (v_P c) (v_dt c) t -> due (v_S c) (v_dxi c) (l3_xi l) -> tv_run c (species ions) ((t, a ++ l :: b) :: steps) = None.
Proof.
  intros c ions t a l b steps N H1 H2 D1 D2. simpl. replace (tv_layers c (species ions) t (a ++ l :: b)) with (@None (list (R * R))); [reflexivity|]. symmetry.
  induction a as [|x a IH]; simpl.
  - unfold tv_after. rewrite (proj2 (due_at_iff _ _ _ _ _ _ H1 H2) (conj D1 D2)).
    assert (F : forall names, needs (species ions) (names ++ ["xp"%string]) = None). { intros names. unfold needs. rewrite forallb_app. destruct ions; simpl; rewrite andb_false_r; reflexivity. }
    rewrite F. destruct (v_type c); [reflexivity|congruence|reflexivity].
  - destruct (tv_after c (species ions) t x); [|reflexivity]. now rewrite IH.
Qed.
Example C77_transverse_ex : tv_run (mkTv ["Ez"]%string Numbers (Every 1) (Every 1) 1 1) (species false) [(1, plain_layers)] = None.
Proof.
  apply (C77_transverse_refuted _ _ _ []); try discriminate; try (simpl; lra); simpl.
  - apply (due_in _ _ _ 1); [lra|]. replace (1 - 1 * 1) with 0 by ring. rewrite Rabs_R0. lra.
  - apply (due_in _ _ _ 0); [lra|]. replace (-0 - 0 * 1) with 0 by ring. rewrite Rabs_R0. lra.
Qed.
(** SaveRunState with save_plasma stops the run at the first due step, with one process or many. *)
Theorem C77_save_plasma_refuted : forall c ions single t ls steps, w_plasma c = true -> 0 < w_dt c -> due (w_P c) (w_dt c) t ->
  rs_run c (species ions) (drain single) ((t, ls) :: steps) = None.
Proof.
  intros c ions single t ls steps N H1 D1. simpl. destruct (rs_layers c (species ions) t ls); [|reflexivity].
  replace (rs_dump c (species ions) (drain single) t) with (@None (list saved)); [reflexivity|]. symmetry. unfold rs_dump.
  rewrite (proj2 (condition_due _ _ _ H1) D1), N. destruct (if w_beam c then _ else _); [|reflexivity]. destruct ions; reflexivity.
Qed.
(** SaveRunState with save_beam alone: with one process a beam file at every due step and at no other, ... *)
Theorem C77_save_beam : forall c ions steps, w_plasma c = false -> w_beam c = true -> 0 < w_dt c ->
  exists times, kept (due (w_P c) (w_dt c)) (map fst steps) times /\ rs_run c (species ions) (drain true) steps = Some (map Beam times).
Proof.
  intros c ions steps N B H1. exists (filter (fun t => condition_check t (clamp_period (w_P c) (w_dt c)) (w_dt c)) (map fst steps)).
  split; [apply filter_kept; intros t; now apply condition_due|].
  assert (L : forall t ls, rs_layers c (species ions) t ls = Some []).
  { intros t. induction ls as [|l ls IH]; [reflexivity|]. simpl. unfold rs_after. rewrite N, andb_false_r, IH. reflexivity. }
  induction steps as [|[t ls] steps IH]; [reflexivity|]. simpl. rewrite L. unfold rs_dump. rewrite B, N.
  destruct (condition_check t _ _); simpl; rewrite IH; reflexivity.
Qed.
(** ... with several processes the run stops at the first due step. *)
Theorem C77_save_beam_refuted : forall c ions t ls steps, w_beam c = true -> 0 < w_dt c -> due (w_P c) (w_dt c) t ->
  rs_run c (species ions) (drain false) ((t, ls) :: steps) = None.
Proof.
  intros c ions t ls steps B H1 D1. simpl. destruct (rs_layers c (species ions) t ls); [|reflexivity].
  replace (rs_dump c (species ions) (drain false) t) with (@None (list saved)); [reflexivity|]. symmetry. unfold rs_dump.
  rewrite (proj2 (condition_due _ _ _ H1) D1), B. reflexivity.
Qed.
Example C77_save_ex : let c p := mkRs (Every 2) Never true p 1 1 in
  rs_run (c false) (species true) (drain true) [(1, plain_layers); (2, plain_layers)] = Some [Beam 2] /\
  rs_run (c false) (species true) (drain false) [(2, plain_layers)] = None /\ rs_run (c true) (species true) (drain true) [(2, plain_layers)] = None.
Proof.
  cbv zeta. assert (D2 : due (Every 2) 1 2) by (apply (due_in _ _ _ 1); [lra|]; replace (2 - 1 * 2) with 0 by ring; rewrite Rabs_R0; lra).
  assert (D1 : ~ due (Every 2) 1 1) by (apply (due_not _ _ _ 0); lra). split; [|split].
  - destruct (C77_save_beam (mkRs (Every 2) Never true false 1 1) true [(1, plain_layers); (2, plain_layers)]) as (ts & K & ->); try reflexivity; [simpl; lra|].
    simpl in K. inversion K as [| |? ? ? _ K1]; subst; [contradiction|]. inversion K1 as [|? ? ? _ K2|? ? ? X K2]; subst; [inversion K2; subst; reflexivity|contradiction].
  - apply C77_save_beam_refuted; simpl; auto; lra.
  - apply C77_save_plasma_refuted; simpl; auto; lra.
Qed.
(** The names DiagnosticsColormaps accepts. *)
Theorem C77_names : forall colormaps names, colormap_names colormaps = Some names <-> (names = from_str_into_list colormaps) /\
  forall n, In n names -> In n (["Ex"; "Ey"; "Ez"; "Bx"; "By"; "Bz"; "ne"; "ni"; "rho_beam"; "Phi"; "y_offt"; "y_plasma_particles"]%string).
Proof.
  intros s names. unfold colormap_names. cbv zeta. destruct (forallb _ _) eqn:F.
  - rewrite forallb_forall in F. split; [intros E; injection E as <-; split; [reflexivity|]; intros n I; apply mem_in; now apply F|intros [-> _]; reflexivity].
  - split; [discriminate|]. intros [-> H]. exfalso. rewrite <- not_true_iff_false in F. apply F. apply forallb_forall. intros n I. apply mem_in. exact (H n I).
Qed.
Print Assumptions C77_fxi_files.
Print Assumptions C77_colormap_files.
