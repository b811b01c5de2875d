(** The scheme of Layer2D_Spec determines the layer. *)
From Coq Require Import Reals ZArith List Bool Lia Lra Psatz.
From Verif Require Import Beam2D_Model Beam2D_Spec Plasma2D_Model Plasma2D_Spec Plasma2D_Ode Plasma2D_Dep Plasma2D_Move
  Plasma2D_Push_Spec Layer2D_Spec Layer2D_Proofs.
Import ListNotations.
Open Scope R_scope.

Definition all_fields : list (fields2 -> arr) := [f_er; f_ef; f_ez; f_bf; f_bz].
Definition same_fields (n : nat) (f g : fields2) : Prop := forall F, In F all_fields -> same_nodes n (F f) (F g).
Definition same_cur (n : nat) (a b : currents2) : Prop := same_dens n (row_e a) (row_e b) /\ same_dens n (row_i a) (row_i b).
Definition same_parts (a b : particles2) : Prop := Forall2 same_but_age (electrons a) (electrons b) /\ Forall2 same_but_age (ion_list a) (ion_list b).
Lemma same_state_split n a b : same_state n a b <->
  same_parts (fst (fst a)) (fst (fst b)) /\ same_fields n (snd (fst a)) (snd (fst b)) /\ same_cur n (snd a) (snd b).
Proof. destruct a as [[pa fa] ca], b as [[pb fb] cb]. unfold same_state, same_parts, same_cur, same_fields, all_fields. cbn [fst snd]. tauto. Qed.

Lemma interpolated_same n sg h r F G : same_nodes n F G -> interpolated n sg h r F = interpolated n sg h r G.
Proof. intros H. unfold interpolated. apply sumN_ext. intros i Hi. now rewrite (H i Hi). Qed.
Lemma ripple_same n h r a b : same_nodes n a b -> ripple_field n h a r = ripple_field n h b r.
Proof.
  intros H. unfold ripple_field. set (k := Int_part _). destruct (Z.ltb_spec 0 k), (Z.ltb_spec k (Z.of_nat n)); cbn; auto. rewrite (H (Z.to_nat k)) by lia. reflexivity.
Qed.
Lemma electric_same c f g a b r : same_fields (g_n c) f g -> same_nodes (g_n c) a b -> electric_at c f a r = electric_at c g b r.
Proof.
  intros Hf Ha. unfold electric_at. rewrite (ripple_same _ _ _ a b Ha).
  rewrite (interpolated_same _ (-1) _ _ (f_er f) (f_er g)), (interpolated_same _ (-1) _ _ (f_ef f) (f_ef g)), (interpolated_same _ 1 _ _ (f_ez f) (f_ez g)); auto; apply Hf; unfold all_fields; cbn; auto 10.
Qed.
Lemma magnetic_same c f g r : same_fields (g_n c) f g -> magnetic_at c f r = magnetic_at c g r.
Proof.
  intros Hf. unfold magnetic_at.
  rewrite (interpolated_same _ (-1) _ _ (f_bf f) (f_bf g)), (interpolated_same _ (-1) _ _ (f_ef f) (f_ef g)), (interpolated_same _ 1 _ _ (f_bz f) (f_bz g)); auto; apply Hf; unfold all_fields; cbn; auto 10.
Qed.
Lemma removed_same c p q p' q' : m_ p = m_ q -> removed c p p' -> removed c q q' -> same_but_age p' q'.
Proof. unfold removed, same_but_age. intros E A B. decompose [and] A. decompose [and] B. repeat split; congruence. Qed.
Lemma mirrored_fun R0 r a b : 0 < R0 -> mirrored R0 r a -> mirrored R0 r b -> a = b.
Proof. unfold mirrored. intros H [[]|[[]|[]]] [[]|[[]|[]]]; lra. Qed.
Lemma stepped_fun c f g a b X p q p' q' l l' : 0 < g_rmax c -> same_fields (g_n c) f g -> same_nodes (g_n c) a b -> same_but_age p q ->
  stepped c f a X p p' l -> stepped c g b X q q' l' -> same_but_age p' q' /\ l = l'.
Proof.
  intros HR Hf Ha Hpq. unfold stepped.
  assert (Eg : gm_of p = gm_of q) by (unfold gm_of; destruct Hpq as (_ & -> & -> & -> & _ & ->); reflexivity).
  destruct Hpq as (E1 & E2 & E3 & E4 & E5 & E6). rewrite <- Eg, <- E1, <- E2, <- E3, <- E4, <- E5, <- E6. clear Eg.
  set (rp := r_ p + _). intros (rh & M & Out & Ins) (rh' & M' & Out' & Ins'). pose proof (mirrored_fun _ _ _ _ HR M M') as ->. clear M M'.
  assert (Dec : (0 <= rh' <= g_rmax c) \/ ~ (0 <= rh' <= g_rmax c)) by lra. destruct Dec as [D|D].
  2:{ destruct (Out D) as [R1 ->], (Out' D) as [R2 ->]. split; [|reflexivity]. eapply removed_same; eauto. }
  clear Out Out'. destruct (Ins D) as (p0 & A1 & A2 & S). destruct (Ins' D) as (p1 & B1 & B2 & S'). clear Ins Ins'.
  assert (p0 = p1) as <- by (destruct (Rle_dec rp (g_rmax c)); [rewrite A1, B1 by auto; reflexivity|rewrite A2, B2 by lra; reflexivity]).
  clear A1 A2 B1 B2. rewrite (electric_same c f g a b rh' Hf Ha), (magnetic_same c f g rh' Hf) in S. cbv zeta in S, S'.
  set (E := electric_at c g b rh') in *. set (B := magnetic_at c g rh') in *.
  set (d := gain (q_ p) (m_ p) X E B p0) in *. set (hm := middle (q_ p) (m_ p) X E B p0) in *.
  set (dt := X / (energy (m_ p) hm - vz hm)) in *. set (x := r_ p + (vx p0 + vx d / 2) * dt) in *. set (y := (vy p0 + vy d / 2) * dt) in *.
  set (rn := sqrt (x ^ 2 + y ^ 2)) in *. assert (P : 0 <= rn) by apply sqrt_pos. clearbody rn x y dt hm d.
  destruct S as (S1 & S2 & S3 & S4), S' as (T1 & T2 & T3 & T4).
  destruct (Rle_dec rn (g_rmax c)) as [L|L].
  - rewrite (S1 ltac:(lra)), (T1 ltac:(lra)). split; [|reflexivity]. destruct (S2 L) as (a1 & a2 & a3 & a4 & a5 & a6). destruct (T2 L) as (b1 & b2 & b3 & b4 & b5 & b6).
    assert (pr_ p' = pr_ q' /\ pf_ p' = pf_ q') as [].
    { destruct (Req_EM_T rn 0) as [Z|Z]; [destruct (a6 Z) as [-> ->], (b6 Z) as [-> ->]; auto|].
      destruct (a5 ltac:(lra)) as [u1 u2], (b5 ltac:(lra)) as [v1 v2]. split; apply (Rmult_eq_reg_r rn); lra. }
    unfold same_but_age. repeat split; congruence.
  - destruct (Rle_dec rn (2 * g_rmax c)) as [L2|L2].
    + rewrite (S1 ltac:(lra)), (T1 ltac:(lra)). split; [|reflexivity]. destruct (S3 ltac:(lra)) as (a1 & a2 & a3 & a4 & a5 & a6). destruct (T3 ltac:(lra)) as (b1 & b2 & b3 & b4 & b5 & b6).
      unfold same_but_age. repeat split; congruence.
    + destruct (S4 ltac:(lra)) as [R1 ->], (T4 ltac:(lra)) as [R2 ->]. split; [|reflexivity]. eapply removed_same; eauto.
Qed.
Lemma moved_fun c f g a b X : 0 < g_rmax c -> same_fields (g_n c) f g -> same_nodes (g_n c) a b -> forall cur d p p', moved (stepped c f a) (g_h c) X cur d p p' ->
  forall q q', same_but_age p q -> moved (stepped c g b) (g_h c) X cur d q q' -> same_but_age p' q'.
Proof.
  intros HR Hf Ha cur d p p' M. induction M as [cur d p S|cur d p p1 l p' Q L S H1 H2 M IH|cur d p p1 l p' Q L S H1 M IH]; intros q q' E N; pose proof E as (_ & _ & _ & _ & Eq & _).
  - inversion N; subst; [auto| |]; destruct S; try congruence; lra.
  - inversion N as [? ? ? S'|? ? ? q1 l' ? ? ? S' ? ? N'|? ? ? q1 l' ? ? ? S' ? N']; subst.
    + destruct S'; try congruence; lra.
    + eapply IH; eauto.
    + destruct (stepped_fun c f g a b cur p q p1 q1 l l' HR Hf Ha E S S') as [_ ->]. lra.
  - inversion N as [? ? ? S'|? ? ? q1 l' ? ? ? S' ? ? N'|? ? ? q1 l' ? ? ? S' ? N']; subst.
    + destruct S'; try congruence; lra.
    + destruct (stepped_fun c f g a b cur p q p1 q1 l l' HR Hf Ha E S S') as [_ ->]. lra.
    + destruct (stepped_fun c f g a b cur p q p1 q1 l l' HR Hf Ha E S S') as [E1 _]. eapply IH; eauto.
Qed.
Lemma F2_fun {A} (P Q E E' : A -> A -> Prop) : (forall x x' y y', E x y -> P x x' -> Q y y' -> E' x' y') ->
  forall l l' k k', Forall2 E l k -> Forall2 P l l' -> Forall2 Q k k' -> Forall2 E' l' k'.
Proof. intros H l l' k k' F. revert l' k'. induction F; intros l1 k1 FP FQ; inversion FP; inversion FQ; subst; constructor; eauto. Qed.
Lemma all_moved_fun c f g a b X ps qs ps' qs' : 0 < g_rmax c -> same_fields (g_n c) f g -> same_nodes (g_n c) a b -> same_parts ps qs ->
  all_moved c f a X ps ps' -> all_moved c g b X qs qs' -> same_parts ps' qs'.
Proof.
  intros HR Hf Ha [E1 E2] [A1 A2] [B1 B2].
  assert (K : forall x x' y y', same_but_age x y -> moved (stepped c f a) (g_h c) X X 0 x x' -> moved (stepped c g b) (g_h c) X X 0 y y' -> same_but_age x' y').
  { intros x x' y y' E P Q. eapply moved_fun; eauto. }
  split; [exact (F2_fun _ _ _ _ K _ _ _ _ E1 A1 B1)|exact (F2_fun _ _ _ _ K _ _ _ _ E2 A2 B2)].
Qed.

(** ** Densities *)
Lemma sort_sum_same n h sg i (F : pl2 -> R) l k : (forall p q, same_but_age p q -> F p = F q) -> Forall2 same_but_age l k ->
  sumR (map (fun p => F p / (gm_of p - pz_ p) * node_share n sg (r_ p / h) i) l) = sumR (map (fun p => F p / (gm_of p - pz_ p) * node_share n sg (r_ p / h) i) k).
Proof.
  intros HF H. induction H as [|p q l k E H IH]; [reflexivity|]. cbn [map sumR]. rewrite IH, (HF p q E).
  destruct E as (E1 & E2 & E3 & E4 & E5 & E6). unfold gm_of. rewrite E1, E2, E3, E4, E6. reflexivity.
Qed.
Lemma sort_carries_fun h ppc n l k d e : 0 < h -> (2 <= n)%nat -> Forall2 same_but_age l k ->
  sort_carries h ppc n l d -> sort_carries h ppc n k e -> same_dens n d e.
Proof.
  intros Hh Hn E A B g Hg i Hi. destruct (A i Hi) as (a1 & a2 & a3 & a4), (B i Hi) as (b1 & b2 & b3 & b4).
  pose proof (volume_pos h ppc n i Hh Hn Hi) as V. rewrite ring_volume in V.
  assert (G : forall p q, same_but_age p q -> gm_of p = gm_of q) by (intros p q (e1 & e2 & e3 & e4 & e5 & e6); unfold gm_of; congruence).
  apply (Rmult_eq_reg_l (ring h ppc n i)); [|lra]. cbn in Hg. destruct Hg as [<-|[<-|[<-|[<-|[]]]]].
  - rewrite a1, b1. apply (sort_sum_same n h 1 i (fun p => q_ p * gm_of p)); auto. intros p q S. rewrite (G p q S). destruct S as (_ & _ & _ & _ & -> & _). reflexivity.
  - rewrite a3, b3. destruct (_ || _)%bool; auto. apply (sort_sum_same n h (-1) i (fun p => q_ p * pr_ p)); auto. intros p q (e1 & e2 & e3 & e4 & e5 & e6). congruence.
  - rewrite a4, b4. destruct (_ || _)%bool; auto. apply (sort_sum_same n h (-1) i (fun p => q_ p * pf_ p)); auto. intros p q (e1 & e2 & e3 & e4 & e5 & e6). congruence.
  - rewrite a2, b2. destruct (_ =? _)%nat; auto. apply (sort_sum_same n h 1 i (fun p => q_ p * pz_ p)); auto. intros p q (e1 & e2 & e3 & e4 & e5 & e6). congruence.
Qed.
Lemma carried_fun s ps qs a b : grid_ok (v_c s) -> same_parts ps qs -> carried2 s ps a -> carried2 s qs b -> same_cur (g_n (v_c s)) a b.
Proof.
  intros (_ & Hh & Hn & _) [E1 E2] [A1 A2] [B1 B2]. split; [eapply sort_carries_fun; [| |exact E1|exact A1|exact B1]; auto; lia|].
  destruct (v_ions s).
  - intros g Hg i Hi. destruct (A2 i Hi) as (a1 & a2 & a3 & a4), (B2 i Hi) as (b1 & b2 & b3 & b4). cbn in Hg. destruct Hg as [<-|[<-|[<-|[<-|[]]]]]; congruence.
  - eapply sort_carries_fun; [| |exact E2|exact A2|exact B2]; auto; lia.
Qed.
Lemma ripples_fun n on a b u v : (3 <= n)%nat -> same_cur n a b -> ripples n on a u -> ripples n on b v -> same_nodes n u v.
Proof.
  intros Hn [E1 E2] [A0 A1] [B0 B1] i Hi. destruct on; [|now rewrite A0, B0].
  assert (K : forall j, (j < n)%nat -> d_rho (row_e a) j - d_rho (row_i a) j = d_rho (row_e b) j - d_rho (row_i b) j).
  { intros j Hj. rewrite (E1 d_rho ltac:(cbn; auto) j Hj), (E2 d_rho ltac:(cbn; auto) j Hj). reflexivity. }
  destruct (A1 eq_refl) as (a1 & a2 & a3), (B1 eq_refl) as (b1 & b2 & b3).
  destruct (Nat.eq_dec i 0) as [->|]; [congruence|]. destruct (Nat.eq_dec i (n - 1)) as [->|].
  - rewrite a3, b3. rewrite !K by lia. reflexivity.
  - rewrite a2, b2 by lia. rewrite !K by lia. reflexivity.
Qed.

(** ** Fields *)
Lemma stiffness_same n a b i : same_dens n a b -> (i < n)%nat -> stiffness a i = stiffness b i.
Proof.
  intros H Hi. unfold stiffness. rewrite (H d_rho ltac:(cbn; auto) i Hi), (H d_jr ltac:(cbn; auto) i Hi), (H d_jf ltac:(cbn; auto) i Hi), (H d_jz ltac:(cbn; auto 6) i Hi). reflexivity.
Qed.
Lemma stiffness_ge1 d i : 1 <= stiffness d i.
Proof. unfold stiffness. destruct (Rlt_dec _ _); [lra|]. destruct (Rle_dec _ _); [lra|]. apply Rmax_l. Qed.
Lemma up_from n (u v : nat -> R) : u 0%nat = v 0%nat -> (forall i, (i + 1 < n)%nat -> u (i + 1)%nat - u i = v (i + 1)%nat - v i) -> same_nodes n u v.
Proof. intros H0 H i. induction i as [|i IH]; intros Hi; [auto|]. specialize (H i). replace (i + 1)%nat with (S i) in H by lia. specialize (IH ltac:(lia)). specialize (H ltac:(lia)). lra. Qed.
Lemma down_from n (u v : nat -> R) : u (n - 1)%nat = v (n - 1)%nat -> (forall i, (i + 1 < n)%nat -> u (i + 1)%nat - u i = v (i + 1)%nat - v i) -> same_nodes n u v.
Proof.
  intros H0 H i Hi. assert (G : forall d, (d < n)%nat -> u (n - 1 - d)%nat = v (n - 1 - d)%nat).
  { induction d as [|d IH]; intros Hd; [now rewrite Nat.sub_0_r|]. specialize (IH ltac:(lia)). specialize (H (n - 1 - S d)%nat ltac:(lia)).
    replace (n - 1 - S d + 1)%nat with (n - 1 - d)%nat in H by lia. lra. }
  specialize (G (n - 1 - i)%nat ltac:(lia)). replace (n - 1 - (n - 1 - i))%nat with i in G by lia. exact G.
Qed.
Lemma fields_fun n h X fn gn f g rb cp dp cn dn new new' av av' : (3 <= n)%nat -> 0 < h ->
  same_fields n fn gn -> same_fields n f g -> same_cur n cp dp -> same_cur n cn dn ->
  fields_of2 n h X fn f rb cp cn new av -> fields_of2 n h X gn g rb dp dn new' av' -> same_fields n new new' /\ same_fields n av av'.
Proof.
  intros Hn Hh Efn Ef Ecp Ecn (A1 & A2 & A3 & A4 & A5 & A6) (B1 & B2 & B3 & B4 & B5 & B6). cbv zeta in *.
  assert (T : forall u v (q : dens -> arr), same_cur n u v -> In q [d_rho; d_jr; d_jf; d_jz] -> forall i, (i < n)%nat -> q (row_e u) i + q (row_i u) i = q (row_e v) i + q (row_i v) i).
  { intros u v q [E1 E2] Hq i Hi. rewrite (E1 q Hq i Hi), (E2 q Hq i Hi). reflexivity. }
  assert (Ir : In d_rho [d_rho; d_jr; d_jf; d_jz]) by (cbn; auto). assert (Ijr : In d_jr [d_rho; d_jr; d_jf; d_jz]) by (cbn; auto).
  assert (Ijf : In d_jf [d_rho; d_jr; d_jf; d_jz]) by (cbn; auto). assert (Ijz : In d_jz [d_rho; d_jr; d_jf; d_jz]) by (cbn; auto 6).
  assert (Fi : forall (F : fields2 -> arr), In F all_fields -> forall i, (i < n)%nat -> F fn i = F gn i /\ F f i = F g i) by (intros F HF i Hi; split; [apply Efn|apply Ef]; auto).
  assert (Ner : same_nodes n (f_er new) (f_er new')).
  { destruct A1 as (a0 & al & ar), B1 as (b0 & bl & br).
    set (k := stiffness (row_e dn)).
    set (F := fun i => if (i =? n - 1)%nat then ((d_rho (row_e dn) (n - 2)%nat + d_rho (row_i dn) (n - 2)%nat + rb (n - 2)%nat) + (d_rho (row_e dn) (n - 1)%nat + d_rho (row_i dn) (n - 1)%nat + rb (n - 1)%nat)) / 2
       else (d_jr (row_e dn) i + d_jr (row_i dn) i - (d_jr (row_e dp) i + d_jr (row_i dp) i)) / X - k i * ((f_er gn i + f_er g i) / 2)
          + ((d_rho (row_e dn) (i + 1)%nat + d_rho (row_i dn) (i + 1)%nat + rb (i + 1)%nat) - (d_rho (row_e dn) (i - 1)%nat + d_rho (row_i dn) (i - 1)%nat + rb (i - 1)%nat)) / (2 * h)).
    assert (K : forall i, 0 <= k i) by (intros i; pose proof (stiffness_ge1 (row_e dn) i); unfold k; lra).
    intros i Hi. rewrite (tri_neumann_unique F k h n (f_er new) Hh K ltac:(lia)), (tri_neumann_unique F k h n (f_er new') Hh K ltac:(lia)); auto.
    - intros j Hj. unfold F. destruct (Nat.eqb_spec j (n - 1)); [lia|]. exact (br j Hj).
    - rewrite bl. unfold F. rewrite Nat.eqb_refl. reflexivity.
    - intros j Hj. unfold F. destruct (Nat.eqb_spec j (n - 1)); [lia|]. specialize (ar j Hj). cbv beta zeta in ar.
      destruct Ecn as [Ec1 Ec2]. rewrite (stiffness_same n _ _ j Ec1 ltac:(lia)) in ar. fold k in ar.
      rewrite (T cn dn d_jr (conj Ec1 Ec2) Ijr j ltac:(lia)), (T cp dp d_jr Ecp Ijr j ltac:(lia)) in ar.
      destruct (Fi f_er ltac:(cbn; auto) j ltac:(lia)) as [e1 e2]. rewrite e1, e2 in ar.
      rewrite (T cn dn d_rho (conj Ec1 Ec2) Ir (j + 1)%nat ltac:(lia)), (T cn dn d_rho (conj Ec1 Ec2) Ir (j - 1)%nat ltac:(lia)) in ar. exact ar.
    - rewrite al. unfold F. rewrite Nat.eqb_refl. rewrite !(T cn dn d_rho Ecn Ir) by lia. reflexivity. }
  assert (Nef : same_nodes n (f_ef new) (f_ef new')).
  { destruct A2 as (a0 & al & ar), B2 as (b0 & bl & br).
    set (F := fun i => if (i =? n - 1)%nat then 0
       else (d_jf (row_e dn) i + d_jf (row_i dn) i - (d_jf (row_e dp) i + d_jf (row_i dp) i)) / X - (f_ef gn i + f_ef g i) / 2).
    assert (K : forall i : nat, 0 <= (fun _ : nat => 1) i) by (intros; lra).
    intros i Hi. rewrite (tri_dirichlet_unique F (fun _ => 1) h n (f_ef new) Hh K ltac:(lia)), (tri_dirichlet_unique F (fun _ => 1) h n (f_ef new') Hh K ltac:(lia)); auto.
    - intros j Hj. unfold F. destruct (Nat.eqb_spec j (n - 1)); [lia|]. exact (br j Hj).
    - rewrite bl. unfold F. rewrite Nat.eqb_refl. ring.
    - intros j Hj. unfold F. destruct (Nat.eqb_spec j (n - 1)); [lia|]. specialize (ar j Hj). cbv beta zeta in ar.
      rewrite (T cn dn d_jf Ecn Ijf j ltac:(lia)), (T cp dp d_jf Ecp Ijf j ltac:(lia)) in ar.
      destruct (Fi f_ef ltac:(cbn; auto) j ltac:(lia)) as [e1 e2]. rewrite e1, e2 in ar. exact ar.
    - rewrite al. unfold F. rewrite Nat.eqb_refl. ring. }
  assert (Dh : forall a b c d, (a - b) / h = c -> (d - b) / h = c -> a = d) by (intros a b c d U V; assert (a - b = c * h) by (rewrite <- U; field; lra); assert (d - b = c * h) by (rewrite <- V; field; lra); lra).
  assert (Df : forall a b a' b' c, (a - b) / h = c -> (a' - b') / h = c -> a - b = a' - b') by (intros a b a' b' c U V; assert (a - b = c * h) by (rewrite <- U; field; lra); assert (a' - b' = c * h) by (rewrite <- V; field; lra); lra).
  assert (Nez : same_nodes n (f_ez new) (f_ez new')).
  { destruct A3 as (a0 & ar), B3 as (b0 & br). apply down_from; [congruence|]. intros i Hi. eapply Df; [exact (ar i Hi)|].
    rewrite (br i Hi), !(T cn dn d_jr Ecn Ijr) by lia. reflexivity. }
  assert (Nbf : same_nodes n (f_bf new) (f_bf new')).
  { destruct A4 as (a0 & ar), B4 as (b0 & br). cbv beta in *.
    assert (G : same_nodes n (fun i => INR i * h * (f_er new i - f_bf new i)) (fun i => INR i * h * (f_er new' i - f_bf new' i))).
    { apply up_from; [cbn; ring|]. intros i Hi. eapply Df; [exact (ar i Hi)|]. rewrite (br i Hi), !(T cn dn d_rho Ecn Ir), !(T cn dn d_jz Ecn Ijz) by lia. reflexivity. }
    intros i Hi. destruct (Nat.eq_dec i 0) as [->|Ne]; [congruence|]. specialize (G i Hi). cbv beta in G. rewrite (Ner i Hi) in G.
    assert (INR i * h <> 0) by (apply Rmult_integral_contrapositive; split; [now apply not_0_INR|lra]). apply Rmult_eq_reg_l in G; auto. lra. }
  assert (Nbz : same_nodes n (f_bz new) (f_bz new')).
  { destruct A5 as (ar & af), B5 as (br & bf).
    assert (G : same_nodes n (fun i => f_bz new i - f_bz new' i) (fun _ => f_bz new 0%nat - f_bz new' 0%nat)).
    { apply up_from; [reflexivity|]. intros i Hi. assert (Q : f_bz new (i + 1)%nat - f_bz new i = f_bz new' (i + 1)%nat - f_bz new' i).
      { eapply Df; [exact (ar i Hi)|]. rewrite (br i Hi), !(T cn dn d_jf Ecn Ijf) by lia. reflexivity. }
      lra. }
    set (cst := f_bz new 0%nat - f_bz new' 0%nat) in *.
    assert (W : forall N, sumN N (fun i => PI * ((INR (i + 1) * h) ^ 2 - (INR i * h) ^ 2)) = PI * (INR N * h) ^ 2).
    { induction N as [|N IH]; [cbn; ring|]. cbn [sumN]. rewrite IH. replace (N + 1)%nat with (S N) by lia. ring. }
    assert (Z : cst * (PI * (INR (n - 1) * h) ^ 2) = 0).
    { rewrite <- W, <- sumN_scal. transitivity (sumN (n - 1) (fun i => PI * ((INR (i + 1) * h) ^ 2 - (INR i * h) ^ 2) * f_bz new i) + -1 * sumN (n - 1) (fun i => PI * ((INR (i + 1) * h) ^ 2 - (INR i * h) ^ 2) * f_bz new' i)); [|rewrite af, bf; ring].
      rewrite <- sumN_scal, <- sumN_plus. apply sumN_ext. intros i Hi. specialize (G i ltac:(lia)). cbv beta in G. rewrite <- G. ring. }
    assert (P : 0 < PI * (INR (n - 1) * h) ^ 2).
    { apply Rmult_lt_0_compat; [apply PI_RGT_0|]. apply pow_lt, Rmult_lt_0_compat; [apply lt_0_INR; lia|auto]. }
    apply Rmult_integral in Z. destruct Z as [Z|Z]; [|lra]. intros i Hi. specialize (G i Hi). cbv beta in G. lra. }
  assert (N1 : same_fields n new new').
  { intros F HF. cbn in HF. destruct HF as [<-|[<-|[<-|[<-|[<-|[]]]]]]; auto. }
  split; [exact N1|]. intros F HF i Hi. rewrite (A6 F HF i Hi), (B6 F HF i Hi), (N1 F HF i Hi). rewrite (Ef F HF i Hi). reflexivity.
Qed.

(** ** Steps and layers *)
Lemma guessed_fun s X st tt ps c qs d : grid_ok (v_c s) -> same_state (g_n (v_c s)) st tt -> guessed s X st ps c -> guessed s X tt qs d ->
  same_parts ps qs /\ same_cur (g_n (v_c s)) c d.
Proof.
  intros Hc E. apply same_state_split in E. destruct E as (E1 & E2 & E3). destruct st as [[p0 f] c0], tt as [[q0 g] d0]. cbn [fst snd] in *.
  intros (a & A1 & A2 & A3) (b & B1 & B2 & B3). pose proof (ripples_fun _ _ _ _ _ _ (proj1 (proj2 (proj2 Hc))) E3 A1 B1) as Ea.
  pose proof (all_moved_fun _ _ _ _ _ _ _ _ _ _ (proj1 Hc) E2 Ea E1 A2 B2) as Ep. split; [exact Ep|]. eapply carried_fun; eauto.
Qed.
Lemma corrected_fun s rb X st tt : grid_ok (v_c s) -> same_state (g_n (v_c s)) st tt -> forall k a a' b b', same_state (g_n (v_c s)) a b ->
  times (corrected s rb X st) k a a' -> times (corrected s rb X tt) k b b' -> same_state (g_n (v_c s)) a' b'.
Proof.
  intros Hc E k a a' b b' S T. revert b b' S. induction T as [a|k a a1 a' C T IH]; intros b b' S U; inversion U as [|? ? b1 ? C' U']; subst; [auto|].
  apply (IH b1 b'); auto. clear IH T U U'. apply same_state_split in E. destruct E as (E1 & E2 & E3). apply same_state_split in S. destruct S as (S1 & S2 & S3).
  apply same_state_split. destruct st as [[p0 f] c0], tt as [[q0 g] d0], a as [[pa fa] ca], b as [[pb fb] cb], a1 as [[p1 f1] c1], b1 as [[q1 g1] d1]. cbn [fst snd] in *.
  destruct C as (av & am & F1 & R1 & M1 & K1), C' as (av' & am' & F2 & R2 & M2 & K2).
  destruct (fields_fun _ _ _ _ _ _ _ _ _ _ _ _ _ _ _ _ (proj1 (proj2 (proj2 Hc))) (proj1 (proj2 Hc)) S2 E2 E3 S3 F1 F2) as [N1 N2].
  pose proof (ripples_fun _ _ _ _ _ _ (proj1 (proj2 (proj2 Hc))) S3 R1 R2) as Ea.
  pose proof (all_moved_fun _ _ _ _ _ _ _ _ _ _ (proj1 Hc) N2 Ea E1 M1 M2) as Ep. split; [exact Ep|]. split; [exact N1|]. eapply carried_fun; eauto.
Qed.
Lemma piece_fun s rb X st tt a b : grid_ok (v_c s) -> same_state (g_n (v_c s)) st tt -> piece s rb X st a -> piece s rb X tt b -> same_state (g_n (v_c s)) a b.
Proof.
  intros Hc E (p & c & G & T) (q & d & G' & T'). destruct (guessed_fun _ _ _ _ _ _ _ _ Hc E G G') as [E1 E2].
  eapply corrected_fun; [| | |exact T|exact T']; auto. apply same_state_split. cbn [fst snd]. split; [auto|]. split; [|auto].
  apply same_state_split in E. apply E.
Qed.
Lemma coarse_not_fine s X st tt : grid_ok (v_c s) -> same_state (g_n (v_c s)) st tt -> coarse s X st -> fine s X tt -> False.
Proof.
  intros Hc E (p & c & G & M) (q & d & G' & M'). destruct (guessed_fun _ _ _ _ _ _ _ _ Hc E G G') as [_ [E1 E2]]. apply M'.
  destruct M as (i & Hi & H). exists i. split; auto. rewrite (E1 d_jz ltac:(cbn; auto 6) i Hi), (E2 d_jz ltac:(cbn; auto 6) i Hi) in H. exact H.
Qed.
Scheme covered_mut := Induction for covered Sort Prop with chained_mut := Induction for chained Sort Prop.
Lemma same_state_sym n a b : same_state n a b -> same_state n b a.
Proof.
  assert (F : forall l k, Forall2 same_but_age l k -> Forall2 same_but_age k l).
  { induction 1; constructor; auto. destruct H as (? & ? & ? & ? & ? & ?). repeat split; auto. }
  assert (D : forall u v, same_dens n u v -> same_dens n v u) by (intros u v H g Hg i Hi; symmetry; now apply H).
  rewrite !same_state_split. intros ([A1 A2] & B & [C1 C2]). repeat split; auto. intros F' HF i Hi. symmetry. now apply B.
Qed.
Lemma layer_fun s rb : grid_ok (v_c s) -> forall d X st a, covered (coarse s) (fine s) (piece s rb) d X st a ->
  forall tt b, same_state (g_n (v_c s)) st tt -> covered (coarse s) (fine s) (piece s rb) d X tt b -> same_state (g_n (v_c s)) a b.
Proof.
  intros Hc.
  apply (covered_mut pstate (coarse s) (fine s) (piece s rb)
    (fun d X st a _ => forall tt b, same_state (g_n (v_c s)) st tt -> covered (coarse s) (fine s) (piece s rb) d X tt b -> same_state (g_n (v_c s)) a b)
    (fun k d X st a _ => forall tt b, same_state (g_n (v_c s)) st tt -> chained (coarse s) (fine s) (piece s rb) k d X tt b -> same_state (g_n (v_c s)) a b)).
  - intros d X st a Hd P tt b E C. inversion C as [? ? ? ? Hd' P'|? ? ? ? Hd' Ch']; subst.
    + eapply piece_fun; eauto.
    + destruct Hd as [Hd|Hd]; [discriminate|]. exfalso. eapply coarse_not_fine; [| |exact Hd'|exact Hd]; auto. now apply same_state_sym.
  - intros d X st a Hd Ch IH tt b E C. inversion C as [? ? ? ? Hd' P'|? ? ? ? Hd' Ch']; subst.
    + destruct Hd' as [Hd'|Hd']; [discriminate|]. exfalso. eapply coarse_not_fine; eauto.
    + eapply IH; eauto.
  - intros d X st tt b E C. inversion C; subst. exact E.
  - intros k d X st s1 a P IH1 Ch IH2 tt b E C. inversion C; subst. eapply IH2; [|eassumption]. eapply IH1; eauto.
Qed.
Lemma same_state_refl n a : same_state n a a.
Proof.
  assert (F : forall l, Forall2 same_but_age l l) by (induction l; constructor; auto; repeat split).
  apply same_state_split. repeat split; auto; intros ? ? ? ?; reflexivity.
Qed.
