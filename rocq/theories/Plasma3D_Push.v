(** Lemmas for C30, C31: the forced motion of one particle, and interpolation. *)
From Coq Require Import Reals ZArith List Bool Lra Lia Psatz.
From Verif Require Import Beam2D_Model Beam2D_Spec Beam2D_Free Plasma2D_Model Plasma2D_Ode Shape_Model Shape_Spec Shape_Proofs Plasma3D_Model Plasma3D_Spec Plasma3D_Move.
Import ListNotations.
Open Scope R_scope.

(** ** Interpolation *)
Lemma sumZ_five n c g : (0 <= c - 2)%Z -> (c + 2 < Z.of_nat n)%Z -> (forall a, (0 <= a < Z.of_nat n)%Z -> ~ In (a - c)%Z places -> g a = 0) ->
  sumZ n g = g (c + -2)%Z + (g (c + -1)%Z + (g (c + 0)%Z + (g (c + 1)%Z + (g (c + 2)%Z + 0)))).
Proof.
  intros H1 H2 H.
  rewrite (sumZ_ext n g (fun a => (if (a =? c + -2)%Z then g (c + -2)%Z else 0) + ((if (a =? c + -1)%Z then g (c + -1)%Z else 0) +
    ((if (a =? c + 0)%Z then g (c + 0)%Z else 0) + ((if (a =? c + 1)%Z then g (c + 1)%Z else 0) + (if (a =? c + 2)%Z then g (c + 2)%Z else 0)))))).
  - rewrite !sumZ_plus, !sumZ_delta.
    repeat match goal with |- context [((0 <=? ?e)%Z && (?e <? ?m)%Z)%bool] => destruct (Z.leb_spec 0 e); [|lia]; destruct (Z.ltb_spec e m); [|lia] end.
    cbn [andb]. ring.
  - intros a Ha. destruct (In_dec Z.eq_dec (a - c)%Z places) as [I|I].
    + assert (E : a = (c + (a - c))%Z) by lia. unfold places in I. destruct I as [I|[I|[I|[I|[I|[]]]]]]; rewrite <- I in E; subst a;
        repeat match goal with |- context [(?x =? ?y)%Z] => destruct (Z.eqb_spec x y); try lia end; ring.
    + rewrite H by auto. unfold places in I. cbn [In] in I.
      repeat match goal with |- context [(a =? ?y)%Z] => destruct (Z.eqb_spec a y); [lia|] end. ring.
Qed.
Lemma gather_interpolate n h x y F : inside (Z.of_nat n) h x -> inside (Z.of_nat n) h y ->
  gather_at (Z.of_nat n) h x y F = interpolate n h F x y.
Proof.
  intros Hx Hy. unfold gather_at, interpolate, gsum. set (N := Z.of_nat n) in *. rewrite gather_val by (intros; ring).
  pose proof (inside_cell N h x Hx) as Ix. pose proof (inside_cell N h y Hy) as Iy.
  set (cx := cell N (x / h + 0.5)) in *. set (cy := cell N (y / h + 0.5)) in *.
  assert (P2 : In (-2)%Z places) by (cbn; auto). assert (P3 : In 2%Z places) by (cbn; auto 10).
  assert (W : forall z k, In k places -> weight4 (loc (z / h + 0.5)) k = spline4 (IZR (cell N (z / h + 0.5) + k - N / 2) - z / h)).
  { intros z k Hk. rewrite w4_spline by (auto; apply loc_range). f_equal. now rewrite (loc_cell N). }
  assert (Far : forall z a, ~ In (a - cell N (z / h + 0.5))%Z places -> spline4 (IZR (a - N / 2) - z / h) = 0)
    by (intros; apply spline_out; now apply not_place_far).
  rewrite (sumZ_five n cx).
  2:{ pose proof (Ix _ P2). lia. } 2:{ pose proof (Ix _ P3). unfold N in *. lia. }
  2:{ intros a Ha Na. transitivity (sumZ n (fun b => 0 * F (Z.to_nat a) (Z.to_nat b))).
      - apply sumZ_ext. intros b Hb. unfold shape. rewrite Far by exact Na. ring.
      - rewrite sumZ_scal. ring. }
  assert (Row : forall k, In k places -> sumZ n (fun b => F (Z.to_nat (cx + k)) (Z.to_nat b) * shape N h x y (cx + k) b) =
     fold_right (fun ky s => weight4 (loc (x / h + 0.5)) k * weight4 (loc (y / h + 0.5)) ky * (F (Z.to_nat (cx + k)) (Z.to_nat (cy + ky)) * 1) + s) 0 places).
  { intros k Hk. rewrite (sumZ_five n cy).
    2:{ pose proof (Iy _ P2). lia. } 2:{ pose proof (Iy _ P3). unfold N in *. lia. }
    2:{ intros b Hb Nb. unfold shape. rewrite (Far y) by exact Nb. ring. }
    unfold places. cbn [fold_right]. unfold shape. rewrite (W x k) by auto. rewrite !(W y) by (cbn; auto 10). fold cx cy. ring. }
  cbv beta.
  rewrite !Row by (cbn; auto 10). unfold places. cbn [fold_right]. ring.
Qed.
Lemma interpolate_linear n h x y c0 c1 c2 : inside (Z.of_nat n) h x -> inside (Z.of_nat n) h y ->
  interpolate n h (fun i j => c0 + c1 * (INR i - IZR (Z.of_nat n / 2)) + c2 * (INR j - IZR (Z.of_nat n / 2))) x y = c0 + c1 * (x / h) + c2 * (y / h).
Proof.
  intros Hx Hy. rewrite <- (gather_linear (Z.of_nat n) h x y c0 c1 c2), <- gather_interpolate by auto. unfold gather_at. rewrite !gather_val by (intros; ring).
  pose proof (inside_cell _ h x Hx) as Ix. pose proof (inside_cell _ h y Hy) as Iy.
  assert (E : forall kx ky, In kx places -> In ky places ->
     (c0 + c1 * (INR (Z.to_nat (cell (Z.of_nat n) (x / h + 0.5) + kx)) - IZR (Z.of_nat n / 2)) + c2 * (INR (Z.to_nat (cell (Z.of_nat n) (y / h + 0.5) + ky)) - IZR (Z.of_nat n / 2))) * 1 =
     1 * (c0 + c1 * IZR (cell (Z.of_nat n) (x / h + 0.5) + kx - Z.of_nat n / 2) + c2 * IZR (cell (Z.of_nat n) (y / h + 0.5) + ky - Z.of_nat n / 2))).
  { intros kx ky Kx Ky. specialize (Ix kx Kx). specialize (Iy ky Ky). rewrite !INR_IZR_INZ, !Z2Nat.id by lia. rewrite !(minus_IZR (_ + _)). ring. }
  unfold places. cbn [fold_right]. repeat (rewrite E by (cbn; auto 10)). reflexivity.
Qed.

(** ** Forced motion *)
Lemma force_rate m q X E B p : 
  let '(ex, ey, ez) := E in let '(bx, b_y, bz) := B in
  force3 m q X (ex, ey, ez, bx, b_y, bz) p = scale3 X (rate_p m q E B p).
Proof.
  destruct E as [[ex ey] ez], B as [[bx b_y] bz], p as [[px py] pz]. unfold force3, rate_p, speed, scale3, add3, cross, third, gamma3. cbn [snd fst].
  set (g := sqrt _). replace (pz / g) with (/ g * pz) by (unfold Rdiv; ring). f_equal; [f_equal|]; unfold Rdiv; ring.
Qed.
Lemma drift_rate m p : m <> 0 -> let '(px, py, pz) := p in let g := gamma3 m px py pz in px / (g - pz) = rate_x m p /\ py / (g - pz) = rate_y m p.
Proof.
  intros Hm. destruct p as [[px py] pz]. pose proof (energy_gt (mkT 0 0 0 0 px py pz 0 m 0 0) Hm) as G. unfold energy3 in G. cbn in G.
  unfold gamma3, rate_x, rate_y, speed, scale3, third. cbn [fst snd]. 
  replace (m ^ 2 + px ^ 2 + py ^ 2 + pz ^ 2) with (m * (m * 1) + px * (px * 1) + py * (py * 1) + pz * (pz * 1)) by ring. set (g := sqrt _) in *.
  pose proof (Rabs_pos pz). apply Rabs_def2 in G. split; field; lra.
Qed.

Lemma scale_half c u : scale3 (c / 2) u = scale3 (1 / 2) (scale3 c u).
Proof. destruct u as [[a b] d]. unfold scale3. f_equal; [f_equal|]; field. Qed.
Lemma half_kick_add o d : half_kick o d = add3 o (scale3 (1 / 2) d).
Proof. destruct o as [[a b] c], d as [[x y] z]. unfold half_kick, add3, scale3. f_equal; [f_equal|]; field. Qed.

Section Push.
  Variables (n : nat) (h b X : R) (f : fields3) (prev full : pt3).
  Hypothesis Hq : t_q full <> 0.
  Hypothesis Hm : t_m full <> 0.
  Let mx := t_x0 prev + (t_dx prev + t_dx full) / 2.
  Let my := t_y0 prev + (t_dy prev + t_dy full) / 2.
  Hypothesis Hx : Rabs mx <= b.
  Hypothesis Hy : Rabs my <= b.
  Hypothesis Ix : inside (Z.of_nat n) h mx.
  Hypothesis Iy : inside (Z.of_nat n) h my.
  Let EB := field_at n h f mx my.
  Let st := midpoint_step (t_m full) (t_q full) X (fst EB) (snd EB) (t_dx prev) (t_dy prev) (mom prev).
  Let nx := fst (fst st).
  Let ny := snd (fst st).
  Let np := snd st.
  Lemma no_reflect x : Rabs x <= b -> reflect1 b x = (x, false).
  Proof.
    intros H. unfold reflect1. unfold Rabs in H. destruct (Rcase_abs x); destruct (Rlt_dec b x); try lra; destruct (Rlt_dec x (- b)); try lra; reflexivity.
  Qed.
  Lemma smart_finish : exists pm d, move_smart1 (Z.of_nat n) h b X f prev full = finish3 b X prev full pm d /\
    add3 (mom prev) d = np /\ t_dx prev + fst (fst pm) / (gamma3 (t_m full) (fst (fst pm)) (snd (fst pm)) (snd pm) - snd pm) * X = nx /\
    t_dy prev + snd (fst pm) / (gamma3 (t_m full) (fst (fst pm)) (snd (fst pm)) (snd pm) - snd pm) * X = ny.
  Proof.
    unfold move_smart1. destruct (Req_EM_T (t_q full) 0); [tauto|]. fold mx my. rewrite !no_reflect by assumption. cbn [orb].
    set (e := fields_at3 _ _ _ _ _).
    assert (F : forall p, force3 (t_m full) (t_q full) X e p = scale3 X (rate_p (t_m full) (t_q full) (fst EB) (snd EB) p)).
    { intros p. unfold e, fields_at3. rewrite !gather_interpolate by assumption. 
      pose proof (force_rate (t_m full) (t_q full) X (fst EB) (snd EB) p) as G. unfold EB, field_at in *. cbn [fst snd] in *. exact G. }
    rewrite !F. set (o := (t_px prev, t_py prev, t_pz prev)). rewrite !half_kick_add.
    eexists _, _. split; [reflexivity|]. change o with (mom prev).
    unfold np, nx, ny, st, midpoint_step. cbn [fst snd]. rewrite (scale_half X).
    set (p1 := add3 (mom prev) (scale3 (1 / 2) (scale3 X (rate_p (t_m full) (t_q full) (fst EB) (snd EB) (mom prev))))).
    set (d := scale3 X (rate_p (t_m full) (t_q full) (fst EB) (snd EB) p1)). set (pm := add3 (mom prev) (scale3 (1 / 2) d)). split; [reflexivity|].
    pose proof (drift_rate (t_m full) pm Hm) as D. destruct pm as [[px py] pz]. cbn [fst snd] in *. destruct D as [D1 D2]. rewrite D1, D2. split; ring.
  Qed.
  Definition pushed (dx dy : R) (p : v3) : pt3 :=
    mkT (t_x0 full) (t_y0 full) dx dy (fst (fst p)) (snd (fst p)) (snd p) (t_q full) (t_m full) (t_cx full) (t_cy full).
  Lemma smart_inside : Rabs (t_x0 prev + nx) < b -> Rabs (t_y0 prev + ny) < b ->
    move_smart1 (Z.of_nat n) h b X f prev full = pushed nx ny np.
  Proof.
    intros Ax Ay. destruct smart_finish as (pm & d & E & Ep & Ex' & Ey'). rewrite E. unfold finish3. destruct pm as [[px py] pz], d as [[d1 d2] d3].
    cbn [fst snd] in *. rewrite Ex', Ey'. rewrite !no_reflect by lra. cbn [snd orb]. unfold reflect_off. rewrite !no_reflect by lra.
    apply Rabs_def2 in Ax, Ay.
    destruct (Rle_dec b (t_x0 prev + nx)); [lra|]. destruct (Rle_dec (t_x0 prev + nx) (- b)); [lra|].
    destruct (Rle_dec b (t_y0 prev + ny)); [lra|]. destruct (Rle_dec (t_y0 prev + ny) (- b)); [lra|]. cbn [orb].
    unfold pushed. rewrite <- Ep. reflexivity.
  Qed.
  (** beyond the right wall in x, mirrored and stopped; beyond three half-widths etc. absorbed *)
  Lemma smart_mirror : 0 < b -> 
    let fx := fst (reflect1 b (t_x0 prev + nx)) in let fy := fst (reflect1 b (t_y0 prev + ny)) in
    (b < Rabs (t_x0 prev + nx) \/ b < Rabs (t_y0 prev + ny)) ->
    move_smart1 (Z.of_nat n) h b X f prev full =
      if Rlt_dec (Rabs fx) b then if Rlt_dec (Rabs fy) b then pushed (fx - t_x0 prev) (fy - t_y0 prev) (0, 0, 0)
      else mkT (t_x0 full) (t_y0 full) 0 0 0 0 0 0 (t_m full) (t_cx full) (t_cy full)
      else mkT (t_x0 full) (t_y0 full) 0 0 0 0 0 0 (t_m full) (t_cx full) (t_cy full).
  Proof.
    intros Hb fx fy Hout. destruct smart_finish as (pm & d & E & Ep & Ex' & Ey'). rewrite E. unfold finish3. destruct pm as [[px py] pz], d as [[d1 d2] d3].
    cbn [fst snd] in *. rewrite Ex', Ey'.
    assert (R1 : forall x, b < Rabs x -> snd (reflect1 b x) = true).
    { intros x Hx'. rewrite reflect1_val by auto. unfold Rabs in Hx'. destruct (Rcase_abs x), (Rle_dec (- b) x); try lra; auto.
      destruct (Rle_dec x b); [lra|]. destruct (Rle_dec x (3 * b)); reflexivity. }
    assert (RO : forall x0 dx, reflect_off b x0 dx = fst (reflect1 b (x0 + dx)) - x0).
    { intros x0 dx. unfold reflect_off. destruct (reflect1 b (x0 + dx)) as [x g] eqn:G. cbn [fst]. destruct g; [reflexivity|].
      rewrite reflect1_val in G by auto. destruct (Rle_dec (- b) (x0 + dx)); [|discriminate]. destruct (Rle_dec (x0 + dx) b); [|destruct (Rle_dec _ (3 * b)); discriminate].
      injection G as <-. ring. }
    rewrite !RO. fold fx fy.
    assert (FL : (snd (reflect1 b (t_x0 prev + nx)) || snd (reflect1 b (t_y0 prev + ny)))%bool = true).
    { destruct Hout as [H|H]; rewrite (R1 _ H); [reflexivity|apply orb_true_r]. }
    rewrite FL. replace (t_x0 prev + (fx - t_x0 prev)) with fx by ring. replace (t_y0 prev + (fy - t_y0 prev)) with fy by ring.
    assert (T : forall z, Rabs z < b <-> ~ b <= z /\ ~ z <= - b).
    { intros z. split; [intros H; apply Rabs_def2 in H; lra|intros [A B]; apply Rabs_def1; lra]. }
    destruct (Rle_dec b fx), (Rle_dec fx (- b)), (Rle_dec b fy), (Rle_dec fy (- b)); cbn [orb];
      destruct (Rlt_dec (Rabs fx) b) as [Q|Q]; try (apply T in Q; tauto); try reflexivity;
      destruct (Rlt_dec (Rabs fy) b) as [Q'|Q']; try (apply T in Q'; tauto); try reflexivity; exfalso; (apply Q || apply Q'); apply T; tauto.
  Qed.
End Push.
