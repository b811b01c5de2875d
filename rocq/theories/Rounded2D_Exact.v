(** Without rounding, Rounded2D_Model is Plasma2D_Model. *)
From Coq Require Import Reals ZArith List Bool Lra Lia FunctionalExtensionality.
From Verif Require Import Beam2D_Model Plasma2D_Model Rounded3D_Model Rounded3D_Exact Rounded2D_Model.
Import ListNotations.
Open Scope R_scope.

Ltac fe := apply functional_extensionality; intro.
Lemma f2_exact x : Rounded3D_Model.f2 exact x = x ^ 2. Proof. unfold f2, exact. ring. Qed.
Lemma f2_exact' : Rounded3D_Model.f2 (fun x => x) = fun x => x ^ 2. Proof. fe. apply f2_exact. Qed.
Lemma exactE x : exact x = x. Proof. reflexivity. Qed.
Lemma fwd_exact y h : cumtrapz_fwd_f exact y h = cumtrapz_fwd y h.
Proof. fe. induction x as [|i IH]; [reflexivity|]. cbn [cumtrapz_fwd_f cumtrapz_fwd]. now rewrite IH. Qed.
Lemma bwd_exact n y h : cumtrapz_bwd_f exact n y h = cumtrapz_bwd n y h.
Proof. fe. unfold cumtrapz_bwd_f, cumtrapz_bwd. induction (n - 1 - x)%nat as [|k IH]; [reflexivity|]. cbn [cumtrapz_bwd_from_f cumtrapz_bwd_from]. now rewrite IH. Qed.
Lemma sweep_exact f k h i : sweep_f exact f k h i = sweep f k h i.
Proof. induction i as [|i IH]; [reflexivity|]. cbn [sweep_f sweep]. rewrite IH. destruct (sweep f k h i) as [a b]. now rewrite f2_exact. Qed.
Lemma back_exact f k h b0 b1 nr j : back_from_f exact f k h b0 b1 nr j = back_from f k h b0 b1 nr j.
Proof. induction j as [|j IH]; cbn [back_from_f back_from]; rewrite sweep_exact; [reflexivity|]. destruct (sweep f k h _) as [a b]. now rewrite IH. Qed.
Lemma neumann_exact n f k h : neumann_like_f exact n f k h = tridiagonal_solve_neumann_like n f k h.
Proof. fe. unfold neumann_like_f, tridiagonal_solve_neumann_like, tridiagonal_solve_f, tridiagonal_solve. rewrite back_exact. reflexivity. Qed.
Lemma dirichlet_exact n f k h : dirichlet_f exact n f k h = tridiagonal_solve_dirichlet n f k h.
Proof. fe. unfold dirichlet_f, tridiagonal_solve_dirichlet, tridiagonal_solve_f, tridiagonal_solve. rewrite back_exact. reflexivity. Qed.
Lemma factor_exact a b c d : prev_factor_f exact a b c d = prev_factor a b c d.
Proof. fe. unfold prev_factor_f, prev_factor. rewrite !f2_exact. reflexivity. Qed.
Lemma fields_exact n h fn f rb cp c X : compute_fields_f exact n h fn f rb cp c X = compute_fields n h fn f rb cp c X.
Proof.
  unfold compute_fields_f, compute_fields. rewrite factor_exact. unfold compute_e_r_f, compute_e_phi_f. rewrite neumann_exact, dirichlet_exact, bwd_exact.
  assert (B : compute_b_z_f exact n (total_f exact c d_jf) h = compute_b_z n (total c d_jf) h).
  { fe. unfold compute_b_z_f, compute_b_z. rewrite bwd_exact, sum_exact. reflexivity. }
  rewrite B. clear B. unfold compute_b_phi_f. rewrite fwd_exact. reflexivity.
Qed.
Lemma weight_exact x k : weight_quadratic_f exact x k = weight_quadratic x k.
Proof. unfold weight_quadratic_f, weight_quadratic. rewrite !f2_exact. reflexivity. Qed.
Lemma sq4_exact m a b d : sq4_f exact m a b d = sqrt (m ^ 2 + a ^ 2 + b ^ 2 + d ^ 2).
Proof. unfold sq4_f. rewrite !f2_exact. reflexivity. Qed.
Lemma particle_exact h n o p : deposit_particle_f exact h n o p = deposit_particle h n o p.
Proof.
  unfold deposit_particle_f, deposit_particle. rewrite sq4_exact. change (cell2_f exact h (r_ p)) with (cell2 h (r_ p)).
  rewrite weight_exact. apply fold_ext. intros o1 k. rewrite weight_exact. reflexivity.
Qed.
Lemma deposit2_exact h n l : deposit2_f exact h n l = deposit2 h n l.
Proof. unfold deposit2_f, deposit2. f_equal. apply fold_ext. intros. apply particle_exact. Qed.
Lemma volume_exact h ppc n : cell_volume_f exact h ppc n = cell_volume h ppc n.
Proof. fe. unfold cell_volume_f, cell_volume, pi_f. rewrite !f2_exact. reflexivity. Qed.
Lemma rhoj_exact h ppc n im ps : compute_rhoj_f exact h ppc n im ps = compute_rhoj h ppc n im ps.
Proof. unfold compute_rhoj_f, compute_rhoj. rewrite volume_exact, deposit2_exact. destruct im; [reflexivity|]. now rewrite deposit2_exact. Qed.
Lemma interp_exact n c x f : interpolate2_f exact n c x f = interpolate2 n c x f.
Proof. unfold interpolate2_f, interpolate2. rewrite f2_exact. reflexivity. Qed.
Lemma noise_exact n amp c x h : noise_at_f exact n amp c x h = noise_at n amp c x h.
Proof. unfold noise_at_f, noise_at, pi_f. rewrite f2_exact. reflexivity. Qed.
Lemma at_exact c f amp r : fields_at_f exact c f amp r = fields_at c f amp r.
Proof. unfold fields_at_f, fields_at. rewrite interp_exact. change (cell2_f exact (g_h c) r) with (cell2 (g_h c) r). rewrite noise_exact. reflexivity. Qed.
Lemma finish_exact c p rp p0 d dl gm : finish_f exact c p rp p0 d dl gm = finish c p rp p0 d dl gm.
Proof. destruct p0 as [[a b] e], d as [[a' b'] e']. unfold finish_f, finish. rewrite !f2_exact. reflexivity. Qed.
Lemma push_exact c p e rp X p0 dl gm : push_half_f exact c p e rp X p0 dl gm = push_half c p e rp X p0 dl gm.
Proof.
  destruct p0 as [[a b] d]. unfold push_half_f, push_half, sq4. change (kick_f exact) with kick. destruct (kick _ _ _ _ _ _ _) as [[x y] z].
  rewrite sq4_exact. rewrite !exactE. destruct (Req_EM_T _ _); [reflexivity|]. rewrite finish_exact. reflexivity.
Qed.
Lemma one_exact c f amp X p : move_one2_f exact c f amp X p = move_one2 c f amp X p.
Proof.
  unfold move_one2_f, move_one2, sq4. rewrite sq4_exact. rewrite !at_exact, !push_exact. reflexivity.
Qed.
Lemma sub_exact fuel s s' h X p a b : (forall x p, s x p = s' x p) -> sub_loop_f exact fuel s h X p a b = sub_loop fuel s' h X p a b.
Proof.
  intros E. revert p a b. induction fuel as [|k IH]; intros p a b; cbn [sub_loop_f sub_loop]; [reflexivity|]. rewrite E, !exactE.
  destruct (Rle_dec a _); [|reflexivity]. destruct (Req_EM_T _ _); [reflexivity|]. destruct (s' b p) as [p' l]. rewrite !IH. reflexivity.
Qed.
Lemma moves_exact fuel c f amp X ps : move_particles2_f exact fuel c f amp X ps = move_particles2 fuel c f amp X ps.
Proof.
  unfold move_particles2_f, move_particles2. assert (L : forall l, move_list_f exact fuel c f amp X l = move_list fuel c f amp X l).
  { intros l. unfold move_list_f, move_list. f_equal. fe. apply sub_exact. intros. apply one_exact. }
  now rewrite !L.
Qed.
Lemma predict_exact fuel s X st : predict_f exact fuel s X st = predict fuel s X st.
Proof.
  destruct st as [[ps f] cur]. unfold predict_f, predict. rewrite moves_exact. change (noise_amplitude_f exact) with noise_amplitude.
  destruct (move_particles2 _ _ _ _ _ _); [|reflexivity]. cbn [option_map]. now rewrite rhoj_exact.
Qed.
Lemma correct_exact fuel s rb X k st new : correct_f exact fuel s rb X k st new = correct fuel s rb X k st new.
Proof.
  destruct st as [[ps f] cur]. revert new. induction k as [|k IH]; intros new; [reflexivity|]. destruct new as [[pn fn] cn]. cbn [correct_f correct].
  rewrite fields_exact. destruct (compute_fields _ _ _ _ _ _ _ _) as [a b]. change (noise_amplitude_f exact) with noise_amplitude. rewrite moves_exact.
  destruct (move_particles2 _ _ _ _ _ _); [|reflexivity]. cbn [bind]. now rewrite rhoj_exact, IH.
Qed.
Lemma unwind_exact d cnt X : unwind_f exact d cnt X = unwind d cnt X.
Proof. revert cnt X. induction d as [|d IH]; intros cnt X; [reflexivity|]. cbn [unwind_f unwind]. now rewrite IH. Qed.
Lemma loop_exact St need need' adv adv' D fuel d cnt X s : (forall x s, need x s = need' x s) -> (forall x s, adv x s = adv' x s) ->
  step_loop_f exact St need adv D fuel d cnt X s = step_loop St need' adv' D fuel d cnt X s.
Proof.
  intros E1 E2. revert d cnt X s. induction fuel as [|k IH]; intros d cnt X s; [reflexivity|]. cbn [step_loop_f step_loop]. rewrite E1.
  destruct (need' X s) as [b|]; [|reflexivity]. cbn [bind]. destruct (b && _); [apply IH|]. rewrite E2. destruct (adv' X s) as [s'|]; [|reflexivity]. cbn [bind].
  rewrite unwind_exact. destruct (unwind d cnt X) as [[d' c'] X']. destruct (d' =? 0)%nat; [reflexivity|apply IH].
Qed.
Lemma step2_exact fuel s rb st : step_dxi2_f exact fuel s rb st = step_dxi2 fuel s rb st.
Proof.
  unfold step_dxi2_f, step_dxi2. destruct (Req_EM_T _ _); [|reflexivity]. apply loop_exact.
  - intros x t. unfold need2_f, need2. now rewrite predict_exact.
  - intros x [[ps f] cur]. unfold adv2_f, adv2. rewrite predict_exact. destruct (predict _ _ _ _); [|reflexivity]. cbn [bind]. apply correct_exact.
Qed.
Lemma place_exact w h ppc : place_particles_f exact w h ppc = place_particles w h ppc.
Proof. reflexivity. Qed.
Lemma electrons_exact w h ppc coef : (2 <= cells_f exact w h * ppc)%nat -> init_electrons_f exact w h ppc coef = init_electrons w h ppc coef 0.
Proof.
  intros H. unfold init_electrons_f, init_electrons. rewrite place_exact. change (Z.to_nat (floorR (w / h))) with (cells_f exact w h).
  assert (S : spacing_f exact (place_particles w h ppc) = w / INR (cells_f exact w h * ppc)).
  { unfold place_particles. change (Z.to_nat (floorR (w / h))) with (cells_f exact w h). set (np := (cells_f exact w h * ppc)%nat) in *. destruct np as [|[|np]]; try lia.
    cbn [seq map]. unfold spacing_f. cbn [nth]. unfold exact. cbn [INR]. lra. }
  rewrite S. f_equal. apply map_ext. intros r. cbv beta zeta. unfold pi_f. rewrite !exactE. destruct (Rlt_dec 0 0); [lra|reflexivity].
Qed.
Lemma init2_exact w h ppc coef mass : (2 <= cells_f exact w h * ppc)%nat ->
  init2_f exact w h ppc coef None = init_background w h ppc coef 0 /\ init2_f exact w h ppc coef (Some mass) = init_mobile w h ppc coef 0 mass.
Proof.
  intros H. unfold init2_f, init_background, init_mobile. rewrite electrons_exact by exact H. change (Z.to_nat (floorR (w / h))) with (cells_f exact w h).
  rewrite rhoj_exact. split; reflexivity.
Qed.
