(** Property theorems about the configuration (C01-C05, C43, C44). *)
From Coq Require Import List ZArith QArith Qabs String Bool Permutation.
From Verif Require Import Config_Model Config_Spec Config_Proofs.
Import ListNotations.
Open Scope string_scope.
Open Scope list_scope.
Open Scope Z_scope.

(** C01.  Reading any option after any history of set/update calls on a default-based
    configuration: the last write wins, defaults below user values below later calls. *)
Theorem C01_config_last_writer_wins :
  forall fshow has_cupy user c0 (hist : list call) (k fallback : string),
    new_config fshow has_cupy user true = (c0, None) ->
    get fshow (run_calls fshow has_cupy c0 hist) k fallback =
      match last_write (default_config_values ++ user ++ flat_map (call_writes fshow has_cupy) hist) k with
      | Some v => py_str fshow (canonical k v)
      | None => fallback
      end.
Proof. exact config_lww. Qed.
Print Assumptions C01_config_last_writer_wins.

Example C01_nonvacuous :
  let c0 := fst (new_config (fun _ => "x") false [("time-step", VInt 7); ("mine", VStr "a")] true) in
    snd (new_config (fun _ => "x") false [("time-step", VInt 7); ("mine", VStr "a")] true) = None /\
    get (fun _ => "x") (run_calls (fun _ => "x") false c0
       [CallSet "geometry" (VStr "circ"); CallUpdate [("mine", VStr "b"); ("ion-mass", VInt 5)]; CallSet "mine" (VBool true)]) "mine" "-" = "True" /\
    get (fun _ => "x") c0 "time-step" "-" = "7" /\ get (fun _ => "x") c0 "geometry" "-" = "2d" /\
    get (fun _ => "x") c0 "nope" "-" = "-".
Proof. vm_compute. auto 10. Qed.

(** C01.  A failing call fails only because cupy is absent. *)
Theorem C01_set_fails_only_without_cupy :
  forall fshow has_cupy c k v,
    snd (set fshow has_cupy c k v) =
      (if (String.eqb k "processing-unit-type" && String.eqb (lower (py_str fshow v)) "gpu" && negb has_cupy)%bool
       then Some ImportError else None).
Proof. exact (fun f h c k v => proj2 (set_spec f h c k v)). Qed.
Print Assumptions C01_set_fails_only_without_cupy.

(** C01.  The array library is the one chosen by the last effective choice. *)
Theorem C01_array_library_last_choice :
  forall fshow has_cupy c (hist : list call),
    xp (run_calls fshow has_cupy c hist) =
      match last_pick fshow has_cupy (flat_map (call_writes fshow has_cupy) hist) with
      | Some x => x | None => xp c end.
Proof. exact (fun f h c l => xp_calls f h l c). Qed.
Print Assumptions C01_array_library_last_choice.

(** C01.  Booleans written through set are read back by getbool. *)
Theorem C01_bool_round_trip :
  forall fshow has_cupy c k b fb, k <> "geometry" ->
    getbool fshow (fst (set fshow has_cupy c k (VBool b))) k fb = b.
Proof. exact set_bool_getbool. Qed.
Print Assumptions C01_bool_round_trip.

(** C01.  A copy reads the same options ... *)
Theorem C01_copy_same_options :
  forall fshow has_cupy c k fb, get fshow (copy_config fshow has_cupy c) k fb = get fshow c k fb.
Proof. exact copy_get. Qed.
Print Assumptions C01_copy_same_options.

(** ... but loses the selected array library: a gpu configuration copies to a numpy one. *)
Theorem C01_copy_keeps_array_library_refuted :
  exists fshow has_cupy c, c = run_calls fshow has_cupy (fst (new_config fshow has_cupy [] true))
                                  [CallSet "processing-unit-type" (VStr "gpu")] /\
    xp c = Cp /\ xp (copy_config fshow has_cupy c) = Np.
Proof.
  exists (fun _ => ""), true, (run_calls (fun _ => "") true (fst (new_config (fun _ => "") true [] true))
                                  [CallSet "processing-unit-type" (VStr "gpu")]).
  split; [reflexivity|]. vm_compute. auto. Qed.
Print Assumptions C01_copy_keeps_array_library_refuted.

(** C02. *)
Theorem C02_factorize_correct :
  forall n, 2 <= n -> exists l, factorize n = Some l /\ prime_factorisation n l.
Proof. exact factorize_correct. Qed.
Print Assumptions C02_factorize_correct.

Theorem C02_factorize_trivial : forall n, n <= 1 -> factorize n = Some [].
Proof. exact factorize_small. Qed.
Print Assumptions C02_factorize_trivial.

Theorem C02_factorisation_unique :
  forall l1 l2, Forall Znumtheory.prime l1 -> Forall Znumtheory.prime l2 ->
    product l1 = product l2 -> Permutation l1 l2.
Proof. exact prime_lists_unique. Qed.
Print Assumptions C02_factorisation_unique.

Example C02_nonvacuous : factorize 360 = Some [2; 2; 2; 3; 3; 5] /\ factorize 221 = Some [13; 17].
Proof. vm_compute. auto. Qed.

(** C03. *)
Theorem C03_good_size_exact : forall n, 0 <= n -> (good_size n = true <-> fft_friendly n).
Proof. exact good_size_spec. Qed.
Print Assumptions C03_good_size_exact.

Example C03_nonvacuous : good_size 201 = true /\ good_size 1 = true /\ good_size 243 = false
  /\ good_size 200 = false /\ good_size 35 = false.
Proof. vm_compute. auto. Qed.

(** C04.  A successful 3D adjustment stores the closest friendly size (the smaller one on a
    tie), an exactly matching width, and changes no other option. *)
Theorem C04_adjusted_window :
  forall fshow parse has_cupy c c',
    adjust_window fshow parse has_cupy c = (c', None) ->
    let w := getfloat parse c "window-width" 0 in
    let h := getfloat parse c "transverse-step" 0 in
    exists n, optimal_steps (trunc (w / h)) = Some n /\ ~ (h == 0)%Q /\
      getint parse c' "window-width-steps" 0 = n /\
      (getfloat parse c' "window-width" 0 == inject_Z n * h)%Q /\
      (forall k, k <> "window-width" -> k <> "window-width-steps" -> getraw c' k = getraw c k).
Proof. exact adjust_window_ok. Qed.
Print Assumptions C04_adjusted_window.

Theorem C04_nearest_friendly :
  forall e n, optimal_steps e = Some n ->
    fft_friendly n /\ 0 <= n /\ e - 100 <= n < e + 100 /\
    (forall m, 0 <= m -> fft_friendly m -> Z.abs (n - e) <= Z.abs (m - e)) /\
    (forall m, 0 <= m -> fft_friendly m -> m < e + 100 -> Z.abs (m - e) = Z.abs (n - e) -> n <= m).
Proof. exact optimal_steps_some. Qed.
Print Assumptions C04_nearest_friendly.

Theorem C04_fails_only_if_none_in_range :
  forall e, optimal_steps e = None <->
    (forall m, 0 <= m -> e - 100 <= m < e + 100 -> ~ fft_friendly m).
Proof. exact optimal_steps_none. Qed.
Print Assumptions C04_fails_only_if_none_in_range.

Theorem C04_failure_stores_nothing :
  forall fshow parse has_cupy c c' e,
    adjust_window fshow parse has_cupy c = (c', Some e) ->
    let w := getfloat parse c "window-width" 0 in
    let h := getfloat parse c "transverse-step" 0 in
    c' = c /\ ((h == 0)%Q \/ optimal_steps (trunc (w / h)) = None).
Proof. exact adjust_window_fail. Qed.
Print Assumptions C04_failure_stores_nothing.

(** C04 for the whole 3D adjustment: the width is first doubled. *)
Theorem C04_adjust_3d :
  forall fshow parse has_cupy rt c c',
    get fshow c "geometry" "" = "3d" ->
    adjust_3d fshow parse has_cupy rt c = (c', None) ->
    let w := getfloat parse c "window-width" 0 in
    let h := getfloat parse c "transverse-step" 0 in
    exists n, optimal_steps (trunc (2 * w / h)) = Some n /\ ~ (h == 0)%Q /\
      getint parse c' "window-width-steps" 0 = n /\
      (getfloat parse c' "window-width" 0 == inject_Z n * h)%Q /\
      (getfloat parse c' "transverse-step" 0 == h)%Q.
Proof. exact adjust_3d_window. Qed.
Print Assumptions C04_adjust_3d.

(** What else the 3D adjustment changes: a subtraction coefficient written as 1 becomes 1 + xi-step;
    any other value (also 1.0) stays, and no option but the five is touched. *)
Theorem C04_adjust_3d_other_options :
  forall fshow parse has_cupy rt c c', get fshow c "geometry" "" = "3d" -> adjust_3d fshow parse has_cupy rt c = (c', None) ->
    let k0 := "field-solver-subtraction-coefficient" in
    (get fshow c k0 "" = "1" -> getraw c' k0 = Some (VFloat (1 + getfloat parse c "xi-step" 0))) /\
    (get fshow c k0 "" <> "1" -> getraw c' k0 = getraw c k0) /\
    (forall k, ~ In k [k0; "window-width"; "window-width-steps"; "plasma-fineness"; "plasma-particles-per-cell"] -> getraw c' k = getraw c k).
Proof. exact adjust_3d_rest. Qed.
Print Assumptions C04_adjust_3d_other_options.
Example C04_other_options_nonvacuous :
  let fs := fun _ : Q => "" in let ps := fun _ : string => @None Q in
  let c := fst (new_config fs false [("geometry", VStr "3d")] true) in
  get fs c "field-solver-subtraction-coefficient" "" = "1".
Proof. vm_compute. reflexivity. Qed.

Example C04_nonvacuous :
  let fs := fun _ : Q => "" in let ps := fun _ : string => @None Q in
  let c := fst (new_config fs false [("geometry", VStr "3d")] true) in
  get fs c "geometry" "" = "3d" /\
  snd (adjust_3d fs ps false (fun _ => 316 # 100) c) = None /\
  getint ps (fst (adjust_3d fs ps false (fun _ => 316 # 100) c)) "window-width-steps" 0 = 199.
Proof. vm_compute. auto. Qed.

(** C05. *)
Theorem C05_adjustment_total_up_to_18301 :
  forall e, 0 <= e <= 18301 -> exists n, optimal_steps e = Some n.
Proof. exact optimal_steps_total. Qed.
Print Assumptions C05_adjustment_total_up_to_18301.

Theorem C05_adjustment_not_total_refuted : optimal_steps 18302 = None.
Proof. exact optimal_steps_18302. Qed.
Print Assumptions C05_adjustment_not_total_refuted.

(** C43.  The simulation picks the 3D solver for '3D', but the 3D adjustment is skipped and
    the number of window steps the 3D solver reads is 0. *)
Theorem C43_geometry_case_insensitive_refuted :
  exists user, user = [("geometry", VStr "3D")] /\
  forall fshow parse has_cupy rt,
    let c := fst (new_config fshow has_cupy user true) in
    pick_solver fshow c = Solver3D /\
    adjust_3d fshow parse has_cupy rt c = (c, None) /\
    getint parse (fst (adjust_3d fshow parse has_cupy rt c)) "window-width-steps" 0 = 0.
Proof. exists [("geometry", VStr "3D")]. split; [reflexivity|]. intros f p h r. vm_compute. auto. Qed.
Print Assumptions C43_geometry_case_insensitive_refuted.

(** C43, the part that holds: any configuration whose geometry reads exactly '3d' is given the
    3D solver and (C04_adjust_3d) adjusted; any other is left untouched. *)
Theorem C43_geometry_lowercase_partial :
  forall fshow parse has_cupy rt c,
    (get fshow c "geometry" "" = "3d" -> pick_solver fshow c = Solver3D) /\
    (get fshow c "geometry" "" <> "3d" -> adjust_3d fshow parse has_cupy rt c = (c, None)).
Proof.
  exact (fun f p h r c => conj (fun H => eq_trans (f_equal (fun g => if String.eqb (lower g) "3d" then Solver3D
     else if String.eqb (lower g) "2d" then Solver2D else BadGeometry) H) eq_refl) (adjust_3d_other f p h r c)).
Qed.
Print Assumptions C43_geometry_lowercase_partial.

(** C44.  Plasma fineness: nearest integer to sqrt(ppc), ppc its square. *)
Theorem C44_fineness_at_least_one :
  forall fshow parse has_cupy rt c,
    let s := rt (getfloat parse c "plasma-particles-per-cell" 0) in
    (1 <= s)%Q ->
    exists c', adjust_fineness fshow parse has_cupy rt c = (c', None) /\
      getraw c' "plasma-fineness" = Some (VInt (round_q s)) /\
      getraw c' "plasma-particles-per-cell" = Some (VInt (round_q s * round_q s)) /\
      (forall k, k <> "plasma-fineness" -> k <> "plasma-particles-per-cell" -> getraw c' k = getraw c k).
Proof. exact adjust_fineness_coarse. Qed.
Print Assumptions C44_fineness_at_least_one.

Theorem C44_fineness_below_one :
  forall fshow parse has_cupy rt c,
    let s := rt (getfloat parse c "plasma-particles-per-cell" 0) in
    (0 < s)%Q -> (s < 1)%Q ->
    exists c' m, adjust_fineness fshow parse has_cupy rt c = (c', None) /\ m = round_q (/ s) /\ 1 <= m /\
      getraw c' "plasma-fineness" = Some (VFloat (/ inject_Z m)) /\
      getraw c' "plasma-particles-per-cell" = Some (VFloat (/ inject_Z (m * m))) /\
      (forall k, k <> "plasma-fineness" -> k <> "plasma-particles-per-cell" -> getraw c' k = getraw c k).
Proof. exact adjust_fineness_fine. Qed.
Print Assumptions C44_fineness_below_one.

Theorem C44_round_is_nearest : forall q, (Qabs (inject_Z (round_q q) - q) <= 1 # 2)%Q.
Proof. exact round_q_near. Qed.
Print Assumptions C44_round_is_nearest.

Theorem C44_round_keeps_integers : forall z, round_q (inject_Z z) = z.
Proof. exact round_q_int. Qed.
Print Assumptions C44_round_keeps_integers.

Example C44_nonvacuous :
  let fs := fun _ : Q => "" in let ps := fun _ : string => @None Q in
  let c := fst (new_config fs false [("plasma-particles-per-cell", VInt 10)] true) in
  getraw (fst (adjust_fineness fs ps false (fun _ => 316 # 100) c)) "plasma-particles-per-cell" = Some (VInt 9) /\
  getraw (fst (adjust_fineness fs ps false (fun _ => 26 # 100) c)) "plasma-fineness" = Some (VFloat (1 # 4)).
Proof. vm_compute. auto. Qed.
