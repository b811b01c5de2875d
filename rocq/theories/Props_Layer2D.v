(** Theorems C63: one layer of the 2D plasma is a chain of predictor-corrector steps. *)
From Coq Require Import Reals ZArith List Bool Lia Lra.
From Verif Require Import Beam2D_Model Beam2D_Spec Plasma2D_Model Plasma2D_Spec Plasma2D_Ode Plasma2D_Dep Plasma2D_Move Plasma2D_Init
  Plasma2D_Push_Spec Plasma2D_Push Layer2D_Spec Layer2D_Proofs Layer2D_Unique.
Import ListNotations.
Open Scope R_scope.

(** C63.  The window holds a whole number of cells and less than half a cell more; every particle is
    between the axis and the wall.  Then what the code computes for a layer is the scheme of
    Layer2D_Spec, and the particles are again between the axis and the wall. *)
Theorem C63_layer_is_the_scheme : forall fuel s rho_beam st st',
  0 < g_rmax (v_c s) -> 0 < g_h (v_c s) -> (3 <= g_n (v_c s))%nat -> g_rmax (v_c s) / g_h (v_c s) < INR (g_n (v_c s)) - 1 / 2 ->
  0 < v_xi s -> calm2 s (fst (fst st)) -> step_dxi2 fuel s rho_beam st = Some st' ->
  layer2 s rho_beam st st' /\ calm2 s (fst (fst st')).
Proof. intros fuel s rb st st' A1 A2 A3 A4 HX Hi E. eapply layer_ok; eauto. repeat split; auto. Qed.
Print Assumptions C63_layer_is_the_scheme.

(** The scheme leaves no freedom: two layers that follow it from the same state are the same (up to
    the ages of particles, which nothing depends on). *)
Theorem C63_scheme_determines_the_layer : forall s rho_beam st a b,
  0 < g_rmax (v_c s) -> 0 < g_h (v_c s) -> (3 <= g_n (v_c s))%nat -> g_rmax (v_c s) / g_h (v_c s) < INR (g_n (v_c s)) - 1 / 2 ->
  layer2 s rho_beam st a -> layer2 s rho_beam st b -> same_state (g_n (v_c s)) a b.
Proof. intros s rb st a b A1 A2 A3 A4 La Lb. eapply layer_fun; [|exact La| |exact Lb]; [repeat split; auto|apply same_state_refl]. Qed.
Print Assumptions C63_scheme_determines_the_layer.

(** So the layer the code computes is the only one that follows the scheme. *)
Theorem C63_every_layer_exists_and_is_unique : forall s rho_beam st,
  0 < g_rmax (v_c s) -> 0 < g_h (v_c s) -> (3 <= g_n (v_c s))%nat -> g_rmax (v_c s) / g_h (v_c s) < INR (g_n (v_c s)) - 1 / 2 ->
  0 < v_xi s -> v_path_lim s = 0 -> calm2 s (fst (fst st)) ->
  exists fuel0 st', (forall fuel, (fuel0 <= fuel)%nat -> exists st'', step_dxi2 fuel s rho_beam st = Some st'' /\ same_state (g_n (v_c s)) st' st'') /\
    layer2 s rho_beam st st' /\ forall b, layer2 s rho_beam st b -> same_state (g_n (v_c s)) st' b.
Proof.
  intros s rb st A1 A2 A3 A4 HX Hp Hi. set (F := Nat.max enough (layer_fuel (v_depth s))).
  destruct (step_dxi2_total F s rb st ltac:(lia) ltac:(lia) HX Hp) as (st' & E). exists F, st'.
  pose proof (C63_layer_is_the_scheme F s rb st st' A1 A2 A3 A4 HX Hi E) as [L _].
  split; [|split; [exact L|]].
  - intros fuel Hf. destruct (step_dxi2_total fuel s rb st ltac:(lia) ltac:(lia) HX Hp) as (st'' & E2). exists st''. split; auto.
    eapply C63_scheme_determines_the_layer; eauto. eapply C63_layer_is_the_scheme; eauto.
  - intros b Lb. eapply C63_scheme_determines_the_layer; eauto.
Qed.
Print Assumptions C63_every_layer_exists_and_is_unique.

(** Electrons of a window of two cells, one of them moving outwards, over a fixed ion background. *)
Definition ex_solver : solver2 := mkS2 (mkC2 3 1 2 0.5) 2 (Background (fun _ => 1)) 0.01 0.2 2 0 true 2.
Definition ex_state : pstate :=
  (mkP2 [mkPl 0.5 0 0 0 (-1) 1 0; mkPl 1.5 0.3 0.1 0.2 (-3) 3 0] [], zero_fields, mkJ zero_dens (mkD (fun _ => 1) zeros zeros zeros)).
Example C63_nonvacuous : (0 < g_rmax (v_c ex_solver) /\ 0 < g_h (v_c ex_solver) /\ (3 <= g_n (v_c ex_solver))%nat /\
    g_rmax (v_c ex_solver) / g_h (v_c ex_solver) < INR (g_n (v_c ex_solver)) - 1 / 2) /\
  0 < v_xi ex_solver /\ v_path_lim ex_solver = 0 /\ calm2 ex_solver (fst (fst ex_state)) /\
  exists st', layer2 ex_solver (fun _ => 0) ex_state st'.
Proof.
  assert (H : 0 < g_rmax (v_c ex_solver) /\ 0 < g_h (v_c ex_solver) /\ (3 <= g_n (v_c ex_solver))%nat /\
    g_rmax (v_c ex_solver) / g_h (v_c ex_solver) < INR (g_n (v_c ex_solver)) - 1 / 2) by (unfold ex_solver; cbn; repeat split; try lra; lia).
  assert (HX : 0 < v_xi ex_solver) by (cbn; lra). assert (Hp : v_path_lim ex_solver = 0) by reflexivity.
  assert (Hi : calm2 ex_solver (fst (fst ex_state))).
  { intros p Hp'. cbn in Hp'. destruct Hp' as [<-|[<-|[]]]; cbn; lra. }
  split; [exact H|]. split; [exact HX|]. split; [exact Hp|]. split; [exact Hi|]. destruct H as (A1 & A2 & A3 & A4).
  destruct (C63_every_layer_exists_and_is_unique ex_solver (fun _ => 0) ex_state A1 A2 A3 A4 HX Hp Hi) as (F & st' & _ & L & _). eauto.
Qed.
