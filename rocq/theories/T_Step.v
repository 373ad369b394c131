(** Properties C03 (steps), C04, C19 (steps) and C58: one time step of each integrator. *)
From Verif Require Import P_RunEx.
Open Scope R_scope.
Open Scope st_scope.

(** C03.  Every layer a runner advances ends with length one, or is the zero vector. *)
Theorem c03_step_normalised : forall r t dt j j' p l',
  run_runner r t dt j = (j', Ok tt) -> stepped r p -> nth_error (j_layers j') p = Some l' -> UnitOrZero (l_mag l').
Proof. exact step_normalised. Qed.
Print Assumptions c03_step_normalised.
(** Without noise an Euler-Heun step of a unit vector never collapses to zero. *)
Theorem c03_quiet_euler_unit : forall l t dt b top m',
  Unit (l_mag l) -> EulerHeun_scheme l t dt b top Zero m' -> Unit m'.
Proof. exact quiet_euler_unit. Qed.
Print Assumptions c03_quiet_euler_unit.
(** A step changes nothing but magnetisations, remembered values and generator positions. *)
Theorem c03_step_frame : forall r t dt j j',
  run_runner r t dt j = (j', Ok tt) -> stepwise (fun _ l l' => static l l') j j'.
Proof. exact step_static. Qed.
Print Assumptions c03_step_frame.
Example c03_step_example : forall r, exists j', run_runner r 0 (1 / 10) (ex_junction 3 (CV 1 2 3)) = (j', Ok tt).
Proof. intros r. apply ex_junction_steps. lra. Qed.

(** C04.  Executing the layers one at a time, in any order, with the neighbours' old magnetisations
    gives exactly the state the multi-layer step gives. *)
Theorem c04_snapshot : forall t dt j j' order,
  runMultiLayerSolver t dt j = (j', Ok tt) -> NoDup order -> (forall p, In p order <-> (p < layerNo j)%nat) ->
  snapshot_exec t dt (mags (j_layers j)) order (j_layers j) (j_layers j') /\
  forall ls2, snapshot_exec t dt (mags (j_layers j)) order (j_layers j) ls2 -> ls2 = j_layers j'.
Proof. exact snapshot_order. Qed.
Print Assumptions c04_snapshot.
Example c04_example : NoDup [1; 0]%nat /\ (forall p, In p [1; 0]%nat <-> (p < layerNo (ex_junction 3 (CV 1 2 3)))%nat) /\
  exists j', run_runner RunMulti 0 1 (ex_junction 3 (CV 1 2 3)) = (j', Ok tt).
Proof.
  split; [repeat constructor; cbn; intuition lia|]. split; [intros p; cbn; lia|].
  apply ex_junction_steps. lra.
Qed.

(** C58.  Each step computes its documented scheme: it succeeds exactly when the scheme's derivatives
    exist, and the new magnetisations are the scheme's. *)
Theorem c58_rk4_layer : forall l t dt b top l', rk4_step t dt b top l = (l', Ok tt) ->
  RK4_scheme (fun s m d => rhs l s m b top d) t dt (l_mag l) (l_mag l') /\
  exists c, l' = set_l_mag (l_mag l') (set_l_cache c l).
Proof. exact rk4_sound. Qed.
Print Assumptions c58_rk4_layer.
Theorem c58_rk4_layer_succeeds : forall l t dt b top m',
  RK4_scheme (fun s m d => rhs l s m b top d) t dt (l_mag l) m' ->
  exists c, rk4_step t dt b top l = (set_l_mag m' (set_l_cache c l), Ok tt).
Proof. exact rk4_complete. Qed.
Print Assumptions c58_rk4_layer_succeeds.
Theorem c58_rk4_dipole_layer : forall l t dt b top dip l', rk4_stepDipoleInjection t dt b top dip l = (l', Ok tt) ->
  RK4_scheme (fun s m d => rhs_inj l s m b top dip d) t dt (l_mag l) (l_mag l') /\
  exists c, l' = set_l_mag (l_mag l') (set_l_cache c l).
Proof. exact rk4_inj_sound. Qed.
Print Assumptions c58_rk4_dipole_layer.
Theorem c58_rk4_dipole_layer_succeeds : forall l t dt b top dip m',
  RK4_scheme (fun s m d => rhs_inj l s m b top dip d) t dt (l_mag l) m' ->
  exists c, rk4_stepDipoleInjection t dt b top dip l = (set_l_mag m' (set_l_cache c l), Ok tt).
Proof. exact rk4_inj_complete. Qed.
Print Assumptions c58_rk4_dipole_layer_succeeds.
Theorem c58_rk4_single : forall t dt j ms, j_layers j <> [] ->
  (outcome (runSingleLayerSolver t dt) j ms <->
   exists j', stepwise (RK4_single_rel t dt) j j' /\ mags (j_layers j') = ms).
Proof. exact rk4_single_outcome. Qed.
Print Assumptions c58_rk4_single.
Theorem c58_rk4_multi : forall t dt j ms,
  outcome (runMultiLayerSolver t dt) j ms <->
  exists j', stepwise (RK4_multi_rel (mags (j_layers j)) t dt) j j' /\ mags (j_layers j') = ms.
Proof. exact rk4_multi_outcome. Qed.
Print Assumptions c58_rk4_multi.
Theorem c58_euler_heun : forall t dt j ms,
  outcome (eulerHeunSolverStep t dt) j ms <->
  exists j', stepwise (EulerHeun_rel (mags (j_layers j)) t dt) j j' /\ mags (j_layers j') = ms.
Proof. exact eulerHeun_outcome. Qed.
Print Assumptions c58_euler_heun.
Theorem c58_heun : forall t dt j ms,
  outcome (heunSolverStep t dt) j ms <->
  exists j' ws ps, length ws = layerNo j /\ length ps = layerNo j /\
    stepwise (Heun_rel (mags (j_layers j)) ws ps t dt) j j' /\ mags (j_layers j') = ms.
Proof. exact heun_outcome. Qed.
Print Assumptions c58_heun.
(** The noise of a step: value and number of random numbers consumed. *)
Theorem c58_noise : forall t dt l l' w, drawNoise t dt l = (l', Ok w) <-> noise_spec l t w /\ l' = advance_noise l.
Proof. exact noise_iff. Qed.
Print Assumptions c58_noise.
(** Whole-state soundness of the four steps. *)
Theorem c58_rk4_multi_state : forall t dt j j', runMultiLayerSolver t dt j = (j', Ok tt) ->
  stepwise (RK4_multi_rel (mags (j_layers j)) t dt) j j'.
Proof. exact multi_sound. Qed.
Print Assumptions c58_rk4_multi_state.
Theorem c58_rk4_single_state : forall t dt j j', runSingleLayerSolver t dt j = (j', Ok tt) ->
  stepwise (RK4_single_rel t dt) j j'.
Proof. exact single_sound. Qed.
Print Assumptions c58_rk4_single_state.
Theorem c58_euler_heun_state : forall t dt j j', eulerHeunSolverStep t dt j = (j', Ok tt) ->
  stepwise (EulerHeun_rel (mags (j_layers j)) t dt) j j'.
Proof. exact eh_sound. Qed.
Print Assumptions c58_euler_heun_state.
Theorem c58_heun_state : forall t dt j j', heunSolverStep t dt j = (j', Ok tt) ->
  exists ws ps, length ws = length (j_layers j) /\ length ps = length (j_layers j) /\
    stepwise (Heun_rel (mags (j_layers j)) ws ps t dt) j j'.
Proof. exact heun_sound. Qed.
Print Assumptions c58_heun_state.
Example c58_example : forall r dt, 0 <= dt -> exists j', run_runner r 0 dt ex_hot_junction = (j', Ok tt).
Proof.
  intros r dt Hd. apply step_total; [discriminate|exact Hd|]. intros l [<-|[]].
  split; [apply ex_hot_runnable|apply runnable_noise, ex_hot_runnable].
Qed.

(** C19.  A quiet junction whose layers are all along their effective fields does not move. *)
Theorem c19_rest_step : forall r t dt j, at_rest j -> 0 <= dt -> (r = RunSingle -> layerNo j = 1%nat) ->
  exists j', run_runner r t dt j = (j', Ok tt) /\ mags (j_layers j') = mags (j_layers j).
Proof. exact rest_step. Qed.
Print Assumptions c19_rest_step.
Theorem c19_rest_persists : forall r t dt j j', at_rest j -> run_runner r t dt j = (j', Ok tt) ->
  mags (j_layers j') = mags (j_layers j) -> at_rest j'.
Proof. exact step_keeps_rest. Qed.
Print Assumptions c19_rest_persists.
Example c19_example : at_rest (ex_rest 3 7).
Proof. exact (ex_rest_at_rest 3 7). Qed.
