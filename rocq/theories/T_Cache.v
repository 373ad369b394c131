(** Property C60: what the energy columns contain. *)
From Verif Require Import P_Cache.
Open Scope R_scope.
Open Scope st_scope.

(** C60, one evaluation of the right-hand side. *)
Theorem c60_llg_remembers : forall l t m b top dt l' d, calculateLLGWithFieldTorque t m b top dt l = (l', Ok d) ->
  remembers l t m b top (Some (dipole_total l b top)) (l_cache l) (l_cache l').
Proof. exact llg_remembers. Qed.
Theorem c60_llg_injected_remembers : forall l t m b top dip dt fl l' d,
  calculateLLGWithFieldTorqueDipoleInjection t m b top dip dt fl l = (l', Ok d) ->
  remembers l t m b top None (l_cache l) (l_cache l').
Proof. exact llg_inj_remembers. Qed.
Theorem c60_rk4_injected_remembers : forall l t dt b top dip l', rk4_stepDipoleInjection t dt b top dip l = (l', Ok tt) ->
  exists f1 f2 f3, rhs_inj l t (l_mag l) b top dip f1 /\ rhs_inj l (t + dt / 2) (Plus (l_mag l) (Scal (dt / 2) f1)) b top dip f2 /\
    rhs_inj l (t + dt / 2) (Plus (l_mag l) (Scal (dt / 2) f2)) b top dip f3 /\
    remembers l (t + dt) (Plus (l_mag l) (Scal dt f3)) b top None (l_cache l) (l_cache l').
Proof. exact rk4_inj_remembers. Qed.
(** C60, one step of a junction with any solver. *)
Theorem c60_step_remembers : forall r t dt j j', run_runner r t dt j = (j', Ok tt) ->
  exists ps, forall p l l', stepped r p -> nth_error (j_layers j) p = Some l -> nth_error (j_layers j') p = Some l' ->
    exists q b top, evaluation_point r (mags (j_layers j)) ps t dt p l q b top /\
      remembers l (last_evaluation r t dt) q b top (Some (dipole_total l b top)) (l_cache l) (l_cache l').
Proof. exact step_remembers. Qed.
(** C60, whole runs. *)
Theorem c60_run_remembers : forall T dt wf mode j j' p l, named j -> runSimulation T dt wf true mode j = (j', Ok tt) ->
  nth_error (j_layers j) p = Some l ->
  exists N w j0 r used cs, step_counts T dt wf N w /\ selects mode N j j0 r used /\ length cs = rows_needed N w /\
    logged_columns (l_id l) (l_includeSOT l) (j_log j) (j_log j') cs /\
    forall k c, nth_error cs k = Some c ->
      c_Hfluctuation c = c_Hfluctuation (l_cache l) /\
      exists q b top c0, remembers l (last_evaluation r (INR (k * w) * dt) dt) q b top (Some (dipole_total l b top)) c0 c.
Proof. exact run_remembers. Qed.
Theorem c60_driver_columns : forall T dt wf mode j j' p l, named j -> runSimulation T dt wf true mode j = (j', Ok tt) ->
  nth_error (j_layers j) p = Some l ->
  exists N w j0 r used Ks Hs, step_counts T dt wf N w /\ selects mode N j j0 r used /\
    length Ks = rows_needed N w /\ length Hs = rows_needed N w /\
    col (colname (l_id l) "K") (j_log j') = (col (colname (l_id l) "K") (j_log j) ++ Ks)%list /\
    col (colname (l_id l) "Hextx") (j_log j') = (col (colname (l_id l) "Hextx") (j_log j) ++ map cx Hs)%list /\
    (forall k K, nth_error Ks k = Some K -> getCurrentScalarValue (l_anisotropy l) (last_evaluation r (INR (k * w) * dt) dt) = Ok K) /\
    (forall k H, nth_error Hs k = Some H -> getCurrentAxialDrivers (l_external l) (last_evaluation r (INR (k * w) * dt) dt) = Ok H).
Proof. exact run_driver_columns. Qed.
Example c60_run_example : forall mode, named ex_hot_junction /\ (exists j', runSimulation 10 1 2 true mode ex_hot_junction = (j', Ok tt)) /\
  nth_error (j_layers ex_hot_junction) 0 = Some (ex_hot "free").
Proof. intros. split; [exact ex_hot_named|]. split; [apply ex_hot_runs|reflexivity]. Qed.
Example c60_step_example : forall r, exists j', run_runner r 0 1 (ex_junction 3 (CV 1 2 3)) = (j', Ok tt).
Proof. intros r. apply ex_junction_steps. lra. Qed.
(** The row labelled t does not hold the driver value at t: with Runge-Kutta it is one step late. *)
Theorem c60_simultaneous_refuted : exists j j', Junction_plain [ex_switch] = Ok j /\ runSimulation 1 1 1 true RK4 j = (j', Ok tt) /\
  col "time" (j_log j') = [0] /\ getCurrentScalarValue (l_anisotropy ex_switch) 0 = Ok 0 /\ col "free_K" (j_log j') = [5].
Proof. exact logged_late. Qed.
(** The thermal field columns stay at their initial value zero even at 300 K. *)
Theorem c60_thermal_columns_zero : forall T dt wf mode j j' p l, named j -> runSimulation T dt wf true mode j = (j', Ok tt) ->
  nth_error (j_layers j) p = Some l -> c_Hfluctuation (l_cache l) = Zero ->
  exists n, j_logLength j' = (j_logLength j + n)%nat /\
    forall tag, In tag ["Hthx"; "Hthy"; "Hthz"]%string ->
    col (colname (l_id l) tag) (j_log j') = (col (colname (l_id l) tag) (j_log j) ++ repeat 0 n)%list.
Proof. exact run_thermal_zero. Qed.
Example c60_thermal_example : forall mode, l_temperatureSet (ex_hot "free") = true /\ c_Hfluctuation (l_cache (ex_hot "free")) = Zero /\
  exists j', runSimulation 10 1 2 true mode ex_hot_junction = (j', Ok tt).
Proof. intros. split; [reflexivity|]. split; [reflexivity|apply ex_hot_runs]. Qed.
Print Assumptions c60_llg_remembers.
Print Assumptions c60_llg_injected_remembers.
Print Assumptions c60_rk4_injected_remembers.
Print Assumptions c60_step_remembers.
Print Assumptions c60_run_remembers.
Print Assumptions c60_driver_columns.
Print Assumptions c60_simultaneous_refuted.
Print Assumptions c60_thermal_columns_zero.
