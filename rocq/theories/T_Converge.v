(** Property C93: a simulation without noise approximates the solution of the Landau-Lifshitz-Gilbert equations. *)
From Verif Require Import P_ConvergeRun.
From Verif Require Export S_Converge.
Open Scope R_scope.

(** C93.  A trajectory of any of the four solvers, started on the sphere and without noise, stays within
    [error_bound] of every solution of the coupled equations that starts at the same magnetisations. *)
Theorem c93_trajectory_error : forall T M L r dt s N u du, 0 <= L -> 0 <= M -> 0 < dt -> dt * M < 1 -> INR N * dt <= T ->
  (forall l, In l (j_layers (s 0%nat)) -> regular T M L l /\ quiet l /\ Unit (l_mag l)) ->
  (r = RunSingle -> length (j_layers (s 0%nat)) = 1%nat) ->
  trajectory r dt s N -> solves (j_layers (s 0%nat)) T u du -> starts (j_layers (s 0%nat)) u ->
  forall k p l, (k <= N)%nat -> nth_error (j_layers (s k)) p = Some l ->
    Unit (l_mag l) /\ Distance (l_mag l) (u p (INR k * dt)) <= error_bound M L (INR k * dt) dt.
Proof. exact trajectory_error. Qed.
(** The final magnetisations of a simulation, against the solution at the time actually reached and at the
    requested duration. *)
Theorem c93_final_error : forall T dt wf e mode j j' M L u du, 0 <= T -> 0 < dt -> 0 <= M -> 0 <= L -> dt * M < 1 ->
  (forall l, In l (j_layers j) -> regular T M L l /\ quiet l /\ Unit (l_mag l)) ->
  solves (j_layers j) T u du -> starts (j_layers j) u -> runSimulation T dt wf e mode j = (j', Ok tt) ->
  forall p l', nth_error (j_layers j') p = Some l' -> Unit (l_mag l') /\
    (exists N, IntegerPart (T / dt) N /\ Distance (l_mag l') (u p (INR N * dt)) <= error_bound M L (INR N * dt) dt) /\
    Distance (l_mag l') (u p T) <= error_bound M L T dt + M * dt.
Proof. exact run_final_error. Qed.
(** The log: row [k] carries the time [k w dt] but the magnetisation one step later; both comparisons. *)
Theorem c93_log_error : forall T dt wf e mode j j' M L u du, 0 <= T -> 0 < dt -> 0 <= M -> 0 <= L -> dt * M < 1 ->
  (forall l, In l (j_layers j) -> regular T M L l /\ quiet l /\ Unit (l_mag l)) ->
  solves (j_layers j) T u du -> starts (j_layers j) u -> runSimulation T dt wf e mode j = (j', Ok tt) -> named j ->
  exists N w, step_counts T dt wf N w /\ j_logLength j' = (j_logLength j + rows_needed N w)%nat /\
  col "time" (j_log j') = (col "time" (j_log j) ++ map (fun k => INR (k * w) * dt) (seq 0 (rows_needed N w)))%list /\
  forall p l, nth_error (j_layers j) p = Some l -> exists vs, length vs = rows_needed N w /\
    col (colname (l_id l) "mx") (j_log j') = (col (colname (l_id l) "mx") (j_log j) ++ map cx vs)%list /\
    col (colname (l_id l) "my") (j_log j') = (col (colname (l_id l) "my") (j_log j) ++ map cy vs)%list /\
    col (colname (l_id l) "mz") (j_log j') = (col (colname (l_id l) "mz") (j_log j) ++ map cz vs)%list /\
    forall k v, nth_error vs k = Some v ->
      Distance v (u p (INR (k * w) * dt + dt)) <= error_bound M L (INR (k * w) * dt + dt) dt /\
      Distance v (u p (INR (k * w) * dt)) <= error_bound M L T dt + M * dt.
Proof. exact run_log_error. Qed.
(** The limit of small steps: for layers whose drivers have no jumps every simulation with a step below some
    [delta], whatever solver it asks for, ends within [eps] of the solution and logs nothing further away. *)
Theorem c93_converges : forall T j u du, 0 <= T ->
  (forall l, In l (j_layers j) -> tame_layer T l /\ quiet l /\ Unit (l_mag l)) ->
  solves (j_layers j) T u du -> starts (j_layers j) u ->
  forall eps, 0 < eps -> exists delta, 0 < delta /\ forall dt wf e mode j', 0 < dt < delta -> runSimulation T dt wf e mode j = (j', Ok tt) ->
    (forall p l', nth_error (j_layers j') p = Some l' -> Distance (l_mag l') (u p T) < eps) /\
    (named j -> exists N w, step_counts T dt wf N w /\ j_logLength j' = (j_logLength j + rows_needed N w)%nat /\
       col "time" (j_log j') = (col "time" (j_log j) ++ map (fun k => INR (k * w) * dt) (seq 0 (rows_needed N w)))%list /\
       forall p l, nth_error (j_layers j) p = Some l -> exists vs, length vs = rows_needed N w /\
         col (colname (l_id l) "mx") (j_log j') = (col (colname (l_id l) "mx") (j_log j) ++ map cx vs)%list /\
         col (colname (l_id l) "my") (j_log j') = (col (colname (l_id l) "my") (j_log j) ++ map cy vs)%list /\
         col (colname (l_id l) "mz") (j_log j') = (col (colname (l_id l) "mz") (j_log j) ++ map cz vs)%list /\
         forall k v, nth_error vs k = Some v -> Distance v (u p (INR (k * w) * dt)) < eps).
Proof. exact run_limit. Qed.
(** The exact solution itself never leaves the sphere. *)
Theorem c93_solution_unit : forall ls T u du, solves ls T u du -> (forall p l, nth_error ls p = Some l -> Unit (u p 0)) ->
  forall p l t, nth_error ls p = Some l -> 0 <= t <= T -> Unit (u p t).
Proof. exact solution_unit. Qed.
(** Layers whose drivers have no jumps are regular, with common constants for a whole stack. *)
Theorem c93_tame_regular : forall T ls, (forall l, In l ls -> tame_layer T l) ->
  exists M L, 0 <= M /\ 0 <= L /\ forall l, In l ls -> regular T M L l.
Proof. exact tame_layers. Qed.
(** Constant, sine, positive-sine, half-sine, trapezoid and Gaussian drivers have no jumps ... *)
Theorem c93_smooth_drivers : forall T d,
  d_update d = M_Drivers.constant \/ d_update d = sine \/ d_update d = posine \/ d_update d = halfsine -> tame T d.
Proof. exact smooth_tame. Qed.
Theorem c93_trapezoid_driver : forall T c a ts edge steady d, 0 < edge -> 0 <= steady -> getTrapezoidDriver c a ts edge steady = Ok d -> tame T d.
Proof. exact trapezoid_tame. Qed.
Theorem c93_gaussian_driver : forall T c a t0 sigma d, sigma <> 0 -> getGaussianImpulseDriver c a t0 sigma = Ok d -> tame T d.
Proof. exact gauss_tame. Qed.
(** ... a step inside the simulated interval is one. *)
Theorem c93_step_driver : forall T c a ts te d, a <> 0 -> 0 < ts < T -> ts < te -> getStepDriver c a ts te = Ok d -> ~ tame T d.
Proof. exact step_not_tame. Qed.

(** Two layers precessing in a constant field: the solution is the circle (cos t, sin t, 0), and simulations
    with every solver and n steps, n up to 2^32, succeed. *)
Example c93_example :
  (forall l, In l (j_layers ex_duo) -> regular 1 2 2 l /\ quiet l /\ Unit (l_mag l)) /\
  (forall l, In l (j_layers ex_duo) -> tame_layer 1 l /\ quiet l /\ Unit (l_mag l)) /\
  solves (j_layers ex_duo) 1 (fun _ t => CV (cos t) (sin t) 0) (fun _ t => CV (- sin t) (cos t) 0) /\
  starts (j_layers ex_duo) (fun _ t => CV (cos t) (sin t) 0) /\ named ex_duo /\
  forall e mode n, (0 < n < 4294967296)%Z -> exists j', runSimulation 1 (/ IZR n) (/ IZR n) e mode ex_duo = (j', Ok tt).
Proof. exact (conj (duo_smooth 1) (conj (duo_fine 1) (conj (duo_solves 1) (conj duo_starts (conj duo_named duo_runs))))). Qed.
Example c93_driver_example : (exists d, getTrapezoidDriver 0 1 1 1 1 = Ok d) /\ (exists d, getGaussianImpulseDriver 0 1 1 1 = Ok d) /\ exists d, getStepDriver 0 1 1 3 = Ok d.
Proof.
  split; [|split]; [destruct (P_Drivers.trapezoid_driver 0 1 1 1 1 ltac:(lra) ltac:(lra)) as (d & H & _)|destruct (P_Drivers.gauss_driver 0 1 1 1 ltac:(lra)) as (d & H & _)|destruct (proj2 (P_Drivers.step_driver 0 1 1 3) ltac:(lra)) as (d & H & _)]; exists d; exact H.
Qed.
Print Assumptions c93_trajectory_error.
Print Assumptions c93_final_error.
Print Assumptions c93_log_error.
Print Assumptions c93_converges.
Print Assumptions c93_solution_unit.
Print Assumptions c93_tame_regular.
Print Assumptions c93_smooth_drivers.
Print Assumptions c93_trapezoid_driver.
Print Assumptions c93_gaussian_driver.
Print Assumptions c93_step_driver.
