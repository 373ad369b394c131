(** Property C94: undamped precession in a constant field, step by step and in closed form. *)
From Verif Require Import P_PrecessRun P_Alone.
From Verif Require Export S_Precess.
Open Scope R_scope.

(** C94.  A layer without damping, current and noise in a constant field [h n].  After [k] steps of any of the
    solvers its transverse part is the starting one times the [k]-th power of the solver's complex gain. *)
Theorem c94_trajectory : forall r dt s N p l h n, Unit n -> 0 <= dt -> Unit (l_mag l) -> gyroscope l h n ->
  (r = RunSingle -> length (j_layers (s 0%nat)) = 1%nat) -> trajectory r dt s N -> nth_error (j_layers (s 0%nat)) p = Some l ->
  forall k lk, (k <= N)%nat -> nth_error (j_layers (s k)) p = Some lk ->
  let z := gamma0 * h * dt in let w := cpow (fst (gain r z)) (snd (gain r z)) k in
  Normalised (spiral n (fst w) (snd w) (l_mag l)) (l_mag lk).
Proof. exact gyro_trajectory. Qed.
(** Its component along the field. *)
Theorem c94_angle : forall r dt s N p l h n, Unit n -> 0 <= dt -> Unit (l_mag l) -> gyroscope l h n ->
  (r = RunSingle -> length (j_layers (s 0%nat)) = 1%nat) -> trajectory r dt s N -> nth_error (j_layers (s 0%nat)) p = Some l ->
  forall k lk, (k <= N)%nat -> nth_error (j_layers (s k)) p = Some lk ->
  Unit (l_mag lk) /\ Dot n (l_mag lk) = squash (Dot n (l_mag l)) (gain2 r (gamma0 * h * dt)) k.
Proof. exact gyro_along. Qed.
(** The equations only turn it: this is their solution, and the component along the field is conserved. *)
Theorem c94_solution : forall ls T h n u, Unit n -> (forall p l, nth_error ls p = Some l -> gyroscope l h n) ->
  (forall p t, u p t = turn n (gamma0 * h * t) (u p 0)) ->
  solves ls T u (fun p t => Scal (gamma0 * h) (Cross n (u p t))).
Proof. exact turn_solves. Qed.
Theorem c94_solution_angle : forall n theta m, Unit n -> Dot n (turn n theta m) = Dot n m.
Proof. exact (fun n theta m U => spiral_along n (cos theta) (sin theta) m U). Qed.
(** The Runge-Kutta solvers close the angle, for every step below sqrt 8 / (gamma0 h) ... *)
Theorem c94_gain_below : forall r z, r = RunSingle \/ r = RunMulti -> (gain2 r z < 1 <-> z <> 0 /\ z ^ 2 < 8).
Proof. exact rk4_gain_below. Qed.
Theorem c94_aligns : forall r dt s N p l h n, Unit n -> 0 <= dt -> Unit (l_mag l) -> gyroscope l h n ->
  (r = RunSingle -> length (j_layers (s 0%nat)) = 1%nat) -> trajectory r dt s N -> nth_error (j_layers (s 0%nat)) p = Some l ->
  -1 < Dot n (l_mag l) < 1 -> Dot n (l_mag l) <> 0 ->
  forall k lk lk', (k < N)%nat -> nth_error (j_layers (s k)) p = Some lk -> nth_error (j_layers (s (S k))) p = Some lk' ->
  gain2 r (gamma0 * h * dt) < 1 ->
  Rabs (Dot n (l_mag lk)) < Rabs (Dot n (l_mag lk')) < 1 /\ 0 < Dot n (l_mag lk) * Dot n (l_mag lk').
Proof. exact gyro_aligns. Qed.
Theorem c94_aligned_limit : forall r z q eps, r = RunSingle \/ r = RunMulti -> z <> 0 -> z ^ 2 < 8 -> 0 < q <= 1 -> 0 < eps ->
  exists K, forall dt s N p l lN h n, (K <= N)%nat -> Unit n -> 0 <= dt -> Unit (l_mag l) -> gyroscope l h n ->
  gamma0 * h * dt = z -> Dot n (l_mag l) = q -> (r = RunSingle -> length (j_layers (s 0%nat)) = 1%nat) -> trajectory r dt s N ->
  nth_error (j_layers (s 0%nat)) p = Some l -> nth_error (j_layers (s N)) p = Some lN -> 1 - eps < Dot n (l_mag lN) <= 1.
Proof. exact aligned_limit. Qed.
(** ... the Heun and Euler-Heun solvers open it at any step. *)
Theorem c94_gain_above : forall r z, r = RunHeun \/ r = RunEulerHeun -> z <> 0 -> 1 < gain2 r z.
Proof. exact other_gain_above. Qed.
Theorem c94_leaves : forall r dt s N p l h n, Unit n -> 0 <= dt -> Unit (l_mag l) -> gyroscope l h n ->
  (r = RunSingle -> length (j_layers (s 0%nat)) = 1%nat) -> trajectory r dt s N -> nth_error (j_layers (s 0%nat)) p = Some l ->
  -1 < Dot n (l_mag l) < 1 -> Dot n (l_mag l) <> 0 ->
  forall k lk lk', (k < N)%nat -> nth_error (j_layers (s k)) p = Some lk -> nth_error (j_layers (s (S k))) p = Some lk' ->
  1 < gain2 r (gamma0 * h * dt) -> Rabs (Dot n (l_mag lk')) < Rabs (Dot n (l_mag lk)).
Proof. exact gyro_leaves. Qed.
(** The Runge-Kutta solvers follow the rotation to fourth order: the error after [k] steps of the angle [z]
    is at most [2 k (z^5 / 120 + z^6 / 720)]. *)
Theorem c94_fourth_order : forall r dt s N p l h n, r = RunSingle \/ r = RunMulti -> Unit n -> 0 <= dt -> Unit (l_mag l) -> gyroscope l h n ->
  (r = RunSingle -> length (j_layers (s 0%nat)) = 1%nat) -> trajectory r dt s N -> nth_error (j_layers (s 0%nat)) p = Some l ->
  let z := gamma0 * h * dt in 0 <= z <= 3 / 2 ->
  forall k lk, (k <= N)%nat -> nth_error (j_layers (s k)) p = Some lk ->
  Distance (l_mag lk) (turn n (gamma0 * h * (INR k * dt)) (l_mag l)) <= 2 * INR k * (z ^ 5 / 120 + z ^ 6 / 720).
Proof. exact gyro_fourth. Qed.
(** All of it for runSimulation on a junction without noise, whatever the other layers do. *)
Theorem c94_run : forall T dt wf e mode j j' p l l' h n, 0 < dt -> (forall x, In x (j_layers j) -> quiet x) ->
  runSimulation T dt wf e mode j = (j', Ok tt) -> nth_error (j_layers j) p = Some l -> nth_error (j_layers j') p = Some l' ->
  Unit n -> Unit (l_mag l) -> gyroscope l h n ->
  let r := runner_table (layerNo j) mode in let z := gamma0 * h * dt in
  exists N, IntegerPart (T / dt) N /\
  Normalised (spiral n (fst (cpow (fst (gain r z)) (snd (gain r z)) N)) (snd (cpow (fst (gain r z)) (snd (gain r z)) N)) (l_mag l)) (l_mag l') /\
  Unit (l_mag l') /\ Dot n (l_mag l') = squash (Dot n (l_mag l)) (gain2 r z) N /\
  (mode = RK4 -> 0 <= z <= 3 / 2 -> Distance (l_mag l') (turn n (gamma0 * h * (INR N * dt)) (l_mag l)) <= 2 * INR N * (z ^ 5 / 120 + z ^ 6 / 720)).
Proof. exact gyro_run. Qed.
(** The obvious layers this is about. *)
Theorem c94_bare : forall l H h n, bare l H -> H = Scal h n -> gyroscope l h n.
Proof. exact bare_gyroscope. Qed.

(** Two tilted layers in the field 1/gamma0: a step of [1/n] turns them by [z = 1/n]. *)
Example c94_example :
  Unit (CV 0 0 1) /\ Unit (CV (3 / 5) 0 (4 / 5)) /\ (forall l, In l (j_layers ex_top) -> l_mag l = CV (3 / 5) 0 (4 / 5) /\ quiet l /\
    bare l (CV 0 0 (/ gamma0)) /\ gyroscope l (/ gamma0) (CV 0 0 1) /\ Dot (CV 0 0 1) (l_mag l) = 4 / 5) /\
  (forall e mode n, (0 < n < 4294967296)%Z -> exists j', runSimulation 1 (/ IZR n) (/ IZR n) e mode ex_top = (j', Ok tt)) /\
  gamma0 * / gamma0 * (1 / 2) = 1 / 2.
Proof.
  split; [unfold Unit, Norm2, Dot; cbn; ring|]. split; [unfold Unit, Norm2, Dot; cbn; field|]. split; [|split; [exact top_runs|unfold gamma0; field]].
  intros l Hl. assert (X : exists id, l = ex_tilt id) by (destruct Hl as [<-|[<-|[]]]; eauto). destruct X as [id ->].
  split; [reflexivity|]. split; [split; reflexivity|]. split; [apply tilt_bare|]. split; [apply tilt_gyro|]. unfold Dot. cbn. ring.
Qed.
Example c94_values : gain RunMulti 1 = (13 / 24, 5 / 6) /\ gain2 RunMulti 1 = 569 / 576 /\ gain RunHeun 1 = (1 / 2, 1) /\ gain2 RunHeun 1 = 5 / 4 /\ gain2 RunEulerHeun 1 = 2.
Proof. unfold gain, gain2. repeat split; try field. f_equal; field. f_equal; field. Qed.
Print Assumptions c94_trajectory.
Print Assumptions c94_angle.
Print Assumptions c94_solution.
Print Assumptions c94_solution_angle.
Print Assumptions c94_gain_below.
Print Assumptions c94_aligns.
Print Assumptions c94_aligned_limit.
Print Assumptions c94_gain_above.
Print Assumptions c94_leaves.
Print Assumptions c94_fourth_order.
Print Assumptions c94_run.
Print Assumptions c94_bare.
