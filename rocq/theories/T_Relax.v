(** Property C97: relaxation of a damped layer into a constant field. *)
From Verif Require Import P_RelaxRun P_RelaxStep.
From Verif Require Export S_Relax.
Open Scope R_scope.

(** C97.  What the equations say: from any state but the exactly opposite one the magnetisation turns into the
    field, the cosine of the angle being a hyperbolic tangent of damping times angle turned. *)
Theorem c97_solution : forall ls T u du p l alpha h n t, solves ls T u du -> (forall i x, nth_error ls i = Some x -> Unit (u i 0)) ->
  nth_error ls p = Some l -> Unit n -> damped_in l alpha h n -> 0 <= t <= T ->
  Dot n (u p t) = relaxed (Dot n (u p 0)) (alpha * turn_rate alpha h * t).
Proof. exact relax_solution. Qed.
Theorem c97_solution_limit : forall q x, -1 < q <= 1 -> 0 <= 1 - relaxed q x <= 2 * (1 - q) / (1 + q) * exp (- (2 * x)).
Proof. exact relaxed_limit. Qed.
Theorem c97_solution_opposite : forall x, relaxed (-1) x = -1.
Proof. exact relaxed_south. Qed.

(** What one step of the default solver does, exactly, and to the cosine. *)
Theorem c97_step : forall r t dt j j' p l l' alpha h n, r = RunSingle \/ r = RunMulti -> Unit n -> Unit (l_mag l) -> damped_in l alpha h n ->
  (r = RunSingle -> length (j_layers j) = 1%nat) ->
  run_runner r t dt j = (j', Ok tt) -> nth_error (j_layers j) p = Some l -> nth_error (j_layers j') p = Some l' ->
  let q := Dot n (l_mag l) in let c := classical alpha (1 - q * q) (turn_rate alpha h * dt) (CV 1 0 q) in
  Normalised (tilted n (l_mag l) (cx c) (cy c) (cz c)) (l_mag l').
Proof. exact damped_step. Qed.
Theorem c97_cosine : forall r t dt j j' p l l' alpha h n, r = RunSingle \/ r = RunMulti -> Unit n -> Unit (l_mag l) -> damped_in l alpha h n ->
  (r = RunSingle -> length (j_layers j) = 1%nat) ->
  run_runner r t dt j = (j', Ok tt) -> nth_error (j_layers j) p = Some l -> nth_error (j_layers j') p = Some l' ->
  Dot n (l_mag l') = next_along alpha (turn_rate alpha h * dt) (Dot n (l_mag l)).
Proof. exact damped_recurrence. Qed.
(** The coordinates used there. *)
Theorem c97_coordinates : forall n m a b c, Unit n -> Unit m ->
  Dot n (tilted n m a b c) = c /\ Norm2 (tilted n m a b c) = (1 - Dot n m * Dot n m) * (a * a + b * b) + c * c /\ tilted n m 1 0 (Dot n m) = m.
Proof. exact (fun n m a b c U V => conj (tilted_along n m a b c U) (conj (tilted_norm n m a b c U V) (tilted_start n m))). Qed.

(** Steps of at most 1/32 rad, damping up to 1.  A layer in the half sphere of the field, or any layer whose
    damping is at least the fifth power of the step, turns into the field at every step ... *)
Theorem c97_approaches : forall r dt s N p l alpha h n, r = RunSingle \/ r = RunMulti -> Unit n -> Unit (l_mag l) -> damped_in l alpha h n ->
  (r = RunSingle -> length (j_layers (s 0%nat)) = 1%nat) -> trajectory r dt s N -> nth_error (j_layers (s 0%nat)) p = Some l ->
  let a := turn_rate alpha h * dt in 0 < alpha <= 1 -> 0 < a <= 1 / 32 ->
  forall k lk lk', (k < N)%nat -> nth_error (j_layers (s k)) p = Some lk -> nth_error (j_layers (s (S k))) p = Some lk' ->
  let q := Dot n (l_mag lk) in 0 <= q \/ a ^ 5 <= alpha -> q + a * alpha / 2 * (1 - q * q) <= Dot n (l_mag lk').
Proof. exact relax_rises. Qed.
(** ... so the distance to the field falls geometrically, at a rate between a half and three halves of the
    one of the equations ... *)
Theorem c97_rate : forall r dt s N p l alpha h n, r = RunSingle \/ r = RunMulti -> Unit n -> Unit (l_mag l) -> damped_in l alpha h n ->
  (r = RunSingle -> length (j_layers (s 0%nat)) = 1%nat) -> trajectory r dt s N -> nth_error (j_layers (s 0%nat)) p = Some l ->
  let a := turn_rate alpha h * dt in 0 < alpha <= 1 -> 0 < a <= 1 / 32 ->
  forall k lk, (k <= N)%nat -> nth_error (j_layers (s k)) p = Some lk ->
  let q := Dot n (l_mag l) in 0 <= q \/ a ^ 5 <= alpha ->
  q <= Dot n (l_mag lk) <= 1 /\ 1 - Dot n (l_mag lk) <= (1 - q) * (1 - a * alpha / 2 * (1 + q)) ^ k.
Proof. exact relax_rate. Qed.
Theorem c97_not_faster : forall r dt s N p l alpha h n, r = RunSingle \/ r = RunMulti -> Unit n -> Unit (l_mag l) -> damped_in l alpha h n ->
  (r = RunSingle -> length (j_layers (s 0%nat)) = 1%nat) -> trajectory r dt s N -> nth_error (j_layers (s 0%nat)) p = Some l ->
  let a := turn_rate alpha h * dt in 0 < alpha <= 1 -> 0 < a <= 1 / 32 ->
  forall k lk, (k <= N)%nat -> nth_error (j_layers (s k)) p = Some lk -> a ^ 5 <= alpha ->
  (1 - Dot n (l_mag l)) * (1 - 3 * (a * alpha)) ^ k <= 1 - Dot n (l_mag lk).
Proof. exact relax_not_faster. Qed.
(** ... and it ends along the field, after a number of steps that depends on damping, step and start only. *)
Theorem c97_limit : forall r alpha a q eps, r = RunSingle \/ r = RunMulti -> 0 < alpha <= 1 -> 0 < a <= 1 / 32 -> -1 < q <= 1 -> 0 <= q \/ a ^ 5 <= alpha -> 0 < eps ->
  exists K, forall dt s N p l lN h n, (K <= N)%nat -> Unit n -> Unit (l_mag l) -> damped_in l alpha h n -> turn_rate alpha h * dt = a -> Dot n (l_mag l) = q ->
  (r = RunSingle -> length (j_layers (s 0%nat)) = 1%nat) -> trajectory r dt s N -> nth_error (j_layers (s 0%nat)) p = Some l ->
  nth_error (j_layers (s N)) p = Some lN -> 1 - eps < Dot n (l_mag lN) <= 1.
Proof. exact relax_limit. Qed.
(** The bound on the damping cannot be dropped: below 1/500 of the fifth power of the step a layer that starts
    at more than 120 degrees turns against the field and ends opposite to it. *)
Theorem c97_small_damping_refuted : forall r alpha a q eps, r = RunSingle \/ r = RunMulti -> 0 < alpha <= 1 -> 0 < a <= 1 / 32 -> -1 <= q <= - (1 / 2) -> alpha <= a ^ 5 / 500 -> 0 < eps ->
  exists K, forall dt s N p l lN h n, (K <= N)%nat -> Unit n -> Unit (l_mag l) -> damped_in l alpha h n -> turn_rate alpha h * dt = a -> Dot n (l_mag l) = q ->
  (r = RunSingle -> length (j_layers (s 0%nat)) = 1%nat) -> trajectory r dt s N -> nth_error (j_layers (s 0%nat)) p = Some l ->
  nth_error (j_layers (s N)) p = Some lN -> -1 <= Dot n (l_mag lN) < -1 + eps.
Proof. exact relax_wrong. Qed.
(** The same at an ordinary damping and a long step. *)
Theorem c97_large_step_refuted : next_along (1 / 1000) 1 (- (4 / 5)) < - (4 / 5).
Proof. exact large_step. Qed.
(** The whole for runSimulation with the default solver, whatever the other layers do. *)
Theorem c97_run : forall T dt wf e j j' p l l' alpha h n, (forall x, In x (j_layers j) -> quiet x) ->
  runSimulation T dt wf e RK4 j = (j', Ok tt) -> nth_error (j_layers j) p = Some l -> nth_error (j_layers j') p = Some l' ->
  Unit n -> Unit (l_mag l) -> damped_in l alpha h n -> 0 < alpha <= 1 ->
  let a := turn_rate alpha h * dt in let q := Dot n (l_mag l) in 0 < a <= 1 / 32 ->
  exists N, IntegerPart (T / dt) N /\ Unit (l_mag l') /\
    (0 <= q \/ a ^ 5 <= alpha -> q <= Dot n (l_mag l') <= 1 /\ 1 - Dot n (l_mag l') <= (1 - q) * (1 - a * alpha / 2 * (1 + q)) ^ N) /\
    (a ^ 5 <= alpha -> (1 - q) * (1 - 3 * (a * alpha)) ^ N <= 1 - Dot n (l_mag l')).
Proof. exact relax_run. Qed.
(** The obvious layers this is about. *)
Theorem c97_free : forall l alpha H h n, free_in l alpha H -> H = Scal h n -> damped_in l alpha h n.
Proof. exact free_damped. Qed.

(** Two layers of damping 1/2 tilted by 127 degrees in the field 1/gamma0 and a simulation of 100 steps. *)
Example c97_example :
  let j := ex_slow_pair (1 / 2) (CV (4 / 5) 0 (- (3 / 5))) in
  Unit (CV 0 0 1) /\ (forall l, In l (j_layers j) -> quiet l /\ Unit (l_mag l) /\ damped_in l (1 / 2) (/ gamma0) (CV 0 0 1) /\ Dot (CV 0 0 1) (l_mag l) = - (3 / 5)) /\
  (exists j', runSimulation 1 (/ 100) (/ 100) false RK4 j = (j', Ok tt)) /\
  turn_rate (1 / 2) (/ gamma0) * / 100 = 1 / 125 /\ (1 / 125) ^ 5 <= 1 / 2.
Proof.
  cbv zeta. split; [unfold Unit, Norm2, Dot; cbn; ring|]. split; [|split; [apply slow_runs; lia|split; [rewrite slow_rate; field|lra]]].
  intros l Hl. assert (X : exists id, l = ex_slow (1 / 2) (CV (4 / 5) 0 (- (3 / 5))) id) by (destruct Hl as [<-|[<-|[]]]; eauto). destruct X as [id ->].
  split; [split; reflexivity|]. split; [unfold Unit, Norm2, Dot; cbn; field|]. split; [apply slow_damped|]. unfold Dot. cbn. field.
Qed.
(** The same layers with the damping 1/2^40 and steps of 1/32: the case that ends opposite to the field. *)
Example c97_small_example : let alpha := 1 / 1099511627776 in let a := turn_rate alpha (/ gamma0) * / 32 in
  0 < alpha <= 1 /\ 0 < a <= 1 / 32 /\ alpha <= a ^ 5 / 500 /\ -1 <= - (3 / 5) <= - (1 / 2) /\
  (exists j', runSimulation 1 (/ 32) (/ 32) false RK4 (ex_slow_pair alpha (CV (4 / 5) 0 (- (3 / 5)))) = (j', Ok tt)).
Proof.
  intros alpha a. assert (A : 0 < alpha <= / 1000000) by (unfold alpha; lra). assert (E : a = / (1 + alpha * alpha) * / 32) by (unfold a; rewrite slow_rate; reflexivity).
  assert (B : 1 / 2 <= / (1 + alpha * alpha) <= 1). { split; [apply Rmult_le_reg_r with (1 + alpha * alpha); [nra|]; rewrite Rinv_l by nra; nra|]. rewrite <- Rinv_1. apply Rinv_le_contravar; nra. }
  split; [lra|]. split; [lra|]. split; [|split; [lra|apply slow_runs; lia]].
  assert (X : (1 / 64) ^ 5 <= a ^ 5) by (apply pow_incr; lra). unfold alpha. lra.
Qed.
Print Assumptions c97_solution.
Print Assumptions c97_solution_limit.
Print Assumptions c97_solution_opposite.
Print Assumptions c97_step.
Print Assumptions c97_cosine.
Print Assumptions c97_coordinates.
Print Assumptions c97_approaches.
Print Assumptions c97_rate.
Print Assumptions c97_not_faster.
Print Assumptions c97_limit.
Print Assumptions c97_small_damping_refuted.
Print Assumptions c97_large_step_refuted.
Print Assumptions c97_run.
Print Assumptions c97_free.
