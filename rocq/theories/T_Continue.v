(** Property C104: a simulation can be carried on by a second call when no driver changes with time. *)
From Verif Require Import P_ReachEx P_ContinueEx.
Open Scope R_scope.
Open Scope st_scope.

(** Three coupled layers with constant drivers meet the hypotheses: the run of two steps succeeds and can be split. *)
Example c104_example : (forall l, In l (j_layers (ex_chain X1 Y1 Z1)) -> resumable l) /\ named (ex_chain X1 Y1 Z1) /\ j_mode (ex_chain X1 Y1 Z1) <> MR_STRIP /\
  step_counts 1 1 1 1 1 /\ step_counts 2 1 1 (1 + 1) 1 /\ 1%nat = (1 * 1)%nat /\
  exists j1 j2 j3, runSimulation 1 1 1 true RK4 (ex_chain X1 Y1 Z1) = (j1, Ok tt) /\ runSimulation 1 1 1 true RK4 j1 = (j2, Ok tt) /\
    runSimulation 2 1 1 true RK4 (ex_chain X1 Y1 Z1) = (j3, Ok tt).
Proof.
  assert (HR : forall l, In l (j_layers (ex_chain X1 Y1 Z1)) -> resumable l).
  { intros l [<-|[<-|[<-|[]]]]; repeat split. }
  split; [exact HR|]. split. { split; [intros X; discriminate|]. split; [intros X; discriminate|]. cbn. repeat constructor; cbn; intuition discriminate. }
  split; [discriminate|]. split; [exact counts_1_1|]. split; [exact counts_2|]. split; [reflexivity|].
  destruct (chain_runs 2 1 1 true RK4 X1 Y1 Z1 2 1) as [j3 E3]; try first [lra | exact counts_2 | lia].
  destruct (run_splits 1 1 2 1 1 true RK4 1 1 1 1 _ j3 HR ltac:(discriminate) counts_1_1 counts_1_1 counts_2 ltac:(lia) eq_refl E3) as (j1 & j2 & E1 & E2).
  exists j1, j2, j3. auto.
Qed.
(** A thermal layer is covered too: its random numbers carry on. *)
Example c104_thermal_example : resumable (ex_cold "a") /\ noisy (ex_cold "a").
Proof. split; [repeat split|left; reflexivity]. Qed.

(** A step does not depend on the time it is made at. *)
Theorem c104_time r t t' dt j : (forall l, In l (j_layers j) -> unchanging l) -> run_runner r t dt j = run_runner r t' dt j.
Proof. exact (step_timeless r t t' dt j). Qed.

(** Two calls leave the layers (magnetisations and random numbers) as one call over all the steps does. *)
Theorem c104_continue T1 T2 T dt wf e mode N1 N2 w j j1 j2 j3 : (forall l, In l (j_layers j) -> resumable l) ->
  step_counts T1 dt wf N1 w -> step_counts T2 dt wf N2 w -> step_counts T dt wf (N1 + N2) w ->
  runSimulation T1 dt wf e mode j = (j1, Ok tt) -> runSimulation T2 dt wf e mode j1 = (j2, Ok tt) -> runSimulation T dt wf e mode j = (j3, Ok tt) ->
  j_layers j2 = j_layers j3.
Proof. exact (two_layers T1 T2 T dt wf e mode N1 N2 w j j1 j2 j3). Qed.

(** When the first call ends on a logged step, the layer columns are those of one call; the time column starts again at zero. *)
Theorem c104_log T1 T2 T dt wf e mode N1 N2 w j j1 j2 j3 q : (forall l, In l (j_layers j) -> resumable l) -> named j ->
  step_counts T1 dt wf N1 w -> step_counts T2 dt wf N2 w -> step_counts T dt wf (N1 + N2) w -> (w > 0)%nat -> N1 = (q * w)%nat ->
  runSimulation T1 dt wf e mode j = (j1, Ok tt) -> runSimulation T2 dt wf e mode j1 = (j2, Ok tt) -> runSimulation T dt wf e mode j = (j3, Ok tt) ->
  col "time" (j_log j2) = (col "time" (j_log j) ++ map (fun k => INR (k * w) * dt) (seq 0 (rows_needed N1 w)) ++ map (fun k => INR (k * w) * dt) (seq 0 (rows_needed N2 w)))%list /\
  j_logLength j2 = j_logLength j3 /\
  forall p l, nth_error (j_layers j) p = Some l -> forall tag, In tag ("I"%string :: energy_tags true) -> col (colname (l_id l) tag) (j_log j2) = col (colname (l_id l) tag) (j_log j3).
Proof.
  intros HR HN C1 C2 C3 Hw Hq E1 E2 E3. destruct (two_log T1 T2 T dt wf e mode N1 N2 w j j1 j2 j3 HR C1 C2 C3 E1 E2 E3 q HN Hw Hq) as (A & B & C).
  split; [exact A|]. split; [exact B|]. intros p l Hl tag HT. exact (C p l Hl tag (real_tags tag HT)).
Qed.

(** If the long run succeeds then so do the two short ones. *)
Theorem c104_splits T1 T2 T dt wf e mode N1 N2 w q j j3 : (forall l, In l (j_layers j) -> resumable l) -> (j_mode j = MR_STRIP -> strip_sized j) ->
  step_counts T1 dt wf N1 w -> step_counts T2 dt wf N2 w -> step_counts T dt wf (N1 + N2) w -> (w > 0)%nat -> N1 = (q * w)%nat ->
  runSimulation T dt wf e mode j = (j3, Ok tt) ->
  exists j1 j2, runSimulation T1 dt wf e mode j = (j1, Ok tt) /\ runSimulation T2 dt wf e mode j1 = (j2, Ok tt).
Proof. exact (run_splits T1 T2 T dt wf e mode N1 N2 w q j j3). Qed.

(** With a driver that changes with time this fails: every call starts at time zero again, so that a field
    switched on at time 1 never acts in two calls of length 1. *)
Theorem c104_refuted : getStepDriver 0 (/ gamma0) 1 10 = Ok ex_switch /\ ~ constant_scalar ex_switch /\
  exists j1 j2 j3, runSimulation 1 1 1 false EULER_HEUN (alone ex_late) = (j1, Ok tt) /\ runSimulation 1 1 1 false EULER_HEUN j1 = (j2, Ok tt) /\
    runSimulation 2 1 1 false EULER_HEUN (alone ex_late) = (j3, Ok tt) /\ j_layers j2 <> j_layers j3.
Proof. exact late_refuted. Qed.

Print Assumptions c104_time.
Print Assumptions c104_continue.
Print Assumptions c104_log.
Print Assumptions c104_splits.
Print Assumptions c104_refuted.
