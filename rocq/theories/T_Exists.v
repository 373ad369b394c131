(** Property C99: the equations of a stack have exactly one solution, and all simulations approach it. *)
From Verif Require Import P_Exists P_StackEnergyRun P_ConvergeRun P_Alone.
From Verif Require Export S_Exists.
From Coq Require Import Reals Lra.
Open Scope R_scope.

(** C99.  Stacks of any number of layers, with or without spin torques, whose drivers have no jumps. *)
Theorem c99_exists : forall ls T, 0 <= T -> (forall l, In l ls -> sound_layer T l) -> (forall l, In l ls -> Unit (l_mag l)) ->
  exists u du, solves ls T u du /\ starts ls u.
Proof. exact motion_exists. Qed.
Theorem c99_unique : forall ls T, 0 <= T -> (forall l, In l ls -> sound_layer T l) -> forall u du v dv,
  solves ls T u du -> solves ls T v dv -> (forall p l, nth_error ls p = Some l -> Unit (u p 0) /\ v p 0 = u p 0) ->
  forall p l t, nth_error ls p = Some l -> 0 <= t <= T -> v p t = u p t.
Proof. exact motion_unique. Qed.
(** Nothing but a vanishing moment stands in the way. *)
Theorem c99_exists_iff : forall ls T, 0 <= T -> (forall l, In l ls -> tame_layer T l /\ Unit (l_mag l)) ->
  ((exists u, motion ls T u) <-> forall l, In l ls -> l_Ms l <> 0 /\ l_thickness l <> 0).
Proof. exact motion_iff. Qed.
(** The hypothesis of C93 is met: simulations, whatever the solver, approach the motion as the step goes to zero,
    at the end and in every logged row ... *)
Theorem c99_converges : forall T j, 0 <= T -> (forall l, In l (j_layers j) -> sound_layer T l /\ quiet l /\ Unit (l_mag l)) ->
  exists u, motion (j_layers j) T u /\ (forall p l t, nth_error (j_layers j) p = Some l -> 0 <= t <= T -> Unit (u p t)) /\
  forall eps, 0 < eps -> exists delta, 0 < delta /\ forall dt wf e mode j', 0 < dt < delta -> runSimulation T dt wf e mode j = (j', Ok tt) ->
    length (j_layers j') = length (j_layers j) /\
    (forall p l', nth_error (j_layers j') p = Some l' -> Distance (l_mag l') (u p T) < eps) /\
    (named j -> exists N w, step_counts T dt wf N w /\
       col "time" (j_log j') = (col "time" (j_log j) ++ map (fun k => INR (k * w) * dt) (seq 0 (rows_needed N w)))%list /\
       forall p l, nth_error (j_layers j) p = Some l -> exists vs, length vs = rows_needed N w /\
         col (colname (l_id l) "mx") (j_log j') = (col (colname (l_id l) "mx") (j_log j) ++ map cx vs)%list /\
         col (colname (l_id l) "my") (j_log j') = (col (colname (l_id l) "my") (j_log j) ++ map cy vs)%list /\
         col (colname (l_id l) "mz") (j_log j') = (col (colname (l_id l) "mz") (j_log j) ++ map cz vs)%list /\
         forall k v, nth_error vs k = Some v -> Distance v (u p (INR (k * w) * dt)) < eps).
Proof. exact motion_limit. Qed.
(** ... so any two simulations of one stack agree, whatever their solvers, steps and write frequencies ... *)
Theorem c99_agree : forall T j, 0 <= T -> (forall l, In l (j_layers j) -> sound_layer T l /\ quiet l /\ Unit (l_mag l)) ->
  forall eps, 0 < eps -> exists delta, 0 < delta /\ forall dt1 wf1 e1 mode1 j1 dt2 wf2 e2 mode2 j2, 0 < dt1 < delta -> 0 < dt2 < delta ->
    runSimulation T dt1 wf1 e1 mode1 j = (j1, Ok tt) -> runSimulation T dt2 wf2 e2 mode2 j = (j2, Ok tt) ->
    forall p l1 l2, nth_error (j_layers j1) p = Some l1 -> nth_error (j_layers j2) p = Some l2 -> Distance (l_mag l1) (l_mag l2) < eps.
Proof. exact runs_agree. Qed.
(** ... and energy is conserved or lost in the simulations of every conservative stack (C98 without its hypothesis). *)
Theorem c99_energy : forall ls T j, 0 <= T -> conservative ls -> j_layers j = layers ls -> (forall l, In l (j_layers j) -> quiet l /\ Unit (l_mag l)) ->
  forall eps, 0 < eps -> exists delta, 0 < delta /\ forall dt wf e mode j', 0 < dt < delta -> runSimulation T dt wf e mode j = (j', Ok tt) ->
    ((forall l i, In (l, i) ls -> 0 <= moment l /\ 0 <= l_damping l) -> stack_energy ls (mags (j_layers j')) < stack_energy ls (mags (j_layers j)) + eps) /\
    ((forall l i, In (l, i) ls -> l_damping l = 0) -> Rabs (stack_energy ls (mags (j_layers j')) - stack_energy ls (mags (j_layers j))) < eps).
Proof. exact runs_energy. Qed.

(** Example: the dipolar pair of C98, with magnetisations 1 and 2. *)
Example c99_example : (forall T l, In l (layers (ex_dipole_pair 1 2)) -> sound_layer T l /\ quiet l /\ Unit (l_mag l)) /\
  (forall n, (0 < n < 4294967296)%Z -> forall e mode, exists j', runSimulation PI (PI / IZR n) (PI / IZR n) e mode (ex_plain_pair (ex_lower 1) (ex_upper 1 2)) = (j', Ok tt)).
Proof.
  split.
  - intros T l Hl. destruct (dipole_fine 1 2 T ltac:(lra) ltac:(lra) l Hl) as (A & B & C). split; [|split; assumption]. split; [exact A|]. destruct Hl as [<-|[<-|[]]]; cbn; lra.
  - intros n Hn e mode. apply dipole_runs; [lra|lra|exact Hn].
Qed.
Print Assumptions c99_exists.
Print Assumptions c99_unique.
Print Assumptions c99_exists_iff.
Print Assumptions c99_converges.
Print Assumptions c99_agree.
Print Assumptions c99_energy.
