(** Property C100: damped stacks come to rest. *)
From Verif Require Import P_Settle P_StackEnergyRun P_ConvergeRun P_Alone P_Global.
From Verif Require Export S_Exists.
From Coq Require Import Reals Lra.
Open Scope R_scope.

(** C100.  The motion of a stack never ends: one solution serves all horizons. *)
Theorem c100_global : forall ls, (forall T l, In l ls -> sound_layer T l) -> (forall l, In l ls -> Unit (l_mag l)) ->
  exists u du, starts ls u /\ forall T, solves ls T u du.
Proof. exact global_motion. Qed.
(** In a conservative stack (C98) whose layers all have damping, every layer finally turns into the field it feels ... *)
Theorem c100_settles : forall ls u du, conservative ls -> (forall l i, In (l, i) ls -> 0 < moment l /\ 0 < l_damping l) -> (forall T, solves (layers ls) T u du) ->
  (forall p l, nth_error (layers ls) p = Some l -> Unit (u p 0)) -> forall eps, 0 < eps -> exists t0, 0 <= t0 /\ forall t p l i, t0 <= t -> nth_error ls p = Some (l, i) ->
  Norm (Cross (u p t) (field_on l i (u p t) (below (snapshot u (length ls) t) p) (above (snapshot u (length ls) t) p))) < eps.
Proof. exact settles. Qed.
(** ... and the time until all of them do so at one instant depends neither on the start nor on what happened before. *)
Theorem c100_soon : forall ls eps, conservative ls -> (forall l i, In (l, i) ls -> 0 < moment l /\ 0 < l_damping l) -> 0 < eps ->
  exists T0, 0 < T0 /\ forall T u du, solves (layers ls) T u du -> (forall p l, nth_error (layers ls) p = Some l -> Unit (u p 0)) ->
  forall s, 0 <= s -> s + T0 <= T -> exists t, s <= t <= s + T0 /\ forall p l i, nth_error ls p = Some (l, i) ->
  Norm (Cross (u p t) (field_on l i (u p t) (below (snapshot u (length ls) t) p) (above (snapshot u (length ls) t) p))) < eps.
Proof. exact settles_soon. Qed.
(** States without torque are those in which the stack stays, with or without damping. *)
Theorem c100_rest_iff : forall ls T u du, 0 < T -> conservative ls -> (forall l i, In (l, i) ls -> Unit (l_mag l)) -> solves (layers ls) T u du -> starts (layers ls) u ->
  ((forall p l t, nth_error (layers ls) p = Some l -> 0 <= t <= T -> u p t = l_mag l) <->
   forall p l i, nth_error ls p = Some (l, i) -> Cross (l_mag l) (field_on l i (l_mag l) (below (mags (layers ls)) p) (above (mags (layers ls)) p)) = Zero).
Proof. exact rest_iff. Qed.
(** Simulations that are long enough, with small enough steps, end in a state without torque beyond any tolerance,
    whatever the solver. *)
Theorem c100_simulation : forall ls j, conservative ls -> (forall l i, In (l, i) ls -> 0 < moment l /\ 0 < l_damping l) -> j_layers j = layers ls ->
  (forall l, In l (j_layers j) -> quiet l /\ Unit (l_mag l)) ->
  forall eps, 0 < eps -> exists T0, 0 <= T0 /\ forall T, T0 <= T -> exists delta, 0 < delta /\ forall dt wf e mode j', 0 < dt < delta -> runSimulation T dt wf e mode j = (j', Ok tt) ->
    forall p l i m, nth_error ls p = Some (l, i) -> nth_error (mags (j_layers j')) p = Some m -> Norm (Cross m (field_on l i m (below (mags (j_layers j')) p) (above (mags (j_layers j')) p))) < eps.
Proof. exact runs_settle. Qed.

(** Examples: two layers coupled by their stray fields, with damping 1, and a layer whose motion is known. *)
Example c100_pair_example : conservative ex_damped_pair /\ (forall l i, In (l, i) ex_damped_pair -> 0 < moment l /\ 0 < l_damping l) /\
  (forall l, In l (layers ex_damped_pair) -> quiet l /\ Unit (l_mag l)) /\ j_layers ex_damped_junction = layers ex_damped_pair /\
  (forall T n e mode, 0 < T -> (0 < n < 4294967296)%Z -> exists j', runSimulation T (T / IZR n) (T / IZR n) e mode ex_damped_junction = (j', Ok tt)).
Proof. split; [exact damped_conservative|]. split; [exact damped_positive|]. split; [exact damped_quiet|]. split; [reflexivity|]. exact damped_runs. Qed.
Example c100_spiral_example : conservative ex_falling /\ (forall T, solves (layers ex_falling) T ex_spiral ex_spiral') /\ starts (layers ex_falling) ex_spiral /\
  (forall l i, In (l, i) ex_falling -> 0 < moment l /\ 0 < l_damping l /\ Unit (l_mag l)).
Proof.
  split; [exact spiral_conservative|]. split; [exact spiral_solves|]. split; [exact spiral_starts|]. intros l i H. destruct (spiral_positive l i H) as [A B]. split; [exact A|]. split; [exact B|].
  destruct H as [E|[]]. injection E as <- <-. unfold Unit, Norm2, Dot. cbn. ring.
Qed.
(** A state of rest. *)
Example c100_rest_example : conservative ex_resting /\ (forall l i, In (l, i) ex_resting -> Unit (l_mag l)) /\
  (forall p l i, nth_error ex_resting p = Some (l, i) -> Cross (l_mag l) (field_on l i (l_mag l) (below (mags (layers ex_resting)) p) (above (mags (layers ex_resting)) p)) = Zero) /\
  exists u du, starts (layers ex_resting) u /\ forall T, solves (layers ex_resting) T u du.
Proof.
  assert (U : forall l i, In (l, i) ex_resting -> Unit (l_mag l)) by (intros l i [E|[]]; injection E as <- <-; unfold Unit, Norm2, Dot; cbn; ring).
  split; [exact resting_conservative|]. split; [exact U|]. split; [exact resting_torque|]. exact (global_of ex_resting resting_conservative U).
Qed.
Print Assumptions c100_global.
Print Assumptions c100_settles.
Print Assumptions c100_soon.
Print Assumptions c100_rest_iff.
Print Assumptions c100_simulation.
