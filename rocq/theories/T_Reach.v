(** Property C103: a change in a stack is felt at most one layer further per step, two with the Heun solver. *)
From Verif Require Import P_ReachEx.
Open Scope R_scope.
Open Scope st_scope.

(** Two stacks of three coupled layers that differ in the last layer only: the hypotheses below hold and both run. *)
Example c103_example : Junction_plain [ex_link "a" X1; ex_link "b" Y1; ex_link "c" Y1] = Ok (ex_chain X1 Y1 Y1) /\
  same_solver (ex_chain X1 Y1 Y1) (ex_chain X1 Y1 Z1) /\ named (ex_chain X1 Y1 Y1) /\
  agree_near 1 0 (ex_chain X1 Y1 Y1) (ex_chain X1 Y1 Z1) /\ ~ agree_near 2 0 (ex_chain X1 Y1 Y1) (ex_chain X1 Y1 Z1) /\
  step_counts 1 1 1 1 1 /\
  (exists a', runSimulation 1 1 1 true RK4 (ex_chain X1 Y1 Y1) = (a', Ok tt)) /\ (exists b', runSimulation 1 1 1 true RK4 (ex_chain X1 Y1 Z1) = (b', Ok tt)).
Proof.
  split; [apply chain_built|]. split.
  { split; [|reflexivity]. split; intros (l & Hl & [H|H]); exfalso; (destruct Hl as [<-|[<-|[<-|[]]]]; [..]); first [discriminate | apply H; reflexivity]. }
  split. { split; [intros X; discriminate|]. split; [intros X; discriminate|]. cbn. repeat constructor; cbn; intuition discriminate. }
  split; [apply chain_near; auto|]. split.
  { intros H. specialize (H 2%nat ltac:(split; lia)). destruct H as [c H]. apply (f_equal l_mag) in H. cbn in H. unfold Y1, Z1 in H. injection H. intros. lra. }
  split; [exact counts_1_1|]. split; apply (chain_runs _ _ _ _ _ _ _ _ 1 1); first [lra | exact counts_1_1 | lia].
Qed.

(** C103.  One step: what happens at a layer is determined by the layers up to [reach] away from it, including the
    random numbers it draws; everything further away may differ. *)
Theorem c103_step : forall r t dt a b a' b' d p, run_runner r t dt a = (a', Ok tt) -> run_runner r t dt b = (b', Ok tt) ->
  agree_near (d + reach r) p a b -> agree_near d p a' b'.
Proof. exact step_reach. Qed.
(** No smaller distance would do. *)
Theorem c103_sharp : forall r, r <> RunSingle -> exists a b a' b', Junction_plain (j_layers a) = Ok a /\ Junction_plain (j_layers b) = Ok b /\
  agree_near (reach r - 1) 0 a b /\ run_runner r 0 1 a = (a', Ok tt) /\ run_runner r 0 1 b = (b', Ok tt) /\ ~ agree_near 0 0 a' b'.
Proof. exact reach_sharp. Qed.
(** A run of N steps carries a change N layers further (2 N with the Heun solver). *)
Theorem c103_run : forall T dt wf e e' mode a b a' b' N w d p, same_solver a b -> step_counts T dt wf N w ->
  runSimulation T dt wf e mode a = (a', Ok tt) -> runSimulation T dt wf e' mode b = (b', Ok tt) ->
  agree_near (d + N * mode_reach mode) p a b -> agree_near d p a' b'.
Proof. exact run_reach. Qed.
(** The log of a layer cannot show the change before the step at which it arrives. *)
Theorem c103_log : forall T dt wf e e' mode a b a' b' N w d p l m, named a -> named b -> same_solver a b -> step_counts T dt wf N w ->
  runSimulation T dt wf e mode a = (a', Ok tt) -> runSimulation T dt wf e' mode b = (b', Ok tt) ->
  agree_near d p a b -> nth_error (j_layers a) p = Some l -> nth_error (j_layers b) p = Some m ->
  forall k, (k < rows_needed N w)%nat -> (S (k * w) * mode_reach mode <= d)%nat -> forall tag, In tag ["mx"; "my"; "mz"]%string ->
    nth_error (col (colname (l_id l) tag) (j_log a')) (length (col (colname (l_id l) tag) (j_log a)) + k) =
    nth_error (col (colname (l_id m) tag) (j_log b')) (length (col (colname (l_id m) tag) (j_log b)) + k).
Proof. exact run_reach_log. Qed.
(** Energy logging does not influence the motion: here the same junction is run with and without it. *)
Theorem c103_energies_irrelevant : forall T dt wf e e' mode a a' b', runSimulation T dt wf e mode a = (a', Ok tt) -> runSimulation T dt wf e' mode a = (b', Ok tt) ->
  mags (j_layers b') = mags (j_layers a').
Proof.
  intros T dt wf e e' mode a a' b' A B. destruct (run_sound _ _ _ _ _ _ _ A) as (N & w & _ & _ & _ & _ & _ & HC & _).
  assert (G : forall d p, agree_near d p a' b').
  { intros d p. apply (run_reach T dt wf e e' mode a a a' b' N w); try assumption; [split; split; auto|].
    intros q _. unfold alike_at. destruct (nth_error (j_layers a) q); [apply alike_refl|exact I]. }
  apply nth_ext with (d := Zero) (d' := Zero).
  - unfold mags. rewrite !map_length. pose proof (G 0%nat (length (j_layers a'))) as X. pose proof (G 0%nat (length (j_layers b'))) as Y. apply near_self in X, Y. unfold alike_at in X, Y.
    rewrite (proj2 (nth_error_None (j_layers a') _) (le_n _)) in X. rewrite (proj2 (nth_error_None (j_layers b') _) (le_n _)) in Y.
    destruct (nth_error (j_layers b') (length (j_layers a'))) eqn:E1; [contradiction|]. destruct (nth_error (j_layers a') (length (j_layers b'))) eqn:E2; [contradiction|].
    apply nth_error_None in E1, E2. lia.
  - intros n _. apply alike_at_mag, (near_self 0), G.
Qed.
Print Assumptions c103_step.
Print Assumptions c103_sharp.
Print Assumptions c103_run.
Print Assumptions c103_log.
Print Assumptions c103_energies_irrelevant.
