(** Property C90: layers that do not interact evolve independently. *)
From Verif Require Import P_Alone.
Open Scope R_scope.
Open Scope st_scope.

(** Junctions used below: the first can be built, its layers are uncoupled and all quiet, and it runs. *)
Example c90_example : Junction_plain [ex_spin "a"; ex_spin "b"] = Ok (ex_plain_pair (ex_spin "a") (ex_spin "b")) /\
  one_scheme RK4 (ex_plain_pair (ex_spin "a") (ex_spin "b")) /\ named (ex_plain_pair (ex_spin "a") (ex_spin "b")) /\
  (forall l, In l (j_layers (ex_plain_pair (ex_spin "a") (ex_spin "b"))) -> uncoupled l) /\
  exists j', runSimulation 1 1 1 true RK4 (ex_plain_pair (ex_spin "a") (ex_spin "b")) = (j', Ok tt).
Proof.
  split; [reflexivity|]. split; [|split; [|split]].
  - right; right; right. intros l [<-|[<-|[]]] [X|X]; try discriminate; apply X; reflexivity.
  - split; [intros X; discriminate|]. split; [intros X; discriminate|]. cbn. constructor; [|constructor; [intros []|constructor]]. intros [X|[]]. discriminate.
  - intros l [<-|[<-|[]]]; apply spin_uncoupled.
  - apply (run_exists _ _ _ _ _ _ 1 1); [lra|discriminate|discriminate|exact counts_1_1|lia|]. intros l [<-|[<-|[]]]; apply spin_runnable.
Qed.
(** A mixed pair runs too, but does not satisfy [one_scheme]. *)
Example c90_mixed : ~ one_scheme RK4 (ex_plain_pair (ex_spin "a") (ex_cold "b")) /\ one_scheme HEUN (ex_plain_pair (ex_spin "a") (ex_cold "b")).
Proof.
  split; [|left; reflexivity]. intros [X|[X|[X|X]]]; try discriminate.
  - destruct (X (ex_spin "a") (or_introl eq_refl)) as [Y|Y]; [discriminate|apply Y; reflexivity].
  - apply (X (ex_cold "b") (or_intror (or_introl eq_refl))). left. reflexivity.
Qed.

(** C90.  The derivative (and everything remembered for the log) does not depend on the neighbours. *)
Theorem c90_blind : forall l t m dt b top b' top', uncoupled l ->
  calculateLLGWithFieldTorque t m b top dt l = calculateLLGWithFieldTorque t m b' top' dt l.
Proof. intros l t m dt b top b' top' H. rewrite (same_llg t m b top dt l H), (same_llg t m b' top' dt l H). reflexivity. Qed.
(** One step of the junction is one step of each layer on its own, whatever the solver. *)
Theorem c90_step : forall used t dt j j', (forall l, In l (j_layers j) -> uncoupled l) ->
  run_runner (runner_table (layerNo j) used) t dt j = (j', Ok tt) <->
  stepwise (fun _ l l' => run_runner (runner_table 1 used) t dt (alone l) = (alone l', Ok tt)) j j'.
Proof. exact step_apart. Qed.
(** A run of the junction contains the run of each layer on its own: the final layer and the log columns. *)
Theorem c90_run : forall T dt wf e mode j j', one_scheme mode j -> (forall l, In l (j_layers j) -> uncoupled l) ->
  runSimulation T dt wf e mode j = (j', Ok tt) -> forall p l, nth_error (j_layers j) p = Some l ->
  exists k l', runSimulation T dt wf e mode (alone l) = (k, Ok tt) /\ nth_error (j_layers j') p = Some l' /\ j_layers k = [l'] /\
    (named j -> j_logLength j' = (j_logLength j + j_logLength k)%nat /\ col "time" (j_log j') = (col "time" (j_log j) ++ col "time" (j_log k))%list /\
      forall tag, In tag ("I"%string :: energy_tags true) ->
        col (colname (l_id l) tag) (j_log j') = (col (colname (l_id l) tag) (j_log j) ++ col (colname (l_id l) tag) (j_log k))%list).
Proof. exact run_apart. Qed.
(** The junction can be run exactly when each of its layers can be run on its own. *)
Theorem c90_together : forall T dt wf e mode j, one_scheme mode j -> (forall l, In l (j_layers j) -> uncoupled l) ->
  j_layers j <> [] -> j_mode j <> MR_STRIP ->
  ((exists j', runSimulation T dt wf e mode j = (j', Ok tt)) <->
   (forall l, In l (j_layers j) -> exists k, runSimulation T dt wf e mode (alone l) = (k, Ok tt))).
Proof.
  intros T dt wf e mode j HO HU HN HM. split; [|apply run_together; assumption].
  intros [j' E] l Hl. apply In_nth_error in Hl. destruct Hl as [p Hp]. destruct (run_apart _ _ _ _ _ _ _ HO HU E p l Hp) as (k & l' & X & _). eauto.
Qed.
(** What else is in the junction does not matter. *)
Theorem c90_others_irrelevant : forall T dt wf e mode j1 j2 j1' j2' p q l,
  one_scheme mode j1 -> one_scheme mode j2 -> (forall k, In k (j_layers j1) -> uncoupled k) -> (forall k, In k (j_layers j2) -> uncoupled k) ->
  nth_error (j_layers j1) p = Some l -> nth_error (j_layers j2) q = Some l ->
  runSimulation T dt wf e mode j1 = (j1', Ok tt) -> runSimulation T dt wf e mode j2 = (j2', Ok tt) ->
  nth_error (j_layers j1') p = nth_error (j_layers j2') q.
Proof.
  intros T dt wf e mode j1 j2 j1' j2' p q l O1 O2 U1 U2 N1 N2 E1 E2.
  destruct (run_apart _ _ _ _ _ _ _ O1 U1 E1 p l N1) as (k1 & l1 & A1 & B1 & C1 & _).
  destruct (run_apart _ _ _ _ _ _ _ O2 U2 E2 q l N2) as (k2 & l2 & A2 & B2 & C2 & _). congruence.
Qed.
(** Finding.  Without the hypothesis on the solver this is false: a temperature of 0 K on one layer makes the whole
    junction switch from RK4 to Euler, which changes the trajectory of a quiet layer it does not interact with. *)
Theorem c90_solver_refuted : exists a b j j' k,
  Junction_plain [a; b] = Ok j /\ uncoupled a /\ uncoupled b /\ ~ noisy a /\ (forall t, getCurrentScalarValue (l_temperature b) t = Ok 0) /\
  runSimulation 1 1 1 false RK4 j = (j', Ok tt) /\ runSimulation 1 1 1 false RK4 (alone a) = (k, Ok tt) /\
  nth_error (j_layers j') 0 <> nth_error (j_layers k) 0.
Proof. exact cold_solver. Qed.
Print Assumptions c90_blind.
Print Assumptions c90_step.
Print Assumptions c90_run.
Print Assumptions c90_together.
Print Assumptions c90_others_irrelevant.
Print Assumptions c90_solver_refuted.
