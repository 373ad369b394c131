(** Property C108: multiplying all fields makes the motion proportionally faster. *)
From Verif Require Import P_ReachEx P_BarEx P_FasterRun.
Open Scope R_scope.
Open Scope st_scope.

(** Drivers with k times the values and all times divided by k *)
Theorem c108_driver k d : 0 < k -> faster_driver k d (quicker k d).
Proof. intros H. exact (quicker_faster k H d). Qed.
Theorem c108_axial k d d' : faster_driver k (ax0 d) (ax0 d') -> faster_driver k (ax1 d) (ax1 d') -> faster_driver k (ax2 d) (ax2 d') -> faster_axial k d d'.
Proof. exact (axial_faster k d d'). Qed.
(** A sine of amplitude 2 and frequency 3 on a constant of 1, five times faster *)
Example c108_example_driver : quicker 5 (SD sine 1 2 3 0 (-1) (-1) (-1) (-1) (-1) (-1)) = SD sine (5 * 1) (5 * 2) (5 * 3) 0 (-1 / 5) (-1) (-1 / 5) (-1 / 5) (-1 / 5) (-1 / 5) /\
  forall t, getCurrentScalarValue (SD sine 1 2 3 0 (-1) (-1) (-1) (-1) (-1) (-1)) t = Ok (1 + 2 * sin (2 * PI * t * 3 + 0)).
Proof. split; reflexivity. Qed.

(** The chain of three coupled layers with k times the coupling *)
Definition ex_quick (k : R) (id : string) (m : cvec) : layer :=
  set_l_IECTop (quicker k (cdrv (/ gamma0))) (set_l_IECBottom (quicker k (cdrv (/ gamma0))) (set_l_mag m (set_l_external null_axial (ex_spin id)))).
Definition ex_quick_chain (k : R) : junction := JN MR_NONE [ex_quick k "a" X1; ex_quick k "b" Y1; ex_quick k "c" Z1] 0 0 [] [] [] [] [] [] [] [] 0 "R".
Lemma default_faster k : 0 < k -> faster_driver k default_driver default_driver.
Proof. intros H. apply (value_faster k _ _ (fun _ => 0) H); intros t; [reflexivity|]. rewrite Rmult_0_r. reflexivity. Qed.
Lemma null_faster k : 0 < k -> faster_axial k null_axial null_axial.
Proof. intros H. apply axial_faster; (apply (value_faster k _ _ (fun _ => 0) H); intros t; [reflexivity|]; rewrite Rmult_0_r; reflexivity). Qed.
Lemma null_larger k : larger_tensor k null_tensor null_tensor.
Proof. intros v. assert (Z : forall u, MatVec null_tensor u = Zero) by (intros [x y z]; unfold MatVec, null_tensor, Zero, Dot; cbn; apply vec_eq; ring). rewrite !Z, scal_zero. reflexivity. Qed.
Lemma quick_faster k id m : 0 < k -> faster k (ex_link id m) (ex_quick k id m).
Proof.
  intros H. assert (C : faster_driver k (cdrv (/ gamma0)) (quicker k (cdrv (/ gamma0)))) by (apply quicker_faster, H).
  pose proof (default_faster k H) as D. pose proof (null_faster k H) as A. pose proof (null_larger k) as N. constructor.
  - reflexivity.
  - repeat split; reflexivity.
  - split; [exact N|]. split; [exact N|exact N].
  - exact A.
  - exact A.
  - exact A.
  - exact A.
  - exact A.
  - exact A.
  - exact D.
  - exact C.
  - exact C.
  - exact D.
  - exact D.
  - exact D.
  - exact D.
  - exact D.
  - exact D.
  - split; reflexivity.
  - repeat split; reflexivity.
  - repeat split; reflexivity.
  - split; reflexivity.
Qed.
Example c108_example k : 0 < k -> faster_stack k (ex_chain X1 Y1 Z1) (ex_quick_chain k) /\ j_mode (ex_quick_chain k) <> MR_STRIP /\ same_readout (ex_chain X1 Y1 Z1) (ex_quick_chain k) /\
  named (ex_chain X1 Y1 Z1) /\ named (ex_quick_chain k) /\ exists j', runSimulation 1 1 1 true RK4 (ex_chain X1 Y1 Z1) = (j', Ok tt).
Proof.
  intros H. split; [apply Forall2_cons; [apply quick_faster, H|]; apply Forall2_cons; [apply quick_faster, H|]; apply Forall2_cons; [apply quick_faster, H|]; apply Forall2_nil|].
  split; [discriminate|]. split; [repeat split|].
  split. { split; [intros X; discriminate|]. split; [intros X; discriminate|]. cbn. repeat constructor; cbn; intuition discriminate. }
  split. { split; [intros X; discriminate|]. split; [intros X; discriminate|]. cbn. repeat constructor; cbn; intuition discriminate. }
  apply (chain_runs _ _ _ _ _ _ _ _ 1 1); first [lra | exact counts_1_1 | lia].
Qed.

(** The derivative *)
Theorem c108_derivative k l m t x b top d : faster k l m -> rhs l t x b top d -> rhs m (t / k) x b top (Scal k d).
Proof. exact (rhs_faster k l m t x b top d). Qed.
(** One step of any solver, with the temperature multiplied and the same random numbers *)
Theorem c108_step k r t dt a b a' : 0 < k -> faster_stack k a b -> (r = RunSingle -> layerNo a = 1%nat) -> run_runner r t dt a = (a', Ok tt) ->
  exists b', run_runner r (t / k) (dt / k) b = (b', Ok tt) /\ faster_stack k a' b'.
Proof. intros H. exact (step_faster k H r t dt a b a'). Qed.
(** Whole simulations: the faster one succeeds exactly when the other one does, and ends in the same magnetisations. *)
Theorem c108_run k T dt wf e e' mode a b a' : 0 < k -> faster_stack k a b -> j_mode b <> MR_STRIP -> runSimulation T dt wf e mode a = (a', Ok tt) ->
  exists b', runSimulation (T / k) (dt / k) (wf / k) e' mode b = (b', Ok tt) /\ faster_stack k a' b' /\ mags (j_layers b') = mags (j_layers a').
Proof. intros H F M E. destruct (run_faster k H T dt wf e e' mode a b a' F M E) as (b' & A & B). exists b'. split; [exact A|]. split; [exact B|exact (faster_mags k _ _ B)]. Qed.
(** Strips of the size the constructor demands *)
Theorem c108_strip k T dt wf e e' mode a b a' : 0 < k -> faster_stack k a b -> same_readout a b -> strip_sized b -> runSimulation T dt wf e mode a = (a', Ok tt) ->
  exists b', runSimulation (T / k) (dt / k) (wf / k) e' mode b = (b', Ok tt) /\ faster_stack k a' b' /\ mags (j_layers b') = mags (j_layers a').
Proof. intros H F R Z E. destruct (run_faster_strip k T dt wf e e' mode a b a' H F R Z E) as (b' & A & B). exists b'. split; [exact A|]. split; [exact B|exact (faster_mags k _ _ B)]. Qed.
Lemma bar_readout l m : same_readout (ex_bar l) (ex_bar m).
Proof. unfold same_readout, ex_bar. repeat (split; [reflexivity|]). reflexivity. Qed.
Example c108_example_strip k : 0 < k -> faster_stack k (ex_bar (ex_link "a" X1)) (ex_bar (ex_quick k "a" X1)) /\ same_readout (ex_bar (ex_link "a" X1)) (ex_bar (ex_quick k "a" X1)) /\ strip_sized (ex_bar (ex_quick k "a" X1)) /\
  exists j', runSimulation 1 1 1 true RK4 (ex_bar (ex_link "a" X1)) = (j', Ok tt).
Proof.
  intros H. split; [apply Forall2_cons; [apply quick_faster, H|apply Forall2_nil]|]. split; [apply bar_readout|]. split; [repeat split|exact bar_runs].
Qed.
Theorem c108_both k T dt wf e e' mode a b : 0 < k -> faster_stack k a b -> j_mode a <> MR_STRIP -> j_mode b <> MR_STRIP ->
  ((exists a', runSimulation T dt wf e mode a = (a', Ok tt)) <-> (exists b', runSimulation (T / k) (dt / k) (wf / k) e' mode b = (b', Ok tt))).
Proof. exact (run_faster_iff k T dt wf e e' mode a b). Qed.
(** The magnetisation columns get the same values, the time column the times divided by k. *)
Theorem c108_log k T dt wf e e' mode a b a' b' : 0 < k -> faster_stack k a b -> named a -> named b -> runSimulation T dt wf e mode a = (a', Ok tt) -> runSimulation (T / k) (dt / k) (wf / k) e' mode b = (b', Ok tt) ->
  forall p l m, nth_error (j_layers a) p = Some l -> nth_error (j_layers b) p = Some m -> forall tag, In tag ["mx"; "my"; "mz"]%string -> exists new,
  col (colname (l_id l) tag) (j_log a') = (col (colname (l_id l) tag) (j_log a) ++ new)%list /\ col (colname (l_id m) tag) (j_log b') = (col (colname (l_id m) tag) (j_log b) ++ new)%list.
Proof. intros H. exact (run_faster_log k H T dt wf e e' mode a b a' b'). Qed.
Theorem c108_time k T dt wf e e' mode a b a' b' : 0 < k -> named a -> named b -> runSimulation T dt wf e mode a = (a', Ok tt) -> runSimulation (T / k) (dt / k) (wf / k) e' mode b = (b', Ok tt) ->
  exists ts, col "time" (j_log a') = (col "time" (j_log a) ++ ts)%list /\ col "time" (j_log b') = (col "time" (j_log b) ++ map (fun t => t / k) ts)%list.
Proof. exact (run_faster_time k T dt wf e e' mode a b a' b'). Qed.
(** All resistances, those of a strip too, are read the same. *)
Theorem c108_resistance k a b r : faster_stack k a b -> same_readout a b -> (resistance_row a r <-> resistance_row b r).
Proof. exact (resistance_faster k a b r). Qed.

Print Assumptions c108_driver.
Print Assumptions c108_axial.
Print Assumptions c108_derivative.
Print Assumptions c108_step.
Print Assumptions c108_run.
Print Assumptions c108_strip.
Print Assumptions c108_both.
Print Assumptions c108_log.
Print Assumptions c108_time.
Print Assumptions c108_resistance.
