(** Property C105: a stack built upside down makes the same motion. *)
From Verif Require Import P_ReachEx P_MirrorApi.
Open Scope R_scope.
Open Scope st_scope.

(** Flipping a layer twice gives it back, and flipping exchanges the roles of the neighbours in the equation of motion. *)
Theorem c105_flip l : flip (flip l) = l /\ forall t m b top d, rhs l t m b top d -> rhs (flip l) t m top b d.
Proof. split; [apply flip_twice|intros t m b top d; apply flip_rhs]. Qed.

(** Three coupled layers and the same layers upside down: both are built and mirrored, and the first one runs. *)
Example c105_example : exists b, Junction_plain (rev (map flip [ex_link "a" X1; ex_link "b" Y1; ex_link "c" Z1])) = Ok b /\ mirrored (ex_chain X1 Y1 Z1) b /\ j_mode b <> MR_STRIP /\ named (ex_chain X1 Y1 Z1) /\ named b /\
  exists a', runSimulation 1 1 1 true RK4 (ex_chain X1 Y1 Z1) = (a', Ok tt).
Proof.
  eexists. split; [reflexivity|]. split; [apply flip_list_mirrored; reflexivity|]. split; [discriminate|].
  split. { split; [intros X; discriminate|]. split; [intros X; discriminate|]. cbn. repeat constructor; cbn; intuition discriminate. }
  split. { split; [intros X; discriminate|]. split; [intros X; discriminate|]. cbn. repeat constructor; cbn; intuition discriminate. }
  apply (chain_runs _ _ _ _ _ _ _ _ 1 1); first [lra | exact counts_1_1 | lia].
Qed.

(** Building a stack upside down, coupling two neighbours in both, and reading the resistance of a bilayer *)
Theorem c105_built ls a : Junction_plain ls = Ok a -> exists b, Junction_plain (rev (map flip ls)) = Ok b /\ mirrored a b.
Proof. exact (plain_mirror ls a). Qed.
Theorem c105_bilayer l0 l1 Rp Rap a : Junction_classic [l0; l1] Rp Rap = Ok a -> exists b, Junction_classic [flip l1; flip l0] Rp Rap = Ok b /\ mirrored a b.
Proof. exact (classic_mirror l0 l1 Rp Rap a). Qed.
Theorem c105_coupling a b x y c a' : mirrored a b -> NoDup (ids a) -> x <> y -> junction_couple x y c a = (a', Ok tt) ->
  exists b', junction_couple x y c b = (b', Ok tt) /\ mirrored a' b'.
Proof. exact (couple_mirror a b x y c a'). Qed.
Theorem c105_resistance a b ra rb : mirrored a b -> layerNo a = 2%nat -> j_mode a = MR_CLASSIC -> j_mode b = MR_CLASSIC -> j_Rp b = j_Rp a -> j_Rap b = j_Rap a ->
  resistance_row a ra -> resistance_row b rb -> map snd ra = map snd rb.
Proof. exact (resistance_mirror a b ra rb). Qed.

(** One step of any solver *)
Theorem c105_step r t dt a b a' : mirrored a b -> (r = RunSingle -> layerNo a = 1%nat) -> run_runner r t dt a = (a', Ok tt) ->
  exists b', run_runner r t dt b = (b', Ok tt) /\ mirrored a' b'.
Proof. exact (step_mirror r t dt a b a'). Qed.
(** Whole simulations *)
Theorem c105_run T dt wf e e' mode a b a' : mirrored a b -> j_mode b <> MR_STRIP -> runSimulation T dt wf e mode a = (a', Ok tt) ->
  exists b', runSimulation T dt wf e' mode b = (b', Ok tt) /\ mirrored a' b'.
Proof. exact (run_mirror T dt wf e e' mode a b a'). Qed.
(** The columns of each layer get the same new values. *)
Theorem c105_log T dt wf e e' mode a b a' b' : mirrored a b -> named a -> named b -> runSimulation T dt wf e mode a = (a', Ok tt) -> runSimulation T dt wf e' mode b = (b', Ok tt) ->
  forall p q l m, opposite (length (j_layers a)) p q -> nth_error (j_layers a) p = Some l -> nth_error (j_layers b) q = Some m -> forall tag, In tag ["mx"; "my"; "mz"]%string ->
  l_id m = l_id l /\ exists new, col (colname (l_id l) tag) (j_log a') = (col (colname (l_id l) tag) (j_log a) ++ new)%list /\ col (colname (l_id m) tag) (j_log b') = (col (colname (l_id m) tag) (j_log b) ++ new)%list.
Proof. exact (run_mirror_log T dt wf e e' mode a b a' b'). Qed.

Print Assumptions c105_flip.
Print Assumptions c105_built.
Print Assumptions c105_bilayer.
Print Assumptions c105_coupling.
Print Assumptions c105_resistance.
Print Assumptions c105_step.
Print Assumptions c105_run.
Print Assumptions c105_log.
