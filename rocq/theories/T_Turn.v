(** Property C107: turning a whole stack in space turns its motion. *)
From Verif Require Import P_ReachEx P_TurnRun.
Open Scope R_scope.
Open Scope st_scope.

(** Turning about the axis of the film is a rotation; every rotation can be undone by a rotation. *)
Theorem c107_rotation : (forall a, rotation (about_z a)) /\ forall Q, rotation Q -> rotation (back Q) /\ (forall v, turn (back Q) (turn Q v) = v) /\ forall v, turn Q (turn (back Q) v) = v.
Proof. split; [exact about_z_rotation|]. intros Q H. split; [exact (back_rotation Q H)|]. split; [exact (back_turn Q H)|exact (turn_back Q H)]. Qed.
(** Every tensor has a turned one; the tensor of a film does not change when it is turned about its axis.  Constant fields are turned by turning their value. *)
Theorem c107_tensor Q N : rotation Q -> turned_tensor Q N (conjugate Q N).
Proof. intros H. exact (conjugate_turned Q H N). Qed.
Theorem c107_film a p q : turned_tensor (about_z a) (Ten (CV p 0 0) (CV 0 p 0) (CV 0 0 q)) (Ten (CV p 0 0) (CV 0 p 0) (CV 0 0 q)).
Proof. exact (film_turned a p q). Qed.
Theorem c107_constant Q d d' v : rotation Q -> (forall t, getCurrentAxialDrivers d t = Ok v) -> (forall t, getCurrentAxialDrivers d' t = Ok (turn Q v)) -> turned_driver Q d d'.
Proof. exact (constant_turned Q d d' v). Qed.
(** If everything but the magnetisation looks the same after the rotation, it is enough to turn the magnetisation. *)
Theorem c107_axial Q l : (forall N, In N [l_demag l; l_dipoleBottom l; l_dipoleTop l] -> turned_tensor Q N N) ->
  (forall d, In d [l_external l; l_Oersted l; l_Hdmi l; l_Hreserved l; l_IDMITop l; l_IDMIBottom l] -> turned_driver Q d d) ->
  turn Q (l_anis l) = l_anis l -> turn Q (l_reference l) = l_reference l -> quiet l -> turned Q l (set_l_mag (turn Q (l_mag l)) l).
Proof. exact (axial_turned Q l). Qed.

Lemma null_turned Q : rotation Q -> turned_driver Q null_axial null_axial.
Proof. intros H. apply (constant_turned Q _ _ Zero H); intros t; [reflexivity|]. rewrite turn_zero. reflexivity. Qed.
Lemma null_tensor_turned Q : turned_tensor Q null_tensor null_tensor.
Proof. intros v. assert (Z : forall u, MatVec null_tensor u = Zero) by (intros [x y z]; unfold MatVec, null_tensor, Zero, Dot; cbn; apply vec_eq; ring). rewrite !Z, turn_zero. reflexivity. Qed.
Lemma link_set d e u m l : set_l_IECTop d (set_l_IECBottom e (set_l_mag u l)) = set_l_mag u (set_l_IECTop d (set_l_IECBottom e (set_l_mag m l))).
Proof. destruct l. cbv -[Rplus Rmult]. reflexivity. Qed.
Lemma link_fields id m : l_mag (ex_link id m) = m /\ [l_demag (ex_link id m); l_dipoleBottom (ex_link id m); l_dipoleTop (ex_link id m)] = [null_tensor; null_tensor; null_tensor] /\
  [l_external (ex_link id m); l_Oersted (ex_link id m); l_Hdmi (ex_link id m); l_Hreserved (ex_link id m); l_IDMITop (ex_link id m); l_IDMIBottom (ex_link id m)] = repeat null_axial 6 /\
  l_anis (ex_link id m) = CV 0 0 1 /\ l_reference (ex_link id m) = Zero.
Proof. repeat split. Qed.
Lemma link_turned a id m : turned (about_z a) (ex_link id m) (ex_link id (turn (about_z a) m)).
Proof.
  destruct (link_fields id m) as (F1 & F2 & F3 & F4 & F5).
  assert (E : ex_link id (turn (about_z a) m) = set_l_mag (turn (about_z a) (l_mag (ex_link id m))) (ex_link id m)) by (rewrite F1; exact (link_set (cdrv (/ gamma0)) (cdrv (/ gamma0)) (turn (about_z a) m) m (set_l_external null_axial (ex_spin id)))).
  rewrite E. apply axial_turned; rewrite ?F2, ?F3, ?F4, ?F5.
  - intros N [<-|[<-|[<-|[]]]]; apply null_tensor_turned.
  - intros d Hd. apply repeat_spec in Hd. subst d. apply null_turned, about_z_rotation.
  - unfold turn, about_z, MatVec, Dot. cbn [row0 row1 row2]. apply vec_eq; ring.
  - apply turn_zero.
  - apply link_quiet.
Qed.
(** A chain of three coupled layers turned by any angle; the chain runs. *)
Example c107_example a : let Q := about_z a in turned_stack Q (ex_chain X1 Y1 Z1) (ex_chain (turn Q X1) (turn Q Y1) (turn Q Z1)) /\ j_mode (ex_chain (turn Q X1) (turn Q Y1) (turn Q Z1)) <> MR_STRIP /\
  named (ex_chain X1 Y1 Z1) /\ named (ex_chain (turn Q X1) (turn Q Y1) (turn Q Z1)) /\ exists j', runSimulation 1 1 1 true RK4 (ex_chain X1 Y1 Z1) = (j', Ok tt).
Proof.
  split; [apply Forall2_cons; [apply link_turned|]; apply Forall2_cons; [apply link_turned|]; apply Forall2_cons; [apply link_turned|]; apply Forall2_nil|]. split; [discriminate|].
  split. { split; [intros X; discriminate|]. split; [intros X; discriminate|]. cbn. repeat constructor; cbn; intuition discriminate. }
  split. { split; [intros X; discriminate|]. split; [intros X; discriminate|]. cbn. repeat constructor; cbn; intuition discriminate. }
  apply (chain_runs _ _ _ _ _ _ _ _ 1 1); first [lra | exact counts_1_1 | lia].
Qed.
Lemma caxial_value v t : getCurrentAxialDrivers (caxial v) t = Ok v.
Proof. destruct v. reflexivity. Qed.
(** A layer with a field, an easy axis and a demagnetising tensor in any directions, and the layer turned by any rotation *)
Definition ex_full (h n m : cvec) (N : tensor) : layer := set_l_demag N (set_l_anis n (set_l_external (caxial h) (set_l_mag m (ex_spin "free")))).
Example c107_example_full Q h n m N : rotation Q -> turned Q (ex_full h n m N) (ex_full (turn Q h) (turn Q n) (turn Q m) (conjugate Q N)).
Proof.
  intros H. constructor; try reflexivity; try (apply null_tensor_turned); try (apply null_turned, H); try (repeat split; reflexivity).
  - symmetry. apply turn_zero.
  - exact (conjugate_turned Q H N).
  - apply (constant_turned Q _ _ h H); intros t; apply caxial_value.
  - discriminate.
Qed.

(** The derivative of a turned layer between turned neighbours *)
Theorem c107_derivative Q l m t x b top d : rotation Q -> turned Q l m -> rhs l t x b top d -> rhs m t (turn Q x) (turn Q b) (turn Q top) (turn Q d).
Proof. intros H. exact (rhs_turn Q H l m t x b top d). Qed.
(** One step of any solver, with thermal noise whose random vectors are turned too *)
Theorem c107_step Q r t dt a b a' : rotation Q -> turned_stack Q a b -> (r = RunSingle -> layerNo a = 1%nat) -> run_runner r t dt a = (a', Ok tt) ->
  exists b', run_runner r t dt b = (b', Ok tt) /\ turned_stack Q a' b'.
Proof. intros H. exact (step_turn Q H r t dt a b a'). Qed.
(** Whole simulations *)
Theorem c107_run Q T dt wf e e' mode a b a' : rotation Q -> turned_stack Q a b -> j_mode b <> MR_STRIP -> runSimulation T dt wf e mode a = (a', Ok tt) ->
  exists b', runSimulation T dt wf e' mode b = (b', Ok tt) /\ turned_stack Q a' b'.
Proof. intros H. exact (run_turn Q H T dt wf e e' mode a b a'). Qed.
Theorem c107_both Q T dt wf e e' mode a b : rotation Q -> turned_stack Q a b -> j_mode a <> MR_STRIP -> j_mode b <> MR_STRIP ->
  ((exists a', runSimulation T dt wf e mode a = (a', Ok tt)) <-> (exists b', runSimulation T dt wf e' mode b = (b', Ok tt))).
Proof. exact (run_turn_iff Q T dt wf e e' mode a b). Qed.
(** The new values in the magnetisation columns are the components of the same vectors, turned. *)
Theorem c107_log Q T dt wf e e' mode a b a' b' : rotation Q -> turned_stack Q a b -> named a -> named b -> runSimulation T dt wf e mode a = (a', Ok tt) -> runSimulation T dt wf e' mode b = (b', Ok tt) ->
  forall p l m, nth_error (j_layers a) p = Some l -> nth_error (j_layers b) p = Some m -> exists us, forall tag get, In (tag, get) [("mx"%string, cx); ("my"%string, cy); ("mz"%string, cz)] ->
  col (colname (l_id l) tag) (j_log a') = (col (colname (l_id l) tag) (j_log a) ++ map get us)%list /\ col (colname (l_id m) tag) (j_log b') = (col (colname (l_id m) tag) (j_log b) ++ map (fun u => get (turn Q u)) us)%list.
Proof. intros H. exact (run_turn_log Q H T dt wf e e' mode a b a' b'). Qed.
(** The resistance along the stack does not notice the rotation. *)
Theorem c107_resistance Q a b ra rb : rotation Q -> turned_stack Q a b -> same_meter a b -> j_mode a <> MR_STRIP -> resistance_row a ra -> resistance_row b rb -> map snd rb = map snd ra.
Proof. exact (resistance_turn Q a b ra rb). Qed.
(** The resistances of a strip do not notice half a turn about its axis, but they notice other rotations. *)
Theorem c107_half_turn a b r : turned_stack (about_z PI) a b -> same_meter a b -> j_mode a = MR_STRIP -> (resistance_row a r <-> resistance_row b r).
Proof. exact (strip_half_turn a b r). Qed.
Definition ex_strip (m : cvec) : junction := JN MR_STRIP [ex_link "a" m] 0 0 [1] [1] [1] [0] [0] [0] [0] [] 0 "R".
Example c107_example_strip : turned_stack (about_z PI) (ex_strip X1) (ex_strip (turn (about_z PI) X1)) /\ same_meter (ex_strip X1) (ex_strip (turn (about_z PI) X1)) /\ j_mode (ex_strip X1) = MR_STRIP.
Proof. split; [apply Forall2_cons; [apply link_turned|apply Forall2_nil]|]. split; [repeat split|reflexivity]. Qed.
Lemma strip_reads m rx ry : rx = 1 + cx m * cx m -> ry = 1 -> resistance_row (ex_strip m) [("Rx", rx); ("Ry", ry); ("Rz", 0)]%string.
Proof.
  intros -> ->. exists (1 + cx m * cx m), 1. pose proof (Rle_0_sqr (cx m)) as P. unfold Rsqr in P.
  assert (A : mapi (strip_long (ex_strip m)) 0 (j_layers (ex_strip m)) = [1 + cx m * cx m]) by (change ([1 + 1 * (cx m * cx m) + 0 * (cy m * cy m)] = [1 + cx m * cx m]); f_equal; ring).
  assert (B : mapi (strip_trans (ex_strip m)) 0 (j_layers (ex_strip m)) = [1]) by (change ([1 + 0 * cz m / 2 + (0 + 0) * (cx m * cy m)] = [1]); f_equal; unfold Rdiv; ring).
  rewrite A, B.
  split; [|split; [|reflexivity]]; (split; [intros x [<-|[]]; apply Rgt_not_eq; lra|]); cbn [fold_right]; rewrite Rplus_0_r; (split; [apply Rinv_neq_0_compat, Rgt_not_eq; lra|]); rewrite Rinv_inv; reflexivity.
Qed.
Theorem c107_strip_refuted : exists Q a b ra rb, rotation Q /\ turned_stack Q a b /\ same_meter a b /\ resistance_row a ra /\ resistance_row b rb /\ map snd rb <> map snd ra.
Proof.
  exists (about_z (PI / 2)), (ex_strip X1), (ex_strip (turn (about_z (PI / 2)) X1)), [("Rx", 2); ("Ry", 1); ("Rz", 0)]%string, [("Rx", 1); ("Ry", 1); ("Rz", 0)]%string.
  split; [apply about_z_rotation|]. split; [apply Forall2_cons; [apply link_turned|apply Forall2_nil]|]. split; [repeat split|].
  split; [apply strip_reads; [cbn; ring|reflexivity]|]. split.
  - apply strip_reads; [|reflexivity]. unfold turn, about_z, X1, MatVec, Dot. cbn [row0 row1 row2 cx]. rewrite cos_PI2. ring.
  - intros E. injection E as E. lra.
Qed.

Print Assumptions c107_rotation.
Print Assumptions c107_tensor.
Print Assumptions c107_film.
Print Assumptions c107_constant.
Print Assumptions c107_axial.
Print Assumptions c107_derivative.
Print Assumptions c107_step.
Print Assumptions c107_run.
Print Assumptions c107_both.
Print Assumptions c107_log.
Print Assumptions c107_resistance.
Print Assumptions c107_half_turn.
Print Assumptions c107_strip_refuted.
