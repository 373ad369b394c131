(** C96: calls through the Python interface and what the stubs promise about them. *)
From Verif Require Import P_BindOdd.
Local Open Scope string_scope.
Open Scope nat_scope.

(** *** The dispatcher *)
(** Which value loads as which parameter. *)
Theorem c96_loads : forall c t v, load c t v = true <-> Loads c t v.
Proof. exact load_spec. Qed.
(** A call succeeds iff an overload takes it; overloaded functions prefer overloads that need no conversion, then the
    order of the bindings decides. *)
Theorem c96_called : forall name pos kw target args, NoDup (map fst kw) ->
  call name pos kw = Called target args <->
  (2 <= length (bound name bindings) /\ First false (bound name bindings) pos kw target args) \/
  ((length (bound name bindings) <= 1 \/ Refuses false (bound name bindings) pos kw) /\ First true (bound name bindings) pos kw target args).
Proof. intros name pos kw target args N. apply dispatch_called; [apply bound_distinct|exact N]. Qed.
Theorem c96_type_error : forall name pos kw, NoDup (map fst kw) ->
  call name pos kw = TypeError <->
  (length (bound name bindings) <= 1 \/ Refuses false (bound name bindings) pos kw) /\ Refuses true (bound name bindings) pos kw.
Proof. intros name pos kw N. apply dispatch_refused; [apply bound_distinct|exact N]. Qed.
(** The order in which keywords are written does not matter. *)
Theorem c96_keyword_order : forall name pos kw kw', Permutation kw kw' -> NoDup (map fst kw) -> call name pos kw = call name pos kw'.
Proof. exact call_permuted. Qed.
(** Keywords are those of the C++ declarations, up to [renamed], in the order of the declarations. *)
Theorem c96_keyword_names : forall name os o, In (name, os) bindings -> In o os ->
  (o_kws o = [] \/ length (o_kws o) = length (o_sig o)) /\
  forall i k d n t, nth_error (o_kws o) i = Some (k, d) -> nth_error (o_sig o) i = Some (n, t) -> k = n \/ In (name, k, n) renamed.
Proof. exact table_names. Qed.

(** *** The stubs *)
(** Every documented function is bound and falls in one of three groups; what is bound but not documented. *)
Theorem c96_documented : (forall name, In name (map fst stubs) <-> In name (faithful_names ++ positional_names ++ departing_names)%list) /\
  NoDup (faithful_names ++ positional_names ++ departing_names)%list /\ NoDup (map fst stubs).
Proof. exact stubs_sorted. Qed.
Theorem c96_bound : (forall name, In name (map fst bindings) <-> In name (map fst stubs ++ undocumented_names)%list) /\
  NoDup (map fst stubs ++ undocumented_names)%list /\ NoDup (map fst bindings).
Proof. exact bound_sorted. Qed.
(** First group: every permitted call, by position, by keyword or mixed, reaches the documented function with every
    value at its parameter and the documented defaults. *)
Theorem c96_faithful : Forall Faithful faithful_names.
Proof. exact faithful_all. Qed.
(** Second group: the same for calls by position; any keyword raises TypeError. *)
Theorem c96_positional : Forall (fun n => ByPosition n /\ NoKeywords n) positional_names.
Proof. exact positional_all. Qed.
(** Third group: what they do serve. *)
Theorem c96_signatures : Forall (fun '(name, target, sig) => Serves name target sig) real_signatures.
Proof. exact real_all. Qed.
Theorem c96_junction :
  Serves "Junction" "Junction(layers)" [rq "layers" (TVector La)] /\
  Serves "Junction" "Junction(layers, Rp, Rap)" [rq "layers" (TVector La); rq "Rp" D; df "Rap" D (VInt 200)] /\
  Serves "Junction" "Junction(layers, Rp, Rap)" [rq "layers" (TVector La); df "Rp" D (VInt 100); rq "Rap" D] /\
  Serves "Junction" "Junction(strip)" [rq "layers" (TVector La); rq "Rx0" (TVector D); rq "Ry0" (TVector D); rq "AMR_X" (TVector D); rq "AMR_Y" (TVector D); rq "SMR_X" (TVector D); rq "SMR_Y" (TVector D); rq "AHE" (TVector D)].
Proof. exact (conj junction_serves_plain (conj (junction_resistive _ (or_introl eq_refl)) (conj (junction_resistive _ (or_intror eq_refl)) (junction_strip _ eq_refl)))). Qed.

(** *** Where the stubs are wrong *)
(** Documented keywords that raise TypeError in every call. *)
Theorem c96_keywords_refuted : forall name k, In (name, k) strange -> forall pos kw v, In (k, v) kw -> call name pos kw = TypeError.
Proof. exact strange_keywords. Qed.
(** The eighth positional argument of Layer, documented as the temperature, becomes the damping; nine are refused. *)
Theorem c96_layer_temperature_refuted : forall pos,
  nth_error (map (fun '(k, _, _) => k) layer_documented) 7 = Some "temperature" /\ nth_error (map fst layer_sig) 7 = Some "damping" /\ documented "Layer" = [("Layer", layer_documented)] /\
  (DocTyped (firstn 8 layer_documented) pos -> call "Layer" pos [] = Called "Layer" pos) /\ (length pos = 9 -> forall kw, call "Layer" pos kw = TypeError).
Proof.
  intros pos. repeat split; try reflexivity; [apply layer_eighth|]. intros L kw. apply too_many. intros o [<-|[]]. rewrite L. cbn. lia.
Qed.
(** Junction.runSimulation by position: the value documented as persist switches the log on, the one documented as
    log switches the energies on; with all six documented arguments the call raises. *)
Theorem c96_run_persist_refuted : forall pos, documented "Junction.runSimulation" = [("Junction::runSimulation", run_documented)] /\
  (DocTyped (firstn 5 run_documented) pos -> call "Junction.runSimulation" pos [] = Called "Junction::runSimulation" (pos ++ [mode_RK4])%list) /\
  (DocTyped run_documented pos -> call "Junction.runSimulation" pos [] = TypeError).
Proof. intros pos. split; [reflexivity|]. split; [apply run_fifth|apply run_sixth]. Qed.
(** Defaults of the stubs that are not the defaults of the library. *)
Theorem c96_sot_damping_refuted : exists sig, documented "Layer.createSOTLayer" = [("Layer::LayerSOT", sig)] /\
  nth_error sig 7 = Some ("damping", D, Default (fl 0.11)) /\
  forall pos kw, Permitted sig pos kw -> (forall v, ~ Given sig pos kw 7 v) -> ~ Honoured "Layer::LayerSOT" sig pos kw (call "Layer.createSOTLayer" pos kw).
Proof.
  eexists. split; [reflexivity|]. split; [reflexivity|]. pose proof real_all as F. unfold real_signatures in F. do 4 apply Forall_inv_tail in F. apply Forall_inv in F.
  eapply default_differs; [exact F|reflexivity|reflexivity|reflexivity|]. intros w A B0. apply same_float in A, B0. subst w. inversion B0. lra.
Qed.
Theorem c96_group_write_frequency_refuted : exists sig, documented "GroupInteraction.runSimulation" = [("GroupInteraction::runSimulation", sig)] /\
  nth_error sig 2 = Some ("writeFrequency", D, Default (fl 1e-13)) /\
  forall pos kw, Permitted sig pos kw -> (forall v, ~ Given sig pos kw 2 v) -> ~ Honoured "GroupInteraction::runSimulation" sig pos kw (call "GroupInteraction.runSimulation" pos kw).
Proof.
  eexists. split; [reflexivity|]. split; [reflexivity|]. pose proof real_all as F. unfold real_signatures in F. do 9 apply Forall_inv_tail in F. apply Forall_inv in F.
  eapply default_differs; [exact F|reflexivity|reflexivity|reflexivity|]. intros w A B0. apply same_float in A, B0. subst w. inversion B0. lra.
Qed.
(** No call with a driver as amplitude, as documented, is accepted. *)
Theorem c96_sine_amplitude_refuted : exists sig, documented "ScalarDriver.getSineDriver" = [("ScalarDriver::getSineDriver", sig)] /\
  forall pos kw, Permitted sig pos kw -> call "ScalarDriver.getSineDriver" pos kw = TypeError.
Proof. eexists. split; [reflexivity|exact sine_amplitude]. Qed.
(** The documented getLog() of a group of junctions does not exist. *)
Theorem c96_group_log_refuted : In ("GroupInteraction::getLog()", []) (documented "GroupInteraction.getLog") /\ call "GroupInteraction.getLog" [] [] = TypeError /\
  forall z, (0 <= z < 2 ^ 32)%Z -> call "GroupInteraction.getLog" [VInt z] [] = Called "GroupInteraction::getLog(id)" [VInt z].
Proof.
  split; [right; left; reflexivity|]. split; [reflexivity|]. intros z H. unfold call. change (bound "GroupInteraction.getLog" bindings) with
    [Ov "GroupInteraction::getLog(id)" [("id", U)] []; Ov "GroupInteraction::getLog(id)" [("id", U)] []].
  cbn [dispatch attempt bind_call params o_kws o_sig map fill p_kw p_ty p_def option_map forallb load_all o_target]. rewrite uint_load by exact H. reflexivity.
Qed.
(** getVectorAxialDriver raises whenever it is called on a driver, as documented; it works on the class. *)
Theorem c96_vector_axial_refuted : forall i pos kw, dispatch getVectorAxialDriver_binding (VObj KAxialDriver i :: pos) kw = TypeError.
Proof. exact vector_axial. Qed.
(** Lists never pass for vectors, in spite of the implicit conversions declared for them. *)
Theorem c96_lists_are_not_vectors : forall vs, call "CVector" [VList vs] [] = TypeError /\ forall c, ~ Loads c V (VList vs).
Proof. intros vs. split; [reflexivity|]. intros c H. inversion H. Qed.

(** *** Vectors as sequences *)
Theorem c96_vector_items : forall (x y z : R) i,
  (getitem (x, y, z) 0 = Item x /\ getitem (x, y, z) 1 = Item y) /\
  ((-2 ^ 31 <= i < 2 ^ 31)%Z -> i <> 0%Z -> i <> 1%Z -> getitem (x, y, z) i = Item z) /\
  (~ (-2 ^ 31 <= i < 2 ^ 31)%Z -> getitem (x, y, z) i = TypeErr).
Proof.
  intros x y z i. split; [split; reflexivity|]. unfold getitem. split.
  - intros H H0 H1. replace ((-2147483648 <=? i) && (i <? 2147483648))%Z with true by (symmetry; apply Bool.andb_true_iff; split; [apply Z.leb_le|apply Z.ltb_lt]; lia).
    destruct (Z.eqb_spec i 0); [contradiction|]. destruct (Z.eqb_spec i 1); [contradiction|reflexivity].
  - intros H. destruct (Z.leb_spec (-2147483648) i); destruct (Z.ltb_spec i 2147483648); cbn; auto. exfalso. apply H. lia.
Qed.
(** Iterating over a vector, documented by __iter__, does not end after three items: no index raises IndexError. *)
Theorem c96_vector_iteration_refuted : forall v : R * R * R, ~ IterationEnds (getitem v).
Proof. intros [[x y] z] (n & E). unfold getitem in E. destruct (_ && _)%bool; discriminate. Qed.

(** *** Names of the module: [none] is the reference, not the axis. *)
Theorem c96_module_names : forall name v, module_attr name = Some v <-> In (name, v) exports /\ (name = "none" -> v = VObj KReference 0).
Proof.
  intros name v. unfold module_attr, exports. cbn [fold_left In]. split.
  - repeat match goal with |- context [String.eqb ?a name] => destruct (String.eqb_spec a name) as [<-|?] end; intros E; inversion E; subst; cbn;
      (split; [tauto|intros X; first [reflexivity|discriminate]]).
  - intros (I & Hn). repeat (destruct I as [I|I]; [inversion I; subst; cbn; first [reflexivity | specialize (Hn eq_refl); discriminate]|]). destruct I.
Qed.
Theorem c96_none_is_not_an_axis_refuted : exists v, module_attr "none" = Some v /\
  forall n a s c, call "VectorAlphaNoise" [VInt n; VFloat a; VFloat s; VFloat c; v] [] = TypeError.
Proof.
  exists (VObj KReference 0). split; [reflexivity|]. intros n a s c. unfold call. apply dispatch_refused; [apply bound_distinct|constructor|]. split; [left; cbn; lia|].
  intros o args I (_ & _ & _ & T4 & _ & T6). destruct I as [<-|[]].
  specialize (T6 4 (Pm (Some "axis") (TObj KAxis) (Some axis_all)) (VObj KReference 0) eq_refl (T4 4 _ eq_refl)). cbn in T6. inversion T6.
Qed.

(** *** Examples *)
Example c96_example_keywords : call "sineDriver" [VInt 1] [("phase", VInt 0); ("frequency", VFloat 7e9); ("amplitude", VFloat 5)] = Called "ScalarDriver::getSineDriver" [VInt 1; VFloat 5; VFloat 7e9; VInt 0].
Proof. reflexivity. Qed.
Example c96_example_permitted : Permitted (doc4 "frequency" "phase") [VInt 1] [("phase", VInt 0); ("frequency", VFloat 7e9); ("amplitude", VFloat 5)].
Proof.
  unfold doc4, rq. repeat split; cbn [length]; try lia.
  - apply nodupb_sound. reflexivity.
  - intros k v [E|[E|[E|[]]]]; inversion E; subst; [exists 3|exists 2|exists 1]; eexists; eexists; (split; [lia|reflexivity]).
  - intros i k t H. destruct i as [|[|[|[|i]]]]; [| | | |destruct i; discriminate].
    + exists (VInt 1). left. reflexivity.
    + exists (VFloat 5). right. split; [cbn; lia|]. eexists _, _, _. split; [reflexivity|]. cbn. tauto.
    + exists (VFloat 7e9). right. split; [cbn; lia|]. eexists _, _, _. split; [reflexivity|]. cbn. tauto.
    + exists (VInt 0). right. split; [cbn; lia|]. eexists _, _, _. split; [reflexivity|]. cbn. tauto.
  - intros i v k t n G H.
    assert (Nv : v = VInt 1 \/ v = VInt 0 \/ v = VFloat 7e9 \/ v = VFloat 5).
    { destruct G as [G|(_ & k' & t' & n' & _ & [E|[E|[E|[]]]])]; try (inversion E; subst; tauto). destruct i as [|[|i]]; cbn in G; inversion G; auto. }
    assert (t = D) by (destruct i as [|[|[|[|[|i]]]]]; cbn in H; inversion H; reflexivity). subst t. destruct Nv as [->|[->|[->| ->]]]; exact I.
Qed.
Example c96_example_layer : call "Layer" [VStr "free"; VObj KVector 0; VObj KVector 1; VFloat 1; VFloat 1; VFloat 0; VList [VObj KVector 2]; VInt 300] [] =
  Called "Layer" [VStr "free"; VObj KVector 0; VObj KVector 1; VFloat 1; VFloat 1; VFloat 0; VList [VObj KVector 2]; VInt 300].
Proof. reflexivity. Qed.
Example c96_example_axial : call "AxialDriver" [VInt 1; VFloat 0; VFloat 0] [] = Called "AxialDriver(numbers)" [VInt 1; VFloat 0; VFloat 0] /\ call "AxialDriver" [VList [VInt 1; VInt 0; VInt 0]] [] = TypeError.
Proof. split; reflexivity. Qed.
Example c96_example_junction : call "Junction" [VList [VObj KLayer 0]] [("Rap", VInt 150)] = Called "Junction(layers, Rp, Rap)" [VList [VObj KLayer 0]; VInt 100; VInt 150].
Proof. reflexivity. Qed.
Print Assumptions c96_loads.
Print Assumptions c96_called.
Print Assumptions c96_type_error.
Print Assumptions c96_keyword_order.
Print Assumptions c96_keyword_names.
Print Assumptions c96_documented.
Print Assumptions c96_bound.
Print Assumptions c96_faithful.
Print Assumptions c96_positional.
Print Assumptions c96_signatures.
Print Assumptions c96_junction.
Print Assumptions c96_keywords_refuted.
Print Assumptions c96_layer_temperature_refuted.
Print Assumptions c96_run_persist_refuted.
Print Assumptions c96_sot_damping_refuted.
Print Assumptions c96_group_write_frequency_refuted.
Print Assumptions c96_sine_amplitude_refuted.
Print Assumptions c96_group_log_refuted.
Print Assumptions c96_vector_axial_refuted.
Print Assumptions c96_lists_are_not_vectors.
Print Assumptions c96_vector_items.
Print Assumptions c96_vector_iteration_refuted.
Print Assumptions c96_module_names.
Print Assumptions c96_none_is_not_an_axis_refuted.
