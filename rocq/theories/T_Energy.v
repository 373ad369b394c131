(** Property C76: energies computed from a log. *)
From Verif Require Import P_EnergyMore.
From Coq Require Import String Ascii List Permutation.
Open Scope R_scope.
Open Scope st_scope.

(** C76, any log: the result is the energy table, whenever there is one. *)
Theorem c76_table : forall S t g data,
  (exists data', Permutation data data' /\ compute_from_log (EnergyCompute S t g) = Ok data') <-> energy_table S t g data.
Proof. exact compute_iff. Qed.
Example c76_table_ex : energy_table 1 2 lone_log [("energy_free_Hiec"%string, [-1 / 2])].
Proof. apply c76_table. eexists. split; [apply Permutation_refl|exact lone_energy]. Qed.

(** C76, the log of a run: one energy per row, layer and logged field, nothing else. *)
Theorem c76_run : forall S t T dt wf mode j j', named j -> clear_ids j -> j_log j = [] -> S <> 0 -> t <> 0 ->
  runSimulation T dt wf true mode j = (j', Ok tt) ->
  exists N w r used s data, step_counts T dt wf N w /\ selects mode N j (s 0%nat) r used /\ trajectory r dt s N /\
    compute_from_log (EnergyCompute S t (j_log j')) = Ok data /\ NoDup (map fst data) /\
    forall k v, In (k, v) data <-> exists p l tag h A, nth_error (j_layers j) p = Some l /\ (0 < rows_needed N w)%nat /\ field_tag (l_includeSOT l) tag h /\
      k = ("energy_" ++ colname (l_id l) tag)%string /\ (Ends "J" (l_id l) /\ A = S \/ ~ Ends "J" (l_id l) /\ A = S * t) /\
      v = map (fun i => - Dot (l_mag (layer_at s p (Datatypes.S (i * w)) l)) (h (l_cache (layer_at s p (Datatypes.S (i * w)) l))) / A) (seq 0 (rows_needed N w)).
Proof. exact energy_run. Qed.
Example c76_run_ex : named ex_switch_junction /\ clear_ids ex_switch_junction /\ j_log ex_switch_junction = [] /\
  exists j', runSimulation 1 1 1 true RK4 ex_switch_junction = (j', Ok tt).
Proof. split; [exact ex_switch_named|]. split; [exact ex_switch_clear|]. split; [reflexivity|exact ex_switch_runs]. Qed.

(** C76, a field whose first word is not the name of a layer. *)
Theorem c76_unknown_layer : forall S t g f p, field_key g f -> first_word f p -> ~ mag_name g p ->
  forall data, compute_from_log (EnergyCompute S t g) <> Ok data.
Proof. exact unknown_layer. Qed.
Example c76_unknown_layer_ex : exists g f p, field_key g f /\ first_word f p /\ ~ mag_name g p.
Proof.
  exists [("top_free_Hextx"%string, [1])], "top_free_Hext"%string, "top"%string. split; [|split].
  - exists "x"%char. split; [left; reflexivity|]. exists "top_free"%string, "extx"%string. reflexivity.
  - apply before_underscore_iff. reflexivity.
  - intros (key & [<-|[]] & I & _). apply contains_iff in I. discriminate I.
Qed.
(** C76, two layers one of which has a name starting with H. *)
Theorem c76_reserved_names : forall S t T dt wf mode j j' l0 l1, named j -> j_mode j = MR_CLASSIC -> j_layers j = [l0; l1] ->
  plain (l_id l0) -> plain (l_id l1) -> l_id l0 <> "R"%string -> l_id l1 <> "R"%string -> Starts "H" (l_id l0) \/ Starts "H" (l_id l1) -> j_log j = [] ->
  runSimulation T dt wf true mode j = (j', Ok tt) -> j_logLength j' <> j_logLength j ->
  forall data, compute_from_log (EnergyCompute S t (j_log j')) <> Ok data.
Proof. exact reserved_names. Qed.
Example c76_reserved_names_ex : exists j', Junction_classic [ex_layer "Hard" (CV 1 0 0); ex_layer "free" (CV 0 1 0)] 100 200 = Ok ex_hard /\
  runSimulation 1 1 1 true RK4 ex_hard = (j', Ok tt) /\ forall data, compute_from_log (EnergyCompute 1 1 (j_log j')) <> Ok data.
Proof.
  destruct ex_hard_runs as (j' & E). exists j'. split; [reflexivity|]. split; [exact E|].
  apply (c76_reserved_names 1 1 1 1 1 RK4 ex_hard j' (ex_layer "Hard" (CV 1 0 0)) (ex_layer "free" (CV 0 1 0)));
  try reflexivity; try discriminate; try (apply plain_us; reflexivity); [exact ex_hard_named|left; eexists; reflexivity|exact E|].
  destruct (run_grid _ _ _ _ _ _ _ ex_hard_named E) as (N & w & HC & _ & L & _).
  assert (C1 : step_counts 1 1 1 1 1) by (repeat split; try lra; left; cbn; lra).
  destruct (step_counts_unique _ _ _ _ _ _ _ C1 HC) as [X Y]. subst N w. rewrite L. cbn. lia.
Qed.
(** C76, energies logged for part of the rows only. *)
Theorem c76_partly_logged : forall S t g f p m h, field_key g f -> first_word f p -> reads g (p ++ "_m") m -> reads g f h ->
  length m <> length h -> length m <> 1%nat -> length h <> 1%nat -> forall data, compute_from_log (EnergyCompute S t g) <> Ok data.
Proof. exact lengths_differ. Qed.
Example c76_partly_logged_ex : forall data, compute_from_log (EnergyCompute 1 1
  [("f_mx", [1; 0; 1]); ("f_my", [0; 1; 0]); ("f_mz", [0; 0; 0]); ("f_Hextx", [1; 2]); ("f_Hexty", [0; 0]); ("f_Hextz", [0; 0])]%string) <> Ok data.
Proof.
  apply (c76_partly_logged 1 1 _ "f_Hext" "f" [CV 1 0 0; CV 0 1 0; CV 1 0 0] [CV 1 0 0; CV 2 0 0]); try (cbn; lia).
  - exists "x"%char. split; [cbn; tauto|]. exists "f"%string, "extx"%string. reflexivity.
  - apply before_underscore_iff. reflexivity.
  - repeat split.
  - repeat split.
Qed.
(** C76, a cell without size. *)
Theorem c76_no_size : forall S t g f p m h, field_key g f -> first_word f p -> reads g (p ++ "_m") m -> reads g f h -> m <> [] -> h <> [] -> per S t f 0 ->
  forall data, compute_from_log (EnergyCompute S t g) <> Ok data.
Proof. exact no_size. Qed.
Example c76_no_size_ex : forall data, compute_from_log (EnergyCompute 1 0 lone_log) <> Ok data.
Proof.
  apply (c76_no_size 1 0 lone_log "free_Hiec" "free" [CV 1 0 0] [CV 1 0 0]); try discriminate; try (repeat split; fail).
  - exists "x"%char. split; [cbn; tauto|]. exists "free"%string, "iecx"%string. reflexivity.
  - apply before_underscore_iff. reflexivity.
  - right. split; [|ring]. rewrite <- contains_iff. discriminate.
Qed.

(** C76: exchange energies are not per surface. *)
Theorem c76_exchange_per_surface_refuted : ~ (forall S t g data id v, compute_from_log (EnergyCompute S t g) = Ok data ->
  In (("energy_" ++ colname id "Hiec")%string, v) data -> exists m h, reads g (id ++ "_m") m /\ reads g (colname id "Hiec") h /\
  v = map (fun mh => - Dot (fst mh) (snd mh) / S) (combine m h)).
Proof.
  intros H. destruct (H 1 2 lone_log _ "free"%string [-1 / 2] lone_energy (or_introl eq_refl)) as (m & h & (M1 & M2 & M3) & (H1 & H2 & H3) & E).
  cbn in M1, M2, M3, H1, H2, H3. destruct m as [|[mx my mz] [|? m]]; try discriminate. destruct h as [|[hx hy hz] [|? h]]; try discriminate.
  cbn in *. injection M1 as <-. injection M2 as <-. injection M3 as <-. injection H1 as <-. injection H2 as <-. injection H3 as <-. injection E as E. unfold Dot in E. cbn in E. lra.
Qed.
(** C76: with nested names the magnetisation may be that of another layer. *)
Theorem c76_own_magnetisation_refuted : ~ (forall S t g data id v, compute_from_log (EnergyCompute S t g) = Ok data ->
  In (("energy_" ++ colname id "Hext")%string, v) data -> forall m h, reads g (id ++ "_m") m -> reads g (colname id "Hext") h ->
  v = map (fun mh => - Dot (fst mh) (snd mh) / (S * t)) (combine m h)).
Proof.
  intros H. assert (E := H 1 1 nested_log _ "a_b"%string [0] nested_energy (or_introl eq_refl) [CV 0 1 0] [CV 0 1 0]).
  assert (X : [0] = map (fun mh => - Dot (fst mh) (snd mh) / (1 * 1)) (combine [CV 0 1 0] [CV 0 1 0])) by (apply E; repeat split).
  cbn in X. injection X as X. unfold Dot in X. cbn in X. lra.
Qed.
(** C76: a single logged field is used for every row. *)
Theorem c76_simultaneous_refuted : exists g data, compute_from_log (EnergyCompute 1 1 g) = Ok data /\
  In ("energy_f_Hext"%string, [-1; 0]) data /\ log_get "f_Hextx" g = Some [1].
Proof. exists mixed_log. eexists. split; [exact mixed_energy|]. split; [left; reflexivity|reflexivity]. Qed.
Print Assumptions c76_table.
Print Assumptions c76_run.
Print Assumptions c76_unknown_layer.
Print Assumptions c76_reserved_names.
Print Assumptions c76_partly_logged.
Print Assumptions c76_no_size.
Print Assumptions c76_exchange_per_surface_refuted.
Print Assumptions c76_own_magnetisation_refuted.
Print Assumptions c76_simultaneous_refuted.
