(** Properties C06, C09 and C10: the setter interface and the log across sequences of calls. *)
From Verif Require Import P_RunEx.
Open Scope R_scope.
Open Scope st_scope.

(** C06.  After any sequence of calls, accepted or refused, all columns are as long as the log, and the
    log can be saved. *)
Theorem c06_columns_aligned : forall ls j0 calls j,
  constructed ls j0 -> NoDup (map l_id ls) -> history calls j0 j ->
  aligned j /\ forall f, f <> ""%string -> exists table, saveLogs j f = Ok table /\ length (snd table) = j_logLength j.
Proof. exact history_aligned. Qed.
Print Assumptions c06_columns_aligned.
(** Which columns exist. *)
Theorem c06_column_lengths : forall ls j0 calls j key,
  constructed ls j0 -> NoDup (map l_id ls) -> history calls j0 j ->
  length (col key (j_log j)) = if in_dec string_dec key (row_keys j) then j_logLength j else 0%nat.
Proof. exact history_columns. Qed.
Print Assumptions c06_column_lengths.
(** With repeated ids, which no constructor refuses, the columns come apart. *)
Theorem c06_repeated_ids_refuted : exists ls j j', Junction_plain ls = Ok j /\ runSimulation 1 1 1 false RK4 j = (j', Ok tt) /\
  j_logLength j' = 1%nat /\ length (col "free_mx" (j_log j')) = 2%nat /\ length (col "time" (j_log j')) = 1%nat.
Proof. exact twins_misaligned. Qed.
Print Assumptions c06_repeated_ids_refuted.
Example c06_example : constructed (ex_pair 3 (CV 1 2 3)) (ex_junction 3 (CV 1 2 3)) /\ NoDup (map l_id (ex_pair 3 (CV 1 2 3))) /\
  exists j, history [ARun 10 1 2 RK4; ARun 10 1 (1 / 2) RK4; ASet "all" (SMagnetisation Zero)] (ex_junction 3 (CV 1 2 3)) j.
Proof.
  split; [right; left; do 2 eexists; apply ex_junction_constructed|]. split; [apply ex_junction_named; exact Zero|].
  destruct (ex_junction_runs false RK4 3 (CV 1 2 3)) as [j1 E1].
  destruct (run_refused 10 1 (1 / 2) false RK4 j1) as [m2 E2]; [lra|].
  destruct (junction_set "all" (SMagnetisation Zero) j1) as [j3 r3] eqn:E3. exists j3.
  econstructor; [exact E1|left; reflexivity|]. econstructor; [exact E2|right; eexists; reflexivity|].
  econstructor; [exact E3| |constructor]. destruct r3 as [[]|er]; [left; reflexivity|].
  right. destruct (set_failure _ _ _ _ _ E3) as [[msg ->] _]. eexists. reflexivity.
Qed.

(** C09.  Member setters: when they are accepted and exactly what they change. *)
Theorem c09_member_setter : forall s l l', member s l = (l', Ok tt) <-> accepts s l /\ effect s l l'.
Proof. exact member_iff. Qed.
Print Assumptions c09_member_setter.
Theorem c09_member_setter_refused : forall s l l' e, member s l = (l', Err e) ->
  ~ accepts s l /\ refused_effect s l l' /\ exists msg, e = Throw msg.
Proof. exact member_err. Qed.
Print Assumptions c09_member_setter_refused.
(** Junction setters. *)
Theorem c09_junction_setter : forall id s j j', junction_set id s j = (j', Ok tt) ->
  set_everywhere id s j j' /\ (j_layers j <> [] -> exists p, addressed id s (j_layers j) p).
Proof. exact set_success. Qed.
Print Assumptions c09_junction_setter.
Theorem c09_junction_setter_fails : forall id s j j' e, junction_set id s j = (j', Err e) ->
  (exists msg, e = Throw msg) /\
  ((exists q, refused_at id s q j j') \/ (j' = j /\ forall p, ~ addressed id s (j_layers j) p)).
Proof. exact set_failure. Qed.
Print Assumptions c09_junction_setter_fails.
Theorem c09_junction_setter_accepted : forall id s j, (exists p, addressed id s (j_layers j) p) ->
  (forall p l, nth_error (j_layers j) p = Some l -> addressed id s (j_layers j) p -> accepts s l) ->
  exists j', junction_set id s j = (j', Ok tt).
Proof. exact set_accepted. Qed.
Print Assumptions c09_junction_setter_accepted.
Example c09_example : addressed "pinned" (SMagnetisation (CV 0 3 4)) (j_layers (ex_junction 3 Zero)) 1 /\
  ~ addressed "pinned" (SMagnetisation (CV 0 3 4)) (j_layers (ex_junction 3 Zero)) 0 /\
  exists j', junction_set "pinned" (SMagnetisation (CV 0 3 4)) (ex_junction 3 Zero) = (j', Ok tt).
Proof.
  assert (A : addressed "pinned" (SMagnetisation (CV 0 3 4)) (j_layers (ex_junction 3 Zero)) 1).
  { eexists. split; [reflexivity|]. right. split; [reflexivity|discriminate]. }
  split; [exact A|]. split.
  - intros (l & Hl & [X|[X _]]); [discriminate|]. cbn in Hl. injection Hl as <-. discriminate X.
  - apply set_accepted; [exists 1%nat; exact A|]. intros p l _ _ X. unfold Zero in X. injection X. intros. lra.
Qed.

(** C10.  Coupling setters. *)
Theorem c10_symmetric : forall a b c j, junction_couple a b c j = junction_couple b a c j.
Proof. exact couple_sym. Qed.
Print Assumptions c10_symmetric.
Theorem c10_one_pair : forall a b c j j', junction_couple a b c j = (j', Ok tt) -> exists p, coupled_at a b c p j j'.
Proof. exact couple_success. Qed.
Print Assumptions c10_one_pair.
Theorem c10_no_pair : forall a b c j j' e, junction_couple a b c j = (j', Err e) ->
  j' = j /\ (forall p, ~ pair_at a b (j_layers j) p) /\ exists msg, e = Throw msg.
Proof. exact couple_failure. Qed.
Print Assumptions c10_no_pair.
Theorem c10_pair_accepted : forall a b c j p, pair_at a b (j_layers j) p -> exists j', junction_couple a b c j = (j', Ok tt).
Proof. exact couple_found. Qed.
Print Assumptions c10_pair_accepted.
Example c10_example : pair_at "pinned" "free" (j_layers (ex_junction 3 Zero)) 0 /\
  ~ pair_at "free" "other" (j_layers (ex_junction 3 Zero)) 0.
Proof.
  split.
  - do 2 eexists. split; [reflexivity|]. split; [reflexivity|]. right. split; reflexivity.
  - intros (l & u & Hl & Hu & H). cbn in Hl, Hu. injection Hl as <-. injection Hu as <-.
    destruct H as [[_ X]|[X _]]; discriminate X.
Qed.
