(** C30-C34: stacks of junctions. *)
From Verif Require Import P_StackProps.
Open Scope R_scope.

(** ** C30 *)
(** A series stack reports the sum, a parallel stack the reciprocal of the sum of reciprocals. *)
Theorem c30_stack_resistance : forall k rs r, calculateStackResistance k rs = Ok r <-> stack_resistance k rs r.
Proof. exact stack_resistance_iff. Qed.
Theorem c30_series_above : forall xs, (forall x, In x xs -> 0 < x) -> forall x, In x xs -> x <= Total xs.
Proof. exact series_above. Qed.
Theorem c30_parallel_below : forall xs r, stack_resistance Parallel xs r -> (forall x, In x xs -> 0 < x) ->
  0 < r /\ forall x, In x xs -> r <= x.
Proof. exact parallel_bounds. Qed.
Theorem c30_parallel_defined : forall xs, (forall x, In x xs -> 0 < x) -> xs <> [] ->
  exists r, calculateStackResistance Parallel xs = Ok r.
Proof. intros xs H1 H2. destruct (parallel_exists xs H1 H2) as [r Hr]. exists r. apply stack_resistance_iff. exact Hr. Qed.
Example c30_ex : calculateStackResistance Series [100; 200] = Ok 300 /\ stack_resistance Parallel [100; 300] 75.
Proof.
  split; [apply stack_resistance_iff; cbn; lra|]. split; [intros x [<-|[<-|[]]]; lra|]. cbn. split; lra.
Qed.

(** ** C31 *)
(** One step of a stack: member q runs alone with the stack's driver scaled by the product of the earlier
    terms and shifted in phase.  The terms use the state before the step, or the advanced predecessor
    when the delay is off. *)
Theorem c31_step : forall r two t dt s s' rcs, classic_members (s_js s) -> s_js s <> [] ->
  (advance_members r two t dt s = (s', Ok rcs) <->
   exists terms js', stack_step s two r t dt (s_js s) terms rcs js' /\ s' = set_s_js js' s).
Proof. exact advance_iff. Qed.
Theorem c31_first_member : forall s two r t dt js terms rcs js', s_phase s = 0 -> stack_step s two r t dt js terms rcs js' ->
  forall j j' x cur, nth_error js 0 = Some j -> nth_error js' 0 = Some j' -> nth_error rcs 0 = Some (x, cur) ->
  run_runner r t dt (with_current (s_current s) j) = (j', Ok tt) /\ getCurrentScalarValue (s_current s) t = Ok cur.
Proof. exact first_current. Qed.
Theorem c31_cumulative : forall terms q c, nth_error terms q = Some c -> factor terms (S q) = factor terms q * (1 + c).
Proof. exact factor_next. Qed.
(** The logged current of a member is its factor times the value of the stack's driver. *)
Theorem c31_current_values : forall s two r t dt js terms rcs js', s_phase s = 0 -> stack_step s two r t dt js terms rcs js' ->
  forall q j j' x cur, nth_error js q = Some j -> nth_error js' q = Some j' -> nth_error rcs q = Some (x, cur) ->
  (amplitude_linear (d_update (s_current s)) \/ 0 <= factor terms q) ->
  exists base, getCurrentScalarValue (s_current s) t = Ok base /\ cur = factor terms q * base.
Proof. exact member_current. Qed.
(** Without coupling and phase every member moves as it would alone under the stack's current. *)
Theorem c31_uncoupled : forall s two r t dt js terms rcs js', uncoupled s -> stack_step s two r t dt js terms rcs js' ->
  forall q j j' x cur, nth_error js q = Some j -> nth_error js' q = Some j' -> nth_error rcs q = Some (x, cur) ->
  run_runner r t dt (with_current (s_current s) j) = (j', Ok tt) /\ getCurrentScalarValue (s_current s) t = Ok cur.
Proof. exact uncoupled_step. Qed.
Theorem c31_coupling : forall s i c, getCoupling s i = Ok c <-> coupling_at s i c.
Proof. exact getCoupling_iff. Qed.
Theorem c31_polariser : forall s p, getPolarisationVector s = Ok p <-> shared_reference s p.
Proof. exact polarisation_iff. Qed.
Theorem c31_delay : forall b s s', setDelayed b s = (s', Ok tt) <-> (b = true \/ bilayers (s_js s)) /\ s' = set_s_delayed b s.
Proof. exact delayed_iff. Qed.
(** A stack of carriers under a constant current always steps: the example stack does. *)
Example c31_ex : exists terms rcs js', stack_step ex_stack true RunMulti 0 1 (s_js ex_stack) terms rcs js' /\ length terms = 1%nat.
Proof.
  destruct (advance_total true Zero RunMulti 0 1 ex_stack ltac:(lra) ex_stack_ready) as (s' & rcs & E & _).
  apply advance_iff in E; [|exact (ready_classic _ _ _ ex_stack_ready)|discriminate]. destruct E as (terms & js' & H & _).
  exists terms, rcs, js'. split; [exact H|]. destruct H as (_ & _ & _ & L & _). exact L.
Qed.

(** ** C32 *)
(** What a successful run does, and when a run succeeds. *)
Theorem c32_run : forall T dt wf s s', classic_members (s_js s) -> s_js s <> [] ->
  stack_runSimulation T dt wf s = (s', Ok tt) ->
  exists N w s0 r two sg rcs rows, stack_counts T dt wf N w /\ stack_selects N s s0 r /\ two_members (s_js s0) two /\
    stack_effect s0 two r dt N w s' sg rcs rows.
Proof. exact stack_run_sound. Qed.
Theorem c32_run_succeeds : forall T dt wf s N w s0 r two sg rcs, classic_members (s_js s) -> s_js s <> [] ->
  stack_counts T dt wf N w -> stack_selects N s s0 r -> two_members (s_js s0) two -> (w > 0)%nat -> sg 0%nat = s_js s0 ->
  (forall k, (k < N)%nat -> exists terms, stack_step s0 two r (INR k * dt) dt (sg k) terms (rcs k) (sg (S k))) ->
  (forall k, (k < rows_needed N w)%nat -> exists x, stack_resistance (s_kind s0) (map fst (rcs (k * w)%nat)) x) ->
  exists s', stack_runSimulation T dt wf s = (s', Ok tt).
Proof. exact stack_run_complete. Qed.
(** What a row of the stack log holds. *)
Theorem c32_row : forall t r cs,
  values "Resistance" (stack_row t r cs) = [r] /\ values "time" (stack_row t r cs) = [t] /\
  (forall q c, nth_error cs q = Some c -> values (current_key q) (stack_row t r cs) = [c]) /\
  (forall key, ~ In key (stack_keys (length cs)) -> values key (stack_row t r cs) = []).
Proof. exact stack_values. Qed.
(** Whatever is called on a fresh stack, accepted or refused with an exception: all its columns have the
    same length and every member has logged at the same times. *)
Theorem c32_columns : forall k js top bot ph s0 calls s, mkStack k js top bot ph = Ok s0 ->
  (forall j, In j js -> fresh_member j) -> stack_history calls s0 s ->
  length (s_js s) = length js /\ exists n, stack_columns s n /\
  forall j, In j (s_js s) -> aligned j /\ j_logLength j = n /\ col "time" (j_log j) = col "time" (s_log s).
Proof. exact stack_history_columns. Qed.
Theorem c32_clear : forall s s', clearLogs s = (s', Ok tt) <->
  s' = set_s_log [] (set_s_js (map (set_j_log [] 0) (s_js s)) s).
Proof. exact clear_iff. Qed.
Theorem c32_saved : forall f s s' header rows, stack_saveLogs f s = (s', Ok (Some (header, rows))) <->
  f <> ""%string /\ header = map fst (s_log s) /\
  ((exists ts, log_get "time" (s_log s) = Some ts /\ s' = s /\ saved (s_log s) (length ts) header rows) \/
   (log_get "time" (s_log s) = None /\ rows = [] /\ s' = set_s_log (s_log s ++ [("time"%string, [])])%list s)).
Proof. exact stack_save_iff. Qed.
Theorem c32_saved_noname : forall s, stack_saveLogs "" s = (s, Ok None).
Proof. exact stack_save_noname. Qed.
(** Step counts of a stack run are signed casts: a negative total time gives a huge number of steps. *)
Theorem c32_negative_time_refuted : exists T dt wf N w, T < 0 /\ stack_counts T dt wf N w /\ (N > 0)%nat.
Proof.
  exists (-1), 1, 1, (Z.to_nat 4294967295), 1%nat. split; [lra|]. split.
  - split; [lra|]. split; [lra|]. split; (split; [lra|]).
    + right. exists 1%nat. split; [lra|]. split; [cbn; lra|]. reflexivity.
    + left. split; [lra|]. left. cbn. lra.
  - lia.
Qed.
Example c32_ex : exists s', stack_runSimulation 10 1 2 ex_stack = (s', Ok tt).
Proof. exact ex_stack_runs. Qed.
Example c32_ex_history : exists s0, mkStack Series [ex_junction 3 (CV 0 0 1); ex_junction 0 (CV 0 1 0)] "free" "pinned" 0 = Ok s0 /\
  (forall j, In j (s_js s0) -> fresh_member j) /\
  stack_history [KCurrent (cdrv 5); KCoupling (1/2)] s0 (set_s_js (map (with_current (cdrv 5)) (s_js ex_stack)) ex_stack).
Proof. exact ex_stack_reachable. Qed.

(** ** C33 *)
Theorem c33_constructor : forall k js top bot ph s, mkStack k js top bot ph = Ok s <->
  (2 <= length js)%nat /\ classic_members js /\ s = STK k default_driver false [] top bot [0] true ph js.
Proof. exact mkStack_iff. Qed.
Theorem c33_oersted : forall d s s', stack_setOerstedFieldDriver d s = (s', Ok tt) <->
  populated (s_js s) /\ s' = set_s_js (s_js s') s /\ everywhere (SOersted d) (s_js s) (s_js s').
Proof. exact oersted_iff. Qed.
Theorem c33_external : forall d s s', stack_setExternalFieldDriver d s = (s', Ok tt) <->
  populated (s_js s) /\ s' = set_s_js (s_js s') s /\ everywhere (SExternalField d) (s_js s) (s_js s').
Proof. exact external_iff. Qed.
Theorem c33_current : forall d s s', setCoupledCurrentDriver d s = (s', Ok tt) <->
  populated (s_js s) /\ s' = set_s_current d true (set_s_js (s_js s') s) /\ everywhere (SCurrent d) (s_js s) (s_js s').
Proof. exact current_iff. Qed.
Theorem c33_reset_current : forall s s', resetCoupledCurrentDriver s = (s', Ok tt) <->
  populated (s_js s) /\ s' = set_s_current default_driver false (set_s_js (s_js s') s) /\
  everywhere (SCurrent default_driver) (s_js s) (s_js s').
Proof. exact reset_iff. Qed.
Theorem c33_accepted : forall d s, populated (s_js s) -> exists s', setCoupledCurrentDriver d s = (s', Ok tt).
Proof.
  intros d s HP. destruct (broadcast_accepted (SCurrent d) s I HP) as [s1 E].
  apply (broadcast_all_iff (SCurrent d)) in E; [|exact I]. destruct E as (_ & _ & HE).
  exists (set_s_current d true (set_s_js (s_js s1) s)). apply current_iff. split; [exact HP|]. split; [reflexivity|exact HE].
Qed.
(** Settings of one member leave the others alone; an index past the end is undefined behaviour. *)
Theorem c33_magnetisation : forall i id m s s', (i < length (s_js s))%nat -> populated (s_js s) ->
  (stack_setMagnetisation i id m s = (s', Ok tt) <->
   member_changed i s s' (fun j j' => set_everywhere id (SMagnetisation m) j j' /\ exists p, addressed id (SMagnetisation m) (j_layers j) p)).
Proof. exact magnetisation_iff. Qed.
Theorem c33_anisotropy : forall i id k s s', (i < length (s_js s))%nat -> populated (s_js s) ->
  (setJunctionAnisotropyDriver i id k s = (s', Ok tt) <->
   member_changed i s s' (fun j j' => set_everywhere id (SAnisotropy k) j j' /\ exists p, addressed id (SAnisotropy k) (j_layers j) p)).
Proof. exact anisotropy_iff. Qed.
Theorem c33_index_out : forall i id m k s, (length (s_js s) <= i)%nat ->
  stack_setMagnetisation i id m s = (s, Err Undefined) /\ setJunctionAnisotropyDriver i id k s = (s, Err Undefined) /\
  (exists msg, getJunction s i = Err (Throw msg)) /\ (exists msg, getJunctionLog s i = Err (Throw msg)).
Proof.
  intros i id m k s H. split; [exact (member_call_out _ i s H)|]. split; [exact (member_call_out _ i s H)|]. exact (out_of_range s i H).
Qed.
Theorem c33_couplings : forall cs s s', (1 <= length (s_js s))%nat ->
  (setCouplingStrengthN cs s = (s', Ok tt) <-> S (length cs) = length (s_js s) /\ s' = set_s_coupling cs s).
Proof. intros cs s s' H. rewrite couplings_iff. split; [intros [X|(_ & X & _)]; [exact X|lia]|intros X; left; exact X]. Qed.
Theorem c33_couplings_refused : forall cs s, (1 <= length (s_js s))%nat -> S (length cs) <> length (s_js s) ->
  exists msg, setCouplingStrengthN cs s = (s, Err (Throw msg)).
Proof. exact couplings_refused. Qed.
Theorem c33_coupling : forall c s, setCouplingStrength1 c s = (set_s_coupling [c] s, Ok tt).
Proof. exact coupling1_eq. Qed.
Theorem c33_getters : forall s i j g id m,
  (getJunction s i = Ok j <-> nth_error (s_js s) i = Some j) /\
  (getJunctionLog s i = Ok g <-> exists j, nth_error (s_js s) i = Some j /\ j_log j = g) /\
  (stack_getMagnetisation s i id = Ok m <-> exists j l, nth_error (s_js s) i = Some j /\ first_with id j l /\ m = l_mag l).
Proof. intros s i j g id m. split; [apply getJunction_iff|]. split; [apply junctionLog_iff|apply stack_getMag_iff]. Qed.
Example c33_ex : populated (s_js ex_stack) /\ (1 < length (s_js ex_stack))%nat /\
  (exists s', stack_setMagnetisation 1 "pinned" (CV 0 0 2) ex_stack = (s', Ok tt)) /\
  exists msg, setCouplingStrengthN [1; 2] ex_stack = (ex_stack, Err (Throw msg)).
Proof.
  assert (P : populated (s_js ex_stack)) by (intros j [<-|[<-|[]]]; discriminate).
  split; [exact P|]. split; [cbn; lia|]. split; [|eexists; reflexivity].
  destruct (set_accepted "pinned" (SMagnetisation (CV 0 0 2)) (ex_junction 0 (CV 0 1 0))) as [j' E].
  - exists 1%nat. eexists. split; [reflexivity|]. right. split; [reflexivity|discriminate].
  - intros p l _ _. intros X. injection X. lra.
  - unfold stack_setMagnetisation, member_call. cbn [on_member s_js ex_stack]. change (junction_set "pinned" (SMagnetisation (CV 0 0 2))) with (setLayerMagnetisation "pinned" (CV 0 0 2)) in E.
    rewrite E. eauto.
Qed.

(** ** C34 *)
(** The runner is the last member's (see [stack_selects] in [c32_run]).  With one layer and no noise in the
    last member, no layer but the first of any member ever moves. *)
Theorem c34_upper_layers_still : forall s0 two dt N w s' sg rcs rows, stack_effect s0 two RunSingle dt N w s' sg rcs rows ->
  forall k q j0 jk p l lk, (k <= N)%nat -> nth_error (s_js s0) q = Some j0 -> nth_error (sg k) q = Some jk -> (1 <= p)%nat ->
    nth_error (j_layers j0) p = Some l -> nth_error (j_layers jk) p = Some lk -> l_mag lk = l_mag l.
Proof. exact single_run_upper. Qed.
(** Members that disagree about noise are refused. *)
Theorem c34_noise_mismatch : forall T dt wf N w s jq jr, stack_counts T dt wf N w -> In jq (s_js s) -> In jr (s_js s) ->
  (exists l, In l (j_layers jq) /\ noisy l) -> ~ (exists l, In l (j_layers jr) /\ noisy l) ->
  (forall j l, In j (s_js s) -> In l (j_layers j) -> preparable N l) ->
  exists s' msg, stack_runSimulation T dt wf s = (s', Err (Throw msg)).
Proof. exact noise_mismatch. Qed.
(** A stack whose first member is a bilayer under field and exchange: its upper layer never moves. *)
Theorem c34_members_move_refuted : exists s, (exists s', stack_runSimulation 10 1 2 s = (s', Ok tt)) /\
  forall T dt wf s', stack_runSimulation T dt wf s = (s', Ok tt) ->
  exists j l, nth_error (s_js s') 0 = Some j /\ nth_error (j_layers j) 1 = Some l /\ l_mag l = CV 0 1 0.
Proof. exists ex_mixed. split; [exact ex_mixed_runs|exact ex_mixed_frozen]. Qed.
Example c34_ex : exists s', stack_runSimulation 10 1 2 ex_mixed = (s', Ok tt).
Proof. exact ex_mixed_runs. Qed.
Example c34_ex_noise : exists l k, noisy l /\ ~ noisy k /\ preparable 10 l /\ preparable 10 k.
Proof.
  exists (ex_hot "free"), (ex_layer "free" (CV 1 0 0)). split; [left; reflexivity|]. split; [intros [X|X]; [discriminate|apply X; reflexivity]|].
  split; left; reflexivity.
Qed.

Print Assumptions c30_stack_resistance.
Print Assumptions c30_series_above.
Print Assumptions c30_parallel_below.
Print Assumptions c30_parallel_defined.
Print Assumptions c31_step.
Print Assumptions c31_first_member.
Print Assumptions c31_cumulative.
Print Assumptions c31_current_values.
Print Assumptions c31_uncoupled.
Print Assumptions c31_coupling.
Print Assumptions c31_polariser.
Print Assumptions c31_delay.
Print Assumptions c32_run.
Print Assumptions c32_run_succeeds.
Print Assumptions c32_row.
Print Assumptions c32_columns.
Print Assumptions c32_clear.
Print Assumptions c32_saved.
Print Assumptions c32_saved_noname.
Print Assumptions c32_negative_time_refuted.
Print Assumptions c33_constructor.
Print Assumptions c33_oersted.
Print Assumptions c33_external.
Print Assumptions c33_current.
Print Assumptions c33_reset_current.
Print Assumptions c33_accepted.
Print Assumptions c33_magnetisation.
Print Assumptions c33_anisotropy.
Print Assumptions c33_index_out.
Print Assumptions c33_couplings.
Print Assumptions c33_couplings_refused.
Print Assumptions c33_coupling.
Print Assumptions c33_getters.
Print Assumptions c34_upper_layers_still.
Print Assumptions c34_noise_mismatch.
Print Assumptions c34_members_move_refuted.
