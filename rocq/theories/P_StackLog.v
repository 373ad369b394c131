(** Stack logs over call histories. *)
From Verif Require Export P_StackRun P_Log.
Open Scope R_scope.
Open Scope st_scope.

(** ** Column names *)
Lemma to_uint_nonnil n : Nat.to_uint n <> Decimal.Nil.
Proof. intros H. assert (X := Unsigned.of_to n). rewrite H in X. cbn in X. subst n. discriminate. Qed.
Lemma to_string_inj a b : to_string a = to_string b -> a = b.
Proof.
  unfold to_string. intros H. apply Unsigned.to_uint_inj. assert (X := f_equal NilZero.uint_of_string H).
  rewrite !NilZero.usu in X by apply to_uint_nonnil. congruence.
Qed.
Lemma current_key_inj a b : current_key a = current_key b -> a = b.
Proof. unfold current_key. intros H. apply to_string_inj. cbn in H. congruence. Qed.
Lemma stack_keys_nodup m : NoDup (stack_keys m).
Proof.
  unfold stack_keys. constructor; [|constructor].
  - intros [H|H]; [discriminate|]. apply in_map_iff in H. destruct H as (q & H & _). discriminate.
  - intros H. apply in_map_iff in H. destruct H as (q & H & _). discriminate.
  - generalize 0%nat. induction m as [|m IH]; intros i; cbn [seq map]; [constructor|]. constructor; [|apply IH].
    intros H. apply in_map_iff in H. destruct H as (q & H & Hq). apply current_key_inj in H. apply in_seq in Hq. lia.
Qed.
Lemma mapi_keys cs : forall i, map fst (mapi (fun q c => (current_key q, c)) i cs : list (string * R)) = map current_key (seq i (length cs)).
Proof. induction cs as [|c cs IH]; intros i; [reflexivity|]. cbn. f_equal. apply IH. Qed.
Lemma stack_row_keys t r cs key : In key (map fst (stack_row t r cs)) <-> In key (stack_keys (length cs)).
Proof.
  unfold stack_row, stack_keys. cbn [map fst In]. rewrite map_app, mapi_keys, in_app_iff. cbn [map fst In]. tauto.
Qed.
Lemma stack_row_nodup t r cs : NoDup (map fst (stack_row t r cs)).
Proof.
  unfold stack_row. cbn [map fst]. rewrite map_app, mapi_keys. cbn [map fst].
  assert (H := stack_keys_nodup (length cs)). unfold stack_keys in H. inversion H as [|? ? N1 H2]; subst. inversion H2 as [|? ? N2 H3]; subst.
  constructor.
  - rewrite in_app_iff. cbn [In] in *. tauto.
  - apply NoDup_app_intro; [exact H3|constructor; [intros []|constructor]|]. intros x Hx [<-|[]]. contradiction.
Qed.
Lemma values_at key row v : NoDup (map fst row) -> In (key, v) row -> values key row = [v].
Proof.
  unfold values. induction row as [|[k x] row IH]; intros HN H; [destruct H|]. cbn [map fst] in HN. inversion HN as [|? ? N1 N2]; subst. cbn [filter fst].
  destruct H as [H|H].
  - injection H as -> ->. rewrite String.eqb_refl. cbn [map snd]. f_equal. apply (values_none key row N1).
  - destruct (String.eqb_spec k key) as [->|X]; [exfalso; apply N1; exact (in_map fst _ _ H)|]. apply IH; assumption.
Qed.
Lemma mapi_in {A B} (f : nat -> A -> B) xs : forall i q x, nth_error xs q = Some x -> In (f (i + q)%nat x) (mapi f i xs).
Proof.
  induction xs as [|a xs IH]; intros i [|q] x H; try discriminate; cbn in *.
  - injection H as <-. left. rewrite Nat.add_0_r. reflexivity.
  - right. rewrite <- Nat.add_succ_comm. apply IH. exact H.
Qed.
Lemma stack_values t r cs : values "Resistance" (stack_row t r cs) = [r] /\ values "time" (stack_row t r cs) = [t] /\
  (forall q c, nth_error cs q = Some c -> values (current_key q) (stack_row t r cs) = [c]) /\
  (forall key, ~ In key (stack_keys (length cs)) -> values key (stack_row t r cs) = []).
Proof.
  assert (ND := stack_row_nodup t r cs). split; [|split; [|split]].
  - apply values_at; [exact ND|]. left. reflexivity.
  - apply values_at; [exact ND|]. unfold stack_row. right. apply in_or_app. right. left. reflexivity.
  - intros q c Hc. apply values_at; [exact ND|]. unfold stack_row. right. apply in_or_app. left.
    exact (mapi_in (fun q c => (current_key q, c)) cs 0 q c Hc).
  - intros key H. apply values_none. rewrite stack_row_keys. exact H.
Qed.

(** ** Calls that leave the logs alone *)
Definition quiet_j (j j' : junction) : Prop := shape j j' /\ j_log j' = j_log j /\ j_logLength j' = j_logLength j.
Lemma quiet_refl j : quiet_j j j. Proof. split; [apply shape_refl|auto]. Qed.
Lemma quiet_trans a b c : quiet_j a b -> quiet_j b c -> quiet_j a c.
Proof. intros (A & B & C) (D & E & F). split; [exact (shape_trans _ _ _ A D)|]. split; congruence. Qed.
Definition quiet_js (js js' : list junction) : Prop := Forall2 quiet_j js js'.
Lemma quiet_js_refl js : quiet_js js js.
Proof. induction js; constructor; [apply quiet_refl|assumption]. Qed.
Lemma quiet_js_trans a b c : quiet_js a b -> quiet_js b c -> quiet_js a c.
Proof.
  intros H. revert c. induction H as [|x y xs ys H1 H2 IH]; intros c H; inversion H as [|? z ? zs H3 H4]; subst; constructor;
  [exact (quiet_trans _ _ _ H1 H3)|exact (IH _ H4)].
Qed.
Lemma quiet_layers ls j : map l_id ls = ids j -> quiet_j j (set_j_layers ls j).
Proof. intros H. split; [exact (shape_layers ls j H)|]. split; reflexivity. Qed.
Lemma set_quiet id s j j' x : junction_set id s j = (j', x) -> quiet_j j j'.
Proof.
  intros E. destruct x as [[]|e].
  - apply set_success in E. destruct E as [(-> & HL & HP) _]. apply quiet_layers. apply pointwise_ids; [exact HL|].
    intros p l l' H1 H2. destruct (HP p l l' H1 H2) as [A B]. destruct (addressed_dec id s (j_layers j) p) as [X|X].
    + apply (effect_id s), (A X).
    + rewrite (B X). reflexivity.
  - apply set_failure in E. destruct E as [_ [(q & -> & HL & Hq & HP)|[-> _]]]; [|apply quiet_refl]. apply quiet_layers.
    apply pointwise_ids; [exact HL|]. intros p l l' H1 H2. destruct (HP p l l' H1 H2) as (A & B & C & D).
    destruct (lt_eq_lt_dec p q) as [[X|X]|X].
    + destruct (addressed_dec id s (j_layers j) p) as [Y|Y]; [apply (effect_id s), (A X Y)|rewrite (B X Y); reflexivity].
    + apply (refused_id s), (C X).
    + rewrite (D X). reflexivity.
Qed.
Lemma on_junctions_quiet f js js' x : (forall j j' y, f j = (j', y) -> quiet_j j j') -> on_junctions f js = (js', x) -> quiet_js js js'.
Proof.
  intros H. revert js'. induction js as [|j js IH]; intros js' E; cbn [on_junctions] in E; [injection E as <- _; constructor|].
  destruct (f j) as [j1 [u|e]] eqn:E1.
  - destruct (on_junctions f js) as [js1 y]. injection E as <- ->. constructor; [exact (H _ _ _ E1)|]. apply IH. reflexivity.
  - injection E as <- _. constructor; [exact (H _ _ _ E1)|apply quiet_js_refl].
Qed.
Lemma on_member_quiet {A} (f : ST junction A) js : forall i js' x, (forall j j' y, f j = (j', y) -> quiet_j j j') -> on_member i f js = (js', x) -> quiet_js js js'.
Proof.
  induction js as [|j js IH]; intros i js' x H E; cbn [on_member] in E; [destruct i; injection E as <- _; constructor|].
  destruct i as [|i]; cbn [on_member] in E.
  - destruct (f j) as [j1 y] eqn:E1. injection E as <- _. constructor; [exact (H _ _ _ E1)|apply quiet_js_refl].
  - destruct (on_member i f js) as [js1 y] eqn:E1. injection E as <- _. constructor; [apply quiet_refl|exact (IH i _ _ H E1)].
Qed.
Lemma member_step_quiet r t dt d j j' x : member_step r t dt d j = (j', x) -> quiet_j j j'.
Proof.
  unfold member_step, bind at 1. destruct (setLayerCurrentDriver "all" d j) as [j1 [[]|e]] eqn:E1;
    assert (Q1 := set_quiet "all" (SCurrent d) j j1 _ E1); [|intros E; injection E as <- _; exact Q1].
  unfold bind at 1. destruct (run_runner r t dt j1) as [j2 y] eqn:E2.
  assert (Q2 : quiet_j j1 j2).
  { destruct (run_runner_keeps_log r t dt j1) as [A B]. rewrite E2 in A, B. cbn [fst] in A, B. split; [exact (runner_shape _ _ _ _ _ _ E2)|auto]. }
  assert (Q := quiet_trans _ _ _ Q1 Q2). destruct y as [u|e]; [|intros E; injection E as <- _; exact Q].
  unfold bind, get, lift, ret. destruct (getMagnetoresistance j2) as [rs|]; [|intros E; injection E as <- _; exact Q].
  destruct rs as [|r0 rs]; [intros E; injection E as <- _; exact Q|]. destruct (getCurrentScalarValue d t); intros E; injection E as <- _; exact Q.
Qed.
Lemma loop_quiet s r t dt js : forall order eff prev frozen js' x, stack_loop s r t dt order eff prev frozen js = (js', x) -> quiet_js js js'.
Proof.
  induction js as [|j js IH]; intros order eff prev frozen js' x E; cbn [stack_loop] in E; [destruct frozen; injection E as <- _; constructor|].
  destruct frozen as [|f frozen]; cbn [stack_loop] in E; [injection E as <- _; apply quiet_js_refl|].
  destruct (match prev with None => _ | Some _ => _ end) as [eff'|e]; [|injection E as <- _; apply quiet_js_refl].
  destruct (localDriver s order eff') as [d|e]; [|injection E as <- _; apply quiet_js_refl].
  destruct (member_step r t dt d j) as [j1 [rc|e]] eqn:E1; assert (Q := member_step_quiet _ _ _ _ _ _ _ E1).
  - destruct (stack_loop s r t dt (S order) eff' (Some (j1, f)) frozen js) as [rest [y|y]] eqn:E2; apply IH in E2; injection E as <- _; constructor; assumption.
  - injection E as <- _. constructor; [exact Q|apply quiet_js_refl].
Qed.
Lemma pick_quiet N js : forall js' x, pick_solvers N js = (js', x) -> quiet_js js js'.
Proof.
  induction js as [|j js IH]; intros js' x E; cbn [pick_solvers] in E; [injection E as <- _; constructor|].
  unfold getSolver in E. destruct (getSolver_loop RK4 N (j_layers j)) as [ls [m|e]] eqn:E1; apply getSolver_loop_ids in E1; assert (Q := quiet_layers ls j E1).
  - destruct (pick_solvers N js) as [js1 [y|y]]; injection E as <- _; constructor; try exact Q; eapply IH; reflexivity.
  - injection E as <- _. constructor; [exact Q|apply quiet_js_refl].
Qed.

(** ** The invariant *)
Definition sgood (s : stack) : Prop :=
  NoDup (map fst (s_log s)) /\ exists n, stack_columns s n /\
  forall j, In j (s_js s) -> j_mode j = MR_CLASSIC /\ good j /\ j_logLength j = n /\ col "time" (j_log j) = col "time" (s_log s).
Definition quiet_s (s s' : stack) : Prop := s_log s' = s_log s /\ quiet_js (s_js s) (s_js s') /\ s_kind s' = s_kind s.
Lemma quiet_s_refl s : quiet_s s s. Proof. split; [reflexivity|]. split; [apply quiet_js_refl|reflexivity]. Qed.
Lemma quiet_s_trans a b c : quiet_s a b -> quiet_s b c -> quiet_s a c.
Proof. intros (A & B & C) (D & E & F). split; [congruence|]. split; [exact (quiet_js_trans _ _ _ B E)|congruence]. Qed.
Lemma sgood_quiet s s' : quiet_s s s' -> sgood s -> sgood s'.
Proof.
  intros (E & Q & _) (ND & n & HC & HM). apply Forall2_nth in Q. destruct Q as [L Q]. split; [rewrite E; exact ND|]. exists n. split.
  - unfold stack_columns in *. rewrite E, L. exact HC.
  - intros j' Hj'. apply In_nth_error in Hj'. destruct Hj' as [q Hq]. destruct (nth_some (s_js s) q) as [j Hj]; [rewrite <- L; exact (nth_lt _ _ _ Hq)|].
    destruct (Q q j j' Hj Hq) as (S1 & S2 & S3). destruct (HM j (nth_error_In _ _ Hj)) as (M1 & M2 & M3 & M4).
    split; [destruct S1 as (_ & S1 & _); congruence|]. split; [exact (good_shape _ _ S1 S2 S3 M2)|]. split; [congruence|]. rewrite S2, E. exact M4.
Qed.
Lemma sgood_log t dt rcs s s' x : sgood s -> length rcs = length (s_js s) -> log_members t dt rcs s = (s', x) -> sgood s'.
Proof.
  intros G HL E. destruct x as [[]|e].
  - destruct G as (ND & n & HC & HM). apply log_members_sound in E. destruct E as (x & _ & Es & HF). apply Forall2_nth in HF. destruct HF as [L HF].
    set (row := stack_row t x (map snd rcs)) in *. assert (V := stack_values t x (map snd rcs)). fold row in V. destruct V as (V1 & V2 & V3 & V4).
    rewrite map_length, HL in V4.
    assert (EL : s_log s' = push_all row (s_log s)) by (rewrite Es; reflexivity).
    split. { rewrite EL. clear -ND. revert ND. generalize (s_log s). induction row as [|[k v] row IH]; intros g ND; [exact ND|]. apply IH.
      clear -ND. induction g as [|[k0 c] g IH]; cbn [log_push map fst]; [constructor; [intros []|constructor]|]. cbn [map fst] in ND. inversion ND as [|? ? N1 N2]; subst.
      cbn [fst snd]. destruct (String.eqb_spec k0 k) as [->|H]; [exact ND|]. cbn [map fst]. constructor; [|exact (IH N2)]. rewrite push_keys. cbn [fst]. intuition congruence. }
    exists (S n). split.
    + intros key. rewrite EL, col_push_all, L. destruct (HC key) as [C1 C2]. split.
      * intros Hin. rewrite app_length, (C1 Hin).
        rewrite (values_length_nodup key row) by apply stack_row_nodup. destruct (in_dec _ _ _) as [I|I]; [lia|]. exfalso. apply I.
        apply stack_row_keys. rewrite map_length, HL. exact Hin.
      * intros Hin. rewrite (C2 Hin), (V4 key Hin). reflexivity.
    + intros j' Hj'. apply In_nth_error in Hj'. destruct Hj' as [q Hq]. destruct (nth_some (s_js s) q) as [j Hj]; [rewrite <- L; exact (nth_lt _ _ _ Hq)|].
      destruct (HF q j j' Hj Hq) as (mrow & W1 & ->). destruct (HM j (nth_error_In _ _ Hj)) as (M1 & M2 & M3 & M4).
      split; [exact M1|]. split; [exact (good_row j t mrow M2 W1)|]. split; [cbn; congruence|]. cbn [j_log set_j_log]. rewrite EL, !col_push_all, M4, V2.
      destruct M2 as (T1 & T2 & _). rewrite (values_time _ _ _ _ T1 T2 W1). reflexivity.
  - assert (X : s' = s); [|subst; exact G]. unfold log_members, bind, get, lift in E.
    destruct (calculateStackResistance (s_kind s) (map fst rcs)) as [x|e1] eqn:EC; [|injection E as <- _; reflexivity]. exfalso.
    assert (HC : classic_members (s_js s)) by (intros j Hj; destruct G as (_ & n & _ & HM); exact (proj1 (HM j Hj))).
    apply stack_resistance_iff in EC. destruct (log_members_complete t dt rcs s x HC EC) as [s2 E2].
    unfold log_members, bind, get, lift in E2. apply stack_resistance_iff in EC. rewrite EC in E2. congruence.
Qed.
Lemma advance_quiet r two t dt s s' x : advance_members r two t dt s = (s', x) -> quiet_s s s'.
Proof.
  unfold advance_members. destruct (freeze s two (s_js s)) as [fs|e]; [|intros E; injection E as <- _; apply quiet_s_refl].
  destruct (stack_loop _ _ _ _ _ _ _ _ _) as [js y] eqn:EL. intros E. injection E as <- _. split; [reflexivity|]. split; [|reflexivity]. exact (loop_quiet _ _ _ _ _ _ _ _ _ _ _ EL).
Qed.
Lemma sgood_classic s : sgood s -> classic_members (s_js s).
Proof. intros (_ & n & _ & HM) j Hj. exact (proj1 (HM j Hj)). Qed.
Lemma sim_sgood r two dt w n : forall i s s' x, s_js s <> [] -> sgood s -> stack_sim r two dt w n i s = (s', x) -> sgood s'.
Proof.
  induction n as [|n IH]; intros i s s' x HN G E; cbn [stack_sim] in E; [injection E as <- _; exact G|].
  unfold bind at 1 in E. destruct (advance_members r two (INR i * dt) dt s) as [s1 [rcs|e]] eqn:E1; assert (Q := advance_quiet _ _ _ _ _ _ _ E1);
    assert (G1 := sgood_quiet _ _ Q G); [|injection E as <- _; exact G1].
  apply advance_iff in E1; [|exact (sgood_classic s G)|exact HN]. destruct E1 as (terms & js' & STEP & ->).
  assert (HL : length rcs = length js') by (destruct STEP as (_ & A & B & _); congruence).
  assert (HN1 : js' <> []) by (intros X; subst js'; destruct STEP as (_ & A & _); destruct (s_js s); [contradiction|discriminate]).
  unfold bind at 1 in E. destruct (Nat.eqb w 0); [injection E as <- _; exact G1|].
  destruct (Nat.eqb (i mod w) 0).
  - destruct (log_members (INR i * dt) dt rcs (set_s_js js' s)) as [s2 [[]|e]] eqn:E2; assert (G2 := sgood_log _ _ _ _ _ _ G1 HL E2).
    + apply (IH _ _ _ _) in E; [exact E| |exact G2]. apply log_members_sound in E2. destruct E2 as (y & _ & _ & HF). apply Forall2_nth in HF. destruct HF as [L _].
      intros X. rewrite X in L. cbn in L. destruct js'; [contradiction|discriminate].
    + injection E as <- _. exact G2.
  - exact (IH (S i) (set_s_js js' s) s' x HN1 G1 E).
Qed.
Lemma run_sgood T dt wf s s' x : s_js s <> [] -> sgood s -> stack_runSimulation T dt wf s = (s', x) -> sgood s'.
Proof.
  intros HN G E. unfold stack_runSimulation, lift in E. unfold bind at 1 in E.
  destruct (fdiv wf dt) as [q1|e]; [|injection E as <- _; exact G]. unfold bind at 1 in E.
  destruct (int_as_unsigned q1) as [w|e]; [|injection E as <- _; exact G]. unfold bind at 1 in E.
  destruct (fdiv T dt) as [q2|e]; [|injection E as <- _; exact G]. unfold bind at 1 in E.
  destruct (int_as_unsigned q2) as [N|e]; [|injection E as <- _; exact G].
  destruct (Rlt_dec wf dt); [injection E as <- _; exact G|]. unfold bind at 1 in E.
  destruct (pick_solvers N (s_js s)) as [js y] eqn:EP. assert (QJ := pick_quiet _ _ _ _ EP). assert (Q : quiet_s s (set_s_js js s)) by (split; [reflexivity|split; [exact QJ|reflexivity]]).
  assert (G1 := sgood_quiet _ _ Q G).
  destruct y as [rms|e]; [|injection E as <- _; exact G1].
  destruct (negb _); [injection E as <- _; exact G1|]. unfold bind at 1, get in E. unfold bind at 1 in E.
  destruct (isTwoLayerMemberStack _) as [two|e]; [|injection E as <- _; exact G1].
  apply (sim_sgood _ _ _ _ _ _ _ _ _) in E; [exact E| |exact G1]. cbn [s_js set_s_js]. intros X. subst js. inversion QJ as [H|]. congruence.
Qed.
Lemma broadcast_quiet f s s' x : (forall j j' y, f j = (j', y) -> quiet_j j j') -> broadcast f s = (s', x) -> quiet_s s s'.
Proof.
  intros H. unfold broadcast. destruct (on_junctions f (s_js s)) as [js y] eqn:E1. intros E. injection E as <- _. split; [reflexivity|]. split; [|reflexivity].
  exact (on_junctions_quiet _ _ _ _ H E1).
Qed.
Lemma current_quiet s d b : quiet_s s (set_s_current d b s).
Proof. split; [reflexivity|]. split; [apply quiet_js_refl|reflexivity]. Qed.
Lemma coupled_quiet d b s s' x :
  (bind get (fun s => bind (modify (set_s_current d (s_currentSet s))) (fun _ => bind (broadcast (setLayerCurrentDriver "all" d)) (fun _ => modify (set_s_current d b))))) s = (s', x) ->
  quiet_s s s'.
Proof.
  unfold bind, get, modify. destruct (broadcast _ _) as [s1 [u|e]] eqn:E1; intros E; injection E as <- _;
    apply broadcast_quiet in E1; try (intros j j' y; exact (set_quiet "all" (SCurrent d) j j' y)).
  - eapply quiet_s_trans; [apply (current_quiet s d (s_currentSet s))|]. eapply quiet_s_trans; [exact E1|]. apply current_quiet.
  - eapply quiet_s_trans; [apply (current_quiet s d (s_currentSet s))|]. exact E1.
Qed.
Lemma clear_sgood s s' x : sgood s -> clearLogs s = (s', x) -> sgood s' /\ length (s_js s') = length (s_js s).
Proof.
  intros (ND & n & HC & HM) E. unfold clearLogs, bind in E.
  assert (EB : broadcast clearLog s = (set_s_js (map (fun j => set_j_log [] 0 j) (s_js s)) s, Ok tt)).
  { unfold broadcast. replace (on_junctions clearLog (s_js s)) with (map (fun j => set_j_log [] 0 j) (s_js s), Ok tt); [reflexivity|].
    clear. induction (s_js s) as [|j js IH]; [reflexivity|]. cbn [on_junctions map]. unfold clearLog at 1, modify at 1. rewrite <- IH. reflexivity. }
  rewrite EB in E. injection E as <- _. split; [|apply map_length]. split; [constructor|]. exists 0%nat. split.
  - intros key. split; reflexivity.
  - intros j Hj. cbn [s_js set_s_log set_s_js] in Hj. apply in_map_iff in Hj. destruct Hj as (j1 & <- & Hj1). destruct (HM j1 Hj1) as (M1 & M2 & M3 & M4).
    split; [exact M1|]. split; [apply clear_good, M2|]. split; reflexivity.
Qed.
Lemma quiet_length s s' : quiet_s s s' -> length (s_js s') = length (s_js s).
Proof. intros (_ & Q & _). apply Forall2_nth in Q. apply Q. Qed.
Lemma run_length T dt wf s s' x : stack_runSimulation T dt wf s = (s', x) -> length (s_js s') = length (s_js s).
Proof.
  assert (SIM : forall r two dt w n i s s' x, stack_sim r two dt w n i s = (s', x) -> length (s_js s') = length (s_js s)).
  { intros r two d w n. induction n as [|n IH]; intros i a b y E; cbn [stack_sim] in E; [injection E as <- _; reflexivity|].
    unfold bind at 1 in E. destruct (advance_members r two (INR i * d) d a) as [s1 [rcs|e]] eqn:E1; assert (Q := quiet_length _ _ (advance_quiet _ _ _ _ _ _ _ E1)); [|injection E as <- _; exact Q].
    unfold bind at 1 in E. destruct (Nat.eqb w 0); [injection E as <- _; exact Q|].
    destruct (Nat.eqb (i mod w) 0).
    - assert (LG : forall s2 z, log_members (INR i * d) d rcs s1 = (s2, z) -> length (s_js s2) = length (s_js s1)).
      { intros s2 z. unfold log_members, bind, get, lift, logStackData, modify. destruct (calculateStackResistance _ _); [|intros H; injection H as <- _; reflexivity].
        unfold broadcast. destruct (on_junctions _ _) as [js zz] eqn:EJ. intros H. injection H as <- _. cbn [s_js set_s_js set_s_log] in *. clear -EJ. revert js EJ.
        induction (s_js s1) as [|j l IH]; intros js EJ; cbn [on_junctions] in EJ; [injection EJ as <- _; reflexivity|].
        destruct (logLayerParams _ _ _ j) as [j1 [u|e]].
        - destruct (on_junctions _ l) as [l1 z1]. injection EJ as <- <-. cbn. f_equal. apply IH. reflexivity.
        - injection EJ as <- _. reflexivity. }
      destruct (log_members (INR i * d) d rcs s1) as [s2 [u|e]] eqn:E2; rewrite <- Q, <- (LG _ _ eq_refl); [exact (IH _ _ _ _ E)|injection E as <- _; reflexivity].
    - rewrite <- Q. exact (IH _ _ _ _ E). }
  intros E. unfold stack_runSimulation, lift in E. unfold bind at 1 in E.
  destruct (fdiv wf dt) as [q1|e]; [|injection E as <- _; reflexivity]. unfold bind at 1 in E.
  destruct (int_as_unsigned q1) as [w|e]; [|injection E as <- _; reflexivity]. unfold bind at 1 in E.
  destruct (fdiv T dt) as [q2|e]; [|injection E as <- _; reflexivity]. unfold bind at 1 in E.
  destruct (int_as_unsigned q2) as [N|e]; [|injection E as <- _; reflexivity].
  destruct (Rlt_dec wf dt); [injection E as <- _; reflexivity|]. unfold bind at 1 in E.
  destruct (pick_solvers N (s_js s)) as [js y] eqn:EP. assert (QJ := pick_quiet _ _ _ _ EP). apply Forall2_nth in QJ. destruct QJ as [L _].
  destruct y as [rms|e]; [|injection E as <- _; exact L].
  destruct (negb _); [injection E as <- _; exact L|]. unfold bind at 1, get in E. unfold bind at 1 in E.
  destruct (isTwoLayerMemberStack _) as [two|e]; [|injection E as <- _; exact L].
  apply SIM in E. rewrite E. exact L.
Qed.
Lemma do_sgood a s s' x : s_js s <> [] -> sgood s -> stack_do a s = (s', x) -> sgood s' /\ length (s_js s') = length (s_js s).
Proof.
  intros HN G E. assert (QUIET : quiet_s s s' -> sgood s' /\ length (s_js s') = length (s_js s)).
  { intros Q. split; [exact (sgood_quiet _ _ Q G)|exact (quiet_length _ _ Q)]. }
  destruct a; cbn [stack_do] in E.
  - split; [exact (run_sgood _ _ _ _ _ _ HN G E)|exact (run_length _ _ _ _ _ _ E)].
  - exact (clear_sgood _ _ _ G E).
  - apply QUIET. eapply broadcast_quiet; [|exact E]. intros j j' y. exact (set_quiet "all" (SOersted d) j j' y).
  - apply QUIET. eapply broadcast_quiet; [|exact E]. intros j j' y. exact (set_quiet "all" (SExternalField d) j j' y).
  - apply QUIET. exact (coupled_quiet d true s s' x E).
  - apply QUIET. exact (coupled_quiet (slice DynNull) false s s' x E).
  - apply QUIET. injection E as <- _. split; [reflexivity|split; [apply quiet_js_refl|reflexivity]].
  - apply QUIET. unfold setCouplingStrengthN, bind, get, modify, fail in E. destruct (Nat.eqb _ _); injection E as <- _; [|apply quiet_s_refl]. split; [reflexivity|split; [apply quiet_js_refl|reflexivity]].
  - apply QUIET. unfold setDelayed, bind, get, modify, fail, lift in E. destruct b; [injection E as <- _; split; [reflexivity|split; [apply quiet_js_refl|reflexivity]]|].
    destruct (isTwoLayerMemberStack s) as [[]|]; injection E as <- _; try apply quiet_s_refl. split; [reflexivity|split; [apply quiet_js_refl|reflexivity]].
  - apply QUIET. unfold stack_setMagnetisation, member_call in E. destruct (on_member _ _ _) as [js y] eqn:E1. injection E as <- _. split; [reflexivity|]. split; [|reflexivity].
    eapply on_member_quiet; [|exact E1]. intros j j' z. exact (set_quiet id (SMagnetisation m) j j' z).
  - apply QUIET. unfold setJunctionAnisotropyDriver, member_call in E. destruct (on_member _ _ _) as [js y] eqn:E1. injection E as <- _. split; [reflexivity|]. split; [|reflexivity].
    eapply on_member_quiet; [|exact E1]. intros j j' z. exact (set_quiet id (SAnisotropy k) j j' z).
  - unfold stack_saveLogs, bind, get, modify, ret, lift in E. destruct (String.eqb file ""); [injection E as <- _; auto|].
    destruct (log_get "time" (s_log s)) as [ts|] eqn:ET.
    + destruct (save_rows _ _ _); injection E as <- _; auto.
    + injection E as <- _. split; [|reflexivity]. destruct G as (ND & n & HC & HM).
      assert (CE : forall key, col key (s_log s ++ [("time"%string, [])])%list = col key (s_log s)).
      { intros key. unfold col. clear -ET. induction (s_log s) as [|[k c] g IH]; cbn [app log_get]; cbn [log_get] in ET.
        - destruct (String.eqb "time" key); reflexivity.
        - destruct (String.eqb_spec k "time") as [X|X]; [discriminate|]. specialize (IH ET). destruct (String.eqb k key); [reflexivity|exact IH]. }
      split; [|exists n; split].
      * cbn [s_log set_s_log]. rewrite map_app. apply NoDup_app_intro; [exact ND|constructor; [intros []|constructor]|]. intros y Hy [<-|[]].
        clear -ET Hy. induction (s_log s) as [|[k c] g IH]; [destruct Hy|]. cbn [log_get] in ET. destruct (String.eqb_spec k "time") as [X|X]; [discriminate|].
        destruct Hy as [Hy|Hy]; [contradiction|exact (IH ET Hy)].
      * intros key. cbn [s_log s_js set_s_log]. rewrite CE. apply HC.
      * intros j Hj. cbn [s_log s_js set_s_log] in *. rewrite CE. apply HM. exact Hj.
Qed.
Lemma history_sgood calls s s' : stack_history calls s s' -> s_js s <> [] -> sgood s -> sgood s' /\ length (s_js s') = length (s_js s).
Proof.
  induction 1 as [s|a calls s s1 s2 r E _ H IH]; intros HN G; [auto|]. destruct (do_sgood _ _ _ _ HN G E) as [G1 L1].
  destruct IH as [G2 L2]; [intros X; rewrite X in L1; destruct (s_js s); [contradiction|discriminate]|exact G1|]. split; [exact G2|congruence].
Qed.
Lemma mkStack_iff k js top bot ph s : mkStack k js top bot ph = Ok s <->
  (2 <= length js)%nat /\ classic_members js /\ s = STK k default_driver false [] top bot [0] true ph js.
Proof.
  unfold mkStack. destruct (Nat.ltb_spec (length js) 2) as [H|H]; [split; [discriminate|intros [X _]; lia]|].
  destruct (existsb (fun j => negb (is_classic j)) js) eqn:EX.
  - split; [discriminate|]. intros (_ & HC & _). apply existsb_exists in EX. destruct EX as (j & Hj & X). rewrite negb_true_iff in X. unfold is_classic in X. rewrite (HC j Hj) in X. discriminate.
  - assert (HC : classic_members js).
    { intros j Hj. destruct (is_classic j) eqn:E1; [unfold is_classic in E1; destruct (j_mode j); congruence|]. exfalso.
      assert (X : existsb (fun j => negb (is_classic j)) js = true) by (apply existsb_exists; exists j; rewrite E1; auto). congruence. }
    split; [intros E; injection E as <-; auto|intros (_ & _ & ->); reflexivity].
Qed.
Lemma fresh_good j : fresh_member j -> good j /\ j_log j = [] /\ j_logLength j = 0%nat.
Proof.
  intros (ls & H & ND). destruct (constructed_good ls j H ND) as [G _]. split; [exact G|].
  destruct H as [E|[(Rp & Rap & E)|(a & b & c & d & e & f & g & E)]].
  - destruct ls; [discriminate|]. injection E as <-. auto.
  - unfold Junction_classic in E. destruct ls as [|l0 [|l1 [|l2 ls]]]; try discriminate.
    + destruct (Req_EM_T _ 0); [discriminate|]. injection E as <-. auto.
    + injection E as <-. auto.
  - unfold Junction_strip in E. destruct (Nat.eqb (length ls) 0); [discriminate|].
    match type of E with (if ?b then _ else _) = _ => destruct b eqn:EB; [discriminate|] end. injection E as <-. auto.
Qed.
Lemma stack_history_columns k js top bot ph s0 calls s : mkStack k js top bot ph = Ok s0 -> (forall j, In j js -> fresh_member j) ->
  stack_history calls s0 s ->
  length (s_js s) = length js /\ exists n, stack_columns s n /\
  forall j, In j (s_js s) -> aligned j /\ j_logLength j = n /\ col "time" (j_log j) = col "time" (s_log s).
Proof.
  intros H0 HF HH. apply mkStack_iff in H0. destruct H0 as (HL & HC & ->).
  destruct (history_sgood _ _ _ HH) as [(ND & n & C & M) L].
  - cbn. destruct js; [cbn in HL; lia|discriminate].
  - split; [constructor|]. exists 0%nat. split; [intros key; split; reflexivity|]. intros j Hj. destruct (fresh_good j (HF j Hj)) as (G & L1 & L2).
    split; [exact (HC j Hj)|]. split; [exact G|]. split; [exact L2|]. rewrite L1. reflexivity.
  - split; [exact L|]. exists n. split; [exact C|]. intros j Hj. destruct (M j Hj) as (_ & G & X & Y). split; [exact (good_aligned j G)|auto].
Qed.
