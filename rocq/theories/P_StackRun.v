(** Stack runs. *)
From Verif Require Export P_Stack.
Open Scope R_scope.
Open Scope st_scope.

(** ** Broadcasts *)
Lemma on_junctions_iff (f : ST junction unit) js js' :
  on_junctions f js = (js', Ok tt) <-> Forall2 (fun j j' => f j = (j', Ok tt)) js js'.
Proof.
  revert js'. induction js as [|j js IH]; intros js'; cbn [on_junctions].
  - split; [intros E; injection E as <-; constructor|intros F; inversion F; reflexivity].
  - destruct (f j) as [j1 [[]|e]] eqn:E1.
    + destruct (on_junctions f js) as [js1 r] eqn:E2. split.
      * intros E. injection E as <- ->. constructor; [exact E1|]. apply IH. reflexivity.
      * intros F. inversion F as [|x y xs ys H1 H2]; subst. rewrite E1 in H1. injection H1 as <-. apply IH in H2. congruence.
    + split; [discriminate|]. intros F. inversion F as [|x y xs ys H1 H2]; subst. congruence.
Qed.
Lemma broadcast_iff f s s' : broadcast f s = (s', Ok tt) <->
  s' = set_s_js (s_js s') s /\ Forall2 (fun j j' => f j = (j', Ok tt)) (s_js s) (s_js s').
Proof.
  unfold broadcast. destruct (on_junctions f (s_js s)) as [js r] eqn:E. split.
  - intros H. injection H as <- ->. split; [reflexivity|]. apply on_junctions_iff. exact E.
  - intros [H F]. apply on_junctions_iff in F. rewrite F in E. injection E as <- <-. congruence.
Qed.

(** ** One log entry *)
Definition wrote (t : R) (j : junction) (row : list (string * R)) (j' : junction) : Prop :=
  log_row false j t row /\ j' = set_j_log (push_all row (j_log j)) (S (j_logLength j)) j.
Lemma log_currents_row cs : forall i g, log_currents i cs g = push_all (mapi (fun q c => (current_key q, c)) i cs) g.
Proof. induction cs as [|c cs IH]; intros i g; [reflexivity|]. cbn [log_currents mapi]. rewrite IH. reflexivity. Qed.
Lemma stack_row_push t r cs g : log_push "time" t (log_currents 0 cs (log_push "Resistance" r g)) = push_all (stack_row t r cs) g.
Proof. unfold stack_row. rewrite log_currents_row. change (_ :: ?a ++ ?b)%list with ([("Resistance"%string, r)] ++ a ++ b)%list. rewrite !push_all_app. reflexivity. Qed.
Lemma log_members_sound t dt rcs s s' : log_members t dt rcs s = (s', Ok tt) ->
  exists x, stack_resistance (s_kind s) (map fst rcs) x /\
    s' = set_s_log (push_all (stack_row t x (map snd rcs)) (s_log s)) (set_s_js (s_js s') s) /\
    Forall2 (fun j j' => exists row, wrote t j row j') (s_js s) (s_js s').
Proof.
  intros E. unfold log_members in E. apply bind_inv in E. destruct E as (s1 & s2 & E1 & E). apply get_inv in E1. destruct E1 as [-> <-].
  apply bind_inv in E. destruct E as (s1 & x & E1 & E). apply lift_inv in E1. destruct E1 as [-> E1]. apply stack_resistance_iff in E1.
  apply bind_inv in E. destruct E as (s1 & [] & E2 & E). unfold logStackData in E2. apply modify_inv in E2. subst s1.
  rewrite stack_row_push in E. apply broadcast_iff in E. destruct E as [E F]. exists x. split; [exact E1|]. split.
  - rewrite E at 1. reflexivity.
  - eapply Forall2_impl_In; [|exact F]. cbv beta. intros a b _ H. apply log_sound in H. destruct H as (row & H1 & H2). exists row. split; assumption.
Qed.
Lemma classic_row j t : j_mode j = MR_CLASSIC -> exists row, log_row false j t row.
Proof.
  intros HM. unfold log_row, resistance_row. rewrite HM.
  destruct (j_layers j) as [|l0 [|l1 ls]]; eexists; eexists; (split; [reflexivity|reflexivity]).
Qed.
Lemma log_members_complete t dt rcs s x : classic_members (s_js s) -> stack_resistance (s_kind s) (map fst rcs) x ->
  exists s', log_members t dt rcs s = (s', Ok tt).
Proof.
  intros HC HX. destruct (Forall2_exists (fun j j' => logLayerParams t dt false j = (j', Ok tt)) (s_js s)) as [js HF].
  { intros j Hj. destruct (classic_row j t (HC j Hj)) as [row Hr]. eexists. apply (log_complete t dt false j row); [|exact Hr].
    intros X. rewrite (HC j Hj) in X. discriminate. }
  unfold log_members, bind, get, lift. apply stack_resistance_iff in HX. rewrite HX. unfold logStackData, modify.
  eexists. unfold broadcast. cbn [s_js set_s_log]. apply on_junctions_iff in HF. rewrite HF. reflexivity.
Qed.

(** ** Steps do not read or write logs *)
Fixpoint relog (gs js : list junction) : list junction :=
  match gs, js with
  | g :: gs, j :: js => set_j_log (j_log g) (j_logLength g) j :: relog gs js
  | _, _ => []
  end.
Lemma relog_length gs js : length gs = length js -> length (relog gs js) = length js.
Proof. revert js. induction gs as [|g gs IH]; intros [|j js] H; try discriminate; [reflexivity|]. cbn in *. f_equal. apply IH. congruence. Qed.
Lemma relog_nth gs js q x : nth_error (relog gs js) q = Some x <->
  exists g j, nth_error gs q = Some g /\ nth_error js q = Some j /\ x = set_j_log (j_log g) (j_logLength g) j.
Proof.
  revert js q. induction gs as [|g gs IH]; intros [|j js] [|q]; cbn [relog nth_error].
  1,2,3,4: split; [discriminate|intros (a & b & H & H2 & _); discriminate].
  1,2: split; [discriminate|intros (a & b & H & H2 & _); discriminate].
  - split; [intros H; injection H as <-; eauto|intros (a & b & H1 & H2 & ->); congruence].
  - apply IH.
Qed.
Lemma relog_at gs js q j : length gs = length js -> nth_error js q = Some j -> exists x, nth_error (relog gs js) q = Some x.
Proof. intros HL H. apply nth_some. rewrite relog_length by exact HL. apply (nth_lt _ _ _ H). Qed.
Lemma shared_relog s gs js p : length gs = length js -> shared_reference (set_s_js js s) p -> shared_reference (set_s_js (relog gs js) s) p.
Proof.
  intros HL (A & B & C). unfold shared_reference in *. cbn [s_js set_s_js s_top] in *. split; [exact A|]. split.
  - destruct gs, js; try discriminate. contradiction.
  - intros j Hj. apply In_nth_error in Hj. destruct Hj as [q Hq]. apply relog_nth in Hq. destruct Hq as (g & j1 & _ & Hq & ->).
    exact (C j1 (nth_error_In _ _ Hq)).
Qed.
Lemma polariser_relog s gs js two j g n p : length gs = length js -> polariser_of (set_s_js js s) two j p ->
  polariser_of (set_s_js (relog gs js) s) two (set_j_log g n j) p.
Proof. intros HL. unfold polariser_of. destruct two; [intros H; exact H|apply shared_relog, HL]. Qed.
Lemma step_relog s two r t dt gs js terms rcs js' : length gs = length js -> stack_step s two r t dt js terms rcs js' ->
  stack_step s two r t dt (relog gs js) terms rcs (relog gs js').
Proof.
  intros HL (A & L1 & L2 & L3 & HT & Hc & HM). assert (HL' : length gs = length js') by congruence.
  split; [|split; [|split; [|split; [|split; [|split; [exact Hc|]]]]]].
  - intros j Hj. apply In_nth_error in Hj. destruct Hj as [q Hq]. apply relog_nth in Hq. destruct Hq as (g & j1 & _ & Hq & ->).
    destruct (A j1 (nth_error_In _ _ Hq)) as [[m Hm] [p Hp]]. split; [exists m; exact Hm|exists p; apply polariser_relog; assumption].
  - rewrite !relog_length by assumption. exact L1.
  - rewrite relog_length by assumption. exact L2.
  - rewrite relog_length by assumption. exact L3.
  - intros i c Hi. destruct (HT i c Hi) as (j & j1 & k & m1 & m2 & p & A1 & A2 & A3 & A4 & A5 & A6).
    destruct (relog_at _ _ _ _ HL A1) as [x Hx]. destruct (relog_at _ _ _ _ HL A2) as [x1 Hx1].
    assert (Ex := proj1 (relog_nth _ _ _ _) Hx). destruct Ex as (g & j2 & _ & Hj2 & Ex). rewrite A1 in Hj2. injection Hj2 as <-.
    assert (Ex1 := proj1 (relog_nth _ _ _ _) Hx1). destruct Ex1 as (g1 & j2 & _ & Hj2 & Ex1). rewrite A2 in Hj2. injection Hj2 as <-.
    exists x, x1, k, m1, m2, p. subst x x1. split; [exact Hx|]. split; [exact Hx1|]. split; [exact A3|]. split; [exact A4|]. split; [|exact A6].
    cbn [s_delayed set_s_js] in A5 |- *. destruct (s_delayed s).
    + destruct A5 as [B1 B2]. split; [exact B1|apply polariser_relog; assumption].
    + destruct A5 as (j' & B1 & B2 & B3). destruct (relog_at _ _ _ _ HL' B1) as [y Hy].
      assert (Ey := proj1 (relog_nth _ _ _ _) Hy). destruct Ey as (gy & jy & _ & Hjy & Ey). rewrite B1 in Hjy. injection Hjy as <-.
      exists y. subst y. split; [exact Hy|]. split; [exact B2|exact B3].
  - intros q j j' x cur H1 H2 H3. cbv zeta. apply relog_nth in H1, H2. destruct H1 as (g & a & G1 & H1 & ->). destruct H2 as (g' & b & G2 & H2 & ->).
    rewrite G1 in G2. injection G2 as <-. destruct (HM q a b x cur H1 H2 H3) as (M1 & M2 & M3 & M4). split; [exact M1|]. split; [|split; [exact M3|exact M4]].
    set (d := rescaled _ _ _) in *. change (with_current d (set_j_log (j_log g) (j_logLength g) a)) with (set_j_log (j_log g) (j_logLength g) (with_current d a)).
    rewrite run_runner_log, M2. reflexivity.
Qed.
Lemma step_logs s two r t dt js terms rcs js' q j j' : stack_step s two r t dt js terms rcs js' ->
  nth_error js q = Some j -> nth_error js' q = Some j' ->
  j_log j' = j_log j /\ j_logLength j' = j_logLength j /\ j_mode j' = j_mode j /\ layerNo j' = layerNo j.
Proof.
  intros (A & L1 & L2 & L3 & HT & Hc & HM) Hj Hj'. assert (Hlt := nth_lt _ _ _ Hj). destruct (nth_some rcs q ltac:(lia)) as [[x cur] Hr].
  destruct (HM q j j' x cur Hj Hj' Hr) as (_ & M2 & _). 
  assert (K := run_runner_keeps_log r t dt (with_current (rescaled (s_current s) (factor terms q) (phase_of s q)) j)). rewrite M2 in K. cbn [fst] in K.
  destruct K as [K1 K2]. destruct (runner_mode _ _ _ _ _ M2) as [K3 K4]. rewrite with_current_layers in K4. auto.
Qed.
Lemma step_classic s two r t dt js terms rcs js' : stack_step s two r t dt js terms rcs js' -> classic_members js -> classic_members js'.
Proof.
  intros H HC j Hj. apply In_nth_error in Hj. destruct Hj as [q Hq]. assert (Hlt := nth_lt _ _ _ Hq).
  destruct (nth_some js q) as [j0 Hj0]; [destruct H as (_ & L & _); lia|].
  destruct (step_logs _ _ _ _ _ _ _ _ _ _ _ _ H Hj0 Hq) as (_ & _ & M & _). rewrite M. exact (HC j0 (nth_error_In _ _ Hj0)).
Qed.

(** ** The loop *)
Definition rows_at (kind : stack_kind) (dt : R) (rcs : nat -> list (R * R)) (i q : nat) (row : list (string * R)) : Prop :=
  exists x, stack_resistance kind (map fst (rcs (q - i)%nat)) x /\ row = stack_row (INR q * dt) x (map snd (rcs (q - i)%nat)).
Lemma list_nth_ext {A} (xs ys : list A) : length xs = length ys ->
  (forall q x y, nth_error xs q = Some x -> nth_error ys q = Some y -> x = y) -> xs = ys.
Proof. intros HL H. apply nth_error_ext_len; [congruence|]. intros p x y Hx Hy. exact (H p x y Hx Hy). Qed.
Lemma stack_sim_sound r two dt w n : forall i s s', classic_members (s_js s) -> s_js s <> [] ->
  stack_sim r two dt w n i s = (s', Ok tt) ->
  exists sg rcs rows mrows, sg 0%nat = s_js s /\ (n = 0%nat \/ (w > 0)%nat) /\
    (forall k, (k < n)%nat -> exists terms, stack_step s two r (INR (i + k) * dt) dt (sg k) terms (rcs k) (sg (S k))) /\
    Forall2 (rows_at (s_kind s) dt rcs i) (logged w i n) rows /\
    (forall p j0, nth_error (s_js s) p = Some j0 ->
       Forall2 (fun q row => log_row false (nth p (sg (S (q - i))) j0) (INR q * dt) row) (logged w i n) (mrows p)) /\
    s' = set_s_log (push_rows rows (s_log s)) (set_s_js (s_js s') s) /\ length (s_js s') = length (s_js s) /\
    forall p j0 jN j', nth_error (s_js s) p = Some j0 -> nth_error (sg n) p = Some jN -> nth_error (s_js s') p = Some j' ->
      j' = set_j_log (push_rows (mrows p) (j_log j0)) (j_logLength j0 + length (mrows p)) jN.
Proof.
  induction n as [|n IH]; intros i s s' HC HN E; cbn [stack_sim] in E.
  - apply ret_inv in E. destruct E as [-> _]. exists (fun _ => s_js s), (fun _ => []), [], (fun _ => []).
    split; [reflexivity|]. split; [auto|]. split; [intros; lia|]. split; [constructor|]. split; [intros; constructor|].
    split; [destruct s; reflexivity|]. split; [reflexivity|]. intros p j0 jN j' H1 H2 H3. rewrite H1 in H2, H3. injection H2 as <-. injection H3 as <-.
    cbn. rewrite Nat.add_0_r, set_log_self. reflexivity.
  - apply bind_inv in E. destruct E as (s1 & rc & E1 & E). apply bind_inv in E. destruct E as (s2 & [] & E2 & E).
    apply advance_iff in E1; [|exact HC|exact HN]. destruct E1 as (terms & js1 & STEP & ->).
    assert (L1 : length js1 = length (s_js s)) by apply STEP.
    assert (HC1 := step_classic _ _ _ _ _ _ _ _ _ STEP HC).
    destruct (Nat.eqb_spec w 0) as [Ew|Ew]; [discriminate|].
    assert (H2 : exists rows2 mrows2,
        (if Nat.eqb (i mod w) 0 then exists x row, stack_resistance (s_kind s) (map fst rc) x /\ row = stack_row (INR i * dt) x (map snd rc) /\ rows2 = [row] else rows2 = []) /\
        s2 = set_s_log (push_rows rows2 (s_log s)) (set_s_js (s_js s2) s) /\ length (s_js s2) = length js1 /\
        forall p j1 j2, nth_error js1 p = Some j1 -> nth_error (s_js s2) p = Some j2 ->
          (if Nat.eqb (i mod w) 0 then exists row, log_row false j1 (INR i * dt) row /\ mrows2 p = [row] else mrows2 p = []) /\
          j2 = set_j_log (push_rows (mrows2 p) (j_log j1)) (j_logLength j1 + length (mrows2 p)) j1).
    { destruct (Nat.eqb (i mod w) 0).
      - apply log_members_sound in E2. destruct E2 as (x & HX & Hs2 & HF). cbn [s_kind s_log s_js set_s_js] in HX, Hs2, HF.
        destruct (Forall2_exists (fun jj row => wrote (INR i * dt) (fst jj) row (snd jj)) (combine js1 (s_js s2))) as [rws HR].
        { intros [a b] Hab. apply In_nth_error in Hab. destruct Hab as [p Hp].
          assert (Q : nth_error js1 p = Some a /\ nth_error (s_js s2) p = Some b).
          { revert Hp. clear. revert p js1. generalize (s_js s2). intros l p js1. revert p l. induction js1 as [|x js1 IH]; intros [|p] [|y l] H; try discriminate; cbn in *; [injection H as <- <-; auto|exact (IH _ _ H)]. }
          apply Forall2_nth in HF. destruct HF as [_ HF]. destruct (HF p a b (proj1 Q) (proj2 Q)) as [row Hr]. exists row. exact Hr. }
        apply Forall2_nth in HF. destruct HF as [L2 HF].
        exists [stack_row (INR i * dt) x (map snd rc)], (fun p => [nth p rws []]). split; [eauto|]. split; [rewrite Hs2 at 1; reflexivity|].
        split; [exact L2|]. intros p j1 j2 Hj1 Hj2. apply Forall2_nth in HR. destruct HR as [LR HR].
        assert (Hc : nth_error (combine js1 (s_js s2)) p = Some (j1, j2)).
        { revert Hj1 Hj2. clear. revert p js1. generalize (s_js s2). intros l p js1. revert p l. induction js1 as [|x js1 IH]; intros [|p] [|y l] H1 H2; try discriminate; cbn in *; [congruence|exact (IH _ _ H1 H2)]. }
        assert (Hlt := nth_lt _ _ _ Hc). rewrite <- LR in Hlt. destruct (nth_some _ _ Hlt) as [row Hrow].
        destruct (HR p (j1, j2) row Hc Hrow) as [W1 W2]. cbn [fst snd] in W1, W2.
        rewrite (nth_error_nth rws p [] Hrow). split; [eauto|]. rewrite W2. cbn. rewrite Nat.add_1_r. reflexivity.
      - apply ret_inv in E2. destruct E2 as [-> _]. exists [], (fun _ => []). split; [reflexivity|]. split; [reflexivity|]. split; [reflexivity|].
        intros p j1 j2 Hj1 Hj2. cbn [s_js set_s_js] in Hj2. rewrite Hj1 in Hj2. injection Hj2 as <-. split; [reflexivity|]. cbn. rewrite Nat.add_0_r, set_log_self. reflexivity. }
    destruct H2 as (rows2 & mrows2 & HR2 & Hs2 & L2 & HM2).
    assert (HC2 : classic_members (s_js s2)).
    { intros j Hj. apply In_nth_error in Hj. destruct Hj as [p Hp]. destruct (nth_some js1 p) as [j1 Hj1]; [rewrite <- L2; exact (nth_lt _ _ _ Hp)|].
      destruct (HM2 p j1 j Hj1 Hp) as [_ ->]. exact (HC1 j1 (nth_error_In _ _ Hj1)). }
    assert (HN2 : s_js s2 <> []). { intros X. rewrite X in L2. rewrite L1 in L2. destruct (s_js s); [contradiction|discriminate]. }
    apply (IH (S i) s2 s' HC2 HN2) in E. destruct E as (sg & rcs & rows & mrows & Hs0 & _ & Hst & HF & HMF & Hs' & L' & HJ).
    assert (Lsg : forall k, (k <= n)%nat -> length (sg k) = length (s_js s)).
    { induction k as [|k IHk]; intros Hk; [rewrite Hs0, L2; exact L1|]. destruct (Hst k ltac:(lia)) as (tm & _ & X & _). rewrite X. apply IHk. lia. }
    assert (R1 : relog (s_js s) (s_js s2) = js1).
    { apply list_nth_ext; [rewrite relog_length by congruence; exact L2|]. intros q x y Hx Hy. apply relog_nth in Hx. destruct Hx as (g & j2 & Hg & Hj2 & ->).
      destruct (HM2 q y j2 Hy Hj2) as [_ ->]. destruct (step_logs _ _ _ _ _ _ _ _ _ _ _ _ STEP Hg Hy) as (G1 & G2 & _).
      rewrite set_log_twice, <- G1, <- G2. apply set_log_self. }
    exists (fun k => match k with O => s_js s | S k => relog (s_js s) (sg k) end),
           (fun k => match k with O => rc | S k => rcs k end), (rows2 ++ rows)%list, (fun p => mrows2 p ++ mrows p)%list.
    split; [reflexivity|]. split; [lia|]. split; [|split; [|split; [|split; [|split]]]].
    + intros [|k] Hk.
      * exists terms. rewrite Nat.add_0_r, Hs0, R1. exact STEP.
      * destruct (Hst k ltac:(lia)) as [tm X]. exists tm. rewrite <- Nat.add_succ_comm. rewrite Hs2 in X. apply step_relog.
        -- symmetry. apply Lsg. lia.
        -- exact X.
    + unfold logged. cbn [seq filter]. rewrite Hs2 in HF. cbn [s_kind set_s_log set_s_js] in HF.
      assert (HF' : Forall2 (rows_at (s_kind s) dt (fun k => match k with O => rc | S k => rcs k end) i) (filter (fun q => Nat.eqb (q mod w) 0) (seq (S i) n)) rows).
      { eapply Forall2_impl_In; [|exact HF]. intros q row Hq Hr. apply filter_In in Hq. destruct Hq as [Hq _]. apply in_seq in Hq.
        unfold rows_at in *. replace (q - i)%nat with (S (q - S i))%nat by lia. exact Hr. }
      destruct (Nat.eqb (i mod w) 0).
      * destruct HR2 as (x & row & X1 & X2 & ->). cbn [app]. constructor; [|exact HF']. exists x. rewrite Nat.sub_diag. auto.
      * subst rows2. exact HF'.
    + intros p j0 Hj0. assert (Hp := nth_lt _ _ _ Hj0). destruct (nth_some js1 p ltac:(lia)) as [j1 Hj1]. destruct (nth_some (s_js s2) p ltac:(lia)) as [j2 Hj2].
      destruct (HM2 p j1 j2 Hj1 Hj2) as [HR HJ2]. specialize (HMF p j2 Hj2).
      assert (HMF' : Forall2 (fun q row => log_row false (nth p (relog (s_js s) (sg (q - i)%nat)) j0) (INR q * dt) row) (filter (fun q => Nat.eqb (q mod w) 0) (seq (S i) n)) (mrows p)).
      { eapply Forall2_impl_In; [|exact HMF]. cbv beta. intros q row Hq Hr. apply filter_In in Hq. destruct Hq as [Hq _]. apply in_seq in Hq.
        replace (q - i)%nat with (S (q - S i))%nat by lia.
        destruct (nth_some (sg (S (q - S i))) p) as [jq Hjq]; [rewrite Lsg by lia; exact Hp|]. rewrite (nth_error_nth _ _ j2 Hjq) in Hr.
        assert (Hx : nth_error (relog (s_js s) (sg (S (q - S i)))) p = Some (set_j_log (j_log j0) (j_logLength j0) jq)) by (apply relog_nth; eauto).
        rewrite (nth_error_nth _ _ j0 Hx). apply log_row_log. exact Hr. }
      unfold logged. cbn [seq filter]. destruct (Nat.eqb (i mod w) 0).
      * destruct HR as (row & X1 & X2). rewrite X2. cbn [app]. constructor; [|exact HMF']. rewrite Nat.sub_diag, Hs0, R1, (nth_error_nth _ _ j0 Hj1). exact X1.
      * rewrite HR. exact HMF'.
    + rewrite Hs' at 1. rewrite Hs2 at 1. cbn [s_log set_s_log set_s_js]. unfold push_rows at 3. rewrite fold_left_app.
      fold (push_rows rows2 (s_log s)). rewrite Hs2 at 1. reflexivity.
    + congruence.
    + intros p j0 jN j' H1 H2 H3. cbv beta in H2. apply relog_nth in H2. destruct H2 as (g & jM & Hg & HjM & ->).
      rewrite H1 in Hg. injection Hg as <-. assert (Hp := nth_lt _ _ _ H1). destruct (nth_some js1 p ltac:(lia)) as [j1 Hj1]. destruct (nth_some (s_js s2) p ltac:(lia)) as [j2 Hj2].
      destruct (HM2 p j1 j2 Hj1 Hj2) as [_ ->]. rewrite (HJ p _ jM j' Hj2 HjM H3). cbn [j_log j_logLength set_j_log]. rewrite set_log_twice.
      destruct (step_logs _ _ _ _ _ _ _ _ _ _ _ _ STEP H1 Hj1) as (G1 & G2 & _). rewrite G1, G2. unfold push_rows. rewrite fold_left_app, app_length, Nat.add_assoc. reflexivity.
Qed.
Lemma stack_sim_complete r two dt w : (w > 0)%nat -> forall n i s sg rcs, classic_members (s_js s) -> s_js s <> [] -> sg 0%nat = s_js s ->
  (forall k, (k < n)%nat -> exists terms, stack_step s two r (INR (i + k) * dt) dt (sg k) terms (rcs k) (sg (S k))) ->
  (forall q, In q (logged w i n) -> exists x, stack_resistance (s_kind s) (map fst (rcs (q - i)%nat)) x) ->
  exists s', stack_sim r two dt w n i s = (s', Ok tt).
Proof.
  intros Hw. induction n as [|n IH]; intros i s sg rcs HC HN H0 Hst HX; cbn [stack_sim]; [eexists; reflexivity|].
  destruct (Hst 0%nat ltac:(lia)) as [terms STEP]. rewrite Nat.add_0_r, H0 in STEP.
  assert (HC1 := step_classic _ _ _ _ _ _ _ _ _ STEP HC). assert (L1 : length (sg 1%nat) = length (s_js s)) by apply STEP.
  unfold bind at 1. rewrite (proj2 (advance_iff r two (INR i * dt) dt s _ (rcs 0%nat) HC HN) (ex_intro _ terms (ex_intro _ (sg 1%nat) (conj STEP eq_refl)))).
  destruct (Nat.eqb_spec w 0) as [Ew|Ew]; [lia|].
  assert (NEXT : forall s2, s2 = set_s_log (s_log s2) (set_s_js (s_js s2) s) -> length (s_js s2) = length (sg 1%nat) ->
     (forall q a b, nth_error (sg 1%nat) q = Some a -> nth_error (s_js s2) q = Some b -> exists g n, b = set_j_log g n a) ->
     exists s', stack_sim r two dt w n (S i) s2 = (s', Ok tt)).
  { intros s2 Hs2 L2 HL. assert (Lsg : forall k, (k <= n)%nat -> length (sg (S k)) = length (s_js s2)).
    { induction k as [|k IHk]; intros Hk; [congruence|]. destruct (Hst (S k) ltac:(lia)) as (tm & _ & X & _). rewrite X. apply IHk. lia. }
    assert (R0 : relog (s_js s2) (sg 1%nat) = s_js s2).
    { apply list_nth_ext; [rewrite relog_length by congruence; congruence|]. intros q x y Hx Hy. apply relog_nth in Hx. destruct Hx as (g & a & Hg & Ha & ->).
      rewrite Hy in Hg. injection Hg as <-. destruct (HL q a y Ha Hy) as (gg & nn & ->). reflexivity. }
    apply (IH (S i) s2 (fun k => relog (s_js s2) (sg (S k))) (fun k => rcs (S k))).
    - intros j Hj. rewrite <- R0 in Hj. apply In_nth_error in Hj. destruct Hj as [q Hq]. apply relog_nth in Hq. destruct Hq as (g & a & _ & Ha & ->).
      exact (HC1 a (nth_error_In _ _ Ha)).
    - intros X. rewrite X in L2. rewrite L1 in L2. destruct (s_js s); [contradiction|discriminate].
    - exact R0.
    - intros k Hk. destruct (Hst (S k) ltac:(lia)) as [tm X]. exists tm. rewrite <- Nat.add_succ_comm in X. rewrite Hs2. apply step_relog; [|exact X].
      cbn [s_js set_s_js set_s_log]. symmetry. apply Lsg. lia.
    - intros q Hq. destruct (HX q) as [x Hx].
      + unfold logged in *. cbn [seq filter]. destruct (Nat.eqb (i mod w) 0); [right|]; exact Hq.
      + exists x. unfold logged in Hq. apply filter_In in Hq. destruct Hq as [Hq _]. apply in_seq in Hq.
        replace (S (q - S i)) with (q - i)%nat by lia. rewrite Hs2. exact Hx. }
  unfold bind. destruct (Nat.eqb (i mod w) 0) eqn:Em.
  - destruct (HX i) as [x Hx]. { unfold logged. cbn [seq filter]. rewrite Em. left. reflexivity. }
    rewrite Nat.sub_diag in Hx.
    destruct (log_members_complete (INR i * dt) dt (rcs 0%nat) (set_s_js (sg 1%nat) s) x HC1 Hx) as [s2 E2]. rewrite E2.
    apply log_members_sound in E2. destruct E2 as (y & _ & Hs2 & HF). apply Forall2_nth in HF. destruct HF as [L2 HF].
    apply NEXT; [rewrite Hs2 at 1; rewrite Hs2 at 2; reflexivity|exact L2|].
    intros q a b Ha Hb. destruct (HF q a b Ha Hb) as (row & _ & ->). eauto.
  - unfold ret. apply NEXT; [reflexivity|reflexivity|]. intros q a b Ha Hb. cbn [s_js set_s_js] in Hb. rewrite Ha in Hb. injection Hb as <-.
    exists (j_log a), (j_logLength a). symmetry. apply set_log_self.
Qed.

(** ** Preparation *)
Lemma pick_iff N js : forall js' rms, pick_solvers N js = (js', Ok rms) <->
  length js' = length js /\ length rms = length js /\
  forall q j j' rm, nth_error js q = Some j -> nth_error js' q = Some j' -> nth_error rms q = Some rm -> selects RK4 N j j' (fst rm) (snd rm).
Proof.
  induction js as [|j js IH]; intros js' rms; cbn [pick_solvers].
  - split.
    + intros E. injection E as <- <-. split; [reflexivity|]. split; [reflexivity|]. intros [|q]; discriminate.
    + intros (H1 & H2 & _). destruct js'; [|discriminate]. destruct rms; [reflexivity|discriminate].
  - split.
    + destruct (getSolver RK4 N j) as [j1 [rm|]] eqn:E1; [|discriminate].
      destruct (pick_solvers N js) as [js1 [rms1|]] eqn:E2; [|discriminate]. intros E. injection E as <- <-.
      destruct (proj1 (IH _ _) eq_refl) as (L1 & L2 & H). split; [cbn; congruence|]. split; [cbn; congruence|].
      intros [|q] a b c Ha Hb Hc; cbn in Ha, Hb, Hc.
      * injection Ha as <-. injection Hb as <-. injection Hc as <-. apply getSolver_iff. destruct rm; exact E1.
      * exact (H q a b c Ha Hb Hc).
    + intros (L1 & L2 & H). destruct js' as [|j1 js']; [discriminate|]. destruct rms as [|rm rms]; [discriminate|].
      assert (E1 := H 0%nat j j1 rm eq_refl eq_refl eq_refl). apply getSolver_iff in E1. rewrite <- surjective_pairing in E1. rewrite E1.
      rewrite (proj2 (IH js' rms)); [reflexivity|]. split; [cbn in *; congruence|]. split; [cbn in *; congruence|].
      intros q a b c Ha Hb Hc. exact (H (S q) a b c Ha Hb Hc).
Qed.
Lemma mode_eqb_iff a b : mode_eqb a b = true <-> a = b.
Proof. destruct a, b; cbn; split; congruence. Qed.
Lemma all_equal_iff ms : all_equal ms = true <-> forall a b, In a ms -> In b ms -> a = b.
Proof.
  induction ms as [|a ms IH]; [split; [intros _ ? ? []|reflexivity]|]. cbn [all_equal]. destruct ms as [|b ms].
  - split; [intros _ x y [<-|[]] [<-|[]]; reflexivity|reflexivity].
  - rewrite andb_true_iff, IH, mode_eqb_iff. split.
    + intros [-> H] x y [<-|Hx] [<-|Hy]; try reflexivity.
      * apply H; [left; reflexivity|exact Hy].
      * apply H; [exact Hx|left; reflexivity].
      * apply H; assumption.
    + intros H. split; [apply H; [right; left; reflexivity|left; reflexivity]|]. intros x y Hx Hy. apply H; right; assumption.
Qed.
Lemma last_some {A} (xs : list A) (d x : A) : last (map Some xs) None = Some x -> last xs d = x /\ nth_error xs (length xs - 1) = Some x.
Proof.
  induction xs as [|a xs IH]; [discriminate|]. destruct xs as [|b xs].
  - cbn. intros H. injection H as <-. auto.
  - intros H. change (last (map Some (b :: xs)) None = Some x) in H. destruct (IH H) as [I1 I2]. split; [exact I1|].
    cbn [length Nat.sub] in *. rewrite Nat.sub_0_r in I2. exact I2.
Qed.
Lemma last_map_some {A} (xs : list A) : xs <> [] -> exists x, last (map Some xs) None = Some x.
Proof.
  induction xs as [|a xs IH]; [contradiction|]. intros _. destruct xs as [|b xs]; [eexists; reflexivity|].
  destruct (IH ltac:(discriminate)) as [x Hx]. exists x. exact Hx.
Qed.
Lemma ztrunc_neg x k : (0 <= k)%Z -> x < 0 -> IZR k <= - x < IZR k + 1 -> ztrunc x = (- k)%Z.
Proof. intros Hk Hx H. unfold ztrunc. destruct (Rle_dec 0 x); [lra|]. rewrite (Int_part_unique (- x) k H). reflexivity. Qed.
Lemma Ok_inj {A} (a b : A) : Ok a = Ok b -> a = b.
Proof. intros H. injection H as H. exact H. Qed.
Lemma wrapped_iff x n : int_as_unsigned x = Ok n <-> wrapped_count x n.
Proof.
  unfold int_as_unsigned, wrapped_count, to_int.
  destruct (Rlt_dec (-2147483649) x) as [H1|H1]; [|split; [discriminate|intros [[? _] _]; lra]].
  destruct (Rlt_dec x 2147483648) as [H2|H2]; [|split; [discriminate|intros [[_ ?] _]; lra]]. cbn [rbind].
  assert (ARCH : forall y, 0 <= y -> y < 2147483649 -> exists z, (0 <= z < 2147483649)%Z /\ IZR z <= y < IZR z + 1).
  { intros y Hy Hy2. exists (Int_part y). destruct (base_Int_part y) as [B1 B2]. set (z := Int_part y) in *.
    assert (-1 < z)%Z by (apply lt_IZR; lra). assert (z < 2147483649)%Z by (apply lt_IZR; lra). split; [lia|lra]. }
  assert (UNIQ : forall (a b : nat) (y : R), INR a <= y < INR a + 1 -> INR b <= y < INR b + 1 -> a = b).
  { intros a b y Ha Hb. assert (A : (a < S b)%nat) by (apply INR_lt; rewrite S_INR; lra).
    assert (B : (b < S a)%nat) by (apply INR_lt; rewrite S_INR; lra). lia. }
  destruct (Rle_dec 0 x) as [H0|H0].
  - destruct (ARCH x H0 ltac:(lra)) as (z & Hz & Hxz). rewrite (ztrunc_nonneg x z) by (lia || lra). rewrite Z.mod_small by lia.
    assert (HI : INR (Z.to_nat z) <= x < INR (Z.to_nat z) + 1) by (rewrite INR_IZR_INZ, Z2Nat.id by lia; exact Hxz). split.
    + intros E. apply Ok_inj in E. subst n. split; [lra|]. left. split; [lra|]. left. exact HI.
    + intros [_ [[_ [H|[H _]]]|(k & H & _)]]; [|lra|lra]. rewrite (UNIQ _ _ _ HI H); reflexivity.
  - destruct (ARCH (- x) ltac:(lra) ltac:(lra)) as (z & Hz & Hxz). rewrite (ztrunc_neg x z) by (lia || lra).
    assert (HI : INR (Z.to_nat z) <= - x < INR (Z.to_nat z) + 1) by (rewrite INR_IZR_INZ, Z2Nat.id by lia; exact Hxz).
    destruct (Z.eq_dec z 0) as [->|NZ].
    + cbn [Z.opp]. rewrite Z.mod_0_l by lia. assert (Hx : -1 < x) by (cbn in Hxz; lra). split.
      * intros E. apply Ok_inj in E. subst n. split; [lra|]. left. split; [lra|]. right. split; [lra|reflexivity].
      * intros [_ [[_ [H|[H ->]]]|(k & H & _)]]; [assert (X := pos_INR n); lra|reflexivity|lra].
    + assert (Hx : x <= -1). { assert (1 <= IZR z) by (apply IZR_le; lia). lra. }
      assert (HM : ((- z) mod 4294967296 = 4294967296 - z)%Z) by (symmetry; apply (Z.mod_unique_pos _ _ (-1)); lia). rewrite HM. split.
      * intros E. apply Ok_inj in E. subst n. split; [lra|]. right. exists (Z.to_nat z). split; [lra|]. split; [exact HI|]. rewrite Z2Nat.id by lia. reflexivity.
      * intros [_ [[H _]|(k & _ & H & ->)]]; [lra|]. rewrite (UNIQ _ _ _ H HI), Z2Nat.id by lia. reflexivity.
Qed.

(** ** Whole runs *)
Lemma stack_run_sound T dt wf s s' : classic_members (s_js s) -> s_js s <> [] -> stack_runSimulation T dt wf s = (s', Ok tt) ->
  exists N w s0 r two sg rcs rows, stack_counts T dt wf N w /\ stack_selects N s s0 r /\ two_members (s_js s0) two /\
    stack_effect s0 two r dt N w s' sg rcs rows.
Proof.
  intros HC HN E. unfold stack_runSimulation in E.
  apply bind_inv in E. destruct E as (s1 & q1 & E1 & E). apply lift_inv in E1. destruct E1 as [-> E1].
  apply bind_inv in E. destruct E as (s1 & w & E2 & E). apply lift_inv in E2. destruct E2 as [-> E2].
  apply bind_inv in E. destruct E as (s1 & q2 & E3 & E). apply lift_inv in E3. destruct E3 as [-> E3].
  apply bind_inv in E. destruct E as (s1 & N & E4 & E). apply lift_inv in E4. destruct E4 as [-> E4].
  apply fdiv_inv in E1, E3. destruct E1 as [Hd ->]. destruct E3 as [_ ->]. apply wrapped_iff in E2, E4.
  destruct (Rlt_dec wf dt) as [H|H]; [discriminate|].
  apply bind_inv in E. destruct E as (s0 & rms & E5 & E).
  destruct (pick_solvers N (s_js s)) as [js x] eqn:EP. injection E5 as <- ->. apply pick_iff in EP. destruct EP as (L1 & L2 & HP).
  destruct (all_equal (map snd rms)) eqn:EA; cbn [negb] in E; [|discriminate].
  assert (HA := proj1 (all_equal_iff _) EA).
  apply bind_inv in E. destruct E as (s1 & s2 & E1 & E). apply get_inv in E1. destruct E1 as [-> ->].
  apply bind_inv in E. destruct E as (s1 & two & E1 & E). apply lift_inv in E1. destruct E1 as [-> E1]. apply two_iff in E1.
  set (r := last (map fst rms) RunMulti) in *.
  assert (HJ : js = map (fun j => set_j_layers (map prepared (j_layers j)) j) (s_js s)).
  { apply list_nth_ext; [rewrite map_length; exact L1|]. intros q a b Ha Hb. rewrite nth_error_map in Hb.
    destruct (nth_error (s_js s) q) as [j|] eqn:Ej; [|discriminate]. injection Hb as <-.
    destruct (nth_some rms q) as [rm Hrm]; [rewrite L2; exact (nth_lt _ _ _ Ej)|]. destruct (HP q j a rm Ej Ha Hrm) as (_ & -> & _). reflexivity. }
  assert (HCj : classic_members js).
  { intros j Hj. rewrite HJ in Hj. apply in_map_iff in Hj. destruct Hj as (j1 & <- & Hj1). exact (HC j1 Hj1). }
  assert (HNj : js <> []) by (intros X; subst js; destruct (s_js s); [contradiction|discriminate]).
  apply (stack_sim_sound r two dt w N 0 (set_s_js js s) s' HCj HNj) in E. destruct E as (sg & rcs & rows & mrows & Hs0 & Hw & Hst & HF & HMF & Hs' & L' & HE).
  exists N, w, (set_s_js js s), r, two, sg, rcs, rows. split; [|split; [|split; [exact E1|]]].
  - split; [exact Hd|]. split; [lra|]. split; assumption.
  - split; [rewrite HJ; reflexivity|]. split.
    + intros j l Hj Hl. apply In_nth_error in Hj. destruct Hj as [q Hq]. destruct (nth_some rms q) as [rm Hrm]; [rewrite L2; exact (nth_lt _ _ _ Hq)|].
      destruct (nth_some js q) as [j' Hj']; [rewrite L1; exact (nth_lt _ _ _ Hq)|]. destruct (HP q j j' rm Hq Hj' Hrm) as (X & _). exact (X l Hl).
    + assert (HR : rms <> []) by (intros X; subst rms; destruct (s_js s); [contradiction|discriminate]).
      destruct (last_map_some rms HR) as [[rl u] Hlast]. exists u. 
      assert (Hrl := last_some rms (RunMulti, RK4) (rl, u) Hlast). destruct Hrl as [_ Hrl].
      assert (Hu : forall q rm, nth_error rms q = Some rm -> snd rm = u).
      { intros q rm Hrm. apply HA; [apply in_map, (nth_error_In _ _ Hrm)|]. change u with (snd (rl, u)). apply in_map, (nth_error_In _ _ Hrl). }
      split.
      * intros j Hj. apply In_nth_error in Hj. destruct Hj as [q Hq]. destruct (nth_some rms q) as [rm Hrm]; [rewrite L2; exact (nth_lt _ _ _ Hq)|].
        destruct (nth_some js q) as [j' Hj']; [rewrite L1; exact (nth_lt _ _ _ Hq)|]. destruct (HP q j j' rm Hq Hj' Hrm) as (_ & _ & X & _).
        rewrite (Hu q rm Hrm) in X. exact X.
      * intros jl Hjl. destruct (last_some (s_js s) jl jl Hjl) as [_ Hjl']. rewrite L2 in Hrl.
        destruct (nth_some js (length (s_js s) - 1)) as [j' Hj']; [rewrite L1; exact (nth_lt _ _ _ Hjl')|].
        destruct (HP _ jl j' (rl, u) Hjl' Hj' Hrl) as (_ & _ & _ & X). cbn [fst snd] in X. unfold r.
        assert (Q : last (map fst rms) RunMulti = rl).
        { assert (Z : last (map Some (map fst rms)) None = Some rl).
          { clear -Hlast. induction rms as [|a rms IH]; [discriminate|]. destruct rms as [|b rms]; [cbn in *; injection Hlast as ->; reflexivity|].
            apply IH. exact Hlast. }
          exact (proj1 (last_some _ RunMulti _ Z)). }
        rewrite Q. exact X.
  - cbn [s_js set_s_js] in *. split; [exact Hs0|]. split; [exact Hw|]. split; [exact Hst|]. split; [rewrite Hs' at 1; rewrite Hs' at 2; reflexivity|].
    assert (GRID : logged w 0 N = map (fun k => k * w)%nat (seq 0 (rows_needed N w))).
    { destruct Hw as [->|Hw]; [|apply logged_grid, Hw]. unfold rows_needed. destruct w as [|w]; [reflexivity|].
      rewrite (Nat.div_small (0 + S w - 1) (S w)) by lia. reflexivity. }
    assert (AT : forall k, (k < rows_needed N w)%nat -> nth_error (logged w 0 N) k = Some (k * w)%nat).
    { intros k Hk. rewrite GRID, nth_error_map, nth_error_seq0 by exact Hk. reflexivity. }
    assert (LG : length (logged w 0 N) = rows_needed N w) by (rewrite GRID, map_length, seq_length; reflexivity).
    apply Forall2_nth in HF. destruct HF as [LR HF]. rewrite LG in LR.
    split; [exact LR|]. split.
    { intros k row Hk. assert (Hlt := nth_lt _ _ _ Hk). rewrite LR in Hlt. destruct (HF k _ row (AT k Hlt) Hk) as (x & X1 & X2).
      rewrite Nat.sub_0_r in X1, X2. eauto. }
    split. { intros key. rewrite Hs'. cbn [s_log set_s_log]. apply col_push_rows. }
    split; [exact L'|]. intros q j0 jN j' H1 H2 H3. specialize (HMF q j0 H1). specialize (HE q j0 jN j' H1 H2 H3).
    apply Forall2_nth in HMF. destruct HMF as [LM HMF]. rewrite LG in LM. split; [rewrite HE at 1; rewrite HE, LM; reflexivity|].
    exists (mrows q). split.
    + split; [exact LM|]. intros k row Hk. assert (Hlt := nth_lt _ _ _ Hk). rewrite LM in Hlt. specialize (HMF k _ row (AT k Hlt) Hk).
      cbv beta in HMF. rewrite Nat.sub_0_r in HMF. exact HMF.
    + intros key. rewrite HE. cbn [j_log set_j_log]. apply col_push_rows.
Qed.
Lemma stack_run_complete T dt wf s N w s0 r two sg rcs : classic_members (s_js s) -> s_js s <> [] ->
  stack_counts T dt wf N w -> stack_selects N s s0 r -> two_members (s_js s0) two -> (w > 0)%nat -> sg 0%nat = s_js s0 ->
  (forall k, (k < N)%nat -> exists terms, stack_step s0 two r (INR k * dt) dt (sg k) terms (rcs k) (sg (S k))) ->
  (forall k, (k < rows_needed N w)%nat -> exists x, stack_resistance (s_kind s0) (map fst (rcs (k * w)%nat)) x) ->
  exists s', stack_runSimulation T dt wf s = (s', Ok tt).
Proof.
  intros HC HN (Hd & Hle & C1 & C2) (-> & HPr & used & HU & HR) HT Hw Hsg Hst HX. unfold stack_runSimulation.
  unfold bind at 1, lift at 1. rewrite fdiv_ok by exact Hd. unfold bind at 1, lift at 1. rewrite (proj2 (wrapped_iff _ _) C2).
  unfold bind at 1, lift at 1. rewrite fdiv_ok by exact Hd. unfold bind at 1, lift at 1. rewrite (proj2 (wrapped_iff _ _) C1).
  destruct (Rlt_dec wf dt) as [H|_]; [lra|]. unfold bind at 1.
  set (js := map (fun j => set_j_layers (map prepared (j_layers j)) j) (s_js s)) in *.
  set (rms := map (fun j => (runner_table (layerNo j) used, used)) (s_js s)).
  assert (EP : pick_solvers N (s_js s) = (js, Ok rms)).
  { apply pick_iff. split; [apply map_length|]. split; [apply map_length|]. intros q j j' rm H1 H2 H3. unfold js, rms in *. rewrite nth_error_map, H1 in H2, H3.
    injection H2 as <-. injection H3 as <-. assert (Hj := nth_error_In _ _ H1). split; [intros l Hl; exact (HPr j l Hj Hl)|]. split; [reflexivity|].
    split; [exact (HU j Hj)|reflexivity]. }
  rewrite EP. assert (EA : all_equal (map snd rms) = true).
  { apply all_equal_iff. unfold rms. rewrite map_map. cbn [snd]. intros a b Ha Hb. apply in_map_iff in Ha, Hb. destruct Ha as (? & <- & _). destruct Hb as (? & <- & _). reflexivity. }
  rewrite EA. cbn [negb]. unfold bind at 1, get. unfold bind, lift. apply two_iff in HT. unfold isTwoLayerMemberStack. rewrite HT.
  assert (ER : last (map fst rms) RunMulti = r).
  { destruct (last_map_some (s_js s) HN) as [jl Hjl]. rewrite (HR jl Hjl). unfold rms. rewrite map_map. cbn [fst].
    assert (Z : last (map Some (map (fun j => runner_table (layerNo j) used) (s_js s))) None = Some (runner_table (layerNo jl) used)).
    { clear -Hjl. induction (s_js s) as [|a xs IH]; [discriminate|]. destruct xs as [|b xs]; [cbn in *; injection Hjl as ->; reflexivity|]. apply IH. exact Hjl. }
    exact (proj1 (last_some _ RunMulti _ Z)). }
  rewrite ER. apply (stack_sim_complete r two dt w Hw N 0 (set_s_js js s) sg rcs).
  - intros j Hj. cbn [s_js set_s_js] in Hj. unfold js in Hj. apply in_map_iff in Hj. destruct Hj as (j1 & <- & Hj1). exact (HC j1 Hj1).
  - cbn [s_js set_s_js]. unfold js. destruct (s_js s); [contradiction|discriminate].
  - exact Hsg.
  - exact Hst.
  - intros q Hq. rewrite logged_grid in Hq by exact Hw. apply in_map_iff in Hq. destruct Hq as (k & <- & Hk). apply in_seq in Hk.
    rewrite Nat.sub_0_r. apply HX. lia.
Qed.
