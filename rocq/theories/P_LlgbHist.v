(** Lemmas on whole runs, histories and setters of the Landau-Lifshitz-Bloch junction. *)
From Verif Require Export P_LlgbRun.
Open Scope R_scope.
Open Scope st_scope.

Definition b_step_at (mode : solver_mode) (t0 dt : R) (s : nat -> list blayer) (k : nat) : Prop :=
  Forall2 (b_moves mode (t0 + INR (S k) * dt) dt) (s k) (s (S k)).
Definition b_row_at (t0 dt : R) (s : nat -> list blayer) (i q : nat) : list (string * R) :=
  b_row (s (S (q - i))) (t0 + INR (S (q - i)) * dt).
Lemma loop_iff mode runner dt w : b_getSolver mode = Ok runner -> (w > 0)%nat -> forall n i j j',
  b_sim_loop runner dt w n i j = (j', Ok tt) <->
  exists s, s 0%nat = bj_layers j /\ (forall k, (k < n)%nat -> b_step_at mode (bj_time j) dt s k) /\
    j' = BJ (s n) (push_rows (map (b_row_at (bj_time j) dt s i) (logged w i n)) (bj_log j))
            (bj_logLength j + length (logged w i n)) (bj_time j + INR n * dt).
Proof.
  intros HR Hw. induction n as [|n IH]; intros i j j'.
  - cbn [b_sim_loop]. unfold ret. split.
    + intros H. injection H as <-. exists (fun _ => bj_layers j). split; [reflexivity|]. split; [intros; lia|].
      cbn. rewrite Nat.add_0_r, Rmult_0_l, Rplus_0_r. destruct j; reflexivity.
    + intros (s & H0 & _ & ->). cbn. rewrite H0, Nat.add_0_r, Rmult_0_l, Rplus_0_r. destruct j; reflexivity.
  - cbn [b_sim_loop]. rewrite modify_bind, get_bind. cbn [bj_time set_bj_time]. rewrite bind_iff.
    assert (ROW : forall s q, In q (logged w (S i) n) -> b_row_at (bj_time j + dt) dt (fun k => s (S k)) (S i) q = b_row_at (bj_time j) dt s i q).
    { intros s q Hq. unfold logged in Hq. apply filter_In in Hq. destruct Hq as [Hq _]. apply in_seq in Hq. unfold b_row_at.
      replace (q - i)%nat with (S (q - S i)) by lia. f_equal. rewrite !S_INR. ring. }
    assert (ONE : forall k, bj_time j + dt + INR (S k) * dt = bj_time j + INR (S (S k)) * dt) by (intros k; rewrite !S_INR; ring).
    destruct (Nat.eqb_spec w 0) as [Ew|Ew]; [lia|].
    assert (LOG : forall j1, bj_layers (set_bj_layers j1 (set_bj_time (bj_time j + dt) j)) = j1) by reflexivity.
    assert (MID : forall ls1 x j2, (if Nat.eqb (i mod w) 0 then b_logLayerParams (bj_time j + dt) dt else ret tt) (set_bj_layers ls1 (set_bj_time (bj_time j + dt) j)) = (j2, Ok x) <->
        j2 = BJ ls1 (push_rows (if Nat.eqb (i mod w) 0 then [b_row ls1 (bj_time j + dt)] else []) (bj_log j))
           (bj_logLength j + length (if Nat.eqb (i mod w) 0 then [b_row ls1 (bj_time j + dt)] else [])) (bj_time j + dt)).
    { intros ls1 x j2. destruct x. destruct (Nat.eqb (i mod w) 0).
      - rewrite log_row_push. cbn. rewrite Nat.add_1_r. split; [intros H; injection H as <-; reflexivity|intros ->; reflexivity].
      - unfold ret. cbn. rewrite Nat.add_0_r. split; [intros H; injection H as <-; reflexivity|intros ->; reflexivity]. }
    assert (SPLIT : forall s : nat -> list blayer, s 1%nat = s 1%nat -> push_rows (map (b_row_at (bj_time j) dt s i) (logged w i (S n))) (bj_log j) =
        push_rows (map (b_row_at (bj_time j + dt) dt (fun k => s (S k)) (S i)) (logged w (S i) n)) (push_rows (if Nat.eqb (i mod w) 0 then [b_row (s 1%nat) (bj_time j + dt)] else []) (bj_log j)) /\
        length (logged w i (S n)) = (length (if Nat.eqb (i mod w) 0 then [b_row (s 1%nat) (bj_time j + dt)] else []) + length (logged w (S i) n))%nat).
    { intros s _. rewrite (map_ext_in _ (b_row_at (bj_time j) dt s i) (logged w (S i) n)) by (intros q Hq; apply ROW, Hq).
      assert (LG : logged w i (S n) = if Nat.eqb (i mod w) 0 then i :: logged w (S i) n else logged w (S i) n) by reflexivity. rewrite LG. destruct (Nat.eqb (i mod w) 0).
      - split; [|reflexivity]. cbn [map]. unfold push_rows. cbn [fold_left]. f_equal. unfold b_row_at. rewrite Nat.sub_diag. cbn [INR]. rewrite Rmult_1_l. reflexivity.
      - split; reflexivity. }
    split.
    + intros (j1 & u & E1 & E). destruct u. apply (step_mode_iff mode runner _ _ _ _ HR) in E1. destruct E1 as [F1 E1]. cbn [bj_layers set_bj_time] in F1.
      rewrite E1 in E. rewrite bind_iff in E. destruct E as (j2 & u & E2 & E). apply MID in E2. subst j2. apply IH in E. destruct E as (s & H0 & Hs & ->).
      cbn [bj_layers bj_time bj_log bj_logLength] in *. exists (fun k => match k with O => bj_layers j | S k => s k end). split; [reflexivity|]. split.
      * intros [|k] Hk; unfold b_step_at.
        -- rewrite H0. cbn [INR]. rewrite Rmult_1_l. exact F1.
        -- rewrite <- ONE. apply Hs. lia.
      * destruct (SPLIT (fun k => match k with O => bj_layers j | S k => s k end) eq_refl) as [S1 S2]. rewrite S1, S2.
        change (fun k => s k) with s. rewrite H0, S_INR, Nat.add_assoc. f_equal. ring.
    + intros (s & H0 & Hs & ->). exists (set_bj_layers (s 1%nat) (set_bj_time (bj_time j + dt) j)), tt. split.
      * apply (step_mode_iff mode runner _ _ _ _ HR). split; [|reflexivity]. specialize (Hs 0%nat ltac:(lia)). unfold b_step_at in Hs.
        cbn [INR] in Hs. rewrite Rmult_1_l, H0 in Hs. exact Hs.
      * rewrite bind_iff. eexists _, tt. split; [apply MID; reflexivity|]. apply IH. exists (fun k => s (S k)). cbn [bj_layers bj_time bj_log bj_logLength].
        split; [reflexivity|]. split.
        -- intros k Hk. unfold b_step_at. rewrite ONE. apply Hs. lia.
        -- destruct (SPLIT s eq_refl) as [S1 S2]. rewrite S1, S2, S_INR, Nat.add_assoc. f_equal. ring.
Qed.
Lemma run_iff T dt wf mode j j' : b_runSimulation T dt wf mode j = (j', Ok tt) <->
  exists N w runner, stack_counts T dt wf N w /\ b_getSolver mode = Ok runner /\ b_sim_loop runner dt w N 0 j = (j', Ok tt).
Proof.
  unfold b_runSimulation, stack_counts. destruct (Rlt_dec wf dt) as [H|H].
  - split; [discriminate|]. intros (N & w & r & (_ & ? & _) & _). lra.
  - rewrite bind_fdiv, bind_value. split.
    + intros (Hd & N & HN & E). apply wrapped_iff in HN. rewrite bind_fdiv, bind_value in E. destruct E as (_ & w & Hw & E). apply wrapped_iff in Hw.
      rewrite bind_value in E. destruct E as (r & Hr & E). exists N, w, r. repeat split; auto; try apply HN; try apply Hw; lra.
    + intros (N & w & r & (Hd & _ & HN & Hw) & Hr & E). apply wrapped_iff in HN. apply wrapped_iff in Hw.
      split; [exact Hd|]. exists N. split; [exact HN|]. rewrite bind_fdiv, bind_value. split; [exact Hd|]. exists w. split; [exact Hw|].
      rewrite bind_value. exists r. auto.
Qed.
Lemma w_positive runner dt w n i j j' : b_sim_loop runner dt w (S n) i j = (j', Ok tt) -> (w > 0)%nat.
Proof.
  cbn [b_sim_loop]. rewrite modify_bind, get_bind, bind_iff. intros (j1 & u & _ & E). rewrite bind_iff in E. destruct E as (j2 & u2 & E & _).
  destruct (Nat.eqb_spec w 0); [discriminate|lia].
Qed.
Lemma loop_zero runner dt w i j j' : b_sim_loop runner dt w 0 i j = (j', Ok tt) <-> j' = j.
Proof. cbn. unfold ret. split; [intros H; injection H as <-; reflexivity|intros ->; reflexivity]. Qed.
Lemma rows_grid t0 dt s N w : (w > 0)%nat -> map (b_row_at t0 dt s 0) (logged w 0 N) = b_rows t0 dt s N w.
Proof.
  intros Hw. rewrite logged_grid by exact Hw. unfold b_rows. rewrite map_map. apply map_ext. intros k. unfold b_row_at. rewrite Nat.sub_0_r. reflexivity.
Qed.
Lemma col_push_rows rows g key : col key (push_rows rows g) = (col key g ++ flat_map (values key) rows)%list.
Proof.
  revert g. induction rows as [|r rows IH]; intros g; cbn [push_rows fold_left flat_map].
  - rewrite app_nil_r. reflexivity.
  - unfold push_rows in IH. rewrite IH, col_push_all, app_assoc. reflexivity.
Qed.
Lemma rows_zero w : rows_needed 0 w = 0%nat.
Proof. unfold rows_needed. destruct w as [|w]; [reflexivity|]. apply Nat.div_small. lia. Qed.
Lemma run_sound T dt wf mode j j' : b_runSimulation T dt wf mode j = (j', Ok tt) ->
  exists N w, stack_counts T dt wf N w /\ (mode = HEUN \/ mode = EULER_HEUN) /\ (N = 0%nat \/ (w > 0)%nat) /\ b_run_effect mode dt N w j j'.
Proof.
  intros H. apply run_iff in H. destruct H as (N & w & r & HC & HR & E). exists N, w. split; [exact HC|]. split; [apply solver_iff; eauto|].
  destruct N as [|N].
  - split; [auto|]. apply loop_zero in E. subst j'. exists (fun _ => bj_layers j). split; [reflexivity|]. split; [intros k Hk; lia|].
    unfold b_rows. rewrite rows_zero. cbn. rewrite Nat.add_0_r. repeat split; [ring|]. intros key. rewrite app_nil_r. reflexivity.
  - pose proof (w_positive _ _ _ _ _ _ _ E) as Hw. split; [auto|]. apply (loop_iff mode r dt w HR Hw) in E. destruct E as (s & H0 & Hs & ->).
    exists s. split; [exact H0|]. split; [exact Hs|]. cbn [bj_layers bj_time bj_log bj_logLength]. split; [reflexivity|]. split; [reflexivity|].
    rewrite rows_grid by exact Hw. rewrite logged_grid, map_length, seq_length by exact Hw. split; [reflexivity|]. intros key. apply col_push_rows.
Qed.
Lemma run_complete T dt wf mode j N w s : stack_counts T dt wf N w -> mode = HEUN \/ mode = EULER_HEUN -> (N = 0%nat \/ (w > 0)%nat) ->
  s 0%nat = bj_layers j -> b_trajectory mode (bj_time j) dt s N ->
  exists j', b_runSimulation T dt wf mode j = (j', Ok tt).
Proof.
  intros HC HM HN H0 HT. apply solver_iff in HM. destruct HM as [r HR]. destruct N as [|N].
  - exists j. apply run_iff. exists 0%nat, w, r. split; [exact HC|]. split; [exact HR|]. reflexivity.
  - assert (Hw : (w > 0)%nat) by lia. eexists. apply run_iff. exists (S N), w, r. split; [exact HC|]. split; [exact HR|].
    apply (loop_iff mode r dt w HR Hw). exists s. split; [exact H0|]. split; [exact HT|]. reflexivity.
Qed.
(** ** Setters *)
Lemma addressed_iff id l : String.eqb (b_id l) id || String.eqb id "all" = true <-> b_addressed id l.
Proof. unfold b_addressed. rewrite orb_true_iff, !String.eqb_eq. tauto. Qed.
Definition b_update (s : b_setting) : blayer -> blayer :=
  match s with
  | BTemperature d => set_b_temperature d | BExternal d => set_b_external d | BAnisotropy d => set_b_anisotropy d
  | BEquilibrium v => set_b_me v | BSusceptibility v => set_b_chi v
  end.
Lemma member_update id s : b_member id s = b_layerSetter id (b_update s).
Proof. destruct s; reflexivity. Qed.
Lemma effect_update s l l' : b_effect s l l' <-> l' = b_update s l.
Proof.
  split.
  - unfold b_effect. intros H. destruct l, l', s; cbn in *; decompose [and] H; clear H; subst; reflexivity.
  - intros ->. unfold b_effect. destruct s; cbn; repeat split.
Qed.
Lemma setter_found id f ls : snd (b_setter_loop id f ls) = true <-> exists l, In l ls /\ b_addressed id l.
Proof.
  induction ls as [|l ls IH]; cbn.
  - split; [discriminate|]. intros (l & [] & _).
  - destruct (String.eqb (b_id l) id || String.eqb id "all") eqn:E.
    + cbn. split; [|reflexivity]. intros _. exists l. split; [auto|]. apply addressed_iff, E.
    + cbn. rewrite IH. split.
      * intros (x & Hx & Ha). exists x. auto.
      * intros (x & [<-|Hx] & Ha); [apply addressed_iff in Ha; congruence|eauto].
Qed.
Lemma setter_layers id f ls ls' : fst (b_setter_loop id f ls) = ls' <-> Forall2 (fun l l' => (b_addressed id l -> l' = f l) /\ (~ b_addressed id l -> l' = l)) ls ls'.
Proof.
  revert ls'. induction ls as [|l ls IH]; intros ls'; cbn.
  - split; [intros <-; constructor|]. intros H. inversion H. reflexivity.
  - destruct (String.eqb (b_id l) id || String.eqb id "all") eqn:E; cbn.
    + apply addressed_iff in E. split.
      * intros <-. constructor; [split; tauto|]. apply IH. reflexivity.
      * intros H. inversion H as [|a b c d [H1 _] H2]; subst. apply IH in H2. rewrite H2, (H1 E). reflexivity.
    + assert (NE : ~ b_addressed id l) by (rewrite <- addressed_iff; congruence). split.
      * intros <-. constructor; [split; tauto|]. apply IH. reflexivity.
      * intros H. inversion H as [|a b c d [_ H1] H2]; subst. apply IH in H2. rewrite H2, (H1 NE). reflexivity.
Qed.
Lemma setter_iff id s j j' x : b_member id s j = (j', x) <->
  Forall2 (fun l l' => (b_addressed id l -> b_effect s l l') /\ (~ b_addressed id l -> l' = l)) (bj_layers j) (bj_layers j') /\
  j' = set_bj_layers (bj_layers j') j /\
  ((exists l, In l (bj_layers j) /\ b_addressed id l) /\ x = Ok tt \/
   ~ (exists l, In l (bj_layers j) /\ b_addressed id l) /\ x = Err (Throw "Failed to find a layer with a given id")).
Proof.
  assert (EQ : Forall2 (fun l l' => (b_addressed id l -> b_effect s l l') /\ (~ b_addressed id l -> l' = l)) (bj_layers j) (bj_layers j') <->
      fst (b_setter_loop id (b_update s) (bj_layers j)) = bj_layers j').
  { rewrite setter_layers. split; intros H; eapply Forall2_impl_In; try exact H; intros a b _; cbv beta; rewrite effect_update; tauto. }
  rewrite EQ, member_update. unfold b_layerSetter. pose proof (setter_found id (b_update s) (bj_layers j)) as F.
  destruct (b_setter_loop id (b_update s) (bj_layers j)) as [ls [|]]; cbn [fst snd] in *.
  - split.
    + intros H. injection H as <- <-. cbn. split; [reflexivity|]. split; [reflexivity|]. left. split; [apply F; reflexivity|reflexivity].
    + intros (-> & -> & [[_ ->]|[N _]]); [reflexivity|]. exfalso. apply N, F. reflexivity.
  - split.
    + intros H. injection H as <- <-. cbn. split; [reflexivity|]. split; [reflexivity|]. right. split; [|reflexivity]. intros X. apply F in X. discriminate.
    + intros (-> & -> & [[X _]|[_ ->]]); [|reflexivity]. apply F in X. discriminate.
Qed.
(** ** Clock *)
Lemma history_clock os : forall j j', b_history os j j' -> b_clock os (bj_time j) (bj_time j').
Proof.
  induction os as [|o os IH]; intros j j' H; inversion H as [|o' os' ja j1 j2 E H' E1 E2]; subst; [constructor|].
  apply IH in H'. destruct o as [T dt wf mode| |id s]; cbn in E.
  - apply run_sound in E. destruct E as (N & w & HC & _ & _ & (sq & _ & _ & _ & Ht & _)). rewrite Ht in H'. econstructor; eassumption.
  - unfold b_clearLog in E. injection E as <-. constructor. exact H'.
  - apply setter_iff in E. destruct E as (_ & E & _). rewrite E in H'. cbn in H'. constructor. exact H'.
Qed.
Lemma counts_det T dt wf N w N' w' : stack_counts T dt wf N w -> stack_counts T dt wf N' w' -> N = N' /\ w = w'.
Proof.
  unfold stack_counts. intros (_ & _ & A & B) (_ & _ & A' & B'). apply wrapped_iff in A. apply wrapped_iff in B. apply wrapped_iff in A'. apply wrapped_iff in B'.
  rewrite A in A'. rewrite B in B'. split; [exact (Ok_inj _ _ A')|exact (Ok_inj _ _ B')].
Qed.
Lemma clock_det os : forall t a b, b_clock os t a -> b_clock os t b -> a = b.
Proof.
  induction os as [|o os IH]; intros t a b H1 H2; [inversion H1; inversion H2; subst; reflexivity|].
  destruct o as [T dt wf mode| |id s].
  - inversion H1 as [|? ? ? ? N w ? ? ? C1 K1| |]. inversion H2 as [|? ? ? ? N' w' ? ? ? C2 K2| |]. subst.
    destruct (counts_det _ _ _ _ _ _ _ C1 C2) as [-> _]. exact (IH _ _ _ K1 K2).
  - inversion H1; inversion H2; subst. eauto.
  - inversion H1; inversion H2; subst. eauto.
Qed.
(** A run that is refused changes nothing. *)
Lemma run_refused T dt wf mode j : wf < dt \/ (exists N w, stack_counts T dt wf N w /\ mode <> HEUN /\ mode <> EULER_HEUN) ->
  exists msg, b_runSimulation T dt wf mode j = (j, Err (Throw msg)).
Proof.
  intros [H|(N & w & (Hd & Hw & HN & HW) & M1 & M2)]; unfold b_runSimulation.
  - destruct (Rlt_dec wf dt); [eexists; reflexivity|lra].
  - destruct (Rlt_dec wf dt); [lra|]. apply wrapped_iff in HN. apply wrapped_iff in HW. rewrite lift_bind, fdiv_ok by exact Hd. rewrite lift_bind, HN, lift_bind, fdiv_ok by exact Hd.
    rewrite lift_bind, HW, lift_bind. destruct mode; cbn; try congruence; eexists; reflexivity.
Qed.
