(** Interacting groups: whole runs. *)
From Verif Require Export P_GroupStep.
Open Scope R_scope.
Open Scope st_scope.

Lemma group_log_iff t dt g g' : group_each (logLayerParams t dt false) g = (g', Ok tt) ->
  g' = set_g_js (g_js g') g /\ length (g_js g') = length (g_js g) /\
  forall i j j', nth_error (g_js g) i = Some j -> nth_error (g_js g') i = Some j' ->
    exists row, log_row false j t row /\ j' = set_j_log (j_log j') (S (j_logLength j)) j /\
      forall key, col key (j_log j') = (col key (j_log j) ++ values key row)%list.
Proof.
  intros E. apply group_each_iff in E. destruct E as [E F]. split; [exact E|]. apply Forall2_nth in F. destruct F as [L F]. split; [exact L|].
  intros i j j' Hj Hj'. specialize (F i j j' Hj Hj'). cbv beta in F. apply log_sound in F. destruct F as (row & A & ->). exists row. split; [exact A|].
  split; [reflexivity|]. intros key. apply col_push_all.
Qed.
Lemma group_sim_sound r dt w n : forall i g g', group_sim r dt w n i g = (g', Ok tt) ->
  g' = set_g_js (g_js g') g /\ exists sg mid, sg 0%nat = g_js g /\ sg n = g_js g' /\ (n = 0%nat \/ (w > 0)%nat) /\
  forall k, (k < n)%nat -> group_step_sequential (g_fn g) (g_coords g) (g_top g) r (INR (i + k) * dt) dt (sg k) (mid k) /\
    length (sg (S k)) = length (mid k) /\
    forall q j j', nth_error (mid k) q = Some j -> nth_error (sg (S k)) q = Some j' ->
      if Nat.eqb ((i + k) mod w) 0
      then exists row, log_row false j (INR (i + k) * dt) row /\ j' = set_j_log (j_log j') (S (j_logLength j)) j /\
             forall key, col key (j_log j') = (col key (j_log j) ++ values key row)%list
      else j' = j.
Proof.
  induction n as [|n IH]; intros i g g' E; cbn [group_sim] in E.
  - apply ret_inv in E. destruct E as [-> _]. split; [symmetry; apply set_g_self|]. exists (fun _ => g_js g), (fun _ => g_js g).
    split; [reflexivity|]. split; [reflexivity|]. split; [auto|]. intros; lia.
  - apply bind_inv in E. destruct E as (g1 & [] & E1 & E). apply bind_inv in E. destruct E as (g2 & [] & E2 & E).
    apply step_sequential in E1. destruct E1 as [A1 S1]. destruct (Nat.eqb_spec w 0) as [Ew|Ew]; [discriminate|].
    assert (H2 : g2 = set_g_js (g_js g2) g1 /\ length (g_js g2) = length (g_js g1) /\
      forall q j j', nth_error (g_js g1) q = Some j -> nth_error (g_js g2) q = Some j' ->
      if Nat.eqb (i mod w) 0
      then exists row, log_row false j (INR i * dt) row /\ j' = set_j_log (j_log j') (S (j_logLength j)) j /\
             forall key, col key (j_log j') = (col key (j_log j) ++ values key row)%list
      else j' = j).
    { destruct (Nat.eqb (i mod w) 0); [apply group_log_iff in E2; exact E2|]. apply ret_inv in E2. destruct E2 as [-> _].
      split; [symmetry; apply set_g_self|]. split; [reflexivity|]. intros q j j' H1 H2. congruence. }
    destruct H2 as (A2 & L2 & P2). apply IH in E. destruct E as (A & sg & mid & H0 & Hn & _ & HS). rewrite A2, A1 in HS. cbn [g_fn g_coords g_top set_g_js] in HS.
    split; [rewrite A at 1; rewrite A2 at 1; rewrite A1 at 1; reflexivity|].
    exists (fun k => match k with O => g_js g | S k => sg k end), (fun k => match k with O => g_js g1 | S k => mid k end).
    split; [reflexivity|]. split; [exact Hn|]. split; [lia|]. intros [|k] Hk.
    + rewrite Nat.add_0_r, H0. auto.
    + rewrite <- Nat.add_succ_comm. apply HS. lia.
Qed.
Lemma group_run_sound T dt wf g g' : g_js g <> [] -> group_runSimulation T dt wf g = (g', Ok tt) ->
  exists N w g0 r sg mid, stack_counts T dt wf N w /\ group_selects N g g0 r /\ g' = set_g_js (sg N) g /\
    group_effect (group_step_sequential (g_fn g)) g0 r dt N w sg mid.
Proof.
  intros HN E. unfold group_runSimulation in E.
  apply bind_inv in E. destruct E as (s1 & q1 & E1 & E). apply lift_inv in E1. destruct E1 as [-> E1].
  apply bind_inv in E. destruct E as (s1 & w & E2 & E). apply lift_inv in E2. destruct E2 as [-> E2].
  apply bind_inv in E. destruct E as (s1 & q2 & E3 & E). apply lift_inv in E3. destruct E3 as [-> E3].
  apply bind_inv in E. destruct E as (s1 & N & E4 & E). apply lift_inv in E4. destruct E4 as [-> E4].
  apply fdiv_inv in E1, E3. destruct E1 as [Hd ->]. destruct E3 as [_ ->]. apply wrapped_iff in E2, E4.
  destruct (Rlt_dec wf dt) as [H|H]; [discriminate|].
  apply bind_inv in E. destruct E as (s0 & rms & E5 & E).
  destruct (pick_solvers N (g_js g)) as [js x] eqn:EP. injection E5 as <- ->. apply pick_iff in EP. destruct EP as (L1 & L2 & HP).
  destruct (all_equal (map snd rms)) eqn:EA; cbn [negb] in E; [|discriminate].
  assert (HA := proj1 (all_equal_iff _) EA).
  set (r := last (map fst rms) RunMulti) in *.
  assert (HJ : js = map (fun j => set_j_layers (map prepared (j_layers j)) j) (g_js g)).
  { apply list_nth_ext; [rewrite map_length; exact L1|]. intros q a b Ha Hb. rewrite nth_error_map in Hb.
    destruct (nth_error (g_js g) q) as [j|] eqn:Ej; [|discriminate]. injection Hb as <-.
    destruct (nth_some rms q) as [rm Hrm]; [rewrite L2; exact (nth_lt _ _ _ Ej)|]. destruct (HP q j a rm Ej Ha Hrm) as (_ & -> & _). reflexivity. }
  apply group_sim_sound in E. destruct E as (A & sg & mid & H0 & Hn & Hw & HS).
  exists N, w, (set_g_js js g), r, sg, mid. split; [|split; [|split]].
  - split; [exact Hd|]. split; [lra|]. split; assumption.
  - split; [rewrite HJ; reflexivity|]. split.
    + intros j l Hj Hl. apply In_nth_error in Hj. destruct Hj as [q Hq]. destruct (nth_some rms q) as [rm Hrm]; [rewrite L2; exact (nth_lt _ _ _ Hq)|].
      destruct (nth_some js q) as [j' Hj']; [rewrite L1; exact (nth_lt _ _ _ Hq)|]. destruct (HP q j j' rm Hq Hj' Hrm) as (X & _). exact (X l Hl).
    + assert (HR : rms <> []) by (intros X; subst rms; destruct (g_js g); [contradiction|discriminate]).
      destruct (last_map_some rms HR) as [[rl u] Hlast]. exists u. 
      assert (Hrl := last_some rms (RunMulti, RK4) (rl, u) Hlast). destruct Hrl as [_ Hrl].
      assert (Hu : forall q rm, nth_error rms q = Some rm -> snd rm = u).
      { intros q rm Hrm. apply HA; [apply in_map, (nth_error_In _ _ Hrm)|]. change u with (snd (rl, u)). apply in_map, (nth_error_In _ _ Hrl). }
      split.
      * intros j Hj. apply In_nth_error in Hj. destruct Hj as [q Hq]. destruct (nth_some rms q) as [rm Hrm]; [rewrite L2; exact (nth_lt _ _ _ Hq)|].
        destruct (nth_some js q) as [j' Hj']; [rewrite L1; exact (nth_lt _ _ _ Hq)|]. destruct (HP q j j' rm Hq Hj' Hrm) as (_ & _ & X & _).
        rewrite (Hu q rm Hrm) in X. exact X.
      * intros jl Hjl. destruct (last_some (g_js g) jl jl Hjl) as [_ Hjl']. rewrite L2 in Hrl.
        destruct (nth_some js (length (g_js g) - 1)) as [j' Hj']; [rewrite L1; exact (nth_lt _ _ _ Hjl')|].
        destruct (HP _ jl j' (rl, u) Hjl' Hj' Hrl) as (_ & _ & _ & X). cbn [fst snd] in X. unfold r.
        assert (Q : last (map fst rms) RunMulti = rl).
        { assert (Z : last (map Some (map fst rms)) None = Some rl).
          { clear -Hlast. induction rms as [|a rms IH]; [discriminate|]. destruct rms as [|b rms]; [cbn in *; injection Hlast as ->; reflexivity|].
            apply IH. exact Hlast. }
          exact (proj1 (last_some _ RunMulti _ Z)). }
        rewrite Q. exact X.
  - rewrite Hn. rewrite A at 1. reflexivity.
  - split; [exact H0|]. split; [exact Hw|]. exact HS.
Qed.
Lemma effect_views g0 f r dt N w sg mid : indifferent f -> group_effect (group_step_sequential f) g0 r dt N w sg mid ->
  group_effect (group_step f) g0 r dt N w sg mid.
Proof.
  intros HI (A & B & C). split; [exact A|]. split; [exact B|]. intros k Hk. destruct (C k Hk) as (D & E). split; [|exact E]. apply step_views; assumption.
Qed.
Lemma group_run_simultaneous T dt wf g g' : g_js g <> [] -> indifferent (g_fn g) -> group_runSimulation T dt wf g = (g', Ok tt) ->
  exists N w g0 r sg mid, stack_counts T dt wf N w /\ group_selects N g g0 r /\ g' = set_g_js (sg N) g /\
    group_effect (group_step (g_fn g)) g0 r dt N w sg mid.
Proof.
  intros HN HI E. destruct (group_run_sound T dt wf g g' HN E) as (N & w & g0 & r & sg & mid & A & B & C & D).
  exists N, w, g0, r, sg, mid. repeat (split; [assumption|]). apply effect_views; assumption.
Qed.
(** Logs: step and receiving a field leave them alone. *)
Lemma receives_log top H j j1 : receives top H j j1 -> j_log j1 = j_log j /\ j_logLength j1 = j_logLength j /\ ids j1 = ids j.
Proof.
  intros HR. assert (HR0 := HR). destruct HR as [(E & L & _) _]. split; [rewrite E; reflexivity|]. split; [rewrite E; reflexivity|]. unfold ids.
  apply list_nth_ext; [rewrite !map_length; exact L|]. intros p a b Ha Hb. rewrite nth_error_map in Ha, Hb.
  destruct (nth_error (j_layers j1) p) as [l1|] eqn:E1; [|discriminate]. destruct (nth_error (j_layers j) p) as [l|] eqn:E0; [|discriminate].
  injection Ha as <-. injection Hb as <-. exact (same_id _ _ (receives_alike _ _ _ _ _ _ _ HR0 E0 E1)).
Qed.
Lemma step_member_log view f cs top r t dt js js' i j j' : group_step_seeing view f cs top r t dt js js' ->
  nth_error js i = Some j -> nth_error js' i = Some j' -> j_log j' = j_log j /\ j_logLength j' = j_logLength j.
Proof.
  intros (L & js1 & L1 & P) Hj Hj'. destruct (nth_some js1 i) as [j1 Hj1]; [apply nth_lt in Hj; lia|].
  destruct (P i j j1 j' Hj Hj1 Hj') as [(H & _ & RC) RUN]. destruct (receives_log _ _ _ _ RC) as (A & B & _).
  assert (K := run_runner_keeps_log r t dt j1). rewrite RUN in K. cbn [fst] in K. destruct K as [K1 K2]. split; congruence.
Qed.
(** The rows a member writes over a run. *)
Lemma group_rows view f g r dt N w sg mid : group_effect (group_step_seeing view f) g r dt N w sg mid ->
  forall i j0 jN, nth_error (g_js g) i = Some j0 -> nth_error (sg N) i = Some jN ->
  exists rows, length rows = rows_needed N w /\ j_logLength jN = (j_logLength j0 + length rows)%nat /\
    (forall k row, nth_error rows k = Some row -> exists j, nth_error (mid (k * w)%nat) i = Some j /\ log_row false j (INR (k * w) * dt) row) /\
    forall key, col key (j_log jN) = (col key (j_log j0) ++ flat_map (values key) rows)%list.
Proof.
  intros (H0 & Hw & HS) i j0 jN Hj0.
  assert (LEN : forall n, (n <= N)%nat -> length (sg n) = length (g_js g)).
  { induction n as [|n IH]; intros Hn; [rewrite H0; reflexivity|]. destruct (HS n ltac:(lia)) as ((A & _) & B & _). rewrite B, A. apply IH. lia. }
  assert (G : forall n, (n <= N)%nat -> forall j, nth_error (sg n) i = Some j -> exists rows,
    Forall2 (fun q row => exists k, nth_error (mid q) i = Some k /\ log_row false k (INR q * dt) row) (logged w 0 n) rows /\
    j_logLength j = (j_logLength j0 + length rows)%nat /\ forall key, col key (j_log j) = (col key (j_log j0) ++ flat_map (values key) rows)%list).
  { induction n as [|n IH]; intros Hn j Hj.
    - rewrite H0, Hj0 in Hj. injection Hj as <-. exists []. split; [constructor|]. split; [cbn; lia|]. intros key. cbn. rewrite app_nil_r. reflexivity.
    - destruct (HS n ltac:(lia)) as (ST & L2 & PL). assert (Hi := nth_lt _ _ _ Hj). rewrite LEN in Hi by exact Hn.
      destruct (nth_some (sg n) i) as [jn Hjn]; [rewrite LEN by lia; exact Hi|]. destruct (nth_some (mid n) i) as [jm Hjm]; [rewrite <- L2, LEN by lia; exact Hi|].
      destruct (step_member_log _ _ _ _ _ _ _ _ _ _ _ _ ST Hjn Hjm) as [K1 K2]. destruct (IH ltac:(lia) jn Hjn) as (rows & F & LL & C).
      specialize (PL i jm j Hjm Hj). unfold logged in *. rewrite seq_S, filter_app. cbn [filter Nat.add]. destruct (Nat.eqb (n mod w) 0).
      + destruct PL as (row & A & B & D). exists (rows ++ [row])%list. split; [|split].
        * apply Forall2_app; [exact F|]. constructor; [|constructor]. exists jm. auto.
        * rewrite B. cbn [j_logLength set_j_log]. rewrite app_length, K2, LL. cbn. lia.
        * intros key. rewrite D, K1, C, flat_map_app, app_assoc. cbn. rewrite app_nil_r. reflexivity.
      + subst j. exists rows. rewrite app_nil_r. split; [exact F|]. split; [congruence|]. intros key. rewrite K1. apply C. }
  intros HjN. destruct (G N ltac:(lia) jN HjN) as (rows & F & LL & C). exists rows.
  assert (GRID : logged w 0 N = map (fun k => k * w)%nat (seq 0 (rows_needed N w))).
  { destruct Hw as [->|Hw]; [|apply logged_grid, Hw]. unfold rows_needed. destruct w as [|w]; [reflexivity|].
    rewrite (Nat.div_small (0 + S w - 1) (S w)) by lia. reflexivity. }
  apply Forall2_nth in F. destruct F as [LR F]. rewrite GRID, map_length, seq_length in LR.
  split; [exact LR|]. split; [exact LL|]. split; [|exact C]. intros k row Hk. assert (Hlt := nth_lt _ _ _ Hk). rewrite LR in Hlt.
  apply (F k (k * w)%nat row); [|exact Hk]. rewrite GRID, nth_error_map, nth_error_seq0 by exact Hlt. reflexivity.
Qed.
(** ** Refusals *)
Lemma group_noise_mismatch T dt wf N w g jq jr : stack_counts T dt wf N w -> In jq (g_js g) -> In jr (g_js g) ->
  (exists l, In l (j_layers jq) /\ noisy l) -> ~ (exists l, In l (j_layers jr) /\ noisy l) ->
  (forall j l, In j (g_js g) -> In l (j_layers j) -> preparable N l) ->
  exists g' msg, group_runSimulation T dt wf g = (g', Err (Throw msg)).
Proof.
  intros HC Hq Hr Nq Nr HP. destruct (noise_mismatch T dt wf N w (STK Series default_driver false [] "" "" [] true 0 (g_js g)) jq jr HC Hq Hr Nq Nr HP) as (s' & msg & E).
  destruct HC as (Hd & Hle & C1 & C2). unfold stack_runSimulation in E. unfold group_runSimulation.
  unfold bind at 1, lift at 1. unfold bind at 1, lift at 1 in E. rewrite fdiv_ok in * by exact Hd. unfold bind at 1, lift at 1. unfold bind at 1, lift at 1 in E.
  rewrite (proj2 (wrapped_iff _ _) C2) in *. unfold bind at 1, lift at 1. unfold bind at 1, lift at 1 in E. rewrite fdiv_ok in * by exact Hd. unfold bind at 1, lift at 1. unfold bind at 1, lift at 1 in E.
  rewrite (proj2 (wrapped_iff _ _) C1) in *. destruct (Rlt_dec wf dt); [lra|]. unfold bind at 1. unfold bind at 1 in E. cbn [s_js] in E.
  destruct (pick_solvers N (g_js g)) as [js [rms|e]] eqn:EP; [|injection E as _ ->; eauto].
  apply pick_iff in EP. destruct EP as (L1 & L2 & P). destruct (all_equal (map snd rms)) eqn:EA; [|cbn [negb]; unfold fail; eauto]. exfalso.
  apply In_nth_error in Hq, Hr. destruct Hq as [a Ha], Hr as [b Hb].
  destruct (nth_error_same_length _ _ _ _ L1 Ha) as [ja Ja]. destruct (nth_error_same_length _ _ _ _ L1 Hb) as [jb Jb].
  destruct (nth_error_same_length _ _ _ _ L2 Ha) as [ra Ra]. destruct (nth_error_same_length _ _ _ _ L2 Hb) as [rb Rb].
  assert (Sa := P _ _ _ _ Ha Ja Ra). assert (Sb := P _ _ _ _ Hb Jb Rb).
  destruct Sa as (_ & _ & Ta & _), Sb as (_ & _ & Tb & _). destruct Ta as [Ta _], Tb as [_ Tb]. specialize (Ta Nq). specialize (Tb Nr).
  apply (proj1 (all_equal_iff _)) with (a := snd ra) (b := snd rb) in EA; [congruence| |]; apply in_map; eapply nth_error_In; eassumption.
Qed.
Lemma group_frequency T dt wf N w g : dt <> 0 -> wf < dt -> wrapped_count (T / dt) N -> wrapped_count (wf / dt) w ->
  exists msg, group_runSimulation T dt wf g = (g, Err (Throw msg)).
Proof.
  intros Hd Hlt C1 C2. unfold group_runSimulation. unfold bind at 1, lift at 1. rewrite fdiv_ok by exact Hd. unfold bind at 1, lift at 1.
  rewrite (proj2 (wrapped_iff _ _) C2). unfold bind at 1, lift at 1. rewrite fdiv_ok by exact Hd. unfold bind at 1, lift at 1.
  rewrite (proj2 (wrapped_iff _ _) C1). destruct (Rlt_dec wf dt); [unfold fail; eauto|contradiction].
Qed.
(** ** A group that runs *)
Definition group_member (top : string) (j : junction) : Prop :=
  j_mode j = MR_CLASSIC /\ In top (ids j) /\
  forall l, In l (j_layers j) -> runnable l /\ forall v, runnable (set_l_Hreserved (still v) l).
Definition group_ready (g : group) : Prop :=
  length (g_coords g) = length (g_js g) /\ (forall j, In j (g_js g) -> group_member (g_top g) j) /\
  forall i q ri rq li lq, i <> q -> nth_error (g_coords g) i = Some ri -> nth_error (g_coords g) q = Some rq -> exists h, g_fn g ri rq li lq = Ok h.
Lemma static_reserved d l l' : static l l' -> static (set_l_Hreserved d l) (set_l_Hreserved d l').
Proof. intros (m & c & rp & bf & ->). exists m, c, rp, bf. reflexivity. Qed.
Lemma receives_member top v j j1 : receives top v j j1 -> group_member top j -> group_member top j1.
Proof.
  intros HR (A & B & C). destruct (receives_log _ _ _ _ HR) as (_ & _ & I). split; [|split].
  - destruct HR as [(E & _) _]. rewrite E. exact A.
  - rewrite I. exact B.
  - intros l1 Hl1. apply In_nth_error in Hl1. destruct Hl1 as [p Hp]. assert (L := receives_length _ _ _ _ HR).
    destruct (nth_some (j_layers j) p) as [l Hl]; [apply nth_lt in Hp; lia|]. destruct (C l (nth_error_In _ _ Hl)) as [C1 C2].
    assert (E : l1 = l \/ l1 = set_l_Hreserved (still v) l).
    { destruct HR as [(_ & _ & P) _]. destruct (P p l l1 Hl Hp) as [X Y]. destruct (addressed_dec top (SReserved (still v)) (j_layers j) p) as [Z|Z]; [|left; exact (Y Z)].
      right. apply (P_StackProps.effect_det (SReserved (still v)) l); [apply X, Z|]. cbn. split; [reflexivity|frame]. }
    destruct E as [->| ->]; [auto|]. split; [apply C2|]. intros u. exact (C2 u).
Qed.
Lemma ready_js js g : group_ready g -> length js = length (g_js g) -> (forall j, In j js -> group_member (g_top g) j) -> group_ready (set_g_js js g).
Proof. intros (A & _ & C) L HJ. split; [cbn; congruence|]. split; [exact HJ|exact C]. Qed.
Lemma sum_total g i : group_ready g -> (i < length (g_js g))%nat ->
  forall n j acc, (j + n <= length (g_js g))%nat -> exists h, sum_extra g i n j acc = Ok h.
Proof.
  intros (HL & HM & HF) Hi. induction n as [|n IH]; intros j acc Hj; cbn [sum_extra]; [eauto|].
  destruct (Nat.eqb_spec i j) as [E|E]; [apply IH; lia|].
  destruct (nth_some (g_coords g) i ltac:(lia)) as [ri Ri]. destruct (nth_some (g_coords g) j ltac:(lia)) as [rj Rj].
  destruct (nth_some (g_js g) i ltac:(lia)) as [ji Ji]. destruct (nth_some (g_js g) j ltac:(lia)) as [jj Jj].
  unfold at_index. rewrite Ri, Rj, Ji, Jj. cbn [rbind].
  destruct (first_exists (g_top g) ji) as [li Hli]; [apply HM, (nth_error_In _ _ Ji)|].
  destruct (first_exists (g_top g) jj) as [lj Hlj]; [apply HM, (nth_error_In _ _ Jj)|].
  apply getLayer_iff in Hli, Hlj. rewrite Hli, Hlj. cbn [rbind].
  destruct (HF i j ri rj li lj E Ri Rj) as [h ->]. cbn [rbind]. apply IH. lia.
Qed.
Lemma receive_total top v j : group_member top j -> exists j1, junction_set top (SReserved (still v)) j = (j1, Ok tt).
Proof.
  intros (_ & HI & _). destruct (first_exists top j HI) as (l & p & Hp & Hid & _). apply set_accepted.
  - exists p, l. split; [exact Hp|]. right. split; [exact Hid|]. discriminate.
  - intros q k _ _. exact I.
Qed.
Lemma set_extra_total n : forall i g, group_ready g -> (i + n = length (g_js g))%nat ->
  exists g', set_extra n i g = (g', Ok tt) /\ group_ready g' /\ g' = set_g_js (g_js g') g /\ length (g_js g') = length (g_js g).
Proof.
  induction n as [|n IH]; intros i g HR Hi; cbn [set_extra].
  - exists g. split; [reflexivity|]. split; [exact HR|]. split; [symmetry; apply set_g_self|reflexivity].
  - destruct (sum_total g i HR ltac:(lia) (length (g_js g)) 0%nat vnull ltac:(lia)) as [h Hh].
    unfold bind at 1. unfold get. unfold bind at 1. unfold lift at 1. rewrite Hh. unfold bind at 1. unfold lift. rewrite still_vec. unfold bind at 1.
    destruct (nth_some (g_js g) i ltac:(lia)) as [j Hj]. assert (HR0 := HR). destruct HR0 as (_ & HM & _). assert (Mj := HM j (nth_error_In _ _ Hj)).
    destruct (receive_total (g_top g) h j Mj) as [j1 E1].
    rewrite (proj2 (on_member_iff (setLayerReservedInteractionField (g_top g) (still h)) (g_js g) i (set_nth i j1 (g_js g)) (Ok tt) ltac:(lia))).
    2:{ split; [apply set_nth_length|]. split.
        - exists j, j1. split; [exact Hj|]. split; [apply set_nth_same; lia|exact E1].
        - intros q Hq. apply set_nth_other, Hq. }
    destruct (IH (S i) (set_g_js (set_nth i j1 (g_js g)) g)) as (g' & E & R' & A & L).
    + apply ready_js; [exact HR|apply set_nth_length|]. intros k Hk. apply In_nth_error in Hk. destruct Hk as [q Hq].
      destruct (Nat.eq_dec q i) as [->|Hne].
      * rewrite set_nth_same in Hq by lia. injection Hq as <-. apply receives_iff in E1. exact (receives_member _ _ _ _ E1 Mj).
      * rewrite set_nth_other in Hq by exact Hne. exact (HM k (nth_error_In _ _ Hq)).
    + cbn [g_js set_g_js]. rewrite set_nth_length. lia.
    + exists g'. rewrite E. split; [reflexivity|]. split; [exact R'|]. cbn [g_js set_g_js] in L. rewrite set_nth_length in L. split; [|exact L]. rewrite A. destruct g. reflexivity.
Qed.
Lemma member_step_ready top r t dt j : 0 <= dt -> group_member top j -> exists j', run_runner r t dt j = (j', Ok tt) /\ group_member top j'.
Proof.
  intros Hdt (HM & HI & HR).
  assert (HN : j_layers j <> []) by (intros X; unfold ids in HI; rewrite X in HI; destruct HI).
  destruct (step_total r t dt j HN Hdt) as [j' E].
  { intros l Hl. destruct (HR l Hl) as [A _]. split; [apply A|apply runnable_noise, A]. }
  exists j'. split; [exact E|]. assert (SW := step_static _ _ _ _ _ E). destruct (runner_mode _ _ _ _ _ E) as [HM' _]. destruct SW as (_ & L & P).
  split; [congruence|]. split.
  - unfold ids. rewrite (pointwise_ids (j_layers j) (j_layers j') L); [exact HI|]. intros p l l' H1 H2. apply (static_fields l l'), (P _ _ _ H1 H2).
  - intros l' Hl'. apply In_nth_error in Hl'. destruct Hl' as [p Hp]. destruct (nth_error_same_length _ _ _ _ (eq_sym L) Hp) as [l Hl].
    assert (S := P _ _ _ Hl Hp). destruct (HR l (nth_error_In _ _ Hl)) as [A B]. split; [exact (static_runnable _ _ S A)|].
    intros v. exact (static_runnable _ _ (static_reserved (still v) _ _ S) (B v)).
Qed.
Lemma group_step_total t dt r g : 0 <= dt -> group_ready g -> exists g', stepFunctionalSolver t dt r g = (g', Ok tt) /\ group_ready g'.
Proof.
  intros Hdt HR. unfold stepFunctionalSolver. unfold bind at 1. unfold get. unfold bind at 1.
  destruct (set_extra_total (length (g_js g)) 0 g HR ltac:(lia)) as (g1 & -> & R1 & _ & _). assert (R1' := R1). destruct R1' as (_ & HM & _).
  destruct (Forall2_exists (fun j j' => run_runner r t dt j = (j', Ok tt) /\ group_member (g_top g1) j') (g_js g1)) as [js' F].
  { intros j Hj. apply member_step_ready; auto. }
  exists (set_g_js js' g1). apply Forall2_nth in F. destruct F as [L F]. split.
  - apply group_each_iff. split; [reflexivity|]. cbn [g_js set_g_js]. apply Forall2_nth. split; [exact L|]. intros i a b Ha Hb. apply (F i a b Ha Hb).
  - apply ready_js; [exact R1|exact L|]. intros k Hk. apply In_nth_error in Hk. destruct Hk as [q Hq]. destruct (nth_error_same_length _ _ _ _ (eq_sym L) Hq) as [j Hj].
    apply (F q j k Hj Hq).
Qed.
Lemma group_log_total t dt g : group_ready g -> exists g', group_each (logLayerParams t dt false) g = (g', Ok tt) /\ group_ready g'.
Proof.
  intros HR. assert (HR' := HR). destruct HR' as (_ & HM & _).
  destruct (Forall2_exists (fun j j' => logLayerParams t dt false j = (j', Ok tt) /\ group_member (g_top g) j') (g_js g)) as [js' F].
  { intros j Hj. destruct (HM j Hj) as (A & B & C). destruct (classic_row j t A) as [row Hrow]. eexists.
    split; [apply log_complete; [rewrite A; discriminate|exact Hrow]|]. split; [exact A|]. split; [exact B|exact C]. }
  exists (set_g_js js' g). apply Forall2_nth in F. destruct F as [L F]. split.
  - apply group_each_iff. split; [reflexivity|]. cbn [g_js set_g_js]. apply Forall2_nth. split; [exact L|]. intros i a b Ha Hb. apply (F i a b Ha Hb).
  - apply ready_js; [exact HR|exact L|]. intros k Hk. apply In_nth_error in Hk. destruct Hk as [q Hq]. destruct (nth_error_same_length _ _ _ _ (eq_sym L) Hq) as [j Hj].
    apply (F q j k Hj Hq).
Qed.
Lemma group_sim_total r dt w n : 0 <= dt -> (w > 0)%nat -> forall i g, group_ready g -> exists g', group_sim r dt w n i g = (g', Ok tt).
Proof.
  intros Hdt Hw. induction n as [|n IH]; intros i g HR; cbn [group_sim]; [eexists; reflexivity|].
  destruct (group_step_total (INR i * dt) dt r g Hdt HR) as (g1 & E1 & R1). unfold bind at 1. rewrite E1. unfold bind at 1.
  destruct (Nat.eqb_spec w 0); [lia|]. destruct (Nat.eqb (i mod w) 0).
  - destruct (group_log_total (INR i * dt) dt g1 R1) as (g2 & -> & R2). apply IH, R2.
  - apply IH, R1.
Qed.
Lemma group_run_exists T dt wf g N w : 0 <= dt -> group_ready g -> stack_counts T dt wf N w -> (w > 0)%nat ->
  (exists used, forall j, In j (g_js g) -> mode_table (exists l, In l (j_layers j) /\ noisy l) RK4 used) ->
  exists g', group_runSimulation T dt wf g = (g', Ok tt).
Proof.
  intros Hdt HR (Hd & Hle & C1 & C2) Hw [used HU]. unfold group_runSimulation. unfold bind at 1, lift at 1. rewrite fdiv_ok by exact Hd. unfold bind at 1, lift at 1.
  rewrite (proj2 (wrapped_iff _ _) C2). unfold bind at 1, lift at 1. rewrite fdiv_ok by exact Hd. unfold bind at 1, lift at 1.
  rewrite (proj2 (wrapped_iff _ _) C1). destruct (Rlt_dec wf dt); [lra|]. unfold bind at 1.
  assert (HS : forall j l, In j (g_js g) -> In l (j_layers j) -> l_nScale l = 0).
  { intros j l Hj Hl. destruct HR as (_ & HM & _). destruct (HM j Hj) as (_ & _ & X). apply (X l Hl). }
  assert (HP : pick_solvers N (g_js g) = (g_js g, Ok (map (fun j => (runner_table (layerNo j) used, used)) (g_js g)))).
  { apply pick_iff. split; [reflexivity|]. split; [apply map_length|]. intros q j j' rm Hj Hj' Hrm.
    rewrite Hj in Hj'. injection Hj' as <-. rewrite nth_error_map, Hj in Hrm. injection Hrm as <-. cbn [fst snd]. assert (Ij := nth_error_In _ _ Hj).
    split; [intros l Hl; left; exact (HS j l Ij Hl)|]. split; [|split; [exact (HU j Ij)|reflexivity]].
    symmetry. rewrite <- set_layers_id. f_equal. rewrite <- (map_id (j_layers j)) at 2. apply map_ext_in. intros l Hl. unfold prepared.
    destruct (Req_EM_T (l_nScale l) 0) as [|X]; [reflexivity|]. exfalso. exact (X (HS j l Ij Hl)). }
  rewrite HP, set_g_self. rewrite (proj2 (all_equal_iff _)).
  - cbn [negb]. apply group_sim_total; assumption.
  - intros a b Ha Hb. rewrite map_map in Ha, Hb. cbn in Ha, Hb. apply in_map_iff in Ha, Hb. destruct Ha as (? & <- & _), Hb as (? & <- & _). reflexivity.
Qed.
(** ** The other calls *)
Lemma group_clear_iff g g' x : group_clearLogs g = (g', x) <-> x = Ok tt /\ g' = set_g_js (map (set_j_log [] 0) (g_js g)) g.
Proof.
  assert (E : group_clearLogs g = (set_g_js (map (set_j_log [] 0) (g_js g)) g, Ok tt)).
  { apply group_each_iff. split; [reflexivity|]. cbn [g_js set_g_js]. apply Forall2_nth. split; [apply map_length|]. intros i a b Ha Hb. rewrite nth_error_map, Ha in Hb. injection Hb as <-. reflexivity. }
  rewrite E. split; [intros X; injection X as <- <-; auto|intros [-> ->]; reflexivity].
Qed.
Lemma group_getLog_iff g i l : group_getLog g i = Ok l <-> exists j, nth_error (g_js g) i = Some j /\ l = j_log j.
Proof.
  unfold group_getLog. destruct (nth_error (g_js g) i) as [j|]; split.
  - intros X. injection X as <-. eauto.
  - intros (k & E & ->). injection E as <-. reflexivity.
  - discriminate.
  - intros (k & E & _). discriminate.
Qed.
Lemma group_getLog_out g i : (length (g_js g) <= i)%nat -> exists msg, group_getLog g i = Err (Throw msg).
Proof. intros H. unfold group_getLog. rewrite (proj2 (nth_error_None _ _) H). eauto. Qed.
(** ** The order of the elements over a run *)
Lemma each_rearranged (h : ST junction unit) f g g' g2 : rearranged f g g2 -> group_each h g = (g', Ok tt) ->
  exists g2', group_each h g2 = (g2', Ok tt) /\ rearranged f g' g2'.
Proof.
  intros (INJ & ET & EF & LJ & EC & EJ) E. apply group_each_iff in E. destruct E as [Eg F]. apply Forall2_nth in F. destruct F as [L F].
  assert (R := reindex_all f (g_js g) (g_js g2) [] EJ LJ).
  destruct (reindex f (g_js g')) as (js2 & L2 & N2). { intros q Hq. rewrite L in *. exact (proj1 (R q) Hq). }
  assert (X2 : forall q, nth_error js2 q = nth_error (g_js g') (f q)).
  { intros q. destruct (Nat.lt_ge_cases q (length (g_js g'))) as [Hq|Hq]; [apply N2, Hq|].
    rewrite (proj2 (nth_error_None js2 q)) by lia. symmetry. apply nth_error_None. destruct (Nat.lt_ge_cases (f q) (length (g_js g'))) as [B|B]; [|exact B].
    rewrite L in B. apply (proj2 (R q)) in B. lia. }
  exists (set_g_js js2 g2). split.
  - apply group_each_iff. split; [reflexivity|]. cbn [g_js set_g_js]. apply Forall2_nth. split; [congruence|]. intros q a b Ha Hb.
    rewrite EJ in Ha. rewrite X2 in Hb. exact (F _ _ _ Ha Hb).
  - rewrite Eg. unfold rearranged. cbn [g_js g_top g_fn g_coords set_g_js]. split; [exact INJ|]. split; [exact ET|]. split; [exact EF|]. split; [congruence|].
    split; [exact EC|exact X2].
Qed.
Lemma step_keeps_fn t dt r g g' : stepFunctionalSolver t dt r g = (g', Ok tt) -> g_fn g' = g_fn g.
Proof. intros E. apply step_sequential in E. destruct E as [-> _]. reflexivity. Qed.
Lemma sim_rearranged r dt w n f : forall i g g' g2, indifferent (g_fn g) -> rearranged f g g2 -> group_sim r dt w n i g = (g', Ok tt) ->
  exists g2', group_sim r dt w n i g2 = (g2', Ok tt) /\ rearranged f g' g2'.
Proof.
  induction n as [|n IH]; intros i g g' g2 HI HR E; cbn [group_sim] in *.
  - apply ret_inv in E. destruct E as [-> _]. exists g2. split; [reflexivity|exact HR].
  - apply bind_inv in E. destruct E as (g1 & [] & E1 & E). apply bind_inv in E. destruct E as (h1 & [] & E2 & E).
    destruct (step_rearranged _ _ _ f _ _ g2 HI HR E1) as (k1 & K1 & R1). unfold bind at 1. rewrite K1. unfold bind at 1.
    assert (FN := step_keeps_fn _ _ _ _ _ E1).
    destruct (Nat.eqb w 0); [discriminate|]. destruct (Nat.eqb (i mod w) 0).
    + destruct (each_rearranged _ f _ _ k1 R1 E2) as (k2 & K2 & R2). rewrite K2. apply (IH (S i) h1 g' k2); [|exact R2|exact E].
      apply group_each_iff in E2. destruct E2 as [-> _]. cbn [g_fn set_g_js]. rewrite FN. exact HI.
    + apply ret_inv in E2. destruct E2 as [-> _]. apply (IH (S i) g1 g' k1); [rewrite FN; exact HI|exact R1|exact E].
Qed.
(** ** Nothing to feel *)
Lemma Sum_zeros hs : (forall h, In h hs -> h = Zero) -> Sum hs = Zero.
Proof.
  induction hs as [|h hs IH]; intros H; [apply Sum_nil|]. rewrite Sum_cons, (H h), IH; [apply Plus_zero_l| |left; reflexivity]. intros k Hk. apply H. right. exact Hk.
Qed.
Lemma null_field cs top n at_ i H : field_of_others nullDipoleInteraction cs top n at_ i H -> H = Zero.
Proof.
  intros (hs & _ & -> & P). apply Sum_zeros. intros h Hh. apply In_nth_error in Hh. destruct Hh as [q Hq]. specialize (P q h Hq).
  destruct (Nat.eq_dec q i); [exact P|]. destruct P as (ri & rq & ji & jq & li & lq & _ & _ & _ & _ & _ & _ & E). unfold nullDipoleInteraction in E.
  apply Ok_inj in E. rewrite <- E. apply vnull_Zero.
Qed.
Lemma alone_field f cs top at_ H : field_of_others f cs top 1 at_ 0 H -> H = Zero.
Proof.
  intros (hs & L & -> & P). apply Sum_zeros. intros h Hh. apply In_nth_error in Hh. destruct Hh as [[|q] Hq]; [exact (P 0%nat h Hq)|].
  apply nth_lt in Hq. lia.
Qed.
(** ** Two elements a unit apart *)
Definition ex_element (m : cvec) : junction :=
  JN MR_CLASSIC [set_l_external (caxial (CV 0 0 1)) (ex_layer "free" m)] 100 200 [] [] [] [] [] [] [] [] 0 "R".
Definition ex_group : group :=
  GRP "free" [CV 0 0 0; CV 1 0 0] [ex_element (CV 1 0 0); ex_element (CV 0 1 0)] computeDipoleInteraction.
Lemma ex_group_constructed : mkGroup [CV 0 0 0; CV 1 0 0] [ex_element (CV 1 0 0); ex_element (CV 0 1 0)] "free" = Ok ex_group.
Proof.
  apply mkGroup_iff. split; [reflexivity|]. split; [discriminate|]. split; [|reflexivity]. constructor; [|constructor; [intros []|constructor]].
  intros [X|[]]. injection X. lra.
Qed.
Lemma ex_far a b : (a = 1 \/ a = -1) -> b = CV a 0 0 -> closeness <= Norm b.
Proof.
  intros Ha ->. assert (E : Norm (CV a 0 0) = 1). { unfold Norm. replace (Norm2 (CV a 0 0)) with 1 by (unfold Norm2, Dot; cbn; destruct Ha as [->| ->]; ring). apply sqrt_1. }
  rewrite E. unfold closeness. lra.
Qed.
Lemma ex_group_ready : group_ready ex_group.
Proof.
  split; [reflexivity|]. split.
  - assert (M : forall m, group_member "free" (ex_element m)).
    { intros m. split; [reflexivity|]. split; [left; reflexivity|]. intros l [<-|[]].
      split; [|intros v]; (split; [|split; [reflexivity|discriminate]]); intros t m' b top; apply plain_total; try reflexivity; try (cbn; lra); intros s.
      - exists (FI (CV 0 0 1) Zero Zero Zero 0 0 0 0 0 Zero Zero). repeat split.
      - exists (FI (CV 0 0 1) Zero Zero v 0 0 0 0 0 Zero Zero). destruct v as [vx vy vz]. repeat split. }
    intros j [<-|[<-|[]]]; apply M.
  - intros i q ri rq li lq NE Hi Hq. cbn [g_fn ex_group]. eexists. apply kanao_iff. split; [|reflexivity].
    destruct i as [|[|i]], q as [|[|q]]; cbn in Hi, Hq; try (destruct i; discriminate); try (destruct q; discriminate); try lia; injection Hi as <-; injection Hq as <-.
    + apply (ex_far (-1)); [right; reflexivity|]. unfold Minus. cbn. f_equal; ring.
    + apply (ex_far 1); [left; reflexivity|]. unfold Minus. cbn. f_equal; ring.
Qed.
Lemma ex_group_runs : exists g', group_runSimulation 10 1 2 ex_group = (g', Ok tt).
Proof.
  apply (group_run_exists 10 1 2 ex_group 10 2); [lra|exact ex_group_ready|exact stack_counts_10_2|lia|].
  exists RK4. intros j Hj. split; [|reflexivity]. intros (l & Hl & Hn). exfalso.
  cbn in Hj. destruct Hj as [<-|[<-|[]]]; cbn in Hl; destruct Hl as [<-|[]]; destruct Hn as [X|X]; try discriminate; apply X; reflexivity.
Qed.
