(** When a run can be split, and why constant drivers are needed (C104). *)
From Coq Require Import Classical_Prop.
From Verif Require P_ConvergeRun.
From Verif Require Import P_ContinueRun P_Reach P_RunEx P_ReachEx.
From Verif Require Export P_ContinueRun.
Open Scope R_scope.
Open Scope st_scope.

(** ** A long run can be split *)
Lemma step_log r t dt g n j : run_runner r t dt (set_j_log g n j) = (set_j_log g n (fst (run_runner r t dt j)), snd (run_runner r t dt j)).
Proof.
  destruct r; cbn [run_runner].
  - unfold runSingleLayerSolver. cbn [j_layers set_j_log]. destruct (j_layers j) as [|l ls] eqn:EB; [reflexivity|]. destruct (rk4_step t dt vnull vnull l). reflexivity.
  - unfold runMultiLayerSolver. cbn [j_layers set_j_log]. destruct (multi_loop _ _ _). reflexivity.
  - unfold heunSolverStep. cbn [j_layers set_j_log]. destruct (heun_pass1 _ _ _ _) as [ls [hs|x]]; [|reflexivity]. destruct (heun_pass2 _ _ _ _ _). reflexivity.
  - unfold eulerHeunSolverStep. cbn [j_layers set_j_log]. destruct (eulerHeun_pass _ _ _ _) as [ls [hs|x]]; reflexivity.
Qed.
Lemma row_log e g n j t row : log_row e (set_j_log g n j) t row <-> log_row e j t row.
Proof. reflexivity. Qed.
Lemma row_time e j t t' row : log_row e j t row -> exists row', log_row e j t' row'.
Proof. intros (rr & A & _). eexists. exists rr. split; [exact A|reflexivity]. Qed.
Lemma rows_exist e dt s N w rows : rows_of e dt s N w rows -> forall k, (k < rows_needed N w)%nat -> exists row, log_row e (s (S (k * w))) (INR (k * w) * dt) row.
Proof.
  intros [L H] k Hk. destruct (nth_error rows k) as [row|] eqn:E; [exists row; apply H; exact E|]. apply nth_error_None in E. lia.
Qed.
Lemma counts_positive T dt wf N w : 0 < dt -> step_counts T dt wf N w -> (0 < w)%nat.
Proof.
  intros HD (A & _ & _ & B & _). destruct w as [|w]; [|lia]. exfalso. assert (X : 1 <= wf / dt) by (apply Rmult_le_reg_r with dt; [exact HD|]; unfold Rdiv; rewrite Rmult_assoc, Rinv_l, Rmult_1_r, Rmult_1_l by lra; exact A).
  destruct B as [[_ B]|[[_ B] _]]; cbn [INR] in B; lra.
Qed.
Lemma run_splits T1 T2 T dt wf e mode N1 N2 w q j j3 : (forall l, In l (j_layers j) -> resumable l) -> (j_mode j = MR_STRIP -> strip_sized j) ->
  step_counts T1 dt wf N1 w -> step_counts T2 dt wf N2 w -> step_counts T dt wf (N1 + N2) w -> (w > 0)%nat -> N1 = (q * w)%nat ->
  runSimulation T dt wf e mode j = (j3, Ok tt) ->
  exists j1 j2, runSimulation T1 dt wf e mode j = (j1, Ok tt) /\ runSimulation T2 dt wf e mode j1 = (j2, Ok tt).
Proof.
  intros HR HM C1 C2 C3 Hw Hq E3.
  destruct (run_sound _ _ _ _ _ _ _ E3) as (n3 & w3 & a3 & r3 & u3 & s3 & rows3 & D3 & S3 & I3 & A3 & _ & R3 & J3 & _).
  destruct (counts_unique _ _ _ _ _ _ _ D3 C3) as [-> ->]. pose proof (rows_exist _ _ _ _ _ _ R3) as RE. clear R3.
  assert (R1 : rows_needed N1 w = q). { unfold rows_needed. rewrite Hq. replace (q * w + w - 1)%nat with (q * w + (w - 1))%nat by lia. rewrite Nat.div_add_l, Nat.div_small by lia. lia. }
  assert (RN : rows_needed (N1 + N2) w = (q + rows_needed N2 w)%nat). { unfold rows_needed. rewrite Hq. replace (q * w + N2 + w - 1)%nat with (q * w + (N2 + w - 1))%nat by lia. rewrite Nat.div_add_l by lia. reflexivity. }
  pose proof (resumable_start _ _ _ _ _ _ HR S3) as X3.
  assert (SEL1 : selects mode N1 j j r3 u3).
  { destruct S3 as (_ & _ & M & Er). split; [intros l Hl; left; apply (HR l Hl)|]. split; [rewrite (resumable_prepared _ HR); symmetry; apply set_layers_id|]. auto. }
  assert (TR1 : trajectory r3 dt s3 N1) by (intros k Hk; apply A3; lia).
  destruct (run_complete T1 dt wf e mode j N1 w j r3 u3 s3 C1 SEL1 Hw HM (eq_trans I3 X3) TR1) as [j1 E1].
  { intros k Hk. apply RE. lia. }
  exists j1. destruct (run_sound _ _ _ _ _ _ _ E1) as (n1 & w1 & a1 & r1 & u1 & s1 & rows1 & D1 & S1 & I1 & A1 & _ & _ & J1 & _).
  destruct (counts_unique _ _ _ _ _ _ _ D1 C1) as [-> ->]. pose proof (resumable_start _ _ _ _ _ _ HR S1) as X1. rewrite X1 in I1, S1, J1. clear X1.
  pose proof (traj_static _ _ _ _ N1 A1 (le_n _)) as ST. rewrite I1 in ST. assert (EL : j_layers j1 = j_layers (s1 N1)) by (rewrite J1; reflexivity).
  destruct (stepwise_layers j (s1 N1) j1 EL ST) as [SS RR]. specialize (RR HR).
  assert (ER : r1 = r3) by (apply (same_selection mode N1 j j j j r1 u1 r3 u3); [split; tauto|exact S1|exact SEL1]). subst r1.
  assert (EN : s1 N1 = s3 N1) by (apply (traj_unique r3 dt s1 s3 N1); [congruence|exact A1|exact TR1|lia]).
  assert (SEL2 : selects mode N2 j1 j1 r3 u3).
  { destruct S3 as (_ & _ & M & Er), SS as [SN SL]. split; [intros l Hl; left; apply (RR l Hl)|]. split; [rewrite (resumable_prepared _ RR); symmetry; apply set_layers_id|].
    split; [|rewrite Er; apply table_same, SL]. split; [intros Y; apply (proj1 M), SN, Y|intros Y; apply (proj2 M); intros Z; apply Y, SN, Z]. }
  set (s2 := fun k => set_j_log (j_log j1) (j_logLength j1) (s3 (N1 + k)%nat)).
  assert (S20 : s2 0%nat = j1). { unfold s2. rewrite Nat.add_0_r, <- EN. rewrite J1. cbn [j_log j_logLength set_j_log]. destruct (s1 N1). reflexivity. }
  assert (TR2 : trajectory r3 dt s2 N2).
  { intros k Hk. unfold s2. rewrite step_log.
    assert (AU : all_unchanging (j_layers (s3 (N1 + k)%nat))) by (apply (traj_unchanging r3 dt s3 (N1 + N2)); [rewrite I3, X3; intros l Hl; apply (HR l Hl)|exact A3|lia]).
    rewrite (step_timeless _ (INR k * dt) (INR (N1 + k) * dt) _ _ AU). rewrite (A3 (N1 + k)%nat ltac:(lia)), Nat.add_succ_r. reflexivity. }
  assert (HM2 : j_mode j1 = MR_STRIP -> strip_sized j1).
  { intros Y. destruct ST as (EJ & LJ & _). assert (Z : strip_sized j) by (apply HM; rewrite <- Y, J1; cbn [j_mode set_j_log]; rewrite EJ; reflexivity).
    unfold strip_sized, layerNo in *. rewrite J1. cbn [j_layers set_j_log j_Rx0 j_Ry0 j_AMR_X j_AMR_Y j_SMR_X j_SMR_Y j_AHE]. rewrite LJ. rewrite EJ. exact Z. }
  destruct (run_complete T2 dt wf e mode j1 N2 w j1 r3 u3 s2 C2 SEL2 Hw HM2 S20 TR2) as [j2 E2]; [|exists j2; auto].
  intros k Hk. destruct (RE (q + k)%nat ltac:(lia)) as [row Hrow]. unfold s2.
  replace (N1 + S (k * w))%nat with (S ((q + k) * w)) by (rewrite Hq; lia). destruct (row_time _ _ _ (INR (k * w) * dt) _ Hrow) as [row' Hr]. exists row'. exact Hr.
Qed.

(** ** A field that is switched on later *)
Definition ex_switch : sdriver := SD step 0 (/ gamma0) (-1) (-1) (-1) (-1) 1 10 (-1) (-1).
Lemma switch_built : getStepDriver 0 (/ gamma0) 1 10 = Ok ex_switch.
Proof. unfold getStepDriver. destruct (Rle_dec 10 1); [lra|]. reflexivity. Qed.
Definition ex_late : layer := set_l_external (AX (cdrv 0) (cdrv 0) ex_switch) (ex_spin "a").
Definition on_at (t : R) : R := if Rle_dec 1 t then if Rle_dec t 10 then 1 else 0 else 0.
Lemma late_rhs t m b top : rhs ex_late t m b top (Scal (on_at t) (CV (- cy m) (cx m) 0)).
Proof.
  set (i := FI (CV 0 0 (on_at t * / gamma0)) Zero Zero Zero 0 0 0 0 0 Zero Zero).
  assert (II : inputs_at ex_late t i).
  { repeat split. cbn [fi_ext i]. unfold ex_late. cbn [l_external set_l_external]. unfold getCurrentAxialDrivers. cbn. unfold stepUpdate, on_at. cbn.
    destruct (Rle_dec 1 t); [destruct (Rle_dec t 10)|]; cbn; do 2 f_equal; ring. }
  assert (H : rhs ex_late t m b top (LLG_plain 0 m (H_eff ex_late i m b top (dipole_total ex_late b top) Zero))).
  { exists i. split; [exact II|]. split; [cbn; lra|]. split; [cbn; lra|]. apply llg_plain; reflexivity. }
  clear II. assert (E : H_eff ex_late i m b top (dipole_total ex_late b top) Zero = CV 0 0 (on_at t * / gamma0)).
  { unfold H_eff, IEC_total, IDMI_total, H_anis, dipole_total, H_iec, H_idmi, H_tensor, i. generalize (on_at t). intros o. destruct m as [ma mb mc], b as [ba bb bc], top as [ta tb tc]. cbn -[Rmult Rplus Rdiv Rinv gamma0 mu0 Ropp].
    unfold Rdiv. vsimp. cbn -[Rmult Rplus Rdiv Rinv gamma0 mu0 Ropp]. apply vec_eq; cbn -[Rmult Rplus Rdiv Rinv gamma0 mu0 Ropp]; ring. }
  rewrite E in H. replace (Scal (on_at t) (CV (- cy m) (cx m) 0)) with (LLG_plain 0 m (CV 0 0 (on_at t * / gamma0))); [exact H|].
  unfold LLG_plain, prefactor, LL. generalize (on_at t). intros o. destruct m as [x y z]. vsimp. unfold gamma0. apply vec_eq; cbn [cx cy cz]; field.
Qed.
Lemma late_runnable : runnable ex_late.
Proof. split; [intros t m b top; eexists; apply late_rhs|]. split; [reflexivity|discriminate]. Qed.
Lemma late_quiet l : static ex_late l -> quiet l.
Proof. intros H. apply (static_quiet ex_late l H). split; reflexivity. Qed.
Lemma late_step t j j' l : eulerHeunSolverStep t 1 j = (j', Ok tt) -> j_layers j = [l] -> static ex_late l -> l_mag l = CV 1 0 0 ->
  exists l', j_layers j' = [l'] /\ static ex_late l' /\ Normalised (CV 1 (on_at t) 0) (l_mag l').
Proof.
  intros E EJ S EM. apply eh_sound in E. destruct E as (_ & L & P). rewrite EJ in L. destruct (j_layers j') as [|l' [|x xs]] eqn:EJ'; try discriminate.
  exists l'. split; [reflexivity|]. destruct (P 0%nat l l') as (w & c & N & (_ & f & F & X) & El); [rewrite EJ; reflexivity|reflexivity|].
  apply (quiet_noise l t w (late_quiet l S)) in N. subst w. cbv beta zeta in X. rewrite !plain_no_field in X.
  apply (static_rhs _ _ _ _ _ _ _ (static_sym _ _ S)) in F. rewrite (rhs_unique _ _ _ _ _ _ _ F (late_rhs _ _ _ _)), EM in X. split.
  - rewrite El. apply static_trans with (2 := static_mag _ _), static_trans with (2 := static_cache _ _), static_trans with (2 := static_advance _), S.
  - match type of X with Normalised ?u _ => replace (CV 1 (on_at t) 0) with u; [exact X|] end. clear. generalize (on_at t). intros o. vsimp. apply vec_eq; cbn; ring.
Qed.
Lemma unit_x_normalised u : Normalised (CV 1 0 0) u -> u = CV 1 0 0.
Proof. intros H. apply (Normalised_fun _ _ _ H). apply unit_normalised. unfold Unit, Norm2, Dot. cbn. ring. Qed.
Lemma late_runner mode N j j0 r used l : mode = EULER_HEUN -> j_layers j = [l] -> static ex_late l -> selects mode N j j0 r used -> j0 = j /\ r = RunEulerHeun.
Proof.
  intros -> EJ S (_ & -> & [A B] & ->). split.
  - rewrite (P_ConvergeRun.quiet_prepared (j_layers j)); [apply set_layers_id|]. rewrite EJ. intros k [<-|[]]. exact (late_quiet l S).
  - assert (E : used = EULER_HEUN) by (destruct (classic (exists l, In l (j_layers j) /\ noisy l)) as [Y|Y]; [apply (A Y)|apply (B Y)]). rewrite E. reflexivity.
Qed.
Lemma counts_2 : step_counts 2 1 1 2 1.
Proof. repeat split; try lra; left; cbn; lra. Qed.
Lemma off_0 : on_at (INR 0 * 1) = 0.
Proof. unfold on_at. cbn. destruct (Rle_dec 1 (0 * 1)); [lra|reflexivity]. Qed.
Lemma on_1 : on_at (INR 1 * 1) = 1.
Proof. unfold on_at. cbn. destruct (Rle_dec 1 (1 * 1)); [|lra]. destruct (Rle_dec (1 * 1) 10); [reflexivity|lra]. Qed.
Lemma late_one j j' l e : runSimulation 1 1 1 e EULER_HEUN j = (j', Ok tt) -> j_layers j = [l] -> static ex_late l -> l_mag l = CV 1 0 0 ->
  exists l', j_layers j' = [l'] /\ static ex_late l' /\ l_mag l' = CV 1 0 0.
Proof.
  intros E EJ S EM. destruct (run_sound _ _ _ _ _ _ _ E) as (N & w & j0 & r & used & s & rows & HC & HS & H0 & Htr & _ & _ & Ej & _).
  destruct (counts_unique _ _ _ _ _ _ _ HC counts_1_1) as [-> ->]. destruct (late_runner _ _ _ _ _ _ l eq_refl EJ S HS) as [-> ->].
  assert (A := Htr 0%nat ltac:(lia)). rewrite H0 in A. destruct (late_step _ _ _ l A EJ S EM) as (l' & L & S' & X). rewrite off_0 in X.
  exists l'. split; [rewrite Ej; exact L|]. split; [exact S'|]. apply unit_x_normalised, X.
Qed.
Lemma late_two j j' l e : runSimulation 2 1 1 e EULER_HEUN j = (j', Ok tt) -> j_layers j = [l] -> static ex_late l -> l_mag l = CV 1 0 0 ->
  exists l', j_layers j' = [l'] /\ l_mag l' <> CV 1 0 0.
Proof.
  intros E EJ S EM. destruct (run_sound _ _ _ _ _ _ _ E) as (N & w & j0 & r & used & s & rows & HC & HS & H0 & Htr & _ & _ & Ej & _).
  destruct (counts_unique _ _ _ _ _ _ _ HC counts_2) as [-> ->]. destruct (late_runner _ _ _ _ _ _ l eq_refl EJ S HS) as [-> ->].
  assert (A := Htr 0%nat ltac:(lia)). rewrite H0 in A. destruct (late_step _ _ _ l A EJ S EM) as (l1 & L1 & S1 & X1). rewrite off_0 in X1. apply unit_x_normalised in X1.
  assert (B := Htr 1%nat ltac:(lia)). destruct (late_step _ _ _ l1 B L1 S1 X1) as (l2 & L2 & _ & X2). rewrite on_1 in X2.
  exists l2. split; [rewrite Ej; exact L2|]. intros Y. rewrite Y in X2. apply norm_ratio in X2. cbn in X2. lra.
Qed.
Lemma late_alone T e N w : step_counts T 1 1 N w -> (w > 0)%nat -> exists j', runSimulation T 1 1 e EULER_HEUN (alone ex_late) = (j', Ok tt).
Proof. intros HC Hw. apply (run_exists _ _ _ _ _ _ N w); [lra|discriminate|discriminate|exact HC|exact Hw|]. intros l [<-|[]]. apply late_runnable. Qed.
Lemma late_static_runnable l : static ex_late l -> runnable l.
Proof.
  intros S. split; [intros t m b top; eexists; apply (static_rhs _ _ _ _ _ _ _ S), late_rhs|]. destruct S as (m & c & rp & bf & ->). split; [reflexivity|discriminate].
Qed.
Lemma late_refuted : getStepDriver 0 (/ gamma0) 1 10 = Ok ex_switch /\ ~ constant_scalar ex_switch /\
  exists j1 j2 j3, runSimulation 1 1 1 false EULER_HEUN (alone ex_late) = (j1, Ok tt) /\ runSimulation 1 1 1 false EULER_HEUN j1 = (j2, Ok tt) /\
    runSimulation 2 1 1 false EULER_HEUN (alone ex_late) = (j3, Ok tt) /\ j_layers j2 <> j_layers j3.
Proof.
  split; [exact switch_built|]. split.
  { intros H. specialize (H 1). revert H. unfold getCurrentScalarValue, stepUpdate. cbn -[gamma0]. destruct (Rle_dec 1 1); [|lra]. destruct (Rle_dec 1 10); [|lra]. destruct (Rle_dec 1 0); [lra|].
    cbn -[gamma0]. intros H. injection H. assert (0 < / gamma0) by (apply Rinv_0_lt_compat; unfold gamma0; lra). lra. }
  destruct (late_alone 1 false 1 1 counts_1_1 ltac:(lia)) as [j1 E1]. destruct (late_alone 2 false 2 1 counts_2 ltac:(lia)) as [j3 E3].
  assert (EA : j_layers (alone ex_late) = [ex_late]) by reflexivity.
  destruct (late_one _ _ _ _ E1 EA (static_refl _) eq_refl) as (l1 & L1 & S1 & X1).
  assert (EM : j_mode j1 = j_mode (alone ex_late)).
  { destruct (run_sound _ _ _ _ _ _ _ E1) as (N & w & j0 & r & used & s & rows & HC & HS & H0 & Htr & _ & _ & Ej & _).
    destruct (traj_static _ _ _ _ N Htr (le_n _)) as (EJ & _). rewrite Ej. cbn [j_mode set_j_log]. rewrite EJ, H0. destruct HS as (_ & -> & _). reflexivity. }
  destruct (run_exists 1 1 1 false EULER_HEUN j1 1 1) as [j2 E2].
  { lra. } { rewrite L1. discriminate. } { rewrite EM. discriminate. } { exact counts_1_1. } { lia. } { rewrite L1. intros l [<-|[]]. apply late_static_runnable, S1. }
  exists j1, j2, j3. split; [exact E1|]. split; [exact E2|]. split; [exact E3|].
  destruct (late_one _ _ _ _ E2 L1 S1 X1) as (l2 & L2 & _ & X2). destruct (late_two _ _ _ _ E3 EA (static_refl _) eq_refl) as (l3 & L3 & X3).
  rewrite L2, L3. intros Y. injection Y as Y. apply X3. rewrite <- Y. exact X2.
Qed.
