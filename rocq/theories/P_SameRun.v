(** Steps and whole runs of stacks with layers described differently (C109). *)
From Coq Require Import Classical_Prop.
From Verif Require Import P_Same P_MirrorRun P_RunEx.
From Verif Require Export P_Same S_Faster.
Open Scope R_scope.
Open Scope st_scope.

Lemma same_nth a b p m : same_stack a b -> nth_error (j_layers b) p = Some m -> exists l, nth_error (j_layers a) p = Some l /\ same_motion l m.
Proof.
  unfold same_stack. intros H. revert p. induction H as [|l m0 ls ms T H IH]; intros [|p] E; cbn in E; try discriminate; [injection E as <-; exists l; split; [reflexivity|exact T]|exact (IH p E)].
Qed.
Lemma same_length a b : same_stack a b -> length (j_layers b) = length (j_layers a).
Proof. intros H. induction H; cbn; congruence. Qed.
Lemma same_intro a b : length (j_layers b) = length (j_layers a) ->
  (forall p l m, nth_error (j_layers a) p = Some l -> nth_error (j_layers b) p = Some m -> same_motion l m) -> same_stack a b.
Proof.
  unfold same_stack. generalize (j_layers a) (j_layers b). induction l as [|l ls IH]; intros [|m ms] L H; try discriminate; [constructor|].
  constructor; [apply (H 0%nat); reflexivity|]. apply IH; [injection L; auto|]. intros p x y A B. exact (H (S p) x y A B).
Qed.
Lemma same_mags a b : same_stack a b -> mags (j_layers b) = mags (j_layers a).
Proof. intros H. induction H as [|l m ls ms T H IH]; [reflexivity|]. unfold mags in *. cbn [map]. rewrite IH, (sm_mag _ _ T). reflexivity. Qed.
(** ** One step *)
Definition same_image (g : layer -> layer) (a' b : junction) : junction :=
  set_j_layers (map (fun x => set_l_mag (l_mag (fst x)) (g (snd x))) (combine (j_layers a') (j_layers b))) b.
Lemma combine_nth_error {A B} : forall (xs : list A) (ys : list B) p x y, nth_error xs p = Some x -> nth_error ys p = Some y -> nth_error (combine xs ys) p = Some (x, y).
Proof. induction xs as [|x xs IH]; intros [|y ys] [|p] u v E F; cbn in *; try discriminate; [congruence|exact (IH _ _ _ _ E F)]. Qed.
Lemma same_image_nth g a' b p l' m : nth_error (j_layers a') p = Some l' -> nth_error (j_layers b) p = Some m ->
  nth_error (j_layers (same_image g a' b)) p = Some (set_l_mag (l_mag l') (g m)).
Proof. intros A B. cbn [same_image j_layers set_j_layers]. rewrite (map_nth_error _ _ _ (combine_nth_error _ _ _ _ _ A B)). reflexivity. Qed.
Lemma same_stepwise (g : layer -> layer) (P P' : nat -> layer -> layer -> Prop) a a' b : same_stack a b -> stepwise P a a' ->
  (forall p l l' m, nth_error (j_layers a) p = Some l -> same_motion l m -> P p l l' -> P' p m (set_l_mag (l_mag l') (g m))) -> stepwise P' b (same_image g a' b).
Proof.
  intros H (_ & LA & PA) HP. pose proof (same_length _ _ H) as L. split; [reflexivity|].
  split; [cbn [same_image j_layers set_j_layers]; rewrite map_length, combine_length, LA, L; apply Nat.min_id|].
  intros p m m' Em Em'. destruct (same_nth _ _ _ _ H Em) as (l & El & T). destruct (nth_error_same_length _ _ _ _ LA El) as [l' El'].
  rewrite (same_image_nth g a' b p l' m El' Em) in Em'. injection Em' as <-. exact (HP p l l' m El T (PA p l l' El El')).
Qed.
Lemma same_reached (g : layer -> layer) a a' b b' : same_stack a b -> (forall l m, same_motion l m -> same_motion (g l) (g m)) ->
  stepwise (fun _ l l' => exists c, l' = set_l_mag (l_mag l') (set_l_cache c (g l))) a a' ->
  stepwise (fun _ l l' => exists c, l' = set_l_mag (l_mag l') (set_l_cache c (g l))) b b' ->
  mags (j_layers b') = mags (j_layers (same_image g a' b)) -> same_stack a' b'.
Proof.
  intros H GT (_ & LA & PA) (_ & LB & PB) EM. pose proof (same_length _ _ H) as L. apply same_intro; [congruence|].
  intros p l' m' El' Em'. destruct (nth_error_same_length _ _ _ _ (eq_sym LA) El') as [l El]. destruct (nth_error_same_length _ _ _ _ (eq_sym LB) Em') as [m Em].
  destruct (same_nth _ _ _ _ H Em) as (l0 & El0 & T). assert (l0 = l) by congruence. subst l0. destruct (PA p l l' El El') as [c1 E1]. destruct (PB p m m' Em Em') as [c2 E2].
  assert (EQ : l_mag m' = l_mag l').
  { pose proof (map_nth_error l_mag _ _ Em') as X. pose proof (map_nth_error l_mag _ _ (same_image_nth g a' b p l' m El' Em)) as Y. fold (mags (j_layers b')) in X. fold (mags (j_layers (same_image g a' b))) in Y.
    rewrite EM, Y in X. cbn [l_mag set_l_mag] in X. congruence. }
  rewrite E1, E2, EQ. apply same_put, GT, T.
Qed.
Lemma step_same r t dt a b a' : same_stack a b -> (r = RunSingle -> layerNo a = 1%nat) -> run_runner r t dt a = (a', Ok tt) ->
  exists b', run_runner r t dt b = (b', Ok tt) /\ same_stack a' b'.
Proof.
  intros H HS E. pose proof (same_mags _ _ H) as V. pose proof (same_length _ _ H) as L.
  pose proof (fun x y => same_reached (fun l => l) a x b y H (fun _ _ X => X)) as G1. pose proof (fun x y => same_reached advance_noise a x b y H same_advance) as G2. cbv beta in G1.
  destruct r; cbn [run_runner] in *.
  - specialize (HS eq_refl). unfold layerNo in HS. apply single_sound in E.
    destruct (single_complete t dt b (same_image (fun l => l) a' b)) as (b' & E' & EM).
    { intros X. rewrite X in L. cbn in L. lia. }
    { apply (same_stepwise _ _ _ _ _ _ H E). intros p l l' m El T X. assert (PL : (p < length (j_layers a))%nat) by (apply nth_error_Some; congruence). assert (p = 0%nat) by lia. subst p. exact (single_same _ _ _ _ _ T X). }
    exists b'. split; [exact E'|]. pose proof E' as S'. apply single_sound in S'.
    assert (K : forall s ds x y, layerNo x = 1%nat -> stepwise (RK4_single_rel s ds) x y -> stepwise (fun _ l l' => exists c, l' = set_l_mag (l_mag l') (set_l_cache c l)) x y).
    { intros s ds x y Lx (A & B & C). split; [exact A|]. split; [exact B|]. intros p l l' X Y. assert (PL : (p < length (j_layers x))%nat) by (apply nth_error_Some; congruence). unfold layerNo in Lx. assert (p = 0%nat) by lia. subst p. apply (C 0%nat l l' X Y). }
    apply G1; [apply (K t dt); assumption|apply (K t dt); [unfold layerNo; congruence|exact S']|exact EM].
  - apply multi_sound in E. destruct (multi_complete t dt b (same_image (fun l => l) a' b)) as (b' & E' & EM).
    { rewrite V. apply (same_stepwise _ _ _ _ _ _ H E). intros p l l' m _ T X. exact (multi_same _ _ _ _ _ _ _ T X). }
    exists b'. split; [exact E'|]. apply multi_sound in E'.
    apply G1; [refine (stepwise_weaken _ _ _ _ _ E)|refine (stepwise_weaken _ _ _ _ _ E')|exact EM]; intros p l l' X; apply X.
  - apply heun_sound in E. destruct E as (ws & ps & LW & LP & E).
    destruct (heun_complete t dt b (same_image advance_noise a' b) ws ps) as (b' & E' & EM); [congruence|congruence| |].
    { rewrite V. apply (same_stepwise _ _ _ _ _ _ H E). intros p l l' m _ T X. exact (heun_same _ _ _ _ _ _ _ _ _ T X). }
    exists b'. split; [exact E'|]. apply heun_sound in E'. destruct E' as (ws2 & ps2 & _ & _ & E').
    apply G2; [refine (stepwise_weaken _ _ _ _ _ E)|refine (stepwise_weaken _ _ _ _ _ E')|exact EM]; intros p l l' (w & x & c & _ & _ & _ & _ & _ & X); exists c; exact X.
  - apply eh_sound in E. destruct (eh_complete t dt b (same_image advance_noise a' b)) as (b' & E' & EM).
    { rewrite V. apply (same_stepwise _ _ _ _ _ _ H E). intros p l l' m _ T X. exact (eh_same _ _ _ _ _ _ _ T X). }
    exists b'. split; [exact E'|]. apply eh_sound in E'.
    apply G2; [refine (stepwise_weaken _ _ _ _ _ E)|refine (stepwise_weaken _ _ _ _ _ E')|exact EM]; intros p l l' (w & c & _ & _ & X); exists c; exact X.
Qed.

(** ** Runs *)
Lemma same_stack_solver a b : same_stack a b -> same_solver a b.
Proof.
  intros H. split; [|unfold layerNo; rewrite (same_length _ _ H); tauto].
  assert (K : forall l m, same_motion l m -> (noisy l <-> noisy m)).
  { intros l m T. destruct (sm_thermal _ _ T) as (_ & _ & _ & _ & F & _). destruct (sm_coloured _ _ T) as (C & _). unfold noisy. rewrite F, C. tauto. }
  unfold same_stack in H. induction H as [|l m ls ms T H IH]; [tauto|]. specialize (K _ _ T). split; intros (x & [<-|I] & N).
  - exists m. cbn. tauto.
  - destruct (proj1 IH) as (y & Iy & Ny); [exists x; auto|]. exists y. cbn. auto.
  - exists l. cbn. tauto.
  - destruct (proj2 IH) as (y & Iy & Ny); [exists x; auto|]. exists y. cbn. auto.
Qed.
Lemma same_prepared a b : same_stack a b -> same_stack (set_j_layers (map prepared (j_layers a)) a) (set_j_layers (map prepared (j_layers b)) b) /\ forall N, (forall l, In l (j_layers a) -> preparable N l) -> forall m, In m (j_layers b) -> preparable N m.
Proof.
  unfold same_stack. cbn [j_layers set_j_layers]. intros H. induction H as [|l m ls ms T H [IH IP]]; [split; [constructor|intros N _ m []]|]. split.
  - cbn [map]. constructor; [exact (same_prepare _ _ T)|exact IH].
  - intros N PA x [<-|I]; [apply (same_preparable N _ _ T), PA; left; reflexivity|]. apply (IP N); [intros y Iy; apply PA; right; exact Iy|exact I].
Qed.
Lemma same_selects mode N a b a0 r u : same_stack a b -> selects mode N a a0 r u -> exists b0, selects mode N b b0 r u /\ same_stack a0 b0.
Proof.
  intros H (P & E & [M1 M2] & ->). destruct (same_prepared _ _ H) as [HP PP]. exists (set_j_layers (map prepared (j_layers b)) b). split; [|rewrite E; exact HP].
  destruct (same_stack_solver _ _ H) as [SN SL]. split; [exact (PP N P)|].
  split; [reflexivity|]. split; [split; [intros Y; apply M1, SN, Y|intros Y; apply M2; intros Z; apply Y, SN, Z]|]. apply table_same, SL.
Qed.
Lemma traj_same r dt s N b0 : same_stack (s 0%nat) b0 -> (r = RunSingle -> layerNo (s 0%nat) = 1%nat) -> trajectory r dt s N ->
  exists s', s' 0%nat = b0 /\ trajectory r dt s' N /\ forall k, (k <= N)%nat -> same_stack (s k) (s' k).
Proof.
  intros H HS. induction N as [|N IH]; intros TR.
  - exists (fun _ => b0). split; [reflexivity|]. split; [intros k Hk; lia|]. intros k Hk. assert (k = 0%nat) by lia. subst k. exact H.
  - destruct IH as (s' & I & T & M); [intros k Hk; apply TR; lia|].
    destruct (step_same r (INR N * dt) dt (s N) (s' N) (s (S N))) as (b' & E & X); [apply M; lia| |apply TR; lia|].
    { intros R. specialize (HS R). assert (T' : trajectory r dt s N) by (intros k Hk; apply TR; lia). destruct (traj_static _ _ _ _ N T' (le_n N)) as (_ & LL & _). unfold layerNo in *. congruence. }
    exists (fun k => if Nat.leb k N then s' k else b'). split; [exact I|]. split.
    + intros k Hk. destruct (Nat.eq_dec k N) as [->|Hne].
      * rewrite (proj2 (Nat.leb_le N N)) by lia. rewrite (proj2 (Nat.leb_gt (S N) N)) by lia. exact E.
      * rewrite (proj2 (Nat.leb_le k N)) by lia. rewrite (proj2 (Nat.leb_le (S k) N)) by lia. apply T. lia.
    + intros k Hk. destruct (Nat.leb_spec k N) as [Y|Y]; [apply M, Y|]. assert (k = S N) by lia. subst k. exact X.
Qed.
Lemma run_same T dt wf e e' mode a b a' : same_stack a b -> j_mode b <> MR_STRIP -> runSimulation T dt wf e mode a = (a', Ok tt) ->
  exists b', runSimulation T dt wf e' mode b = (b', Ok tt) /\ same_stack a' b'.
Proof.
  intros H HM E. destruct (run_sound _ _ _ _ _ _ _ E) as (N & w & a0 & r & u & s & rows & HC & HS & I & TR & HW & _ & Ea & _).
  destruct (same_selects _ _ _ _ _ _ _ H HS) as (b0 & HS' & H0).
  destruct (traj_same r dt s N b0) as (s' & I' & TR' & M); [rewrite I; exact H0|rewrite I; exact (single_one _ _ _ _ _ _ HS)|exact TR|].
  assert (X : exists b', runSimulation T dt wf e' mode b = (b', Ok tt)).
  { destruct HW as [->|HW]; [exists b0; exact (run_none _ _ _ _ _ _ _ _ _ _ HC HS')|].
    apply (run_complete T dt wf e' mode b N w b0 r u s' HC HS' HW (fun Y => False_ind _ (HM Y)) I' TR').
    intros k Hk. assert (Hk' : (S (k * w) <= N)%nat) by (apply (row_in_run N w k (or_intror HW)); exact Hk).
    destruct (traj_static _ _ _ _ _ TR' Hk') as (EJ & _). assert (EM : j_mode (s' (S (k * w))) = j_mode b) by (rewrite EJ, I'; destruct HS' as (_ & -> & _); reflexivity).
    unfold log_row, resistance_row. rewrite EM. destruct (j_mode b); [|destruct (j_layers (s' (S (k * w)))) as [|? [|? ?]]|contradiction HM; reflexivity]; eexists; eexists; (split; [reflexivity|reflexivity]). }
  destruct X as [b' X]. exists b'. split; [exact X|].
  destruct (run_sound _ _ _ _ _ _ _ X) as (N2 & w2 & b2 & r2 & u2 & s2 & rows2 & HC2 & HS2 & I2 & TR2 & _ & _ & Eb & _).
  destruct (counts_unique _ _ _ _ _ _ _ HC2 HC) as [-> ->]. assert (SB : same_solver b b) by (split; tauto). destruct (same_selection _ _ _ _ _ _ _ _ _ _ SB HS2 HS') as [-> ->].
  assert (E0 : s2 0%nat = s' 0%nat) by (rewrite I2, I'; destruct HS2 as (_ & -> & _), HS' as (_ & -> & _); reflexivity).
  pose proof (M N (le_n N)) as MM. rewrite <- (traj_deterministic _ _ _ _ _ E0 TR2 TR' N (le_n N)) in MM. rewrite Ea, Eb. exact MM.
Qed.
Lemma run_same_log T dt wf e e' mode a b a' b' : same_stack a b -> named a -> named b -> runSimulation T dt wf e mode a = (a', Ok tt) -> runSimulation T dt wf e' mode b = (b', Ok tt) ->
  forall p l m, nth_error (j_layers a) p = Some l -> nth_error (j_layers b) p = Some m -> forall tag, In tag ["mx"; "my"; "mz"]%string -> exists new,
  col (colname (l_id l) tag) (j_log a') = (col (colname (l_id l) tag) (j_log a) ++ new)%list /\ col (colname (l_id m) tag) (j_log b') = (col (colname (l_id m) tag) (j_log b) ++ new)%list.
Proof.
  intros H NA NB A B p l m Hl Hm tag Htag.
  destruct (run_grid _ _ _ _ _ _ _ NA A) as (N & w & C1 & W1 & _ & _ & r1 & u1 & a0 & s & S1 & I1 & T1 & _ & P1).
  destruct (run_grid _ _ _ _ _ _ _ NB B) as (N2 & w2 & C2 & _ & _ & _ & r2 & u2 & b0 & s2 & S2 & I2 & T2 & _ & P2).
  destruct (counts_unique _ _ _ _ _ _ _ C2 C1) as [-> ->].
  destruct (same_selects _ _ _ _ _ _ _ H S1) as (b1 & S1' & H0). assert (SB : same_solver b b) by (split; tauto). destruct (same_selection _ _ _ _ _ _ _ _ _ _ SB S2 S1') as [-> ->].
  destruct (traj_same r1 dt s N b1) as (s' & I' & TR' & M); [rewrite I1; exact H0|rewrite I1; exact (single_one _ _ _ _ _ _ S1)|exact T1|].
  assert (E0 : s2 0%nat = s' 0%nat) by (rewrite I2, I'; destruct S2 as (_ & -> & _), S1' as (_ & -> & _); reflexivity).
  pose proof (traj_deterministic _ _ _ _ _ E0 T2 TR') as DT. destruct (P1 p l Hl) as (X1 & Y1 & Z1), (P2 p m Hm) as (X2 & Y2 & Z2).
  assert (K : forall k, In k (seq 0 (rows_needed N w)) -> nth p (mags (j_layers (s2 (S (k * w))))) Zero = nth p (mags (j_layers (s (S (k * w))))) Zero).
  { intros k Hk. apply in_seq in Hk. pose proof (row_in_run N w k W1 ltac:(lia)) as HkN. rewrite (DT _ HkN), (same_mags _ _ (M _ HkN)). reflexivity. }
  destruct Htag as [<-|[<-|[<-|[]]]].
  - eexists. split; [exact X1|]. rewrite X2. f_equal. apply map_ext_in. intros k Hk. rewrite (K k Hk). reflexivity.
  - eexists. split; [exact Y1|]. rewrite Y2. f_equal. apply map_ext_in. intros k Hk. rewrite (K k Hk). reflexivity.
  - eexists. split; [exact Z1|]. rewrite Z2. f_equal. apply map_ext_in. intros k Hk. rewrite (K k Hk). reflexivity.
Qed.
Lemma same_stack_sym a b : same_stack a b -> same_stack b a.
Proof. unfold same_stack. intros H. induction H as [|l m ls ms T H IH]; constructor; [exact (same_sym _ _ T)|exact IH]. Qed.
Lemma run_same_iff T dt wf e e' mode a b : same_stack a b -> j_mode a <> MR_STRIP -> j_mode b <> MR_STRIP ->
  ((exists a', runSimulation T dt wf e mode a = (a', Ok tt)) <-> (exists b', runSimulation T dt wf e' mode b = (b', Ok tt))).
Proof.
  intros H MA MB. split; intros [x E]; [destruct (run_same T dt wf e e' mode a b x H MB E) as (y & Y & _)|destruct (run_same T dt wf e' e mode b a x (same_stack_sym _ _ H) MA E) as (y & Y & _)]; exists y; exact Y.
Qed.
Lemma same_one a b p l m : nth_error (j_layers a) p = Some l -> same_motion l m -> j_layers b = (firstn p (j_layers a) ++ m :: skipn (S p) (j_layers a))%list -> same_stack a b.
Proof.
  assert (K : forall x, same_motion x x) by (intros x; constructor; try (repeat split; reflexivity); intros; tauto).
  assert (KL : forall xs, Forall2 same_motion xs xs) by (induction xs; constructor; auto).
  unfold same_stack. intros E T ->. revert p E. generalize (j_layers a). induction l0 as [|x xs IH]; intros [|p] E; cbn in E; try discriminate.
  - injection E as ->. constructor; [exact T|apply KL].
  - cbn. constructor; [apply K|exact (IH p E)].
Qed.
Lemma resistance_same a b r : same_stack a b -> same_readout a b -> map l_reference (j_layers b) = map l_reference (j_layers a) -> (resistance_row a r <-> resistance_row b r).
Proof.
  intros H (E1 & E0 & E2 & E3 & E4 & E5 & E6 & E7 & E8 & E9 & E10) R. unfold resistance_row. rewrite E1, E0, E2, E3. unfold same_stack in H.
  assert (K : forall i, mapi (strip_long b) i (j_layers b) = mapi (strip_long a) i (j_layers a) /\ mapi (strip_trans b) i (j_layers b) = mapi (strip_trans a) i (j_layers a)).
  { clear R. induction H as [|l m ls ms T H IH]; intros i; [split; reflexivity|]. cbn [mapi]. destruct (IH (S i)) as [A B]. rewrite A, B. unfold strip_long, strip_trans.
    rewrite E4, E5, E6, E7, E8, E9, E10, (sm_mag _ _ T). split; reflexivity. }
  destruct (K 0%nat) as [K1 K2]. rewrite K1, K2. destruct (j_mode a); [tauto| |tauto]. destruct H as [|l0 m0 ls ms T0 H]; [tauto|]. cbn [map] in R. injection R as R _.
  destruct H as [|l1 m1 ls' ms' T1 H]; rewrite (sm_mag _ _ T0); [rewrite R; tauto|]. rewrite (sm_mag _ _ T1). tauto.
Qed.
Lemma strip_same a b r : same_stack a b -> same_readout a b -> j_mode a = MR_STRIP -> resistance_row a r -> resistance_row b r.
Proof.
  intros H (E1 & E0 & E2 & E3 & E4 & E5 & E6 & E7 & E8 & E9 & E10) M. unfold resistance_row. rewrite E1, M. unfold same_stack in H.
  assert (K : forall i, mapi (strip_long b) i (j_layers b) = mapi (strip_long a) i (j_layers a) /\ mapi (strip_trans b) i (j_layers b) = mapi (strip_trans a) i (j_layers a)).
  { induction H as [|l m ls ms T H IH]; intros i; [split; reflexivity|]. cbn [mapi]. destruct (IH (S i)) as [A B]. rewrite A, B. unfold strip_long, strip_trans.
    rewrite E4, E5, E6, E7, E8, E9, E10, (sm_mag _ _ T). split; reflexivity. }
  destruct (K 0%nat) as [K1 K2]. rewrite K1, K2. tauto.
Qed.
Lemma readout_traj r dt a b s s' N k : same_readout a b -> (k <= N)%nat -> trajectory r dt s N -> trajectory r dt s' N -> s 0%nat = set_j_layers (j_layers (s 0%nat)) a -> s' 0%nat = set_j_layers (j_layers (s' 0%nat)) b -> same_readout (s k) (s' k).
Proof.
  intros H Hk T T' I I'. destruct (traj_static _ _ _ _ _ T Hk) as (E & _). destruct (traj_static _ _ _ _ _ T' Hk) as (E' & _). rewrite E, E', I, I'. exact H.
Qed.
Lemma run_same_strip T dt wf e e' mode a b a' : same_stack a b -> same_readout a b -> j_mode a = MR_STRIP -> strip_sized b -> runSimulation T dt wf e mode a = (a', Ok tt) ->
  exists b', runSimulation T dt wf e' mode b = (b', Ok tt) /\ same_stack a' b'.
Proof.
  intros H HR HM HZ E. destruct (run_sound _ _ _ _ _ _ _ E) as (N & w & a0 & r & u & s & rows & HC & HS & I & TR & HW & (RL & RR) & Ea & _).
  destruct (same_selects _ _ _ _ _ _ _ H HS) as (b0 & HS' & H0).
  destruct (traj_same r dt s N b0) as (s' & I' & TR' & M); [rewrite I; exact H0|rewrite I; exact (single_one _ _ _ _ _ _ HS)|exact TR|].
  assert (X : exists b', runSimulation T dt wf e' mode b = (b', Ok tt)).
  { destruct HW as [->|HW]; [exists b0; exact (run_none _ _ _ _ _ _ _ _ _ _ HC HS')|].
    apply (run_complete T dt wf e' mode b N w b0 r u s' HC HS' HW (fun _ => HZ) I' TR').
    intros k Hk. assert (Hk' : (S (k * w) <= N)%nat) by (apply (row_in_run N w k (or_intror HW)); exact Hk).
    destruct (nth_error rows k) as [row|] eqn:Er; [|apply nth_error_None in Er; rewrite RL in Er; lia].
    destruct (RR k row Er) as (rr & R1 & _).
    assert (RT : same_readout (s (S (k * w))) (s' (S (k * w)))).
    { apply (readout_traj r dt a b s s' N); try assumption; [rewrite I; destruct HS as (_ & -> & _); reflexivity|rewrite I'; destruct HS' as (_ & -> & _); reflexivity]. }
    assert (MS : j_mode (s (S (k * w))) = MR_STRIP).
    { destruct (traj_static _ _ _ _ _ TR Hk') as (EJ & _). rewrite EJ, I. destruct HS as (_ & -> & _). exact HM. }
    eexists. exists rr. split; [exact (strip_same _ _ _ (M _ Hk') RT MS R1)|reflexivity]. }
  destruct X as [b' X]. exists b'. split; [exact X|].
  destruct (run_sound _ _ _ _ _ _ _ X) as (N2 & w2 & b2 & r2 & u2 & s2 & rows2 & HC2 & HS2 & I2 & TR2 & _ & _ & Eb & _).
  destruct (counts_unique _ _ _ _ _ _ _ HC2 HC) as [-> ->]. assert (SB : same_solver b b) by (split; tauto). destruct (same_selection _ _ _ _ _ _ _ _ _ _ SB HS2 HS') as [-> ->].
  assert (E0 : s2 0%nat = s' 0%nat) by (rewrite I2, I'; destruct HS2 as (_ & -> & _), HS' as (_ & -> & _); reflexivity).
  pose proof (M N (le_n N)) as MM. rewrite <- (traj_deterministic _ _ _ _ _ E0 TR2 TR' N (le_n N)) in MM. rewrite Ea, Eb. exact MM.
Qed.
