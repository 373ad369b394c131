(** Steps and whole runs of stacks with multiplied fields and a faster clock (C108). *)
From Coq Require Import Classical_Prop.
From Verif Require Import P_Faster P_MirrorRun P_RunEx.
From Verif Require Export P_Faster.
Open Scope R_scope.
Open Scope st_scope.

Section run.
  Context (fac : R) (Hf : 0 < fac).
  Lemma faster_nth a b p m : faster_stack fac a b -> nth_error (j_layers b) p = Some m -> exists l, nth_error (j_layers a) p = Some l /\ faster fac l m.
  Proof.
    unfold faster_stack. intros H. revert p. induction H as [|l m0 ls ms T H IH]; intros [|p] E; cbn in E; try discriminate; [injection E as <-; exists l; split; [reflexivity|exact T]|exact (IH p E)].
  Qed.
  Lemma faster_length a b : faster_stack fac a b -> length (j_layers b) = length (j_layers a).
  Proof. intros H. induction H; cbn; congruence. Qed.
  Lemma faster_intro a b : length (j_layers b) = length (j_layers a) ->
    (forall p l m, nth_error (j_layers a) p = Some l -> nth_error (j_layers b) p = Some m -> faster fac l m) -> faster_stack fac a b.
  Proof.
    unfold faster_stack. generalize (j_layers a) (j_layers b). induction l as [|l ls IH]; intros [|m ms] L H; try discriminate; [constructor|].
    constructor; [apply (H 0%nat); reflexivity|]. apply IH; [injection L; auto|]. intros p x y A B. exact (H (S p) x y A B).
  Qed.
  Lemma faster_mags a b : faster_stack fac a b -> mags (j_layers b) = mags (j_layers a).
  Proof. intros H. induction H as [|l m ls ms T H IH]; [reflexivity|]. unfold mags in *. cbn [map]. rewrite IH, (mag_faster fac _ _ T). reflexivity. Qed.
  (** ** One step *)
  Definition faster_image (g : layer -> layer) (a' b : junction) : junction :=
    set_j_layers (map (fun x => set_l_mag (l_mag (fst x)) (g (snd x))) (combine (j_layers a') (j_layers b))) b.
  Lemma combine_nth_error {A B} : forall (xs : list A) (ys : list B) p x y, nth_error xs p = Some x -> nth_error ys p = Some y -> nth_error (combine xs ys) p = Some (x, y).
  Proof. induction xs as [|x xs IH]; intros [|y ys] [|p] u v E F; cbn in *; try discriminate; [congruence|exact (IH _ _ _ _ E F)]. Qed.
  Lemma faster_image_nth g a' b p l' m : nth_error (j_layers a') p = Some l' -> nth_error (j_layers b) p = Some m ->
    nth_error (j_layers (faster_image g a' b)) p = Some (set_l_mag (l_mag l') (g m)).
  Proof. intros A B. cbn [faster_image j_layers set_j_layers]. rewrite (map_nth_error _ _ _ (combine_nth_error _ _ _ _ _ A B)). reflexivity. Qed.
  Lemma faster_stepwise (g : layer -> layer) (P P' : nat -> layer -> layer -> Prop) a a' b : faster_stack fac a b -> stepwise P a a' ->
    (forall p l l' m, nth_error (j_layers a) p = Some l -> faster fac l m -> P p l l' -> P' p m (set_l_mag (l_mag l') (g m))) -> stepwise P' b (faster_image g a' b).
  Proof.
    intros H (_ & LA & PA) HP. pose proof (faster_length _ _ H) as L. split; [reflexivity|].
    split; [cbn [faster_image j_layers set_j_layers]; rewrite map_length, combine_length, LA, L; apply Nat.min_id|].
    intros p m m' Em Em'. destruct (faster_nth _ _ _ _ H Em) as (l & El & T). destruct (nth_error_same_length _ _ _ _ LA El) as [l' El'].
    rewrite (faster_image_nth g a' b p l' m El' Em) in Em'. injection Em' as <-. exact (HP p l l' m El T (PA p l l' El El')).
  Qed.
  Lemma faster_reached (g : layer -> layer) a a' b b' : faster_stack fac a b -> (forall l m, faster fac l m -> faster fac (g l) (g m)) ->
    stepwise (fun _ l l' => exists c, l' = set_l_mag (l_mag l') (set_l_cache c (g l))) a a' ->
    stepwise (fun _ l l' => exists c, l' = set_l_mag (l_mag l') (set_l_cache c (g l))) b b' ->
    mags (j_layers b') = mags (j_layers (faster_image g a' b)) -> faster_stack fac a' b'.
  Proof.
    intros H GT (_ & LA & PA) (_ & LB & PB) EM. pose proof (faster_length _ _ H) as L. apply faster_intro; [congruence|].
    intros p l' m' El' Em'. destruct (nth_error_same_length _ _ _ _ (eq_sym LA) El') as [l El]. destruct (nth_error_same_length _ _ _ _ (eq_sym LB) Em') as [m Em].
    destruct (faster_nth _ _ _ _ H Em) as (l0 & El0 & T). assert (l0 = l) by congruence. subst l0. destruct (PA p l l' El El') as [c1 E1]. destruct (PB p m m' Em Em') as [c2 E2].
    assert (EQ : l_mag m' = l_mag l').
    { pose proof (map_nth_error l_mag _ _ Em') as X. pose proof (map_nth_error l_mag _ _ (faster_image_nth g a' b p l' m El' Em)) as Y. fold (mags (j_layers b')) in X. fold (mags (j_layers (faster_image g a' b))) in Y.
      rewrite EM, Y in X. cbn [l_mag set_l_mag] in X. congruence. }
    rewrite E1, E2, EQ. apply (faster_put fac), GT, T.
  Qed.
  Lemma step_faster r t dt a b a' : faster_stack fac a b -> (r = RunSingle -> layerNo a = 1%nat) -> run_runner r t dt a = (a', Ok tt) ->
    exists b', run_runner r (t / fac) (dt / fac) b = (b', Ok tt) /\ faster_stack fac a' b'.
  Proof.
    intros H HS E. pose proof (faster_mags _ _ H) as V. pose proof (faster_length _ _ H) as L.
    pose proof (fun x y => faster_reached (fun l => l) a x b y H (fun _ _ X => X)) as G1. pose proof (fun x y => faster_reached advance_noise a x b y H (faster_advance fac)) as G2. cbv beta in G1.
    destruct r; cbn [run_runner] in *.
    - specialize (HS eq_refl). unfold layerNo in HS. apply single_sound in E.
      destruct (single_complete (t / fac) (dt / fac) b (faster_image (fun l => l) a' b)) as (b' & E' & EM).
      { intros X. rewrite X in L. cbn in L. lia. }
      { apply (faster_stepwise _ _ _ _ _ _ H E). intros p l l' m El T X. assert (PL : (p < length (j_layers a))%nat) by (apply nth_error_Some; congruence). assert (p = 0%nat) by lia. subst p. exact (single_faster fac Hf _ _ _ _ _ T X). }
      exists b'. split; [exact E'|]. pose proof E' as S'. apply single_sound in S'.
      assert (K : forall s ds x y, layerNo x = 1%nat -> stepwise (RK4_single_rel s ds) x y -> stepwise (fun _ l l' => exists c, l' = set_l_mag (l_mag l') (set_l_cache c l)) x y).
      { intros s ds x y Lx (A & B & C). split; [exact A|]. split; [exact B|]. intros p l l' X Y. assert (PL : (p < length (j_layers x))%nat) by (apply nth_error_Some; congruence). unfold layerNo in Lx. assert (p = 0%nat) by lia. subst p. apply (C 0%nat l l' X Y). }
      apply G1; [apply (K t dt); assumption|apply (K (t / fac) (dt / fac)); [unfold layerNo; congruence|exact S']|exact EM].
    - apply multi_sound in E. destruct (multi_complete (t / fac) (dt / fac) b (faster_image (fun l => l) a' b)) as (b' & E' & EM).
      { rewrite V. apply (faster_stepwise _ _ _ _ _ _ H E). intros p l l' m _ T X. exact (multi_faster fac Hf _ _ _ _ _ _ _ T X). }
      exists b'. split; [exact E'|]. apply multi_sound in E'.
      apply G1; [refine (stepwise_weaken _ _ _ _ _ E)|refine (stepwise_weaken _ _ _ _ _ E')|exact EM]; intros p l l' X; apply X.
    - apply heun_sound in E. destruct E as (ws & ps & LW & LP & E).
      destruct (heun_complete (t / fac) (dt / fac) b (faster_image advance_noise a' b) (map (Scal (sqrt fac)) ws) ps) as (b' & E' & EM); [rewrite map_length; congruence|congruence| |].
      { rewrite V. apply (faster_stepwise _ _ _ _ _ _ H E). intros p l l' m _ T X. exact (heun_faster fac Hf _ _ _ _ _ _ _ _ _ T X). }
      exists b'. split; [exact E'|]. apply heun_sound in E'. destruct E' as (ws2 & ps2 & _ & _ & E').
      apply G2; [refine (stepwise_weaken _ _ _ _ _ E)|refine (stepwise_weaken _ _ _ _ _ E')|exact EM]; intros p l l' (w & x & c & _ & _ & _ & _ & _ & X); exists c; exact X.
    - apply eh_sound in E. destruct (eh_complete (t / fac) (dt / fac) b (faster_image advance_noise a' b)) as (b' & E' & EM).
      { rewrite V. apply (faster_stepwise _ _ _ _ _ _ H E). intros p l l' m _ T X. exact (eh_faster fac Hf _ _ _ _ _ _ _ T X). }
      exists b'. split; [exact E'|]. apply eh_sound in E'.
      apply G2; [refine (stepwise_weaken _ _ _ _ _ E)|refine (stepwise_weaken _ _ _ _ _ E')|exact EM]; intros p l l' (w & c & _ & _ & X); exists c; exact X.
  Qed.

  (** ** Runs *)
  Lemma faster_solver a b : faster_stack fac a b -> same_solver a b.
  Proof.
    intros H. split; [|unfold layerNo; rewrite (faster_length _ _ H); tauto].
    assert (K : forall l m, faster fac l m -> (noisy l <-> noisy m)).
    { intros l m T. destruct (fa_quiet _ _ _ T) as [A B]. destruct (fa_flags _ _ _ T) as (_ & _ & _ & _ & F & _). unfold noisy. rewrite F, A, B. tauto. }
    unfold faster_stack in H. induction H as [|l m ls ms T H IH]; [tauto|]. specialize (K _ _ T). split; intros (x & [<-|I] & N).
    - exists m. cbn. tauto.
    - destruct (proj1 IH) as (y & Iy & Ny); [exists x; auto|]. exists y. cbn. auto.
    - exists l. cbn. tauto.
    - destruct (proj2 IH) as (y & Iy & Ny); [exists x; auto|]. exists y. cbn. auto.
  Qed.
  Lemma faster_prepared a b : faster_stack fac a b -> faster_stack fac (set_j_layers (map prepared (j_layers a)) a) (set_j_layers (map prepared (j_layers b)) b) /\ forall N m, In m (j_layers b) -> preparable N m.
  Proof.
    unfold faster_stack. cbn [j_layers set_j_layers]. intros H. induction H as [|l m ls ms T H [IH IP]]; [split; [constructor|intros N m []]|]. destruct (faster_quiet_prepared fac _ _ T) as [A B]. split.
    - cbn [map]. constructor; [rewrite A, B; exact T|exact IH].
    - intros N x [<-|I]; [|exact (IP N x I)]. left. apply (fa_quiet _ _ _ T).
  Qed.
  Lemma faster_selects mode N a b a0 r u : faster_stack fac a b -> selects mode N a a0 r u -> exists b0, selects mode N b b0 r u /\ faster_stack fac a0 b0.
  Proof.
    intros H (P & E & [M1 M2] & ->). destruct (faster_prepared _ _ H) as [HP PP]. exists (set_j_layers (map prepared (j_layers b)) b). split; [|rewrite E; exact HP].
    destruct (faster_solver _ _ H) as [SN SL]. split; [intros m Hm; exact (PP N m Hm)|].
    split; [reflexivity|]. split; [split; [intros Y; apply M1, SN, Y|intros Y; apply M2; intros Z; apply Y, SN, Z]|]. apply table_same, SL.
  Qed.
  Lemma traj_faster r dt s N b0 : faster_stack fac (s 0%nat) b0 -> (r = RunSingle -> layerNo (s 0%nat) = 1%nat) -> trajectory r dt s N ->
    exists s', s' 0%nat = b0 /\ trajectory r (dt / fac) s' N /\ forall k, (k <= N)%nat -> faster_stack fac (s k) (s' k).
  Proof.
    intros H HS. induction N as [|N IH]; intros TR.
    - exists (fun _ => b0). split; [reflexivity|]. split; [intros k Hk; lia|]. intros k Hk. assert (k = 0%nat) by lia. subst k. exact H.
    - destruct IH as (s' & I & T & M); [intros k Hk; apply TR; lia|].
      destruct (step_faster r (INR N * dt) dt (s N) (s' N) (s (S N))) as (b' & E & X); [apply M; lia| |apply TR; lia|].
      { intros R. specialize (HS R). assert (T' : trajectory r dt s N) by (intros k Hk; apply TR; lia). destruct (traj_static _ _ _ _ N T' (le_n N)) as (_ & LL & _). unfold layerNo in *. congruence. }
      exists (fun k => if Nat.leb k N then s' k else b'). split; [exact I|]. split.
      + intros k Hk. destruct (Nat.eq_dec k N) as [->|Hne].
        * rewrite (proj2 (Nat.leb_le N N)) by lia. rewrite (proj2 (Nat.leb_gt (S N) N)) by lia. replace (INR N * (dt / fac)) with (INR N * dt / fac) by (field; lra). exact E.
        * rewrite (proj2 (Nat.leb_le k N)) by lia. rewrite (proj2 (Nat.leb_le (S k) N)) by lia. apply T. lia.
      + intros k Hk. destruct (Nat.leb_spec k N) as [Y|Y]; [apply M, Y|]. assert (k = S N) by lia. subst k. exact X.
  Qed.
  Lemma counts_faster T dt wf N w : step_counts T dt wf N w -> step_counts (T / fac) (dt / fac) (wf / fac) N w.
  Proof.
    intros (A & B & C & D & E & F). assert (I : 0 < / fac) by (apply Rinv_0_lt_compat, Hf).
    assert (E1 : T / fac / (dt / fac) = T / dt) by (field; split; lra). assert (E2 : wf / fac / (dt / fac) = wf / dt) by (field; split; lra).
    unfold step_counts. rewrite E1, E2. split; [apply Rmult_le_compat_r; lra|]. split; [unfold Rdiv; apply Rmult_integral_contrapositive_currified; lra|]. repeat (split; [assumption|]). assumption.
  Qed.
  Lemma run_faster T dt wf e e' mode a b a' : faster_stack fac a b -> j_mode b <> MR_STRIP -> runSimulation T dt wf e mode a = (a', Ok tt) ->
    exists b', runSimulation (T / fac) (dt / fac) (wf / fac) e' mode b = (b', Ok tt) /\ faster_stack fac a' b'.
  Proof.
    intros H HM E. destruct (run_sound _ _ _ _ _ _ _ E) as (N & w & a0 & r & u & s & rows & HC & HS & I & TR & HW & _ & Ea & _).
    destruct (faster_selects _ _ _ _ _ _ _ H HS) as (b0 & HS' & H0).
    destruct (traj_faster r dt s N b0) as (s' & I' & TR' & M); [rewrite I; exact H0|rewrite I; exact (single_one _ _ _ _ _ _ HS)|exact TR|].
    pose proof (counts_faster _ _ _ _ _ HC) as HC'.
    assert (X : exists b', runSimulation (T / fac) (dt / fac) (wf / fac) e' mode b = (b', Ok tt)).
    { destruct HW as [->|HW]; [exists b0; exact (run_none _ _ _ _ _ _ _ _ _ _ HC' HS')|].
      apply (run_complete (T / fac) (dt / fac) (wf / fac) e' mode b N w b0 r u s' HC' HS' HW (fun Y => False_ind _ (HM Y)) I' TR').
      intros k Hk. assert (Hk' : (S (k * w) <= N)%nat) by (apply (row_in_run N w k (or_intror HW)); exact Hk).
      destruct (traj_static _ _ _ _ _ TR' Hk') as (EJ & _). assert (EM : j_mode (s' (S (k * w))) = j_mode b) by (rewrite EJ, I'; destruct HS' as (_ & -> & _); reflexivity).
      unfold log_row, resistance_row. rewrite EM. destruct (j_mode b); [|destruct (j_layers (s' (S (k * w)))) as [|? [|? ?]]|contradiction HM; reflexivity]; eexists; eexists; (split; [reflexivity|reflexivity]). }
    destruct X as [b' X]. exists b'. split; [exact X|].
    destruct (run_sound _ _ _ _ _ _ _ X) as (N2 & w2 & b2 & r2 & u2 & s2 & rows2 & HC2 & HS2 & I2 & TR2 & _ & _ & Eb & _).
    destruct (counts_unique _ _ _ _ _ _ _ HC2 HC') as [-> ->]. assert (SB : same_solver b b) by (split; tauto). destruct (same_selection _ _ _ _ _ _ _ _ _ _ SB HS2 HS') as [-> ->].
    assert (E0 : s2 0%nat = s' 0%nat) by (rewrite I2, I'; destruct HS2 as (_ & -> & _), HS' as (_ & -> & _); reflexivity).
    pose proof (M N (le_n N)) as MM. rewrite <- (traj_deterministic _ _ _ _ _ E0 TR2 TR' N (le_n N)) in MM. rewrite Ea, Eb. exact MM.
  Qed.
  Lemma run_faster_log T dt wf e e' mode a b a' b' : faster_stack fac a b -> named a -> named b -> runSimulation T dt wf e mode a = (a', Ok tt) -> runSimulation (T / fac) (dt / fac) (wf / fac) e' mode b = (b', Ok tt) ->
    forall p l m, nth_error (j_layers a) p = Some l -> nth_error (j_layers b) p = Some m -> forall tag, In tag ["mx"; "my"; "mz"]%string -> exists new,
    col (colname (l_id l) tag) (j_log a') = (col (colname (l_id l) tag) (j_log a) ++ new)%list /\ col (colname (l_id m) tag) (j_log b') = (col (colname (l_id m) tag) (j_log b) ++ new)%list.
  Proof.
    intros H NA NB A B p l m Hl Hm tag Htag.
    destruct (run_grid _ _ _ _ _ _ _ NA A) as (N & w & C1 & W1 & _ & _ & r1 & u1 & a0 & s & S1 & I1 & T1 & _ & P1).
    destruct (run_grid _ _ _ _ _ _ _ NB B) as (N2 & w2 & C2 & _ & _ & _ & r2 & u2 & b0 & s2 & S2 & I2 & T2 & _ & P2).
    destruct (counts_unique _ _ _ _ _ _ _ C2 (counts_faster _ _ _ _ _ C1)) as [-> ->].
    destruct (faster_selects _ _ _ _ _ _ _ H S1) as (b1 & S1' & H0). assert (SB : same_solver b b) by (split; tauto). destruct (same_selection _ _ _ _ _ _ _ _ _ _ SB S2 S1') as [-> ->].
    destruct (traj_faster r1 dt s N b1) as (s' & I' & TR' & M); [rewrite I1; exact H0|rewrite I1; exact (single_one _ _ _ _ _ _ S1)|exact T1|].
    assert (E0 : s2 0%nat = s' 0%nat) by (rewrite I2, I'; destruct S2 as (_ & -> & _), S1' as (_ & -> & _); reflexivity).
    pose proof (traj_deterministic _ _ _ _ _ E0 T2 TR') as DT. destruct (P1 p l Hl) as (X1 & Y1 & Z1), (P2 p m Hm) as (X2 & Y2 & Z2).
    assert (K : forall k, In k (seq 0 (rows_needed N w)) -> nth p (mags (j_layers (s2 (S (k * w))))) Zero = nth p (mags (j_layers (s (S (k * w))))) Zero).
    { intros k Hk. apply in_seq in Hk. pose proof (row_in_run N w k W1 ltac:(lia)) as HkN. rewrite (DT _ HkN), (faster_mags _ _ (M _ HkN)). reflexivity. }
    destruct Htag as [<-|[<-|[<-|[]]]].
    - eexists. split; [exact X1|]. rewrite X2. f_equal. apply map_ext_in. intros k Hk. rewrite (K k Hk). reflexivity.
    - eexists. split; [exact Y1|]. rewrite Y2. f_equal. apply map_ext_in. intros k Hk. rewrite (K k Hk). reflexivity.
    - eexists. split; [exact Z1|]. rewrite Z2. f_equal. apply map_ext_in. intros k Hk. rewrite (K k Hk). reflexivity.
  Qed.
End run.

(** ** Drivers, resistance, both directions *)
Lemma value_faster k d d' (f : R -> R) : 0 < k -> (forall t, getCurrentScalarValue d t = Ok (f t)) -> (forall t, getCurrentScalarValue d' (t / k) = Ok (k * f t)) -> faster_driver k d d'.
Proof. intros Hk A B t v. rewrite A, B. split; intros E; injection E as E; [rewrite E; reflexivity|]. f_equal. apply Rmult_eq_reg_l in E; lra. Qed.
Lemma map_faster k d d' : 0 < k -> (forall t, getCurrentScalarValue d' (t / k) = match getCurrentScalarValue d t with Ok v => Ok (k * v) | Err e => Err e end) -> faster_driver k d d'.
Proof.
  intros Hk A t v. rewrite A. destruct (getCurrentScalarValue d t) as [x|e]; split; intros E; try discriminate; injection E as E; [rewrite E; reflexivity|]. f_equal. apply Rmult_eq_reg_l in E; lra.
Qed.
Section quick.
  Context (k : R) (Hk : 0 < k).
  Lemma div_le x y : x / k <= y / k <-> x <= y.
  Proof. assert (0 < / k) by (apply Rinv_0_lt_compat, Hk). unfold Rdiv. split; intros Z; [apply Rmult_le_reg_r in Z; lra|apply Rmult_le_compat_r; lra]. Qed.
  Lemma div_lt x y : x / k < y / k <-> x < y.
  Proof. assert (0 < / k) by (apply Rinv_0_lt_compat, Hk). unfold Rdiv. split; intros Z; [apply Rmult_lt_reg_r in Z; lra|apply Rmult_lt_compat_r; lra]. Qed.
  Lemma if_le {A} x y (p q : A) : (if Rle_dec (x / k) (y / k) then p else q) = if Rle_dec x y then p else q.
  Proof. pose proof (div_le x y). destruct (Rle_dec (x / k) (y / k)), (Rle_dec x y); tauto. Qed.
  Lemma if_lt {A} x y (p q : A) : (if Rlt_dec (x / k) (y / k) then p else q) = if Rlt_dec x y then p else q.
  Proof. pose proof (div_lt x y). destruct (Rlt_dec (x / k) (y / k)), (Rlt_dec x y); tauto. Qed.
  Lemma div_zero x : x / k = 0 <-> x = 0.
  Proof. split; [intros E; replace x with (x / k * k) by (field; lra); rewrite E; ring|intros ->; unfold Rdiv; ring]. Qed.
  Lemma fdiv_time x y : fdiv (x / k) (y / k) = fdiv x y.
  Proof. unfold fdiv. pose proof (div_zero y). destruct (Req_EM_T (y / k) 0), (Req_EM_T y 0); try tauto. f_equal. field. split; [assumption|lra]. Qed.
  Lemma fdiv_slope x y : fdiv (k * x) (y / k) = match fdiv x y with Ok v => Ok (k * k * v) | Err e => Err e end.
  Proof. unfold fdiv. pose proof (div_zero y). destruct (Req_EM_T (y / k) 0), (Req_EM_T y 0); try tauto. f_equal. field. split; [assumption|lra]. Qed.
  Lemma pulse_quick a t p c : pulseTrain (k * a) (t / k) (p / k) c = match pulseTrain a t p c with Ok v => Ok (k * v) | Err e => Err e end.
  Proof.
    unfold pulseTrain. rewrite fdiv_time. destruct (fdiv t p) as [q|e]; [|reflexivity]. cbn. destruct (to_int q) as [n|e]; [|reflexivity]. cbn.
    replace (IZR n * (p / k)) with (IZR n * p / k) by (unfold Rdiv; ring). replace (IZR n * p / k + c * (p / k)) with ((IZR n * p + c * p) / k) by (unfold Rdiv; ring). rewrite !if_le.
    destruct (Rle_dec (IZR n * p) t); [|f_equal; ring]. destruct (Rle_dec t (IZR n * p + c * p)); f_equal; ring.
  Qed.
  Lemma trapezoid_quick a t ts ed st : trapezoidalUpdate (k * a) (t / k) (ts / k) (ed / k) (st / k) = match trapezoidalUpdate a t ts ed st with Ok v => Ok (k * v) | Err e => Err e end.
  Proof.
    unfold trapezoidalUpdate. replace (ts / k + ed / k + st / k) with ((ts + ed + st) / k) by (unfold Rdiv; ring). replace (ts / k + 2 * (ed / k) + st / k) with ((ts + 2 * ed + st) / k) by (unfold Rdiv; ring). replace (ts / k + ed / k) with ((ts + ed) / k) by (unfold Rdiv; ring).
    rewrite if_lt, !if_le, fdiv_slope. destruct (Rlt_dec t ts); [f_equal; ring|]. destruct (Rle_dec t (ts + ed)); [destruct (fdiv a ed); cbn; [f_equal; field; lra|reflexivity]|].
    destruct (Rle_dec t (ts + ed + st)); [reflexivity|]. destruct (Rle_dec t (ts + 2 * ed + st)); [destruct (fdiv a ed); cbn; [f_equal; field; lra|reflexivity]|f_equal; ring].
  Qed.
  Lemma div_eq x y : x / k = y / k <-> x = y.
  Proof. split; [intros E; replace x with (x / k * k) by (field; lra); rewrite E; field; lra|intros ->; reflexivity]. Qed.
  Lemma impulse_quick a t t0 s : gaussImpulse (k * a) (t / k) (t0 / k) (s / k) = match gaussImpulse a t t0 s with Ok v => Ok (k * v) | Err e => Err e end.
  Proof.
    unfold gaussImpulse. pose proof (div_zero s). pose proof (div_eq t t0). destruct (Req_EM_T (s / k) 0), (Req_EM_T s 0); try tauto.
    - destruct (Req_EM_T (t / k) (t0 / k)), (Req_EM_T t t0); try tauto. f_equal. ring.
    - replace (- (t / k - t0 / k) ^ 2 / (2 * (s / k) ^ 2)) with (- (t - t0) ^ 2 / (2 * s ^ 2)) by (field; repeat split; first [assumption|lra]). f_equal. ring.
  Qed.
  Lemma gauss_step_quick a t t0 s : gaussStep (k * a) (t / k) (t0 / k) (s / k) = match gaussStep a t t0 s with Ok v => Ok (k * v) | Err e => Err e end.
  Proof.
    unfold gaussStep. pose proof (div_zero s). pose proof (div_eq t t0). rewrite if_lt. destruct (Req_EM_T (s / k) 0), (Req_EM_T s 0); try tauto.
    - destruct (Req_EM_T (t / k) (t0 / k)), (Req_EM_T t t0); try tauto. destruct (Rlt_dec t0 t); f_equal; ring.
    - assert (Q : sqrt 2 <> 0) by (apply Rgt_not_eq, sqrt_lt_R0; lra). replace ((t / k - t0 / k) / (sqrt 2 * (s / k))) with ((t - t0) / (sqrt 2 * s)) by (field; repeat split; first [assumption|lra]). f_equal. ring.
  Qed.
  Lemma quicker_faster d : faster_driver k d (quicker k d).
  Proof.
    destruct d as [u c a f ph per cyc ts te ed st]. apply (map_faster k _ _ Hk). intros t. unfold quicker, getCurrentScalarValue. cbn [d_update d_const d_amp d_freq d_phase d_period d_cycle d_tstart d_tstop d_edge d_steady]. cbv zeta.
    assert (W : 2 * PI * (t / k) * (k * f) + ph = 2 * PI * t * f + ph) by (field; lra). rewrite W, pulse_quick, trapezoid_quick, impulse_quick, gauss_step_quick. destruct u.
    - reflexivity.
    - destruct (pulseTrain a t per cyc); cbn; [f_equal; ring|reflexivity].
    - f_equal. ring.
    - unfold stepUpdate. rewrite !if_le. destruct (Rle_dec ts t); [destruct (Rle_dec t te)|]; f_equal; ring.
    - rewrite Rmult_assoc, Rabs_mult, (Rabs_pos_eq k) by lra. f_equal. ring.
    - set (q := a * sin (2 * PI * t * f + ph)). replace (k * a * sin (2 * PI * t * f + ph)) with (k * q) by (unfold q; ring). destruct (Rle_dec (k * q) 0), (Rle_dec q 0); try (f_equal; ring); exfalso; nra.
    - destruct (trapezoidalUpdate a t ts ed st); cbn; [f_equal; ring|reflexivity].
    - destruct (gaussImpulse a t ts ed); cbn; [f_equal; ring|reflexivity].
    - destruct (gaussStep a t ts ed); cbn; [f_equal; ring|reflexivity].
  Qed.
End quick.
Lemma axial_faster k d d' : faster_driver k (ax0 d) (ax0 d') -> faster_driver k (ax1 d) (ax1 d') -> faster_driver k (ax2 d) (ax2 d') -> faster_axial k d d'.
Proof.
  intros A B C t v. assert (X : forall e s u, getCurrentAxialDrivers e s = Ok u <-> getCurrentScalarValue (ax0 e) s = Ok (cx u) /\ getCurrentScalarValue (ax1 e) s = Ok (cy u) /\ getCurrentScalarValue (ax2 e) s = Ok (cz u)).
  { intros e s [x y z]. unfold getCurrentAxialDrivers. destruct (getCurrentScalarValue (ax0 e) s), (getCurrentScalarValue (ax1 e) s), (getCurrentScalarValue (ax2 e) s); cbn; split; try (intros (? & ? & ?)); try intros; try congruence; try (repeat split; congruence). }
  rewrite !X, (A t), (B t), (C t). destruct v. reflexivity.
Qed.
Lemma resistance_faster k a b r : faster_stack k a b -> same_readout a b -> (resistance_row a r <-> resistance_row b r).
Proof.
  intros H (E1 & E0 & E2 & E3 & E4 & E5 & E6 & E7 & E8 & E9 & E10). unfold resistance_row. rewrite E1, E0, E2, E3. unfold faster_stack in H.
  assert (K : forall i, mapi (strip_long b) i (j_layers b) = mapi (strip_long a) i (j_layers a) /\ mapi (strip_trans b) i (j_layers b) = mapi (strip_trans a) i (j_layers a)).
  { induction H as [|l m ls ms T H IH]; intros i; [split; reflexivity|]. cbn [mapi]. destruct (IH (S i)) as [A B]. rewrite A, B. unfold strip_long, strip_trans.
    rewrite E4, E5, E6, E7, E8, E9, E10, (mag_faster _ _ _ T). split; reflexivity. }
  destruct (K 0%nat) as [K1 K2]. rewrite K1, K2. destruct (j_mode a); [tauto| |tauto]. destruct H as [|l0 m0 ls ms T0 H]; [tauto|]. destruct (fa_vectors _ _ _ T0) as (V0 & _ & V1). destruct H as [|l1 m1 ls' ms' T1 H]; rewrite V0; [rewrite V1; tauto|]. rewrite (mag_faster _ _ _ T1). tauto.
Qed.
Lemma faster_stack_back k a b : 0 < k -> faster_stack k a b -> faster_stack (/ k) b a.
Proof. intros HQ H. unfold faster_stack in *. induction H; constructor; [apply (faster_back k HQ); assumption|assumption]. Qed.
Lemma run_faster_iff k T dt wf e e' mode a b : 0 < k -> faster_stack k a b -> j_mode a <> MR_STRIP -> j_mode b <> MR_STRIP ->
  ((exists a', runSimulation T dt wf e mode a = (a', Ok tt)) <-> (exists b', runSimulation (T / k) (dt / k) (wf / k) e' mode b = (b', Ok tt))).
Proof.
  intros Hk H MA MB. split; intros [x X].
  - destruct (run_faster k Hk T dt wf e e' mode a b x H MB X) as (b' & B & _). exists b'. exact B.
  - assert (I : 0 < / k) by (apply Rinv_0_lt_compat, Hk). destruct (run_faster (/ k) I (T / k) (dt / k) (wf / k) e' e mode b a x (faster_stack_back k a b Hk H) MA X) as (a' & A & _).
    replace (T / k / / k) with T in A by (field; lra). replace (dt / k / / k) with dt in A by (field; lra). replace (wf / k / / k) with wf in A by (field; lra). exists a'. exact A.
Qed.
Lemma run_faster_time k T dt wf e e' mode a b a' b' : 0 < k -> named a -> named b -> runSimulation T dt wf e mode a = (a', Ok tt) -> runSimulation (T / k) (dt / k) (wf / k) e' mode b = (b', Ok tt) ->
  exists ts, col "time" (j_log a') = (col "time" (j_log a) ++ ts)%list /\ col "time" (j_log b') = (col "time" (j_log b) ++ map (fun t => t / k) ts)%list.
Proof.
  intros Hk NA NB A B. destruct (run_grid _ _ _ _ _ _ _ NA A) as (N & w & C1 & _ & _ & T1 & _). destruct (run_grid _ _ _ _ _ _ _ NB B) as (N2 & w2 & C2 & _ & _ & T2 & _).
  destruct (counts_unique _ _ _ _ _ _ _ C2 (counts_faster k Hk _ _ _ _ _ C1)) as [-> ->]. eexists. split; [exact T1|]. rewrite T2, map_map. f_equal. apply map_ext. intros n. field. lra.
Qed.
Lemma readout_run r r' dt dt' a b s s' N k : same_readout a b -> (k <= N)%nat -> trajectory r dt s N -> trajectory r' dt' s' N -> s 0%nat = set_j_layers (j_layers (s 0%nat)) a -> s' 0%nat = set_j_layers (j_layers (s' 0%nat)) b -> same_readout (s k) (s' k).
Proof.
  intros H Hk T T' I I'. destruct (traj_static _ _ _ _ _ T Hk) as (E & _). destruct (traj_static _ _ _ _ _ T' Hk) as (E' & _). rewrite E, E', I, I'. exact H.
Qed.
Lemma run_faster_strip k T dt wf e e' mode a b a' : 0 < k -> faster_stack k a b -> same_readout a b -> strip_sized b -> runSimulation T dt wf e mode a = (a', Ok tt) ->
  exists b', runSimulation (T / k) (dt / k) (wf / k) e' mode b = (b', Ok tt) /\ faster_stack k a' b'.
Proof.
  intros Hf H HR HZ E. destruct (run_sound _ _ _ _ _ _ _ E) as (N & w & a0 & r & u & s & rows & HC & HS & I & TR & HW & (RL & RR) & Ea & _).
  pose proof (counts_faster k Hf _ _ _ _ _ HC) as HC'. destruct (faster_selects k _ _ _ _ _ _ _ H HS) as (b0 & HS' & H0).
  destruct (traj_faster k Hf r dt s N b0) as (s' & I' & TR' & M); [rewrite I; exact H0|rewrite I; exact (single_one _ _ _ _ _ _ HS)|exact TR|].
  assert (X : exists b', runSimulation (T / k) (dt / k) (wf / k) e' mode b = (b', Ok tt)).
  { destruct HW as [->|HW]; [exists b0; exact (run_none _ _ _ _ _ _ _ _ _ _ HC' HS')|].
    apply (run_complete (T / k) (dt / k) (wf / k) e' mode b N w b0 r u s' HC' HS' HW (fun _ => HZ) I' TR').
    intros q Hq. assert (Hq' : (S (q * w) <= N)%nat) by (apply (row_in_run N w q (or_intror HW)); exact Hq).
    destruct (nth_error rows q) as [row|] eqn:Er; [|apply nth_error_None in Er; rewrite RL in Er; lia].
    destruct (RR q row Er) as (rr & R1 & _).
    assert (RT : same_readout (s (S (q * w))) (s' (S (q * w)))).
    { apply (readout_run r r dt (dt / k) a b s s' N); try assumption; [rewrite I; destruct HS as (_ & -> & _); reflexivity|rewrite I'; destruct HS' as (_ & -> & _); reflexivity]. }
    eexists. exists rr. split; [exact (proj1 (resistance_faster k _ _ _ (M _ Hq') RT) R1)|reflexivity]. }
  destruct X as [b' X]. exists b'. split; [exact X|].
  destruct (run_sound _ _ _ _ _ _ _ X) as (N2 & w2 & b2 & r2 & u2 & s2 & rows2 & HC2 & HS2 & I2 & TR2 & _ & _ & Eb & _).
  destruct (counts_unique _ _ _ _ _ _ _ HC2 HC') as [-> ->]. assert (SB : same_solver b b) by (split; tauto). destruct (same_selection _ _ _ _ _ _ _ _ _ _ SB HS2 HS') as [-> ->].
  assert (E0 : s2 0%nat = s' 0%nat) by (rewrite I2, I'; destruct HS2 as (_ & -> & _), HS' as (_ & -> & _); reflexivity).
  pose proof (M N (le_n N)) as MM. rewrite <- (traj_deterministic _ _ _ _ _ E0 TR2 TR' N (le_n N)) in MM. rewrite Ea, Eb. exact MM.
Qed.
