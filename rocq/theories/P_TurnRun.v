(** Steps and whole runs of stacks that are turned in space (C107). *)
From Coq Require Import Classical_Prop.
From Verif Require Import P_Turn P_MirrorRun P_RunEx.
From Verif Require Export P_Turn.
Open Scope R_scope.
Open Scope st_scope.

Section run.
  Context (Q : tensor) (HQ : rotation Q).
  Lemma turned_nth a b p m : turned_stack Q a b -> nth_error (j_layers b) p = Some m -> exists l, nth_error (j_layers a) p = Some l /\ turned Q l m.
  Proof.
    unfold turned_stack. intros H. revert p. induction H as [|l m0 ls ms T H IH]; intros [|p] E; cbn in E; try discriminate; [injection E as <-; exists l; split; [reflexivity|exact T]|exact (IH p E)].
  Qed.
  Lemma turned_length a b : turned_stack Q a b -> length (j_layers b) = length (j_layers a).
  Proof. intros H. induction H; cbn; congruence. Qed.
  Lemma turned_intro a b : length (j_layers b) = length (j_layers a) ->
    (forall p l m, nth_error (j_layers a) p = Some l -> nth_error (j_layers b) p = Some m -> turned Q l m) -> turned_stack Q a b.
  Proof.
    unfold turned_stack. generalize (j_layers a) (j_layers b). induction l as [|l ls IH]; intros [|m ms] L H; try discriminate; [constructor|].
    constructor; [apply (H 0%nat); reflexivity|]. apply IH; [injection L; auto|]. intros p x y A B. exact (H (S p) x y A B).
  Qed.
  Lemma turned_mags a b : turned_stack Q a b -> mags (j_layers b) = map (turn Q) (mags (j_layers a)).
  Proof. intros H. induction H as [|l m ls ms T H IH]; [reflexivity|]. unfold mags in *. cbn [map]. rewrite IH, (tn_mag _ _ _ T). reflexivity. Qed.
  Lemma nth_turn us p : nth p (map (turn Q) us) Zero = turn Q (nth p us Zero).
  Proof. rewrite <- (turn_zero Q) at 1. apply map_nth. Qed.
  Lemma below_turn us p : below (map (turn Q) us) p = turn Q (below us p).
  Proof. destruct p as [|p]; cbn [below]; [symmetry; apply turn_zero|apply nth_turn]. Qed.
  Lemma above_turn us p : above (map (turn Q) us) p = turn Q (above us p).
  Proof. apply nth_turn. Qed.

  (** ** Schemes *)
  Lemma rk4_turn (F G : R -> cvec -> cvec -> Prop) t dt m u : (forall s x d, F s x d -> G s (turn Q x) (turn Q d)) -> RK4_scheme F t dt m u -> RK4_scheme G t dt (turn Q m) (turn Q u).
  Proof.
    intros H (f1 & f2 & f3 & f4 & A1 & A2 & A3 & A4 & A5). exists (turn Q f1), (turn Q f2), (turn Q f3), (turn Q f4).
    rewrite <- !turn_scal, <- !turn_plus. split; [apply H, A1|]. split; [apply H, A2|]. split; [apply H, A3|]. split; [apply H, A4|].
    apply (turn_normalised Q HQ) in A5. rewrite turn_plus, turn_scal, turn_sum in A5. exact A5.
  Qed.
  Lemma turned_put l m u c c' : turned Q l m -> turned Q (set_l_mag u (set_l_cache c l)) (set_l_mag (turn Q u) (set_l_cache c' m)).
  Proof. intros [T1 T2 T3 T4 T5 T6 T7 T8 T9 T10 T11 T12 T13 T14 T15 T16 T17 T18]. constructor; try assumption. reflexivity. Qed.
  Lemma turned_advance l m : turned Q l m -> turned Q (advance_noise l) (advance_noise m).
  Proof.
    intros [T1 T2 T3 T4 T5 T6 T7 T8 T9 T10 T11 T12 T13 T14 T15 T16 T17 T18]. constructor; try assumption.
    intros TS k. change (l_temperatureSet l = true) in TS. destruct T16 as (_ & _ & _ & _ & F & _). unfold gaussians, advance_noise. cbn [l_rng l_rpos set_l_bfn set_l_rpos]. rewrite F, TS.
    pose proof (T14 TS (S k)) as X. unfold gaussians in X. replace (l_rpos l + 3 + 3 * k)%nat with (l_rpos l + 3 * S k)%nat by lia. replace (l_rpos m + 3 + 3 * k)%nat with (l_rpos m + 3 * S k)%nat by lia. exact X.
  Qed.
  Lemma turned_quiet_prepared l m : turned Q l m -> prepared l = l /\ prepared m = m.
  Proof. intros T. destruct (tn_quiet _ _ _ T) as [A B]. unfold prepared. destruct (Req_EM_T (l_nScale l) 0), (Req_EM_T (l_nScale m) 0); try contradiction. auto. Qed.
  Lemma put_cache u l : set_l_mag u l = set_l_mag u (set_l_cache (l_cache l) l).
  Proof. destruct l. reflexivity. Qed.
  Lemma multi_turn l l' m us p t dt : turned Q l m -> RK4_multi_rel us t dt p l l' -> RK4_multi_rel (map (turn Q) us) t dt p m (set_l_mag (turn Q (l_mag l')) m).
  Proof.
    intros T (S & _). split; [|exists (l_cache m); rewrite put_cache at 1; reflexivity]. rewrite below_turn, above_turn, (tn_mag _ _ _ T).
    change (l_mag (set_l_mag (turn Q (l_mag l')) m)) with (turn Q (l_mag l')). refine (rk4_turn _ _ _ _ _ _ _ S). intros s x d. apply (rhs_turn Q HQ), T.
  Qed.
  Lemma single_turn l l' m t dt : turned Q l m -> RK4_single_rel t dt 0 l l' -> RK4_single_rel t dt 0 m (set_l_mag (turn Q (l_mag l')) m).
  Proof.
    intros T (S & _). split; [|exists (l_cache m); rewrite put_cache at 1; reflexivity]. rewrite (tn_mag _ _ _ T).
    change (l_mag (set_l_mag (turn Q (l_mag l')) m)) with (turn Q (l_mag l')). refine (rk4_turn _ _ _ _ _ _ _ S). intros s x d F. pose proof (rhs_turn Q HQ _ _ _ _ _ _ _ T F) as X. rewrite turn_zero in X. exact X.
  Qed.
  Lemma damping_turn l m : turned Q l m -> l_damping m = l_damping l.
  Proof. intros T. apply (tn_numbers _ _ _ T). Qed.
  Lemma eh_turn l l' m us p t dt : turned Q l m -> EulerHeun_rel us t dt p l l' -> EulerHeun_rel (map (turn Q) us) t dt p m (set_l_mag (turn Q (l_mag l')) (advance_noise m)).
  Proof.
    intros T (w & c & NS & (D & f & F & X) & _). exists (turn Q w), (l_cache (advance_noise m)). split; [exact (noise_turn Q _ _ _ _ T NS)|]. split; [|rewrite put_cache at 1; reflexivity].
    change (l_mag (set_l_mag (turn Q (l_mag l')) (advance_noise m))) with (turn Q (l_mag l')). split; [exact D|]. exists (turn Q f). cbv beta zeta in X |- *.
    rewrite (tn_mag _ _ _ T), (damping_turn _ _ T), below_turn, above_turn. split; [exact (rhs_turn Q HQ _ _ _ _ _ _ _ T F)|].
    apply (turn_normalised Q HQ) in X. rewrite (plain_turn Q HQ (l_damping l) (l_mag l) w), <- !turn_scal, <- !turn_plus, (plain_turn Q HQ), <- !turn_plus, <- !turn_scal, <- !turn_plus. exact X.
  Qed.
  Lemma heun_turn l l' m us ws ps p t dt : turned Q l m -> Heun_rel us ws ps t dt p l l' -> Heun_rel (map (turn Q) us) (map (turn Q) ws) (map (turn Q) ps) t dt p m (set_l_mag (turn Q (l_mag l')) (advance_noise m)).
  Proof.
    intros T (w & x & c & Ew & Ep & NS & (D & f & F & X) & (g & g' & G & G' & Y) & _). exists (turn Q w), (turn Q x), (l_cache (advance_noise m)).
    split; [exact (map_nth_error _ _ _ Ew)|]. split; [exact (map_nth_error _ _ _ Ep)|]. split; [exact (noise_turn Q _ _ _ _ T NS)|].
    change (l_mag (set_l_mag (turn Q (l_mag l')) (advance_noise m))) with (turn Q (l_mag l')). unfold Heun_predictor, Heun_corrector. rewrite (tn_mag _ _ _ T), (damping_turn _ _ T), !below_turn, !above_turn.
    split; [split; [exact D|]; exists (turn Q f); split; [exact (rhs_turn Q HQ _ _ _ _ _ _ _ T F)|]; rewrite X, !turn_plus, !turn_scal, (plain_turn Q HQ); reflexivity|]. split; [|rewrite put_cache at 1; reflexivity].
    exists (turn Q g), (turn Q g'). split; [exact (rhs_turn Q HQ _ _ _ _ _ _ _ T G)|]. split; [exact (rhs_turn Q HQ _ _ _ _ _ _ _ T G')|].
    apply (turn_normalised Q HQ) in Y. rewrite !turn_plus, !turn_scal, !turn_plus, <- !(plain_turn Q HQ) in Y. exact Y.
  Qed.

  (** ** One step *)
  Definition turned_image (g : layer -> layer) (a' b : junction) : junction :=
    set_j_layers (map (fun x => set_l_mag (turn Q (l_mag (fst x))) (g (snd x))) (combine (j_layers a') (j_layers b))) b.
  Lemma combine_nth_error {A B} : forall (xs : list A) (ys : list B) p x y, nth_error xs p = Some x -> nth_error ys p = Some y -> nth_error (combine xs ys) p = Some (x, y).
  Proof. induction xs as [|x xs IH]; intros [|y ys] [|p] u v E F; cbn in *; try discriminate; [congruence|exact (IH _ _ _ _ E F)]. Qed.
  Lemma turned_image_nth g a' b p l' m : nth_error (j_layers a') p = Some l' -> nth_error (j_layers b) p = Some m ->
    nth_error (j_layers (turned_image g a' b)) p = Some (set_l_mag (turn Q (l_mag l')) (g m)).
  Proof. intros A B. cbn [turned_image j_layers set_j_layers]. rewrite (map_nth_error _ _ _ (combine_nth_error _ _ _ _ _ A B)). reflexivity. Qed.
  Lemma turned_stepwise (g : layer -> layer) (P P' : nat -> layer -> layer -> Prop) a a' b : turned_stack Q a b -> stepwise P a a' ->
    (forall p l l' m, nth_error (j_layers a) p = Some l -> turned Q l m -> P p l l' -> P' p m (set_l_mag (turn Q (l_mag l')) (g m))) -> stepwise P' b (turned_image g a' b).
  Proof.
    intros H (_ & LA & PA) HP. pose proof (turned_length _ _ H) as L. split; [reflexivity|].
    split; [cbn [turned_image j_layers set_j_layers]; rewrite map_length, combine_length, LA, L; apply Nat.min_id|].
    intros p m m' Em Em'. destruct (turned_nth _ _ _ _ H Em) as (l & El & T). destruct (nth_error_same_length _ _ _ _ LA El) as [l' El'].
    rewrite (turned_image_nth g a' b p l' m El' Em) in Em'. injection Em' as <-. exact (HP p l l' m El T (PA p l l' El El')).
  Qed.
  Lemma turned_reached (g : layer -> layer) a a' b b' : turned_stack Q a b -> (forall l m, turned Q l m -> turned Q (g l) (g m)) ->
    stepwise (fun _ l l' => exists c, l' = set_l_mag (l_mag l') (set_l_cache c (g l))) a a' ->
    stepwise (fun _ l l' => exists c, l' = set_l_mag (l_mag l') (set_l_cache c (g l))) b b' ->
    mags (j_layers b') = mags (j_layers (turned_image g a' b)) -> turned_stack Q a' b'.
  Proof.
    intros H GT (_ & LA & PA) (_ & LB & PB) EM. pose proof (turned_length _ _ H) as L. apply turned_intro; [congruence|].
    intros p l' m' El' Em'. destruct (nth_error_same_length _ _ _ _ (eq_sym LA) El') as [l El]. destruct (nth_error_same_length _ _ _ _ (eq_sym LB) Em') as [m Em].
    destruct (turned_nth _ _ _ _ H Em) as (l0 & El0 & T). assert (l0 = l) by congruence. subst l0. destruct (PA p l l' El El') as [c1 E1]. destruct (PB p m m' Em Em') as [c2 E2].
    assert (EQ : l_mag m' = turn Q (l_mag l')).
    { pose proof (map_nth_error l_mag _ _ Em') as X. pose proof (map_nth_error l_mag _ _ (turned_image_nth g a' b p l' m El' Em)) as Y. fold (mags (j_layers b')) in X. fold (mags (j_layers (turned_image g a' b))) in Y.
      rewrite EM, Y in X. cbn [l_mag set_l_mag] in X. congruence. }
    rewrite E1, E2, EQ. apply turned_put, GT, T.
  Qed.
  Lemma step_turn r t dt a b a' : turned_stack Q a b -> (r = RunSingle -> layerNo a = 1%nat) -> run_runner r t dt a = (a', Ok tt) ->
    exists b', run_runner r t dt b = (b', Ok tt) /\ turned_stack Q a' b'.
  Proof.
    intros H HS E. pose proof (turned_mags _ _ H) as V. pose proof (turned_length _ _ H) as L.
    pose proof (fun x y => turned_reached (fun l => l) a x b y H (fun _ _ X => X)) as G1. pose proof (fun x y => turned_reached advance_noise a x b y H turned_advance) as G2. cbv beta in G1.
    destruct r; cbn [run_runner] in *.
    - specialize (HS eq_refl). unfold layerNo in HS. apply single_sound in E.
      destruct (single_complete t dt b (turned_image (fun l => l) a' b)) as (b' & E' & EM).
      { intros X. rewrite X in L. cbn in L. lia. }
      { apply (turned_stepwise _ _ _ _ _ _ H E). intros p l l' m El T X. assert (PL : (p < length (j_layers a))%nat) by (apply nth_error_Some; congruence). assert (p = 0%nat) by lia. subst p. exact (single_turn _ _ _ _ _ T X). }
      exists b'. split; [exact E'|]. pose proof E' as S'. apply single_sound in S'.
      assert (K : forall x y, layerNo x = 1%nat -> stepwise (RK4_single_rel t dt) x y -> stepwise (fun _ l l' => exists c, l' = set_l_mag (l_mag l') (set_l_cache c l)) x y).
      { intros x y Lx (A & B & C). split; [exact A|]. split; [exact B|]. intros p l l' X Y. assert (PL : (p < length (j_layers x))%nat) by (apply nth_error_Some; congruence). unfold layerNo in Lx. assert (p = 0%nat) by lia. subst p. apply (C 0%nat l l' X Y). }
      apply G1; [apply K; assumption|apply K; [unfold layerNo; congruence|exact S']|exact EM].
    - apply multi_sound in E. destruct (multi_complete t dt b (turned_image (fun l => l) a' b)) as (b' & E' & EM).
      { rewrite V. apply (turned_stepwise _ _ _ _ _ _ H E). intros p l l' m _ T X. exact (multi_turn _ _ _ _ _ _ _ T X). }
      exists b'. split; [exact E'|]. apply multi_sound in E'.
      apply G1; [refine (stepwise_weaken _ _ _ _ _ E)|refine (stepwise_weaken _ _ _ _ _ E')|exact EM]; intros p l l' X; apply X.
    - apply heun_sound in E. destruct E as (ws & ps & LW & LP & E).
      destruct (heun_complete t dt b (turned_image advance_noise a' b) (map (turn Q) ws) (map (turn Q) ps)) as (b' & E' & EM); [rewrite map_length; congruence|rewrite map_length; congruence| |].
      { rewrite V. apply (turned_stepwise _ _ _ _ _ _ H E). intros p l l' m _ T X. exact (heun_turn _ _ _ _ _ _ _ _ _ T X). }
      exists b'. split; [exact E'|]. apply heun_sound in E'. destruct E' as (ws2 & ps2 & _ & _ & E').
      apply G2; [refine (stepwise_weaken _ _ _ _ _ E)|refine (stepwise_weaken _ _ _ _ _ E')|exact EM]; intros p l l' (w & x & c & _ & _ & _ & _ & _ & X); exists c; exact X.
    - apply eh_sound in E. destruct (eh_complete t dt b (turned_image advance_noise a' b)) as (b' & E' & EM).
      { rewrite V. apply (turned_stepwise _ _ _ _ _ _ H E). intros p l l' m _ T X. exact (eh_turn _ _ _ _ _ _ _ T X). }
      exists b'. split; [exact E'|]. apply eh_sound in E'.
      apply G2; [refine (stepwise_weaken _ _ _ _ _ E)|refine (stepwise_weaken _ _ _ _ _ E')|exact EM]; intros p l l' (w & c & _ & _ & X); exists c; exact X.
  Qed.

  (** ** Runs *)
  Lemma turned_solver a b : turned_stack Q a b -> same_solver a b.
  Proof.
    intros H. split; [|unfold layerNo; rewrite (turned_length _ _ H); tauto].
    assert (K : forall l m, turned Q l m -> (noisy l <-> noisy m)).
    { intros l m T. destruct (tn_quiet _ _ _ T) as [A B]. destruct (tn_flags _ _ _ T) as (_ & _ & _ & _ & F & _). unfold noisy. rewrite F, A, B. tauto. }
    unfold turned_stack in H. induction H as [|l m ls ms T H IH]; [tauto|]. specialize (K _ _ T). split; intros (x & [<-|I] & N).
    - exists m. cbn. tauto.
    - destruct (proj1 IH) as (y & Iy & Ny); [exists x; auto|]. exists y. cbn. auto.
    - exists l. cbn. tauto.
    - destruct (proj2 IH) as (y & Iy & Ny); [exists x; auto|]. exists y. cbn. auto.
  Qed.
  Lemma turned_prepared a b : turned_stack Q a b -> turned_stack Q (set_j_layers (map prepared (j_layers a)) a) (set_j_layers (map prepared (j_layers b)) b) /\ forall N m, In m (j_layers b) -> preparable N m.
  Proof.
    unfold turned_stack. cbn [j_layers set_j_layers]. intros H. induction H as [|l m ls ms T H [IH IP]]; [split; [constructor|intros N m []]|]. destruct (turned_quiet_prepared _ _ T) as [A B]. split.
    - cbn [map]. constructor; [rewrite A, B; exact T|exact IH].
    - intros N x [<-|I]; [|exact (IP N x I)]. left. apply (tn_quiet _ _ _ T).
  Qed.
  Lemma turned_selects mode N a b a0 r u : turned_stack Q a b -> selects mode N a a0 r u -> exists b0, selects mode N b b0 r u /\ turned_stack Q a0 b0.
  Proof.
    intros H (P & E & [M1 M2] & ->). destruct (turned_prepared _ _ H) as [HP PP]. exists (set_j_layers (map prepared (j_layers b)) b). split; [|rewrite E; exact HP].
    destruct (turned_solver _ _ H) as [SN SL]. split; [intros m Hm; exact (PP N m Hm)|].
    split; [reflexivity|]. split; [split; [intros Y; apply M1, SN, Y|intros Y; apply M2; intros Z; apply Y, SN, Z]|]. apply table_same, SL.
  Qed.
  Lemma traj_turn r dt s N b0 : turned_stack Q (s 0%nat) b0 -> (r = RunSingle -> layerNo (s 0%nat) = 1%nat) -> trajectory r dt s N ->
    exists s', s' 0%nat = b0 /\ trajectory r dt s' N /\ forall k, (k <= N)%nat -> turned_stack Q (s k) (s' k).
  Proof.
    intros H HS. induction N as [|N IH]; intros TR.
    - exists (fun _ => b0). split; [reflexivity|]. split; [intros k Hk; lia|]. intros k Hk. assert (k = 0%nat) by lia. subst k. exact H.
    - destruct IH as (s' & I & T & M); [intros k Hk; apply TR; lia|].
      destruct (step_turn r (INR N * dt) dt (s N) (s' N) (s (S N))) as (b' & E & X); [apply M; lia| |apply TR; lia|].
      { intros R. specialize (HS R). assert (T' : trajectory r dt s N) by (intros k Hk; apply TR; lia). destruct (traj_static _ _ _ _ N T' (le_n N)) as (_ & LL & _). unfold layerNo in *. congruence. }
      exists (fun k => if Nat.leb k N then s' k else b'). split; [exact I|]. split.
      + intros k Hk. destruct (Nat.eq_dec k N) as [->|Hne].
        * rewrite (proj2 (Nat.leb_le N N)) by lia. rewrite (proj2 (Nat.leb_gt (S N) N)) by lia. exact E.
        * rewrite (proj2 (Nat.leb_le k N)) by lia. rewrite (proj2 (Nat.leb_le (S k) N)) by lia. apply T. lia.
      + intros k Hk. destruct (Nat.leb_spec k N) as [Y|Y]; [apply M, Y|]. assert (k = S N) by lia. subst k. exact X.
  Qed.
  Lemma run_turn T dt wf e e' mode a b a' : turned_stack Q a b -> j_mode b <> MR_STRIP -> runSimulation T dt wf e mode a = (a', Ok tt) ->
    exists b', runSimulation T dt wf e' mode b = (b', Ok tt) /\ turned_stack Q a' b'.
  Proof.
    intros H HM E. destruct (run_sound _ _ _ _ _ _ _ E) as (N & w & a0 & r & u & s & rows & HC & HS & I & TR & HW & _ & Ea & _).
    destruct (turned_selects _ _ _ _ _ _ _ H HS) as (b0 & HS' & H0).
    destruct (traj_turn r dt s N b0) as (s' & I' & TR' & M); [rewrite I; exact H0|rewrite I; exact (single_one _ _ _ _ _ _ HS)|exact TR|].
    assert (X : exists b', runSimulation T dt wf e' mode b = (b', Ok tt)).
    { destruct HW as [->|HW]; [exists b0; exact (run_none _ _ _ _ _ _ _ _ _ _ HC HS')|].
      apply (run_complete T dt wf e' mode b N w b0 r u s' HC HS' HW (fun Y => False_ind _ (HM Y)) I' TR').
      intros k Hk. assert (Hk' : (S (k * w) <= N)%nat) by (apply (row_in_run N w k (or_intror HW)); exact Hk).
      destruct (traj_static _ _ _ _ _ TR' Hk') as (EJ & _). assert (EM : j_mode (s' (S (k * w))) = j_mode b) by (rewrite EJ, I'; destruct HS' as (_ & -> & _); reflexivity).
      unfold log_row, resistance_row. rewrite EM. destruct (j_mode b); [|destruct (j_layers (s' (S (k * w)))) as [|? [|? ?]]|contradiction HM; reflexivity]; eexists; eexists; (split; [reflexivity|reflexivity]). }
    destruct X as [b' X]. exists b'. split; [exact X|].
    destruct (run_sound _ _ _ _ _ _ _ X) as (N2 & w2 & b2 & r2 & u2 & s2 & rows2 & HC2 & HS2 & I2 & TR2 & _ & _ & Eb & _).
    destruct (counts_unique _ _ _ _ _ _ _ HC2 HC) as [-> ->]. assert (SB : same_solver b b) by (split; tauto). destruct (same_selection _ _ _ _ _ _ _ _ _ _ SB HS2 HS') as [-> ->].
    assert (E0 : s2 0%nat = s' 0%nat) by (rewrite I2, I'; destruct HS2 as (_ & -> & _), HS' as (_ & -> & _); reflexivity).
    pose proof (M N (le_n N)) as MM. rewrite <- (traj_deterministic _ _ _ _ _ E0 TR2 TR' N (le_n N)) in MM. rewrite Ea, Eb. exact MM.
  Qed.
  Lemma run_turn_log T dt wf e e' mode a b a' b' : turned_stack Q a b -> named a -> named b -> runSimulation T dt wf e mode a = (a', Ok tt) -> runSimulation T dt wf e' mode b = (b', Ok tt) ->
    forall p l m, nth_error (j_layers a) p = Some l -> nth_error (j_layers b) p = Some m -> exists us, forall tag get, In (tag, get) [("mx"%string, cx); ("my"%string, cy); ("mz"%string, cz)] ->
    col (colname (l_id l) tag) (j_log a') = (col (colname (l_id l) tag) (j_log a) ++ map get us)%list /\ col (colname (l_id m) tag) (j_log b') = (col (colname (l_id m) tag) (j_log b) ++ map (fun u => get (turn Q u)) us)%list.
  Proof.
    intros H NA NB A B p l m Hl Hm.
    destruct (run_grid _ _ _ _ _ _ _ NA A) as (N & w & C1 & W1 & _ & _ & r1 & u1 & a0 & s & S1 & I1 & T1 & _ & P1).
    destruct (run_grid _ _ _ _ _ _ _ NB B) as (N2 & w2 & C2 & _ & _ & _ & r2 & u2 & b0 & s2 & S2 & I2 & T2 & _ & P2).
    destruct (counts_unique _ _ _ _ _ _ _ C2 C1) as [-> ->].
    destruct (turned_selects _ _ _ _ _ _ _ H S1) as (b1 & S1' & H0). assert (SB : same_solver b b) by (split; tauto). destruct (same_selection _ _ _ _ _ _ _ _ _ _ SB S2 S1') as [-> ->].
    destruct (traj_turn r1 dt s N b1) as (s' & I' & TR' & M); [rewrite I1; exact H0|rewrite I1; exact (single_one _ _ _ _ _ _ S1)|exact T1|].
    assert (E0 : s2 0%nat = s' 0%nat) by (rewrite I2, I'; destruct S2 as (_ & -> & _), S1' as (_ & -> & _); reflexivity).
    pose proof (traj_deterministic _ _ _ _ _ E0 T2 TR') as DT. destruct (P1 p l Hl) as (X1 & Y1 & Z1), (P2 p m Hm) as (X2 & Y2 & Z2).
    assert (K : forall k, In k (seq 0 (rows_needed N w)) -> nth p (mags (j_layers (s2 (S (k * w))))) Zero = turn Q (nth p (mags (j_layers (s (S (k * w))))) Zero)).
    { intros k Hk. apply in_seq in Hk. pose proof (row_in_run N w k W1 ltac:(lia)) as HkN. rewrite (DT _ HkN), (turned_mags _ _ (M _ HkN)). apply nth_turn. }
    exists (map (fun k => nth p (mags (j_layers (s (S (k * w))))) Zero) (seq 0 (rows_needed N w))). intros tag get Hin. rewrite !map_map.
    destruct Hin as [Y|[Y|[Y|[]]]]; injection Y as <- <-.
    - split; [exact X1|]. rewrite X2. f_equal. apply map_ext_in. intros k Hk. rewrite (K k Hk). reflexivity.
    - split; [exact Y1|]. rewrite Y2. f_equal. apply map_ext_in. intros k Hk. rewrite (K k Hk). reflexivity.
    - split; [exact Z1|]. rewrite Z2. f_equal. apply map_ext_in. intros k Hk. rewrite (K k Hk). reflexivity.
  Qed.
End run.

(** ** What turned layers are *)
Lemma about_z_rotation a : rotation (about_z a).
Proof.
  pose proof (sin2_cos2 a) as S. unfold Rsqr in S. unfold rotation, turn, about_z, MatVec. cbn [row0 row1 row2].
  split; intros [x y z] [u v w]; unfold Dot, Cross.
  - replace ((cos a * x + - sin a * y + 0 * z) * (cos a * u + - sin a * v + 0 * w) + (sin a * x + cos a * y + 0 * z) * (sin a * u + cos a * v + 0 * w) + (0 * x + 0 * y + 1 * z) * (0 * u + 0 * v + 1 * w))
      with ((sin a * sin a + cos a * cos a) * (x * u + y * v) + z * w) by ring. rewrite S. ring.
  - apply vec_eq; try ring.
    replace ((cos a * x + - sin a * y + 0 * z) * (sin a * u + cos a * v + 0 * w) - (sin a * x + cos a * y + 0 * z) * (cos a * u + - sin a * v + 0 * w))
      with ((sin a * sin a + cos a * cos a) * (x * v - y * u)) by ring. rewrite S. ring.
Qed.
Lemma film_turned a p q : turned_tensor (about_z a) (Ten (CV p 0 0) (CV 0 p 0) (CV 0 0 q)) (Ten (CV p 0 0) (CV 0 p 0) (CV 0 0 q)).
Proof. intros [x y z]. unfold turn, about_z, MatVec, Dot. cbn [row0 row1 row2]. apply vec_eq; ring. Qed.
Lemma constant_turned Q d d' v : rotation Q -> (forall t, getCurrentAxialDrivers d t = Ok v) -> (forall t, getCurrentAxialDrivers d' t = Ok (turn Q v)) -> turned_driver Q d d'.
Proof. intros HQ A B t u. rewrite A, B. split; intros E; [injection E as E; rewrite E; reflexivity|]. f_equal. apply (turn_inj Q HQ). congruence. Qed.
Lemma axial_turned Q l : (forall N, In N [l_demag l; l_dipoleBottom l; l_dipoleTop l] -> turned_tensor Q N N) ->
  (forall d, In d [l_external l; l_Oersted l; l_Hdmi l; l_Hreserved l; l_IDMITop l; l_IDMIBottom l] -> turned_driver Q d d) ->
  turn Q (l_anis l) = l_anis l -> turn Q (l_reference l) = l_reference l -> quiet l -> turned Q l (set_l_mag (turn Q (l_mag l)) l).
Proof.
  intros HN HD HA HR [Q1 Q2].
  constructor; try (apply HN; cbn; tauto); try (apply HD; cbn; tauto); try (symmetry; assumption); try (split; assumption); try reflexivity; try (repeat split; reflexivity).
  intros X. congruence.
Qed.
Lemma resistance_turn Q a b ra rb : rotation Q -> turned_stack Q a b -> same_meter a b -> j_mode a <> MR_STRIP -> resistance_row a ra -> resistance_row b rb -> map snd rb = map snd ra.
Proof.
  intros HQ H (E1 & E2 & E3 & _) HM. unfold resistance_row. rewrite E1, E2, E3. unfold turned_stack in H. destruct (j_mode a); [| |contradiction HM; reflexivity].
  - intros -> ->. reflexivity.
  - destruct H as [|l0 m0 ls ms T0 H]; [intros -> ->; reflexivity|]. destruct H as [|l1 m1 ls' ms' T1 H]; intros -> ->; cbn [map snd].
    + rewrite (tn_mag _ _ _ T0), (tn_reference _ _ _ T0), (proj1 HQ). reflexivity.
    + rewrite (tn_mag _ _ _ T0), (tn_mag _ _ _ T1), (proj1 HQ). reflexivity.
Qed.
Lemma half_turn v : turn (about_z PI) v = CV (- cx v) (- cy v) (cz v).
Proof. destruct v as [x y z]. unfold turn, about_z, MatVec, Dot. cbn [row0 row1 row2 cx cy cz]. rewrite cos_PI, sin_PI. apply vec_eq; ring. Qed.
Lemma strip_half_turn a b r : turned_stack (about_z PI) a b -> same_meter a b -> j_mode a = MR_STRIP -> (resistance_row a r <-> resistance_row b r).
Proof.
  intros H (E1 & _ & _ & E4 & E5 & E6 & E7 & E8 & E9 & E10) HM. unfold resistance_row. rewrite E1, HM.
  assert (K : forall i, mapi (strip_long b) i (j_layers b) = mapi (strip_long a) i (j_layers a) /\ mapi (strip_trans b) i (j_layers b) = mapi (strip_trans a) i (j_layers a)).
  { unfold turned_stack in H. induction H as [|l m ls ms T H IH]; intros i; [split; reflexivity|]. cbn [mapi]. destruct (IH (S i)) as [A B]. rewrite A, B. unfold strip_long, strip_trans.
    rewrite E4, E5, E6, E7, E8, E9, E10, (tn_mag _ _ _ T), half_turn. cbn [cx cy cz]. split; f_equal; ring. }
  destruct (K 0%nat) as [-> ->]. reflexivity.
Qed.
Lemma turned_stack_back Q a b : rotation Q -> turned_stack Q a b -> turned_stack (back Q) b a.
Proof. intros HQ H. unfold turned_stack in *. induction H; constructor; [apply (turned_back Q HQ); assumption|assumption]. Qed.
Lemma run_turn_iff Q T dt wf e e' mode a b : rotation Q -> turned_stack Q a b -> j_mode a <> MR_STRIP -> j_mode b <> MR_STRIP ->
  ((exists a', runSimulation T dt wf e mode a = (a', Ok tt)) <-> (exists b', runSimulation T dt wf e' mode b = (b', Ok tt))).
Proof.
  intros HQ H MA MB. split; intros [x X].
  - destruct (run_turn Q HQ T dt wf e e' mode a b x H MB X) as (b' & B & _). exists b'. exact B.
  - destruct (run_turn (back Q) (back_rotation Q HQ) T dt wf e' e mode b a x (turned_stack_back Q a b HQ H) MA X) as (a' & A & _). exists a'. exact A.
Qed.
