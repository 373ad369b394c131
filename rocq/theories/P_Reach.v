(** Proofs about the reach of a step (C103). *)
From Verif Require Import S_Reach P_Alone.
From Coq Require Import Classical_Prop.
From Verif Require Export P_Alone S_Reach.
Open Scope R_scope.
Open Scope st_scope.

Lemma alike_refl l : alike l l.
Proof. exists (l_cache l). destruct l; reflexivity. Qed.
Lemma alike_static l l' : alike l l' -> static l l'.
Proof. intros [c ->]. apply static_cache. Qed.
Lemma alike_mag l l' : alike l l' -> l_mag l' = l_mag l.
Proof. intros [c ->]. reflexivity. Qed.
Lemma alike_prepared l l' : alike l l' -> alike (prepared l) (prepared l').
Proof. intros [c ->]. unfold alike, prepared. exists c. cbn. destruct (Req_EM_T (l_nScale l) 0); reflexivity. Qed.
Lemma alike_noise l l' t w : alike l l' -> noise_spec l' t w <-> noise_spec l t w.
Proof. intros [c ->]. apply noise_spec_cache. Qed.
Lemma noise_unique l t w w' : noise_spec l t w -> noise_spec l t w' -> w = w'.
Proof.
  intros A B. assert (X : drawNoise t 0 l = (advance_noise l, Ok w)) by (apply noise_iff; auto).
  assert (Y : drawNoise t 0 l = (advance_noise l, Ok w')) by (apply noise_iff; auto). congruence.
Qed.
Lemma rk4_unique (F : R -> cvec -> cvec -> Prop) t dt m u v : (forall t m d d', F t m d -> F t m d' -> d = d') ->
  RK4_scheme F t dt m u -> RK4_scheme F t dt m v -> u = v.
Proof.
  intros HF (f1 & f2 & f3 & f4 & A1 & A2 & A3 & A4 & A5) (g1 & g2 & g3 & g4 & B1 & B2 & B3 & B4 & B5).
  rewrite (HF _ _ _ _ B1 A1) in *. rewrite (HF _ _ _ _ B2 A2) in *. rewrite (HF _ _ _ _ B3 A3) in *. rewrite (HF _ _ _ _ B4 A4) in *.
  exact (Normalised_fun _ _ _ A5 B5).
Qed.
Lemma rk4_weaken (F G : R -> cvec -> cvec -> Prop) t dt m u : (forall t m d, F t m d -> G t m d) -> RK4_scheme F t dt m u -> RK4_scheme G t dt m u.
Proof. intros H (f1 & f2 & f3 & f4 & A1 & A2 & A3 & A4 & A5). exists f1, f2, f3, f4. auto 8. Qed.

(** ** Neighbours *)
Lemma alike_at_mag a b q : alike_at a b q -> nth q (mags (j_layers b)) Zero = nth q (mags (j_layers a)) Zero.
Proof.
  unfold alike_at. destruct (nth_error (j_layers a) q) as [l|] eqn:A, (nth_error (j_layers b) q) as [l'|] eqn:B; try contradiction; intros H.
  - unfold mags. rewrite !(nth_error_nth _ _ _ (map_nth_error l_mag _ _ A)), !(nth_error_nth _ _ _ (map_nth_error l_mag _ _ B)). apply alike_mag, H.
  - apply nth_error_None in A, B. unfold mags. rewrite !nth_overflow by (rewrite map_length; assumption). reflexivity.
Qed.
Lemma near_below a b p : agree_near 1 p a b -> below (mags (j_layers b)) p = below (mags (j_layers a)) p.
Proof. destruct p as [|p]; [reflexivity|]. intros H. apply alike_at_mag, H. split; lia. Qed.
Lemma near_above a b p : agree_near 1 p a b -> above (mags (j_layers b)) p = above (mags (j_layers a)) p.
Proof. intros H. apply alike_at_mag, H. split; lia. Qed.
Lemma near_less d e p a b : (d <= e)%nat -> agree_near e p a b -> agree_near d p a b.
Proof. intros H X q [A B]. apply X. split; lia. Qed.
Lemma near_move d e p q a b : within d p q -> agree_near (e + d) p a b -> agree_near e q a b.
Proof. intros [A B] X x [C D]. apply X. split; lia. Qed.
Lemma near_self d p a b : agree_near d p a b -> alike_at a b p.
Proof. intros H. apply H. split; lia. Qed.

(** The layer at p before and after a step in both junctions. *)
Lemma after_step P Q a a' b b' p : stepwise P a a' -> stepwise Q b b' -> alike_at a b p ->
  (forall l l' m m', alike l m -> nth_error (j_layers a) p = Some l -> nth_error (j_layers b) p = Some m ->
     nth_error (j_layers a') p = Some l' -> nth_error (j_layers b') p = Some m' -> P p l l' -> Q p m m' -> alike l' m') -> alike_at a' b' p.
Proof.
  intros (_ & LA & PA) (_ & LB & PB) HA H. unfold alike_at in *.
  destruct (nth_error (j_layers a) p) as [l|] eqn:A, (nth_error (j_layers b) p) as [m|] eqn:B; try contradiction.
  - destruct (nth_error_same_length _ _ _ _ LA A) as [l' A']. destruct (nth_error_same_length _ _ _ _ LB B) as [m' B'].
    rewrite A', B'. apply (H l l' m m'); auto.
  - apply nth_error_None in A, B. rewrite <- LA in A. rewrite <- LB in B. apply nth_error_None in A, B. rewrite A, B. exact I.
Qed.
Lemma advance_cache c l : advance_noise (set_l_cache c l) = set_l_cache c (advance_noise l).
Proof. destruct l. unfold advance_noise. cbn. reflexivity. Qed.
Lemma alike_result l m (l' m' : layer) c c' : alike l m -> l_mag m' = l_mag l' ->
  l' = set_l_mag (l_mag l') (set_l_cache c (advance_noise l)) -> m' = set_l_mag (l_mag m') (set_l_cache c' (advance_noise m)) -> alike l' m'.
Proof.
  intros [x ->] E El Em. exists c'. rewrite Em, E, advance_cache. rewrite El at 2. destruct (advance_noise l). reflexivity.
Qed.
Lemma alike_result0 l m (l' m' : layer) c c' : alike l m -> l_mag m' = l_mag l' ->
  l' = set_l_mag (l_mag l') (set_l_cache c l) -> m' = set_l_mag (l_mag m') (set_l_cache c' m) -> alike l' m'.
Proof. intros [x ->] E El Em. exists c'. rewrite Em, E. rewrite El at 2. destruct l. reflexivity. Qed.

Lemma multi_reach t dt a b a' b' p : runMultiLayerSolver t dt a = (a', Ok tt) -> runMultiLayerSolver t dt b = (b', Ok tt) ->
  agree_near 1 p a b -> alike_at a' b' p.
Proof.
  intros A B H. apply multi_sound in A, B. refine (after_step _ _ _ _ _ _ _ A B (near_self _ _ _ _ H) _).
  intros l l' m m' HL _ _ _ _ (S1 & c1 & E1) (S2 & c2 & E2). refine (alike_result0 l m l' m' c1 c2 HL _ E1 E2).
  rewrite (near_below _ _ _ H), (near_above _ _ _ H), (alike_mag _ _ HL) in S2.
  refine (rk4_unique _ _ _ _ _ _ _ S2 (rk4_weaken _ _ _ _ _ _ _ S1)).
  - intros s x d d'. apply rhs_unique.
  - intros s x d. apply static_rhs, alike_static, HL.
Qed.
Lemma single_reach t dt a b a' b' p : runSingleLayerSolver t dt a = (a', Ok tt) -> runSingleLayerSolver t dt b = (b', Ok tt) ->
  alike_at a b p -> alike_at a' b' p.
Proof.
  intros A B H. apply single_sound in A, B. refine (after_step _ _ _ _ _ _ _ A B H _).
  intros l l' m m' HL _ _ _ _. destruct p as [|p]; [|intros -> ->; exact HL]. intros (S1 & c1 & E1) (S2 & c2 & E2).
  refine (alike_result0 l m l' m' c1 c2 HL _ E1 E2). rewrite (alike_mag _ _ HL) in S2.
  refine (rk4_unique _ _ _ _ _ _ _ S2 (rk4_weaken _ _ _ _ _ _ _ S1)).
  - intros s x d d'. apply rhs_unique.
  - intros s x d. apply static_rhs, alike_static, HL.
Qed.
Lemma eh_reach t dt a b a' b' p : eulerHeunSolverStep t dt a = (a', Ok tt) -> eulerHeunSolverStep t dt b = (b', Ok tt) ->
  agree_near 1 p a b -> alike_at a' b' p.
Proof.
  intros A B H. apply eh_sound in A, B. refine (after_step _ _ _ _ _ _ _ A B (near_self _ _ _ _ H) _).
  intros l l' m m' HL _ _ _ _ (w & c1 & N1 & S1 & E1) (w' & c2 & N2 & S2 & E2). refine (alike_result l m l' m' c1 c2 HL _ E1 E2).
  apply (alike_noise l m t w' HL) in N2. rewrite (noise_unique _ _ _ _ N2 N1) in S2.
  rewrite (near_below _ _ _ H), (near_above _ _ _ H) in S2. destruct S1 as (_ & f & F1 & X1), S2 as (_ & g & F2 & X2).
  pose proof HL as [c ->]. cbn [l_mag set_l_cache l_damping] in *.
  apply (static_rhs _ _ _ _ _ _ _ (static_sym _ _ (alike_static _ _ HL))) in F2. rewrite (rhs_unique _ _ _ _ _ _ _ F2 F1) in X2.
  exact (Normalised_fun _ _ _ X2 X1).
Qed.
Lemma predictor_same l m t dt bt tp w q q' : alike l m -> Heun_predictor l t dt bt tp w q -> Heun_predictor m t dt bt tp w q' -> q' = q.
Proof.
  intros HL (_ & f & F1 & ->) (_ & g & F2 & ->). pose proof HL as [c ->]. cbn [l_mag set_l_cache l_damping] in *.
  apply (static_rhs _ _ _ _ _ _ _ (static_sym _ _ (alike_static _ _ HL))) in F2. rewrite (rhs_unique _ _ _ _ _ _ _ F2 F1). reflexivity.
Qed.
Lemma predictors_reach t dt a b a' b' ws ps ws' ps' p : length ps = length (j_layers a) -> length ps' = length (j_layers b) ->
  stepwise (Heun_rel (mags (j_layers a)) ws ps t dt) a a' -> stepwise (Heun_rel (mags (j_layers b)) ws' ps' t dt) b b' ->
  agree_near 1 p a b -> nth p ps' Zero = nth p ps Zero.
Proof.
  intros LP LP' (_ & LA & PA) (_ & LB & PB) H. pose proof (near_self _ _ _ _ H) as HA. unfold alike_at in HA.
  destruct (nth_error (j_layers a) p) as [l|] eqn:A, (nth_error (j_layers b) p) as [m|] eqn:B; try contradiction.
  - destruct (nth_error_same_length _ _ _ _ LA A) as [l' A']. destruct (nth_error_same_length _ _ _ _ LB B) as [m' B'].
    destruct (PA p l l' A A') as (w & q & c & W & Q & NS & HP & _). destruct (PB p m m' B B') as (w' & q' & c' & W' & Q' & NS' & HP' & _).
    rewrite (nth_error_nth _ _ _ Q), (nth_error_nth _ _ _ Q'). apply (alike_noise l m t w' HA) in NS'. rewrite (noise_unique _ _ _ _ NS' NS) in HP'.
    rewrite (near_below _ _ _ H), (near_above _ _ _ H) in HP'. exact (predictor_same _ _ _ _ _ _ _ _ _ HA HP HP').
  - apply nth_error_None in A, B. rewrite !nth_overflow by lia. reflexivity.
Qed.
Lemma heun_reach t dt a b a' b' p : heunSolverStep t dt a = (a', Ok tt) -> heunSolverStep t dt b = (b', Ok tt) ->
  agree_near 2 p a b -> alike_at a' b' p.
Proof.
  intros A B H. apply heun_sound in A, B. destruct A as (ws & ps & LW & LP & A), B as (ws' & ps' & LW' & LP' & B).
  assert (H1 : agree_near 1 p a b) by (apply (near_less 1 2); [lia|exact H]).
  assert (HB : below ps' p = below ps p).
  { destruct p as [|p]; [reflexivity|]. cbn [below]. apply (predictors_reach t dt a b a' b' ws ps ws' ps'); try assumption. apply (near_move 1 1 (S p)); [split; lia|exact H]. }
  assert (HT : above ps' p = above ps p).
  { apply (predictors_reach t dt a b a' b' ws ps ws' ps'); try assumption. apply (near_move 1 1 p); [split; lia|exact H]. }
  refine (after_step _ _ _ _ _ _ _ A B (near_self _ _ _ _ H) _).
  intros l l' m m' HL _ _ _ _ (w & q & c1 & _ & _ & N1 & P1 & S1 & E1) (w' & q' & c2 & _ & _ & N2 & P2 & S2 & E2).
  refine (alike_result l m l' m' c1 c2 HL _ E1 E2).
  apply (alike_noise l m t w' HL) in N2. rewrite (noise_unique _ _ _ _ N2 N1) in P2, S2.
  rewrite (near_below _ _ _ H1), (near_above _ _ _ H1) in P2, S2. rewrite (predictor_same _ _ _ _ _ _ _ _ _ HL P1 P2), HB, HT in S2.
  destruct S1 as (f & f' & F1 & F1' & X1), S2 as (g & g' & F2 & F2' & X2). pose proof HL as [c ->]. cbn [l_mag set_l_cache l_damping] in *.
  pose proof (static_sym _ _ (alike_static _ _ HL)) as SS. apply (static_rhs _ _ _ _ _ _ _ SS) in F2, F2'.
  rewrite (rhs_unique _ _ _ _ _ _ _ F2 F1), (rhs_unique _ _ _ _ _ _ _ F2' F1') in X2. exact (Normalised_fun _ _ _ X2 X1).
Qed.
Lemma step_reach r t dt a b a' b' d p : run_runner r t dt a = (a', Ok tt) -> run_runner r t dt b = (b', Ok tt) ->
  agree_near (d + reach r) p a b -> agree_near d p a' b'.
Proof.
  intros A B H q W. pose proof (near_move d (reach r) p q a b W) as M. rewrite Nat.add_comm in M. specialize (M H).
  destruct r; cbn [run_runner reach] in *.
  - exact (single_reach _ _ _ _ _ _ _ A B (near_self _ _ _ _ M)).
  - exact (multi_reach _ _ _ _ _ _ _ A B M).
  - exact (heun_reach _ _ _ _ _ _ _ A B M).
  - exact (eh_reach _ _ _ _ _ _ _ A B M).
Qed.
Lemma traj_reach r dt s s' N d p : trajectory r dt s N -> trajectory r dt s' N -> forall k, (k <= N)%nat ->
  agree_near (d + k * reach r) p (s 0%nat) (s' 0%nat) -> agree_near d p (s k) (s' k).
Proof.
  intros A B k. revert d. induction k as [|k IH]; intros d Hk H; [rewrite Nat.mul_0_l, Nat.add_0_r in H; exact H|].
  apply (step_reach r _ _ (s k) (s' k) _ _ d p (A k ltac:(lia)) (B k ltac:(lia))). apply IH; [lia|].
  replace (d + reach r + k * reach r)%nat with (d + S k * reach r)%nat by lia. exact H.
Qed.
Lemma near_prepared d p a b : agree_near d p a b -> agree_near d p (set_j_layers (map prepared (j_layers a)) a) (set_j_layers (map prepared (j_layers b)) b).
Proof.
  intros H q W. specialize (H q W). unfold alike_at in *. cbn [j_layers set_j_layers]. rewrite !nth_error_map.
  destruct (nth_error (j_layers a) q), (nth_error (j_layers b) q); try contradiction; cbn [option_map]; [apply alike_prepared, H|exact I].
Qed.
Lemma table_same n m used : (n = 1%nat <-> m = 1%nat) -> runner_table n used = runner_table m used.
Proof. intros H. destruct used; try reflexivity; cbn; destruct n as [|[|n]], m as [|[|m]]; try reflexivity; lia. Qed.
Lemma same_selection mode N a b a0 b0 r1 u1 r2 u2 : same_solver a b -> selects mode N a a0 r1 u1 -> selects mode N b b0 r2 u2 -> r1 = r2 /\ u1 = u2.
Proof.
  intros [HN HL] (_ & _ & T1 & ->) (_ & _ & T2 & ->). assert (E : u1 = u2).
  { destruct (classic (exists l, In l (j_layers a) /\ noisy l)) as [Y|Y].
    - rewrite (proj1 T1 Y), (proj1 T2 (proj1 HN Y)). reflexivity.
    - rewrite (proj2 T1 Y), (proj2 T2 (fun Z => Y (proj2 HN Z))). reflexivity. }
  subst u2. split; [apply table_same, HL|reflexivity].
Qed.
Lemma reach_mode mode N a a0 r u : selects mode N a a0 r u -> (reach r <= mode_reach mode)%nat.
Proof.
  intros (_ & _ & [T1 T2] & ->). destruct (classic (exists l, In l (j_layers a) /\ noisy l)) as [Y|Y].
  - rewrite (T1 Y). destruct mode; cbn; lia.
  - rewrite (T2 Y). unfold runner_table, layerNo. destruct mode; cbn; try lia; destruct (length (j_layers a)) as [|[|n]]; cbn; lia.
Qed.
Lemma counts_unique T dt wf N w N' w' : step_counts T dt wf N w -> step_counts T dt wf N' w' -> N = N' /\ w = w'.
Proof.
  assert (U : forall x n n', IntegerPart x n -> IntegerPart x n' -> n = n').
  { intros x n n' [[A B]|[[A B] ->]] [[C D]|[[C D] ->]].
    - destruct (Nat.lt_trichotomy n n') as [L|[L|L]]; [|exact L|]; apply le_INR in L; rewrite S_INR in L; lra.
    - pose proof (pos_INR n). lra.
    - pose proof (pos_INR n'). lra.
    - reflexivity. }
  intros (_ & _ & A & B & _) (_ & _ & A' & B' & _). split; eapply U; eassumption.
Qed.
Lemma run_reach T dt wf e e' mode a b a' b' N w d p : same_solver a b -> step_counts T dt wf N w ->
  runSimulation T dt wf e mode a = (a', Ok tt) -> runSimulation T dt wf e' mode b = (b', Ok tt) ->
  agree_near (d + N * mode_reach mode) p a b -> agree_near d p a' b'.
Proof.
  intros HS HC A B H. apply run_sound in A, B. destruct A as (N1 & w1 & a0 & r1 & u1 & s & rows & C1 & S1 & I1 & T1 & _ & _ & E1 & _).
  destruct B as (N2 & w2 & b0 & r2 & u2 & s' & rows' & C2 & S2 & I2 & T2 & _ & _ & E2 & _).
  destruct (counts_unique _ _ _ _ _ _ _ C1 HC) as [-> ->]. destruct (counts_unique _ _ _ _ _ _ _ C2 HC) as [-> ->].
  destruct (same_selection _ _ _ _ _ _ _ _ _ _ HS S1 S2) as [<- <-].
  assert (G : agree_near d p (s N) (s' N)).
  { apply (traj_reach r1 dt s s' N d p T1 T2 N (le_n N)). rewrite I1, I2. pose proof (reach_mode _ _ _ _ _ _ S1) as RM.
    apply (near_less _ (d + N * mode_reach mode)); [nia|]. destruct S1 as (_ & -> & _), S2 as (_ & -> & _). apply near_prepared, H. }
  intros q W. specialize (G q W). rewrite E1, E2. exact G.
Qed.
Lemma run_reach_log T dt wf e e' mode a b a' b' N w d p l m : named a -> named b -> same_solver a b -> step_counts T dt wf N w ->
  runSimulation T dt wf e mode a = (a', Ok tt) -> runSimulation T dt wf e' mode b = (b', Ok tt) ->
  agree_near d p a b -> nth_error (j_layers a) p = Some l -> nth_error (j_layers b) p = Some m ->
  forall k, (k < rows_needed N w)%nat -> (S (k * w) * mode_reach mode <= d)%nat -> forall tag, In tag ["mx"; "my"; "mz"]%string ->
    nth_error (col (colname (l_id l) tag) (j_log a')) (length (col (colname (l_id l) tag) (j_log a)) + k) =
    nth_error (col (colname (l_id m) tag) (j_log b')) (length (col (colname (l_id m) tag) (j_log b)) + k).
Proof.
  intros NA NB HS HC A B H Hl Hm k Hk Hd tag Htag.
  destruct (run_grid _ _ _ _ _ _ _ NA A) as (N1 & w1 & C1 & W1 & _ & _ & r1 & u1 & a0 & s & S1 & I1 & T1 & _ & P1).
  destruct (run_grid _ _ _ _ _ _ _ NB B) as (N2 & w2 & C2 & _ & _ & _ & r2 & u2 & b0 & s' & S2 & I2 & T2 & _ & P2).
  destruct (counts_unique _ _ _ _ _ _ _ C1 HC) as [-> ->]. destruct (counts_unique _ _ _ _ _ _ _ C2 HC) as [-> ->].
  destruct (same_selection _ _ _ _ _ _ _ _ _ _ HS S1 S2) as [<- <-]. pose proof (row_in_run N w k W1 Hk) as HkN.
  assert (G : agree_near 0 p (s (S (k * w))) (s' (S (k * w)))).
  { apply (traj_reach r1 dt s s' N 0 p T1 T2 _ HkN). rewrite I1, I2. pose proof (reach_mode _ _ _ _ _ _ S1) as RM.
    apply (near_less _ d); [nia|]. destruct S1 as (_ & -> & _), S2 as (_ & -> & _). apply near_prepared, H. }
  apply near_self, alike_at_mag in G. destruct (P1 p l Hl) as (X1 & Y1 & Z1), (P2 p m Hm) as (X2 & Y2 & Z2).
  assert (K : forall (xs ys : list R) f g, f k = g k -> nth_error (xs ++ map f (seq 0 (rows_needed N w))) (length xs + k) = nth_error (ys ++ map g (seq 0 (rows_needed N w))) (length ys + k)).
  { intros xs ys f g E. rewrite !nth_error_app2 by lia. rewrite !Nat.add_comm with (m := k), !Nat.add_sub, !nth_error_map_seq by exact Hk. rewrite E. reflexivity. }
  destruct Htag as [<-|[<-|[<-|[]]]]; [rewrite X1, X2|rewrite Y1, Y2|rewrite Z1, Z2]; apply K; cbv beta; rewrite G; reflexivity.
Qed.
