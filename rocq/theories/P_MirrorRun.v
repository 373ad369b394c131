(** Whole runs of stacks built upside down (C105). *)
From Coq Require Import Classical_Prop.
From Verif Require Import P_Mirror P_RunEx.
From Verif Require Export P_Mirror.
Open Scope R_scope.
Open Scope st_scope.

Lemma opposite_sym n p q : opposite n p q -> opposite n q p.
Proof. unfold opposite. lia. Qed.
Lemma mirrored_sym a b : mirrored a b -> mirrored b a.
Proof.
  intros [L H]. split; [auto|]. intros p q l m O El Em. rewrite L in O. apply opposite_sym in O. destruct (H q p m l O Em El) as [c ->].
  exists (l_cache m). rewrite flip_set_cache, set_cache_twice, flip_twice. destruct m; reflexivity.
Qed.
Lemma mirrored_in a b m : mirrored a b -> In m (j_layers b) -> exists l, In l (j_layers a) /\ alike (flip l) m.
Proof.
  intros H Hm. apply In_nth_error in Hm. destruct Hm as [q Eq]. assert (B : (q < length (j_layers b))%nat) by (apply nth_error_Some; congruence). pose proof H as [L _].
  assert (O : opposite (length (j_layers a)) (length (j_layers a) - 1 - q) q) by (unfold opposite; lia). destruct (opposite_layer _ _ _ _ _ H O Eq) as (l & El & A).
  exists l. split; [exact (nth_error_In _ _ El)|exact A].
Qed.
Lemma mirrored_noisy a b : mirrored a b -> (exists l, In l (j_layers a) /\ noisy l) -> exists m, In m (j_layers b) /\ noisy m.
Proof.
  intros H (l & Hl & Nl). destruct (mirrored_in _ _ _ (mirrored_sym _ _ H) Hl) as (m & Hm & [c E]). exists m. split; [exact Hm|]. rewrite E in Nl. exact Nl.
Qed.
Lemma mirrored_solver a b : mirrored a b -> same_solver a b.
Proof. intros H. split; [split; apply mirrored_noisy; [exact H|apply mirrored_sym, H]|]. unfold layerNo. rewrite (proj1 H). tauto. Qed.
Lemma mirrored_prepared a b : mirrored a b -> mirrored (set_j_layers (map prepared (j_layers a)) a) (set_j_layers (map prepared (j_layers b)) b).
Proof.
  intros [L H]. split; cbn [j_layers set_j_layers]; rewrite !map_length; [exact L|]. intros p q l m O El Em. rewrite nth_error_map in El, Em.
  destruct (nth_error (j_layers a) p) as [l0|] eqn:A; [|discriminate]. destruct (nth_error (j_layers b) q) as [m0|] eqn:B; [|discriminate]. cbn in El, Em. injection El as <-. injection Em as <-.
  rewrite flip_prepared. apply alike_prepared, (H p q l0 m0 O A B).
Qed.
Lemma mirrored_selects mode N a b a0 r u : mirrored a b -> selects mode N a a0 r u -> exists b0, selects mode N b b0 r u /\ mirrored a0 b0.
Proof.
  intros H (P & E & [M1 M2] & ->). exists (set_j_layers (map prepared (j_layers b)) b). split; [|rewrite E; apply mirrored_prepared, H].
  destruct (mirrored_solver _ _ H) as [SN SL]. split.
  { intros m Hm. destruct (mirrored_in _ _ _ H Hm) as (l & Hl & [c ->]). exact (P l Hl). }
  split; [reflexivity|]. split; [split; [intros Y; apply M1, SN, Y|intros Y; apply M2; intros Z; apply Y, SN, Z]|]. apply table_same, SL.
Qed.
Lemma traj_mirror r dt s N b0 : mirrored (s 0%nat) b0 -> (r = RunSingle -> layerNo (s 0%nat) = 1%nat) -> trajectory r dt s N ->
  exists s', s' 0%nat = b0 /\ trajectory r dt s' N /\ forall k, (k <= N)%nat -> mirrored (s k) (s' k).
Proof.
  intros H HS. induction N as [|N IH]; intros TR.
  - exists (fun _ => b0). split; [reflexivity|]. split; [intros k Hk; lia|]. intros k Hk. assert (k = 0%nat) by lia. subst k. exact H.
  - destruct IH as (s' & I & T & M); [intros k Hk; apply TR; lia|].
    destruct (step_mirror r (INR N * dt) dt (s N) (s' N) (s (S N))) as (b' & E & X); [apply M; lia| |apply TR; lia|].
    { intros R. specialize (HS R). assert (T' : trajectory r dt s N) by (intros k Hk; apply TR; lia). destruct (traj_static _ _ _ _ N T' (le_n N)) as (_ & LL & _). unfold layerNo in *. congruence. }
    exists (fun k => if Nat.leb k N then s' k else b'). split; [exact I|]. split.
    + intros k Hk. destruct (Nat.eq_dec k N) as [->|Hne].
      * rewrite (proj2 (Nat.leb_le N N)) by lia. rewrite (proj2 (Nat.leb_gt (S N) N)) by lia. exact E.
      * rewrite (proj2 (Nat.leb_le k N)) by lia. rewrite (proj2 (Nat.leb_le (S k) N)) by lia. apply T. lia.
    + intros k Hk. destruct (Nat.leb_spec k N) as [Y|Y]; [apply M, Y|]. assert (k = S N) by lia. subst k. exact X.
Qed.
Lemma single_one mode N a a0 r u : selects mode N a a0 r u -> r = RunSingle -> layerNo a0 = 1%nat.
Proof. intros (_ & -> & _ & ->) H. unfold layerNo in *. cbn [j_layers set_j_layers]. rewrite map_length. unfold runner_table in H. destruct u; try discriminate; destruct (length (j_layers a)) as [|[|n]]; try discriminate; reflexivity. Qed.
Lemma traj_deterministic r dt s s' N : s 0%nat = s' 0%nat -> trajectory r dt s N -> trajectory r dt s' N -> forall k, (k <= N)%nat -> s k = s' k.
Proof. intros H A B k. induction k as [|k IH]; intros Hk; [exact H|]. pose proof (A k ltac:(lia)) as X. pose proof (B k ltac:(lia)) as Y. rewrite IH in X by lia. congruence. Qed.
Lemma run_mirror T dt wf e e' mode a b a' : mirrored a b -> j_mode b <> MR_STRIP -> runSimulation T dt wf e mode a = (a', Ok tt) ->
  exists b', runSimulation T dt wf e' mode b = (b', Ok tt) /\ mirrored a' b'.
Proof.
  intros H HM E. destruct (run_sound _ _ _ _ _ _ _ E) as (N & w & a0 & r & u & s & rows & HC & HS & I & TR & HW & _ & Ea & _).
  destruct (mirrored_selects _ _ _ _ _ _ _ H HS) as (b0 & HS' & H0).
  destruct (traj_mirror r dt s N b0) as (s' & I' & TR' & M); [rewrite I; exact H0|rewrite I; exact (single_one _ _ _ _ _ _ HS)|exact TR|].
  assert (X : exists b', runSimulation T dt wf e' mode b = (b', Ok tt)).
  { destruct HW as [->|HW]; [exists b0; exact (run_none _ _ _ _ _ _ _ _ _ _ HC HS')|].
    apply (run_complete T dt wf e' mode b N w b0 r u s' HC HS' HW (fun Y => False_ind _ (HM Y)) I' TR').
    intros k Hk. assert (Hk' : (S (k * w) <= N)%nat) by (apply (row_in_run N w k (or_intror HW)); exact Hk).
    destruct (traj_static _ _ _ _ _ TR' Hk') as (EJ & _). assert (EM : j_mode (s' (S (k * w))) = j_mode b) by (rewrite EJ, I'; destruct HS' as (_ & -> & _); reflexivity).
    unfold log_row, resistance_row. rewrite EM. destruct (j_mode b); [|destruct (j_layers (s' (S (k * w)))) as [|? [|? ?]]|contradiction HM; reflexivity]; eexists; eexists; (split; [reflexivity|reflexivity]). }
  destruct X as [b' X]. exists b'. split; [exact X|].
  destruct (run_sound _ _ _ _ _ _ _ X) as (N2 & w2 & b2 & r2 & u2 & s2 & rows2 & HC2 & HS2 & I2 & TR2 & _ & _ & Eb & _).
  destruct (counts_unique _ _ _ _ _ _ _ HC2 HC) as [-> ->]. assert (SB : same_solver b b) by (split; tauto). destruct (same_selection _ _ _ _ _ _ _ _ _ _ SB HS2 HS') as [-> ->].
  assert (E0 : s2 0%nat = s' 0%nat) by (rewrite I2, I'; destruct HS2 as (_ & -> & _), HS' as (_ & -> & _); reflexivity).
  pose proof (M N (le_n N)) as MM. rewrite <- (traj_deterministic _ _ _ _ _ E0 TR2 TR' N (le_n N)) in MM. rewrite Ea, Eb. exact MM.
Qed.
Lemma run_mirror_log T dt wf e e' mode a b a' b' : mirrored a b -> named a -> named b -> runSimulation T dt wf e mode a = (a', Ok tt) -> runSimulation T dt wf e' mode b = (b', Ok tt) ->
  forall p q l m, opposite (length (j_layers a)) p q -> nth_error (j_layers a) p = Some l -> nth_error (j_layers b) q = Some m -> forall tag, In tag ["mx"; "my"; "mz"]%string ->
  l_id m = l_id l /\ exists new, col (colname (l_id l) tag) (j_log a') = (col (colname (l_id l) tag) (j_log a) ++ new)%list /\ col (colname (l_id m) tag) (j_log b') = (col (colname (l_id m) tag) (j_log b) ++ new)%list.
Proof.
  intros H NA NB A B p q l m O Hl Hm tag Htag. split; [destruct (proj2 H p q l m O Hl Hm) as [c ->]; reflexivity|].
  destruct (run_grid _ _ _ _ _ _ _ NA A) as (N & w & C1 & W1 & _ & _ & r1 & u1 & a0 & s & S1 & I1 & T1 & _ & P1).
  destruct (run_grid _ _ _ _ _ _ _ NB B) as (N2 & w2 & C2 & _ & _ & _ & r2 & u2 & b0 & s2 & S2 & I2 & T2 & _ & P2).
  destruct (counts_unique _ _ _ _ _ _ _ C2 C1) as [-> ->].
  destruct (mirrored_selects _ _ _ _ _ _ _ H S1) as (b1 & S1' & H0). assert (SB : same_solver b b) by (split; tauto). destruct (same_selection _ _ _ _ _ _ _ _ _ _ SB S2 S1') as [-> ->].
  destruct (traj_mirror r1 dt s N b1) as (s' & I' & TR' & M); [rewrite I1; exact H0|rewrite I1; exact (single_one _ _ _ _ _ _ S1)|exact T1|].
  assert (E0 : s2 0%nat = s' 0%nat) by (rewrite I2, I'; destruct S2 as (_ & -> & _), S1' as (_ & -> & _); reflexivity).
  pose proof (traj_deterministic _ _ _ _ _ E0 T2 TR') as DT. destruct (P1 p l Hl) as (X1 & Y1 & Z1), (P2 q m Hm) as (X2 & Y2 & Z2).
  assert (K : forall k, In k (seq 0 (rows_needed N w)) -> nth q (mags (j_layers (s2 (S (k * w))))) Zero = nth p (mags (j_layers (s (S (k * w))))) Zero).
  { intros k Hk. apply in_seq in Hk. pose proof (row_in_run N w k W1 ltac:(lia)) as HkN. rewrite (DT _ HkN). destruct (mirrored_mags _ _ (M _ HkN)) as [_ R]. apply R.
    unfold mags. rewrite map_length. destruct (traj_static _ _ _ _ _ T1 HkN) as (_ & LL & _). rewrite LL, I1. destruct S1 as (_ & -> & _). cbn [j_layers set_j_layers]. rewrite map_length. exact O. }
  destruct Htag as [<-|[<-|[<-|[]]]].
  - eexists. split; [exact X1|]. rewrite X2. f_equal. apply map_ext_in. intros k Hk. rewrite (K k Hk). reflexivity.
  - eexists. split; [exact Y1|]. rewrite Y2. f_equal. apply map_ext_in. intros k Hk. rewrite (K k Hk). reflexivity.
  - eexists. split; [exact Z1|]. rewrite Z2. f_equal. apply map_ext_in. intros k Hk. rewrite (K k Hk). reflexivity.
Qed.
