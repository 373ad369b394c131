(** Consequences for whole runs. *)
From Verif Require Export P_Log.
Open Scope R_scope.
Open Scope st_scope.

Lemma static_fields l l' : static l l' -> l_id l' = l_id l /\ l_includeSTT l' = l_includeSTT l /\ l_includeSOT l' = l_includeSOT l /\
  l_temperatureSet l' = l_temperatureSet l /\ l_nScale l' = l_nScale l /\ l_rng l' = l_rng l.
Proof. intros (m & c & rp & bf & ->). repeat split. Qed.
Lemma stepwise_trans a b c : stepwise (fun _ l l' => static l l') a b -> stepwise (fun _ l l' => static l l') b c ->
  stepwise (fun _ l l' => static l l') a c.
Proof.
  intros (E1 & L1 & P1) (E2 & L2 & P2). split; [rewrite E2, E1; reflexivity|]. split; [congruence|].
  intros p l l' H1 H2. destruct (nth_error_same_length _ _ _ _ L1 H1) as [x Hx].
  exact (static_trans _ _ _ (P1 _ _ _ H1 Hx) (P2 _ _ _ Hx H2)).
Qed.
Lemma stepwise_self j : stepwise (fun _ l l' => static l l') j j.
Proof. split; [symmetry; apply set_layers_id|]. split; [reflexivity|]. intros p l l' H1 H2. assert (l' = l) by congruence. subst. apply static_refl. Qed.
Lemma traj_static r dt s N k : trajectory r dt s N -> (k <= N)%nat -> stepwise (fun _ l l' => static l l') (s 0%nat) (s k).
Proof.
  intros HT. induction k as [|k IH]; intros Hk; [apply stepwise_self|].
  eapply stepwise_trans; [apply IH; lia|]. exact (step_static _ _ _ _ _ (HT k ltac:(lia))).
Qed.
Lemma stepwise_shape a b : stepwise (fun _ l l' => static l l') a b -> shape a b.
Proof.
  intros (E & L & P). rewrite E. apply shape_layers. apply pointwise_ids; [exact L|]. intros p l l' H1 H2. apply (static_fields l l'), (P _ _ _ H1 H2).
Qed.
Lemma stepwise_nth a b p l : stepwise (fun _ l l' => static l l') a b -> nth_error (j_layers a) p = Some l ->
  exists l', nth_error (j_layers b) p = Some l' /\ static l l'.
Proof.
  intros (E & L & P) H. destruct (nth_error_same_length _ _ _ _ L H) as [x Hx]. exists x. split; [exact Hx|exact (P _ _ _ H Hx)].
Qed.
Lemma named_shape a b : shape a b -> named a -> named b.
Proof.
  intros S (A & B & C). split; [exact (shape_tag _ _ S A)|]. split; [exact (shape_classic _ _ S B)|]. destruct S as (E & _). rewrite E. exact C.
Qed.
Lemma prepared_id l : l_id (prepared l) = l_id l.
Proof. unfold prepared. destruct (Req_EM_T _ _); reflexivity. Qed.
Lemma selects_shape mode N j j0 r used : selects mode N j j0 r used -> shape j j0.
Proof.
  intros (_ & -> & _). apply shape_layers. rewrite map_map. unfold ids. apply map_ext. intros l. apply prepared_id.
Qed.
Lemma selects_stepped mode N j j0 r used p l : selects mode N j j0 r used -> nth_error (j_layers j0) p = Some l -> stepped r p.
Proof.
  intros (_ & -> & _ & ->) Hp. cbn [j_layers set_j_layers] in Hp.
  assert (HL : (p < length (j_layers j))%nat) by (apply nth_error_Some; intros X; assert (Y : nth_error (map prepared (j_layers j)) p = None) by (apply nth_error_None; rewrite map_length; apply nth_error_None; exact X); congruence).
  unfold runner_table, stepped, layerNo. destruct used; try exact I; destruct (length (j_layers j)) as [|[|n]]; try exact I; lia.
Qed.
(** All layers are on the sphere after every step of a run. *)
Lemma run_normalised mode N j j0 r used dt s k p l :
  selects mode N j j0 r used -> s 0%nat = j0 -> trajectory r dt s N -> (0 < k <= N)%nat ->
  nth_error (j_layers (s k)) p = Some l -> UnitOrZero (l_mag l).
Proof.
  intros HS H0 HT Hk Hp. destruct k as [|k]; [lia|].
  assert (Hst : stepped r p).
  { destruct (traj_static _ _ _ _ (S k) HT ltac:(lia)) as (_ & L & _). destruct (nth_error_same_length _ _ _ _ (eq_sym L) Hp) as [x Hx].
    rewrite H0 in Hx. exact (selects_stepped _ _ _ _ _ _ _ _ HS Hx). }
  exact (step_normalised _ _ _ _ _ _ _ (HT k ltac:(lia)) Hst Hp).
Qed.
Lemma run_end_normalised T dt wf e mode j j' : runSimulation T dt wf e mode j = (j', Ok tt) -> 1 <= T / dt ->
  forall l, In l (j_layers j') -> UnitOrZero (l_mag l).
Proof.
  intros E HT l Hl. destruct (run_sound _ _ _ _ _ _ _ E) as (N & w & j0 & r & used & s & rows & HC & HS & H0 & Htr & _ & _ & Ej & _).
  assert (HN : (0 < N)%nat).
  { destruct HC as (_ & _ & [HI|[HI ->]] & _); [|lra]. destruct N; [cbn in HI; lra|lia]. }
  rewrite Ej in Hl. cbn [j_layers set_j_log] in Hl. apply In_nth_error in Hl. destruct Hl as [p Hp].
  exact (run_normalised _ _ _ _ _ _ _ _ N p l HS H0 Htr (conj HN (le_n N)) Hp).
Qed.
Lemma row_in_run N w k : N = 0%nat \/ (w > 0)%nat -> (k < rows_needed N w)%nat -> (S (k * w) <= N)%nat.
Proof.
  intros Hw Hk. destruct Hw as [->|Hw]; [|apply rows_needed_spec in Hk; [lia|exact Hw]].
  exfalso. unfold rows_needed in Hk. destruct w; [cbn in Hk; lia|]. rewrite Nat.div_small in Hk; lia.
Qed.
(** ** Columns *)
Lemma flat_map_single {A} (f : A -> list R) (xs : list A) (ys : list R) : length ys = length xs ->
  (forall k x y, nth_error xs k = Some x -> nth_error ys k = Some y -> f x = [y]) -> flat_map f xs = ys.
Proof.
  revert ys. induction xs as [|x xs IH]; intros [|y ys] HL H; try discriminate; [reflexivity|]. cbn [flat_map].
  rewrite (H 0%nat x y eq_refl eq_refl). cbn. f_equal. apply IH; [cbn in HL; congruence|]. intros k. exact (H (S k)).
Qed.
Lemma nth_error_map_seq {B} (f : nat -> B) n k : (k < n)%nat -> nth_error (map f (seq 0 n)) k = Some (f k).
Proof. intros H. rewrite nth_error_map, nth_error_seq0 by exact H. reflexivity. Qed.
(** The layer at position p in state k of a run. *)
Definition layer_at (s : nat -> junction) (p k : nat) (d : layer) : layer := nth p (j_layers (s k)) d.
Lemma run_columns T dt wf e mode j j' : named j -> runSimulation T dt wf e mode j = (j', Ok tt) ->
  exists N w j0 r used s, step_counts T dt wf N w /\ selects mode N j j0 r used /\ s 0%nat = j0 /\ trajectory r dt s N /\
    (N = 0%nat \/ (w > 0)%nat) /\ j' = set_j_log (j_log j') (j_logLength j + rows_needed N w) (s N) /\
    col "time" (j_log j') = (col "time" (j_log j) ++ map (fun k => INR (k * w) * dt) (seq 0 (rows_needed N w)))%list /\
    forall p l, nth_error (j_layers j) p = Some l ->
      forall T, us T = 0%nat ->
      col (colname (l_id l) T) (j_log j') = (col (colname (l_id l) T) (j_log j) ++
        flat_map (fun k => values T (tag_row e (layer_at s p (S (k * w)) l))) (seq 0 (rows_needed N w)))%list.
Proof.
  intros HN E. destruct (run_sound _ _ _ _ _ _ _ E) as (N & w & j0 & r & used & s & rows & HC & HS & H0 & Htr & Hw & [HR1 HR2] & Ej & Hcol).
  exists N, w, j0, r, used, s. split; [exact HC|]. split; [exact HS|]. split; [exact H0|]. split; [exact Htr|]. split; [exact Hw|].
  assert (Elog : j_log j0 = j_log j /\ j_logLength j0 = j_logLength j) by (destruct HS as (_ & -> & _); split; reflexivity).
  destruct Elog as [El1 El2]. rewrite El2, HR1 in Ej. split; [exact Ej|].
  assert (HK : forall k, (k < rows_needed N w)%nat -> (S (k * w) <= N)%nat).
  { intros k Hk. exact (row_in_run N w k Hw Hk). }
  assert (HSh : forall k, (k < rows_needed N w)%nat -> shape j (s (S (k * w)))).
  { intros k Hk. eapply shape_trans; [exact (selects_shape _ _ _ _ _ _ HS)|]. rewrite <- H0. apply stepwise_shape, (traj_static r dt s N); [exact Htr|apply HK, Hk]. }
  split.
  - rewrite Hcol, El1. f_equal. apply flat_map_single; [rewrite map_length, seq_length; congruence|].
    intros k row y Hrow Hy. assert (Hk : (k < rows_needed N w)%nat) by (rewrite <- HR1; apply nth_error_Some; congruence).
    rewrite nth_error_map_seq in Hy by exact Hk. injection Hy as <-. destruct (named_shape _ _ (HSh k Hk) HN) as (A & B & _).
    exact (values_time e _ _ _ A B (HR2 k row Hrow)).
  - intros p l Hl U HU. rewrite Hcol, El1. f_equal.
    assert (G : forall n, (n <= rows_needed N w)%nat ->
      flat_map (values (colname (l_id l) U)) (firstn n rows) = flat_map (fun k => values U (tag_row e (layer_at s p (S (k * w)) l))) (seq 0 n)).
    { induction n as [|n IH]; intros Hn; [reflexivity|]. rewrite seq_S, flat_map_app, <- IH by lia. cbn [flat_map Nat.add].
      destruct (nth_error rows n) as [row|] eqn:Er; [|apply nth_error_None in Er; lia].
      assert (F : firstn (S n) rows = (firstn n rows ++ [row])%list).
      { clear -Er. revert n Er. induction rows as [|x xs IH]; intros [|n] Er; try discriminate; cbn in *; [congruence|]. f_equal. apply IH, Er. }
      rewrite F, flat_map_app. cbn [flat_map]. f_equal. f_equal.
      assert (Hk : (n < rows_needed N w)%nat) by lia. destruct (named_shape _ _ (HSh n Hk) HN) as (A & B & C).
      assert (HP : exists l0, nth_error (j_layers j0) p = Some l0 /\ l_id l0 = l_id l).
      { destruct HS as (_ & -> & _). cbn [j_layers set_j_layers]. exists (prepared l). rewrite nth_error_map, Hl. split; [reflexivity|apply prepared_id]. }
      destruct HP as (l0 & Hl0 & Hid). pose proof (traj_static r dt s N (S (n * w)) Htr (HK n Hk)) as HW. rewrite H0 in HW.
      destruct (stepwise_nth _ _ _ _ HW Hl0) as (lk & Hlk & HSt). destruct (static_fields _ _ HSt) as (Hid' & _).
      unfold layer_at. rewrite (nth_error_nth _ _ _ Hlk). rewrite <- Hid, <- Hid'. exact (values_layer e _ _ _ p lk U A B C Hlk HU (HR2 n row Er)). }
    rewrite <- (firstn_all rows) at 1. rewrite HR1. apply G. lia.
Qed.
(** *** C05 *)
Lemma run_grid T dt wf e mode j j' : named j -> runSimulation T dt wf e mode j = (j', Ok tt) ->
  exists N w, step_counts T dt wf N w /\ (N = 0%nat \/ (w > 0)%nat) /\ j_logLength j' = (j_logLength j + rows_needed N w)%nat /\
    col "time" (j_log j') = (col "time" (j_log j) ++ map (fun k => INR (k * w) * dt) (seq 0 (rows_needed N w)))%list /\
    exists r used j0 s, selects mode N j j0 r used /\ s 0%nat = j0 /\ trajectory r dt s N /\ j_layers j' = j_layers (s N) /\
    forall p l, nth_error (j_layers j) p = Some l ->
      col (colname (l_id l) "mx") (j_log j') = (col (colname (l_id l) "mx") (j_log j) ++ map (fun k => cx (nth p (mags (j_layers (s (S (k * w))))) Zero)) (seq 0 (rows_needed N w)))%list /\
      col (colname (l_id l) "my") (j_log j') = (col (colname (l_id l) "my") (j_log j) ++ map (fun k => cy (nth p (mags (j_layers (s (S (k * w))))) Zero)) (seq 0 (rows_needed N w)))%list /\
      col (colname (l_id l) "mz") (j_log j') = (col (colname (l_id l) "mz") (j_log j) ++ map (fun k => cz (nth p (mags (j_layers (s (S (k * w))))) Zero)) (seq 0 (rows_needed N w)))%list.
Proof.
  intros HN E. destruct (run_columns _ _ _ _ _ _ _ HN E) as (N & w & j0 & r & used & s & HC & HS & H0 & Htr & Hw & Ej & HT & HL).
  exists N, w. split; [exact HC|]. split; [exact Hw|]. split; [rewrite Ej; reflexivity|]. split; [exact HT|]. exists r, used, j0, s.
  split; [exact HS|]. split; [exact H0|]. split; [exact Htr|]. split; [rewrite Ej; reflexivity|]. intros p l Hl.
  assert (HK : forall k, In k (seq 0 (rows_needed N w)) -> nth p (mags (j_layers (s (S (k * w))))) Zero = l_mag (layer_at s p (S (k * w)) l)).
  { intros k Hk. apply in_seq in Hk. assert (Hk' : (S (k * w) <= N)%nat).
    { apply (row_in_run N w k Hw). lia. }
    assert (HP : exists l0, nth_error (j_layers j0) p = Some l0).
    { destruct HS as (_ & -> & _). cbn [j_layers set_j_layers]. exists (prepared l). rewrite nth_error_map, Hl. reflexivity. }
    destruct HP as (l0 & Hl0). pose proof (traj_static r dt s N (S (k * w)) Htr Hk') as HW. rewrite H0 in HW.
    destruct (stepwise_nth _ _ _ _ HW Hl0) as (lk & Hlk & _). unfold layer_at. rewrite (nth_error_nth _ _ _ Hlk).
    apply nth_error_nth. unfold mags. rewrite nth_error_map, Hlk. reflexivity. }
  assert (M : forall (f : cvec -> R) U, (forall l, values U (tag_row e l) = [f (l_mag l)]) -> 
    flat_map (fun k => values U (tag_row e (layer_at s p (S (k * w)) l))) (seq 0 (rows_needed N w)) =
    map (fun k => f (nth p (mags (j_layers (s (S (k * w))))) Zero)) (seq 0 (rows_needed N w))).
  { intros f U HU. rewrite flat_map_concat_map.
    rewrite (map_ext_in _ (fun k => [f (nth p (mags (j_layers (s (S (k * w))))) Zero)])).
    - generalize (seq 0 (rows_needed N w)). induction l0 as [|a l0 IH]; [reflexivity|]. cbn. f_equal. exact IH.
    - intros k Hk. rewrite HU, (HK k Hk). reflexivity. }
  split; [|split].
  - rewrite (HL p l Hl "mx"%string eq_refl). f_equal. apply (M cx "mx"%string). intros k. apply values_m.
  - rewrite (HL p l Hl "my"%string eq_refl). f_equal. apply (M cy "my"%string). intros k. apply values_m.
  - rewrite (HL p l Hl "mz"%string eq_refl). f_equal. apply (M cz "mz"%string). intros k. apply values_m.
Qed.
(** *** C03, log part *)
Lemma run_log_normalised T dt wf e mode j j' p l : named j -> runSimulation T dt wf e mode j = (j', Ok tt) ->
  nth_error (j_layers j) p = Some l ->
  exists vs, Forall UnitOrZero vs /\ j_logLength j' = (j_logLength j + length vs)%nat /\
    col (colname (l_id l) "mx") (j_log j') = (col (colname (l_id l) "mx") (j_log j) ++ map cx vs)%list /\
    col (colname (l_id l) "my") (j_log j') = (col (colname (l_id l) "my") (j_log j) ++ map cy vs)%list /\
    col (colname (l_id l) "mz") (j_log j') = (col (colname (l_id l) "mz") (j_log j) ++ map cz vs)%list.
Proof.
  intros HN E Hl. destruct (run_grid _ _ _ _ _ _ _ HN E) as (N & w & HC & Hw & HLn & _ & r & used & j0 & s & HS & H0 & Htr & _ & HP).
  destruct (HP p l Hl) as (A & B & C). exists (map (fun k => nth p (mags (j_layers (s (S (k * w))))) Zero) (seq 0 (rows_needed N w))).
  rewrite map_length, seq_length, !map_map. split; [|auto].
  apply Forall_forall. intros v Hv. apply in_map_iff in Hv. destruct Hv as (k & <- & Hk). apply in_seq in Hk.
  assert (Hk' : (S (k * w) <= N)%nat) by (apply (row_in_run N w k Hw); lia).
  destruct (nth_error (mags (j_layers (s (S (k * w))))) p) as [v|] eqn:Ev.
  - rewrite (nth_error_nth _ _ _ Ev). unfold mags in Ev. rewrite nth_error_map in Ev.
    destruct (nth_error (j_layers (s (S (k * w)))) p) as [lk|] eqn:Ek; [|discriminate]. injection Ev as <-.
    exact (run_normalised _ _ _ _ _ _ _ _ (S (k * w)) p lk HS H0 Htr ltac:(lia) Ek).
  - rewrite nth_overflow by (apply nth_error_None; exact Ev). first [left; reflexivity | right; reflexivity].
Qed.

(** *** C07 *)
Lemma values_I l : l_includeSTT l || l_includeSOT l = true -> values "I" (tag_row true l) = [c_I_log (l_cache l); c_I_log (l_cache l)].
Proof. unfold tag_row. destruct (l_includeSTT l), (l_includeSOT l); intros H; try discriminate; reflexivity. Qed.
Lemma values_I_plain l : l_includeSTT l || l_includeSOT l = false -> values "I" (tag_row true l) = [c_I_log (l_cache l)].
Proof. unfold tag_row. destruct (l_includeSTT l), (l_includeSOT l); intros H; try discriminate; reflexivity. Qed.
Lemma values_tags l T : In T (energy_tags (l_includeSOT l)) -> length (values T (tag_row true l)) = 1%nat /\ us T = 0%nat.
Proof.
  unfold energy_tags, tag_row. destruct (l_includeSOT l), (l_includeSTT l); cbn [app In]; intros H;
  repeat (destruct H as [<-|H]; [split; reflexivity|]); destruct H.
Qed.
Lemma layer_at_static mode N j j0 r used dt s p l k : selects mode N j j0 r used -> s 0%nat = j0 -> trajectory r dt s N ->
  nth_error (j_layers j) p = Some l -> (k <= N)%nat -> nth_error (j_layers (s k)) p = Some (layer_at s p k l) /\ static (prepared l) (layer_at s p k l).
Proof.
  intros HS H0 Htr Hl Hk. assert (HP : nth_error (j_layers j0) p = Some (prepared l)).
  { destruct HS as (_ & -> & _). cbn [j_layers set_j_layers]. rewrite nth_error_map, Hl. reflexivity. }
  pose proof (traj_static r dt s N k Htr Hk) as HW. rewrite H0 in HW.
  destruct (stepwise_nth _ _ _ _ HW HP) as (lk & Hlk & HSt). unfold layer_at. rewrite (nth_error_nth _ _ _ Hlk). auto.
Qed.
Lemma prepared_fields l : l_includeSTT (prepared l) = l_includeSTT l /\ l_includeSOT (prepared l) = l_includeSOT l /\
  l_temperatureSet (prepared l) = l_temperatureSet l /\ l_rng (prepared l) = l_rng l /\ l_rpos (prepared l) = l_rpos l /\ l_nScale (prepared l) = l_nScale l.
Proof. unfold prepared. destruct (Req_EM_T _ _); repeat split. Qed.
Lemma run_energy_columns T dt wf mode j j' p l : named j -> runSimulation T dt wf true mode j = (j', Ok tt) ->
  nth_error (j_layers j) p = Some l -> l_includeSTT l || l_includeSOT l = true ->
  exists currents, j_logLength j' = (j_logLength j + length currents)%nat /\
    col (colname (l_id l) "I") (j_log j') = (col (colname (l_id l) "I") (j_log j) ++ flat_map (fun i => [i; i]) currents)%list /\
    length (col "time" (j_log j')) = (length (col "time" (j_log j)) + length currents)%nat /\
    forall tag, In tag (energy_tags (l_includeSOT l)) ->
      length (col (colname (l_id l) tag) (j_log j')) = (length (col (colname (l_id l) tag) (j_log j)) + length currents)%nat.
Proof.
  intros HN E Hl HT. destruct (run_columns _ _ _ _ _ _ _ HN E) as (N & w & j0 & r & used & s & HC & HS & H0 & Htr & Hw & Ej & Htime & HL).
  exists (map (fun k => c_I_log (l_cache (layer_at s p (S (k * w)) l))) (seq 0 (rows_needed N w))).
  rewrite map_length, seq_length. split; [rewrite Ej; reflexivity|].
  assert (F : forall k, In k (seq 0 (rows_needed N w)) -> l_includeSTT (layer_at s p (S (k * w)) l) = l_includeSTT l /\ l_includeSOT (layer_at s p (S (k * w)) l) = l_includeSOT l).
  { intros k Hk. apply in_seq in Hk. assert (Hk' : (S (k * w) <= N)%nat) by (apply (row_in_run N w k Hw); lia).
    destruct (layer_at_static _ _ _ _ _ _ _ _ _ _ _ HS H0 Htr Hl Hk') as [_ HSt]. destruct (static_fields _ _ HSt) as (_ & A & B & _).
    destruct (prepared_fields l) as (C & D & _). split; congruence. }
  split; [|split].
  - rewrite (HL p l Hl "I"%string eq_refl). f_equal. rewrite !flat_map_concat_map, map_map. f_equal. apply map_ext_in. intros k Hk.
    destruct (F k Hk) as [A B]. apply values_I. rewrite A, B. exact HT.
  - rewrite Htime, app_length, map_length, seq_length. reflexivity.
  - intros tag Htag. destruct (values_tags l tag Htag) as [_ U]. rewrite (HL p l Hl _ U), app_length. f_equal.
    assert (G : forall ks, (forall k, In k ks -> In k (seq 0 (rows_needed N w))) ->
       length (flat_map (fun k => values tag (tag_row true (layer_at s p (S (k * w)) l))) ks) = length ks).
    { induction ks as [|k ks IH]; intros Hks; [reflexivity|]. cbn [flat_map length]. rewrite app_length, IH by (intros; apply Hks; right; assumption).
      destruct (F k (Hks k (or_introl eq_refl))) as [A B]. rewrite <- B in Htag. rewrite (proj1 (values_tags _ tag Htag)). reflexivity. }
    rewrite G by auto. apply seq_length.
Qed.
(** Layers without torques keep a single entry per row. *)
Lemma run_plain_current T dt wf mode j j' p l : named j -> runSimulation T dt wf true mode j = (j', Ok tt) ->
  nth_error (j_layers j) p = Some l -> l_includeSTT l || l_includeSOT l = false ->
  exists currents, j_logLength j' = (j_logLength j + length currents)%nat /\
    col (colname (l_id l) "I") (j_log j') = (col (colname (l_id l) "I") (j_log j) ++ currents)%list.
Proof.
  intros HN E Hl HT. destruct (run_columns _ _ _ _ _ _ _ HN E) as (N & w & j0 & r & used & s & HC & HS & H0 & Htr & Hw & Ej & Htime & HL).
  exists (map (fun k => c_I_log (l_cache (layer_at s p (S (k * w)) l))) (seq 0 (rows_needed N w))).
  rewrite map_length, seq_length. split; [rewrite Ej; reflexivity|]. rewrite (HL p l Hl "I"%string eq_refl). f_equal.
  apply flat_map_single; [rewrite map_length; reflexivity|]. intros k x y Hx Hy.
  assert (Hin : In x (seq 0 (rows_needed N w))) by (eapply nth_error_In; exact Hx).
  rewrite nth_error_map, Hx in Hy. injection Hy as <-. apply values_I_plain.
  apply in_seq in Hin. assert (Hk' : (S (x * w) <= N)%nat) by (apply (row_in_run N w x Hw); lia).
  destruct (layer_at_static _ _ _ _ _ _ _ _ _ _ _ HS H0 Htr Hl Hk') as [_ HSt]. destruct (static_fields _ _ HSt) as (_ & A & B & _).
  destruct (prepared_fields l) as (C & D & _). rewrite A, B, C, D. exact HT.
Qed.
(** *** C08 *)
Lemma run_refused T dt wf e mode j : wf < dt -> exists msg, runSimulation T dt wf e mode j = (j, Err (Throw msg)).
Proof. intros H. unfold runSimulation. destruct (Rlt_dec wf dt); [eexists; reflexivity|contradiction]. Qed.

(** *** C11 *)
Lemma unit_dot_bounds a b : Unit a -> Unit b -> -1 <= Dot a b <= 1.
Proof.
  intros Ha Hb. assert (H := Norm2_nonneg (Plus a b)). assert (H2 := Norm2_nonneg (Plus a (Scal (-1) b))).
  unfold Unit in *. assert (E1 : Norm2 (Plus a b) = Norm2 a + Norm2 b + 2 * Dot a b) by (destruct a, b; vsimp; ring).
  assert (E2 : Norm2 (Plus a (Scal (-1) b)) = Norm2 a + Norm2 b - 2 * Dot a b) by (destruct a, b; vsimp; ring). lra.
Qed.
Lemma unit_dot_one a b : Unit a -> Unit b -> (Dot a b = 1 <-> a = b).
Proof.
  intros Ha Hb. split.
  - intros H. assert (E2 : Norm2 (Plus a (Scal (-1) b)) = Norm2 a + Norm2 b - 2 * Dot a b) by (destruct a, b; vsimp; ring).
    unfold Unit in *. assert (Z : Norm2 (Plus a (Scal (-1) b)) = 0) by lra. apply Norm2_zero in Z.
    destruct a as [a1 a2 a3], b as [b1 b2 b3]. unfold Plus, Scal, Zero in Z. cbn [cx cy cz] in Z. injection Z as Z1 Z2 Z3. f_equal; lra.
  - intros ->. exact Hb.
Qed.
Lemma unit_dot_minus a b : Unit a -> Unit b -> (Dot a b = -1 <-> a = Scal (-1) b).
Proof.
  intros Ha Hb. assert (HU : Unit (Scal (-1) b)) by (unfold Unit in *; rewrite Norm2_Scal; lra).
  rewrite <- (unit_dot_one a (Scal (-1) b) Ha HU), Dot_Scal. lra.
Qed.
Lemma gmr_range Rp Rap a b : Unit a -> Unit b -> Rp <= Rap -> Rp <= GMR Rp Rap (Dot a b) <= Rap.
Proof. intros Ha Hb H. assert (X := unit_dot_bounds a b Ha Hb). unfold GMR. nra. Qed.
Lemma gmr_parallel Rp Rap a b : Unit a -> Unit b -> Rp < Rap -> (GMR Rp Rap (Dot a b) = Rp <-> a = b) /\ (GMR Rp Rap (Dot a b) = Rap <-> a = Scal (-1) b).
Proof.
  intros Ha Hb H. rewrite <- (unit_dot_one a b Ha Hb), <- (unit_dot_minus a b Ha Hb). unfold GMR. split; split; intros X; nra.
Qed.
Lemma classic_resistance j l0 l1 : j_mode j = MR_CLASSIC -> j_layers j = [l0; l1] ->
  getMagnetoresistance j = Ok [GMR (j_Rp j) (j_Rap j) (Dot (l_mag l0) (l_mag l1))].
Proof. intros H1 H2. unfold getMagnetoresistance. rewrite H1, H2, gmr_eq, c_dot_Dot. reflexivity. Qed.
Lemma pinned_resistance j l0 : j_mode j = MR_CLASSIC -> j_layers j = [l0] ->
  getMagnetoresistance j = Ok [GMR (j_Rp j) (j_Rap j) (Dot (l_mag l0) (l_reference l0))].
Proof. intros H1 H2. unfold getMagnetoresistance. rewrite H1, H2, gmr_eq, c_dot_Dot. reflexivity. Qed.
(** *** C12 *)
Definition conductance (xs : list R) : R := fold_right (fun x a => / x + a) 0 xs.
Lemma conductance_pos xs : (forall x, In x xs -> 0 < x) -> 0 <= conductance xs.
Proof.
  induction xs as [|x xs IH]; intros H; cbn; [lra|]. assert (0 < / x) by (apply Rinv_0_lt_compat, H; left; reflexivity).
  assert (0 <= conductance xs) by (apply IH; intros; apply H; right; assumption). unfold conductance in *. lra.
Qed.
Lemma conductance_ge xs x : (forall y, In y xs -> 0 < y) -> In x xs -> / x <= conductance xs.
Proof.
  induction xs as [|y xs IH]; intros H HI; [destruct HI|]. destruct HI as [->|Hx]; cbn.
  - assert (0 <= conductance xs) by (apply conductance_pos; intros; apply H; right; assumption). unfold conductance in *. lra.
  - assert (0 < / y) by (apply Rinv_0_lt_compat, H; left; reflexivity).
    assert (/ x <= conductance xs) by (apply IH; [intros; apply H; right; assumption|exact Hx]). unfold conductance in *. lra.
Qed.
Lemma parallel_bounds xs r : ParallelOf xs r -> (forall x, In x xs -> 0 < x) -> 0 < r /\ forall x, In x xs -> r <= x.
Proof.
  intros (_ & H2 & ->) HP. fold (conductance xs) in *. assert (H := conductance_pos xs HP). assert (H3 : 0 < conductance xs) by lra.
  split; [apply Rinv_0_lt_compat, H3|]. intros x Hx. assert (Hg := conductance_ge xs x HP Hx).
  assert (0 < x) by (apply HP, Hx). rewrite <- (Rinv_inv x). apply Rinv_le_contravar; [apply Rinv_0_lt_compat; assumption|exact Hg].
Qed.
Lemma parallel_exists xs : (forall x, In x xs -> 0 < x) -> xs <> [] -> exists r, ParallelOf xs r.
Proof.
  intros HP HN. destruct xs as [|x xs]; [contradiction|]. assert (Hg := conductance_ge (x :: xs) x HP (or_introl eq_refl)).
  assert (0 < / x) by (apply Rinv_0_lt_compat, HP; left; reflexivity). unfold conductance in Hg.
  eexists. split; [|split; [|reflexivity]]; [intros y Hy; specialize (HP y Hy); lra|lra].
Qed.
(** *** C19 for runs *)
Lemma at_rest_prepared j : at_rest j -> map prepared (j_layers j) = j_layers j.
Proof.
  intros H. rewrite <- (map_id (j_layers j)) at 2. apply map_ext_in. intros l Hl. apply In_nth_error in Hl. destruct Hl as [p Hp].
  destruct (H p l Hp) as [_ [_ Hq]]. unfold prepared. destruct (Req_EM_T (l_nScale l) 0); [reflexivity|contradiction].
Qed.
Lemma rest_selects mode N j : at_rest j -> selects mode N j j (runner_table (layerNo j) mode) mode.
Proof.
  intros H. split; [|split; [|split; [|reflexivity]]].
  - intros l Hl. left. apply In_nth_error in Hl. destruct Hl as [p Hp]. apply (H p l Hp).
  - rewrite at_rest_prepared by exact H. symmetry. apply set_layers_id.
  - split; [|reflexivity]. intros (l & Hl & Hn). exfalso. apply In_nth_error in Hl. destruct Hl as [p Hp]. destruct (H p l Hp) as [_ [Ha Hb]].
    destruct Hn as [Hn|Hn]; congruence.
Qed.
Lemma rest_trajectory r dt j N s : at_rest j -> s 0%nat = j -> trajectory r dt s N -> (r = RunSingle -> layerNo j = 1%nat) -> 0 <= dt ->
  forall k, (k <= N)%nat -> at_rest (s k) /\ mags (j_layers (s k)) = mags (j_layers j).
Proof.
  intros HR H0 HT Hr Hd. induction k as [|k IH]; intros Hk.
  - rewrite H0. auto.
  - destruct IH as [A B]; [lia|]. specialize (HT k ltac:(lia)).
    assert (HL : r = RunSingle -> layerNo (s k) = 1%nat).
    { intros X. specialize (Hr X). unfold layerNo in *. assert (Y := f_equal (@length cvec) B). unfold mags in Y. rewrite !map_length in Y. congruence. }
    destruct (rest_step r (INR k * dt) dt (s k) A Hd HL) as (j1 & E1 & M1).
    assert (j1 = s (S k)) by congruence. subst j1. split; [exact (step_keeps_rest _ _ _ _ _ A HT M1)|congruence].
Qed.
Lemma rest_run T dt wf e mode j j' : at_rest j -> 0 <= dt -> runSimulation T dt wf e mode j = (j', Ok tt) ->
  mags (j_layers j') = mags (j_layers j) /\
  (named j -> forall p l, nth_error (j_layers j) p = Some l ->
     exists n, j_logLength j' = (j_logLength j + n)%nat /\
     col (colname (l_id l) "mx") (j_log j') = (col (colname (l_id l) "mx") (j_log j) ++ repeat (cx (l_mag l)) n)%list /\
     col (colname (l_id l) "my") (j_log j') = (col (colname (l_id l) "my") (j_log j) ++ repeat (cy (l_mag l)) n)%list /\
     col (colname (l_id l) "mz") (j_log j') = (col (colname (l_id l) "mz") (j_log j) ++ repeat (cz (l_mag l)) n)%list).
Proof.
  intros HR Hd E.
  assert (HX : forall N r used j0, selects mode N j j0 r used -> j0 = j /\ (r = RunSingle -> layerNo j = 1%nat)).
  { intros N r used j0 (_ & -> & _ & ->). split; [rewrite at_rest_prepared by exact HR; apply set_layers_id|].
    unfold runner_table. destruct used; try discriminate; destruct (layerNo j) as [|[|n]]; try discriminate; reflexivity. }
  split.
  - destruct (run_sound _ _ _ _ _ _ _ E) as (N & w & j0 & r & used & s & rows & HC & HS & H0 & Htr & _ & _ & Ej & _).
    destruct (HX _ _ _ _ HS) as [-> Hr]. rewrite Ej. cbn [j_layers set_j_log].
    apply (rest_trajectory r dt j N s HR H0 Htr Hr Hd N). lia.
  - intros HN p l Hl. destruct (run_grid _ _ _ _ _ _ _ HN E) as (N & w & HC & Hw & HLn & _ & r & used & j0 & s & HS & H0 & Htr & _ & HP).
    destruct (HX _ _ _ _ HS) as [-> Hr]. exists (rows_needed N w). split; [exact HLn|]. destruct (HP p l Hl) as (A & B & C).
    assert (M : forall k, In k (seq 0 (rows_needed N w)) -> nth p (mags (j_layers (s (S (k * w))))) Zero = l_mag l).
    { intros k Hk. apply in_seq in Hk. assert (Hk' : (S (k * w) <= N)%nat) by (apply (row_in_run N w k Hw); lia).
      rewrite (proj2 (rest_trajectory r dt j N s HR H0 Htr Hr Hd _ Hk')). apply nth_error_nth. unfold mags. rewrite nth_error_map, Hl. reflexivity. }
    assert (G : forall f : cvec -> R, map (fun k => f (nth p (mags (j_layers (s (S (k * w))))) Zero)) (seq 0 (rows_needed N w)) = repeat (f (l_mag l)) (rows_needed N w)).
    { intros f. rewrite (map_ext_in _ (fun _ => f (l_mag l))) by (intros k Hk; rewrite (M k Hk); reflexivity).
      generalize (rows_needed N w) 0%nat. induction n as [|n IH]; intros a; [reflexivity|]. cbn. f_equal. apply IH. }
    rewrite A, B, C. rewrite (G cx), (G cy), (G cz). auto.
Qed.
(** Runs of a resting junction exist. *)
Lemma rest_run_exists T dt wf e mode j N w : at_rest j -> 0 <= dt -> j_layers j <> [] -> j_mode j <> MR_STRIP -> step_counts T dt wf N w -> (w > 0)%nat ->
  exists j', runSimulation T dt wf e mode j = (j', Ok tt).
Proof.
  intros HR Hd HN HM HC Hw. pose proof (rest_selects mode N j HR) as HS. set (r := runner_table (layerNo j) mode) in *.
  assert (Hr : r = RunSingle -> layerNo j = 1%nat).
  { unfold r, runner_table. destruct mode; try discriminate; destruct (layerNo j) as [|[|n]]; try discriminate; reflexivity. }
  assert (TR : forall M, exists s, s 0%nat = j /\ trajectory r dt s M).
  { induction M as [|M (s & H0 & HT)]; [exists (fun _ => j); split; [reflexivity|intros k Hk; lia]|].
    destruct (rest_trajectory r dt j M s HR H0 HT Hr Hd M (le_n M)) as [A B].
    assert (HL : r = RunSingle -> layerNo (s M) = 1%nat).
    { intros X. specialize (Hr X). unfold layerNo in *. assert (Y := f_equal (@length cvec) B). unfold mags in Y. rewrite !map_length in Y. congruence. }
    destruct (rest_step r (INR M * dt) dt (s M) A Hd HL) as (j1 & E1 & _).
    exists (fun k => if Nat.leb k M then s k else j1). split; [cbn; exact H0|]. intros k Hk.
    destruct (Nat.eq_dec k M) as [->|Hne].
    - rewrite (proj2 (Nat.leb_le M M)) by lia. rewrite (proj2 (Nat.leb_gt (S M) M)) by lia. exact E1.
    - rewrite (proj2 (Nat.leb_le k M)) by lia. rewrite (proj2 (Nat.leb_le (S k) M)) by lia. apply HT. lia. }
  destruct (TR N) as (s & H0 & HT). refine (run_complete _ _ _ e mode j N w j r mode s HC HS Hw (fun X => False_ind _ (HM X)) H0 HT _).
  intros k Hk. assert (Hk' : (S (k * w) <= N)%nat) by (apply (row_in_run N w k (or_intror Hw)); exact Hk).
  assert (Hmode : j_mode (s (S (k * w))) = j_mode j).
  { pose proof (traj_static _ _ _ _ _ HT Hk') as HW. rewrite H0 in HW. destruct (stepwise_shape _ _ HW) as (_ & X & _). exact X. }
  unfold log_row, resistance_row. destruct (j_mode (s (S (k * w)))); [|destruct (j_layers (s (S (k * w)))) as [|? [|? ?]]|congruence];
  eexists; eexists; (split; [reflexivity|reflexivity]).
Qed.
(** *** C57: the thermal stream *)
Lemma advance_rpos l : l_rng (advance_noise l) = l_rng l /\ l_rpos (advance_noise l) = (if l_temperatureSet l then l_rpos l + 3 else l_rpos l)%nat /\ l_temperatureSet (advance_noise l) = l_temperatureSet l.
Proof. repeat split. Qed.
Lemma step_rpos r t dt j j' p l l' : r = RunHeun \/ r = RunEulerHeun -> run_runner r t dt j = (j', Ok tt) ->
  nth_error (j_layers j) p = Some l -> nth_error (j_layers j') p = Some l' -> l_temperatureSet l = true ->
  l_rng l' = l_rng l /\ l_rpos l' = (l_rpos l + 3)%nat /\ l_temperatureSet l' = true.
Proof.
  intros [-> | ->] E H1 H2 HT; cbn [run_runner] in E.
  - apply heun_sound in E. destruct E as (ws & ps & _ & _ & _ & _ & HP). destruct (HP _ _ _ H1 H2) as (w & q & c & _ & _ & _ & _ & _ & E). rewrite E.
    change (l_rng (advance_noise l) = l_rng l /\ l_rpos (advance_noise l) = (l_rpos l + 3)%nat /\ l_temperatureSet (advance_noise l) = true).
    destruct (advance_rpos l) as (A & B & C). rewrite HT in B. rewrite A, B, C. auto.
  - apply eh_sound in E. destruct E as (_ & _ & HP). destruct (HP _ _ _ H1 H2) as (w & c & _ & _ & E). rewrite E.
    change (l_rng (advance_noise l) = l_rng l /\ l_rpos (advance_noise l) = (l_rpos l + 3)%nat /\ l_temperatureSet (advance_noise l) = true).
    destruct (advance_rpos l) as (A & B & C). rewrite HT in B. rewrite A, B, C. auto.
Qed.
Lemma static_sd l l' t sd : static l l' -> thermal_sd l' t sd <-> thermal_sd l t sd.
Proof. intros (m & c & rp & bf & ->). reflexivity. Qed.
Lemma prepared_sd l t sd : thermal_sd (prepared l) t sd <-> thermal_sd l t sd.
Proof. unfold prepared. destruct (Req_EM_T _ _); reflexivity. Qed.
Lemma thermal_along mode N j j0 r used dt s p l : selects mode N j j0 r used -> s 0%nat = j0 -> trajectory r dt s N ->
  nth_error (j_layers j) p = Some l -> l_temperatureSet l = true -> forall k, (k <= N)%nat ->
  l_rng (layer_at s p k l) = l_rng l /\ l_rpos (layer_at s p k l) = (l_rpos l + 3 * k)%nat /\ l_temperatureSet (layer_at s p k l) = true.
Proof.
  intros HS H0 Htr Hl HT.
  assert (Hr : r = RunHeun \/ r = RunEulerHeun).
  { destruct HS as (_ & _ & [HM _] & ->). rewrite HM by (exists l; split; [eapply nth_error_In; exact Hl|left; exact HT]).
    destruct mode; cbn; auto. }
  induction k as [|k IH]; intros Hk.
  - assert (HP : nth_error (j_layers j0) p = Some (prepared l)).
    { destruct HS as (_ & -> & _). cbn [j_layers set_j_layers]. rewrite nth_error_map, Hl. reflexivity. }
    unfold layer_at. rewrite H0, (nth_error_nth _ _ _ HP). destruct (prepared_fields l) as (_ & _ & A & B & C & _). rewrite A, B, C. repeat split; [lia|exact HT].
  - destruct IH as (A & B & C); [lia|].
    destruct (layer_at_static _ _ _ _ _ _ _ _ _ _ _ HS H0 Htr Hl (proj2 (Nat.le_succ_l k N) ltac:(lia))) as [X _].
    destruct (layer_at_static _ _ _ _ _ _ _ _ _ _ k HS H0 Htr Hl ltac:(lia)) as [Y _].
    destruct (step_rpos _ _ _ _ _ _ _ _ Hr (Htr k ltac:(lia)) Y X C) as (D & F & G). rewrite D, F, A, B. repeat split; [lia|exact G].
Qed.
Lemma thermal_at mode N j j0 r used dt s p l k : selects mode N j j0 r used -> s 0%nat = j0 -> trajectory r dt s N ->
  nth_error (j_layers j) p = Some l -> l_temperatureSet l = true -> (k <= N)%nat ->
  exists lk, nth_error (j_layers (s k)) p = Some lk /\
    forall t v, thermal_part lk t v <-> exists sd, thermal_sd l t sd /\ v = Scal sd (gaussians l k).
Proof.
  intros HS H0 Htr Hl HT Hk. destruct (layer_at_static _ _ _ _ _ _ _ _ _ _ k HS H0 Htr Hl Hk) as [X Y].
  destruct (thermal_along _ _ _ _ _ _ _ _ _ _ HS H0 Htr Hl HT k Hk) as (A & B & C).
  exists (layer_at s p k l). split; [exact X|]. intros t v. unfold thermal_part. rewrite C, A, B. unfold gaussians.
  split; intros (sd & H1 & H2); exists sd; (split; [|exact H2]); rewrite (static_sd _ _ _ _ Y), prepared_sd in *; exact H1.
Qed.
Lemma run_thermal T dt wf e mode j j' p l : runSimulation T dt wf e mode j = (j', Ok tt) ->
  nth_error (j_layers j) p = Some l -> l_temperatureSet l = true ->
  exists N w j0 r used s, step_counts T dt wf N w /\ selects mode N j j0 r used /\ s 0%nat = j0 /\ trajectory r dt s N /\
    (forall k, (k <= N)%nat -> exists lk, nth_error (j_layers (s k)) p = Some lk /\
      forall t v, thermal_part lk t v <-> exists sd, thermal_sd l t sd /\ v = Scal sd (gaussians l k)) /\
    exists l', nth_error (j_layers j') p = Some l' /\ l_rng l' = l_rng l /\ l_rpos l' = (l_rpos l + 3 * N)%nat.
Proof.
  intros E Hl HT. destruct (run_sound _ _ _ _ _ _ _ E) as (N & w & j0 & r & used & s & rows & HC & HS & H0 & Htr & _ & _ & Ej & _).
  exists N, w, j0, r, used, s. split; [exact HC|]. split; [exact HS|]. split; [exact H0|]. split; [exact Htr|]. split.
  - intros k Hk. exact (thermal_at _ _ _ _ _ _ _ _ _ _ _ HS H0 Htr Hl HT Hk).
  - destruct (layer_at_static _ _ _ _ _ _ _ _ _ _ N HS H0 Htr Hl (le_n N)) as [X _].
    destruct (thermal_along _ _ _ _ _ _ _ _ _ _ HS H0 Htr Hl HT N (le_n N)) as (A & B & _).
    exists (layer_at s p N l). rewrite Ej. auto.
Qed.
(** Deterministic Euler-Heun never leaves the sphere, not even to zero. *)
Lemma quiet_euler_unit l t dt b top m' : Unit (l_mag l) -> EulerHeun_scheme l t dt b top Zero m' -> Unit m'.
Proof.
  intros HU (Hd & f & (i & _ & _ & _ & HF) & H). cbv zeta beta in H. rewrite !plain_no_field, !Plus_Zero_r, !Scal_Zero, !Plus_Zero_r in H.
  apply llg_spec_tangent in HF. assert (E : Norm2 (Plus (l_mag l) (Scal dt f)) = Norm2 (l_mag l) + 2 * dt * Dot (l_mag l) f + dt * dt * Norm2 f).
  { generalize (l_mag l). intros m. destruct m, f; vsimp; ring. }
  unfold Unit in *. rewrite HF, HU in E. assert (X := Norm2_nonneg f).
  destruct H as [[H _]|[H ->]].
  - rewrite H in E. assert (Y : Norm2 Zero = 0) by (vsimp; ring). rewrite Y in E. nra.
  - rewrite <- vnormalize_nonzero by exact H. apply vnormalize_unit. exact H.
Qed.
