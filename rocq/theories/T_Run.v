(** Properties C03, C05, C07, C08, C11-C14, C19 and C57 of whole runs of a junction. *)
From Verif Require Import P_RunEx.
Open Scope R_scope.
Open Scope st_scope.

(** A run that succeeds, for all solvers, with and without energies; used by several examples below. *)
Example run_example : forall e mode, exists j', runSimulation 10 1 2 e mode (ex_junction 3 (CV 1 2 3)) = (j', Ok tt).
Proof. intros. apply ex_junction_runs. Qed.
Example run_example_named : named (ex_junction 3 (CV 1 2 3)) /\ Junction_classic (ex_pair 3 (CV 1 2 3)) 100 200 = Ok (ex_junction 3 (CV 1 2 3)).
Proof. split; [apply ex_junction_named|apply ex_junction_constructed]. Qed.

(** The whole run: preparation, step counts, trajectory, rows. *)
Theorem c05_run_characterised : forall T dt wf e mode j j', runSimulation T dt wf e mode j = (j', Ok tt) ->
  exists N w j0 r used s rows, step_counts T dt wf N w /\ selects mode N j j0 r used /\
    run_effect e dt r j0 j' N w s rows.
Proof. exact run_sound. Qed.
Print Assumptions c05_run_characterised.
Theorem c05_run_succeeds : forall T dt wf e mode j N w j0 r used s,
  step_counts T dt wf N w -> selects mode N j j0 r used -> (w > 0)%nat -> (j_mode j = MR_STRIP -> strip_sized j) ->
  s 0%nat = j0 -> trajectory r dt s N ->
  (forall k, (k < rows_needed N w)%nat -> exists row, log_row e (s (S (k * w))) (INR (k * w) * dt) row) ->
  exists j', runSimulation T dt wf e mode j = (j', Ok tt).
Proof. exact run_complete. Qed.
Print Assumptions c05_run_succeeds.
(** C05.  The time column is extended by the grid k w dt, k < ceil (N / w), and row k holds the state
    after the step taken at that time. *)
Theorem c05_time_grid : forall T dt wf e mode j j', named j -> runSimulation T dt wf e mode j = (j', Ok tt) ->
  exists N w, step_counts T dt wf N w /\ (N = 0%nat \/ (w > 0)%nat) /\
    j_logLength j' = (j_logLength j + rows_needed N w)%nat /\
    col "time" (j_log j') = (col "time" (j_log j) ++ map (fun k => INR (k * w) * dt) (seq 0 (rows_needed N w)))%list /\
    exists r used j0 s, selects mode N j j0 r used /\ s 0%nat = j0 /\ trajectory r dt s N /\ j_layers j' = j_layers (s N) /\
    forall p l, nth_error (j_layers j) p = Some l ->
      col (colname (l_id l) "mx") (j_log j') = (col (colname (l_id l) "mx") (j_log j) ++ map (fun k => cx (nth p (mags (j_layers (s (S (k * w))))) Zero)) (seq 0 (rows_needed N w)))%list /\
      col (colname (l_id l) "my") (j_log j') = (col (colname (l_id l) "my") (j_log j) ++ map (fun k => cy (nth p (mags (j_layers (s (S (k * w))))) Zero)) (seq 0 (rows_needed N w)))%list /\
      col (colname (l_id l) "mz") (j_log j') = (col (colname (l_id l) "mz") (j_log j) ++ map (fun k => cz (nth p (mags (j_layers (s (S (k * w))))) Zero)) (seq 0 (rows_needed N w)))%list.
Proof. exact run_grid. Qed.
Print Assumptions c05_time_grid.
(** The number of rows is the least number of w-blocks covering N steps. *)
Theorem c05_row_count : forall N w, (w > 0)%nat ->
  (N <= rows_needed N w * w)%nat /\ forall m, (N <= m * w)%nat -> (rows_needed N w <= m)%nat.
Proof. exact rows_needed_least. Qed.
Print Assumptions c05_row_count.
Example c05_example : step_counts 10 1 2 10 2 /\ rows_needed 10 2 = 5%nat.
Proof. split; [exact counts_10_2|reflexivity]. Qed.

(** C03 for runs: final state and all logged rows. *)
Theorem c03_run_normalised : forall T dt wf e mode j j', runSimulation T dt wf e mode j = (j', Ok tt) -> 1 <= T / dt ->
  forall l, In l (j_layers j') -> UnitOrZero (l_mag l).
Proof. exact run_end_normalised. Qed.
Print Assumptions c03_run_normalised.
Theorem c03_log_normalised : forall T dt wf e mode j j' p l, named j -> runSimulation T dt wf e mode j = (j', Ok tt) ->
  nth_error (j_layers j) p = Some l ->
  exists vs, Forall UnitOrZero vs /\ j_logLength j' = (j_logLength j + length vs)%nat /\
    col (colname (l_id l) "mx") (j_log j') = (col (colname (l_id l) "mx") (j_log j) ++ map cx vs)%list /\
    col (colname (l_id l) "my") (j_log j') = (col (colname (l_id l) "my") (j_log j) ++ map cy vs)%list /\
    col (colname (l_id l) "mz") (j_log j') = (col (colname (l_id l) "mz") (j_log j) ++ map cz vs)%list.
Proof. exact run_log_normalised. Qed.
Print Assumptions c03_log_normalised.
Example c03_run_example : forall e mode, (exists j', runSimulation 10 1 2 e mode ex_hot_junction = (j', Ok tt)) /\ named ex_hot_junction.
Proof. intros. split; [apply ex_hot_runs|exact ex_hot_named]. Qed.

(** C07.  With energies requested, the current column of a torque layer grows by two entries per row. *)
Theorem c07_current_duplicated : forall T dt wf mode j j' p l, named j -> runSimulation T dt wf true mode j = (j', Ok tt) ->
  nth_error (j_layers j) p = Some l -> l_includeSTT l || l_includeSOT l = true ->
  exists currents, j_logLength j' = (j_logLength j + length currents)%nat /\
    col (colname (l_id l) "I") (j_log j') = (col (colname (l_id l) "I") (j_log j) ++ flat_map (fun i => [i; i]) currents)%list /\
    length (col "time" (j_log j')) = (length (col "time" (j_log j)) + length currents)%nat /\
    forall tag, In tag (energy_tags (l_includeSOT l)) ->
      length (col (colname (l_id l) tag) (j_log j')) = (length (col (colname (l_id l) tag) (j_log j)) + length currents)%nat.
Proof. exact run_energy_columns. Qed.
Print Assumptions c07_current_duplicated.
Theorem c07_plain_current : forall T dt wf mode j j' p l, named j -> runSimulation T dt wf true mode j = (j', Ok tt) ->
  nth_error (j_layers j) p = Some l -> l_includeSTT l || l_includeSOT l = false ->
  exists currents, j_logLength j' = (j_logLength j + length currents)%nat /\
    col (colname (l_id l) "I") (j_log j') = (col (colname (l_id l) "I") (j_log j) ++ currents)%list.
Proof. exact run_plain_current. Qed.
Print Assumptions c07_plain_current.
Example c07_example : forall mode, named ex_hot_junction /\ (exists j', runSimulation 10 1 2 true mode ex_hot_junction = (j', Ok tt)) /\
  nth_error (j_layers ex_hot_junction) 0 = Some (ex_hot "free") /\ l_includeSTT (ex_hot "free") || l_includeSOT (ex_hot "free") = true.
Proof. intros. split; [exact ex_hot_named|]. split; [apply ex_hot_runs|]. split; reflexivity. Qed.

(** C08.  Refused before anything is touched. *)
Theorem c08_write_frequency : forall T dt wf e mode j, wf < dt -> exists msg, runSimulation T dt wf e mode j = (j, Err (Throw msg)).
Proof. exact run_refused. Qed.
Print Assumptions c08_write_frequency.
Example c08_example : 1 / 2 < 1 /\ layerNo (ex_junction 3 (CV 1 2 3)) = 2%nat.
Proof. split; [lra|reflexivity]. Qed.

(** C11.  Giant magnetoresistance. *)
Theorem c11_two_layers : forall j l0 l1, j_mode j = MR_CLASSIC -> j_layers j = [l0; l1] ->
  getMagnetoresistance j = Ok [GMR (j_Rp j) (j_Rap j) (Dot (l_mag l0) (l_mag l1))].
Proof. exact classic_resistance. Qed.
Print Assumptions c11_two_layers.
Theorem c11_one_layer : forall j l0, j_mode j = MR_CLASSIC -> j_layers j = [l0] ->
  getMagnetoresistance j = Ok [GMR (j_Rp j) (j_Rap j) (Dot (l_mag l0) (l_reference l0))].
Proof. exact pinned_resistance. Qed.
Print Assumptions c11_one_layer.
Theorem c11_range : forall Rp Rap a b, Unit a -> Unit b -> Rp <= Rap -> Rp <= GMR Rp Rap (Dot a b) <= Rap.
Proof. exact gmr_range. Qed.
Print Assumptions c11_range.
Theorem c11_extremes : forall Rp Rap a b, Unit a -> Unit b -> Rp < Rap ->
  (GMR Rp Rap (Dot a b) = Rp <-> a = b) /\ (GMR Rp Rap (Dot a b) = Rap <-> a = Scal (-1) b).
Proof. exact gmr_parallel. Qed.
Print Assumptions c11_extremes.
(** The pinned reference is not normalised: with a longer one the resistance leaves the range. *)
Theorem c11_pinned_range_refuted : exists j l r, Junction_classic [l] 100 200 = Ok j /\ Unit (l_mag l) /\
  getMagnetoresistance j = Ok [r] /\ r > 200.
Proof. exact ex_long_range. Qed.
Print Assumptions c11_pinned_range_refuted.
Example c11_example : Unit (CV (3 / 5) (4 / 5) 0) /\ Unit (CV 0 0 1) /\ GMR 100 200 (Dot (CV (3 / 5) (4 / 5) 0) (CV 0 1 0)) = 110.
Proof. unfold Unit, GMR. repeat split; vsimp; lra. Qed.

(** C12.  Strips. *)
Theorem c12_strip : forall j rs, stripMagnetoResistance j = Ok rs ->
  exists rx ry, ParallelOf (mapi (strip_long j) 0 (j_layers j)) rx /\ ParallelOf (mapi (strip_trans j) 0 (j_layers j)) ry /\
    rs = [rx; ry; 0].
Proof. exact strip_sound. Qed.
Print Assumptions c12_strip.
Theorem c12_strip_defined : forall j rx ry, strip_sized j ->
  ParallelOf (mapi (strip_long j) 0 (j_layers j)) rx -> ParallelOf (mapi (strip_trans j) 0 (j_layers j)) ry ->
  stripMagnetoResistance j = Ok [rx; ry; 0].
Proof. exact strip_complete. Qed.
Print Assumptions c12_strip_defined.
(** Reading the resistance of a strip junction gives exactly that. *)
Theorem c12_reading : forall j rs, j_mode j = MR_STRIP ->
  (getMagnetoresistance j = Ok rs -> exists rx ry, ParallelOf (mapi (strip_long j) 0 (j_layers j)) rx /\
     ParallelOf (mapi (strip_trans j) 0 (j_layers j)) ry /\ rs = [rx; ry; 0]) /\
  (forall rx ry, strip_sized j -> ParallelOf (mapi (strip_long j) 0 (j_layers j)) rx ->
     ParallelOf (mapi (strip_trans j) 0 (j_layers j)) ry -> getMagnetoresistance j = Ok [rx; ry; 0]).
Proof. exact strip_reading. Qed.
Print Assumptions c12_reading.
Theorem c12_parallel_bounds : forall xs r, ParallelOf xs r -> (forall x, In x xs -> 0 < x) ->
  0 < r /\ forall x, In x xs -> r <= x.
Proof. exact parallel_bounds. Qed.
Print Assumptions c12_parallel_bounds.
Theorem c12_parallel_exists : forall xs, (forall x, In x xs -> 0 < x) -> xs <> [] -> exists r, ParallelOf xs r.
Proof. exact parallel_exists. Qed.
Print Assumptions c12_parallel_exists.
Example c12_example : Junction_strip (ex_pair 0 Zero) [100; 200] [50; 60] [10; 10] [5; 5] [1; 1] [2; 2] [3; 3] = Ok ex_strip /\
  strip_sized ex_strip /\
  forall x, In x (mapi (strip_long ex_strip) 0 (j_layers ex_strip)) \/ In x (mapi (strip_trans ex_strip) 0 (j_layers ex_strip)) -> 0 < x.
Proof. split; [exact ex_strip_constructed|]. split; [repeat split|exact ex_strip_positive]. Qed.

(** C13.  Solver selection, exactly. *)
Theorem c13_selection : forall mode N j j0 r used, getSolver mode N j = (j0, Ok (r, used)) <-> selects mode N j j0 r used.
Proof. exact getSolver_iff. Qed.
Print Assumptions c13_selection.
(** Dormand-Prince requests run the same code as RK4 requests. *)
Theorem c13_dormand_prince_is_rk4 : forall T dt wf e j,
  runSimulation T dt wf e DORMAND_PRICE j = runSimulation T dt wf e RK4 j.
Proof. exact dormand_is_rk4. Qed.
Print Assumptions c13_dormand_prince_is_rk4.
Example c13_example : selects RK4 10 ex_hot_junction ex_hot_junction RunEulerHeun EULER_HEUN /\
  selects DORMAND_PRICE 10 (ex_junction 3 Zero) (ex_junction 3 Zero) RunMulti DORMAND_PRICE.
Proof. exact ex_selects. Qed.

(** C14.  Other random streams change nothing but the streams themselves. *)
Theorem c14_deterministic : forall T dt wf e mode j j' ks r, Forall quiet (j_layers j) -> Forall2 reseeded (j_layers j) ks ->
  runSimulation T dt wf e mode j = (j', r) ->
  exists ks', runSimulation T dt wf e mode (set_j_layers ks j) = (set_j_layers ks' j', r) /\
    Forall2 reseeded (j_layers j') ks' /\ mags ks' = mags (j_layers j').
Proof. exact quiet_run. Qed.
Print Assumptions c14_deterministic.
Example c14_example : Forall quiet (j_layers (ex_junction 3 Zero)) /\
  Forall2 reseeded (j_layers (ex_junction 3 Zero)) (map (set_l_rng (fun n => INR n)) (j_layers (ex_junction 3 Zero))).
Proof.
  split; [repeat constructor|]. constructor; [|constructor; [|constructor]];
  exists (fun n => INR n); do 4 eexists; reflexivity.
Qed.

(** C19 for runs. *)
Theorem c19_rest_run : forall T dt wf e mode j j', at_rest j -> 0 <= dt -> runSimulation T dt wf e mode j = (j', Ok tt) ->
  mags (j_layers j') = mags (j_layers j) /\
  (named j -> forall p l, nth_error (j_layers j) p = Some l ->
     exists n, j_logLength j' = (j_logLength j + n)%nat /\
     col (colname (l_id l) "mx") (j_log j') = (col (colname (l_id l) "mx") (j_log j) ++ repeat (cx (l_mag l)) n)%list /\
     col (colname (l_id l) "my") (j_log j') = (col (colname (l_id l) "my") (j_log j) ++ repeat (cy (l_mag l)) n)%list /\
     col (colname (l_id l) "mz") (j_log j') = (col (colname (l_id l) "mz") (j_log j) ++ repeat (cz (l_mag l)) n)%list).
Proof. exact rest_run. Qed.
Print Assumptions c19_rest_run.
Example c19_run_example : forall e mode, at_rest (ex_rest 3 7) /\ exists j', runSimulation 10 1 2 e mode (ex_rest 3 7) = (j', Ok tt).
Proof.
  intros. split; [apply ex_rest_at_rest|].
  apply (rest_run_exists _ _ _ _ _ _ 10 2); [apply ex_rest_at_rest|lra|discriminate|discriminate|exact counts_10_2|lia].
Qed.

(** C57.  The k-th step's thermal field is the k-th triple of the layer's own stream, scaled; so equal
    streams give equal sequences, in one junction or in two. *)
Theorem c57_thermal_sequence : forall T dt wf e mode j j' p l, runSimulation T dt wf e mode j = (j', Ok tt) ->
  nth_error (j_layers j) p = Some l -> l_temperatureSet l = true ->
  exists N w j0 r used s, step_counts T dt wf N w /\ selects mode N j j0 r used /\ s 0%nat = j0 /\ trajectory r dt s N /\
    (forall k, (k <= N)%nat -> exists lk, nth_error (j_layers (s k)) p = Some lk /\
      forall t v, thermal_part lk t v <-> exists sd, thermal_sd l t sd /\ v = Scal sd (gaussians l k)) /\
    exists l', nth_error (j_layers j') p = Some l' /\ l_rng l' = l_rng l /\ l_rpos l' = (l_rpos l + 3 * N)%nat.
Proof. exact run_thermal. Qed.
Print Assumptions c57_thermal_sequence.
Theorem c57_shared_noise : forall T dt wf e mode j j' p q a b, runSimulation T dt wf e mode j = (j', Ok tt) ->
  nth_error (j_layers j) p = Some a -> nth_error (j_layers j) q = Some b ->
  l_temperatureSet a = true -> l_temperatureSet b = true -> l_rng a = l_rng b -> l_rpos a = l_rpos b ->
  exists N w j0 r used s, step_counts T dt wf N w /\ selects mode N j j0 r used /\ s 0%nat = j0 /\ trajectory r dt s N /\
    forall k, (k <= N)%nat -> exists ak bk, nth_error (j_layers (s k)) p = Some ak /\ nth_error (j_layers (s k)) q = Some bk /\
      forall t va vb, thermal_part ak t va -> thermal_part bk t vb ->
        exists sa sb g, va = Scal sa g /\ vb = Scal sb g /\ thermal_sd a t sa /\ thermal_sd b t sb.
Proof. exact shared_noise. Qed.
Print Assumptions c57_shared_noise.
Example c57_example : forall e mode, exists j j', Junction_plain [ex_hot "a"; ex_hot "b"] = Ok j /\
  runSimulation 10 1 2 e mode j = (j', Ok tt) /\ l_temperatureSet (ex_hot "a") = true /\
  l_rng (ex_hot "a") = l_rng (ex_hot "b") /\ l_rpos (ex_hot "a") = l_rpos (ex_hot "b").
Proof. exact ex_two_hot. Qed.
