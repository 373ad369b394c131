(** C35-C38: dipole fields, interacting groups and reservoirs. *)
From Verif Require Import P_ReservoirRun.
Open Scope R_scope.

(** ** C35 *)
(** From a distance of 1e-10 on the tensor is the map sending a moment to its dipole field; closer it raises. *)
Theorem c35_tensor : forall r1 r2 t, getDipoleTensorFromRelPositions r1 r2 = Ok t <->
  closeness <= Norm (Minus r1 r2) /\ dipole_map (Minus r1 r2) t.
Proof. exact tensor_iff. Qed.
Theorem c35_accepts : forall r1 r2, closeness <= Norm (Minus r1 r2) -> exists t, getDipoleTensorFromRelPositions r1 r2 = Ok t.
Proof. exact tensor_accepts. Qed.
Theorem c35_refuses : forall r1 r2, Norm (Minus r1 r2) < closeness ->
  exists msg, getDipoleTensorFromRelPositions r1 r2 = Err (Throw msg).
Proof. exact tensor_refuses. Qed.
Theorem c35_symmetric : forall r1 r2 t, getDipoleTensorFromRelPositions r1 r2 = Ok t ->
  cy (row0 t) = cx (row1 t) /\ cz (row0 t) = cx (row2 t) /\ cz (row1 t) = cy (row2 t).
Proof. intros r1 r2 t E. apply tensor_iff in E. exact (map_entries_symmetric _ _ (proj2 E)). Qed.
Theorem c35_traceless : forall r1 r2 t, getDipoleTensorFromRelPositions r1 r2 = Ok t -> cx (row0 t) + cy (row1 t) + cz (row2 t) = 0.
Proof. intros r1 r2 t E. apply tensor_iff in E. exact (map_traceless _ _ (proj2 E)). Qed.
Theorem c35_swap : forall r1 r2, getDipoleTensorFromRelPositions r2 r1 = getDipoleTensorFromRelPositions r1 r2.
Proof. exact tensor_swap. Qed.
Theorem c35_shift : forall r1 r2 d, getDipoleTensorFromRelPositions (Plus r1 d) (Plus r2 d) = getDipoleTensorFromRelPositions r1 r2.
Proof. exact tensor_shift. Qed.
Theorem c35_scale : forall k r1 r2 t, 1 <= k -> getDipoleTensorFromRelPositions r1 r2 = Ok t ->
  getDipoleTensorFromRelPositions (Scal k r1) (Scal k r2) = Ok (ScaleTensor (/ k ^ 3) t).
Proof. exact tensor_scale. Qed.
(** Along the axis 2/(4 pi r^3), across it minus half of that. *)
Theorem c35_axis : forall r1 r2 t m, getDipoleTensorFromRelPositions r1 r2 = Ok t ->
  MatVec t (Minus r1 r2) = Scal (2 / (4 * PI * Norm (Minus r1 r2) ^ 3)) (Minus r1 r2) /\
  (Dot m (Minus r1 r2) = 0 -> MatVec t m = Scal (- / (4 * PI * Norm (Minus r1 r2) ^ 3)) m).
Proof. intros r1 r2 t m E. apply tensor_iff in E. split; [exact (map_axis _ _ (proj2 E))|exact (map_perp _ _ m (proj2 E))]. Qed.
Example c35_ex : closeness <= Norm (Minus (CV 1 0 0) (CV 0 0 0)) /\
  exists t, getDipoleTensorFromRelPositions (CV 1 0 0) (CV 0 0 0) = Ok t /\ MatVec t (CV 1 0 0) <> Zero.
Proof.
  assert (D : Minus (CV 1 0 0) (CV 0 0 0) = CV 1 0 0) by (unfold Minus; cbn; f_equal; ring).
  assert (F : closeness <= Norm (Minus (CV 1 0 0) (CV 0 0 0))) by (apply (ex_far 1); [left; reflexivity|exact D]).
  split; [exact F|]. destruct (tensor_accepts _ _ F) as [t E]. exists t. split; [exact E|]. apply tensor_iff in E. destruct E as [_ E]. rewrite D in E.
  rewrite (map_axis _ _ E), ex_norm. intros X. apply (f_equal cx) in X. cbn in X. pose proof PI_RGT_0 as P.
  assert (0 < / (4 * PI)) by (apply Rinv_0_lt_compat; lra). unfold Rdiv in X. replace (4 * PI * (1 * (1 * (1 * 1)))) with (4 * PI) in X by ring. lra.
Qed.

(** ** C36 *)
Theorem c36_kanao : forall r1 r2 l1 l2 h, computeDipoleInteraction r1 r2 l1 l2 = Ok h <->
  closeness <= Norm (Minus r1 r2) /\ h = Scal (4 * PI * moment l2) (DipoleField (Minus r1 r2) (l_mag l2)).
Proof. exact kanao_iff. Qed.
Theorem c36_noumra : forall r1 r2 l1 l2 h, computeDipoleInteractionNoumra r1 r2 l1 l2 = Ok h <->
  closeness <= Norm (Minus r1 r2) /\ h = Scal (moment l2) (DipoleField (Minus r1 r2) (l_mag l2)).
Proof. exact noumra_iff. Qed.
(** The two published formulas differ by exactly 4 pi. *)
Theorem c36_ratio : forall r1 r2 l1 l2 h, computeDipoleInteraction r1 r2 l1 l2 = Ok h <->
  exists k, computeDipoleInteractionNoumra r1 r2 l1 l2 = Ok k /\ h = Scal (4 * PI) k.
Proof. exact kanao_noumra. Qed.
Theorem c36_refuse : forall r1 r2 l1 l2, Norm (Minus r1 r2) < closeness ->
  (exists msg, computeDipoleInteraction r1 r2 l1 l2 = Err (Throw msg)) /\
  (exists msg, computeDipoleInteractionNoumra r1 r2 l1 l2 = Err (Throw msg)).
Proof. exact both_refuse. Qed.
(** Action and reaction: the two mutual energies are equal. *)
Theorem c36_reciprocal : forall r1 r2 l1 l2 h12 h21, computeDipoleInteraction r1 r2 l1 l2 = Ok h12 ->
  computeDipoleInteraction r2 r1 l2 l1 = Ok h21 -> moment l1 * Dot (l_mag l1) h12 = moment l2 * Dot (l_mag l2) h21.
Proof. exact reciprocal. Qed.
Example c36_ex : exists h, computeDipoleInteraction (CV 1 0 0) (CV 0 0 0) (ex_layer "a" (CV 1 0 0)) (ex_layer "b" (CV 0 1 0)) = Ok h.
Proof.
  eexists. apply kanao_iff. split; [|reflexivity]. apply (ex_far 1); [left; reflexivity|]. unfold Minus. cbn. f_equal; ring.
Qed.

(** ** C37 *)
(** Construction: as many positions as elements, at least one, no position twice. *)
Theorem c37_construction : forall cs js top g, mkGroup cs js top = Ok g <->
  length cs = length js /\ cs <> [] /\ NoDup cs /\ g = GRP top cs js computeDipoleInteraction.
Proof. exact mkGroup_iff. Qed.
Theorem c37_construction_refused : forall cs js top, (length cs <> length js \/ cs = [] \/ ~ NoDup cs) ->
  exists msg, mkGroup cs js top = Err (Throw msg).
Proof. exact mkGroup_refuses. Qed.
(** One step as it is written, for any interaction function. *)
Theorem c37_step_sequential : forall t dt r g g', stepFunctionalSolver t dt r g = (g', Ok tt) <->
  g' = set_g_js (g_js g') g /\ group_step_sequential (g_fn g) (g_coords g) (g_top g) r t dt (g_js g) (g_js g').
Proof. exact step_sequential. Qed.
(** If the function does not read the reserved field the step is simultaneous: every element feels the sum
    over the others in the state before the step. *)
Theorem c37_step : forall t dt r g g', indifferent (g_fn g) -> (stepFunctionalSolver t dt r g = (g', Ok tt) <->
  g' = set_g_js (g_js g') g /\ group_step (g_fn g) (g_coords g) (g_top g) r t dt (g_js g) (g_js g')).
Proof. exact step_simultaneous. Qed.
Theorem c37_builtin : indifferent computeDipoleInteraction /\ indifferent computeDipoleInteractionNoumra /\ indifferent nullDipoleInteraction.
Proof. exact builtin_indifferent. Qed.
(** The interaction can be replaced at any time: later steps use the new one, nothing else changes. *)
Theorem c37_choice : forall f g g' x, setInteractionFunction f g = (g', x) <->
  x = Ok tt /\ g_fn g' = f /\ g_top g' = g_top g /\ g_coords g' = g_coords g /\ g_js g' = g_js g.
Proof.
  intros f g [t c j h] x. destruct g as [t0 c0 j0 h0]. cbn. split.
  - intros E. assert (E2 := f_equal snd E). assert (E1 := f_equal fst E). cbn in E1, E2. injection E1 as -> -> -> ->. auto.
  - intros (-> & -> & -> & -> & ->). reflexivity.
Qed.
Theorem c37_null_field : forall cs top n at_ i H, field_of_others nullDipoleInteraction cs top n at_ i H -> H = Zero.
Proof. exact null_field. Qed.
Theorem c37_alone : forall f cs top at_ H, field_of_others f cs top 1 at_ 0 H -> H = Zero.
Proof. exact alone_field. Qed.
(** Listing the elements in another order gives the same elements. *)
Theorem c37_order : forall t dt r f g g' g2, indifferent (g_fn g) -> rearranged f g g2 ->
  stepFunctionalSolver t dt r g = (g', Ok tt) -> exists g2', stepFunctionalSolver t dt r g2 = (g2', Ok tt) /\ rearranged f g' g2'.
Proof. exact step_rearranged. Qed.
Theorem c37_order_steps : forall r dt w n f i g g' g2, indifferent (g_fn g) -> rearranged f g g2 ->
  group_sim r dt w n i g = (g', Ok tt) -> exists g2', group_sim r dt w n i g2 = (g2', Ok tt) /\ rearranged f g' g2'.
Proof. exact sim_rearranged. Qed.
(** Whole runs. *)
Theorem c37_run : forall T dt wf g g', g_js g <> [] -> indifferent (g_fn g) -> group_runSimulation T dt wf g = (g', Ok tt) ->
  exists N w g0 r sg mid, stack_counts T dt wf N w /\ group_selects N g g0 r /\ g' = set_g_js (sg N) g /\
    group_effect (group_step (g_fn g)) g0 r dt N w sg mid.
Proof. exact group_run_simultaneous. Qed.
Theorem c37_run_any : forall T dt wf g g', g_js g <> [] -> group_runSimulation T dt wf g = (g', Ok tt) ->
  exists N w g0 r sg mid, stack_counts T dt wf N w /\ group_selects N g g0 r /\ g' = set_g_js (sg N) g /\
    group_effect (group_step_sequential (g_fn g)) g0 r dt N w sg mid.
Proof. exact group_run_sound. Qed.
(** Each element logs the state after steps 0, w, 2w, ... *)
Theorem c37_rows : forall view f g r dt N w sg mid, group_effect (group_step_seeing view f) g r dt N w sg mid ->
  forall i j0 jN, nth_error (g_js g) i = Some j0 -> nth_error (sg N) i = Some jN ->
  exists rows, length rows = rows_needed N w /\ j_logLength jN = (j_logLength j0 + length rows)%nat /\
    (forall k row, nth_error rows k = Some row ->
       exists j, nth_error (mid (k * w)%nat) i = Some j /\ log_row false j (INR (k * w) * dt) row) /\
    forall key, col key (j_log jN) = (col key (j_log j0) ++ flat_map (values key) rows)%list.
Proof. exact group_rows. Qed.
Theorem c37_run_exists : forall T dt wf g N w, 0 <= dt -> group_ready g -> stack_counts T dt wf N w -> (w > 0)%nat ->
  (exists used, forall j, In j (g_js g) -> mode_table (exists l, In l (j_layers j) /\ noisy l) RK4 used) ->
  exists g', group_runSimulation T dt wf g = (g', Ok tt).
Proof. exact group_run_exists. Qed.
Theorem c37_frequency_refused : forall T dt wf N w g, dt <> 0 -> wf < dt -> wrapped_count (T / dt) N -> wrapped_count (wf / dt) w ->
  exists msg, group_runSimulation T dt wf g = (g, Err (Throw msg)).
Proof. exact group_frequency. Qed.
Theorem c37_noise_refused : forall T dt wf N w g jq jr, stack_counts T dt wf N w -> In jq (g_js g) -> In jr (g_js g) ->
  (exists l, In l (j_layers jq) /\ noisy l) -> ~ (exists l, In l (j_layers jr) /\ noisy l) ->
  (forall j l, In j (g_js g) -> In l (j_layers j) -> preparable N l) ->
  exists g' msg, group_runSimulation T dt wf g = (g', Err (Throw msg)).
Proof. exact group_noise_mismatch. Qed.
Theorem c37_clear : forall g g' x, group_clearLogs g = (g', x) <-> x = Ok tt /\ g' = set_g_js (map (set_j_log [] 0) (g_js g)) g.
Proof. exact group_clear_iff. Qed.
Theorem c37_getLog : forall g i l, group_getLog g i = Ok l <-> exists j, nth_error (g_js g) i = Some j /\ l = j_log j.
Proof. exact group_getLog_iff. Qed.
Theorem c37_getLog_out : forall g i, (length (g_js g) <= i)%nat -> exists msg, group_getLog g i = Err (Throw msg).
Proof. exact group_getLog_out. Qed.
Example c37_ex : mkGroup [CV 0 0 0; CV 1 0 0] [ex_element (CV 1 0 0); ex_element (CV 0 1 0)] "free" = Ok ex_group /\
  indifferent (g_fn ex_group) /\ group_ready ex_group /\ exists g', group_runSimulation 10 1 2 ex_group = (g', Ok tt).
Proof. split; [exact ex_group_constructed|]. split; [apply builtin_indifferent|]. split; [exact ex_group_ready|exact ex_group_runs]. Qed.
Example c37_order_ex : rearranged (fun i => match i with 0 => 1 | 1 => 0 | _ => i end)%nat ex_group
  (GRP "free" [CV 1 0 0; CV 0 0 0] [ex_element (CV 0 1 0); ex_element (CV 1 0 0)] computeDipoleInteraction).
Proof.
  split; [intros [|[|a]] [|[|b]] H; congruence|]. split; [reflexivity|]. split; [reflexivity|]. split; [reflexivity|].
  split; intros [|[|q]]; try reflexivity; destruct q; reflexivity.
Qed.

(** ** C38 *)
(** Construction: at least two cells, all at different positions, a layer for each; the table holds for each
    cell the tensors to the other cells in order. *)
Theorem c38_construction : forall coords ls r, mkReservoir coords ls = Ok r <->
  exists first rest, coords = first :: rest /\ let n := (length coords * length first)%nat in
    (2 <= n)%nat /\ distinct_cells coords (length first) n /\
    r = RSV [] coords (repeat Zero n) (r_Ms r) (r_vol r) (r_tensors r) ls (length coords) (length first) /\
    per_cell ls (length first) n l_Ms (r_Ms r) /\ per_cell ls (length first) n (fun l => l_thickness l * l_cellSurface l) (r_vol r) /\
    tensor_table coords (length first) n (r_tensors r).
Proof. exact mkReservoir_iff. Qed.
Theorem c38_wired : forall coords ls r, mkReservoir coords ls = Ok r -> wired r.
Proof. exact mkReservoir_wired. Qed.
(** The field on cell e multiplies the i-th tensor with the i-th cell and the volume of cell e. *)
Theorem c38_field : forall r e H, wired r -> (e < noElements r)%nat ->
  ((exists v, nth_error (r_vol r) e = Some v /\ reservoir_dipole r e v = Ok H) <-> applied_field r (r_frozen r) e H).
Proof. exact field_cell_iff. Qed.
(** Every cell but the last feels its own magnetisation as if it stood at the next cell. *)
Theorem c38_feels_itself : forall r ms e H, (e < noElements r - 1)%nat -> applied_field r ms e H ->
  exists v hs a b m Ms, nth_error (r_vol r) e = Some v /\ H = Scal v (Sum hs) /\ length hs = (noElements r - 1)%nat /\
    cell (r_coords r) (r_cols r) e = Some a /\ cell (r_coords r) (r_cols r) (S e) = Some b /\
    nth_error ms e = Some m /\ nth_error (r_Ms r) e = Some Ms /\
    nth_error hs e = Some (Scal (Ms / MAGNETIC_PERMEABILITY) (DipoleField (Minus b a) m)).
Proof. exact feels_itself. Qed.
(** So the dipole field of the other cells is not what is applied ... *)
Theorem c38_intended_refuted : exists r ms H, mkReservoir ex_grid ex_cells = Ok r /\
  per_cell (r_layers r) (r_cols r) (noElements r) l_mag ms /\ applied_field r ms 0 H /\ ~ intended_field r ms 0 H.
Proof. exact wrong_neighbour. Qed.
(** ... except on the last cell when all volumes are equal. *)
Theorem c38_last_cell : forall r ms H v, wired r -> length ms = noElements r -> (forall q w, nth_error (r_vol r) q = Some w -> w = v) ->
  applied_field r ms (noElements r - 1) H -> intended_field r ms (noElements r - 1) H.
Proof. exact applied_last. Qed.
(** The last cell influences nobody, over whole runs and whatever its parameters. *)
Theorem c38_last_unfelt : forall T dt r r2 r' r2', alike_but_last r r2 -> wired r -> wired r2 ->
  reservoir_runSimulation T dt r = (r', Ok tt) -> reservoir_runSimulation T dt r2 = (r2', Ok tt) -> alike_but_last r' r2'.
Proof. exact run_alike. Qed.
(** One step: all fields come from the state before the step. *)
Theorem c38_step : forall t dt r r', wired r -> (runSolver t dt r = (r', Ok tt) <-> reservoir_step t dt r r').
Proof. exact step_iff. Qed.
Theorem c38_step_scheme : forall l t dt b top dip l', rk4_stepDipoleInjection t dt b top dip l = (l', Ok tt) ->
  RK4_scheme (fun s m d => rhs_inj l s m b top dip d) t dt (l_mag l) (l_mag l') /\
  exists c, l' = set_l_mag (l_mag l') (set_l_cache c l).
Proof. exact rk4_inj_sound. Qed.
(** Whole runs log every step. *)
Theorem c38_run : forall T dt r r', wired r -> reservoir_runSimulation T dt r = (r', Ok tt) ->
  exists N sg ms, dt <> 0 /\ signed_count (T / dt) N /\ r' = sg N /\ reservoir_effect r dt N sg ms.
Proof. exact run_sound. Qed.
Theorem c38_run_exists : forall T dt r N, wired r -> lasting r -> dt <> 0 -> signed_count (T / dt) N ->
  exists r', reservoir_runSimulation T dt r = (r', Ok tt).
Proof. exact run_exists. Qed.
Theorem c38_columns : forall r dt N sg ms, wired r -> reservoir_effect r dt N sg ms ->
  col "time" (r_log (sg N)) = (col "time" (r_log r) ++ map (fun k => INR k * dt) (seq 0 N))%list /\
  (forall e, (e < noElements r)%nat -> exists m : nat -> cvec, (forall k, (k < N)%nat -> nth_error (ms k) e = Some (m k)) /\
     col (cell_name (r_cols r) e "_x") (r_log (sg N)) = (col (cell_name (r_cols r) e "_x") (r_log r) ++ map (fun k => cx (m k)) (seq 0 N))%list /\
     col (cell_name (r_cols r) e "_y") (r_log (sg N)) = (col (cell_name (r_cols r) e "_y") (r_log r) ++ map (fun k => cy (m k)) (seq 0 N))%list /\
     col (cell_name (r_cols r) e "_z") (r_log (sg N)) = (col (cell_name (r_cols r) e "_z") (r_log r) ++ map (fun k => cz (m k)) (seq 0 N))%list) /\
  forall key, ~ In key (reservoir_keys (r_cols r) (noElements r)) -> col key (r_log (sg N)) = col key (r_log r).
Proof. exact effect_columns. Qed.
Theorem c38_names_distinct : forall cols n, cols <> 0%nat -> NoDup (reservoir_keys cols n).
Proof. exact keys_nodup. Qed.
(** Setters and getters address cell i in row-major order. *)
Theorem c38_set_external : forall i d r r', reservoir_setLayerExternalField i d r = (r', Ok tt) <->
  r_cols r <> 0%nat /\ cell_changed i r r' (fun l l' => l' = set_l_external d l).
Proof. exact set_external_iff. Qed.
Theorem c38_set_anisotropy : forall i d r r', reservoir_setLayerAnisotropy i d r = (r', Ok tt) <->
  r_cols r <> 0%nat /\ cell_changed i r r' (fun l l' => l' = set_l_anisotropy d l).
Proof. exact set_anisotropy_iff. Qed.
Theorem c38_set_all : forall d r r' x, setAllExternalField d r = (r', x) ->
  x = Ok tt /\ r' = set_r_layers (r_layers r') r /\ same_shape (r_layers r) (r_layers r') /\
  forall p q, entry (r_layers r') p q = option_map (set_l_external d) (entry (r_layers r) p q).
Proof. exact set_all_external. Qed.
Theorem c38_getLayer : forall r i l, reservoir_getLayer r i = Ok l <-> r_cols r <> 0%nat /\ cell (r_layers r) (r_cols r) i = Some l.
Proof. exact getCell_iff. Qed.
Theorem c38_getMagnetisation : forall r i m, reservoir_getMagnetisation r i = Ok m <->
  r_cols r <> 0%nat /\ exists l, cell (r_layers r) (r_cols r) i = Some l /\ m = l_mag l.
Proof. exact getCellMag_iff. Qed.
Theorem c38_clear : forall r r' x, reservoir_clearLogs r = (r', x) <-> x = Ok tt /\ r' = set_r_log [] r.
Proof. exact clear_iff. Qed.
Theorem c38_save : forall f r r' header rows, reservoir_saveLogs f r = (r', Ok (Some (header, rows))) <->
  f <> ""%string /\ header = map fst (r_log r) /\
  ((exists ts, log_get "time" (r_log r) = Some ts /\ r' = r /\ saved (r_log r) (length ts) header rows) \/
   (log_get "time" (r_log r) = None /\ rows = [] /\ r' = set_r_log (r_log r ++ [("time"%string, [])])%list r)).
Proof. exact reservoir_save_iff. Qed.
Example c38_ex : exists r, mkReservoir ex_grid ex_cells = Ok r /\ wired r /\ lasting r /\ alike_but_last r r /\
  exists r', reservoir_runSimulation 10 1 r = (r', Ok tt).
Proof.
  destruct ex_reservoir_exists as [r E]. exists r. split; [exact E|]. split; [exact (mkReservoir_wired _ _ _ E)|]. split; [exact (ex_lasting r E)|].
  split; [|exact (ex_runs r E)]. split; [reflexivity|]. split; [reflexivity|]. split; [reflexivity|]. auto.
Qed.
Print Assumptions c35_tensor.
Print Assumptions c35_accepts.
Print Assumptions c35_refuses.
Print Assumptions c35_symmetric.
Print Assumptions c35_traceless.
Print Assumptions c35_swap.
Print Assumptions c35_shift.
Print Assumptions c35_scale.
Print Assumptions c35_axis.
Print Assumptions c36_kanao.
Print Assumptions c36_noumra.
Print Assumptions c36_ratio.
Print Assumptions c36_refuse.
Print Assumptions c36_reciprocal.
Print Assumptions c37_construction.
Print Assumptions c37_construction_refused.
Print Assumptions c37_step_sequential.
Print Assumptions c37_step.
Print Assumptions c37_builtin.
Print Assumptions c37_null_field.
Print Assumptions c37_alone.
Print Assumptions c37_order.
Print Assumptions c37_order_steps.
Print Assumptions c37_run.
Print Assumptions c37_run_any.
Print Assumptions c37_rows.
Print Assumptions c37_run_exists.
Print Assumptions c37_frequency_refused.
Print Assumptions c37_noise_refused.
Print Assumptions c37_clear.
Print Assumptions c37_getLog.
Print Assumptions c37_getLog_out.
Print Assumptions c38_construction.
Print Assumptions c38_wired.
Print Assumptions c38_field.
Print Assumptions c38_feels_itself.
Print Assumptions c38_intended_refuted.
Print Assumptions c38_last_cell.
Print Assumptions c38_last_unfelt.
Print Assumptions c38_step.
Print Assumptions c38_step_scheme.
Print Assumptions c38_run.
Print Assumptions c38_run_exists.
Print Assumptions c38_columns.
Print Assumptions c38_names_distinct.
Print Assumptions c38_set_external.
Print Assumptions c38_set_anisotropy.
Print Assumptions c38_set_all.
Print Assumptions c38_getLayer.
Print Assumptions c38_getMagnetisation.
Print Assumptions c38_clear.
Print Assumptions c38_save.
Print Assumptions c37_choice.
