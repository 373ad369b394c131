(** C42-C44, C63, C64: Landau-Lifshitz-Bloch layers and junctions. *)
From Verif Require Import P_LlgbEx.
From Coq Require Import Psatz.
Open Scope R_scope.

(** ** C42 *)
(** The derivative, when it has a value, is the Landau-Lifshitz-Bloch right-hand side; evaluating it only
    refreshes the values kept for the log. *)
Theorem c42_derivative : forall t dt m l l' v, b_calculateLLG t dt m l = (l', Ok v) <->
  exists i, b_inputs_at l t i /\ b_solvable l i m /\ v = b_rhs l i m /\
    b_static l l' /\ b_mag l' = b_mag l /\ b_drawn 0 l l' /\ b_logs l' (bi_T i) (bi_T i) (bi_K i) (bi_T i).
Proof.
  intros. rewrite llg_iff. split; intros (i & A & B & C & D); exists i; (split; [exact A|]; split; [exact B|]; split; [exact C|]).
  - subst l'. apply fields_b_logged.
  - destruct D as (D1 & D2 & D3 & D4). apply b_logged_fields; assumption.
Qed.
(** Only the parallel term changes the length: m.dm/dt = gamma' alpha_par (m.H). *)
Theorem c42_length_rate : forall t dt m l l' v i, b_calculateLLG t dt m l = (l', Ok v) -> b_inputs_at l t i ->
  Dot m v = gamma0 / (1 + b_damping l * b_damping l) * alpha_par (b_damping l) (bi_T i) (b_Tc l) * Dot m (b_H l i m).
Proof.
  intros t dt m l l' v i E HI. apply llg_iff in E. destruct E as (i' & HI' & (_ & _ & Hz & _) & -> & _).
  rewrite (inputs_det _ _ _ _ HI' HI). apply length_rate, Hz.
Qed.
Theorem c42_field : forall t m l l' v, b_calculateHeff t m l = (l', Ok v) <->
  exists i, b_inputs_at l t i /\ b_chi l <> 0 /\ (bi_T i <= b_Tc l -> b_me l <> 0) /\
    v = b_H l i m /\ l' = set_b_K_log (bi_K i) l.
Proof. exact heff_iff. Qed.
Theorem c42_longitudinal_field : forall t m l l' v, getLongitudinal t m l = (l', Ok v) <->
  exists T, getCurrentScalarValue (b_temperature l) t = Ok T /\ b_chi l <> 0 /\ (T <= b_Tc l -> b_me l <> 0) /\
    v = H_long T (b_Tc l) (b_chi l) (b_me l) m /\ l' = l.
Proof. exact longitudinal_iff. Qed.
(** No applied field and no anisotropy: below Tc the length moves towards the equilibrium value, above Tc
    it shrinks, and at T = 0 it never changes. *)
Theorem c42_towards_equilibrium : forall t dt l l' m d T, b_calculateLLG t dt m l = (l', Ok d) -> b_inputs_at l t (BI T 0 Zero) ->
  0 < b_damping l -> 0 < b_chi l -> 0 < T <= b_Tc l ->
  (Norm2 m < b_me l * b_me l <-> 0 < Dot m d) /\ (Norm2 m = b_me l * b_me l <-> Dot m d = 0) /\
  (b_me l * b_me l < Norm2 m <-> Dot m d < 0).
Proof. exact relax_below. Qed.
Theorem c42_towards_zero : forall t dt l l' m d T, b_calculateLLG t dt m l = (l', Ok d) -> b_inputs_at l t (BI T 0 Zero) ->
  0 < b_damping l -> 0 < b_chi l -> 0 < b_Tc l < T -> Dot m d < 0.
Proof. exact relax_above. Qed.
Theorem c42_zero_temperature : forall t dt l l' m d i, b_calculateLLG t dt m l = (l', Ok d) -> b_inputs_at l t i -> bi_T i = 0 -> Dot m d = 0.
Proof. exact frozen_length. Qed.
(** Exact solutions relax exponentially, and converge. *)
Theorem c42_relaxation_below : forall l m d T, b_solves l m d -> (forall t, b_inputs_at l t (BI T 0 Zero)) -> T <= b_Tc l -> forall t,
  b_me l * b_me l / Norm2 (m t) - 1 = (b_me l * b_me l / Norm2 (m 0) - 1) * exp (- b_rate l T * t).
Proof. exact relaxation_below. Qed.
Theorem c42_relaxation_above : forall l m d T, b_solves l m d -> (forall t, b_inputs_at l t (BI T 0 Zero)) -> b_Tc l < T -> forall t,
  1 / Norm2 (m t) + 3 / 5 * (b_Tc l / (T - b_Tc l)) = (1 / Norm2 (m 0) + 3 / 5 * (b_Tc l / (T - b_Tc l))) * exp (2 * b_rate l T * t).
Proof. exact relaxation_above. Qed.
Theorem c42_limit_below : forall l m d T, b_solves l m d -> (forall t, b_inputs_at l t (BI T 0 Zero)) ->
  0 < b_damping l -> 0 < b_chi l -> 0 < T <= b_Tc l ->
  forall eps, 0 < eps -> exists t0, forall t, t0 <= t -> Rabs (Norm2 (m t) - b_me l * b_me l) < eps.
Proof. exact length_limit_below. Qed.
Theorem c42_limit_above : forall l m d T, b_solves l m d -> (forall t, b_inputs_at l t (BI T 0 Zero)) ->
  0 < b_damping l -> 0 < b_chi l -> 0 < b_Tc l < T ->
  forall eps, 0 < eps -> exists t0, forall t, t0 <= t -> Norm2 (m t) < eps.
Proof. exact length_limit_above. Qed.
(** The equilibrium state survives every run of either integrator unchanged. *)
Theorem c42_equilibrium_run : forall T dt wf mode j N w, (forall l, In l (bj_layers j) -> exists T, b_rest l T) ->
  stack_counts T dt wf N w -> 0 < dt -> mode = HEUN \/ mode = EULER_HEUN ->
  exists j', b_runSimulation T dt wf mode j = (j', Ok tt) /\ map b_mag (bj_layers j') = map b_mag (bj_layers j) /\
    (forall l, In l (bj_layers j') -> exists T, b_rest l T).
Proof. exact rest_run. Qed.
(** With an anisotropy the claim fails: without any applied field a layer of equilibrium length lengthens. *)
Theorem c42_anisotropy_refuted : exists t dt l l' m d K, b_calculateLLG t dt m l = (l', Ok d) /\ b_inputs_at l t (BI 350 K Zero) /\
  0 < 350 < b_Tc l /\ 0 < b_chi l /\ 0 < b_damping l /\ Norm2 m = b_me l * b_me l /\ 0 < Dot m d.
Proof. exact anisotropy_lengthens. Qed.
Example c42_ex : (exists l' d, b_calculateLLG 0 1 (CV 0 0 (1 / 4)) (ex_bl 350 (CV 0 0 (1 / 4))) = (l', Ok d)) /\
  b_inputs_at (ex_bl 350 (CV 0 0 (1 / 4))) 0 (BI 350 0 Zero) /\ 0 < 350 <= b_Tc (ex_bl 350 Zero).
Proof.
  split; [destruct (ex_bl_derivative (CV 0 0 (1 / 4))) as [l' E]; [unfold Zero; intros E; injection E; lra|eauto]|].
  split; [apply ex_bl_inputs|]. cbn. lra.
Qed.
Example c42_ex_relaxing : exists m d, b_solves (ex_bl 350 (CV 0 0 (1 / 2))) m d /\ Norm2 (m 0) = 1 / 16 /\
  forall t, b_inputs_at (ex_bl 350 (CV 0 0 (1 / 2))) t (BI 350 0 Zero).
Proof.
  destruct (ex_relaxing 3 ltac:(lra)) as (d & HS & H0). exists (fun t => CV 0 0 (ex_curve 3 t)), d. split; [exact HS|]. split; [|intros t; apply ex_bl_inputs].
  unfold Norm2. cbn [Dot]. rewrite H0. replace (1 + 3) with (2 * 2) by ring. rewrite sqrt_square by lra. lra.
Qed.
Example c42_ex_equilibrium : (forall l, In l (bj_layers ex_bj) -> exists T, b_rest l T) /\ stack_counts 10 1 2 10 2.
Proof. split; [exact ex_bj_rest|exact stack_counts_10_2]. Qed.

(** ** C43 *)
Theorem c43_parallel : forall t l l' v, getAlphaParallel t l = (l', Ok v) <->
  exists T, getCurrentScalarValue (b_temperature l) t = Ok T /\ b_Tc l <> 0 /\
    v = 2 / 3 * b_damping l * (T / b_Tc l) /\ l' = set_b_apar_log v l.
Proof. exact alpha_par_iff. Qed.
Theorem c43_perpendicular : forall t l l' v, getAlphaPerpendicular t l = (l', Ok v) <->
  exists T, getCurrentScalarValue (b_temperature l) t = Ok T /\ b_Tc l <> 0 /\
    v = (if Rlt_dec T (b_Tc l) then b_damping l * (1 - T / (3 * b_Tc l)) else 2 / 3 * b_damping l * (T / b_Tc l)) /\
    l' = set_b_aperp_log v l.
Proof. exact alpha_perp_iff. Qed.
Theorem c43_agree_at_Tc : forall alpha Tc, Tc <> 0 -> alpha_perp alpha Tc Tc = alpha_par alpha Tc Tc.
Proof. exact alpha_at_Tc. Qed.
Theorem c43_continuous : forall alpha Tc, 0 < Tc -> forall T, continuity_pt (fun T => alpha_perp alpha T Tc) T.
Proof. exact alpha_continuous. Qed.
Theorem c43_ordered : forall alpha T Tc, 0 <= alpha -> 0 <= T -> 0 < Tc -> 0 <= alpha_par alpha T Tc <= alpha_perp alpha T Tc.
Proof. exact alpha_order. Qed.
Example c43_ex : exists l' v, getAlphaPerpendicular 0 (ex_bl 350 (CV 0 0 1)) = (l', Ok v) /\ v = 1 / 12 /\
  alpha_par (1 / 10) 350 700 = 1 / 30.
Proof.
  eexists. exists (1 / 12). split; [|split; [reflexivity|unfold alpha_par; field]]. apply alpha_perp_iff. exists 350. split; [reflexivity|]. cbn [b_Tc ex_bl b_damping].
  split; [lra|]. split; [|reflexivity]. unfold alpha_perp. destruct (Rlt_dec 350 700); [field|lra].
Qed.

(** ** C44 *)
(** Every history of runs, clearings and settings: the time is the sum of the whole steps of the runs since
    the last clearing. *)
Theorem c44_history_time : forall os j j', b_history os j j' -> b_clock os (bj_time j) (bj_time j').
Proof. exact history_clock. Qed.
Theorem c44_time_determined : forall os t a b, b_clock os t a -> b_clock os t b -> a = b.
Proof. exact clock_det. Qed.
(** The time column continues from the time reached before, whereas a [Junction] starts again at 0. *)
Theorem c44_time_column : forall T dt wf mode j j', b_runSimulation T dt wf mode j = (j', Ok tt) ->
  exists N w, stack_counts T dt wf N w /\ bj_time j' = bj_time j + INR N * dt /\ bj_logLength j' = (bj_logLength j + rows_needed N w)%nat /\
    col "time" (bj_log j') = (col "time" (bj_log j) ++ map (fun k => bj_time j + INR (S (k * w)) * dt) (seq 0 (rows_needed N w)))%list.
Proof. exact b_time_column. Qed.
Theorem c44_junction_restarts : forall T dt wf e mode j j', named j -> runSimulation T dt wf e mode j = (j', Ok tt) ->
  exists N w, step_counts T dt wf N w /\
    col "time" (j_log j') = (col "time" (j_log j) ++ map (fun k => INR (k * w) * dt) (seq 0 (rows_needed N w)))%list.
Proof. exact junction_time. Qed.
Theorem c44_clear : forall j, b_clearLog j = (BJ (bj_layers j) [] 0 0, Ok tt).
Proof. reflexivity. Qed.
Example c44_ex : exists j', b_history [ORun 10 1 2 HEUN; ORun 10 1 2 EULER_HEUN; OClear; OSet "free" (BEquilibrium (1 / 2)); ORun 10 1 2 HEUN] ex_bj j' /\
  bj_time j' = 10 /\ col "time" (bj_log j') = [1; 3; 5; 7; 9].
Proof. exact ex_bj_history. Qed.

(** ** C63: mean field *)
Theorem c63_langevin : forall x v, langevin x = Ok v <-> x <> 0 /\ v = Lang x.
Proof. exact langevin_iff. Qed.
(** The returned derivative is the derivative. *)
Theorem c63_derivative : forall x v, langevinDerivative x = Ok v -> x <> 0 /\ derivable_pt_lim Lang x v.
Proof. intros x v H. apply derivative_iff in H. destruct H as [H ->]. split; [exact H|]. apply Lang_derivative, H. Qed.
Theorem c63_derivative_defined : forall x, x <> 0 -> exists v, langevinDerivative x = Ok v.
Proof. intros x H. eexists. apply derivative_iff. split; [exact H|reflexivity]. Qed.
Theorem c63_langevin_bounds : forall x, 0 < x -> 0 < Lang x /\ Lang x < 1 /\ Lang x < x / 3.
Proof. exact Lang_bounds. Qed.
Theorem c63_langevin_odd : forall x, x <> 0 -> Lang (- x) = - Lang x.
Proof. exact Lang_odd. Qed.
(** The solver returns the first iterate whose residual is below the tolerance, after one more evaluation;
    failing that the last iterate, with the residual of the one before. *)
Theorem c63_weiss : forall est0 T J0 relax tol n x e, MFAWeissCurie est0 T J0 relax tol n = Ok (x, e) <->
  T <> 0 /\ (n = 0%nat \/ J0 <> 0) /\
  exists est k, est 0%nat = est0 /\ mfa_iterates (1 / (kB * T)) J0 relax est k /\ (forall q, (q < k)%nat -> tol <= residual (1 / (kB * T)) J0 (est q)) /\
    (((k < n)%nat /\ est k <> 0 /\ residual (1 / (kB * T)) J0 (est k) < tol /\ x = Lang (1 / (kB * T) * J0 * est k) /\ e = residual (1 / (kB * T)) J0 (est k)) \/
     (k = n /\ x = est n /\ e = match n with O => 0 | S p => residual (1 / (kB * T)) J0 (est p) end)).
Proof. exact weiss_spec. Qed.
Theorem c63_physical_range : forall est0 T J0 relax tol n, 0 < T -> 0 < J0 -> 0 < relax <= 1 -> 0 < est0 <= 1 ->
  exists x e, MFAWeissCurie est0 T J0 relax tol n = Ok (x, e) /\ 0 < x <= 1.
Proof. exact weiss_total. Qed.
(** At and above the Curie temperature J0 / (3 kB) the self-consistency equation has no non-zero solution. *)
Theorem c63_curie_point : forall T J0 x, 0 < T -> 0 < J0 -> J0 / (3 * kB) <= T -> x <> 0 -> Lang (1 / (kB * T) * J0 * x) <> x.
Proof.
  intros T J0 x HT HJ HC Hx. assert (KP : 0 < kB) by (unfold kB; apply Rdiv_lt_0_compat; [lra|apply pow_lt; lra]). apply paramagnet; [|exact Hx].
  replace (1 / (kB * T) * J0) with (J0 / (kB * T)) by (field; lra). split; [apply Rdiv_lt_0_compat; nra|].
  apply Rmult_le_reg_r with (kB * T); [nra|]. replace (J0 / (kB * T) * (kB * T)) with J0 by (field; lra).
  apply Rmult_le_compat_r with (r := 3 * kB) in HC; [|lra]. replace (J0 / (3 * kB) * (3 * kB)) with J0 in HC by (field; lra). lra.
Qed.
Example c63_ex : exists x e, MFAWeissCurie (1 / 2) 300 (1 / 10 ^ 20) (1 / 5) (1 / 10 ^ 6) 1000 = Ok (x, e) /\ 0 < x <= 1.
Proof. apply weiss_total; try lra; apply Rdiv_lt_0_compat; try lra; apply pow_lt; lra. Qed.

(** ** C64: steps, runs, log, setters, constructor *)
(** One step of each integrator, layer by layer: the layers are independent. *)
Theorem c64_heun_step : forall t dt j j', b_heunSolverStep t dt j = (j', Ok tt) <->
  Forall2 (heun_moves t dt) (bj_layers j) (bj_layers j') /\ j' = set_bj_layers (bj_layers j') j.
Proof. exact heun_step_iff. Qed.
Theorem c64_euler_heun_step : forall t dt j j', b_eulerHeunSolverStep t dt j = (j', Ok tt) <->
  Forall2 (euler_moves t dt) (bj_layers j) (bj_layers j') /\ j' = set_bj_layers (bj_layers j') j.
Proof. exact euler_step_iff. Qed.
(** The thermal fields are always zero, but they are computed: without damping no step has a value. *)
Theorem c64_transverse_noise : forall t dt l l' v, nonadiabaticThermalField t dt l = (l', Ok v) <->
  exists T, getCurrentScalarValue (b_temperature l) t = Ok T /\ b_Tc l <> 0 /\ b_volume l <> 0 /\ b_Ms l <> 0 /\
    alpha_perp (b_damping l) T (b_Tc l) <> 0 /\ 0 <= variance_perp l T /\ v = Zero /\ l' = after_thermalA T l.
Proof. exact nonadiabatic_iff. Qed.
Theorem c64_longitudinal_noise : forall t dt l l' v, adiabaticThermalField t dt l = (l', Ok v) <->
  exists T, getCurrentScalarValue (b_temperature l) t = Ok T /\ b_Tc l <> 0 /\ b_volume l <> 0 /\ b_Ms l <> 0 /\
    0 <= variance_par l T /\ v = Zero /\ l' = after_thermalB T l.
Proof. exact adiabatic_iff. Qed.
Theorem c64_stochastic_torque : forall m t na ad l l' v, b_stochasticTorque m t na ad l = (l', Ok v) <->
  exists T, getCurrentScalarValue (b_temperature l) t = Ok T /\ b_Tc l <> 0 /\ m <> Zero /\
    v = torque_spec (b_damping l) (alpha_perp (b_damping l) T (b_Tc l)) m na ad /\
    l' = set_b_aperp_log (alpha_perp (b_damping l) T (b_Tc l)) l.
Proof. exact torque_iff. Qed.
Theorem c64_no_damping_no_step : forall mode t dt l l', b_damping l = 0 -> ~ b_moves mode t dt l l'.
Proof. exact no_damping_no_step. Qed.
(** A finished run: whole steps, both counts, the selected integrator, every column of the log. *)
Theorem c64_run : forall T dt wf mode j j', b_runSimulation T dt wf mode j = (j', Ok tt) ->
  exists N w, stack_counts T dt wf N w /\ (mode = HEUN \/ mode = EULER_HEUN) /\ (N = 0%nat \/ (w > 0)%nat) /\ b_run_effect mode dt N w j j'.
Proof. exact run_sound. Qed.
Theorem c64_run_succeeds : forall T dt wf mode j N w s, stack_counts T dt wf N w -> mode = HEUN \/ mode = EULER_HEUN -> (N = 0%nat \/ (w > 0)%nat) ->
  s 0%nat = bj_layers j -> b_trajectory mode (bj_time j) dt s N ->
  exists j', b_runSimulation T dt wf mode j = (j', Ok tt).
Proof. exact run_complete. Qed.
(** Refused runs leave the junction as it was. *)
Theorem c64_run_refused : forall T dt wf mode j,
  wf < dt \/ (exists N w, stack_counts T dt wf N w /\ mode <> HEUN /\ mode <> EULER_HEUN) ->
  exists msg, b_runSimulation T dt wf mode j = (j, Err (Throw msg)).
Proof. exact run_refused. Qed.
Theorem c64_setters : forall id s j j' x, b_member id s j = (j', x) <->
  Forall2 (fun l l' => (b_addressed id l -> b_effect s l l') /\ (~ b_addressed id l -> l' = l)) (bj_layers j) (bj_layers j') /\
  j' = set_bj_layers (bj_layers j') j /\
  ((exists l, In l (bj_layers j) /\ b_addressed id l) /\ x = Ok tt \/
   ~ (exists l, In l (bj_layers j) /\ b_addressed id l) /\ x = Err (Throw "Failed to find a layer with a given id")).
Proof. exact setter_iff. Qed.
Theorem c64_constructor : forall ra rb id m n Ms th su dm a Tc chi me r, LLGBLayer ra rb id m n Ms th su dm a Tc chi me = r <->
  (su * th = 0 /\ r = Err (Throw "The volume of the LLGB layer cannot be 0!")) \/
  (su * th <> 0 /\ m = Zero /\ r = Err (Throw "Initial magnetisation was set to a zero vector!")) \/
  (su * th <> 0 /\ m <> Zero /\ n = Zero /\ r = Err (Throw "Anisotropy was set to a zero vector!")) \/
  (su * th <> 0 /\ m <> Zero /\ n <> Zero /\
   r = Ok (BL id m n Ms th su (su * th) dm a Tc chi me 0 0 0 0 default_driver default_driver null_axial ra 0 rb 0)).
Proof. exact constructor_iff. Qed.
Theorem c64_junction_starts : forall ls, bj_layers (LLGBJunction ls) = ls /\ bj_time (LLGBJunction ls) = 0 /\ bj_log (LLGBJunction ls) = [] /\ bj_logLength (LLGBJunction ls) = 0%nat.
Proof. intros. repeat split. Qed.
Theorem c64_saved : forall j f header rows, b_saveLogs j f = Ok (header, rows) <->
  f <> ""%string /\ header = map fst (bj_log j) /\ saved (bj_log j) (bj_logLength j) header rows.
Proof. exact b_save_iff. Qed.
(** Members nothing calls. *)
Theorem c64_unused_anisotropy_field : forall t m l l' v, getAnisotropyField t m l = (l', Ok v) <->
  exists K, getCurrentScalarValue (b_anisotropy l) t = Ok K /\ K <> 0 /\ v = Scal (- (1 / K)) (CV (cx m) (cy m) 0) /\ l' = l.
Proof. exact anisotropy_field_iff. Qed.
Theorem c64_unused_torque : forall m t na ad l l' v, stochasticTorqueOld m t na ad l = (l', Ok v) <->
  exists T, getCurrentScalarValue (b_temperature l) t = Ok T /\ b_Tc l <> 0 /\ m <> Zero /\
    v = Scal (gamma0 / (1 + b_damping l * b_damping l) / Norm2 m)
          (Plus (Scal (alpha_par (b_damping l) T (b_Tc l) * Dot m ad) m)
                (Scal (- alpha_perp (b_damping l) T (b_Tc l)) (Cross m (Cross m na)))) /\
    l' = set_b_aperp_log (alpha_perp (b_damping l) T (b_Tc l)) (set_b_apar_log (alpha_par (b_damping l) T (b_Tc l)) l).
Proof. exact old_torque_iff. Qed.
Example c64_ex : exists j', b_runSimulation 10 1 2 HEUN ex_bj = (j', Ok tt) /\ map b_mag (bj_layers j') = [CV 0 0 (1 / 2); CV (1 / 2) 0 0].
Proof.
  destruct (rest_run 10 1 2 HEUN ex_bj 10 2 ex_bj_rest stack_counts_10_2 ltac:(lra) (or_introl eq_refl)) as (j' & E & M & _). exists j'. split; [exact E|exact M].
Qed.
Example c64_ex_noise : exists l', nonadiabaticThermalField 0 1 (ex_bl 350 (CV 0 0 1)) = (l', Ok Zero).
Proof.
  eexists. apply nonadiabatic_iff. exists 350. destruct (ex_bl_thermal (CV 0 0 1)) as (A & B & C & D & F & _). split; [reflexivity|]. repeat (split; [assumption|]). split; reflexivity.
Qed.
Print Assumptions c42_derivative.
Print Assumptions c42_length_rate.
Print Assumptions c42_field.
Print Assumptions c42_longitudinal_field.
Print Assumptions c42_towards_equilibrium.
Print Assumptions c42_towards_zero.
Print Assumptions c42_zero_temperature.
Print Assumptions c42_relaxation_below.
Print Assumptions c42_relaxation_above.
Print Assumptions c42_limit_below.
Print Assumptions c42_limit_above.
Print Assumptions c42_equilibrium_run.
Print Assumptions c42_anisotropy_refuted.
Print Assumptions c43_parallel.
Print Assumptions c43_perpendicular.
Print Assumptions c43_agree_at_Tc.
Print Assumptions c43_continuous.
Print Assumptions c43_ordered.
Print Assumptions c44_history_time.
Print Assumptions c44_time_determined.
Print Assumptions c44_time_column.
Print Assumptions c44_junction_restarts.
Print Assumptions c44_clear.
Print Assumptions c63_langevin.
Print Assumptions c63_derivative.
Print Assumptions c63_derivative_defined.
Print Assumptions c63_langevin_bounds.
Print Assumptions c63_langevin_odd.
Print Assumptions c63_weiss.
Print Assumptions c63_physical_range.
Print Assumptions c63_curie_point.
Print Assumptions c64_heun_step.
Print Assumptions c64_euler_heun_step.
Print Assumptions c64_transverse_noise.
Print Assumptions c64_longitudinal_noise.
Print Assumptions c64_stochastic_torque.
Print Assumptions c64_no_damping_no_step.
Print Assumptions c64_run.
Print Assumptions c64_run_succeeds.
Print Assumptions c64_run_refused.
Print Assumptions c64_setters.
Print Assumptions c64_constructor.
Print Assumptions c64_junction_starts.
Print Assumptions c64_saved.
Print Assumptions c64_unused_anisotropy_field.
Print Assumptions c64_unused_torque.
