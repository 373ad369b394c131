(** Specification vocabulary for the Landau-Lifshitz-Bloch model: mean-field equation, damping
    parameters, longitudinal field, derivative, steps, runs and log rows. *)
From Verif Require Export S_Stack M_Llgb.
Open Scope R_scope.

(** ** Mean field *)
(** The Langevin function coth x - 1/x (x <> 0). *)
Definition Lang (x : R) : R := cosh x / sinh x - 1 / x.
(** [est k] are the iterates of the relaxed fixed-point iteration from [est 0]. *)
Definition mfa_iterates (b J0 relax : R) (est : nat -> R) (n : nat) : Prop :=
  forall k, (k < n)%nat -> est k <> 0 /\
    est (S k) = est k + relax * (Lang (b * J0 * est k) - est k).
Definition residual (b J0 x : R) : R := Rabs (Lang (b * J0 * x) - x).

(** ** Damping *)
Definition alpha_par (alpha T Tc : R) : R := 2 / 3 * alpha * (T / Tc).
Definition alpha_perp (alpha T Tc : R) : R :=
  if Rlt_dec T Tc then alpha * (1 - T / (3 * Tc)) else 2 / 3 * alpha * (T / Tc).

(** ** Field and derivative *)
Definition H_long (T Tc chi me : R) (m : cvec) : cvec :=
  if Rle_dec T Tc then Scal ((1 - Norm2 m / (me * me)) / (2 * chi)) m
  else Scal (- (1 + 3 / 5 * (Tc / (T - Tc)) * Norm2 m) / chi) m.
Definition LLB (alpha aperp apar : R) (m H : cvec) : cvec :=
  Scal (gamma0 / (1 + alpha * alpha))
    (Sum [ Scal (-1) (Cross m H); Scal (- (aperp / Norm2 m)) (Cross m (Cross m H));
           Scal (apar * Dot m H / Norm2 m) m ]).
(** The driver values at one instant. *)
Record b_inputs := BI { bi_T : R; bi_K : R; bi_h : cvec }.
Definition b_inputs_at (l : blayer) (t : R) (i : b_inputs) : Prop :=
  getCurrentScalarValue (b_temperature l) t = Ok (bi_T i) /\
  getCurrentScalarValue (b_anisotropy l) t = Ok (bi_K i) /\
  getCurrentAxialDrivers (b_external l) t = Ok (bi_h i).
(** The anisotropy enters as a field K (n.m) n, without the factor 2/Ms of the plain layers. *)
Definition b_H (l : blayer) (i : b_inputs) (m : cvec) : cvec :=
  Sum [ Scal (bi_K i * Dot (b_anis l) m) (b_anis l); bi_h i;
        H_long (bi_T i) (b_Tc l) (b_chi l) (b_me l) m ].
Definition b_rhs (l : blayer) (i : b_inputs) (m : cvec) : cvec :=
  LLB (b_damping l) (alpha_perp (b_damping l) (bi_T i) (b_Tc l))
      (alpha_par (b_damping l) (bi_T i) (b_Tc l)) m (b_H l i m).
(** When the derivative has a value. *)
Definition b_solvable (l : blayer) (i : b_inputs) (m : cvec) : Prop :=
  b_Tc l <> 0 /\ b_chi l <> 0 /\ m <> Zero /\ (bi_T i <= b_Tc l -> b_me l <> 0).

(** ** Layers after an evaluation or a step *)
(** All settings are kept. *)
Definition b_static (l l' : blayer) : Prop :=
  b_id l' = b_id l /\ b_anis l' = b_anis l /\ b_Ms l' = b_Ms l /\ b_thickness l' = b_thickness l /\
  b_surface l' = b_surface l /\ b_volume l' = b_volume l /\ b_demag l' = b_demag l /\
  b_damping l' = b_damping l /\ b_Tc l' = b_Tc l /\ b_chi l' = b_chi l /\ b_me l' = b_me l /\
  b_temperature l' = b_temperature l /\ b_anisotropy l' = b_anisotropy l /\
  b_external l' = b_external l /\ b_rngA l' = b_rngA l /\ b_rngB l' = b_rngB l.
(** The values kept for the log. *)
Definition b_logs (l : blayer) (Tperp Tpar K T : R) : Prop :=
  b_aperp_log l = alpha_perp (b_damping l) Tperp (b_Tc l) /\
  b_apar_log l = alpha_par (b_damping l) Tpar (b_Tc l) /\ b_K_log l = K /\ b_T_log l = T.
(** The generators have delivered n numbers each. *)
Definition b_drawn (n : nat) (l l' : blayer) : Prop :=
  b_posA l' = (b_posA l + n)%nat /\ b_posB l' = (b_posB l + n)%nat.
(** Variances of the two thermal fields. *)
Definition variance_perp (l : blayer) (T : R) : R :=
  2 * kB * T * (alpha_perp (b_damping l) T (b_Tc l) - alpha_par (b_damping l) T (b_Tc l)) /
  (b_volume l * b_Ms l * gamma0 * (alpha_perp (b_damping l) T (b_Tc l) * alpha_perp (b_damping l) T (b_Tc l))).
Definition variance_par (l : blayer) (T : R) : R :=
  2 * kB * T * alpha_par (b_damping l) T (b_Tc l) / (gamma0 * b_volume l * b_Ms l).
(** When the thermal fields (which are multiplied by zero) have a value. *)
Definition b_thermal (l : blayer) (T : R) : Prop :=
  b_Tc l <> 0 /\ b_volume l <> 0 /\ b_Ms l <> 0 /\ alpha_perp (b_damping l) T (b_Tc l) <> 0 /\
  0 <= variance_perp l T /\ 0 <= variance_par l T.

(** One step of one layer. *)
Definition heun_moves (t dt : R) (l l' : blayer) : Prop :=
  exists i1 i2, b_inputs_at l t i1 /\ b_inputs_at l (t + dt) i2 /\ 0 <= dt /\ b_thermal l (bi_T i1) /\
    b_solvable l i1 (b_mag l) /\
    let f1 := b_rhs l i1 (b_mag l) in
    let guess := Plus (b_mag l) (Scal dt f1) in
    b_solvable l i2 guess /\
    b_mag l' = Plus (b_mag l) (Scal (dt / 2) (Plus f1 (b_rhs l i2 guess))) /\
    b_static l l' /\ b_drawn 3 l l' /\ b_logs l' (bi_T i2) (bi_T i2) (bi_K i2) (bi_T i2).
Definition euler_moves (t dt : R) (l l' : blayer) : Prop :=
  exists i1 T2, b_inputs_at l t i1 /\ getCurrentScalarValue (b_temperature l) (t + dt) = Ok T2 /\ 0 <= dt /\
    b_thermal l (bi_T i1) /\ b_solvable l i1 (b_mag l) /\
    b_mag l' = Plus (b_mag l) (Scal dt (b_rhs l i1 (b_mag l))) /\
    b_static l l' /\ b_drawn 3 l l' /\ b_logs l' T2 (bi_T i1) (bi_K i1) (bi_T i1).
Definition b_moves (mode : solver_mode) (t dt : R) (l l' : blayer) : Prop :=
  match mode with HEUN => heun_moves t dt l l' | EULER_HEUN => euler_moves t dt l l' | _ => False end.

(** ** Runs *)
Definition b_layer_row (l : blayer) : list (string * R) :=
  let k := colname (b_id l) in
  (vec_row (k "m"%string) (b_mag l) ++
   [(k "alpha_parallel", b_apar_log l); (k "alpha_perpendicular", b_aperp_log l); (k "K", b_K_log l);
    (k "T", b_T_log l); (k "me", b_me l); (k "Xpar", b_chi l)]%string)%list.
Definition b_row (ls : list blayer) (t : R) : list (string * R) :=
  (flat_map b_layer_row ls ++ [("time"%string, t)])%list.
(** [s k] are the layers after k steps; the k-th step is taken at t0 + (k+1) dt. *)
Definition b_trajectory (mode : solver_mode) (t0 dt : R) (s : nat -> list blayer) (N : nat) : Prop :=
  forall k, (k < N)%nat -> Forall2 (b_moves mode (t0 + INR (S k) * dt) dt) (s k) (s (S k)).
Definition b_rows (t0 dt : R) (s : nat -> list blayer) (N w : nat) : list (list (string * R)) :=
  map (fun k => b_row (s (S (k * w))) (t0 + INR (S (k * w)) * dt)) (seq 0 (rows_needed N w)).
Definition b_run_effect (mode : solver_mode) (dt : R) (N w : nat) (j j' : bjunction) : Prop :=
  exists s, s 0%nat = bj_layers j /\ b_trajectory mode (bj_time j) dt s N /\
    bj_layers j' = s N /\ bj_time j' = bj_time j + INR N * dt /\
    bj_logLength j' = (bj_logLength j + rows_needed N w)%nat /\
    forall key, col key (bj_log j') = (col key (bj_log j) ++ flat_map (values key) (b_rows (bj_time j) dt s N w))%list.

(** ** Histories of calls *)
Inductive b_setting := BTemperature (d : sdriver) | BExternal (d : adriver) | BAnisotropy (d : sdriver)
  | BEquilibrium (v : R) | BSusceptibility (v : R).
Inductive b_op := ORun (T dt wf : R) (mode : solver_mode) | OClear | OSet (id : string) (s : b_setting).
Definition b_member (id : string) (s : b_setting) : ST bjunction unit :=
  match s with
  | BTemperature d => b_setLayerTemperatureDriver id d
  | BExternal d => b_setLayerExternalFieldDriver id d
  | BAnisotropy d => b_setLayerAnisotropyDriver id d
  | BEquilibrium v => b_setLayerEquilibriumMagnetisation id v
  | BSusceptibility v => b_setLayerSusceptibility id v
  end.
Definition b_exec (o : b_op) : ST bjunction unit :=
  match o with
  | ORun T dt wf mode => b_runSimulation T dt wf mode
  | OClear => b_clearLog
  | OSet id s => b_member id s
  end.
Inductive b_history : list b_op -> bjunction -> bjunction -> Prop :=
| bh_nil : forall j, b_history [] j j
| bh_cons : forall o os j j1 j2, b_exec o j = (j1, Ok tt) -> b_history os j1 j2 -> b_history (o :: os) j j2.
(** Simulated time after a history: whole steps of the runs since the last clearing. *)
Inductive b_clock : list b_op -> R -> R -> Prop :=
| bc_nil : forall t, b_clock [] t t
| bc_run : forall T dt wf mode N w os t t', stack_counts T dt wf N w ->
    b_clock os (t + INR N * dt) t' -> b_clock (ORun T dt wf mode :: os) t t'
| bc_clear : forall os t t', b_clock os 0 t' -> b_clock (OClear :: os) t t'
| bc_set : forall id s os t t', b_clock os t t' -> b_clock (OSet id s :: os) t t'.
(** Setter effect: every layer called [id] (all for "all") is changed, nothing else. *)
Definition b_effect (s : b_setting) (l l' : blayer) : Prop :=
  b_id l' = b_id l /\ b_mag l' = b_mag l /\ b_anis l' = b_anis l /\ b_Ms l' = b_Ms l /\
  b_thickness l' = b_thickness l /\ b_surface l' = b_surface l /\ b_volume l' = b_volume l /\
  b_demag l' = b_demag l /\ b_damping l' = b_damping l /\ b_Tc l' = b_Tc l /\
  b_aperp_log l' = b_aperp_log l /\ b_apar_log l' = b_apar_log l /\ b_K_log l' = b_K_log l /\ b_T_log l' = b_T_log l /\
  b_rngA l' = b_rngA l /\ b_posA l' = b_posA l /\ b_rngB l' = b_rngB l /\ b_posB l' = b_posB l /\
  b_temperature l' = (match s with BTemperature d => d | _ => b_temperature l end) /\
  b_external l' = (match s with BExternal d => d | _ => b_external l end) /\
  b_anisotropy l' = (match s with BAnisotropy d => d | _ => b_anisotropy l end) /\
  b_me l' = (match s with BEquilibrium v => v | _ => b_me l end) /\
  b_chi l' = (match s with BSusceptibility v => v | _ => b_chi l end).
Definition b_addressed (id : string) (l : blayer) : Prop := id = "all"%string \/ b_id l = id.

(** ** Equilibrium: no applied field, no anisotropy, below Tc, length equal to the equilibrium value. *)
Definition b_rest (l : blayer) (T : R) : Prop :=
  (forall t, b_inputs_at l t (BI T 0 Zero)) /\ T <= b_Tc l /\ b_chi l <> 0 /\ b_me l <> 0 /\
  Norm2 (b_mag l) = b_me l * b_me l /\ b_thermal l T.
(** A solution of the equation of motion: a curve whose velocity is the computed derivative. *)
Definition b_solves (l : blayer) (m d : R -> cvec) : Prop :=
  forall t, (exists l', b_calculateLLG t 0 (m t) l = (l', Ok (d t))) /\
    derivable_pt_lim (fun t => cx (m t)) t (cx (d t)) /\ derivable_pt_lim (fun t => cy (m t)) t (cy (d t)) /\
    derivable_pt_lim (fun t => cz (m t)) t (cz (d t)).
Definition b_rate (l : blayer) (T : R) : R :=
  gamma0 / (1 + b_damping l * b_damping l) * alpha_par (b_damping l) T (b_Tc l) / b_chi l.

(** ** Layers after drawing a thermal field, and the stochastic torque. *)
Definition after_thermalA (T : R) (l : blayer) : blayer :=
  set_b_posA (b_posA l + 3) (set_b_aperp_log (alpha_perp (b_damping l) T (b_Tc l))
    (set_b_apar_log (alpha_par (b_damping l) T (b_Tc l)) (set_b_aperp_log (alpha_perp (b_damping l) T (b_Tc l)) l))).
Definition after_thermalB (T : R) (l : blayer) : blayer :=
  set_b_posB (b_posB l + 3) (set_b_apar_log (alpha_par (b_damping l) T (b_Tc l)) l).
Definition torque_spec (alpha aperp : R) (m nonAd ad : cvec) : cvec :=
  Scal (gamma0 / (1 + alpha * alpha)) (Plus (Scal (- (aperp / Norm2 m)) (Cross m (Cross m nonAd))) ad).
