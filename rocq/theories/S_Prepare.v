(** Specification vocabulary for the simulations behind the front end (C92). *)
From Verif Require Export S_Domains S_Shapes M_Prepare.
Open Scope R_scope.

(** ** The stack described by the form, in SI units *)
Definition stack_axis (s : stack_form) (p : nat) : cvec := point (sf_theta s p * PI / 180) (sf_phi s p * PI / 180) 1.
(** The coupling of layer p to the next layer and to the previous one. *)
Definition J_above (s : stack_form) (p : nat) : R := if Nat.ltb (S p) (sf_N s) then sf_J s p / 1000000 else 0.
Definition J_below (s : stack_form) (p : nat) : R := match p with O => 0 | S q => sf_J s q / 1000000 end.
(** Layer p: a new layer with its anisotropy and its two couplings set. *)
Definition stack_layer (rng : nat -> nat -> R) (nsrc : nat -> nat -> nat -> cvec) (s : stack_form) (p : nat) (l : layer) : Prop :=
  exists l0, Layer_plain (rng p) (nsrc p) ("layer_" ++ py_str p)%string (stack_axis s p) (stack_axis s p) (sf_Ms s p) (sf_thickness s p / 1000000000)
      (/ 10000000000000000) (Ten Zero Zero (CV 0 0 1)) (sf_alpha s p) = Ok l0 /\
    l = set_l_IECTop (steady_scalar (J_above s p)) (set_l_IECBottom (steady_scalar (J_below s p)) (set_l_anisotropy (steady_scalar (sf_K s p * 1000)) l0)).
Definition strip (s : stack_form) (p : nat) : resparams :=
  {| rp_Rxx0 := 100; rp_Rxy0 := 1; rp_Rahe := -2.7; rp_Rsmr := -0.46; rp_Ramr := -0.24; rp_w := sf_width s p / 1000000; rp_l := sf_length s p / 1000000 |}.
Definition stack_of (rng : nat -> nat -> R) (nsrc : nat -> nat -> nat -> cvec) (s : stack_form) (j : junction) (ps : list resparams) : Prop :=
  exists ls, Junction_plain ls = Ok j /\ length ls = sf_N s /\ (forall p l, nth_error ls p = Some l -> stack_layer rng nsrc s p l) /\
    ps = map (strip s) (seq 0 (sf_N s)).
(** The field on layer p in the external field H and the Oersted field Hoe, with the neighbours b below and t above. *)
Definition stack_field (s : stack_form) (p : nat) (H Hoe m b t : cvec) : cvec :=
  let Mst := sf_Ms s p * (sf_thickness s p / 1000000000) in
  Sum [H; Hoe; Scal (2 * (sf_K s p * 1000) / sf_Ms s p * Dot (stack_axis s p) m) (stack_axis s p); Scal (- (sf_Ms s p / S_Layer.mu0)) (CV 0 0 (cz m));
       Scal (J_below s p / Mst) b; Scal (J_above s p / Mst) t].
Definition stack_rate (s : stack_form) (p : nat) (H Hoe m b t : cvec) : cvec := LLG_plain (sf_alpha s p) m (stack_field s p H Hoe m b t).

(** The total moment per area, up to the unit. *)
Definition stack_moment (s : stack_form) : R := fold_right (fun p a => sf_thickness s p * sf_Ms s p + a) 0 (seq 0 (sf_N s)).
(** Draws of a disturbance that can never turn a unit vector into the null vector and that are never null themselves. *)
Definition small_noise (rnd : nat -> R) : Prop := forall k, 0 < Rabs (rnd k) < 100000.

(** ** The two simulations *)
(** The fields of the scan, in A/m along the chosen axis. *)
Definition scanned (c : scan_form) (Hscan : list R) (Hs : list cvec) : Prop :=
  exists theta phi, get_axis_angles (cf_axis c) = Ok (theta, phi) /\ amplitude_scan (cf_Hmin c * 1000) (cf_Hmax c * 1000) (cf_Hsteps c) theta phi false = Ok (Hscan, Hs).
Definition pulse_settings (c : scan_form) (Hs : list cvec) (ps : list resparams) (a : axis) (Hoe fmax : R) : pimm_args (list R) :=
  {| pa_Hvecs := Hs; pa_int_step := cf_step c; pa_params := ps; pa_direction := a; pa_excitation := Hoe * 1000; pa_duration := 3;
     pa_simulation := cf_time c / 1000000000; pa_wait := 4 / 1000000000; pa_max_frequency := fmax * 1000000000; pa_fn := calculate_resistance_series3;
     pa_disturbance := / 1000000; pa_last_n := 100; pa_full := false; pa_static := false |}.
Definition diode_settings (c : scan_form) (Hs : list cvec) (fs : list R) (ps : list resparams) (a : axis) (Hoe : R) (kind : string) : vsd_args :=
  {| va_Hvecs := Hs; va_frequencies := fs; va_int_step := cf_step c; va_params := Some ps; va_direction := a; va_excitation := Hoe;
     va_simulation := cf_time c / 1000000000; va_disturbance := / 1000000; va_Rtype := kind; va_fn := calculate_resistance_series3 |}.
(** The multiples of the step from [start] on that have not reached [stop] (for a step that is positive). *)
Definition up_to (start stop step : R) (fs : list R) : Prop :=
  (forall i f, nth_error fs i = Some f -> f = start + INR i * step /\ f < stop) /\ stop <= start + INR (length fs) * step.

(** The filter design always gives usable coefficients. *)
Definition good_design (design : coefficients) : Prop := forall wn b a, design 3%nat wn = (b, a) -> a <> [] /\ coef a 0 <> 0.

(** ** The answers of the two buttons *)
(** A pulse experiment on the described stack: what the four outputs are. *)
Definition pulse_run (rng : nat -> nat -> R) (nsrc : nat -> nat -> nat -> cvec) (rnd : nat -> R) (s : stack_form) (c : scan_form) (Hoeaxis : string) (Hoe fmax : R)
  (Hscan : list R) (freqs : option (list R)) (spec : list (list R)) (mag : list cvec) : Prop :=
  exists Hs j ps a st' rows o, scanned c Hscan Hs /\ stack_of rng nsrc s j ps /\ get_axis Hoeaxis = Ok a /\ 4 <= cf_time c /\ 0 < cf_step c /\
    pimm_fields rnd (pulse_settings c Hs ps a Hoe fmax) (along_axis a (field_pulse (Hoe * 1000) (3 * cf_step c))) Hs (j, 0%nat) st' rows /\
    pimm_output (pulse_settings c Hs ps a Hoe fmax) (ids j) rows o /\ freqs = po_freqs o /\ spec = po_spectrum o /\ mag = po_m_avg o.
(** A diode experiment on the described stack: from the voltage of every frequency the median over the fields is taken out. *)
Definition diode_run (rng : nat -> nat -> R) (nsrc : nat -> nat -> nat -> cvec) (rnd : nat -> R) (design : coefficients) (s : stack_form) (c : scan_form)
  (fmin fmax fstep : R) (Hoex kind : string) (Hoe : R) (Hscan fs : list R) (spec : list (list R)) : Prop :=
  exists Hs j ps a st' raw, scanned c Hscan Hs /\ stack_of rng nsrc s j ps /\ up_to (fmin * 1000000000) (fmax * 1000000000) (fstep * 1000000000) fs /\ get_axis Hoex = Ok a /\
    (kind = "Rz"%string -> (sf_N s <= 2)%nat) /\ vsd_lines design rnd (diode_settings c Hs fs ps a Hoe kind) ps Hs (j, 0%nat) st' raw /\
    sized spec (Z.to_nat (cf_Hsteps c)) (length fs) /\
    forall k, (k < length fs)%nat -> exists m, median (column raw k) m /\ forall i, (i < Z.to_nat (cf_Hsteps c))%nat -> entry spec i k = entry raw i k - m.
