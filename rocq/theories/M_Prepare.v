(** Model of the simulations behind the front end (view/simulation_fns.py, view/helpers.py): the junction built from the form and
    the two procedures run on it.  The session state is a record; widgets, spinners and figures are left out. *)
From Verif Require Export M_Domains M_Oersted M_Shapes.
Open Scope R_scope.
Open Scope st_scope.

(** The fields of the form that describe the stack; those of a layer, and the coupling of a layer to the next one, are indexed
    by the number of the layer. *)
Record stack_form := StackForm {
  sf_N : nat; sf_Ms : nat -> R; sf_thickness : nat -> R; sf_alpha : nat -> R; sf_K : nat -> R; sf_theta : nat -> R; sf_phi : nat -> R;
  sf_length : nat -> R; sf_width : nat -> R; sf_J : nat -> R }.
(** simulation_fns.py:37-65; [rng] and [nsrc] are the random streams of the new layers *)
Definition create_single_layer (rng : nat -> nat -> R) (nsrc : nat -> nat -> nat -> cvec) (s : stack_form) (i : nat) : result (layer * resparams) :=
  let demag := Ten (CV 0 0 0) (CV 0 0 0) (CV 0 0 1) in
  let Kdir := angle2vector (sf_theta s i) (sf_phi s i) 1 in
  l <-- Layer_plain (rng i) (nsrc i) ("layer_" ++ py_str i)%string Kdir Kdir (sf_Ms s i) (sf_thickness s i / 10 ^ 9) (/ 10 ^ 16) demag (sf_alpha s i) ;;
  d <-- getConstantDriver (sf_K s i * 10 ^ 3) ;;
  match setAnisotropyDriver d l with
  | (l', Ok _) => Ok (l', RP 100 1 (-27 / 10) (-46 / 100) (-24 / 100) (sf_width s i / 10 ^ 6) (sf_length s i / 10 ^ 6))
  | (_, Err e) => Err e
  end.
(** simulation_fns.py:123-127 *)
Fixpoint couple_all (s : stack_form) (layers : list layer) (is : list nat) : ST junction unit :=
  match is with
  | [] => ret tt
  | i :: rest =>
      l1 <- lift (item layers i) ;;
      l2 <- lift (item layers (i + 1)) ;;
      d <- lift (getConstantDriver (sf_J s i / 10 ^ 6)) ;;
      setIECDriver (l_id l1) (l_id l2) d ;;;
      couple_all s layers rest
  end.
(** simulation_fns.py:114-128 *)
Definition prepare_simulation (rng : nat -> nat -> R) (nsrc : nat -> nat -> nat -> cvec) (s : stack_form) : result (junction * list resparams) :=
  made <-- rmap (create_single_layer rng nsrc s) (seq 0 (sf_N s)) ;;
  j <-- Junction_plain (map fst made) ;;
  match couple_all s (map fst made) (seq 0 (sf_N s - 1)) j with
  | (j', Ok _) => Ok (j', map snd made)
  | (_, Err e) => Err e
  end.

(** The fields of the form shared by the two simulations *)
Record scan_form := ScanForm { cf_axis : string; cf_Hmin : R; cf_Hmax : R; cf_Hsteps : Z; cf_step : R; cf_time : R }.
(** simulation_fns.py:132-155; [rnd] are the normal numbers of numpy *)
Definition get_pimm_data (rng : nat -> nat -> R) (nsrc : nat -> nat -> nat -> cvec) (rnd : nat -> R) (s : stack_form) (Hoeaxis : string) (Hoe_mag max_freq : R)
  (H_axis : string) (Hmin Hmax : R) (Hsteps : Z) (int_step sim_time : R) : result (list (list R) * option (list R) * pimm_out (list R) * list R) :=
  h <-- get_axis_angles H_axis ;;
  scan <-- amplitude_scan Hmin Hmax Hsteps (fst h) (snd h) false ;;
  jr <-- prepare_simulation rng nsrc s ;;
  direction <-- get_axis Hoeaxis ;;
  out <-- snd (PIMM_procedure rnd
    (PIMM (snd scan) int_step (snd jr) direction (Hoe_mag * 10 ^ 3) 3 sim_time (4 / 10 ^ 9) (max_freq * 10 ^ 9) calculate_resistance_series3 (/ 10 ^ 6) 100 false false)
    (fst jr, 0%nat)) ;;
  Ok (po_spectrum out, po_freqs out, out, fst scan).
(** numpy.arange(start, stop, step) over the reals *)
Definition np_arange (start stop step : R) : result (list R) :=
  q <-- py_div (stop - start) step ;;
  Ok (map (fun i => start + INR i * step) (seq 0 (Z.to_nat (math_ceil q)))).
(** simulation_fns.py:158-188 *)
Definition get_vsd_data (rng : nat -> nat -> R) (nsrc : nat -> nat -> nat -> cvec) (rnd : nat -> R) (design : coefficients) (s : stack_form)
  (H_axis : string) (Hmin Hmax : R) (Hsteps : Z) (Hoex : string) (fmin fmax fstep int_step sim_time : R) (Rtype : string) (Hoex_mag : R)
  : result (list (list R) * list R * list R) :=
  h <-- get_axis_angles H_axis ;;
  scan <-- amplitude_scan Hmin Hmax Hsteps (fst h) (snd h) false ;;
  jr <-- prepare_simulation rng nsrc s ;;
  frequencies <-- np_arange fmin fmax fstep ;;
  direction <-- get_axis Hoex ;;
  spec <-- snd (VSD_procedure design rnd
    (VSD (snd scan) frequencies int_step (Some (snd jr)) direction Hoex_mag sim_time (/ 10 ^ 6) Rtype calculate_resistance_series3)
    (fst jr, 0%nat)) ;;
  Ok (spec, frequencies, fst scan).
(** helpers.py:129-140: what is handed to the figure (fields, frequencies, spectrum, magnetisation) *)
Definition simulate_pimm (rng : nat -> nat -> R) (nsrc : nat -> nat -> nat -> cvec) (rnd : nat -> R) (s : stack_form) (c : scan_form) (Hoeaxis : string) (Hoe_mag max_freq : R)
  : result (list R * option (list R) * list (list R) * list cvec) :=
  r <-- get_pimm_data rng nsrc rnd s Hoeaxis Hoe_mag max_freq (cf_axis c) (cf_Hmin c * 10 ^ 3) (cf_Hmax c * 10 ^ 3) (cf_Hsteps c) (cf_step c) (cf_time c / 10 ^ 9) ;;
  match r with (spec, freqs, output, Hscan) => Ok (Hscan, freqs, spec, po_m_avg output) end.
(** helpers.py:109-126: what is handed to the figure (fields, frequencies, spectrum) *)
Definition simulate_vsd (rng : nat -> nat -> R) (nsrc : nat -> nat -> nat -> cvec) (rnd : nat -> R) (design : coefficients) (s : stack_form) (c : scan_form)
  (fmin fmax fstep : R) (Hoex res_type : string) (Hoex_mag : R) : result (list R * list R * list (list R)) :=
  r <-- get_vsd_data rng nsrc rnd design s (cf_axis c) (cf_Hmin c * 10 ^ 3) (cf_Hmax c * 10 ^ 3) (cf_Hsteps c) Hoex (fmin * 10 ^ 9) (fmax * 10 ^ 9) (fstep * 10 ^ 9)
         (cf_step c) (cf_time c / 10 ^ 9) res_type Hoex_mag ;;
  match r with (spec, freqs, Hscan) => spec <-- detrend_axis spec 0 ;; Ok (Hscan, freqs, spec) end.
