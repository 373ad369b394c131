(** Specification of the values a layer remembers for the energy columns of the log. *)
From Verif Require Export S_Run.
Open Scope R_scope.

(** Spin-torque part: which currents and torque fields are stored. *)
Definition remembers_torque (l : layer) (t : R) (b top : cvec) (c0 c : lcache) : Prop :=
  let p := polariser l b top in
  if l_includeSTT l then
    getCurrentScalarValue (l_current l) t = Ok (c_I_log c) /\ c_Hfl_v c = c_Hfl_v c0 /\ c_Hdl_v c = c_Hdl_v c0
  else if l_includeSOT l then
    exists hdl hfl,
      (if l_dynamicSOT l then
         getCurrentScalarValue (l_dlDriver l) t = Ok hdl /\ getCurrentScalarValue (l_flDriver l) t = Ok hfl /\
         c_I_log c = c_I_log c0
       else getCurrentScalarValue (l_current l) t = Ok (c_I_log c) /\
         hdl = l_dampingLikeTorque l * c_I_log c /\ hfl = l_fieldLikeTorque l * c_I_log c) /\
      c_Hfl_v c = Scal (hfl - l_damping l * hdl) p /\ c_Hdl_v c = Scal (hdl + l_damping l * hfl) p
  else c_I_log c = c_I_log c0 /\ c_Hfl_v c = c_Hfl_v c0 /\ c_Hdl_v c = c_Hdl_v c0.
(** [c] holds the field terms at time t, magnetisation m, neighbours b and top; [dip] is the dipole field
    computed along the way, if any; [c0] is what was remembered before. *)
Definition remembers (l : layer) (t : R) (m b top : cvec) (dip : option cvec) (c0 c : lcache) : Prop :=
  (exists i, inputs_at l t i /\
    c_Hext c = fi_ext i /\ c_H_log c = fi_ext i /\ c_Hoe c = fi_oe i /\ c_Hoe_log c = fi_oe i /\ c_Hdmi c = fi_dmi i /\
    c_K_log c = fi_K i /\ c_Jbottom_log c = fi_Jb i /\ c_Jtop_log c = fi_Jt i /\
    c_J2bottom_log c = fi_J2b i /\ c_J2top_log c = fi_J2t i /\
    c_HAnis c = H_anis (l_anis l) (fi_K i) (l_Ms l) m /\ c_HIEC c = IEC_total l i m b top /\
    c_Hidmi c = IDMI_total l i b top) /\
  c_Hdemag c = H_tensor (l_demag l) (l_Ms l) m /\
  c_Hdipole c = match dip with Some d => d | None => c_Hdipole c0 end /\
  c_Hfluctuation c = c_Hfluctuation c0 /\
  remembers_torque l t b top c0 c.
(** When each runner last evaluates the field in a step starting at t. *)
Definition last_evaluation (r : runner) (t dt : R) : R := match r with RunEulerHeun => t | _ => t + dt end.
(** Fourth stage of a Runge-Kutta step. *)
Definition RK4_last_stage (l : layer) (t dt : R) (b top q : cvec) : Prop :=
  exists f1 f2 f3, rhs l t (l_mag l) b top f1 /\
    rhs l (t + dt / 2) (Plus (l_mag l) (Scal (dt / 2) f1)) b top f2 /\
    rhs l (t + dt / 2) (Plus (l_mag l) (Scal (dt / 2) f2)) b top f3 /\ q = Plus (l_mag l) (Scal dt f3).
(** Magnetisation q and neighbours b, top of that evaluation for layer p; [ms] are the magnetisations before
    the step, [ps] the Heun predictors. *)
Definition evaluation_point (r : runner) (ms ps : list cvec) (t dt : R) (p : nat) (l : layer) (q b top : cvec) : Prop :=
  match r with
  | RunSingle => b = Zero /\ top = Zero /\ RK4_last_stage l t dt Zero Zero q
  | RunMulti => b = below ms p /\ top = above ms p /\ RK4_last_stage l t dt b top q
  | RunEulerHeun => b = below ms p /\ top = above ms p /\ q = l_mag l
  | RunHeun => b = below ps p /\ top = above ps p /\ nth_error ps p = Some q /\
      exists w, noise_spec l t w /\ Heun_predictor l t dt (below ms p) (above ms p) w q
  end.
(** Energy columns of a layer: extended by the remembered values of each row. *)
Definition logged_columns (id : string) (sot : bool) (old new : log_t) (cs : list lcache) : Prop :=
  let C tag (f : lcache -> R) := col (colname id tag) new = (col (colname id tag) old ++ map f cs)%list in
  C "K"%string c_K_log /\ C "Jbottom"%string c_Jbottom_log /\ C "Jtop"%string c_Jtop_log /\
  (C "Hextx"%string (fun c => cx (c_Hext c)) /\ C "Hexty"%string (fun c => cy (c_Hext c)) /\ C "Hextz"%string (fun c => cz (c_Hext c))) /\
  (C "Hiecx"%string (fun c => cx (c_HIEC c)) /\ C "Hiecy"%string (fun c => cy (c_HIEC c)) /\ C "Hiecz"%string (fun c => cz (c_HIEC c))) /\
  (C "Hanisx"%string (fun c => cx (c_HAnis c)) /\ C "Hanisy"%string (fun c => cy (c_HAnis c)) /\ C "Hanisz"%string (fun c => cz (c_HAnis c))) /\
  (C "Hdemagx"%string (fun c => cx (c_Hdemag c)) /\ C "Hdemagy"%string (fun c => cy (c_Hdemag c)) /\ C "Hdemagz"%string (fun c => cz (c_Hdemag c))) /\
  (C "Hthx"%string (fun c => cx (c_Hfluctuation c)) /\ C "Hthy"%string (fun c => cy (c_Hfluctuation c)) /\ C "Hthz"%string (fun c => cz (c_Hfluctuation c))) /\
  (sot = true ->
   C "Hflx"%string (fun c => cx (c_Hfl_v c)) /\ C "Hfly"%string (fun c => cy (c_Hfl_v c)) /\ C "Hflz"%string (fun c => cz (c_Hfl_v c)) /\
   C "Hdlx"%string (fun c => cx (c_Hdl_v c)) /\ C "Hdly"%string (fun c => cy (c_Hdl_v c)) /\ C "Hdlz"%string (fun c => cz (c_Hdl_v c))).
