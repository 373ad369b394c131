(** Properties C01, C02, C15-C18, C20 of a single magnetic layer. *)
From Verif Require Import S_Layer P_LayerProps P_LayerEx.
Open Scope R_scope.
Open Scope st_scope.

(** C01.  Whatever torques are switched on, the derivative is orthogonal to the magnetisation at which
    it was evaluated; the same for the variant with an injected dipole field and for the noise torque. *)
Theorem c01_torque_tangent : forall l t m b top dt l' d,
  calculateLLGWithFieldTorque t m b top dt l = (l', Ok d) -> Dot m d = 0.
Proof. exact torque_tangent. Qed.
Print Assumptions c01_torque_tangent.
Theorem c01_torque_tangent_injected : forall l t m b top dip dt fl l' d,
  calculateLLGWithFieldTorqueDipoleInjection t m b top dip dt fl l = (l', Ok d) -> Dot m d = 0.
Proof. exact torque_tangent_injected. Qed.
Print Assumptions c01_torque_tangent_injected.
Theorem c01_noise_torque_tangent : forall l m dW d, stochasticTorque l m dW = Ok d -> Dot m d = 0.
Proof. exact stochastic_tangent. Qed.
Print Assumptions c01_noise_torque_tangent.
(** The full right-hand side, including when it is defined: the documented torque [llg_spec] at the
    documented effective field. *)
Theorem c01_rhs_characterised : forall l t m b top dt d,
  (exists l', calculateLLGWithFieldTorque t m b top dt l = (l', Ok d)) <->
  exists i, inputs_at l t i /\ l_Ms l <> 0 /\ l_thickness l <> 0 /\
    llg_spec l t m b top (H_eff l i m b top (dipole_total l b top) Zero) d.
Proof. exact llg_total_iff. Qed.
Print Assumptions c01_rhs_characterised.
(** Evaluating the derivative changes nothing but the values remembered for logging. *)
Theorem c01_rhs_frame : forall l t m b top dt l' d,
  calculateLLGWithFieldTorque t m b top dt l = (l', Ok d) -> same_but_cache l l'.
Proof. exact llg_total_same. Qed.
Print Assumptions c01_rhs_frame.
(** The noise torque is the plain LLG torque in the random field. *)
Theorem c01_noise_torque_is_llg : forall l m dW, stochasticTorque l m dW = Ok (LLG_plain (l_damping l) m dW).
Proof. exact stochastic_spec. Qed.
Print Assumptions c01_noise_torque_is_llg.
Example c01_example : exists l' d, calculateLLGWithFieldTorque 0 (CV 0 0 1) Zero Zero 1 (ex_stt (CV 0 0 1) (CV 0 1 0)) = (l', Ok d).
Proof. exact (ex_stt_torque _ _ _ _ _ _). Qed.

(** C02.  Power of the effective field. *)
Theorem c02_damping_dissipates : forall l t m b top H l' d dt,
  l_includeSTT l = false -> l_includeSOT l = false ->
  solveLLG t m dt b top H l = (l', Ok d) ->
  let a := l_damping l in
  Dot H d = gamma0 * a / (1 + a * a) * Norm2 (Cross m H) /\
  (0 <= a -> 0 <= Dot H d) /\ (a = 0 -> Dot H d = 0) /\
  (0 < a -> Dot H d = 0 -> Cross m H = Zero).
Proof. exact plain_dissipates. Qed.
Print Assumptions c02_damping_dissipates.
Example c02_example : let l := ex_field (CV 0 0 1) (CV 0 1 0) in
  l_includeSTT l = false /\ l_includeSOT l = false /\ l_damping l = 1 / 2 /\
  exists l' d, solveLLG 0 (CV 0 0 1) 1 Zero Zero (CV 0 1 0) l = (l', Ok d).
Proof. exact c02_witness. Qed.

(** C15.  The effective field is the documented sum, defined exactly when all drivers have a value and
    Ms, thickness are nonzero. *)
Theorem c15_effective_field : forall l t dt m b top fl h,
  (exists l', calculateHeff t dt m b top fl l = (l', Ok h)) <->
  exists i, inputs_at l t i /\ l_Ms l <> 0 /\ l_thickness l <> 0 /\
    h = H_eff l i m b top (dipole_total l b top) fl.
Proof. exact heff_spec. Qed.
Print Assumptions c15_effective_field.
Theorem c15_effective_field_injected : forall l t dt m b top dip fl h,
  (exists l', calculateHeffDipoleInjection t dt m b top dip fl l = (l', Ok h)) <->
  exists i, inputs_at l t i /\ l_Ms l <> 0 /\ l_thickness l <> 0 /\ h = H_eff l i m b top dip fl.
Proof. exact heff_inj_spec. Qed.
Print Assumptions c15_effective_field_injected.
(** Affine with coefficient one in external, Oersted, DMI, reserved and fluctuation fields. *)
Theorem c15_affine : forall l t dt m b top fl fl' ex oe dm rs i i' l1 l2 h h',
  let l' := set_l_external ex (set_l_Oersted oe (set_l_Hdmi dm (set_l_Hreserved rs l))) in
  inputs_at l t i -> inputs_at l' t i' ->
  calculateHeff t dt m b top fl l = (l1, Ok h) -> calculateHeff t dt m b top fl' l' = (l2, Ok h') ->
  Minus h' h =
  Sum [Minus (fi_ext i') (fi_ext i); Minus (fi_oe i') (fi_oe i); Minus (fi_dmi i') (fi_dmi i);
       Minus (fi_res i') (fi_res i); Minus fl' fl].
Proof. exact heff_affine. Qed.
Print Assumptions c15_affine.
Theorem c15_frame : forall l t dt m b top fl l' h,
  calculateHeff t dt m b top fl l = (l', Ok h) -> same_but_cache l l'.
Proof. exact heff_frame. Qed.
Print Assumptions c15_frame.
(** What the evaluation leaves for the energy columns of the log; the thermal-field entry is never
    written by it. *)
Theorem c15_remembered_terms : forall l t dt m b top fl l' h,
  calculateHeff t dt m b top fl l = (l', Ok h) ->
  exists i, inputs_at l t i /\
    c_Hext (l_cache l') = fi_ext i /\ c_HAnis (l_cache l') = H_anis (l_anis l) (fi_K i) (l_Ms l) m /\
    c_HIEC (l_cache l') = IEC_total l i m b top /\
    c_Hdemag (l_cache l') = H_tensor (l_demag l) (l_Ms l) m /\
    c_K_log (l_cache l') = fi_K i /\ c_Jbottom_log (l_cache l') = fi_Jb i /\
    c_Jtop_log (l_cache l') = fi_Jt i /\ c_Hfluctuation (l_cache l') = c_Hfluctuation (l_cache l).
Proof. exact heff_logged. Qed.
Print Assumptions c15_remembered_terms.
Example c15_example : inputs_at (ex_field (CV 0 0 1) (CV 3 1 0)) 0 (FI (CV 3 1 0) Zero Zero Zero 0 0 0 0 0 Zero Zero).
Proof. exact (ex_field_inputs _ _ _). Qed.

(** C16.  Directional derivatives of -K (n.m)^2 along every v. *)
Theorem c16_anisotropy_gradient : forall l t m v K l' h,
  getCurrentScalarValue (l_anisotropy l) t = Ok K ->
  calculateAnisotropy m t l = (l', Ok h) ->
  derivable_pt_lim (fun s => - K * (Dot (l_anis l) (Plus m (Scal s v))) ^ 2) 0 (- l_Ms l * Dot h v).
Proof. exact anis_gradient. Qed.
Print Assumptions c16_anisotropy_gradient.
Example c16_example : exists l',
  calculateAnisotropy (CV 1 0 1) 0 (set_l_anisotropy (cdrv 5) (ex_layer "a" (CV 0 0 1))) =
    (l', Ok (H_anis (CV 0 0 1) 5 1 (CV 1 0 1))).
Proof. exact (ex_intro _ _ (Anis_ok 0 (CV 1 0 1) (set_l_anisotropy (cdrv 5) (ex_layer "a" (CV 0 0 1))) 5 eq_refl R1_neq_R0)). Qed.

(** C17. *)
Theorem c17_exchange_gradient : forall l J J2 m c v h,
  calculateIEC_ l J J2 m c = Ok h ->
  derivable_pt_lim (fun s => - J * Dot c (Plus m (Scal s v)) - J2 * (Dot c (Plus m (Scal s v))) ^ 2) 0
    (- (l_Ms l * l_thickness l) * Dot h v).
Proof. exact iec_gradient. Qed.
Print Assumptions c17_exchange_gradient.
(** The whole exchange field of a layer is the sum of the terms of its two neighbours. *)
Theorem c17_exchange_sum : forall t m b top l l' h, calculateIEC t m b top l = (l', Ok h) ->
  exists jb jt j2b j2t,
   getCurrentScalarValue (l_IECBottom l) t = Ok jb /\ getCurrentScalarValue (l_IECTop l) t = Ok jt /\
   getCurrentScalarValue (l_QuadBottom l) t = Ok j2b /\ getCurrentScalarValue (l_QuadTop l) t = Ok j2t /\
   l_Ms l * l_thickness l <> 0 /\
   h = Plus (H_iec jb j2b (l_Ms l * l_thickness l) m b) (H_iec jt j2t (l_Ms l * l_thickness l) m top).
Proof. exact iec_full. Qed.
Print Assumptions c17_exchange_sum.
(** Action-reaction for a pair sharing one coupling (what the coupling setters establish, C10). *)
Theorem c17_action_reaction : forall t m1 m2 lo up lo' up' h1 h2,
  l_IECTop lo = l_IECBottom up -> l_QuadTop lo = l_QuadBottom up ->
  calculateIEC t m1 vnull m2 lo = (lo', Ok h1) -> calculateIEC t m2 m1 vnull up = (up', Ok h2) ->
  Plus (Scal (l_Ms lo * l_thickness lo) (Cross m1 h1)) (Scal (l_Ms up * l_thickness up) (Cross m2 h2)) = Zero.
Proof. exact iec_action_reaction. Qed.
Print Assumptions c17_action_reaction.
Example c17_example : l_IECTop ex_lo = l_IECBottom ex_up /\ l_QuadTop ex_lo = l_QuadBottom ex_up /\
  exists lo' up' h1 h2,
  calculateIEC 0 (CV 0 0 1) vnull (CV 1 0 0) ex_lo = (lo', Ok h1) /\
  calculateIEC 0 (CV 1 0 0) (CV 0 0 1) vnull ex_up = (up', Ok h2) /\ h1 <> Zero.
Proof. exact c17_witness. Qed.

(** C18.  General formula for the total torque of a pair coupled by interlayer DMI, and a witness in
    which it does not vanish along D. *)
Theorem c18_idmi_total_torque : forall t m1 m2 lo up lo' up' h1 h2 D,
  getCurrentAxialDrivers (l_IDMITop lo) t = Ok D -> getCurrentAxialDrivers (l_IDMIBottom up) t = Ok D ->
  calculateIDMI t m1 vnull m2 lo = (lo', Ok h1) -> calculateIDMI t m2 m1 vnull up = (up', Ok h2) ->
  let total := Plus (Scal (l_Ms lo * l_thickness lo) (Cross m1 h1)) (Scal (l_Ms up * l_thickness up) (Cross m2 h2)) in
  total = Plus (Cross m1 (Cross m2 D)) (Cross m2 (Cross m1 D)) /\
  Dot D total = 2 * (Dot m1 D * Dot m2 D - Dot m1 m2 * Norm2 D).
Proof. exact idmi_total_torque. Qed.
Print Assumptions c18_idmi_total_torque.
Theorem c18_action_reaction_refuted : exists t m1 m2 lo up lo' up' h1 h2,
  l_IDMITop lo = l_IDMIBottom up /\
  calculateIDMI t m1 vnull m2 lo = (lo', Ok h1) /\ calculateIDMI t m2 m1 vnull up = (up', Ok h2) /\
  Plus (Scal (l_Ms lo * l_thickness lo) (Cross m1 h1)) (Scal (l_Ms up * l_thickness up) (Cross m2 h2)) <> Zero.
Proof. exact idmi_refuted. Qed.
Print Assumptions c18_action_reaction_refuted.

(** C20.  With the magnetisation on the polariser axis the derivative equals that of the same layer
    without spin torques. *)
Theorem c20_torques_vanish_on_polariser : forall l t m b top dt l' d,
  Cross m (polariser l b top) = Zero ->
  calculateLLGWithFieldTorque t m b top dt l = (l', Ok d) ->
  exists l'', calculateLLGWithFieldTorque t m b top dt (without_torques l) = (l'', Ok d).
Proof. exact torques_vanish. Qed.
Print Assumptions c20_torques_vanish_on_polariser.
Example c20_example :
  Cross (CV (-1) 0 0) (polariser (ex_stt (CV (-1) 0 0) (CV 0 1 0)) Zero Zero) = Zero /\
  exists l' d, calculateLLGWithFieldTorque 0 (CV (-1) 0 0) Zero Zero 1 (ex_stt (CV (-1) 0 0) (CV 0 1 0)) = (l', Ok d).
Proof. exact c20_witness. Qed.
