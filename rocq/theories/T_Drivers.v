(** C22-C28: theorems about scalar and axial drivers. *)
From Verif Require Import P_Vec P_Drivers P_DriversMore.
Open Scope R_scope.

(** C22.  A constant driver returns its value at all times. *)
Theorem c22_constant : forall c, exists d, getConstantDriver c = Ok d /\
  forall t, getCurrentScalarValue d t = Ok c.
Proof. exact constant_driver. Qed.
Print Assumptions c22_constant.

(** C22.  A step driver adds its amplitude exactly on the closed window and refuses empty windows. *)
Theorem c22_step : forall c a ts te,
  (te <= ts -> exists msg, getStepDriver c a ts te = Err (Throw msg)) /\
  (ts < te -> exists d, getStepDriver c a ts te = Ok d /\ forall t,
     (ts <= t <= te -> getCurrentScalarValue d t = Ok (c + a)) /\
     (t < ts \/ te < t -> getCurrentScalarValue d t = Ok c)).
Proof. exact step_driver. Qed.
Print Assumptions c22_step.

(** C22.  Sine driver: waveform, bounds, period 1/f; the sentinel frequency -1 is refused. *)
Theorem c22_sine : forall c a f ph,
  (f = -1 -> exists msg, getSineDriver c a f ph = Err (Throw msg)) /\
  (f <> -1 -> exists d, getSineDriver c a f ph = Ok d /\ forall t,
     exists v, getCurrentScalarValue d t = Ok v /\
       v = c + a * sin (2 * PI * f * t + ph) /\
       c - Rabs a <= v <= c + Rabs a /\
       (f <> 0 -> getCurrentScalarValue d (t + 1 / f) = Ok v)).
Proof. exact sine_driver. Qed.
Print Assumptions c22_sine.

(** C22.  Positive sine never falls below its constant. *)
Theorem c22_positive_sine : forall c a f ph,
  exists d, getPosSineDriver c a f ph = Ok d /\ forall t,
     exists v, getCurrentScalarValue d t = Ok v /\
       v = c + Rabs (a * sin (2 * PI * f * t + ph)) /\ c <= v <= c + Rabs a.
Proof. exact posine_driver. Qed.
Print Assumptions c22_positive_sine.

(** C22.  Pulse train: with period [per] > 0, at time k*per + s (0 <= s < per) the driver is high
    exactly when s <= cycle*per - in particular it is periodic on t >= 0.  The sentinels -1 are
    refused; beyond 2^31 periods the C++ cast is undefined. *)
Theorem c22_pulse : forall c a per cyc,
  (per = -1 \/ cyc = -1 -> exists msg, getPulseDriver c a per cyc = Err (Throw msg)) /\
  (0 < per -> cyc <> -1 -> exists d, getPulseDriver c a per cyc = Ok d /\
     (forall (k : nat) s, 0 <= s < per -> INR k < 2147483648 ->
        (s <= cyc * per -> getCurrentScalarValue d (INR k * per + s) = Ok (c + a)) /\
        (cyc * per < s -> getCurrentScalarValue d (INR k * per + s) = Ok c)) /\
     (forall t, 2147483648 * per <= t -> getCurrentScalarValue d t = Err Undefined)).
Proof. exact pulse_driver. Qed.
Print Assumptions c22_pulse.

(** C22.  Shifting the phase: the sine advances by p, and whole turns do nothing. *)
Theorem c22_phase_shift : forall d p t,
  (forall c a f ph, getSineDriver c a f ph = Ok d ->
    getCurrentScalarValue (phaseShift d p) t = Ok (c + a * sin (2 * PI * f * t + ph + p))) /\
  (forall k, d_update d = sine \/ d_update d = posine \/ d_update d = halfsine ->
    p = 2 * INR k * PI -> getCurrentScalarValue (phaseShift d p) t = getCurrentScalarValue d t).
Proof.
  exact (fun d p t => conj (fun c a f ph => @phase_shift_value d p t c a f ph)
                           (fun k => @phase_shift_whole d p t k)).
Qed.
Print Assumptions c22_phase_shift.

(** C23.  The half-sine driver adds the sine only where it is non-positive: it never exceeds its
    constant, for every amplitude. *)
Theorem c23_half_sine : forall c a f ph,
  exists d, getHalfSineDriver c a f ph = Ok d /\ forall t,
     exists v, getCurrentScalarValue d t = Ok v /\
       v = c + Rmin 0 (a * sin (2 * PI * f * t + ph)) /\ c - Rabs a <= v <= c.
Proof. exact halfsine_driver. Qed.
Print Assumptions c23_half_sine.

(** C24.  Trapezoid: equals the clamped two-sided ramp, stays between constant and
    constant+amplitude and is Lipschitz continuous with constant |amplitude|/edge. *)
Theorem c24_trapezoid : forall c a ts edge steady, 0 < edge -> 0 <= steady ->
  exists d, getTrapezoidDriver c a ts edge steady = Ok d /\
   forall t, exists v, getCurrentScalarValue d t = Ok v /\
     v = c + a * trapezoid_shape ts edge steady t /\
     (Rmin c (c + a) <= v <= Rmax c (c + a)) /\
     (forall t' v', getCurrentScalarValue d t' = Ok v' -> Rabs (v - v') <= Rabs a / edge * Rabs (t - t')).
Proof. exact trapezoid_driver. Qed.
Print Assumptions c24_trapezoid.

(** C24 (error branch).  With a zero edge time the value at the start instant is not a number. *)
Theorem c24_zero_edge : forall c a ts steady, 0 <= steady ->
  exists d, getTrapezoidDriver c a ts 0 steady = Ok d /\
   getCurrentScalarValue d ts = Err NonFinite /\
   (forall t, ts < t <= ts + steady -> getCurrentScalarValue d t = Ok (c + a)) /\
   (forall t, t < ts \/ ts + steady < t -> getCurrentScalarValue d t = Ok c).
Proof. exact trapezoid_zero_edge. Qed.
Print Assumptions c24_zero_edge.

(** C25.  Gaussian impulse: peak at t0, symmetric, strictly between constant and peak elsewhere. *)
Theorem c25_gaussian_impulse : forall c a t0 sigma, sigma <> 0 ->
  exists d, getGaussianImpulseDriver c a t0 sigma = Ok d /\
   getCurrentScalarValue d t0 = Ok (c + a) /\
   forall t, exists v, getCurrentScalarValue d t = Ok v /\
     v = c + a * exp (- (t - t0) ^ 2 / (2 * sigma ^ 2)) /\
     getCurrentScalarValue d (2 * t0 - t) = Ok v /\
     (t <> t0 -> 0 < a -> c < v < c + a) /\ (t <> t0 -> a < 0 -> c + a < v < c).
Proof. exact gauss_driver. Qed.
Print Assumptions c25_gaussian_impulse.

(** C25 (finding).  The "Gaussian step" factory builds exactly the Gaussian impulse. *)
Theorem c25_gaussian_step_is_impulse : forall c a t0 sigma,
  getGaussianStepDriver c a t0 sigma = getGaussianImpulseDriver c a t0 sigma.
Proof. exact gauss_step_is_impulse. Qed.
Print Assumptions c25_gaussian_step_is_impulse.

(** C25.  The Gaussian step waveform itself (reachable through the general constructor only): half the
    amplitude at t0, and the rise is the normal density with deviation sigma; a zero sigma is a sharp step
    that is not a number at t0. *)
Theorem c25_gaussian_step_wave : forall c a t0 sigma d,
  mkScalarDriver gaussstep c a (-1) (-1) (-1) (-1) t0 (-1) sigma (-1) = Ok d -> sigma <> 0 ->
  exists v, (forall t, getCurrentScalarValue d t = Ok (v t)) /\ v t0 = c + a / 2 /\
    forall t, derivable_pt_lim v t (a / (sigma * sqrt (2 * PI)) * exp (- (t - t0) ^ 2 / (2 * sigma ^ 2))).
Proof. exact gauss_step_wave. Qed.
Print Assumptions c25_gaussian_step_wave.
Theorem c25_gaussian_step_sharp : forall c a t0 d t,
  mkScalarDriver gaussstep c a (-1) (-1) (-1) (-1) t0 (-1) 0 (-1) = Ok d ->
  (t < t0 -> getCurrentScalarValue d t = Ok c) /\ (t0 < t -> getCurrentScalarValue d t = Ok (c + a)) /\
  (t = t0 -> getCurrentScalarValue d t = Err NonFinite).
Proof. exact gauss_step_sharp. Qed.
Print Assumptions c25_gaussian_step_sharp.
Example c25_gaussian_step_example : exists d, mkScalarDriver gaussstep 1 2 (-1) (-1) (-1) (-1) 3 (-1) 4 (-1) = Ok d /\
  getCurrentScalarValue d 3 = Ok 2.
Proof.
  eexists. split; [reflexivity|]. destruct (gauss_step_wave 1 2 3 4 _ eq_refl) as (v & E & E0 & _); [lra|].
  rewrite E, E0. f_equal. lra.
Qed.

(** C26.  Scaling: for every driver a constructor can produce, d*k and d*=k agree and have k times
    the value at every time (same errors), for every amplitude-linear kind, or any kind if k >= 0. *)
Theorem c26_scaling : forall d k, constructible d -> (amplitude_linear (d_update d) \/ 0 <= k) ->
  exists d', driver_mul d k = Ok d' /\ driver_imul d k = d' /\ constructible d' /\
    forall t, getCurrentScalarValue d' t = map_result (fun v => k * v) (getCurrentScalarValue d t).
Proof. exact mul_value. Qed.
Print Assumptions c26_scaling.

(** C26.  The restriction is needed: a positive sine scaled by -1 is not negated. *)
Theorem c26_scaling_restriction : exists d k t, constructible d /\ d_update d = posine /\
  getCurrentScalarValue (driver_imul d k) t <> map_result (fun v => k * v) (getCurrentScalarValue d t).
Proof. exact mul_posine_negative. Qed.
Print Assumptions c26_scaling_restriction.

(** C26.  Adding v: a constant driver is shifted by v; a driver with waveform w (same driver with
    constant 0 and amplitude 1) is shifted by v + v*w. *)
Theorem c26_adding : forall d v, constructible d ->
  exists d', driver_add d v = Ok d' /\ driver_iadd d v = d' /\
   forall t,
    (d_update d = constant ->
       getCurrentScalarValue d' t = map_result (fun x => x + v) (getCurrentScalarValue d t)) /\
    (d_update d <> constant -> amplitude_linear (d_update d) ->
       forall x w, getCurrentScalarValue d t = Ok x -> getCurrentScalarValue (unit_wave d) t = Ok w ->
       getCurrentScalarValue d' t = Ok (x + v + v * w)).
Proof. exact add_value. Qed.
Print Assumptions c26_adding.

Example c26_adding_example : exists d d', getSineDriver 1 2 3 0 = Ok d /\ driver_add d 1 = Ok d' /\
   getCurrentScalarValue d' (1 / 12) = Ok 5 /\ getCurrentScalarValue d (1 / 12) = Ok 3.
Proof. exact sine_add_example. Qed.

(** C26.  Replacing the constant shifts the value by the difference of the constants, for every kind. *)
Theorem c26_set_constant : forall d v t,
  getCurrentScalarValue (setConstantValue d v) t = map_result (fun x => x - d_const d + v) (getCurrentScalarValue d t) /\
  d_const (setConstantValue d v) = v.
Proof. exact set_constant_value. Qed.
Print Assumptions c26_set_constant.

(** C27.  Masking: success exactly for 0/1 masks; each component is replaced by the zero driver or
    untouched; an offending entry raises after the earlier components were processed. *)
Theorem c27_mask : forall (a b c : nat) d d' r, applyMask [a; b; c] d = (d', r) ->
  (r = Ok tt <-> (a <= 1 /\ b <= 1 /\ c <= 1)%nat) /\
  (~ (a <= 1 /\ b <= 1 /\ c <= 1)%nat -> exists msg, r = Err (Throw msg)) /\
  (a = 0%nat -> forall t, getCurrentScalarValue (ax0 d') t = Ok 0) /\ (a <> 0%nat -> ax0 d' = ax0 d) /\
  ((a <= 1)%nat -> b = 0%nat -> forall t, getCurrentScalarValue (ax1 d') t = Ok 0) /\
  (((1 < a)%nat \/ b <> 0%nat) -> ax1 d' = ax1 d) /\
  ((a <= 1)%nat -> (b <= 1)%nat -> c = 0%nat -> forall t, getCurrentScalarValue (ax2 d') t = Ok 0) /\
  (((1 < a)%nat \/ (1 < b)%nat \/ c <> 0%nat) -> ax2 d' = ax2 d).
Proof. exact mask_spec. Qed.
Print Assumptions c27_mask.

(** C27.  The vector overload truncates each component to an integer mask. *)
Theorem c27_mask_vector : forall (a b c : nat) x y z d,
  INR a <= x < INR a + 1 -> INR b <= y < INR b + 1 -> INR c <= z < INR c + 1 ->
  INR a + 1 <= 4294967296 -> INR b + 1 <= 4294967296 -> INR c + 1 <= 4294967296 ->
  applyMaskVec (CV x y z) d = applyMask [a; b; c] d.
Proof. exact maskvec_spec. Qed.
Print Assumptions c27_mask_vector.

Example c27_mask_example :
  exists x y z, getConstantDriver 1 = Ok x /\ getConstantDriver 2 = Ok y /\ getConstantDriver 3 = Ok z /\
  getCurrentAxialDrivers (fst (applyMask [1; 0; 1]%nat (AX x y z))) 7 = Ok (CV 1 0 3).
Proof. exact mask_example. Qed.

(** C27.  Factories and accessors of axial drivers. *)
Theorem c27_axial_factories : forall d t v, getCurrentScalarValue d t = Ok v ->
  getCurrentAxialDrivers (getUniAxialDriver d xaxis) t = Ok (CV v 0 0) /\
  getCurrentAxialDrivers (getUniAxialDriver d yaxis) t = Ok (CV 0 v 0) /\
  getCurrentAxialDrivers (getUniAxialDriver d zaxis) t = Ok (CV 0 0 v) /\
  getCurrentAxialDrivers (getUniAxialDriver d all_axes) t = Ok (CV v v v) /\
  getCurrentAxialDrivers (getUniAxialDriver d none_axis) t = Ok (CV 0 0 0).
Proof. exact uniaxial. Qed.
Print Assumptions c27_axial_factories.
Theorem c27_axial_constant : forall v, exists d, axial_of_vec v = Ok d /\
  (forall t, getCurrentAxialDrivers d t = Ok v) /\ getConstantValues d = v.
Proof. exact axial_const. Qed.
Print Assumptions c27_axial_constant.
Theorem c27_axial_list : forall l,
  (forall x y z, l = [x; y; z] -> axial_of_list l = Ok (AX x y z)) /\
  (length l <> 3%nat -> exists msg, axial_of_list l = Err (Throw msg)).
Proof. exact axial_list. Qed.
Print Assumptions c27_axial_list.
Theorem c27_unit_axis : forall d, let u := getUnitAxis d in let c := getConstantValues d in
  (cx c = cx u * Rabs (cx c) /\ (cx u = 1 \/ cx u = -1 \/ cx u = 0)) /\
  (cy c = cy u * Rabs (cy c) /\ (cy u = 1 \/ cy u = -1 \/ cy u = 0)) /\
  (cz c = cz u * Rabs (cz c) /\ (cz u = 1 \/ cz u = -1 \/ cz u = 0)).
Proof. exact unit_axis_spec. Qed.
Print Assumptions c27_unit_axis.

(** C28.  An axial driver evaluates the drivers it was given as long as none is a user subclass... *)
Theorem c28_plain_drivers_kept : forall x y z t vx vy vz,
  (forall f b, x <> DynUser f b) -> (forall f b, y <> DynUser f b) -> (forall f b, z <> DynUser f b) ->
  dyn_value x t = Ok vx -> dyn_value y t = Ok vy -> dyn_value z t = Ok vz ->
  getCurrentAxialDrivers (mkAxial x y z) t = Ok (CV vx vy vz).
Proof. exact axial_plain. Qed.
Print Assumptions c28_plain_drivers_kept.
(** ... but ignores a subclass's own value function: only the base sub-object counts, and a subclass
    of a default-constructed driver contributes the constant 0. *)
Theorem c28_override_ignored : forall f g base y z t,
  getCurrentAxialDrivers (mkAxial (DynUser f base) y z) t = getCurrentAxialDrivers (mkAxial (DynUser g base) y z) t /\
  (forall v, getCurrentAxialDrivers (mkAxial (DynUser f default_driver) y z) t = Ok v -> cx v = 0).
Proof.
  exact (fun f g base y z t => conj (user_override_ignored f g base y z t)
                                    (fun v => @user_default_is_zero f y z t v)).
Qed.
Print Assumptions c28_override_ignored.
(** ... and that sub-object is evaluated as a plain driver would be. *)
Theorem c28_override_is_base : forall f g h bx by_ bz t,
  getCurrentAxialDrivers (mkAxial (DynUser f bx) (DynUser g by_) (DynUser h bz)) t =
  getCurrentAxialDrivers (mkAxial (DynScalar bx) (DynScalar by_) (DynScalar bz)) t.
Proof. exact user_is_base. Qed.
Print Assumptions c28_override_is_base.
Example c28_override_example :
  dyn_value (DynUser (fun _ => Ok 5) default_driver) 1 = Ok 5 /\
  getCurrentAxialDrivers (mkAxial (DynUser (fun _ => Ok 5) default_driver) DynNull DynNull) 1 = Ok (CV 0 0 0).
Proof. exact user_override_example. Qed.
