(** Model of class Layer (core/junction.hpp:115-887): constructors, setters, effective field,
    LLG right-hand side, RK4 step and noise sources. *)
From Verif Require Export M_LayerState.
Open Scope R_scope.
Open Scope st_scope.

Definition empty_cache : lcache :=
  LC vnull vnull vnull vnull vnull vnull vnull vnull vnull vnull vnull vnull vnull 0 0 0 0 0 0.

(** core/junction.hpp:148-170  private constructor.  Checks lengths of the arguments; the
    normalisation on line 165 acts on the by-value *parameter* [mag], the member has already been
    initialised (152) and stays as given.  Line 166 draws three normal numbers.
    [rng]/[nsrc] are the random streams of the new object. *)
Definition mkLayer (rng : nat -> R) (nsrc : nat -> nat -> cvec)
    (id : string) (mag anis : cvec) (Ms thickness cellSurface : R) (demag : tensor) (damping : R)
    (fieldLikeTorque dampingLikeTorque slon beta spinPol : R) : result layer :=
  if Req_EM_T (vlength mag) 0 then Err (Throw "Initial magnetisation was set to a zero vector!")
  else if Req_EM_T (vlength anis) 0 then Err (Throw "Anisotropy was set to a zero vector!")
  else Ok (LY id mag anis Ms thickness (cellSurface * thickness) cellSurface demag
    null_tensor null_tensor damping fieldLikeTorque dampingLikeTorque slon beta 1 spinPol
    false false true false false false true false
    vnull RNONE
    default_driver default_driver default_driver default_driver default_driver
    default_driver default_driver default_driver default_driver
    null_axial null_axial null_axial null_axial null_axial null_axial
    1 0 0 all_axes (0%nat, 0, 0) None nsrc 0 rng 3 empty_cache).

(** core/junction.hpp:229-233 *)
Definition Layer_plain rng nsrc id mag anis Ms thickness cellSurface demag damping :=
  mkLayer rng nsrc id mag anis Ms thickness cellSurface demag damping 0 0 0 0 0.
(** core/junction.hpp:257-266, 312-320 *)
Definition LayerSOT rng nsrc id mag anis Ms thickness cellSurface demag damping fl dl :=
  l <-- mkLayer rng nsrc id mag anis Ms thickness cellSurface demag damping fl dl 0 0 0 ;;
  Ok (set_l_dynamicSOT false (set_l_includeSOT true (set_l_includeSTT false l))).
(** core/junction.hpp:291-310 *)
Definition LayerSTT rng nsrc id mag anis Ms thickness cellSurface demag damping slon beta pol :=
  l <-- mkLayer rng nsrc id mag anis Ms thickness cellSurface demag damping 0 0 slon beta pol ;;
  Ok (set_l_includeSOT false (set_l_includeSTT true l)).

(** ** Setters *)

(** core/junction.hpp:334-344 *)
Definition setAlternativeSTT (b : bool) : ST layer unit := modify (set_l_alternativeSTT b).
Definition setKappa (k : R) : ST layer unit := modify (set_l_kappa k).
Definition setTopDipoleTensor (t : tensor) : ST layer unit := modify (set_l_dipoleTop t).
Definition setBottomDipoleTensor (t : tensor) : ST layer unit := modify (set_l_dipoleBottom t).
(** core/junction.hpp:348-351 *)
Definition setTemperatureDriver (d : sdriver) : ST layer unit :=
  modify (set_l_temperature d) ;;; modify (set_l_temperatureSet true).
(** core/junction.hpp:353-358 *)
Definition setNonStochasticLangevinDriver (d : sdriver) : ST layer unit :=
  modify (set_l_temperature d) ;;; modify (set_l_temperatureSet false) ;;;
  modify (set_l_nonStochTemp true).
(** core/junction.hpp:360-367 *)
Definition setOneFNoise (sources : nat) (bias scale : R) : ST layer unit :=
  modify (set_l_ofn (sources, bias, scale)) ;;; modify (set_l_pinkNoiseSet true) ;;;
  modify (set_l_nonStochOneF true).
(** core/junction.hpp:369-377 *)
Definition setAlphaNoise (alpha std scale : R) (a : axis) : ST layer unit :=
  if Rlt_dec alpha 0 then fail (Throw "alpha must be between 0 and 2")
  else if Rlt_dec 2 alpha then fail (Throw "alpha must be between 0 and 2")
  else modify (set_l_nAlpha alpha) ;;; modify (set_l_nStd std) ;;; modify (set_l_nScale scale) ;;;
       modify (set_l_nAxis a) ;;; modify (set_l_pinkNoiseSet true).
(** core/junction.hpp:379-388 with core/noise.hpp:161-185, 251-288: axis [none] throws; a buffer of
    size 0 writes [bufferColoured[0]] out of bounds. *)
Definition createBufferedAlphaNoise (bufferSize : nat) : ST layer unit :=
  l <- get ;;
  if Rlt_dec (l_nAlpha l) 0 then fail (Throw "alpha must be set before creating the noise!")
  else match l_nAxis l with
       | none_axis => fail (Throw "Invalid axis specified")
       | _ => if Nat.eqb bufferSize 0 then fail Undefined
              else modify (set_l_bfn (Some (VN (l_nAxis l) (l_nScale l)
                                               (l_nsrc l (l_ngen l)) 0))) ;;;
                   modify (set_l_ngen (S (l_ngen l)))
       end.
(** core/junction.hpp:390-392 *)
Definition setCurrentDriver (d : sdriver) : ST layer unit := modify (set_l_current d).
(** core/junction.hpp:394-403  the flag is switched on before the checks. *)
Definition setFieldLikeTorqueDriver (d : sdriver) : ST layer unit :=
  modify (set_l_includeSOT true) ;;;
  l <- get ;;
  if l_includeSTT l then fail (Throw "includeSTT was on and now setting SOT interaction!")
  else if negb (l_dynamicSOT l) then
    fail (Throw "used a static SOT definition, now trying to set it dynamically!")
  else modify (set_l_flDriver d).
(** core/junction.hpp:405-414 *)
Definition setDampingLikeTorqueDriver (d : sdriver) : ST layer unit :=
  modify (set_l_includeSOT true) ;;;
  l <- get ;;
  if l_includeSTT l then fail (Throw "includeSTT was on and now setting SOT interaction!")
  else if negb (l_dynamicSOT l) then
    fail (Throw "used a static SOT definition, now trying to set it dynamically!")
  else modify (set_l_dlDriver d).
(** core/junction.hpp:416-425 *)
Definition setAnisotropyDriver (d : sdriver) : ST layer unit := modify (set_l_anisotropy d).
Definition setExternalFieldDriver (d : adriver) : ST layer unit := modify (set_l_external d).
Definition setOerstedFieldDriver (d : adriver) : ST layer unit := modify (set_l_Oersted d).
(** core/junction.hpp:427-434 *)
Definition setMagnetisation (m : cvec) : ST layer unit :=
  if Req_EM_T (vlength m) 0 then fail (Throw "Initial magnetisation was set to a zero vector!")
  else modify (set_l_mag m) ;;; modify (fun l => set_l_mag (vnormalize (l_mag l)) l).
(** core/junction.hpp:436-466 *)
Definition setIECDriverBottom (d : sdriver) : ST layer unit := modify (set_l_IECBottom d).
Definition setIECDriverTop (d : sdriver) : ST layer unit := modify (set_l_IECTop d).
Definition setQuadIECDriverTop (d : sdriver) : ST layer unit := modify (set_l_QuadTop d).
Definition setQuadIECDriverBottom (d : sdriver) : ST layer unit := modify (set_l_QuadBottom d).
Definition setIDMIDriverTop (d : adriver) : ST layer unit := modify (set_l_IDMITop d).
Definition setIDMIDriverBottom (d : adriver) : ST layer unit := modify (set_l_IDMIBottom d).
Definition setHdmiDriver (d : adriver) : ST layer unit := modify (set_l_Hdmi d).
Definition setReservedInteractionField (d : adriver) : ST layer unit := modify (set_l_Hreserved d).
(** core/junction.hpp:474-477 *)
Definition setReferenceLayerVec (r : cvec) : ST layer unit :=
  modify (set_l_reference r) ;;; modify (set_l_refType RFIXED).
(** core/junction.hpp:485-491 *)
Definition setReferenceLayerType (r : reference) : ST layer unit :=
  l <- get ;;
  match r with
  | RFIXED => if Req_EM_T (vlength (l_reference l)) 0
              then fail (Throw "Cannot set fixed polarisation layer to 0!")
              else modify (set_l_refType r)
  | _ => modify (set_l_refType r)
  end.

(** ** Effective field *)

(** core/junction.hpp:558-561 *)
Definition calculateExternalField (time : R) : ST layer cvec :=
  l <- get ;;
  h <- lift (getCurrentAxialDrivers (l_external l) time) ;;
  modify (upd_cache (set_c_H_log h)) ;;; ret h.
(** core/junction.hpp:549-552 *)
Definition calculateHOeField (time : R) : ST layer cvec :=
  l <- get ;;
  h <- lift (getCurrentAxialDrivers (l_Oersted l) time) ;;
  modify (upd_cache (set_c_Hoe_log h)) ;;; ret h.
(** core/junction.hpp:554-556 *)
Definition calculateHdmiField (time : R) : ST layer cvec :=
  l <- get ;; lift (getCurrentAxialDrivers (l_Hdmi l) time).
(** core/junction.hpp:563-568  (division by Ms is a scalar IEEE division). *)
Definition calculateAnisotropy (stepMag : cvec) (time : R) : ST layer cvec :=
  l <- get ;;
  k <- lift (getCurrentScalarValue (l_anisotropy l) time) ;;
  modify (upd_cache (set_c_K_log k)) ;;;
  nom <- lift (fdiv ((2 * k) * c_dot (l_anis l) stepMag) (l_Ms l)) ;;
  ret (vscale (l_anis l) nom).
(** core/junction.hpp:570-578  vector division, throws when Ms*thickness = 0. *)
Definition calculateIEC_ (l : layer) (J J2 : R) (stepMag coupledMag : cvec) : result cvec :=
  vdiv (vscale coupledMag (J + 2 * J2 * c_dot coupledMag stepMag)) (l_Ms l * l_thickness l).
(** core/junction.hpp:580-591 *)
Definition calculateIEC (time : R) (stepMag bottom top : cvec) : ST layer cvec :=
  l <- get ;;
  jb <- lift (getCurrentScalarValue (l_IECBottom l) time) ;;
  modify (upd_cache (set_c_Jbottom_log jb)) ;;;
  jt <- lift (getCurrentScalarValue (l_IECTop l) time) ;;
  modify (upd_cache (set_c_Jtop_log jt)) ;;;
  j2b <- lift (getCurrentScalarValue (l_QuadBottom l) time) ;;
  modify (upd_cache (set_c_J2bottom_log j2b)) ;;;
  j2t <- lift (getCurrentScalarValue (l_QuadTop l) time) ;;
  modify (upd_cache (set_c_J2top_log j2t)) ;;;
  hb <- lift (calculateIEC_ l jb j2b stepMag bottom) ;;
  ht <- lift (calculateIEC_ l jt j2t stepMag top) ;;
  ret (vadd hb ht).
(** core/junction.hpp:593-605 *)
Definition calculateIDMI_ (l : layer) (Dvector stepMag coupledMag : cvec) : result cvec :=
  let dm1crossm2 := CV
    (c_dot Dvector (CV 0 (- cz coupledMag) (cy coupledMag)))
    (c_dot Dvector (CV (cz coupledMag) 0 (- cx coupledMag)))
    (c_dot Dvector (CV (- cy coupledMag) (cx coupledMag) 0)) in
  vdiv dm1crossm2 (l_Ms l * l_thickness l).
(** core/junction.hpp:607-613 *)
Definition calculateIDMI (time : R) (stepMag bottom top : cvec) : ST layer cvec :=
  l <- get ;;
  db <- lift (getCurrentAxialDrivers (l_IDMIBottom l) time) ;;
  hb <- lift (calculateIDMI_ l db stepMag bottom) ;;
  dt <- lift (getCurrentAxialDrivers (l_IDMITop l) time) ;;
  ht <- lift (calculateIDMI_ l dt stepMag top) ;;
  ret (vadd hb ht).

(** core/junction.hpp:517-547 *)
Definition calculateHeffDipoleInjection (time timeStep : R)
    (stepMag bottom top dipole Hfluctuation : cvec) : ST layer cvec :=
  hext <- calculateExternalField time ;;
  modify (upd_cache (set_c_Hext hext)) ;;;
  hoe <- calculateHOeField time ;;
  modify (upd_cache (set_c_Hoe hoe)) ;;;
  l <- get ;;
  let hdemag := calculate_tensor_interaction stepMag (l_demag l) (l_Ms l) in
  modify (upd_cache (set_c_Hdemag hdemag)) ;;;
  hiec <- calculateIEC time stepMag bottom top ;;
  modify (upd_cache (set_c_HIEC hiec)) ;;;
  hidmi <- calculateIDMI time stepMag bottom top ;;
  modify (upd_cache (set_c_Hidmi hidmi)) ;;;
  hanis <- calculateAnisotropy stepMag time ;;
  modify (upd_cache (set_c_HAnis hanis)) ;;;
  hdmi <- calculateHdmiField time ;;
  modify (upd_cache (set_c_Hdmi hdmi)) ;;;
  hres <- lift (getCurrentAxialDrivers (l_Hreserved l) time) ;;
  ret (vadd (vsub (vsub (vadd (vadd (vadd (vadd (vadd (vadd hext hanis) hiec) hidmi) hoe) hdmi)
        Hfluctuation) hdemag) dipole) hres).
(** core/junction.hpp:506-515 *)
Definition calculateHeff (time timeStep : R) (stepMag bottom top Hfluctuation : cvec)
  : ST layer cvec :=
  l <- get ;;
  let hdip := vadd (calculate_tensor_interaction bottom (l_dipoleBottom l) (l_Ms l))
                   (calculate_tensor_interaction top (l_dipoleTop l) (l_Ms l)) in
  modify (upd_cache (set_c_Hdipole hdip)) ;;;
  calculateHeffDipoleInjection time timeStep stepMag bottom top hdip Hfluctuation.

(** ** LLG right-hand side *)

(** core/junction.hpp:637-652 *)
Definition pick_reference (l : layer) (bottom top : cvec) : cvec :=
  match l_refType l with
  | RFIXED => l_reference l
  | RTOP => top
  | RBOTTOM => bottom
  | RNONE => vnull
  end.

(** core/junction.hpp:628-704 *)
Definition solveLLG (time : R) (m : cvec) (timeStep : R) (bottom top heff : cvec)
  : ST layer cvec :=
  l <- get ;;
  let prod := c_cross m heff in
  let prod2 := c_cross m prod in
  convTerm <- lift (fdiv 1 (1 + l_damping l ^ 2)) ;;
  let dmdt := vadd prod (vscale prod2 (l_damping l)) in
  let ref := pick_reference l bottom top in
  if l_includeSTT l then
    i <- lift (getCurrentScalarValue (l_current l) time) ;;
    modify (upd_cache (set_c_I_log i)) ;;;
    aJ <- lift (fdiv (HBAR * i) (ELECTRON_CHARGE * l_Ms l * l_thickness l)) ;;
    eta <- lift (if l_alternativeSTT l then
                   fdiv (l_spinPol l) (1 + l_slon l * c_dot m ref)
                 else
                   let slonSq := l_slon l ^ 2 in
                   fdiv (l_spinPol l * slonSq) (slonSq + 1 + (slonSq - 1) * c_dot m ref)) ;;
    let sttTerm := GYRO * aJ * eta in
    let fieldLike := c_cross m ref in
    let dampingLike := c_cross m fieldLike in
    ret (vscale (vadd (vadd (vscale dmdt (- GYRO))
                            (vscale (vscale dampingLike (- sttTerm)) (l_kappa l)))
                      (vscale (vscale fieldLike sttTerm) (l_beta l))) convTerm)
  else if l_includeSOT l then
    h <- (if l_dynamicSOT l then
            hdl <- lift (getCurrentScalarValue (l_dlDriver l) time) ;;
            hfl <- lift (getCurrentScalarValue (l_flDriver l) time) ;;
            ret (hdl, hfl)
          else
            i <- lift (getCurrentScalarValue (l_current l) time) ;;
            modify (upd_cache (set_c_I_log i)) ;;;
            ret (l_dampingLikeTorque l * i, l_fieldLikeTorque l * i)) ;;
    let Hdl := fst h in
    let Hfl := snd h in
    modify (upd_cache (set_c_Hfl_v (vscale ref (Hfl - l_damping l * Hdl)))) ;;;
    modify (upd_cache (set_c_Hdl_v (vscale ref (Hdl + l_damping l * Hfl)))) ;;;
    let cm := c_cross m ref in
    let ccm := c_cross m cm in
    let flTorque := vscale cm (Hfl - l_damping l * Hdl) in
    let dlTorque := vscale ccm (Hdl + l_damping l * Hfl) in
    ret (vscale (vscale (vadd (vadd dmdt flTorque) dlTorque) (- GYRO)) convTerm)
  else ret (vscale (vscale dmdt (- GYRO)) convTerm).

(** core/junction.hpp:713-720 *)
Definition stochasticTorque (l : layer) (currentMag dW : cvec) : result cvec :=
  convTerm <-- fdiv (- GYRO) (1 + l_damping l ^ 2) ;;
  let thcross := c_cross currentMag dW in
  let thcross2 := c_cross currentMag thcross in
  Ok (vscale (vadd thcross (vscale thcross2 (l_damping l))) convTerm).

(** core/junction.hpp:722-730 *)
Definition calculateLLGWithFieldTorqueDipoleInjection (time : R) (m bottom top dipole : cvec)
    (timeStep : R) (Hfluctuation : cvec) : ST layer cvec :=
  heff <- calculateHeffDipoleInjection time timeStep m bottom top dipole Hfluctuation ;;
  solveLLG time m timeStep bottom top heff.
(** core/junction.hpp:744-753  (the fluctuation argument is defaulted at every call site). *)
Definition calculateLLGWithFieldTorque (time : R) (m bottom top : cvec) (timeStep : R)
  : ST layer cvec :=
  heff <- calculateHeff time timeStep m bottom top vnull ;;
  solveLLG time m timeStep bottom top heff.

(** core/junction.hpp:768-791 and 806-828: the common RK4 scheme, for a right-hand side [f].
    The [isnan] check (788-790) corresponds to the [NonFinite] outcome of [f]. *)
Definition rk4_generic (f : R -> cvec -> ST layer cvec) (time timeStep : R) : ST layer unit :=
  l <- get ;;
  let m_t := l_mag l in
  f1 <- f time m_t ;;
  let k1 := vscale f1 timeStep in
  f2 <- f (time + 1 / 2 * timeStep) (vadd m_t (vscale k1 (1 / 2))) ;;
  let k2 := vscale f2 timeStep in
  f3 <- f (time + 1 / 2 * timeStep) (vadd m_t (vscale k2 (1 / 2))) ;;
  let k3 := vscale f3 timeStep in
  f4 <- f (time + timeStep) (vadd m_t k3) ;;
  let k4 := vscale f4 timeStep in
  inc <- lift (vdiv (vadd (vadd (vadd k1 (vscale k2 2)) (vscale k3 2)) k4) 6) ;;
  modify (set_l_mag (vnormalize (vadd m_t inc))).

(** core/junction.hpp:768-791 *)
Definition rk4_step (time timeStep : R) (bottom top : cvec) : ST layer unit :=
  rk4_generic (fun t m => calculateLLGWithFieldTorque t m bottom top timeStep) time timeStep.
(** core/junction.hpp:806-828 *)
Definition rk4_stepDipoleInjection (time timeStep : R) (bottom top dipole : cvec)
  : ST layer unit :=
  rk4_generic (fun t m =>
    calculateLLGWithFieldTorqueDipoleInjection t m bottom top dipole timeStep vnull) time timeStep.

(** ** Noise *)

(** core/junction.hpp:861-869  sqrt of a negative number is NaN. *)
Definition getLangevinStochasticStandardDeviation (time timeStep : R) (l : layer) : result R :=
  if Req_EM_T (l_cellVolume l) 0 then
    Err (Throw "Cell surface cannot be 0 during temp. calculations!")
  else
    currentTemp <-- getCurrentScalarValue (l_temperature l) time ;;
    mainFactor <-- fdiv (2 * l_damping l * BOLTZMANN_CONST * currentTemp)
                        (l_Ms l * l_cellVolume l * GYRO) ;;
    if Rlt_dec mainFactor 0 then Err NonFinite else Ok (sqrt mainFactor).

(** One call of the bound normal distribution (144-145). *)
Definition draw : ST layer R :=
  fun l => (set_l_rpos (S (l_rpos l)) l, Ok (l_rng l (l_rpos l))).

(** core/junction.hpp:871-878, core/cvector.hpp:45-50 *)
Definition getStochasticLangevinVector (time timeStep : R) : ST layer cvec :=
  l <- get ;;
  if negb (l_temperatureSet l) then ret vnull
  else
    s <- lift (getLangevinStochasticStandardDeviation time timeStep l) ;;
    x <- draw ;; y <- draw ;; z <- draw ;;
    ret (vscale (CV x y z) s).

(** core/noise.hpp:290-300: components without a buffer are NullTickers (0); the sample is
    normalised only for axis [all]; the scale is applied last. *)
Definition tickVector (n : vnoise) : vnoise * cvec :=
  let s := vn_raw n (vn_pos n) in
  let sample := match vn_axis n with
                | xaxis => CV (cx s) 0 0
                | yaxis => CV 0 (cy s) 0
                | zaxis => CV 0 0 (cz s)
                | all_axes => vnormalize s
                | none_axis => vnull
                end in
  (VN (vn_axis n) (vn_scale n) (vn_raw n) (S (vn_pos n)), vscale sample (vn_scale n)).

(** core/junction.hpp:880-886  dereferences [bfn], null before a buffer was created. *)
Definition getOneFVector : ST layer cvec :=
  l <- get ;;
  if Req_EM_T (l_nScale l) 0 then ret vnull
  else match l_bfn l with
       | None => fail Undefined
       | Some n => let (n', v) := tickVector n in modify (set_l_bfn (Some n')) ;;; ret v
       end.
