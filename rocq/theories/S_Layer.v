(** Specification vocabulary for the physics of one layer: constants, driver values at an instant,
    the documented effective-field terms and torques.  Uses only S_Vec.v and the layer record. *)
From Verif Require Export S_Vec M_Layer.
Open Scope R_scope.

(** Constants as documented (SI): mu0 = 1.257e-6, gamma0 = 2.2088e5, h/(2 pi), e, k_B. *)
Definition mu0 : R := 1257 / 1000000000.
Definition gamma0 : R := 220880.
Definition hbar : R := 662607015 / 10 ^ 42 / (2 * PI).
Definition e0 : R := 160217662 / 10 ^ 27.
Definition kB : R := 1380649 / 10 ^ 29.

(** The values of all drivers entering the effective field at one instant. *)
Record field_inputs := FI {
  fi_ext : cvec; fi_oe : cvec; fi_dmi : cvec; fi_res : cvec;
  fi_K : R; fi_Jb : R; fi_Jt : R; fi_J2b : R; fi_J2t : R; fi_Db : cvec; fi_Dt : cvec }.
Definition inputs_at (l : layer) (t : R) (i : field_inputs) : Prop :=
  getCurrentAxialDrivers (l_external l) t = Ok (fi_ext i) /\
  getCurrentAxialDrivers (l_Oersted l) t = Ok (fi_oe i) /\
  getCurrentAxialDrivers (l_Hdmi l) t = Ok (fi_dmi i) /\
  getCurrentAxialDrivers (l_Hreserved l) t = Ok (fi_res i) /\
  getCurrentScalarValue (l_anisotropy l) t = Ok (fi_K i) /\
  getCurrentScalarValue (l_IECBottom l) t = Ok (fi_Jb i) /\
  getCurrentScalarValue (l_IECTop l) t = Ok (fi_Jt i) /\
  getCurrentScalarValue (l_QuadBottom l) t = Ok (fi_J2b i) /\
  getCurrentScalarValue (l_QuadTop l) t = Ok (fi_J2t i) /\
  getCurrentAxialDrivers (l_IDMIBottom l) t = Ok (fi_Db i) /\
  getCurrentAxialDrivers (l_IDMITop l) t = Ok (fi_Dt i).

(** Uniaxial anisotropy (2K/Ms)(n.m) n. *)
Definition H_anis (n : cvec) (K Ms : R) (m : cvec) : cvec := Scal (2 * K / Ms * Dot n m) n.
(** Interlayer exchange to the neighbour c. *)
Definition H_iec (J J2 Mst : R) (m c : cvec) : cvec := Scal ((J + 2 * J2 * Dot m c) / Mst) c.
(** Interlayer DMI to the neighbour c. *)
Definition H_idmi (D : cvec) (Mst : R) (c : cvec) : cvec := Scal (1 / Mst) (Cross c D).
(** Demagnetising / dipolar tensor field (without its minus sign). *)
Definition H_tensor (N : tensor) (Ms : R) (m : cvec) : cvec := Scal (Ms / mu0) (MatVec N m).

Definition IEC_total (l : layer) (i : field_inputs) (m b top : cvec) : cvec :=
  Plus (H_iec (fi_Jb i) (fi_J2b i) (l_Ms l * l_thickness l) m b)
       (H_iec (fi_Jt i) (fi_J2t i) (l_Ms l * l_thickness l) m top).
Definition IDMI_total (l : layer) (i : field_inputs) (b top : cvec) : cvec :=
  Plus (H_idmi (fi_Db i) (l_Ms l * l_thickness l) b)
       (H_idmi (fi_Dt i) (l_Ms l * l_thickness l) top).
Definition dipole_total (l : layer) (b top : cvec) : cvec :=
  Plus (H_tensor (l_dipoleBottom l) (l_Ms l) b) (H_tensor (l_dipoleTop l) (l_Ms l) top).

(** The documented sum. *)
Definition H_eff (l : layer) (i : field_inputs) (m b top dipole fluct : cvec) : cvec :=
  Sum [ fi_ext i; H_anis (l_anis l) (fi_K i) (l_Ms l) m; IEC_total l i m b top;
        IDMI_total l i b top; fi_oe i; fi_dmi i; fluct;
        Scal (-1) (H_tensor (l_demag l) (l_Ms l) m); Scal (-1) dipole; fi_res i ].

(** The layer differs from [l] at most in the values remembered for logging. *)
Definition same_but_cache (l l' : layer) : Prop := l' = set_l_cache (l_cache l') l.

(** Polarisation (reference) vector of the spin torques. *)
Definition polariser (l : layer) (b top : cvec) : cvec :=
  match l_refType l with RFIXED => l_reference l | RTOP => top | RBOTTOM => b | RNONE => Zero end.

(** Landau-Lifshitz form of the damped precession, without the prefactor. *)
Definition LL (alpha : R) (m H : cvec) : cvec :=
  Plus (Cross m H) (Scal alpha (Cross m (Cross m H))).
(** Prefactor -gamma0/(1+alpha^2). *)
Definition prefactor (alpha : R) : R := - gamma0 / (1 + alpha * alpha).
(** Plain LLG derivative. *)
Definition LLG_plain (alpha : R) (m H : cvec) : cvec := Scal (prefactor alpha) (LL alpha m H).
(** Spin-transfer torque with amplitude a_J * eta: damping-like (kappa) and field-like (beta). *)
Definition LLG_stt (alpha kappa beta ajeta : R) (m H p : cvec) : cvec :=
  Scal (prefactor alpha)
    (Plus (LL alpha m H) (Plus (Scal (ajeta * kappa) (Cross m (Cross m p)))
                               (Scal (- (ajeta * beta)) (Cross m p)))).
(** Spin-orbit torque with fields Hdl, Hfl. *)
Definition LLG_sot (alpha Hdl Hfl : R) (m H p : cvec) : cvec :=
  Scal (prefactor alpha)
    (Plus (LL alpha m H) (Plus (Scal (Hfl - alpha * Hdl) (Cross m p))
                               (Scal (Hdl + alpha * Hfl) (Cross m (Cross m p))))).
(** Slonczewski efficiency: denominator and value, classical or simplified. *)
Definition eta_den (alt : bool) (lam mp : R) : R :=
  if alt then 1 + lam * mp else lam * lam + 1 + (lam * lam - 1) * mp.
Definition eta (alt : bool) (pol lam mp : R) : R :=
  (if alt then pol else pol * (lam * lam)) / eta_den alt lam mp.
Definition a_J (I Ms th : R) : R := hbar * I / (e0 * Ms * th).

(** What the derivative of a layer must be for a given effective field; a relation because the
    evaluation may have no value (drivers or divisions failing). *)
Inductive llg_spec (l : layer) (t : R) (m b top H : cvec) : cvec -> Prop :=
| llg_plain : l_includeSTT l = false -> l_includeSOT l = false ->
    llg_spec l t m b top H (LLG_plain (l_damping l) m H)
| llg_stt : forall I, l_includeSTT l = true -> getCurrentScalarValue (l_current l) t = Ok I ->
    l_Ms l <> 0 -> l_thickness l <> 0 ->
    eta_den (l_alternativeSTT l) (l_slon l) (Dot m (polariser l b top)) <> 0 ->
    llg_spec l t m b top H
      (LLG_stt (l_damping l) (l_kappa l) (l_beta l)
         (a_J I (l_Ms l) (l_thickness l) *
          eta (l_alternativeSTT l) (l_spinPol l) (l_slon l) (Dot m (polariser l b top)))
         m H (polariser l b top))
| llg_sot_dynamic : forall hdl hfl, l_includeSTT l = false -> l_includeSOT l = true ->
    l_dynamicSOT l = true ->
    getCurrentScalarValue (l_dlDriver l) t = Ok hdl -> getCurrentScalarValue (l_flDriver l) t = Ok hfl ->
    llg_spec l t m b top H (LLG_sot (l_damping l) hdl hfl m H (polariser l b top))
| llg_sot_static : forall I, l_includeSTT l = false -> l_includeSOT l = true ->
    l_dynamicSOT l = false -> getCurrentScalarValue (l_current l) t = Ok I ->
    llg_spec l t m b top H
      (LLG_sot (l_damping l) (l_dampingLikeTorque l * I) (l_fieldLikeTorque l * I) m H (polariser l b top)).
