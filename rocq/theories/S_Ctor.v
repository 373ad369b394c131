(** Specification of freshly constructed objects, getters and the saved table. *)
From Verif Require Export S_Api.
Open Scope R_scope.

(** All driver inputs are zero at all times. *)
Definition undriven (l : layer) : Prop :=
  forall t, inputs_at l t (FI Zero Zero Zero Zero 0 0 0 0 0 Zero Zero) /\
    getCurrentScalarValue (l_current l) t = Ok 0 /\ getCurrentScalarValue (l_temperature l) t = Ok 0 /\
    getCurrentScalarValue (l_flDriver l) t = Ok 0 /\ getCurrentScalarValue (l_dlDriver l) t = Ok 0.
(** Nothing remembered yet. *)
Definition blank (c : lcache) : Prop :=
  Forall (fun v => v = Zero) [c_H_log c; c_Hoe_log c; c_Hext c; c_Hdipole c; c_Hdemag c; c_Hoe c; c_HAnis c;
    c_Hfluctuation c; c_Hdmi c; c_Hidmi c; c_Hfl_v c; c_Hdl_v c; c_HIEC c] /\
  Forall (fun x => x = 0) [c_Jbottom_log c; c_Jtop_log c; c_J2bottom_log c; c_J2top_log c; c_K_log c; c_I_log c].
(** State common to all fresh layers. *)
Definition fresh (rng : nat -> R) (nsrc : nat -> nat -> cvec) (l : layer) : Prop :=
  undriven l /\ blank (l_cache l) /\
  (forall b top, dipole_total l b top = Zero) /\
  quiet l /\ l_nonStochTemp l = false /\ l_pinkNoiseSet l = false /\ l_nonStochOneF l = true /\ l_bfn l = None /\
  l_nAlpha l = 1 /\ l_nStd l = 0 /\ l_nAxis l = all_axes /\ l_ofn l = (0%nat, 0, 0) /\
  l_rng l = rng /\ l_rpos l = 3%nat /\ l_nsrc l = nsrc /\ l_ngen l = 0%nat /\
  l_reference l = Zero /\ l_refType l = RNONE /\ l_alternativeSTT l = false /\ l_kappa l = 1.
(** Geometry and material as given by the caller. *)
Definition material (l : layer) (id : string) (mag anis : cvec) (Ms thickness surface : R) (demag : tensor) (damping : R) : Prop :=
  l_id l = id /\ l_mag l = mag /\ l_anis l = anis /\ l_Ms l = Ms /\ l_thickness l = thickness /\
  l_cellSurface l = surface /\ l_cellVolume l = surface * thickness /\ l_demag l = demag /\ l_damping l = damping.
Definition torque_setup (l : layer) (stt sot dyn : bool) (fl dl slon beta pol : R) : Prop :=
  l_includeSTT l = stt /\ l_includeSOT l = sot /\ l_dynamicSOT l = dyn /\
  l_fieldLikeTorque l = fl /\ l_dampingLikeTorque l = dl /\ l_slon l = slon /\ l_beta l = beta /\ l_spinPol l = pol.
(** The three public constructors. *)
Inductive layer_kind := KPlain | KSOT (fl dl : R) | KSTT (slon beta pol : R).
Definition construct (k : layer_kind) rng nsrc id mag anis Ms thickness surface demag damping : result layer :=
  match k with
  | KPlain => Layer_plain rng nsrc id mag anis Ms thickness surface demag damping
  | KSOT fl dl => LayerSOT rng nsrc id mag anis Ms thickness surface demag damping fl dl
  | KSTT slon beta pol => LayerSTT rng nsrc id mag anis Ms thickness surface demag damping slon beta pol
  end.
Definition kind_setup (k : layer_kind) (l : layer) : Prop :=
  match k with
  | KPlain => torque_setup l false false true 0 0 0 0 0
  | KSOT fl dl => torque_setup l false true false fl dl 0 0 0
  | KSTT slon beta pol => torque_setup l true false true 0 0 slon beta pol
  end.
(** A fresh junction: empty log, and the tag used for the resistance column. *)
Definition empty_junction (ls : list layer) (m : MRmode) (j : junction) : Prop :=
  j_mode j = m /\ j_layers j = ls /\ j_logLength j = 0%nat /\ forall key, log_get key (j_log j) = None.
Definition no_strip (j : junction) : Prop :=
  j_Rx0 j = [] /\ j_Ry0 j = [] /\ j_AMR_X j = [] /\ j_AMR_Y j = [] /\ j_SMR_X j = [] /\ j_SMR_Y j = [] /\ j_AHE j = [].

(** First layer carrying an id. *)
Definition first_with (id : string) (j : junction) (l : layer) : Prop :=
  exists p, nth_error (j_layers j) p = Some l /\ l_id l = id /\
    forall q k, (q < p)%nat -> nth_error (j_layers j) q = Some k -> l_id k <> id.
Definition absent (id : string) (j : junction) : Prop := forall l, In l (j_layers j) -> l_id l <> id.
(** The saved table has one column per log column and one line per row. *)
Definition saved (g : log_t) (n : nat) (header : list string) (rows : list (list R)) : Prop :=
  length header = length g /\ length rows = n /\
  (forall c k col, nth_error g c = Some (k, col) -> nth_error header c = Some k) /\
  forall i row, nth_error rows i = Some row -> length row = length g /\
    forall c k col, nth_error g c = Some (k, col) -> nth_error row c = nth_error col i /\ nth_error col i <> None.

(** Settings reachable only through the layer object. *)
Inductive own_setting :=
| OKappa (k : R) | OTopDipole (t : tensor) | OBottomDipole (t : tensor)
| OAlphaNoise (alpha std scale : R) (a : axis) | OBuffer (size : nat).
Definition own_call (s : own_setting) : ST layer unit :=
  match s with
  | OKappa k => setKappa k
  | OTopDipole t => setTopDipoleTensor t
  | OBottomDipole t => setBottomDipoleTensor t
  | OAlphaNoise al sd sc a => setAlphaNoise al sd sc a
  | OBuffer n => createBufferedAlphaNoise n
  end.
Definition own_accepts (s : own_setting) (l : layer) : Prop :=
  match s with
  | OAlphaNoise al _ _ _ => 0 <= al <= 2
  | OBuffer n => 0 <= l_nAlpha l /\ l_nAxis l <> none_axis /\ n <> 0%nat
  | _ => True
  end.
Definition own_effect (s : own_setting) (l l' : layer) : Prop :=
  match s with
  | OKappa k => l_kappa l' = k /\ same_except [F_kappa] l l'
  | OTopDipole t => l_dipoleTop l' = t /\ same_except [F_dipoleTop] l l'
  | OBottomDipole t => l_dipoleBottom l' = t /\ same_except [F_dipoleBottom] l l'
  | OAlphaNoise al sd sc a => l_nAlpha l' = al /\ l_nStd l' = sd /\ l_nScale l' = sc /\ l_nAxis l' = a /\
      l_pinkNoiseSet l' = true /\ same_except [F_nAlpha; F_nStd; F_nScale; F_nAxis; F_pinkNoiseSet] l l'
  | OBuffer _ => l_bfn l' = Some (VN (l_nAxis l) (l_nScale l) (l_nsrc l (l_ngen l)) 0) /\ l_ngen l' = S (l_ngen l) /\
      same_except [F_bfn; F_ngen] l l'
  end.
(** Only a buffer of size zero is not refused by an exception. *)
Definition own_refusal (s : own_setting) (l : layer) (e : err) : Prop :=
  (exists msg, e = Throw msg) \/
  (s = OBuffer 0 /\ 0 <= l_nAlpha l /\ l_nAxis l <> none_axis /\ e = Undefined).

(** Energies per cell. The field a layer feels is the negative gradient of its energy divided by the
    magnetic moment Ms V of the cell. *)
Definition Angle2 (m a : cvec) : R := (Dot m a / (Norm m * Norm a)) ^ 2.
Definition SymTensor (N : tensor) : Prop :=
  cy (row0 N) = cx (row1 N) /\ cz (row0 N) = cx (row2 N) /\ cz (row1 N) = cy (row2 N).
