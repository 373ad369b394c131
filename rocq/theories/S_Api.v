(** Specification vocabulary for the setter interface of layers and junctions. *)
From Verif Require Export S_Run.
Open Scope R_scope.

(** The fields of a layer, and "all fields but these agree". *)
Inductive field :=
  | F_id | F_mag | F_anis | F_Ms | F_thickness | F_cellVolume | F_cellSurface | F_demag
  | F_dipoleBottom | F_dipoleTop | F_damping | F_fieldLikeTorque | F_dampingLikeTorque
  | F_slon | F_beta | F_kappa | F_spinPol | F_includeSTT | F_includeSOT | F_dynamicSOT
  | F_alternativeSTT | F_temperatureSet | F_nonStochTemp | F_nonStochOneF | F_pinkNoiseSet
  | F_reference | F_refType | F_temperature | F_IECTop | F_IECBottom | F_QuadTop | F_QuadBottom
  | F_current | F_anisotropy | F_flDriver | F_dlDriver | F_IDMITop | F_IDMIBottom | F_Hreserved
  | F_external | F_Oersted | F_Hdmi | F_nAlpha | F_nScale | F_nStd | F_nAxis | F_ofn
  | F_bfn | F_nsrc | F_ngen | F_rng | F_rpos | F_cache.
Definition same_field (f : field) (l l' : layer) : Prop :=
  match f with
  | F_id => l_id l' = l_id l
  | F_mag => l_mag l' = l_mag l
  | F_anis => l_anis l' = l_anis l
  | F_Ms => l_Ms l' = l_Ms l
  | F_thickness => l_thickness l' = l_thickness l
  | F_cellVolume => l_cellVolume l' = l_cellVolume l
  | F_cellSurface => l_cellSurface l' = l_cellSurface l
  | F_demag => l_demag l' = l_demag l
  | F_dipoleBottom => l_dipoleBottom l' = l_dipoleBottom l
  | F_dipoleTop => l_dipoleTop l' = l_dipoleTop l
  | F_damping => l_damping l' = l_damping l
  | F_fieldLikeTorque => l_fieldLikeTorque l' = l_fieldLikeTorque l
  | F_dampingLikeTorque => l_dampingLikeTorque l' = l_dampingLikeTorque l
  | F_slon => l_slon l' = l_slon l
  | F_beta => l_beta l' = l_beta l
  | F_kappa => l_kappa l' = l_kappa l
  | F_spinPol => l_spinPol l' = l_spinPol l
  | F_includeSTT => l_includeSTT l' = l_includeSTT l
  | F_includeSOT => l_includeSOT l' = l_includeSOT l
  | F_dynamicSOT => l_dynamicSOT l' = l_dynamicSOT l
  | F_alternativeSTT => l_alternativeSTT l' = l_alternativeSTT l
  | F_temperatureSet => l_temperatureSet l' = l_temperatureSet l
  | F_nonStochTemp => l_nonStochTemp l' = l_nonStochTemp l
  | F_nonStochOneF => l_nonStochOneF l' = l_nonStochOneF l
  | F_pinkNoiseSet => l_pinkNoiseSet l' = l_pinkNoiseSet l
  | F_reference => l_reference l' = l_reference l
  | F_refType => l_refType l' = l_refType l
  | F_temperature => l_temperature l' = l_temperature l
  | F_IECTop => l_IECTop l' = l_IECTop l
  | F_IECBottom => l_IECBottom l' = l_IECBottom l
  | F_QuadTop => l_QuadTop l' = l_QuadTop l
  | F_QuadBottom => l_QuadBottom l' = l_QuadBottom l
  | F_current => l_current l' = l_current l
  | F_anisotropy => l_anisotropy l' = l_anisotropy l
  | F_flDriver => l_flDriver l' = l_flDriver l
  | F_dlDriver => l_dlDriver l' = l_dlDriver l
  | F_IDMITop => l_IDMITop l' = l_IDMITop l
  | F_IDMIBottom => l_IDMIBottom l' = l_IDMIBottom l
  | F_Hreserved => l_Hreserved l' = l_Hreserved l
  | F_external => l_external l' = l_external l
  | F_Oersted => l_Oersted l' = l_Oersted l
  | F_Hdmi => l_Hdmi l' = l_Hdmi l
  | F_nAlpha => l_nAlpha l' = l_nAlpha l
  | F_nScale => l_nScale l' = l_nScale l
  | F_nStd => l_nStd l' = l_nStd l
  | F_nAxis => l_nAxis l' = l_nAxis l
  | F_ofn => l_ofn l' = l_ofn l
  | F_bfn => l_bfn l' = l_bfn l
  | F_nsrc => l_nsrc l' = l_nsrc l
  | F_ngen => l_ngen l' = l_ngen l
  | F_rng => l_rng l' = l_rng l
  | F_rpos => l_rpos l' = l_rpos l
  | F_cache => l_cache l' = l_cache l
  end.
Definition same_except (fs : list field) (l l' : layer) : Prop :=
  forall f, ~ In f fs -> same_field f l l'.

(** Settings of a layer that the junction exposes by layer id. *)
Inductive setting :=
| STemperature (d : sdriver) | SNonStochasticTemperature (d : sdriver)
| SAnisotropy (d : sdriver) | SExternalField (d : adriver) | SOersted (d : adriver)
| SCurrent (d : sdriver) | SDampingLike (d : sdriver) | SFieldLike (d : sdriver)
| SReserved (d : adriver) | SHdmi (d : adriver) | SMagnetisation (m : cvec)
| SAlternativeSTT (b : bool) | SOneF (sources : nat) (bias scale : R)
| SReferenceVec (r : cvec) | SReferenceType (r : reference).
(** When a setting is accepted ... *)
Definition accepts (s : setting) (l : layer) : Prop :=
  match s with
  | SDampingLike _ | SFieldLike _ => l_includeSTT l = false /\ l_dynamicSOT l = true
  | SMagnetisation m => m <> Zero
  | SReferenceType RFIXED => l_reference l <> Zero
  | _ => True
  end.
(** ... what it does ... *)
Definition effect (s : setting) (l l' : layer) : Prop :=
  match s with
  | STemperature d => l_temperature l' = d /\ l_temperatureSet l' = true /\
      same_except [F_temperature; F_temperatureSet] l l'
  | SNonStochasticTemperature d => l_temperature l' = d /\ l_temperatureSet l' = false /\ l_nonStochTemp l' = true /\
      same_except [F_temperature; F_temperatureSet; F_nonStochTemp] l l'
  | SAnisotropy d => l_anisotropy l' = d /\ same_except [F_anisotropy] l l'
  | SExternalField d => l_external l' = d /\ same_except [F_external] l l'
  | SOersted d => l_Oersted l' = d /\ same_except [F_Oersted] l l'
  | SCurrent d => l_current l' = d /\ same_except [F_current] l l'
  | SDampingLike d => l_dlDriver l' = d /\ l_includeSOT l' = true /\ same_except [F_dlDriver; F_includeSOT] l l'
  | SFieldLike d => l_flDriver l' = d /\ l_includeSOT l' = true /\ same_except [F_flDriver; F_includeSOT] l l'
  | SReserved d => l_Hreserved l' = d /\ same_except [F_Hreserved] l l'
  | SHdmi d => l_Hdmi l' = d /\ same_except [F_Hdmi] l l'
  | SMagnetisation m => l_mag l' = Scal (/ Norm m) m /\ same_except [F_mag] l l'
  | SAlternativeSTT b => l_alternativeSTT l' = b /\ same_except [F_alternativeSTT] l l'
  | SOneF n bi sc => l_ofn l' = (n, bi, sc) /\ l_pinkNoiseSet l' = true /\ l_nonStochOneF l' = true /\
      same_except [F_ofn; F_pinkNoiseSet; F_nonStochOneF] l l'
  | SReferenceVec r => l_reference l' = r /\ l_refType l' = RFIXED /\ same_except [F_reference; F_refType] l l'
  | SReferenceType r => l_refType l' = r /\ same_except [F_refType] l l'
  end.
(** ... and what a refused setting leaves behind: the torque setters switch the spin-orbit torque on
    before they check. *)
Definition refused_effect (s : setting) (l l' : layer) : Prop :=
  match s with
  | SDampingLike _ | SFieldLike _ => l_includeSOT l' = true /\ same_except [F_includeSOT] l l'
  | _ => l' = l
  end.
(** The member functions. *)
Definition member (s : setting) : ST layer unit :=
  match s with
  | STemperature d => setTemperatureDriver d
  | SNonStochasticTemperature d => setNonStochasticLangevinDriver d
  | SAnisotropy d => setAnisotropyDriver d
  | SExternalField d => setExternalFieldDriver d
  | SOersted d => setOerstedFieldDriver d
  | SCurrent d => setCurrentDriver d
  | SDampingLike d => setDampingLikeTorqueDriver d
  | SFieldLike d => setFieldLikeTorqueDriver d
  | SReserved d => setReservedInteractionField d
  | SHdmi d => setHdmiDriver d
  | SMagnetisation m => setMagnetisation m
  | SAlternativeSTT b => setAlternativeSTT b
  | SOneF n bi sc => setOneFNoise n bi sc
  | SReferenceVec r => setReferenceLayerVec r
  | SReferenceType r => setReferenceLayerType r
  end.
(** The junction-level calls: the first eleven go to every layer with the id (or all layers), the last
    four to the first layer with the id (or all layers). *)
Definition to_first (s : setting) : bool :=
  match s with SAlternativeSTT _ | SOneF _ _ _ | SReferenceVec _ | SReferenceType _ => true | _ => false end.
Definition junction_set (id : string) (s : setting) : ST junction unit :=
  match s with
  | STemperature d => setLayerTemperatureDriver id d
  | SNonStochasticTemperature d => setLayerNonStochasticLangevinDriver id d
  | SAnisotropy d => setLayerAnisotropyDriver id d
  | SExternalField d => setLayerExternalFieldDriver id d
  | SOersted d => setLayerOerstedFieldDriver id d
  | SCurrent d => setLayerCurrentDriver id d
  | SDampingLike d => setLayerDampingLikeTorqueDriver id d
  | SFieldLike d => setLayerFieldLikeTorqueDriver id d
  | SReserved d => setLayerReservedInteractionField id d
  | SHdmi d => setLayerHdmiDriver id d
  | SMagnetisation m => setLayerMagnetisation id m
  | SAlternativeSTT b => setLayerAlternativeSTT id b
  | SOneF n bi sc => setLayerOneFNoise id n bi sc
  | SReferenceVec r => setLayerReferenceLayer id r
  | SReferenceType r => setLayerReferenceType id r
  end.
(** Which layers a call addresses. *)
Definition addressed (id : string) (s : setting) (ls : list layer) (p : nat) : Prop :=
  exists l, nth_error ls p = Some l /\
    (id = "all"%string \/
     (l_id l = id /\ (to_first s = true -> forall q k, (q < p)%nat -> nth_error ls q = Some k -> l_id k <> id))).
(** Accepted everywhere: every addressed layer gets the effect, nothing else changes. *)
Definition set_everywhere (id : string) (s : setting) (j j' : junction) : Prop :=
  j' = set_j_layers (j_layers j') j /\ length (j_layers j') = layerNo j /\
  forall p l l', nth_error (j_layers j) p = Some l -> nth_error (j_layers j') p = Some l' ->
    (addressed id s (j_layers j) p -> accepts s l /\ effect s l l') /\
    (~ addressed id s (j_layers j) p -> l' = l).
(** Refused at layer q: addressed layers below q have changed, q keeps the trace of the refusal. *)
Definition refused_at (id : string) (s : setting) (q : nat) (j j' : junction) : Prop :=
  j' = set_j_layers (j_layers j') j /\ length (j_layers j') = layerNo j /\
  addressed id s (j_layers j) q /\
  forall p l l', nth_error (j_layers j) p = Some l -> nth_error (j_layers j') p = Some l' ->
    ((p < q)%nat -> addressed id s (j_layers j) p -> accepts s l /\ effect s l l') /\
    ((p < q)%nat -> ~ addressed id s (j_layers j) p -> l' = l) /\
    (p = q -> ~ accepts s l /\ refused_effect s l l') /\
    ((p > q)%nat -> l' = l).

(** Interlayer couplings. *)
Inductive coupling := CIEC (d : sdriver) | CQuad (d : sdriver) | CIDMI (d : adriver).
Definition junction_couple (a b : string) (c : coupling) : ST junction unit :=
  match c with
  | CIEC d => setIECDriver a b d
  | CQuad d => setQuadIECDriver a b d
  | CIDMI d => setIDMIDriver a b d
  end.
Definition top_effect (c : coupling) (l l' : layer) : Prop :=
  match c with
  | CIEC d => l_IECTop l' = d /\ same_except [F_IECTop] l l'
  | CQuad d => l_QuadTop l' = d /\ same_except [F_QuadTop] l l'
  | CIDMI d => l_IDMITop l' = d /\ same_except [F_IDMITop] l l'
  end.
Definition bottom_effect (c : coupling) (l l' : layer) : Prop :=
  match c with
  | CIEC d => l_IECBottom l' = d /\ same_except [F_IECBottom] l l'
  | CQuad d => l_QuadBottom l' = d /\ same_except [F_QuadBottom] l l'
  | CIDMI d => l_IDMIBottom l' = d /\ same_except [F_IDMIBottom] l l'
  end.
Definition pair_at (a b : string) (ls : list layer) (p : nat) : Prop :=
  exists l u, nth_error ls p = Some l /\ nth_error ls (S p) = Some u /\
    ((l_id l = a /\ l_id u = b) \/ (l_id l = b /\ l_id u = a)).
Definition coupled_at (a b : string) (c : coupling) (p : nat) (j j' : junction) : Prop :=
  j' = set_j_layers (j_layers j') j /\ length (j_layers j') = layerNo j /\
  pair_at a b (j_layers j) p /\ (forall q, (q < p)%nat -> ~ pair_at a b (j_layers j) q) /\
  forall q l l', nth_error (j_layers j) q = Some l -> nth_error (j_layers j') q = Some l' ->
    (q = p -> top_effect c l l') /\ (q = S p -> bottom_effect c l l') /\ (q <> p -> q <> S p -> l' = l).

(** API calls on a junction. *)
Inductive api :=
| ARun (T dt wf : R) (mode : solver_mode)
| AClear
| ASet (id : string) (s : setting)
| ACouple (a b : string) (c : coupling).
Definition call (a : api) : ST junction unit :=
  match a with
  | ARun T dt wf mode => runSimulation T dt wf false mode
  | AClear => clearLog
  | ASet id s => junction_set id s
  | ACouple a b c => junction_couple a b c
  end.
(** A call returns normally or raises an exception; either way the object stays usable. *)
Inductive history : list api -> junction -> junction -> Prop :=
| h_nil : forall j, history [] j j
| h_cons : forall a calls j j1 j2 r, call a j = (j1, r) -> (r = Ok tt \/ exists msg, r = Err (Throw msg)) ->
    history calls j1 j2 -> history (a :: calls) j j2.
(** Fresh junctions. *)
Definition constructed (ls : list layer) (j : junction) : Prop :=
  Junction_plain ls = Ok j \/ (exists Rp Rap, Junction_classic ls Rp Rap = Ok j) \/
  (exists a b c d e f g, Junction_strip ls a b c d e f g = Ok j).
