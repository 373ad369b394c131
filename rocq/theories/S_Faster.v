(** Specification vocabulary for a stack whose fields are multiplied and whose clock runs faster (C108). *)
From Verif Require Export S_Reach.
Open Scope R_scope.

(** A driver that goes through k times the values of another one, k times as fast *)
Definition faster_driver (k : R) (d d' : sdriver) : Prop := forall t v, getCurrentScalarValue d t = Ok v <-> getCurrentScalarValue d' (t / k) = Ok (k * v).
Definition faster_axial (k : R) (d d' : adriver) : Prop := forall t v, getCurrentAxialDrivers d t = Ok v <-> getCurrentAxialDrivers d' (t / k) = Ok (Scal k v).
Definition larger_tensor (k : R) (N N' : tensor) : Prop := forall v, MatVec N' v = Scal k (MatVec N v).
(** Two layers: all fields, couplings, anisotropies, tensors, currents and temperatures of [m] are k times those of [l]; the rest is the same; there is no coloured noise. *)
Record faster (k : R) (l m : layer) : Prop := Faster {
  fa_id : l_id m = l_id l;
  fa_vectors : l_mag m = l_mag l /\ l_anis m = l_anis l /\ l_reference m = l_reference l;
  fa_tensors : larger_tensor k (l_demag l) (l_demag m) /\ larger_tensor k (l_dipoleBottom l) (l_dipoleBottom m) /\ larger_tensor k (l_dipoleTop l) (l_dipoleTop m);
  fa_external : faster_axial k (l_external l) (l_external m);
  fa_Oersted : faster_axial k (l_Oersted l) (l_Oersted m);
  fa_Hdmi : faster_axial k (l_Hdmi l) (l_Hdmi m);
  fa_Hreserved : faster_axial k (l_Hreserved l) (l_Hreserved m);
  fa_IDMITop : faster_axial k (l_IDMITop l) (l_IDMITop m);
  fa_IDMIBottom : faster_axial k (l_IDMIBottom l) (l_IDMIBottom m);
  fa_temperature : faster_driver k (l_temperature l) (l_temperature m);
  fa_IECTop : faster_driver k (l_IECTop l) (l_IECTop m);
  fa_IECBottom : faster_driver k (l_IECBottom l) (l_IECBottom m);
  fa_QuadTop : faster_driver k (l_QuadTop l) (l_QuadTop m);
  fa_QuadBottom : faster_driver k (l_QuadBottom l) (l_QuadBottom m);
  fa_current : faster_driver k (l_current l) (l_current m);
  fa_anisotropy : faster_driver k (l_anisotropy l) (l_anisotropy m);
  fa_flDriver : faster_driver k (l_flDriver l) (l_flDriver m);
  fa_dlDriver : faster_driver k (l_dlDriver l) (l_dlDriver m);
  fa_random : l_rng m = l_rng l /\ l_rpos m = l_rpos l;
  fa_numbers : l_Ms m = l_Ms l /\ l_thickness m = l_thickness l /\ l_cellVolume m = l_cellVolume l /\ l_damping m = l_damping l /\ l_fieldLikeTorque m = l_fieldLikeTorque l /\
    l_dampingLikeTorque m = l_dampingLikeTorque l /\ l_slon m = l_slon l /\ l_beta m = l_beta l /\ l_kappa m = l_kappa l /\ l_spinPol m = l_spinPol l;
  fa_flags : l_includeSTT m = l_includeSTT l /\ l_includeSOT m = l_includeSOT l /\ l_dynamicSOT m = l_dynamicSOT l /\ l_alternativeSTT m = l_alternativeSTT l /\
    l_temperatureSet m = l_temperatureSet l /\ l_refType m = l_refType l;
  fa_quiet : l_nScale l = 0 /\ l_nScale m = 0 }.
Definition faster_stack (k : R) (a b : junction) : Prop := Forall2 (faster k) (j_layers a) (j_layers b).
(** A driver with k times the values and all its times divided by k *)
Definition quicker (k : R) (d : sdriver) : sdriver :=
  SD (d_update d) (k * d_const d) (k * d_amp d) (k * d_freq d) (d_phase d) (d_period d / k) (d_cycle d) (d_tstart d / k) (d_tstop d / k) (d_edge d / k) (d_steady d / k).
(** The same way of reading the resistance with the same material values *)
Definition same_readout (a b : junction) : Prop :=
  j_mode b = j_mode a /\ j_Rtag b = j_Rtag a /\ j_Rp b = j_Rp a /\ j_Rap b = j_Rap a /\ j_Rx0 b = j_Rx0 a /\ j_Ry0 b = j_Ry0 a /\ j_AMR_X b = j_AMR_X a /\ j_AMR_Y b = j_AMR_Y a /\ j_SMR_X b = j_SMR_X a /\ j_SMR_Y b = j_SMR_Y a /\ j_AHE b = j_AHE a.
