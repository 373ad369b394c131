(** Specification vocabulary for a stack that is turned in space (C107). *)
From Verif Require Export S_Reach.
Open Scope R_scope.

(** A rotation keeps scalar and vector products. *)
Definition turn (Q : tensor) (v : cvec) : cvec := MatVec Q v.
Definition rotation (Q : tensor) : Prop :=
  (forall a b, Dot (turn Q a) (turn Q b) = Dot a b) /\ (forall a b, Cross (turn Q a) (turn Q b) = turn Q (Cross a b)).
(** The opposite rotation *)
Definition back (Q : tensor) : tensor :=
  Ten (CV (cx (row0 Q)) (cx (row1 Q)) (cx (row2 Q))) (CV (cy (row0 Q)) (cy (row1 Q)) (cy (row2 Q))) (CV (cz (row0 Q)) (cz (row1 Q)) (cz (row2 Q))).
Definition about_z (a : R) : tensor := Ten (CV (cos a) (- sin a) 0) (CV (sin a) (cos a) 0) (CV 0 0 1).
(** A tensor seen in the turned frame *)
Definition turned_tensor (Q N N' : tensor) : Prop := forall v, MatVec N' (turn Q v) = turn Q (MatVec N v).
Definition conjugate (Q N : tensor) : tensor :=
  let e r s := Dot r (MatVec N s) in
  Ten (CV (e (row0 Q) (row0 Q)) (e (row0 Q) (row1 Q)) (e (row0 Q) (row2 Q))) (CV (e (row1 Q) (row0 Q)) (e (row1 Q) (row1 Q)) (e (row1 Q) (row2 Q)))
      (CV (e (row2 Q) (row0 Q)) (e (row2 Q) (row1 Q)) (e (row2 Q) (row2 Q))).
(** A vector driver whose values are turned at every time *)
Definition turned_driver (Q : tensor) (d d' : adriver) : Prop :=
  forall t v, getCurrentAxialDrivers d t = Ok v <-> getCurrentAxialDrivers d' t = Ok (turn Q v).
(** Two layers: all vectors, tensors, vector drivers and thermal random vectors of [m] are those of [l] turned by Q, all numbers are the same; there is no coloured noise. *)
Record turned (Q : tensor) (l m : layer) : Prop := Turned {
  tn_id : l_id m = l_id l;
  tn_mag : l_mag m = turn Q (l_mag l);
  tn_anis : l_anis m = turn Q (l_anis l);
  tn_reference : l_reference m = turn Q (l_reference l);
  tn_demag : turned_tensor Q (l_demag l) (l_demag m);
  tn_dipoleBottom : turned_tensor Q (l_dipoleBottom l) (l_dipoleBottom m);
  tn_dipoleTop : turned_tensor Q (l_dipoleTop l) (l_dipoleTop m);
  tn_external : turned_driver Q (l_external l) (l_external m);
  tn_Oersted : turned_driver Q (l_Oersted l) (l_Oersted m);
  tn_Hdmi : turned_driver Q (l_Hdmi l) (l_Hdmi m);
  tn_Hreserved : turned_driver Q (l_Hreserved l) (l_Hreserved m);
  tn_IDMITop : turned_driver Q (l_IDMITop l) (l_IDMITop m);
  tn_IDMIBottom : turned_driver Q (l_IDMIBottom l) (l_IDMIBottom m);
  tn_random : l_temperatureSet l = true -> forall k, gaussians m k = turn Q (gaussians l k);
  tn_numbers : l_Ms m = l_Ms l /\ l_thickness m = l_thickness l /\ l_cellVolume m = l_cellVolume l /\ l_damping m = l_damping l /\ l_fieldLikeTorque m = l_fieldLikeTorque l /\
    l_dampingLikeTorque m = l_dampingLikeTorque l /\ l_slon m = l_slon l /\ l_beta m = l_beta l /\ l_kappa m = l_kappa l /\ l_spinPol m = l_spinPol l;
  tn_flags : l_includeSTT m = l_includeSTT l /\ l_includeSOT m = l_includeSOT l /\ l_dynamicSOT m = l_dynamicSOT l /\ l_alternativeSTT m = l_alternativeSTT l /\
    l_temperatureSet m = l_temperatureSet l /\ l_refType m = l_refType l;
  tn_drivers : l_temperature m = l_temperature l /\ l_IECTop m = l_IECTop l /\ l_IECBottom m = l_IECBottom l /\ l_QuadTop m = l_QuadTop l /\ l_QuadBottom m = l_QuadBottom l /\
    l_current m = l_current l /\ l_anisotropy m = l_anisotropy l /\ l_flDriver m = l_flDriver l /\ l_dlDriver m = l_dlDriver l;
  tn_quiet : l_nScale l = 0 /\ l_nScale m = 0 }.
Definition turned_stack (Q : tensor) (a b : junction) : Prop := Forall2 (turned Q) (j_layers a) (j_layers b).
(** The same way of reading the resistance with the same material values *)
Definition same_meter (a b : junction) : Prop :=
  j_mode b = j_mode a /\ j_Rp b = j_Rp a /\ j_Rap b = j_Rap a /\ j_Rx0 b = j_Rx0 a /\ j_Ry0 b = j_Ry0 a /\ j_AMR_X b = j_AMR_X a /\ j_AMR_Y b = j_AMR_Y a /\ j_SMR_X b = j_SMR_X a /\ j_SMR_Y b = j_SMR_Y a /\ j_AHE b = j_AHE a.
