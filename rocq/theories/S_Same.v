(** Specification vocabulary for layers that are described differently but move alike (C109). *)
From Verif Require Export S_Reach.
Open Scope R_scope.

(** The same equation of motion, the same start and the same noise; fields, couplings, tensors, torques and thickness may be described differently. *)
Record same_motion (l m : layer) : Prop := SameMotion {
  sm_id : l_id m = l_id l;
  sm_mag : l_mag m = l_mag l;
  sm_rhs : forall t x b top d, rhs l t x b top d <-> rhs m t x b top d;
  sm_thermal : l_damping m = l_damping l /\ l_Ms m = l_Ms l /\ l_cellVolume m = l_cellVolume l /\ l_temperature m = l_temperature l /\ l_temperatureSet m = l_temperatureSet l /\ l_rng m = l_rng l /\ l_rpos m = l_rpos l;
  sm_coloured : l_nScale m = l_nScale l /\ l_nAlpha m = l_nAlpha l /\ l_nAxis m = l_nAxis l /\ l_nsrc m = l_nsrc l /\ l_ngen m = l_ngen l /\ l_bfn m = l_bfn l }.
Definition same_stack (a b : junction) : Prop := Forall2 same_motion (j_layers a) (j_layers b).
(** A driver with c times the values of another one *)
Definition times (c : R) (d d' : sdriver) : Prop := forall t v, getCurrentScalarValue d t = Ok v <-> getCurrentScalarValue d' t = Ok (c * v).
Definition times_axial (c : R) (d d' : adriver) : Prop := forall t v, getCurrentAxialDrivers d t = Ok v <-> getCurrentAxialDrivers d' t = Ok (Scal c v).
(** The four vector fields of a layer at a time, and their sum *)
Definition applied (l : layer) (t : R) (h : cvec) : Prop :=
  exists e o d r, getCurrentAxialDrivers (l_external l) t = Ok e /\ getCurrentAxialDrivers (l_Oersted l) t = Ok o /\ getCurrentAxialDrivers (l_Hdmi l) t = Ok d /\ getCurrentAxialDrivers (l_Hreserved l) t = Ok r /\
    h = Plus e (Plus o (Plus d r)).
(** The layer with other vector fields / with c times the thickness and the matching couplings and current *)
Definition with_fields (e o d r : adriver) (l : layer) : layer := set_l_external e (set_l_Oersted o (set_l_Hdmi d (set_l_Hreserved r l))).
Definition with_thickness (c : R) (jt jb qt qb i : sdriver) (dt db : adriver) (l : layer) : layer :=
  set_l_thickness (c * l_thickness l) (set_l_IECTop jt (set_l_IECBottom jb (set_l_QuadTop qt (set_l_QuadBottom qb (set_l_current i (set_l_IDMITop dt (set_l_IDMIBottom db l))))))).
