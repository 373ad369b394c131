(** Specification vocabulary for simulations carried on by a second call (C104). *)
From Verif Require Export S_Run.
Open Scope R_scope.

(** No driver of the layer changes with time. *)
Definition constant_scalar (d : sdriver) : Prop := forall t, getCurrentScalarValue d t = getCurrentScalarValue d 0.
Definition constant_axial (d : adriver) : Prop := forall t, getCurrentAxialDrivers d t = getCurrentAxialDrivers d 0.
Definition unchanging (l : layer) : Prop :=
  constant_axial (l_external l) /\ constant_axial (l_Oersted l) /\ constant_axial (l_Hdmi l) /\ constant_axial (l_Hreserved l) /\
  constant_axial (l_IDMIBottom l) /\ constant_axial (l_IDMITop l) /\
  constant_scalar (l_anisotropy l) /\ constant_scalar (l_IECBottom l) /\ constant_scalar (l_IECTop l) /\
  constant_scalar (l_QuadBottom l) /\ constant_scalar (l_QuadTop l) /\ constant_scalar (l_temperature l) /\
  constant_scalar (l_current l) /\ constant_scalar (l_dlDriver l) /\ constant_scalar (l_flDriver l).
(** No coloured noise: such a layer carries on with the same random numbers. *)
Definition resumable (l : layer) : Prop := unchanging l /\ l_nScale l = 0.
