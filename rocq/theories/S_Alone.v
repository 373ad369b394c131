(** Specification vocabulary for layers that do not interact (C90). *)
From Verif Require Export S_Run.
Open Scope R_scope.

(** Nothing in the layer's parameters refers to its neighbours: exchange, interlayer DMI and dipole tensors
    vanish at all times, and a torque (if any) is not polarised by a neighbour. *)
Definition uncoupled (l : layer) : Prop :=
  (forall t v, getCurrentScalarValue (l_IECBottom l) t = Ok v -> v = 0) /\
  (forall t v, getCurrentScalarValue (l_IECTop l) t = Ok v -> v = 0) /\
  (forall t v, getCurrentScalarValue (l_QuadBottom l) t = Ok v -> v = 0) /\
  (forall t v, getCurrentScalarValue (l_QuadTop l) t = Ok v -> v = 0) /\
  (forall t v, getCurrentAxialDrivers (l_IDMIBottom l) t = Ok v -> v = Zero) /\
  (forall t v, getCurrentAxialDrivers (l_IDMITop l) t = Ok v -> v = Zero) /\
  l_dipoleBottom l = null_tensor /\ l_dipoleTop l = null_tensor /\
  (l_includeSTT l = true \/ l_includeSOT l = true -> l_refType l = RFIXED \/ l_refType l = RNONE).

(** The junction made of this layer only; see [Junction_plain]. *)
Definition alone (l : layer) : junction := JN MR_NONE [l] 0 0 [] [] [] [] [] [] [] [] 0 "R".

(** All layers get the same solver when simulated alone: one that handles noise was asked for, or all are
    noisy, or none is. *)
Definition one_scheme (mode : solver_mode) (j : junction) : Prop :=
  mode = HEUN \/ mode = EULER_HEUN \/
  (forall l, In l (j_layers j) -> noisy l) \/ (forall l, In l (j_layers j) -> ~ noisy l).
