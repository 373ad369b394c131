(** Specification vocabulary for two layers held together by interlayer exchange only. *)
From Verif Require Export S_Precess.
Open Scope R_scope.

(** The lower layer feels the field [h1] along the upper magnetisation, the upper one [h2] along the lower
    magnetisation, and nothing else: no damping, no current, no noise. *)
Definition exchange_pair (a b : layer) (h1 h2 : R) : Prop :=
  quiet a /\ quiet b /\ (forall w, feels a Zero w (Scal h1 w)) /\ (forall w, feels b w Zero (Scal h2 w)).
(** The plain case: the constant coupling [J] between them and no other contribution. *)
Definition only_inputs (l : layer) (i : field_inputs) : Prop :=
  quiet l /\ l_damping l = 0 /\ l_includeSTT l = false /\ l_includeSOT l = false /\ l_Ms l <> 0 /\ l_thickness l <> 0 /\
  l_demag l = null_tensor /\ l_dipoleBottom l = null_tensor /\ l_dipoleTop l = null_tensor /\ forall t, inputs_at l t i.
Definition held_by (a b : layer) (J : R) : Prop :=
  only_inputs a (FI Zero Zero Zero Zero 0 0 J 0 0 Zero Zero) /\ only_inputs b (FI Zero Zero Zero Zero 0 J 0 0 0 Zero Zero).
(** The cosine of the angle between two unit vectors after each has been multiplied, across the other one at
    the start of the step, by its complex gain and normalised. *)
Definition next_cosine (q a1 b1 a2 b2 : R) : R :=
  (q - (1 - q * q) * (q * (1 - a1) * (1 - a2) + b1 * b2)) /
  (sqrt (1 - (1 - q * q) * (1 - (a1 * a1 + b1 * b1))) * sqrt (1 - (1 - q * q) * (1 - (a2 * a2 + b2 * b2)))).
