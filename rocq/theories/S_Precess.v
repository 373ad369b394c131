(** Specification vocabulary for undamped precession: rotations about an axis, the amplification of one step
    of each solver, and layers whose effective field does not depend on their own magnetisation. *)
From Verif Require Export S_Converge.
Open Scope R_scope.

(** Scale the part of [m] across the unit axis [n] by the complex number [a + i b] (positive angles turn
    around [n]) and keep the part along [n]. *)
Definition spiral (n : cvec) (a b : R) (m : cvec) : cvec :=
  Plus (Scal (Dot n m) n) (Plus (Scal a (Minus m (Scal (Dot n m) n))) (Scal b (Cross n m))).
(** Rotation by the angle [theta]. *)
Definition turn (n : cvec) (theta : R) (m : cvec) : cvec := spiral n (cos theta) (sin theta) m.

(** Powers of the complex number [a + i b]. *)
Fixpoint cpow (a b : R) (k : nat) : R * R :=
  match k with O => (1, 0) | S i => let '(x, y) := cpow a b i in (a * x - b * y, a * y + b * x) end.

(** What a solver multiplies the transverse part with in a step of the angle [z], before normalisation:
    the Taylor polynomial of exp (i z) of its order. *)
Definition gain (r : runner) (z : R) : R * R :=
  match r with
  | RunSingle | RunMulti => (1 - z ^ 2 / 2 + z ^ 4 / 24, z - z ^ 3 / 6)
  | RunHeun => (1 - z ^ 2 / 2, z)
  | RunEulerHeun => (1, z)
  end.
(** Its squared modulus. *)
Definition gain2 (r : runner) (z : R) : R :=
  match r with
  | RunSingle | RunMulti => 1 - z ^ 6 / 72 + z ^ 8 / 576
  | RunHeun => 1 + z ^ 4 / 4
  | RunEulerHeun => 1 + z ^ 2
  end.

(** Without damping and current the layer feels the constant field [H] while its neighbours are [b] and [w]. *)
Definition feels (l : layer) (b w H : cvec) : Prop :=
  l_damping l = 0 /\ l_includeSTT l = false /\ l_includeSOT l = false /\ l_Ms l <> 0 /\ l_thickness l <> 0 /\
  forall t m, exists i, inputs_at l t i /\ H_eff l i m b w (dipole_total l b w) Zero = H.
(** A noiseless layer in the constant field [h n], whatever its neighbours do. *)
Definition gyroscope (l : layer) (h : R) (n : cvec) : Prop := quiet l /\ forall b w, feels l b w (Scal h n).
(** The plain case: no damping, current, anisotropy, demagnetisation, coupling, noise; a constant external field. *)
Definition bare (l : layer) (H : cvec) : Prop :=
  quiet l /\ l_damping l = 0 /\ l_includeSTT l = false /\ l_includeSOT l = false /\ l_Ms l <> 0 /\ l_thickness l <> 0 /\
  l_demag l = null_tensor /\ l_dipoleBottom l = null_tensor /\ l_dipoleTop l = null_tensor /\
  forall t, inputs_at l t (FI H Zero Zero Zero 0 0 0 0 0 Zero Zero).
(** The cosine [q] of the angle to the axis after [k] steps that scale the squared transverse part by [g]. *)
Definition squash (q g : R) (k : nat) : R := q / sqrt (q * q + g ^ k * (1 - q * q)).
