(** Specification vocabulary for damped relaxation towards a constant field. *)
From Verif Require Export S_Precess.
Open Scope R_scope.

(** A noiseless layer of damping [alpha] without current in the constant field [h n], whatever its neighbours do. *)
Definition damped_in (l : layer) (alpha h : R) (n : cvec) : Prop :=
  quiet l /\ l_damping l = alpha /\ l_includeSTT l = false /\ l_includeSOT l = false /\ l_Ms l <> 0 /\ l_thickness l <> 0 /\
  forall b w t m, exists i, inputs_at l t i /\ H_eff l i m b w (dipole_total l b w) Zero = Scal h n.
(** The plain case: no current, anisotropy, demagnetisation, coupling, noise; a constant external field. *)
Definition free_in (l : layer) (alpha : R) (H : cvec) : Prop :=
  quiet l /\ l_damping l = alpha /\ l_includeSTT l = false /\ l_includeSOT l = false /\ l_Ms l <> 0 /\ l_thickness l <> 0 /\
  l_demag l = null_tensor /\ l_dipoleBottom l = null_tensor /\ l_dipoleTop l = null_tensor /\
  forall t, inputs_at l t (FI H Zero Zero Zero 0 0 0 0 0 Zero Zero).

(** Angle turned per unit of time. *)
Definition turn_rate (alpha h : R) : R := gamma0 * h / (1 + alpha * alpha).
(** The cosine [q] of the angle to the field after the reduced time [x] = damping times angle turned:
    the hyperbolic tangent started at [q]. *)
Definition relaxed (q x : R) : R := ((1 + q) * exp x - (1 - q) * exp (- x)) / ((1 + q) * exp x + (1 - q) * exp (- x)).

(** The vector with the component [c] along [n] and the transverse part of [m] times the complex number [a + i b]. *)
Definition tilted (n m : cvec) (a b c : R) : cvec :=
  Plus (Scal c n) (Plus (Scal a (Minus m (Scal (Dot n m) n))) (Scal b (Cross n m))).
(** The equations in these coordinates, per unit of angle, [u] being the squared transverse part of [m]. *)
Definition slope (alpha u : R) (v : cvec) : cvec :=
  CV (- cy v - alpha * cz v * cx v) (cx v - alpha * cz v * cy v) (alpha * u * (cx v * cx v + cy v * cy v)).
(** The classical fourth-order step of the size [s] from (1, 0, q). *)
Definition classical (alpha u s : R) (v : cvec) : cvec :=
  let k1 := slope alpha u v in
  let k2 := slope alpha u (Plus v (Scal (s / 2) k1)) in
  let k3 := slope alpha u (Plus v (Scal (s / 2) k2)) in
  let k4 := slope alpha u (Plus v (Scal s k3)) in
  Plus v (Scal (s / 6) (Sum [k1; Scal 2 k2; Scal 2 k3; k4])).
(** The cosine after one step. *)
Definition next_along (alpha s q : R) : R :=
  let v := classical alpha (1 - q * q) s (CV 1 0 q) in
  cz v / sqrt ((1 - q * q) * (cx v * cx v + cy v * cy v) + cz v * cz v).
