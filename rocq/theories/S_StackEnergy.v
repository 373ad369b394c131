(** Specification vocabulary for the energy of a stack of coupled layers (per unit of area, Ms in tesla).
    Nothing in this file mentions an effective field except the last definitions, which are about its power. *)
From Verif Require Export S_Converge.
Open Scope R_scope.

(** A layer together with the values of its drivers; [d_i] does not change in time. *)
Definition steady (l : layer) (i : field_inputs) : Prop := forall t, inputs_at l t i.
(** Magnetic moment per unit of area. *)
Definition moment (l : layer) : R := l_Ms l * l_thickness l.
(** Zeeman, uniaxial anisotropy and demagnetising energy of a layer. *)
Definition own_energy (l : layer) (i : field_inputs) (m : cvec) : R :=
  - moment l * (Dot m (fi_ext i) + Dot m (fi_oe i) + Dot m (fi_dmi i) + Dot m (fi_res i))
  - moment l / l_Ms l * fi_K i * (Dot (l_anis l) m * Dot (l_anis l) m)
  + moment l * l_Ms l / mu0 / 2 * Dot m (MatVec (l_demag l) m).
(** Exchange of first and second order and dipolar energy of a layer [m] and the layer [c] on top of it. *)
Definition pair_energy (l : layer) (i : field_inputs) (m c : cvec) : R :=
  - fi_Jt i * Dot m c - fi_J2t i * (Dot m c * Dot m c) + moment l * l_Ms l / mu0 * Dot m (MatVec (l_dipoleTop l) c).
(** The whole stack, from the bottom. *)
Fixpoint stack_energy (ls : list (layer * field_inputs)) (ms : list cvec) : R :=
  match ls, ms with
  | (l, i) :: ls', m :: ms' => own_energy l i m + match ms' with c :: _ => pair_energy l i m c | [] => 0 end + stack_energy ls' ms'
  | _, _ => 0
  end.

Definition symmetric (N : tensor) : Prop := forall x y, Dot x (MatVec N y) = Dot y (MatVec N x).
(** Time-independent drivers, no current, no interlayer DMI, symmetric demagnetising tensor. *)
Definition conservative_layer (l : layer) (i : field_inputs) : Prop :=
  steady l i /\ l_includeSTT l = false /\ l_includeSOT l = false /\ l_Ms l <> 0 /\ l_thickness l <> 0 /\
  fi_Db i = Zero /\ fi_Dt i = Zero /\ symmetric (l_demag l).
(** The two layers of a pair agree on their coupling. *)
Definition agree (a b : layer * field_inputs) : Prop :=
  fi_Jt (snd a) = fi_Jb (snd b) /\ fi_J2t (snd a) = fi_J2b (snd b) /\
  forall x y, moment (fst a) * l_Ms (fst a) * Dot x (MatVec (l_dipoleTop (fst a)) y) =
              moment (fst b) * l_Ms (fst b) * Dot y (MatVec (l_dipoleBottom (fst b)) x).
Definition conservative (ls : list (layer * field_inputs)) : Prop :=
  (forall l i, In (l, i) ls -> conservative_layer l i) /\
  (forall p a b, nth_error ls p = Some a -> nth_error ls (S p) = Some b -> agree a b).
Definition layers (ls : list (layer * field_inputs)) : list layer := map fst ls.

(** The field a layer feels, and the energy it loses per unit of time; [b] and [c] are its neighbours. *)
Definition field_on (l : layer) (i : field_inputs) (m b c : cvec) : cvec := H_eff l i m b c (dipole_total l b c) Zero.
Definition loss_rate (l : layer) (i : field_inputs) (m b c : cvec) : R :=
  moment l * (gamma0 * l_damping l / (1 + l_damping l * l_damping l)) * Norm2 (Cross m (field_on l i m b c)).
(** Of all layers, [b] being below the first one. *)
Fixpoint losses (b : cvec) (ls : list (layer * field_inputs)) (ms : list cvec) : R :=
  match ls, ms with
  | (l, i) :: ls', m :: ms' => loss_rate l i m b (hd Zero ms') + losses m ls' ms'
  | _, _ => 0
  end.

(** ** Dipolar coupling of two layers in terms of magnetostatics *)
(** Each layer lies in the stray field of the magnetisation of the *other* one. *)
Definition stray_energy (a b : layer) (x y : cvec) : R := moment a * l_Ms b / mu0 * Dot x (MatVec (l_dipoleTop a) y).
(** The mutual demagnetising tensors of two bodies of the same cross-section. *)
Definition reciprocal (a b : layer) : Prop :=
  forall x y, l_thickness a * Dot x (MatVec (l_dipoleTop a) y) = l_thickness b * Dot y (MatVec (l_dipoleBottom b) x).
Definition pair_in_stray_field (a b : layer * field_inputs) (x y : cvec) : R :=
  own_energy (fst a) (snd a) x + own_energy (fst b) (snd b) y - fi_Jt (snd a) * Dot x y - fi_J2t (snd a) * (Dot x y * Dot x y) +
  stray_energy (fst a) (fst b) x y.
