(** Property C98: the energy of a stack of coupled layers. *)
From Verif Require Import P_StackEnergy P_StackEnergyRun P_ConvergeRun P_Alone.
From Verif Require Export S_StackEnergy.
From Coq Require Import Reals Lra.
Open Scope R_scope.

(** C98.  Stacks of any number of layers with time-independent drivers, no current and no interlayer DMI, whose
    neighbours agree on their couplings.  Along every solution of the equations the energy changes at the rate
    at which the damping torques of the layers take it away ... *)
Theorem c98_rate : forall ls T u du, conservative ls -> solves (layers ls) T u du -> forall t, 0 <= t <= T ->
  derivable_pt_lim (fun s => stack_energy ls (snapshot u (length ls) s)) t (- losses Zero ls (snapshot u (length ls) t)).
Proof. exact energy_balance. Qed.
(** ... so it never rises, ... *)
Theorem c98_never_rises : forall ls T u du, conservative ls -> solves (layers ls) T u du -> forall s t,
  (forall l i, In (l, i) ls -> 0 <= moment l /\ 0 <= l_damping l) -> 0 <= s <= t -> t <= T ->
  stack_energy ls (snapshot u (length ls) t) <= stack_energy ls (snapshot u (length ls) s).
Proof. exact energy_falls. Qed.
(** ... it is constant without damping, ... *)
Theorem c98_conserved : forall ls T u du, conservative ls -> solves (layers ls) T u du -> forall s t,
  (forall l i, In (l, i) ls -> l_damping l = 0) -> 0 <= s <= T -> 0 <= t <= T ->
  stack_energy ls (snapshot u (length ls) t) = stack_energy ls (snapshot u (length ls) s).
Proof. exact energy_kept. Qed.
(** ... and with damping in every layer it stays the same only while no layer feels a torque. *)
Theorem c98_rest : forall ls T u du, conservative ls -> solves (layers ls) T u du -> forall s t,
  (forall l i, In (l, i) ls -> 0 < moment l /\ 0 < l_damping l) -> 0 <= s < t -> t <= T ->
  stack_energy ls (snapshot u (length ls) t) = stack_energy ls (snapshot u (length ls) s) ->
  forall x p l i, s < x < t -> nth_error ls p = Some (l, i) ->
  Cross (u p x) (field_on l i (u p x) (below (snapshot u (length ls) x) p) (above (snapshot u (length ls) x) p)) = Zero.
Proof. exact energy_still. Qed.
(** Simulations follow: with small enough steps no solver ends with more energy than it began with, beyond any
    given tolerance, and without damping it ends with the same energy. *)
Theorem c98_simulation : forall ls T j u du, 0 <= T -> conservative ls -> j_layers j = layers ls -> (forall l, In l (j_layers j) -> quiet l /\ Unit (l_mag l)) ->
  solves (layers ls) T u du -> starts (layers ls) u ->
  forall eps, 0 < eps -> exists delta, 0 < delta /\ forall dt wf e mode j', 0 < dt < delta -> runSimulation T dt wf e mode j = (j', Ok tt) ->
    ((forall l i, In (l, i) ls -> 0 <= moment l /\ 0 <= l_damping l) -> stack_energy ls (mags (j_layers j')) < stack_energy ls (mags (j_layers j)) + eps) /\
    ((forall l i, In (l, i) ls -> l_damping l = 0) -> Rabs (stack_energy ls (mags (j_layers j')) - stack_energy ls (mags (j_layers j))) < eps).
Proof. exact simulated_energy. Qed.

(** Dipolar coupling.  For layers of equal magnetisation reciprocal tensors are what [conservative] asks for, and the
    energy above is that of each layer in the stray field of the other. *)
Theorem c98_reciprocal : forall a b, reciprocal a b -> l_Ms a = l_Ms b ->
  (forall x y, moment a * l_Ms a * Dot x (MatVec (l_dipoleTop a) y) = moment b * l_Ms b * Dot y (MatVec (l_dipoleBottom b) x)) /\
  (forall x y, stray_energy a b x y = moment a * l_Ms a / mu0 * Dot x (MatVec (l_dipoleTop a) y)).
Proof. exact reciprocal_agrees. Qed.
(** The dipolar field is computed with the magnetisation of the layer it acts on, not of the one it comes from.  For
    layers of different magnetisation the energy in the stray fields is therefore not conserved, without any
    damping: in time pi this pair goes from energy - h Ma to - h Mb, up or down as one likes ... *)
Theorem c98_dipole_refuted : forall Ma Mb, Ma <> 0 -> Mb <> 0 ->
  let a := (ex_lower Ma, ex_inputs (CV ex_h 0 0)) in let b := (ex_upper Ma Mb, ex_inputs Zero) in
  reciprocal (fst a) (fst b) /\ steady (fst a) (snd a) /\ steady (fst b) (snd b) /\ l_damping (fst a) = 0 /\ l_damping (fst b) = 0 /\
  l_Ms (fst a) = Ma /\ l_Ms (fst b) = Mb /\ 0 < ex_h /\
  (forall T, solves [fst a; fst b] T ex_turn ex_turn') /\ starts [fst a; fst b] ex_turn /\
  pair_in_stray_field a b (ex_turn 0 0) (ex_turn 1 0) = - (ex_h * Ma) /\ pair_in_stray_field a b (ex_turn 0 PI) (ex_turn 1 PI) = - (ex_h * Mb).
Proof.
  intros Ma Mb HA HB a b. split; [apply dipole_reciprocal|]. split; [exact (lower_inputs Ma)|]. split; [exact (upper_inputs Ma Mb)|]. do 4 (split; [reflexivity|]).
  split; [exact (ex_h_pos)|]. split; [exact (fun T => dipole_solves Ma Mb T HA HB)|]. split; [exact (dipole_starts Ma Mb)|].
  split; unfold a, b; rewrite dipole_energy_at by assumption; rewrite ?cos_0, ?cos_PI; field.
Qed.
(** ... and so do simulations of it. *)
Theorem c98_dipole_simulated_refuted : forall Ma Mb j, Ma <> 0 -> Mb <> 0 -> j_layers j = layers (ex_dipole_pair Ma Mb) -> forall eps, 0 < eps -> exists delta, 0 < delta /\
  forall dt wf e mode j', 0 < dt < delta -> runSimulation PI dt wf e mode j = (j', Ok tt) ->
    exists x y, mags (j_layers j') = [x; y] /\
      Rabs (pair_in_stray_field (ex_lower Ma, ex_inputs (CV ex_h 0 0)) (ex_upper Ma Mb, ex_inputs Zero) x y - - (ex_h * Mb)) < eps.
Proof. exact dipole_simulated. Qed.

(** Examples: the same pair with equal magnetisations, and a layer spiralling into the field. *)
Example c98_pair_example : conservative (ex_dipole_pair 1 1) /\ (forall T, solves (layers (ex_dipole_pair 1 1)) T ex_turn ex_turn') /\ starts (layers (ex_dipole_pair 1 1)) ex_turn /\
  (forall l i, In (l, i) (ex_dipole_pair 1 1) -> 0 <= moment l /\ l_damping l = 0) /\ (forall l, In l (layers (ex_dipole_pair 1 1)) -> quiet l /\ Unit (l_mag l)).
Proof.
  split; [apply ex_pair_conservative; lra|]. split; [intros T; apply dipole_solves; lra|]. split; [apply dipole_starts|]. split.
  - intros l i [E|[E|[]]]; injection E as <- <-; unfold moment; cbn; lra.
  - intros l Hl. apply (dipole_fine 1 1 1 ltac:(lra) ltac:(lra) l Hl).
Qed.
Example c98_spiral_example : conservative ex_falling /\ (forall T, solves (layers ex_falling) T ex_spiral ex_spiral') /\ starts (layers ex_falling) ex_spiral /\
  (forall l i, In (l, i) ex_falling -> 0 < moment l /\ 0 < l_damping l) /\
  forall t, stack_energy ex_falling (snapshot ex_spiral 1 t) = - (sinh (/ 2 * t) / cosh (/ 2 * t)) / gamma0.
Proof.
  split; [exact spiral_conservative|]. split; [exact spiral_solves|]. split; [exact spiral_starts|]. split; [exact spiral_positive|exact spiral_energy].
Qed.
Example c98_runs_example : forall Ma Mb e mode n, Ma <> 0 -> Mb <> 0 -> (0 < n < 4294967296)%Z ->
  exists j', runSimulation PI (PI / IZR n) (PI / IZR n) e mode (ex_plain_pair (ex_lower Ma) (ex_upper Ma Mb)) = (j', Ok tt).
Proof. exact dipole_runs. Qed.
Print Assumptions c98_rate.
Print Assumptions c98_never_rises.
Print Assumptions c98_conserved.
Print Assumptions c98_rest.
Print Assumptions c98_simulation.
Print Assumptions c98_reciprocal.
Print Assumptions c98_dipole_refuted.
Print Assumptions c98_dipole_simulated_refuted.
