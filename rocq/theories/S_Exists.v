(** Specification vocabulary for the existence of solutions. *)
From Verif Require Export S_StackEnergy.
Open Scope R_scope.

(** Drivers without jumps on [0, T] and a non-zero magnetic moment. *)
Definition sound_layer (T : R) (l : layer) : Prop := tame_layer T l /\ l_Ms l <> 0 /\ l_thickness l <> 0.
(** [u] is the motion of the stack from the magnetisations its layers have: a solution, and the only one. *)
Definition motion (ls : list layer) (T : R) (u : nat -> R -> cvec) : Prop :=
  starts ls u /\ (exists du, solves ls T u du) /\
  forall v dv, starts ls v -> solves ls T v dv -> forall p l t, nth_error ls p = Some l -> 0 <= t <= T -> v p t = u p t.
