(** Specification vocabulary for how far, in a stack of layers, a change is felt after some steps (C103). *)
From Verif Require Export S_Run.
Open Scope R_scope.

(** Same parameters, magnetisation and random numbers; only what is remembered for the log may differ. *)
Definition alike (l l' : layer) : Prop := exists c, l' = set_l_cache c l.
(** The two junctions have alike layers at position q, or both have none there. *)
Definition alike_at (a b : junction) (q : nat) : Prop :=
  match nth_error (j_layers a) q, nth_error (j_layers b) q with
  | Some l, Some l' => alike l l'
  | None, None => True
  | _, _ => False
  end.
Definition within (d p q : nat) : Prop := (q <= p + d /\ p <= q + d)%nat.
Definition agree_near (d p : nat) (a b : junction) : Prop := forall q, within d p q -> alike_at a b q.
(** How many layers further a change is felt after one step. *)
Definition reach (r : runner) : nat :=
  match r with RunSingle => 0 | RunMulti => 1 | RunEulerHeun => 1 | RunHeun => 2 end.
(** The two junctions are given the same solver: both or neither contain noise, both or neither are single layers. *)
Definition same_solver (a b : junction) : Prop :=
  ((exists l, In l (j_layers a) /\ noisy l) <-> (exists l, In l (j_layers b) /\ noisy l)) /\ (layerNo a = 1%nat <-> layerNo b = 1%nat).
(** The reach of the solver a junction gets when asked for [mode]. *)
Definition mode_reach (mode : solver_mode) : nat := match mode with HEUN => 2 | _ => 1 end.
