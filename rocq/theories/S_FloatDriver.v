(** Vocabulary for drivers in binary64 arithmetic. *)
From Verif Require Export M_FloatDriver S_Grid.
Open Scope R_scope.

(** The position of a time inside its period, as a fraction of the period. *)
Definition phase_of (t p : R) : R := t / p - IZR (Zfloor (t / p)).
(** Rounding can move an edge by this fraction of the period. *)
Definition edge_slack (t p : R) : R := bpow radix2 (-50) * (t / p + 1).
(** [x] keeps more than the slack away from both edges of the pulse and from the end of the period. *)
Definition off_edges (t p c : R) : Prop :=
  edge_slack t p < phase_of t p < 1 - edge_slack t p /\ edge_slack t p < Rabs (phase_of t p - c).
