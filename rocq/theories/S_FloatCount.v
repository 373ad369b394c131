(** Vocabulary for counts rounded up. *)
From Verif Require Export M_FloatCount S_Grid.
Open Scope R_scope.
(** The quotient of two doubles, rounded and then rounded up. *)
Definition steps_up (T dt : R) : Z := Zceil (nearest_double (T / dt)).
(** The documented length of an arange: the rounded-up quotient, at least one in a non-empty range. *)
Definition range_count (span step : R) : Z := if Rlt_dec 0 (span / step) then Z.max (steps_up span step) 1 else 0%Z.
