(** What the library functions are expected to return. *)
From Verif Require Export M_Math.
Open Scope R_scope.

(** [theta] is the principal angle of the point (x, y). *)
Definition principal_angle (x y theta : R) : Prop :=
  (x = 0 /\ y = 0 /\ theta = 0) \/
  (exists r, 0 < r /\ x = r * cos theta /\ y = r * sin theta /\ - PI < theta <= PI).
