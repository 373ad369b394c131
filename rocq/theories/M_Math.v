(** Library functions used by several models: nothing here describes cmtj itself. *)
From Verif Require Export Base.
Open Scope R_scope.

(** [atan2]: the angle in (-PI, PI] of the point (x, y); signed zeros are not distinguished. *)
Definition atan2 (y x : R) : R :=
  if Rlt_dec 0 x then atan (y / x)
  else if Rlt_dec x 0 then (if Rle_dec 0 y then atan (y / x) + PI else atan (y / x) - PI)
  else if Rlt_dec 0 y then PI / 2 else if Rlt_dec y 0 then - (PI / 2) else 0.
