(** Specification vocabulary: Euclidean 3-space, independent of the modelled vector functions. *)
From Verif Require Export M_Vec.
Open Scope R_scope.

Definition Dot (a b : cvec) : R :=
  match a, b with CV a1 a2 a3, CV b1 b2 b3 => a1 * b1 + a2 * b2 + a3 * b3 end.
Definition Cross (a b : cvec) : cvec :=
  match a, b with
  | CV a1 a2 a3, CV b1 b2 b3 => CV (a2 * b3 - a3 * b2) (a3 * b1 - a1 * b3) (a1 * b2 - a2 * b1)
  end.
Definition Scal (k : R) (a : cvec) : cvec :=
  match a with CV a1 a2 a3 => CV (k * a1) (k * a2) (k * a3) end.
Definition Plus (a b : cvec) : cvec :=
  match a, b with CV a1 a2 a3, CV b1 b2 b3 => CV (a1 + b1) (a2 + b2) (a3 + b3) end.
Definition Minus (a b : cvec) : cvec := Plus a (Scal (-1) b).
Definition Zero : cvec := CV 0 0 0.
(** |a|^2 and |a|. *)
Definition Norm2 (a : cvec) : R := Dot a a.
Definition Norm (a : cvec) : R := sqrt (Norm2 a).
Definition Unit (a : cvec) : Prop := Norm2 a = 1.
(** "Length one, or exactly the zero vector." *)
Definition UnitOrZero (a : cvec) : Prop := Norm2 a = 1 \/ a = Zero.
(** Sum of a list of vectors. *)
Definition Sum (l : list cvec) : cvec := fold_right Plus Zero l.
(** Row-wise matrix application. *)
Definition MatVec (t : tensor) (m : cvec) : cvec :=
  CV (Dot (row0 t) m) (Dot (row1 t) m) (Dot (row2 t) m).
