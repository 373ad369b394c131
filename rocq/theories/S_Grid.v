(** Vocabulary for the binary64 time grid. *)
From Verif Require Export M_Grid.
From Flocq Require Export Core.Core IEEE754.BinarySingleNaN.
Open Scope R_scope.

(** The double nearest to a real number (ties to even), without a bound on the exponent. *)
Definition nearest_double (x : R) : R := round radix2 (FLT_exp (-1074) 53) ZnearestE x.
(** [x] is a real number represented by the double [b]. *)
Definition represents (b : b64) (x : R) : Prop := is_finite b = true /\ B2R b = x.
(** The whole number of steps that fit into [T] after rounding the quotient. *)
Definition whole_steps (T dt : R) : Z := Ztrunc (nearest_double (T / dt)).
