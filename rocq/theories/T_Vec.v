(** C29: theorems about CVector and the vector helpers. *)
From Verif Require Import P_Vec P_VecMore.
Open Scope R_scope.

(** C29.  Every CVector operation is the Euclidean one (specified independently in S_Vec.v). *)
Theorem c29_operations_are_euclidean : forall a b s,
  vadd a b = Plus a b /\ vsub a b = Minus a b /\ vscale a s = Scal s a /\
  c_dot a b = Dot a b /\ c_cross a b = Cross a b /\ vlength a = Norm a /\
  vadds a s = Plus a (CV s s s).
Proof. exact ops_are_euclidean. Qed.
Print Assumptions c29_operations_are_euclidean.

(** C29.  The laws of Euclidean 3-space hold for the code's own operations. *)
Theorem c29_laws : forall a b c s,
  vadd a b = vadd b a /\ vadd (vadd a b) c = vadd a (vadd b c) /\ vadd a vnull = a /\
  vsub a a = vnull /\
  c_dot a b = c_dot b a /\ c_dot (vadd a b) c = c_dot a c + c_dot b c /\
  c_dot (vscale a s) b = s * c_dot a b /\
  0 <= c_dot a a /\ (c_dot a a = 0 -> a = vnull) /\ vlength a ^ 2 = c_dot a a /\
  c_cross a b = vscale (c_cross b a) (-1) /\
  c_dot a (c_cross a b) = 0 /\ c_dot b (c_cross a b) = 0 /\
  c_cross a (c_cross b c) = vsub (vscale b (c_dot a c)) (vscale c (c_dot a b)) /\
  vlength (c_cross a b) ^ 2 = vlength a ^ 2 * vlength b ^ 2 - c_dot a b ^ 2.
Proof. exact vector_laws. Qed.
Print Assumptions c29_laws.

(** C29.  Normalisation: unit length, same direction, idempotent, zero unchanged. *)
Theorem c29_normalize : forall a,
  (a <> vnull -> c_dot (vnormalize a) (vnormalize a) = 1 /\
                 a = vscale (vnormalize a) (vlength a) /\ 0 < vlength a) /\
  vnormalize (vnormalize a) = vnormalize a /\
  vnormalize vnull = vnull.
Proof. exact normalize_laws. Qed.
Print Assumptions c29_normalize.

(** C29.  Division by a scalar raises exactly for zero and otherwise undoes scaling. *)
Theorem c29_division : forall a s,
  (s = 0 -> exists msg, vdiv a s = Err (Throw msg)) /\
  (s <> 0 -> exists r, vdiv a s = Ok r /\ vscale r s = a).
Proof. exact division_laws. Qed.
Print Assumptions c29_division.

(** C29.  List conversion round-trips; only lists of length three are accepted; indexing reads the
    components in order, and every index other than 0 and 1 reads the third one. *)
Theorem c29_lists_and_indexing : forall v l i,
  vec_of_list (vtolist v) = Ok v /\
  (forall w, vec_of_list l = Ok w -> vtolist w = l) /\
  (length l <> 3%nat -> exists msg, vec_of_list l = Err (Throw msg)) /\
  vget v i = nth (if Z.eqb i 0 then 0 else if Z.eqb i 1 then 1 else 2)%nat (vtolist v) 0.
Proof. exact list_laws. Qed.
Print Assumptions c29_lists_and_indexing.

(** C29.  Equality test. *)
Theorem c29_equality : forall a b, veqb a b = true <-> a = b.
Proof. exact veqb_iff. Qed.
Print Assumptions c29_equality.

Example c29_normalize_example : CV 3 0 4 <> vnull /\ vnormalize (CV 3 0 4) = CV (3 / 5) 0 (4 / 5).
Proof. exact normalize_345. Qed.
Example c29_division_example : vdiv (CV 2 4 6) 2 = Ok (CV 1 2 3).
Proof. exact div_246. Qed.
