(** Vocabulary for the analytical roots. *)
From Verif Require Export S_SB S_TwoSolvers M_Analytic.
Open Scope R_scope.

(** What sympy reduces to 0 is 0. *)
Definition sound (zero : sexpr -> bool) : Prop := forall e, zero e = true -> forall rho, eval rho e = 0.
(** The angles of the first N layers *)
Definition angle_of (N : nat) (s : symbol) : Prop := exists i, (i < N)%nat /\ (s = Theta i \/ s = Phi i).
Definition second (E : sexpr) (p : symbol * symbol) : sexpr := diff (diff E (fst p)) (snd p).
Definition outside (N : nat) (p : symbol * symbol) : Prop := ~ (angle_of N (fst p) /\ angle_of N (snd p)).
(** [v] is the derivative by the last pair outside the angles that is not reduced to 0; there is no such pair. *)
Definition stale (zero : sexpr -> bool) (N : nat) (E : sexpr) (before : list (symbol * symbol)) (v : sexpr) : Prop :=
  exists b1 p b2, before = (b1 ++ p :: b2)%list /\ outside N p /\ zero (second E p) = false /\ v = second E p /\ forall q, In q b2 -> outside N q -> zero (second E q) = true.
Definition fresh (zero : sexpr -> bool) (N : nat) (E : sexpr) (before : list (symbol * symbol)) : Prop :=
  forall q, In q before -> outside N q -> zero (second E q) = true.
(** Layers numbered from 0 *)
Definition numbered (s : solver) : Prop := forall i, (i < length (sv_layers s))%nat -> sb_id (the_layer s i) = i.
(** The field symbols stand for the field [h]. *)
Definition in_field (h : cvec) (rho : symbol -> R) : Prop := CV (rho Hx) (rho Hy) (rho Hz) = h.
Definition field_energy (s : solver) (rho : symbol -> R) : R := system_energy s (CV (rho Hx) (rho Hy) (rho Hz)) rho.
(** The second derivative of the energy does not vanish everywhere. *)
Definition lively (s : solver) (a b : symbol) : Prop := exists rho x, partial2 (field_energy s) rho a b x /\ x <> 0.
Definition all_lively (s : solver) : Prop := forall a b, angle_of (length (sv_layers s)) a -> angle_of (length (sv_layers s)) b -> lively s a b.
(** A traversal of the symbols of the energy *)
Definition traversal (s : solver) (symbols : list symbol) : Prop := NoDup symbols /\ forall a, angle_of (length (sv_layers s)) a -> In a symbols.
(** The amplitudes [v] are annihilated by the substituted matrix at the frequency [w]. *)
Definition solves (zero : sexpr -> bool) (s : solver) (symbols : list symbol) (rho : symbol -> R) (w : R) (v : nat -> complex) : Prop :=
  exists A : smatrix, (forall r c, (r < 2 * length (sv_layers s))%nat -> (c < 2 * length (sv_layers s))%nat -> analytical_matrix zero s symbols r c = Ok (A r c)) /\
  annihilated (2 * length (sv_layers s)) A (upd rho Omega w) v.
