(** Vocabulary for comparing the resonance frequencies of the two solvers. *)
From Verif Require Export S_SB S_Modes.
Open Scope R_scope.

(** Dynamic layers without damping and torques *)
Definition undamped (s : solver) : Prop := forall l, In l (sv_layers s) -> sb_dyn l = Some (Dynamics 0 0 0).
(** An equilibrium of the energy *)
Definition still (s : solver) (h : cvec) (rho : symbol -> R) : Prop :=
  forall k, (k < 2 * length (sv_layers s))%nat -> partial (system_energy s h) rho (angle s k) 0.
(** ... at which the second derivatives [E] are positive definite *)
Definition definite (n : nat) (E : nat -> nat -> R) : Prop :=
  forall x : nat -> R, (exists c, (c < n)%nat /\ x c <> 0) -> 0 < Sigma n (fun r => Sigma n (fun c => x r * E r c * x c)).
(** The complex amplitudes [v] are annihilated by the Smit-Beljers matrix; they are a mode of the real matrix [J] with eigenvalue [l]. *)
Definition annihilated (n : nat) (h : smatrix) (rho : symbol -> R) (v : nat -> complex) : Prop :=
  forall r, (r < n)%nat -> csum n (fun c => times (eval rho (fst (h r c)), eval rho (snd (h r c))) (v c)) = (0, 0).
Definition mode (n : nat) (J : nat -> nat -> R) (l : complex) (v : nat -> complex) : Prop :=
  forall r, (r < n)%nat -> csum n (fun c => times (J r c, 0) (v c)) = times l (v r).
Definition present (n : nat) (v : nat -> complex) : Prop := exists c, (c < n)%nat /\ v c <> (0, 0).
(** The softened sine of the angles is [k] times the sine. *)
Definition softened (s : solver) (k : R) (rho : symbol -> R) : Prop :=
  forall i, (i < length (sv_layers s))%nat -> soft_sin (rho (angle s (2 * i))) = k * sin (rho (angle s (2 * i))).
(** A correct numerical eigenvalue routine: it lists the eigenvalues. *)
Definition true_eig (eig : list (list R) -> result (list complex * list (list complex))) : Prop :=
  forall a vals rows, eig a = Ok (vals, rows) -> forall l, In l vals <-> exists v, eigenvector a l v.
(** The frequencies for which the Smit-Beljers matrix annihilates some amplitudes *)
Definition resonant (s : solver) (hh : smatrix) (rho : symbol -> R) (f : R) : Prop :=
  0 < f /\ exists v, present (2 * length (sv_layers s)) v /\ annihilated (2 * length (sv_layers s)) hh (upd rho Omega f) v.
(** An undamped equilibrium given by its angles *)
Definition at_equilibrium (s : solver) (hh : smatrix) (eq : list R) (k : R) : Prop :=
  distinct s /\ undamped s /\ energy_hessian s = Ok hh /\ 0 < k /\
  forall rho H, sv_H s = Some H -> placed s eq rho -> regular s rho /\ still s (get_cartesian H) rho /\ softened s k rho /\ definite (2 * length (sv_layers s)) (fun r c => eval rho (fst (hh r c))).
(** Ratio of the two gyromagnetic constants of the code *)
Definition ratio (k : R) : R := 2 * PI * gamma * k / gamma_rad.
