(** Values, partial and directional derivatives. *)
From Verif Require Export M_Sym.
From Coq Require Export Reals.
Open Scope R_scope.

Definition upd (rho : symbol -> R) (s : symbol) (t : R) : symbol -> R := fun u => if symbol_eq_dec u s then t else rho u.
(** l is the partial derivative of f with respect to s at rho. *)
Definition partial (f : (symbol -> R) -> R) (rho : symbol -> R) (s : symbol) (l : R) : Prop :=
  derivable_pt_lim (fun t => f (upd rho s t)) (rho s) l.
(** l is the second partial derivative, first s then u. *)
Definition partial2 (f : (symbol -> R) -> R) (rho : symbol -> R) (s u : symbol) (l : R) : Prop :=
  exists g, (forall r, partial f r s (g r)) /\ partial g rho u l.
(** l is the derivative of f at rho in the direction d. *)
Definition along (f : (symbol -> R) -> R) (rho d : symbol -> R) (l : R) : Prop :=
  derivable_pt_lim (fun h => f (fun s => rho s + h * d s)) 0 l.
(** No division by zero. *)
Fixpoint defined (rho : symbol -> R) (e : sexpr) : Prop :=
  match e with
  | ENum _ | ESym _ => True
  | EAdd a b | EMul a b => defined rho a /\ defined rho b
  | EInv a => defined rho a /\ eval rho a <> 0
  | ESin a | ECos a => defined rho a
  end.
