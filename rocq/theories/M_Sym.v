(** Model of the symbolic expressions built with sympy: a symbol table of the names used by the package,
    expressions, substitution of numbers (eval) and sympy.diff.  Expressions are kept as built; the
    automatic simplifications of sympy preserve values and are not represented. *)
From Verif Require Export Base.
Open Scope R_scope.

(** "\theta_i", "\phi_i" and the other names of cmtj/models/general_sb.py and cmtj/utils/resistance.py *)
Inductive symbol := Theta (i : nat) | Phi (i : nat) | Omega | Hoe | Vp | Hx | Hy | Hz | SymMs (i : nat) | SymT (i : nat).
Definition symbol_eq_dec (a b : symbol) : {a = b} + {a <> b}.
Proof. decide equality; apply Nat.eq_dec. Defined.

Inductive sexpr := ENum (r : R) | ESym (s : symbol) | EAdd (a b : sexpr) | EMul (a b : sexpr) | EInv (a : sexpr) | ESin (a : sexpr) | ECos (a : sexpr).
Definition ENeg (a : sexpr) : sexpr := EMul (ENum (-1)) a.
Definition ESub (a b : sexpr) : sexpr := EAdd a (ENeg b).
Definition EDiv (a b : sexpr) : sexpr := EMul a (EInv b).
Definition ESq (a : sexpr) : sexpr := EMul a a.

(** [expr.subs(values)] followed by numerical evaluation *)
Fixpoint eval (rho : symbol -> R) (e : sexpr) : R :=
  match e with
  | ENum r => r
  | ESym s => rho s
  | EAdd a b => eval rho a + eval rho b
  | EMul a b => eval rho a * eval rho b
  | EInv a => / eval rho a
  | ESin a => sin (eval rho a)
  | ECos a => cos (eval rho a)
  end.
(** [sym.diff(expr, s)] *)
Fixpoint diff (e : sexpr) (s : symbol) : sexpr :=
  match e with
  | ENum _ => ENum 0
  | ESym t => if symbol_eq_dec t s then ENum 1 else ENum 0
  | EAdd a b => EAdd (diff a s) (diff b s)
  | EMul a b => EAdd (EMul (diff a s) b) (EMul a (diff b s))
  | EInv a => ENeg (EMul (diff a s) (EInv (ESq a)))
  | ESin a => EMul (ECos a) (diff a s)
  | ECos a => ENeg (EMul (ESin a) (diff a s))
  end.

(** Matrices (column vectors) of three expressions. *)
Record svec := SV { sx : sexpr; sy : sexpr; sz : sexpr }.
Definition sdot (a b : svec) : sexpr := EAdd (EAdd (EMul (sx a) (sx b)) (EMul (sy a) (sy b))) (EMul (sz a) (sz b)).
Definition scross (a b : svec) : svec :=
  SV (ESub (EMul (sy a) (sz b)) (EMul (sz a) (sy b))) (ESub (EMul (sz a) (sx b)) (EMul (sx a) (sz b))) (ESub (EMul (sx a) (sy b)) (EMul (sy a) (sx b))).
Definition snum (v : R * R * R) : svec := let '(x, y, z) := v in SV (ENum x) (ENum y) (ENum z).
(** [expr.subs(values).evalf()]: a division by zero gives the non-finite values of sympy. *)
Fixpoint finite (rho : symbol -> R) (e : sexpr) : bool :=
  match e with
  | ENum _ | ESym _ => true
  | EAdd a b | EMul a b => finite rho a && finite rho b
  | EInv a => finite rho a && (if Req_EM_T (eval rho a) 0 then false else true)
  | ESin a | ECos a => finite rho a
  end.
Definition evalf (rho : symbol -> R) (e : sexpr) : result R := if finite rho e then Ok (eval rho e) else Err NonFinite.
