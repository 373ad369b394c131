(** Model of the analytical roots of the Smit-Beljers solver (cmtj/models/general_sb.py:38-108, 125-149, 702-739): the
    matrix of an unknown energy E(theta_0, phi_0, ...), the table of substitutions for its derivatives, the substitution.
    [zero e] tells whether sympy simplifies the expression [e] to the number 0; sympy.solve is left out.
    [free_symbols] is a Python set: the order in which it is traversed is an argument. *)
From Verif Require Export M_SB.
Open Scope R_scope.

(** ** Derivatives of the unknown energy *)
(** Position of a symbol among the arguments of E (general_sb.py:44-49) *)
Definition argument (N : nat) (s : symbol) : option nat :=
  match s with
  | Theta i => if Nat.ltb i N then Some (2 * i)%nat else None
  | Phi i => if Nat.ltb i N then Some (2 * i + 1)%nat else None
  | _ => None
  end.
(** [sym.diff(E, s1, s2)]: the number 0 (None) or a derivative with sorted variables *)
Definition key := option (nat * nat).
Definition org_diff (N : nat) (s1 s2 : symbol) : key :=
  match argument N s1, argument N s2 with
  | Some a, Some b => Some (Nat.min a b, Nat.max a b)
  | _, _ => None
  end.
Definition key_eqb (a b : key) : bool :=
  match a, b with
  | None, None => true
  | Some (x, y), Some (u, v) => Nat.eqb x u && Nat.eqb y v
  | _, _ => false
  end.
(** general_sb.py:57-108 for E: the derivative and the imaginary part of each entry *)
Definition fmatrix := nat -> nat -> key * sexpr.
Definition fput (r c : nat) (e : key * sexpr) (h : fmatrix) : fmatrix := fun i j => if Nat.eqb i r && Nat.eqb j c then e else h i j.
Definition func_correction (i : nat) : sexpr := EMul (EMul (EMul (ESym Omega) (ESym (SymMs i))) (ESin (ESym (Theta i)))) (ESym (SymT i)).
Definition func_pair (N i j : nat) (h : fmatrix) : fmatrix :=
  let z := func_correction i in
  let expr := org_diff N (Theta i) (Theta j) in
  let h := fput (2 * i) (2 * j) (expr, ENum 0) h in
  let h := fput (2 * j) (2 * i) (expr, ENum 0) h in
  let expr := org_diff N (Phi i) (Phi j) in
  let h := fput (2 * i + 1) (2 * j + 1) (expr, ENum 0) h in
  let h := fput (2 * j + 1) (2 * i + 1) (expr, ENum 0) h in
  let expr := org_diff N (Theta i) (Phi j) in
  if Nat.eqb i j then
    let h := fput (2 * i + 1) (2 * j) (expr, z) h in
    fput (2 * i) (2 * j + 1) (expr, ENeg z) h
  else
    let h := fput (2 * i) (2 * j + 1) (expr, ENum 0) h in
    let h := fput (2 * j + 1) (2 * i) (expr, ENum 0) h in
    let expr := org_diff N (Phi i) (Theta j) in
    let h := fput (2 * i + 1) (2 * j) (expr, ENum 0) h in
    fput (2 * j) (2 * i + 1) (expr, ENum 0) h.
(** general_sb.py:38-54 *)
Definition general_hessian_functional (N : nat) : fmatrix :=
  fold_left (fun h i => fold_left (fun h j => func_pair N i j h) (seq i (N - i)) h) (seq 0 N) (fun _ _ => (None, ENum 0)).

(** ** The table of second derivatives, general_sb.py:132-149 *)
Definition table := key -> option sexpr.
Definition update (k : key) (e : sexpr) (d : table) : table := fun k' => if key_eqb k k' then Some e else d k'.
(** [expr.subs(second_derivatives)]: derivatives of E do not occur in [expr], but the key 0 replaces the number 0. *)
Definition subs_table (zero : sexpr -> bool) (d : table) (e : sexpr) : sexpr :=
  if zero e then match d None with Some v => v | None => e end else e.
Definition visit (zero : sexpr -> bool) (N : nat) (E : sexpr) (d : table) (p : symbol * symbol) : table :=
  update (org_diff N (fst p) (snd p)) (subs_table zero d (diff (diff E (fst p)) (snd p))) d.
(** the pairs with i <= j in the order of the two loops *)
Fixpoint pairs (symbols : list symbol) : list (symbol * symbol) :=
  match symbols with [] => [] | s :: rest => map (pair s) symbols ++ pairs rest end.
Definition get_all_second_derivatives (zero : sexpr -> bool) (N : nat) (E : sexpr) (symbols : list symbol) : table :=
  fold_left (visit zero N E) (pairs symbols) (fun _ => None).

(** ** Substitution, general_sb.py:702-724, 735-739 *)
(** The dictionary of M_{i} and t_{i}; later layers replace earlier ones with the same number. *)
Definition last_layer (i : nat) (ls : list layerSB) : option layerSB := find (fun l => Nat.eqb (sb_id l) i) (rev ls).
Definition ms_sub (ls : list layerSB) (s : symbol) : sexpr :=
  match s with
  | SymMs i => match last_layer i ls with Some l => ENum (sb_Ms l) | None => ESym s end
  | SymT i => match last_layer i ls with Some l => ENum (sb_thickness l) | None => ESym s end
  | _ => ESym s
  end.
Fixpoint substitute (f : symbol -> sexpr) (e : sexpr) : sexpr :=
  match e with
  | ENum r => ENum r
  | ESym s => f s
  | EAdd a b => EAdd (substitute f a) (substitute f b)
  | EMul a b => EMul (substitute f a) (substitute f b)
  | EInv a => EInv (substitute f a)
  | ESin a => ESin (substitute f a)
  | ECos a => ECos (substitute f a)
  end.
(** The field is left symbolic (general_sb.py:707-713). *)
Definition field_syms : svec := SV (ESym Hx) (ESym Hy) (ESym Hz).
(** The matrix whose determinant is solved, after the substitutions; a derivative without a value cannot become a float. *)
Definition analytical_matrix (zero : sexpr -> bool) (s : solver) (symbols : list symbol) (r c : nat) : result (sexpr * sexpr) :=
  let N := List.length (sv_layers s) in
  E <-- create_energy s (Some field_syms) false ;;
  let '(k, z) := general_hessian_functional N r c in
  match get_all_second_derivatives zero N E symbols k with
  | Some e => Ok (substitute (ms_sub (sv_layers s)) e, substitute (ms_sub (sv_layers s)) z)
  | None => Err (Throw "Cannot convert expression to float")
  end.
