(** Model of the modes of a dynamic stack, of the post-processing of roots (cmtj/models/general_sb.py), and of the evaluation of suggestions
    (cmtj/utils/optimization.py).  numpy.linalg.eig, the root finder and the HEBO optimiser are arguments; single precision is ignored. *)
From Verif Require Export M_SB M_PyUtils.
From Flocq Require Import Core.Generic_fmt.
Open Scope R_scope.
Open Scope st_scope.

(** ** Modes of a dynamic stack *)
Definition complex : Type := R * R.
(** the values substituted for the symbols, in this order; later ones do not override *)
Fixpoint subs_of (syms : list symbol) (vals : list R) (rho : symbol -> R) : symbol -> R :=
  match syms, vals with s :: ss, v :: vs => assign s v (subs_of ss vs rho) | _, _ => rho end.
Definition numeric (rho : symbol -> R) (jac : list (list sexpr)) : result (list (list R)) := rmap (rmap (evalf rho)) jac.
(** positions of the eigenvalues with positive imaginary part *)
Definition positive_modes (eigvals : list complex) : list nat :=
  filter (fun i => if Rlt_dec 0 (snd (nth i eigvals (0, 0)) / (2 * PI)) then true else false) (seq 0 (length eigvals)).
(** general_sb.py:684-686; [eigvecs] are the rows of the matrix. *)
Definition select_modes (eigvals : list complex) (eigvecs : list (list complex)) : result (list R * list (list complex)) :=
  let indx := positive_modes eigvals in
  vecs <-- rmap (fun i => match nth_error eigvecs i with Some r => Ok r | None => Err (Throw "index is out of bounds") end) indx ;;
  Ok (map (fun i => snd (nth i eigvals (0, 0)) / (2 * PI)) indx, vecs).
(** general_sb.py:673-686.  [eig] gives the eigenvalues and the rows of the matrix whose columns are the eigenvectors.  A position of the wrong
    length exceeds the symbols or leaves some in the matrix; both raise (a missing symbol that does not occur in the matrix is not singled out). *)
Definition dynamic_layer_solve (eig : list (list R) -> result (list complex * list (list complex))) (s : solver) (eq : list R) : result (list R * list (list complex)) :=
  match sv_H s with
  | None => Err (Throw "'NoneType' object has no attribute 'get_cartesian'")
  | Some H =>
      js <-- compose_llg_jacobian s (cart (get_cartesian H)) ;;
      let (jac, symbols) := (js : list (list sexpr) * list symbol) in
      if negb (Nat.eqb (length eq) (length symbols)) then Err (Throw "Cannot convert expression to float")
      else
        a <-- numeric (subs_of symbols eq nothing) jac ;;
        vv <-- eig a ;;
        select_modes (fst vv) (snd vv)
  end.
(** general_sb.py:658-660: the frequencies of [solve] in GHz *)
Definition dynamic_modes (eig : list (list R) -> result (list complex * list (list complex))) (s : solver) (eq : list R) : result (list R * list (list complex)) :=
  d <-- dynamic_layer_solve eig s eq ;;
  Ok (map (fun f => f / 10 ^ 9) (fst d), snd d).

(** ** Roots *)
(** [np.around(x, 2)]: to the nearest hundredth, ties to even *)
Definition around2 (x : R) : R := IZR (Znearest (fun z => negb (Z.even z)) (x * 100)) / 100.
(** [np.unique]: sorted, without repetitions *)
Fixpoint insert_value (x : R) (l : list R) : list R :=
  match l with
  | [] => [x]
  | y :: rest => if Rlt_dec x y then x :: y :: rest else if Req_EM_T x y then y :: rest else y :: insert_value x rest
  end.
Definition np_unique (l : list R) : list R := fold_right insert_value [] l.
(** general_sb.py:699-700 *)
Definition root_frequencies (roots : list R) : list R := np_unique (map (fun r => around2 (r / 10 ^ 9)) roots).

(** ** Suggestions *)
(** optimization.py:39-59.  The workers finish in the order [done]; a future is the outcome its worker left, results are collected in the
    order of submission.  [fn] is the function with its fixed parameters. *)
Section Suggest.
  Context {X Y : Type} (fn : X -> result Y) (error_fn : Y -> result R).
  Fixpoint finish (suggestions : list X) (done : list nat) (futures : nat -> option (result Y)) : nat -> option (result Y) :=
    match done with
    | [] => futures
    | j :: rest =>
        let outcome := match nth_error suggestions j with Some x => Some (fn x) | None => futures j end in
        finish suggestions rest (fun q => if Nat.eqb q j then outcome else futures q)
    end.
  Definition multiprocess_simulate (suggestions : list X) (done : list nat) : result (list R) :=
    if Nat.eqb (length suggestions) 0 then Err (Throw "max_workers must be greater than 0")
    else
      let futures := finish suggestions done (fun _ => None) in
      rmap (fun j => match futures j with
                     | Some (Ok y) => error_fn y
                     | Some (Err e) => Err e
                     | None => Err Undefined
                     end) (seq 0 (length suggestions)).
  (** optimization.py:84-105.  The optimiser is what it has observed; [suggest] may use all of it.  The reports are the iterations and values
      printed; [best] is None for infinity. *)
  Context (suggest : list (X * R) -> nat -> result (list X)) (schedule : nat -> list nat).
  Definition minimum (l : list R) : result R :=
    match l with [] => Err (Throw "zero-size array to reduction operation minimum which has no identity") | y :: rest => Ok (fold_left Rmin rest y) end.
  Fixpoint hebo_loop (more i n_suggestions : nat) (observed : list (X * R)) (best : option R) (reports : list (nat * R)) : result (list (X * R) * list (nat * R)) :=
    match more with
    | O => Ok (observed, reports)
    | S k =>
        recs <-- suggest observed n_suggestions ;;
        errors <-- multiprocess_simulate recs (schedule i) ;;
        let observed := (observed ++ combine recs errors)%list in
        val <-- minimum (map snd observed) ;;
        if match best with None => true | Some b => if Rlt_dec val b then true else false end
        then hebo_loop k (S i) n_suggestions observed (Some val) (reports ++ [(i, val)])
        else hebo_loop k (S i) n_suggestions observed best reports
    end.
  Definition hebo_optimization_loop (n_iters n_suggestions : nat) : result (list (X * R) * list (nat * R)) := hebo_loop n_iters 1 n_suggestions [] None [].
End Suggest.
