(** Model of the Python search helpers (cmtj/utils/solvers.py, parallel.py, optimization.py). *)
From Verif Require Export M_Geom.
Open Scope R_scope.
Open Scope st_scope.

(** ** cmtj/utils/solvers.py *)
(** solvers.py:8-13 *)
Record finder := RF { rf_start : R; rf_stop : R; rf_step : R; rf_xtol : R; rf_roots : list R }.
Definition set_rf_roots (rs : list R) (s : finder) : finder := RF (rf_start s) (rf_stop s) (rf_step s) (rf_xtol s) rs.
Definition newRootFinder (start stop step xtol : R) : finder := RF start stop step xtol [].
(** solvers.py:15-21 *)
Definition add_to_roots (x : R) (s : finder) : finder :=
  if Rlt_dec x (rf_start s) then s
  else if Rlt_dec (rf_stop s) x then s
  else if existsb (fun r => if Rlt_dec (Rabs (r - x)) (rf_xtol s) then true else false) (rf_roots s) then s
  else set_rf_roots (rf_roots s ++ [x])%list s.
(** solvers.py:26-33  the loop over the initial guesses; [find_root x0] is what scipy's solver returns from
    there, [None] without success. *)
Fixpoint find_loop (find_root : R -> option R) (current : R) (guesses : list R) (s : finder) : finder :=
  match guesses with
  | [] => s
  | x0 :: rest =>
      if Rlt_dec x0 current then find_loop find_root current rest s
      else match find_root x0 with
           | None => find_loop find_root current rest s
           | Some x => find_loop find_root x rest (add_to_roots x s)
           end
  end.
(** solvers.py:23-35 *)
Definition find (find_root : R -> option R) : ST finder (list R) :=
  s <- get ;;
  if Req_EM_T (rf_step s) 0 then fail (Throw "float division by zero")
  else
    let nsteps := ztrunc ((rf_stop s - rf_start s) / rf_step s) in
    guesses <- lift (linspace (rf_start s) (rf_stop s + rf_step s) nsteps) ;;
    modify (find_loop find_root (rf_start s) guesses) ;;;
    s' <- get ;;
    ret (rf_roots s').

(** ** cmtj/utils/parallel.py *)
(** [itertools.product] of the spaces *)
Fixpoint product (spaces : list (list R)) : list (list R) :=
  match spaces with
  | [] => [[]]
  | s :: rest => flat_map (fun x => map (cons x) (product rest)) s
  end.
(** [np.argwhere(space == value).ravel()[0]] *)
Fixpoint argwhere_first (value : R) (space : list R) : result nat :=
  match space with
  | [] => Err (Throw "index 0 is out of bounds")
  | x :: rest => if Req_EM_T x value then Ok 0%nat else i <-- argwhere_first value rest ;; Ok (S i)
  end.
(** parallel.py:29-30 *)
Fixpoint get_index (spaces : list (list R)) (values : list R) : result (list nat) :=
  match spaces, values with
  | [], _ => Ok []
  | s :: ss, v :: vs => i <-- argwhere_first v s ;; is <-- get_index ss vs ;; Ok (i :: is)
  | _ :: _, [] => Err (Throw "tuple index out of range")
  end.
(** a list computation applied to each element *)
Fixpoint rmap {A B} (f : A -> result B) (xs : list A) : result (list B) :=
  match xs with
  | [] => Ok []
  | x :: rest => y <-- f x ;; ys <-- rmap f rest ;; Ok (y :: ys)
  end.
Fixpoint values_eq (a b : list R) : bool :=
  match a, b with
  | [], [] => true
  | x :: a', y :: b' => if Req_EM_T x y then values_eq a' b' else false
  | _, _ => false
  end.
(** [iterables.index(iterable)] *)
Fixpoint list_index (v : list R) (xs : list (list R)) : result nat :=
  match xs with
  | [] => Err (Throw "x is not in list")
  | x :: rest => if values_eq x v then Ok 0%nat else i <-- list_index v rest ;; Ok (S i)
  end.
(** parallel.py:12-49  [order] is the shuffled array of positions (None without shuffle), [done] the order in
    which the pool hands back its tasks. *)
Definition distribute {A} (simulation_fn : list R -> A) (spaces : list (list R)) (order : option (list nat))
  (done : list nat) : result (list (list nat * A)) :=
  let iterables0 := product spaces in
  indexes0 <-- rmap (get_index spaces) iterables0 ;;
  let iterables := match order with None => iterables0 | Some o => map (fun i => nth i iterables0 []) o end in
  let indexes := match order with None => indexes0 | Some o => map (fun i => nth i indexes0 []) o end in
  rmap (fun c =>
          let iterable := nth c iterables [] in
          let output := simulation_fn iterable in
          p <-- list_index iterable iterables ;;
          match nth_error indexes p with
          | None => Err (Throw "list index out of range")
          | Some indx => Ok (indx, output)
          end) done.

(** ** cmtj/utils/optimization.py *)
Definition pdict := list (string * R).
Fixpoint dict_set (k : string) (v : R) (d : pdict) : pdict :=
  match d with
  | [] => [(k, v)]
  | (k', v') :: rest => if String.eqb k' k then (k', v) :: rest else (k', v') :: dict_set k v rest
  end.
(** The dictionaries by address, the address in [opt_params], and the best value ([None] is -inf). *)
Record descent := DS { ds_heap : list pdict; ds_opt : nat; ds_best : option R }.
Definition better (mse : R) (best : option R) : bool :=
  match best with None => true | Some b => if Rlt_dec b mse then true else false end.
(** optimization.py:26-35  [cell] is the address of [new_params]. *)
Fixpoint descend_values (fn : pdict -> R) (k : string) (cell : nat) (vs : list R) (s : descent) : descent :=
  match vs with
  | [] => s
  | v :: rest =>
      let new_params := dict_set k v (nth cell (ds_heap s) []) in
      let heap := set_nth cell new_params (ds_heap s) in
      let mse := fn new_params in
      let s' := if better mse (ds_best s) then DS heap cell (Some mse) else DS heap (ds_opt s) (ds_best s) in
      descend_values fn k cell rest s'
  end.
(** optimization.py:24-35  [items] are the remaining items of the operating point at address 0. *)
Fixpoint descend_items (fn : pdict -> R) (granularity : Z) (percentage : R) (items : pdict) (s : descent) : result descent :=
  match items with
  | [] => Ok s
  | (k, org_v) :: rest =>
      let cell := length (ds_heap s) in
      let s1 := DS (ds_heap s ++ [nth 0 (ds_heap s) []])%list (ds_opt s) (ds_best s) in
      vs <-- linspace ((1 - percentage) * org_v) ((1 + percentage) * org_v) granularity ;;
      descend_items fn granularity percentage rest (descend_values fn k cell vs s1)
  end.
(** optimization.py:8-36 *)
Definition coordinate_descent (operating_point : pdict) (fn : pdict -> R) (best_mse : option R) (granularity : Z)
  (percentage : R) : result (pdict * option R) :=
  s <-- descend_items fn granularity percentage operating_point (DS [operating_point] 0 best_mse) ;;
  Ok (nth (ds_opt s) (ds_heap s) [], ds_best s).
