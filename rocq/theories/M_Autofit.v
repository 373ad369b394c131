(** Model of the fit of the front end (view/autofit.py).  The HEBO optimiser is external: its proposals are any function of the search space, of what it was told so far, of the round and of the
    number asked for; it keeps the finite errors only, and its best point is the first one with the least error.  Widgets and figures are left out.
    An interruption from the keyboard arrives at the beginning of a round or before the last simulation (round N + 1). *)
From Verif Require Export M_Fit.
Open Scope R_scope.
Open Scope st_scope.

Definition pset : Type := list (param * R).
(** The point and its error *)
Definition seen : Type := (pset * R)%type.

(** What the optimiser keeps of a round *)
Fixpoint observe (h : list seen) (ps : list pset) (errors : list (option R)) : list seen :=
  match ps, errors with
  | p :: ps', Some e :: es => observe (h ++ [(p, e)])%list ps' es
  | _ :: ps', None :: es => observe h ps' es
  | _, _ => h
  end.
Definition less_error (a b : seen) : seen := if Rlt_dec (snd b) (snd a) then b else a.
Definition best_x (h : list seen) : result seen :=
  match h with [] => Err (Throw "No data has been observed!") | p :: rest => Ok (fold_left less_error rest p) end.

Section fit.
  Context (suggest : list bounds -> list seen -> nat -> nat -> list pset) (interrupt : nat -> bool).
  (** autofit.py:37-66: [more] rounds from round [i] of [total]; the second component lists the shown progress (per cent, least error), the third tells whether the search was interrupted.
      The minimum of no errors raises ValueError, which is printed. *)
  Fixpoint fit_loop (eval : pset -> result (option R)) (cfg : list bounds) (total n_suggestions more i : nat) (h : list seen) (shown : list (nat * R)) : result (list seen * list (nat * R) * bool) :=
    match more with
    | O => Ok (h, shown, false)
    | S k =>
        if interrupt i then Ok (h, shown, true)
        else
          let ps := suggest cfg h i n_suggestions in
          errors <-- rmap eval ps ;;
          let h' := observe h ps errors in
          fit_loop eval cfg total n_suggestions k (S i) h'
            match best_x h' with Ok b => shown ++ [((i * 100) / total, snd b)%nat]%list | Err _ => shown end
    end.

  Record fit_session := FitSession { fs_form : fit_form; fs_iters : nat; fs_suggestions : nat; fs_thickness : nat -> R; fs_axis : nat -> string; fs_H_axis : string; fs_values : param -> R }.
  (** autofit.py:11-21 *)
  Definition fixed_thickness (s : fit_session) : list R := map (fs_thickness s) (seq 0 (ff_N (fs_form s))).
  Definition fixed_axis (s : fit_session) : list string := map (fs_axis s) (seq 0 (ff_N (fs_form s))).

  (** autofit.py:24-75: what the optimiser has seen, the simulation of the best point and the shown progress. After an interruption the name simulated_data is not bound. *)
  Definition hebo_fit (solve : solver -> list R -> result (list R * list R)) (s : fit_session) (hvals y : list R) : result (list seen * option (list (R * R)) * list (nat * R)) :=
    config <-- get_config (fs_form s) ;;
    let (cfg, fixed) := (config : list bounds * list (param * R)) in
    let eval := fun p => suggestion_error solve (fs_form s) (fixed_thickness s) (fixed_axis s) (fs_H_axis s) fixed p hvals y in
    out <-- fit_loop eval cfg (fs_iters s) (fs_suggestions s) (fs_iters s) 1 [] [] ;;
    let '(h, shown, stopped) := (out : list seen * list (nat * R) * bool) in
    if (stopped || interrupt (S (fs_iters s)))%bool then Err (Throw "local variable 'simulated_data' referenced before assignment")
    else
      b <-- best_x h ;;
      match simulate_sb_wrapper solve hvals (ff_N (fs_form s)) (fixed_thickness s) (fixed_axis s) (fs_H_axis s) (fst b ++ fixed)%list with
      | Ok rows => Ok (h, Some rows, shown)
      | Err _ => Ok (h, None, shown)
      end.

  Definition write_value (v : param -> R) (q : param * R) : param -> R := fun k => if param_eqb k (fst q) then snd q else v k.
  Inductive fit_outcome :=
  | AskForData
  | FitFailed
  | Fitted (mse : R) (params : pset) (fields target : list R) (simulated : option (list (R * R))) (values : param -> R).
  (** autofit.py:117-145; [file] is the uploaded file, if any. *)
  Definition autofit (pyfloat : string -> result R) (solve : solver -> list R -> result (list R * list R)) (s : fit_session) (file : option string) : result fit_outcome :=
    match file with
    | None => Ok AskForData
    | Some text =>
        rows <-- read_data pyfloat text ;;
        target <-- fit_target rows ;;
        fit <-- hebo_fit solve s (fst target) (snd target) ;;
        let '(h, simulated, _) := (fit : list seen * option (list (R * R)) * list (nat * R)) in
        match h with
        | [] => Ok FitFailed
        | _ => b <-- best_x h ;; Ok (Fitted (snd b) (fst b) (fst target) (snd target) simulated (fold_left write_value (fst b) (fs_values s)))
        end
    end.
End fit.
