(** Model of the fitting front end (view/simulation_fns.py, view/autofit.py, view/helpers.py, view/utils.py) without widgets and figures.
    The session state is a function of the field's name and the layer's number; the Smit-Beljers solver of a sweep is an argument. *)
From Verif Require Export M_PyUtils M_SB.
From Coq Require Import Ascii.
Open Scope R_scope.
Open Scope st_scope.

(** ** Axes *)
(** simulation_fns.py:68-82 *)
Definition get_axis_cvector (a : string) : result cvec :=
  if String.eqb a "x" then Ok (CV 1 0 0) else if String.eqb a "y" then Ok (CV 0 1 0) else if String.eqb a "z" then Ok (CV 0 0 1)
  else if String.eqb a "xy" then Ok (CV 1 1 0) else if String.eqb a "xz" then Ok (CV 1 0 1) else if String.eqb a "yz" then Ok (CV 0 1 1)
  else Err (Throw "Invalid axis").
(** simulation_fns.py:85-93 *)
Definition get_axis (a : string) : result axis :=
  if String.eqb a "x" then Ok xaxis else if String.eqb a "y" then Ok yaxis else if String.eqb a "z" then Ok zaxis else Err (Throw "Invalid axis").
(** simulation_fns.py:96-111 *)
Definition get_axis_angles (a : string) : result (R * R) :=
  if String.eqb a "x" then Ok (90, 0) else if String.eqb a "y" then Ok (90, 90) else if String.eqb a "z" then Ok (0, 0)
  else if String.eqb a "xy" then Ok (90, 45) else if String.eqb a "xz" then Ok (45, 0) else if String.eqb a "yz" then Ok (45, 90)
  else Err (Throw "Invalid axis").

(** ** The error of a fit *)
(** [itertools.groupby]: runs of equal keys *)
Fixpoint groupby {A} (key : A -> R) (l : list A) : list (list A) :=
  match l with
  | [] => []
  | x :: rest =>
      match groupby key rest with
      | (y :: g) :: gs => if Req_EM_T (key x) (key y) then (x :: y :: g) :: gs else [x] :: (y :: g) :: gs
      | gs => [x] :: gs
      end
  end.
(** Python's [min] of a sequence *)
Definition py_min (l : list R) : result R :=
  match l with [] => Err (Throw "min() arg is an empty sequence") | x :: rest => Ok (fold_left (fun m y => if Rlt_dec y m then y else m) rest x) end.
Fixpoint mse_loop (target : list R) (i : nat) (groups : list (list (R * R))) (mse : R) : result R :=
  match groups with
  | [] => Ok mse
  | f :: rest =>
      match nth_error target i with
      | None => Err (Throw "list index out of range")
      | Some t => contrib <-- py_min (map (fun f_ => (t / 10 ^ 9 - snd f_) ^ 2) f) ;; mse_loop target (S i) rest (mse + contrib)
      end
  end.
(** simulation_fns.py:191-205  [None] is infinity *)
Definition compute_sb_mse (target Hmag frequency : list R) : result (option R) :=
  if Nat.ltb (length frequency) (length target) then Ok None
  else m <-- mse_loop target 0 (groupby fst (combine Hmag frequency)) 0 ;; Ok (Some m).

(** ** The sweep *)
Definition default_Ndemag : vectorObj := VO 0 0 1.
(** simulation_fns.py:213-230 and 268-284; [least] is the value of the anisotropy constant that is not chosen: 10 in simulate_sb, 1 in the wrapper. *)
Definition fit_layer (least : R) (i : nat) (thickness : R) (anisotropy_axis : string) (K Ms : R) : result (layerSB * list R) :=
  angles <-- get_axis_angles anisotropy_axis ;;
  let (ktheta, kphi) := (angles : R * R) in
  let Kval := K * 10 ^ 3 in
  let (Ks, Kv) := if Req_EM_T ktheta 0 then (Kval, least) else (least, Kval) in
  layer <-- newLayerSB i (thickness / 10 ^ 9) (VO (deg2rad 0) (deg2rad kphi) Kv) Ks (Ms / mu0) None default_Ndemag None ;;
  Ok (layer, [deg2rad ktheta; deg2rad kphi]).
(** one element of a list indexed by the layer's number *)
Definition item {A} (l : list A) (i : nat) : result A :=
  match nth_error l i with Some x => Ok x | None => Err (Throw "list index out of range") end.
Definition fit_layers (least : R) (N : nat) (thickness : list R) (anisotropy_axis : list string) (K Ms : list R) : result (list (layerSB * list R)) :=
  rmap (fun i => t <-- item thickness i ;; a <-- item anisotropy_axis i ;; k <-- item K i ;; m <-- item Ms i ;; fit_layer least i t a k m) (seq 0 N).
(** simulation_fns.py:235-246 and 289-303: the rows (Hmag, frequency) *)
Fixpoint sweep (solve : solver -> list R -> result (list R * list R)) (layers : list layerSB) (Js : list R) (htheta hphi : R) (hvals init_pos : list R) : result (list (R * R)) :=
  match hvals with
  | [] => Ok []
  | h :: rest =>
      s <-- newSolver layers Js (map (fun _ => 0) Js) (Some (VO htheta hphi h)) None None ;;
      out <-- solve s init_pos ;;
      rows <-- sweep solve layers Js htheta hphi rest (fst out) ;;
      Ok (map (fun f => (h / 10 ^ 3, f)) (snd out) ++ rows)%list
  end.
(** A named parameter and the dictionary of them *)
Definition param : Type := string * nat.
Definition param_eqb (a b : param) : bool := (String.eqb (fst a) (fst b) && Nat.eqb (snd a) (snd b))%bool.
Fixpoint lookup (k : param) (d : list (param * R)) : result R :=
  match d with [] => Err (Throw "KeyError") | (k', v) :: rest => if param_eqb k' k then Ok v else lookup k rest end.
(** simulation_fns.py:251-256 *)
Definition kwargs_to_list (kwargs : list (param * R)) (N : nat) : result (list R * list R * list R) :=
  J <-- rmap (fun i => lookup ("J"%string, i) kwargs) (seq 0 (N - 1)) ;;
  K <-- rmap (fun i => lookup ("K"%string, i) kwargs) (seq 0 N) ;;
  Ms <-- rmap (fun i => lookup ("Ms"%string, i) kwargs) (seq 0 N) ;;
  Ok (J, K, Ms).
(** simulation_fns.py:259-305 *)
Definition simulate_sb_wrapper (solve : solver -> list R -> result (list R * list R)) (hvals : list R) (N : nat) (thickness : list R)
    (anisotropy_axis : list string) (H_axis : string) (kwargs : list (param * R)) : result (list (R * R)) :=
  lists <-- kwargs_to_list kwargs N ;;
  let '(J, K, Ms) := (lists : list R * list R * list R) in
  ls <-- fit_layers 1 N thickness anisotropy_axis K Ms ;;
  Js <-- rmap (fun i => j <-- item J i ;; Ok (j / 10 ^ 6)) (seq 0 (N - 1)) ;;
  h <-- get_axis_angles H_axis ;;
  sweep solve (map fst ls) Js (fst h) (snd h) hvals (concat (map snd ls)).

(** ** The search space *)
(** The text fields with the bounds (parsed on use) and the switches of the parameters *)
Record fit_form := FitForm { ff_N : nat; ff_check : param -> bool; ff_low : param -> result R; ff_up : param -> result R }.
Record bounds := Bounds { bd_name : param; bd_lb : R; bd_ub : R }.
(** autofit.py:84-113, one parameter *)
Definition config_param (s : fit_form) (k : param) (acc : list bounds * list (param * R)) : result (list bounds * list (param * R)) :=
  let (cfg, fixed) := acc in
  if ff_check s k then v <-- ff_low s k ;; Ok (cfg, fixed ++ [(k, v)])%list
  else
    ub <-- ff_up s k ;;
    lb <-- ff_low s k ;;
    if Req_EM_T ub lb then Ok (cfg, fixed ++ [(k, ub)])%list
    else
      let (lb', ub') := if Rlt_dec ub lb then (ub, lb) else (lb, ub) in
      low <-- ff_low s k ;;
      up <-- ff_up s k ;;
      Ok (cfg ++ [Bounds k low up], fixed)%list.
Fixpoint config_params (s : fit_form) (ks : list param) (acc : list bounds * list (param * R)) : result (list bounds * list (param * R)) :=
  match ks with [] => Ok acc | k :: rest => acc' <-- config_param s k acc ;; config_params s rest acc' end.
Definition config_names (N : nat) : list param :=
  flat_map (fun i => flat_map (fun p => if (String.eqb p "J" && Nat.leb (N - 1) i)%bool then [] else [(p, i)]) ["Ms"%string; "K"%string; "J"%string]) (seq 0 N).
(** autofit.py:78-114 *)
Definition get_config (s : fit_form) : result (list bounds * list (param * R)) := config_params s (config_names (ff_N s)) ([], []).

(** autofit.py:52-57: the error of one suggestion *)
Definition suggestion_error (solve : solver -> list R -> result (list R * list R)) (s : fit_form) (thickness : list R) (anisotropy_axis : list string) (H_axis : string)
    (fixed suggestion : list (param * R)) (hvals target : list R) : result (option R) :=
  rows <-- simulate_sb_wrapper solve hvals (ff_N s) thickness anisotropy_axis H_axis (suggestion ++ fixed)%list ;;
  compute_sb_mse target (map fst rows) (map snd rows).

(** ** The uploaded file *)
Definition is_space (c : ascii) : bool :=
  let n := nat_of_ascii c in (Nat.eqb n 32 || (Nat.leb 9 n && Nat.leb n 13) || (Nat.leb 28 n && Nat.leb n 31))%bool.
(** [s.split("\n")] *)
Fixpoint split_lines (s : string) : list string :=
  match s with
  | EmptyString => [EmptyString]
  | String c rest =>
      let ls := split_lines rest in
      if Ascii.eqb c "010" then EmptyString :: ls
      else match ls with l :: more => String c l :: more | [] => [String c EmptyString] end
  end.
(** [s.split()]: the maximal runs of characters other than blanks; [cur] is the current run *)
Fixpoint split_words (s cur : string) : list string :=
  match s with
  | EmptyString => if String.eqb cur "" then [] else [cur]
  | String c rest =>
      if is_space c then (if String.eqb cur "" then split_words rest "" else cur :: split_words rest "")
      else split_words rest (cur ++ String c "")
  end.
Definition starts_hash (s : string) : bool := match s with String c _ => Ascii.eqb c "#" | EmptyString => false end.
(** helpers.py:9-20 and 23-34; [pyfloat] is Python's float(). *)
Fixpoint read_lines (pyfloat : string -> result R) (lines : list string) : result (list (R * list R)) :=
  match lines with
  | [] => Ok []
  | line :: rest =>
      if starts_hash line then read_lines pyfloat rest
      else match split_words line "" with
           | [] => read_lines pyfloat rest
           | v :: vs =>
               field <-- pyfloat v ;;
               values <-- rmap pyfloat vs ;;
               rows <-- read_lines pyfloat rest ;;
               Ok ((field, values) :: rows)
           end
  end.
Definition read_data (pyfloat : string -> result R) (filedata : string) : result (list (R * list R)) := read_lines pyfloat (tl (split_lines filedata)).
(** autofit.py:119-121: the target of a fit is the flattened table, row after row; rows of different lengths raise, and a single value becomes a number whose length is asked for later. *)
Definition fit_target (rows : list (R * list R)) : result (list R * list R) :=
  match rows with
  | [] => Ok ([], [])
  | r :: _ =>
      if forallb (fun q => Nat.eqb (length (snd q)) (length (snd r))) rows then
        let f := concat (map snd rows) in
        if Nat.eqb (length f) 1 then Err (Throw "object of type 'float' has no len()") else Ok (map fst rows, f)
      else Err (Throw "setting an array element with a sequence.")
  end.

(** ** Resonance lines *)
(** [np.gradient] of a line with unit spacing *)
Definition np_gradient (f : list R) : result (list R) :=
  let n := length f in
  if Nat.ltb n 2 then Err (Throw "Shape of array too small to calculate a numerical gradient")
  else Ok (map (fun i => if Nat.eqb i 0 then nth 1 f 0 - nth 0 f 0 else if Nat.eqb i (n - 1) then nth i f 0 - nth (i - 1) f 0 else (nth (i + 1) f 0 - nth (i - 1) f 0) / 2) (seq 0 n)).
Definition np_sign (x : R) : R := if Rlt_dec x 0 then -1 else if Rlt_dec 0 x then 1 else 0.
(** positions of the non-zero differences of neighbours: [np.where(np.diff(sign) != 0)[0]] *)
Definition sign_changes (g : list R) : list nat :=
  filter (fun i => if Req_EM_T (np_sign (nth (i + 1) g 0) - np_sign (nth i g 0)) 0 then false else true) (seq 0 (length g - 1)).
(** [l[-n:]] *)
Definition last_n {A} (n : nat) (l : list A) : list A := match n with O => l | _ => skipn (length l - n) l end.
(** The sum of a float array of length [l] and the list of [m] None: shapes are broadcast, and adding a float to None raises. *)
Definition add_nones (freqs : list R) (m : nat) : result (list R) :=
  let l := length freqs in
  if (Nat.eqb l m || Nat.eqb l 1 || Nat.eqb m 1)%bool then
    if (Nat.eqb l 0 || Nat.eqb m 0)%bool then Ok [] else Err (Throw "unsupported operand type(s) for +: 'float' and 'NoneType'")
  else Err (Throw "operands could not be broadcast together").
(** utils.py:34-50: one line of the spectrum; [argsort] is numpy's. The normalised gradient of line 40 is not used. *)
Definition resonance_line (argsort : list R -> list nat) (row frequencies : list R) (N_layers : nat) : result (list R) :=
  grad <-- np_gradient row ;;
  let indices := sign_changes grad in
  let amp_vals := map (fun i => nth i row 0) indices in
  let indices := map (fun k => nth k indices 0%nat) (argsort amp_vals) in
  let indices := last_n N_layers indices in
  let n_diff := (N_layers - length indices)%nat in
  if Nat.eqb (length frequencies) 1 then Err (Throw "too many indices for array")
  else
    freqs <-- rmap (item frequencies) indices ;;
    add_nones freqs n_diff.
Fixpoint set_line (h : R) (v : list R) (d : list (R * list R)) : list (R * list R) :=
  match d with [] => [(h, v)] | (h', v') :: rest => if Req_EM_T h' h then (h', v) :: rest else (h', v') :: set_line h v rest end.
Fixpoint resonance_loop (argsort : list R -> list nat) (spectrum : list (list R)) (frequencies : list R) (N_layers : nat) (h_vals : list R) (i : nat) (d : list (R * list R)) : result (list (R * list R)) :=
  match h_vals with
  | [] => Ok d
  | h :: rest =>
      row <-- item spectrum i ;;
      line <-- resonance_line argsort row frequencies N_layers ;;
      resonance_loop argsort spectrum frequencies N_layers rest (S i) (set_line h line d)
  end.
(** utils.py:22-50 *)
Definition extract_max_resonance_lines (argsort : list R -> list nat) (spectrum : list (list R)) (h_vals frequencies : list R) (N_layers mask_size_x mask_size_y : nat) : result (list (R * list R)) :=
  resonance_loop argsort (map (skipn mask_size_y) (skipn mask_size_x spectrum)) (skipn mask_size_y frequencies) N_layers (skipn mask_size_x h_vals) 0 [].
