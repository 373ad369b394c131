(** Model of the domain simulation of the front end (view/domain.py, view/simulation_fns.py).  The session state is a record;
    widgets, the progress bar and figures are left out, and the rounding of the result arrays to half precision is not modelled. *)
From Verif Require Export M_Fit M_Procedures.
From Coq Require Import DecimalString.
Open Scope R_scope.
Open Scope st_scope.

(** Python's [str] of a natural number *)
Definition py_str (n : nat) : string := NilEmpty.string_of_uint (Nat.to_uint n).
(** The fields of the form; those of one domain are indexed by its number. *)
Record domain_form := DomForm {
  df_N : nat; df_K : nat -> R; df_theta : nat -> R; df_phi : nat -> R; df_area : nat -> R;
  df_Ms : R; df_thickness : R; df_alpha : R;
  df_axis : string; df_Hmin : R; df_Hmax : R; df_Hsteps : Z; df_back : bool;
  df_time : R; df_step : R; df_last : Z }.
(** simulation_fns.py:15-34; [rng] and [nsrc] are the random streams of the new layers *)
Definition create_single_domain (rng : nat -> nat -> R) (nsrc : nat -> nat -> nat -> cvec) (s : domain_form) (i : nat) : result layer :=
  let demag := Ten (CV 0 0 0) (CV 0 0 0) (CV 0 0 1) in
  let Kdir := angle2vector (df_theta s i) (df_phi s i) 1 in
  l <-- Layer_plain (rng i) (nsrc i) ("domain_" ++ py_str i)%string Kdir Kdir (df_Ms s) (df_thickness s / 10 ^ 9) (/ 10 ^ 16) demag (df_alpha s) ;;
  d <-- getConstantDriver (df_K s i * 10 ^ 3) ;;
  match setAnisotropyDriver d l with (l', Ok _) => Ok l' | (_, Err e) => Err e end.
(** domain.py:73-76: the mean of the last entries of one domain's columns *)
Definition domain_mean (last : Z) (g : log_t) (l : nat) : result cvec :=
  let id := ("domain_" ++ py_str l)%string in
  x <-- dict_at (id ++ "_mx")%string g ;; mx <-- np_mean (slice_last last x) ;;
  y <-- dict_at (id ++ "_my")%string g ;; my <-- np_mean (slice_last last y) ;;
  z <-- dict_at (id ++ "_mz")%string g ;; mz <-- np_mean (slice_last last z) ;;
  Ok (CV mx my mz).
(** domain.py:63-76: one row per field *)
Fixpoint domain_loop (s : domain_form) (Hvecs : list cvec) : ST junction (list (list cvec)) :=
  match Hvecs with
  | [] => ret []
  | H :: rest =>
      clearLog ;;;
      d <- lift (axial_of_vec H) ;;
      setLayerExternalFieldDriver "all" d ;;;
      runSimulation (df_time s / 10 ^ 9) (df_step s) (df_step s) false RK4 ;;;
      j <- get ;;
      row <- lift (rmap (domain_mean (df_last s) (j_log j)) (seq 0 (df_N s))) ;;
      rows <- domain_loop s rest ;;
      ret (row :: rows)
  end.
(** domain.py:61, 77 *)
Definition mix (weights : list R) (row : list cvec) : cvec :=
  fold_left (fun acc p => vadd acc (vscale (fst p) (snd p))) (combine row weights) vnull.
(** domain.py:39-83: Hscan, Mmixed and Mdomains *)
Definition simulate_domains (rng : nat -> nat -> R) (nsrc : nat -> nat -> nat -> cvec) (s : domain_form) : result (list R * list cvec * list (list cvec)) :=
  h <-- get_axis_angles (df_axis s) ;;
  scan <-- amplitude_scan (df_Hmin s * 10 ^ 3) (df_Hmax s * 10 ^ 3) (df_Hsteps s) (fst h) (snd h) (df_back s) ;;
  domains <-- rmap (create_single_domain rng nsrc s) (seq 0 (df_N s)) ;;
  j <-- Junction_plain domains ;;
  let weights := map (fun i => df_area s i / 10 ^ 18) (seq 0 (df_N s)) in
  let wsum := sum_list weights in
  weights <-- rmap (fun w => py_div w wsum) weights ;;
  rows <-- snd (domain_loop s (snd scan) j) ;;
  Ok (fst scan, map (mix weights) rows, map (fun l => map (fun row => nth l row vnull) rows) (seq 0 (df_N s))).
