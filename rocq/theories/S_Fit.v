(** Vocabulary for the fitting front end. *)
From Verif Require Export M_Fit S_Vec.
From Coq Require Import Ascii.
Open Scope R_scope.

Definition axis_names : list string := ["x"; "y"; "z"; "xy"; "xz"; "yz"]%string.

(** Maximal runs of equal keys *)
Inductive runs {A} (key : A -> R) : list (list A) -> Prop :=
| Runs_nil : runs key []
| Runs_one g x : (forall y, In y g -> key y = key x) -> runs key [x :: g]
| Runs_cons g x h y gs : (forall z, In z g -> key z = key x) -> key x <> key y -> runs key ((y :: h) :: gs) -> runs key ((x :: g) :: (y :: h) :: gs).
(** [v] is the square of the distance from [t] to the nearest of the values [fs]. *)
Definition nearest_square (t : R) (fs : list R) (v : R) : Prop := (exists f, In f fs /\ v = (t - f) ^ 2) /\ forall f, In f fs -> v <= (t - f) ^ 2.
Fixpoint sum_of (vs : list R) : R := match vs with [] => 0 | v :: rest => v + sum_of rest end.
(** The error of resonance lines (in GHz), one list per field, for targets in Hz *)
Definition total_error (targets : list R) (lines : list (list R)) (m : R) : Prop :=
  exists vs, Forall2 (fun p v => nearest_square (fst p / 10 ^ 9) (snd p) v) (combine targets lines) vs /\ m = sum_of vs.
(** The rows of a sweep *)
Definition sweep_rows (table : list (R * list R)) : list (R * R) := flat_map (fun p => map (fun f => (fst p / 10 ^ 3, f)) (snd p)) table.
Definition neighbours_differ (hs : list R) : Prop := forall i, (S i < length hs)%nat -> nth i hs 0 <> nth (S i) hs 0.

(** The sweep: the solver of field [h], the position from which field number [k] starts *)
Definition field_solver (layers : list layerSB) (Js : list R) (theta phi h : R) : solver :=
  Solver layers Js (map (fun _ => 0) Js) (Some (VO theta phi h)) (repeat Zero (length Js)) None.
Definition sweep_start (init : list R) (outs : list (list R * list R)) (k : nat) : list R :=
  match k with O => init | S j => fst (nth j outs ([], [])) end.

(** Parameters of a fit *)
Definition fit_names (N : nat) (k : param) : Prop :=
  (snd k < N)%nat /\ (fst k = "Ms"%string \/ fst k = "K"%string \/ fst k = "J"%string /\ (snd k + 1 < N)%nat).
Definition to_search (s : fit_form) (k : param) (b : bounds) : Prop :=
  ff_check s k = false /\ exists l u, ff_low s k = Ok l /\ ff_up s k = Ok u /\ l <> u /\ b = Bounds k l u.
Definition held (s : fit_form) (k : param) (v : R) : Prop :=
  ff_low s k = Ok v /\ (ff_check s k = false -> ff_up s k = Ok v).

Inductive spaced (s : fit_form) : list param -> list bounds -> list (param * R) -> Prop :=
| Spaced_nil : spaced s [] [] []
| Spaced_search k ks b cfg fixed : to_search s k b -> spaced s ks cfg fixed -> spaced s (k :: ks) (b :: cfg) fixed
| Spaced_held k ks v cfg fixed : held s k v -> spaced s ks cfg fixed -> spaced s (k :: ks) cfg ((k, v) :: fixed).

(** Text *)
Definition no_blank (w : string) : Prop := forall i c, String.get i w = Some c -> is_space c = false.
Definition no_newline (w : string) : Prop := forall i c, String.get i w = Some c -> c <> "010"%char.
Definition blank_next (s : string) : Prop := match s with EmptyString => True | String c _ => is_space c = true end.
(** [s] is the words [ws] between blanks. *)
Inductive written : list string -> string -> Prop :=
| Written_end : written [] ""
| Written_blank c s ws : is_space c = true -> written ws s -> written ws (String c s)
| Written_word w ws s : w <> ""%string -> no_blank w -> blank_next s -> written ws s -> written (w :: ws) (w ++ s).
(** lines joined by newlines *)
Fixpoint joined (ls : list string) : string :=
  match ls with [] => "" | [l] => l | l :: rest => l ++ String "010" (joined rest) end.
(** A data row: not a comment, not blank, its numbers parsed. *)
Definition row_of (pyfloat : string -> result R) (line : string) (row : R * list R) : Prop :=
  exists v vs, written (v :: vs) line /\ pyfloat v = Ok (fst row) /\ Forall2 (fun w x => pyfloat w = Ok x) vs (snd row).
Definition skipped (line : string) : Prop := (exists rest, line = String "#" rest) \/ written [] line.
Inductive table_of (pyfloat : string -> result R) : list string -> list (R * list R) -> Prop :=
| Table_nil : table_of pyfloat [] []
| Table_skip l ls rows : skipped l -> table_of pyfloat ls rows -> table_of pyfloat (l :: ls) rows
| Table_row l ls row rows : ~ skipped l -> row_of pyfloat l row -> table_of pyfloat ls rows -> table_of pyfloat (l :: ls) (row :: rows).
