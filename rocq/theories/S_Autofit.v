(** Vocabulary for the fit of the front end. *)
From Verif Require Export M_Autofit S_Fit.
Open Scope R_scope.

(** [h]: the points of [ps] with a finite error, in order, with these errors; every point could be simulated. *)
Inductive observed (eval : pset -> result (option R)) : list pset -> list seen -> Prop :=
| Observed_nil : observed eval [] []
| Observed_finite p e ps h : eval p = Ok (Some e) -> observed eval ps h -> observed eval (p :: ps) ((p, e) :: h)
| Observed_infinite p ps h : eval p = Ok None -> observed eval ps h -> observed eval (p :: ps) h.
(** The first of the points with the least error *)
Definition first_least (h : list seen) (b : seen) : Prop :=
  exists before after, h = (before ++ b :: after)%list /\ (forall q, In q before -> snd b < snd q) /\ (forall q, In q after -> snd b <= snd q).
(** The progress shown after round [i] of [total]: nothing when no error is finite *)
Definition told (total i : nat) (h : list seen) (sh sh' : list (nat * R)) : Prop :=
  (h = [] /\ sh' = sh) \/ exists b, first_least h b /\ sh' = (sh ++ [((i * 100) / total, snd b)%nat])%list.
(** [ps] are all the points proposed in the first [i] rounds, each round knowing the errors of the earlier ones; [sh] is the shown progress. *)
Inductive played (ask : list seen -> nat -> list pset) (eval : pset -> result (option R)) (total : nat) : nat -> list pset -> list seen -> list (nat * R) -> Prop :=
| Played_0 : played ask eval total 0 [] [] []
| Played_S i ps h h' sh sh' : played ask eval total i ps h sh -> observed eval (ask h (S i)) h' -> told total (S i) (h ++ h') sh sh' ->
    played ask eval total (S i) (ps ++ ask h (S i)) (h ++ h') sh'.
Definition no_progress : nat * R := (0%nat, 0).
(** The error of a point in a session *)
Definition session_error (solve : solver -> list R -> result (list R * list R)) (s : fit_session) (fixed : list (param * R)) (hvals y : list R) (p : pset) : result (option R) :=
  suggestion_error solve (fs_form s) (map (fs_thickness s) (seq 0 (ff_N (fs_form s)))) (map (fs_axis s) (seq 0 (ff_N (fs_form s)))) (fs_H_axis s) fixed p hvals y.
(** The simulation of a point in a session *)
Definition session_rows (solve : solver -> list R -> result (list R * list R)) (s : fit_session) (fixed : list (param * R)) (hvals : list R) (p : pset) : result (list (R * R)) :=
  simulate_sb_wrapper solve hvals (ff_N (fs_form s)) (map (fs_thickness s) (seq 0 (ff_N (fs_form s)))) (map (fs_axis s) (seq 0 (ff_N (fs_form s)))) (fs_H_axis s) (p ++ fixed).
