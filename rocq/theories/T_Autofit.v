(** C106: a fit of the front end shows and stores the best point it tried. *)
From Verif Require Import P_Autofit.
From Coq Require Import Lia Lra Ascii.
Open Scope R_scope.

(** The error of a point is that of the simulation with the point and the held parameters. *)
Theorem c106_error solve s fixed hvals y p r : session_error solve s fixed hvals y p = Ok r <->
  exists rows, session_rows solve s fixed hvals p = Ok rows /\ compute_sb_mse y (map fst rows) (map snd rows) = Ok r.
Proof. exact (session_error_iff solve s fixed hvals y p r). Qed.
Example c106_error_example : session_error fit_example_solve fit_example fit_example_fixed [1000; 2000] [1 * 10 ^ 9; 1 * 10 ^ 9] (fit_example_ms 2) = Ok (Some (2 * (1 - 2) ^ 2)).
Proof. exact (fit_example_error 2). Qed.

(** A fit returns exactly when it is not interrupted, the form can be read, all proposals can be simulated and one of them has a finite error; it returns what was seen, the simulation of the first best point and the shown progress. *)
Theorem c106_fit suggest interrupt solve s hvals y h sim sh : hebo_fit suggest interrupt solve s hvals y = Ok (h, sim, sh) <->
  (forall i, (1 <= i <= S (fs_iters s))%nat -> interrupt i = false) /\
  exists cfg fixed ps x e rows, get_config (fs_form s) = Ok (cfg, fixed) /\
    played (fun h i => suggest cfg h i (fs_suggestions s)) (session_error solve s fixed hvals y) (fs_iters s) (fs_iters s) ps h sh /\
    first_least h (x, e) /\ session_rows solve s fixed hvals x = Ok rows /\ sim = Some rows.
Proof. exact (fit_iff suggest interrupt solve s hvals y h sim sh). Qed.
Example c106_fit_example : hebo_fit fit_example_suggest (fun _ => false) fit_example_solve fit_example [1000; 2000] [1 * 10 ^ 9; 1 * 10 ^ 9] =
  Ok (fit_example_seen, Some (sweep_rows [(1000, [1]); (2000, [1])]), [(100%nat, 2 * (1 - 1) ^ 2)]).
Proof. exact fit_example_fit. Qed.

(** The best point was proposed, its error belongs to the returned simulation, and no proposed point has a smaller error. *)
Theorem c106_best suggest interrupt solve s hvals y h sim sh : hebo_fit suggest interrupt solve s hvals y = Ok (h, sim, sh) ->
  exists cfg fixed ps x e rows, get_config (fs_form s) = Ok (cfg, fixed) /\ played (fun h i => suggest cfg h i (fs_suggestions s)) (session_error solve s fixed hvals y) (fs_iters s) (fs_iters s) ps h sh /\
    first_least h (x, e) /\ In x ps /\ session_rows solve s fixed hvals x = Ok rows /\ sim = Some rows /\ compute_sb_mse y (map fst rows) (map snd rows) = Ok (Some e) /\
    forall p, In p ps -> exists r, session_error solve s fixed hvals y p = Ok r /\ match r with Some e' => e <= e' | None => True end.
Proof. exact (fit_best suggest interrupt solve s hvals y h sim sh). Qed.
Example c106_best_example : exists cfg fixed ps, get_config (fs_form fit_example) = Ok (cfg, fixed) /\ In (fit_example_ms 1) ps /\
  played (fun h i => fit_example_suggest cfg h i 2) (session_error fit_example_solve fit_example fixed [1000; 2000] [1 * 10 ^ 9; 1 * 10 ^ 9]) 1 1 ps fit_example_seen [(100%nat, 2 * (1 - 1) ^ 2)].
Proof.
  destruct (c106_best _ _ _ _ _ _ _ _ _ c106_fit_example) as (cfg & fixed & ps & x & e & rows & C & P & F & I & _). exists cfg, fixed, ps.
  pose proof (first_least_unique _ _ _ F fit_example_least) as E. inversion E; subst. auto.
Qed.

(** The number of simulated points *)
Theorem c106_count (suggest : list bounds -> list seen -> nat -> nat -> list pset) eval cfg total n k ps h sh : (forall c h i, length (suggest c h i n) = n) -> played (fun h i => suggest cfg h i n) eval total k ps h sh ->
  length ps = (k * n)%nat /\ (length h <= k * n)%nat.
Proof. intros L. exact (played_length suggest eval cfg total n k ps h sh (fun h i => L cfg h i)). Qed.
Example c106_count_example cfg h i : length (fit_example_suggest cfg h i 2) = 2%nat.
Proof. reflexivity. Qed.

(** The shown progress: per cents never fall, errors never rise, and the last line shows the least error of all rounds played so far. *)
Theorem c106_progress (suggest : list bounds -> list seen -> nat -> nat -> list pset) eval cfg total n k ps h sh : played (fun h i => suggest cfg h i n) eval total k ps h sh ->
  (forall q, In q sh -> exists i, (1 <= i <= k)%nat /\ fst q = ((i * 100) / total)%nat) /\
  (forall a b, (a <= b < length sh)%nat -> (fst (nth a sh no_progress) <= fst (nth b sh no_progress))%nat /\ snd (nth b sh no_progress) <= snd (nth a sh no_progress)) /\
  (h = [] -> sh = []) /\ (forall b, first_least h b -> exists before, sh = (before ++ [((k * 100) / total, snd b)%nat])%list).
Proof. exact (played_shown suggest eval cfg total n k ps h sh). Qed.
Theorem c106_percent i total : (1 <= i <= total)%nat -> ((i * 100) / total <= 100)%nat /\ ((total * 100) / total = 100)%nat.
Proof.
  intros Hi. split; [|rewrite Nat.mul_comm; apply Nat.div_mul; lia]. apply Nat.div_le_upper_bound; [lia|]. apply Nat.mul_le_mono_r. lia.
Qed.
Example c106_progress_example : ((1 * 100) / 3 = 33)%nat /\ ((2 * 100) / 3 = 66)%nat.
Proof. split; reflexivity. Qed.

(** The page: file, fit, message, and the values of the form afterwards *)
Theorem c106_page suggest interrupt pyfloat solve s file mse x fields target sim v : autofit suggest interrupt pyfloat solve s file = Ok (Fitted mse x fields target sim v) <->
  exists text rows h sh, file = Some text /\ read_data pyfloat text = Ok rows /\ fit_target rows = Ok (fields, target) /\ hebo_fit suggest interrupt solve s fields target = Ok (h, sim, sh) /\
    first_least h (x, mse) /\ v = fold_left write_value x (fs_values s).
Proof. exact (autofit_iff suggest interrupt pyfloat solve s file mse x fields target sim v). Qed.
Definition fit_example_float (w : string) : result R := if String.eqb w "1000" then Ok 1000 else if String.eqb w "2000" then Ok 2000 else Ok (1 * 10 ^ 9).
Definition fit_example_text : string := ("field frequency" ++ String "010"%char ("1000 1e9" ++ String "010"%char "2000 1e9"))%string.
Example c106_page_example : autofit fit_example_suggest (fun _ => false) fit_example_float fit_example_solve fit_example (Some fit_example_text) =
  Ok (Fitted (2 * (1 - 1) ^ 2) (fit_example_ms 1) [1000; 2000] [1 * 10 ^ 9; 1 * 10 ^ 9] (Some (sweep_rows [(1000, [1]); (2000, [1])])) (fold_left write_value (fit_example_ms 1) (fs_values fit_example))).
Proof.
  apply c106_page. exists fit_example_text, [(1000, [1 * 10 ^ 9]); (2000, [1 * 10 ^ 9])], fit_example_seen, [(100%nat, 2 * (1 - 1) ^ 2)].
  split; [reflexivity|]. split; [reflexivity|]. split; [reflexivity|]. split; [exact fit_example_fit|]. split; [exact fit_example_least|reflexivity].
Qed.
Theorem c106_no_file suggest interrupt pyfloat solve s : autofit suggest interrupt pyfloat solve s None = Ok AskForData.
Proof. reflexivity. Qed.
(** The form holds the best point afterwards; everything else is as before. *)
Theorem c106_written x values : (NoDup (map fst x) -> forall k e, In (k, e) x -> fold_left write_value x values k = e) /\ (forall k, ~ In k (map fst x) -> fold_left write_value x values k = values k).
Proof. exact (conj (fun N k e I => write_in k e x N I values) (fun k N => write_out (values k) k x N values eq_refl)). Qed.
Example c106_written_example : fold_left write_value (fit_example_ms 1) (fs_values fit_example) ("Ms"%string, 0%nat) = 1.
Proof. apply (proj1 (c106_written (fit_example_ms 1) _)); [constructor; [intros []|constructor]|left; reflexivity]. Qed.
(** Held parameters are not written: the form shows another K than the one of the fit. *)
Theorem c106_held_refuted : exists suggest solve s hvals y h sim sh x e cfg fixed k w, hebo_fit suggest (fun _ => false) solve s hvals y = Ok (h, sim, sh) /\ first_least h (x, e) /\
  get_config (fs_form s) = Ok (cfg, fixed) /\ In (k, w) fixed /\ fold_left write_value x (fs_values s) k <> w.
Proof.
  exists fit_example_suggest, fit_example_solve, fit_example, [1000; 2000], [1 * 10 ^ 9; 1 * 10 ^ 9]. do 3 eexists. exists (fit_example_ms 1), (2 * (1 - 1) ^ 2). do 2 eexists. exists ("K"%string, 0%nat), 2.
  split; [exact fit_example_fit|]. split; [exact fit_example_least|]. split; [exact swapped_wrong|]. split; [left; reflexivity|].
  rewrite (proj2 (c106_written (fit_example_ms 1) _)); [cbn; lra|intros [H|[]]; discriminate].
Qed.

(** When every error is infinite (or no round is asked for) the fit raises; the message that the optimisation failed is never shown. *)
Theorem c106_nothing suggest interrupt pyfloat solve s text rows f t cfg fixed ps sh : (forall i, (1 <= i <= S (fs_iters s))%nat -> interrupt i = false) ->
  read_data pyfloat text = Ok rows -> fit_target rows = Ok (f, t) -> get_config (fs_form s) = Ok (cfg, fixed) ->
  played (fun h i => suggest cfg h i (fs_suggestions s)) (session_error solve s fixed f t) (fs_iters s) (fs_iters s) ps [] sh ->
  autofit suggest interrupt pyfloat solve s (Some text) = Err (Throw "No data has been observed!").
Proof. intros Q Er Et C P. exact (autofit_error _ _ _ _ _ _ _ _ _ _ Er Et (fit_nothing _ _ _ _ _ _ _ _ _ _ Q C P)). Qed.
Theorem c106_failed_refuted suggest interrupt pyfloat solve s file : autofit suggest interrupt pyfloat solve s file <> Ok FitFailed.
Proof. exact (autofit_failed suggest interrupt pyfloat solve s file). Qed.
Example c106_nothing_example : autofit fit_example_suggest (fun _ => false) (fun _ => Ok 1) fit_example_solve (FitSession swapped 0 2 (fun _ => 2) (fun _ => "z"%string) "x" (fun _ => 5)) (Some ""%string) =
  Err (Throw "No data has been observed!").
Proof.
  apply (c106_nothing _ _ _ _ _ _ [] [] [] [Bounds ("Ms"%string, 0%nat) 2 1] fit_example_fixed [] []); [reflexivity|reflexivity|reflexivity|exact swapped_wrong|constructor].
Qed.
(** An interrupted fit loses everything it has found: the name of the simulated data is unbound. *)
Theorem c106_interrupted_refuted suggest interrupt solve s hvals y cfg fixed j ps h sh : (j <= fs_iters s)%nat -> (forall i, (1 <= i <= j)%nat -> interrupt i = false) -> interrupt (S j) = true ->
  get_config (fs_form s) = Ok (cfg, fixed) -> played (fun h i => suggest cfg h i (fs_suggestions s)) (session_error solve s fixed hvals y) (fs_iters s) j ps h sh ->
  hebo_fit suggest interrupt solve s hvals y = Err (Throw "local variable 'simulated_data' referenced before assignment").
Proof. exact (fit_interrupted suggest interrupt solve s hvals y cfg fixed j ps h sh). Qed.
Example c106_interrupted_example : hebo_fit fit_example_suggest (fun i => Nat.eqb i 2) fit_example_solve fit_example [1000; 2000] [1 * 10 ^ 9; 1 * 10 ^ 9] =
  Err (Throw "local variable 'simulated_data' referenced before assignment").
Proof.
  destruct (proj1 (c106_fit _ _ _ _ _ _ _ _ _) c106_fit_example) as (_ & cfg & fixed & ps & x & e & rows & C & P & _).
  apply (c106_interrupted_refuted _ _ _ _ _ _ cfg fixed 1 ps fit_example_seen [(100%nat, 2 * (1 - 1) ^ 2)]); [apply le_n| |reflexivity|exact C|exact P].
  intros i Hi. destruct i as [|[|i]]; [lia|reflexivity|lia].
Qed.

Print Assumptions c106_error.
Print Assumptions c106_fit.
Print Assumptions c106_best.
Print Assumptions c106_count.
Print Assumptions c106_progress.
Print Assumptions c106_percent.
Print Assumptions c106_page.
Print Assumptions c106_no_file.
Print Assumptions c106_written.
Print Assumptions c106_held_refuted.
Print Assumptions c106_nothing.
Print Assumptions c106_failed_refuted.
Print Assumptions c106_interrupted_refuted.
