(** C87: modes of a dynamic stack and roots.  C88: evaluation of suggestions and the optimisation loop. *)
From Verif Require Import P_SBMotion P_Modes P_ModesMotion.
From Coq Require Import Psatz Sorted.
Open Scope R_scope.
Open Scope st_scope.

(** The frequencies are those of the eigenvalues with positive imaginary part of the Jacobian of the motion at the given position, in the order of the decomposition. *)
Theorem c87_modes eig s eq fs vecs : dynamic_layer_solve eig s eq = Ok (fs, vecs) <->
  exists H jac syms a vals rows, sv_H s = Some H /\ compose_llg_jacobian s (cart (get_cartesian H)) = Ok (jac, syms) /\ length eq = length syms /\
  numeric (subs_of syms eq nothing) jac = Ok a /\ eig a = Ok (vals, rows) /\ select_modes vals rows = Ok (fs, vecs).
Proof. exact (dynamic_iff eig s eq fs vecs). Qed.
Theorem c87_select vals rows fs vecs : select_modes vals rows = Ok (fs, vecs) <->
  (forall i, (i < length vals)%nat -> 0 < snd (nth i vals (0, 0)) -> (i < length rows)%nat) /\
  fs = map (fun l => snd l / (2 * PI)) (oscillating vals) /\ vecs = map (fun i => nth i rows []) (positive_modes vals).
Proof. exact (select_iff vals rows fs vecs). Qed.
Example c87_select_example : select_modes [(0, 2); (0, -2)] [[(0, 2); (0, -2)]; [(1, 0); (1, 0)]] = Ok ([2 / (2 * PI)], [[(0, 2); (0, -2)]]).
Proof. exact (proj1 spin_wrong). Qed.
(** Positions selected: exactly those of positive imaginary part *)
Theorem c87_positions vals i : In i (positive_modes vals) <-> (i < length vals)%nat /\ 0 < snd (nth i vals (0, 0)).
Proof. exact (positive_in vals i). Qed.
Example c87_positions_example : In 1%nat (positive_modes [(3, 0); (0, 1)]) /\ ~ In 0%nat (positive_modes [(3, 0); (0, 1)]).
Proof. rewrite !c87_positions. cbn. split; [split; [lia|lra]|lra]. Qed.
(** Frequencies are positive, one vector each. *)
Theorem c87_positive eig s eq fs vecs : dynamic_layer_solve eig s eq = Ok (fs, vecs) -> length fs = length vecs /\ forall f, In f fs -> 0 < f.
Proof. exact (dynamic_frequencies eig s eq fs vecs). Qed.
(** If the decomposition is right then every frequency belongs to an eigenvector of the matrix. *)
Theorem c87_eigen eig s eq fs vecs : (forall a vals rows, eig a = Ok (vals, rows) -> eigensystem a vals rows) -> dynamic_layer_solve eig s eq = Ok (fs, vecs) ->
  exists H jac syms a, sv_H s = Some H /\ compose_llg_jacobian s (cart (get_cartesian H)) = Ok (jac, syms) /\ numeric (subs_of syms eq nothing) jac = Ok a /\
  forall f, In f fs -> exists l v, eigenvector a l v /\ f = snd l / (2 * PI).
Proof. exact (dynamic_eigen eig s eq fs vecs). Qed.
Example c87_eigen_example : eigensystem spin spin_values spin_rows.
Proof. exact spin_system. Qed.
(** The Jacobian exists exactly for stacks of dynamic layers, and the solve refuses everything else. *)
Theorem c87_refused eig s eq : (sv_H s = None \/ (exists l, In l (sv_layers s) /\ sb_dyn l = None) \/ length eq <> (2 * length (sv_layers s))%nat) -> exists e, dynamic_layer_solve eig s eq = Err e.
Proof.
  intros C. destruct (dynamic_layer_solve eig s eq) as [[fs vecs]|e] eqn:E; [exfalso|eauto]. apply c87_modes in E. destruct E as (H & jac & syms & a & vals & rows & EH & J & L & _).
  destruct C as [C|[(l & I & D)|C]]; [congruence| |].
  - exact (proj1 (jacobian_ok s _) (ex_intro _ _ J) l I D).
  - unfold compose_llg_jacobian in J. apply P_Resist.rbind_iff in J. destruct J as (U & _ & J). apply P_Resist.rbind_iff in J. destruct J as (fns & _ & J). injection J as _ <-. apply C. rewrite L. unfold llg_symbols. clear. induction (sv_layers s) as [|x xs IH]; [reflexivity|]. cbn [flat_map length app]. rewrite IH. lia.
Qed.
(** The matrix decomposed is the derivative of the coupled equations of motion at the given position. *)
Theorem c87_linearised eig s eq fs vecs : distinct s -> dynamic_layer_solve eig s eq = Ok (fs, vecs) ->
  let n := (2 * length (sv_layers s))%nat in
  exists H rho F a vals rows, sv_H s = Some H /\ length eq = n /\ placed s eq rho /\ motion s (fun _ => get_cartesian H) false F /\ length a = n /\ (forall row, In row a -> length row = n) /\
  (regular s rho -> forall r c, (r < n)%nat -> (c < n)%nat -> partial (F r) rho (angle s c) (nth c (nth r a []) 0)) /\
  eig a = Ok (vals, rows) /\ fs = map (fun l => snd l / (2 * PI)) (oscillating vals).
Proof. exact (linearised eig s eq fs vecs). Qed.
(** Away from the poles a stack of dynamic layers always has an answer. *)
Theorem c87_solvable eig s eq H : sv_H s = Some H -> (forall l, In l (sv_layers s) -> sb_dyn l <> None) -> distinct s -> length eq = (2 * length (sv_layers s))%nat -> (forall rho, placed s eq rho -> regular s rho) ->
  (forall a, exists vals rows, eig a = Ok (vals, rows) /\ length rows = length vals) -> exists fs vecs, dynamic_layer_solve eig s eq = Ok (fs, vecs).
Proof. exact (solvable eig s eq H). Qed.
Definition mode_film : layerSB := LayerSB 0 1 (VO 0 0 0) 0 1 None (VO 0 0 1) (Some (Dynamics (1 / 100) 0 0)).
Definition mode_stack : solver := Solver [mode_film] [] [] (Some (VO 0 0 1)) [] None.
Example c87_solvable_example : exists fs vecs, dynamic_layer_solve (fun _ => Ok (spin_values, spin_rows)) mode_stack [PI / 2; 0] = Ok (fs, vecs) /\ fs = [2 / (2 * PI)].
Proof.
  destruct (c87_solvable (fun _ => Ok (spin_values, spin_rows)) mode_stack [PI / 2; 0] (VO 0 0 1)) as (fs & vecs & E); try reflexivity.
  - intros l [<-|[]]. discriminate.
  - constructor; [intros []|constructor].
  - intros rho P i I. cbn in I. assert (i = 0%nat) by lia. subst i. assert (S0 : soft_sin (PI / 2) <> 0) by (unfold soft_sin; rewrite sin_PI2; assert (0 < / 10 ^ 15) by (apply Rinv_0_lt_compat, pow_lt; lra); lra).
    specialize (P 0%nat ltac:(cbn; lia)). cbn in P. cbn [the_layer mode_stack sv_layers nth mode_film sb_id sb_Ms sb_thickness]. rewrite P. split; [exact S0|split; lra].
  - intros a. exists spin_values, spin_rows. split; reflexivity.
  - exists fs, vecs. split; [exact E|]. apply c87_modes in E. destruct E as (H & jac & syms & a & vals & rows & _ & _ & _ & _ & G & E). injection G as <- <-. rewrite (proj1 spin_wrong) in E. injection E as <- _. reflexivity.
Qed.
(** Finding: the vectors returned need not be eigenvectors (rows of the matrix are taken instead of columns). *)
Theorem c87_vectors_refuted : ~ (forall a vals rows fs vecs, eigensystem a vals rows -> select_modes vals rows = Ok (fs, vecs) -> forall v, In v vecs -> exists l, eigenvector a l v).
Proof.
  intros H. destruct (H spin spin_values spin_rows _ _ spin_system (proj1 spin_wrong) _ (or_introl eq_refl)) as [l L]. exact (proj2 spin_wrong l L).
Qed.
(** [solve] gives the same in GHz. *)
Theorem c87_ghz eig s eq fs vecs : dynamic_modes eig s eq = Ok (fs, vecs) <-> exists hz, dynamic_layer_solve eig s eq = Ok (hz, vecs) /\ fs = map (fun f => f / 10 ^ 9) hz.
Proof.
  unfold dynamic_modes. rewrite P_Resist.rbind_iff. split; [intros ([hz v] & A & B); injection B as <- <-; eauto|intros (hz & A & ->); exists (hz, vecs); auto].
Qed.
(** Rounding to hundredths, ties to even *)
Theorem c87_around x y : around2 x = y <-> hundredth x y.
Proof. exact (around_iff x y). Qed.
Example c87_around_example : around2 (125 / 1000) = 12 / 100.
Proof. apply c87_around. exists 12%Z. split; [reflexivity|]. assert (E : Rabs (125 / 1000 - 12 / 100) = 1 / 200) by (rewrite Rabs_pos_eq; lra). rewrite E. split; [lra|reflexivity]. Qed.
(** The frequencies of [num_solve]: increasing, and exactly the roots rounded to 0.01 GHz. *)
Theorem c87_roots roots fs : root_frequencies roots = fs <-> StronglySorted Rlt fs /\ forall f, In f fs <-> exists r, In r roots /\ hundredth (r / 10 ^ 9) f.
Proof. exact (roots_iff roots fs). Qed.
Example c87_roots_example : root_frequencies [5 * 10 ^ 9; 3 * 10 ^ 9; 5 * 10 ^ 9] = [3; 5].
Proof.
  apply c87_roots. assert (N : forall z w, hundredth z w <-> around2 z = w) by (intros; symmetry; apply c87_around).
  assert (A3 : around2 (3 * 10 ^ 9 / 10 ^ 9) = 3). { apply c87_around. exists 300%Z. replace (3 * 10 ^ 9 / 10 ^ 9 - 3) with 0 by (field). rewrite Rabs_R0. split; [lra|split; [lra|reflexivity]]. }
  assert (A5 : around2 (5 * 10 ^ 9 / 10 ^ 9) = 5). { apply c87_around. exists 500%Z. replace (5 * 10 ^ 9 / 10 ^ 9 - 5) with 0 by (field). rewrite Rabs_R0. split; [lra|split; [lra|reflexivity]]. }
  split; [constructor; [constructor; constructor|constructor; [lra|constructor]]|]. intros f. cbn [In]. split.
  - intros [<-|[<-|[]]]; [exists (3 * 10 ^ 9)|exists (5 * 10 ^ 9)]; (split; [auto|apply c87_around; assumption]).
  - intros (r & R & H). apply c87_around in H. destruct R as [<-|[<-|[<-|[]]]]; rewrite ?A3, ?A5 in H; auto.
Qed.
(** Finding: two roots less than 0.01 GHz apart may be reported as one. *)
Theorem c87_merge_refuted : ~ (forall roots, NoDup roots -> length (root_frequencies roots) = length roots).
Proof.
  intros H. assert (N : NoDup [3 * 10 ^ 9; 3 * 10 ^ 9 + 10 ^ 6]). { constructor; [|constructor; [intros []|constructor]]. intros [E|[]]. assert (P : 0 < 10 ^ 6) by (apply pow_lt; lra). lra. }
  specialize (H _ N). assert (E : root_frequencies [3 * 10 ^ 9; 3 * 10 ^ 9 + 10 ^ 6] = [3]); [|rewrite E in H; discriminate].
  assert (A : around2 (3 * 10 ^ 9 / 10 ^ 9) = 3). { apply c87_around. exists 300%Z. replace (3 * 10 ^ 9 / 10 ^ 9 - 3) with 0 by field. rewrite Rabs_R0. split; [lra|split; [lra|reflexivity]]. }
  assert (B : around2 ((3 * 10 ^ 9 + 10 ^ 6) / 10 ^ 9) = 3). { apply c87_around. exists 300%Z. replace ((3 * 10 ^ 9 + 10 ^ 6) / 10 ^ 9 - 3) with (1 / 1000) by field. rewrite Rabs_pos_eq by lra. split; [lra|split; [lra|intros; lra]]. }
  unfold root_frequencies. cbn [map]. rewrite A, B. unfold np_unique. cbn [fold_right insert_value]. destruct (Rlt_dec 3 3); [lra|]. destruct (Req_EM_T 3 3); [reflexivity|contradiction].
Qed.

(** Whatever order the workers finish in, the errors are those of evaluating the suggestions one after the other; failures likewise. *)
Theorem c88_order {X Y} (fn : X -> result Y) error_fn suggestions done : suggestions <> [] -> (forall j, (j < length suggestions)%nat -> In j done) ->
  multiprocess_simulate fn error_fn suggestions done = rmap (evaluate fn error_fn) suggestions.
Proof. exact (multiprocess_spec fn error_fn suggestions done). Qed.
Example c88_order_example : multiprocess_simulate (fun x : nat => Ok (INR x)) (fun y => Ok (y + 1)) [3; 4]%nat [1; 0]%nat = Ok [INR 3 + 1; INR 4 + 1].
Proof. rewrite c88_order; [reflexivity|discriminate|]. intros j J. cbn in J |- *. lia. Qed.
(** The error at each place is the error of the suggestion at that place. *)
Theorem c88_places {X Y} (fn : X -> result Y) error_fn suggestions done errors : (forall j, (j < length suggestions)%nat -> In j done) ->
  (multiprocess_simulate fn error_fn suggestions done = Ok errors <-> suggestions <> [] /\ Forall2 (fun x e => exists y, fn x = Ok y /\ error_fn y = Ok e) suggestions errors).
Proof.
  intros D. destruct suggestions as [|x l]; [split; [discriminate|intros [N _]; contradiction]|]. rewrite c88_order by (auto; discriminate). rewrite P_PyUtils.rmap_iff. unfold evaluate. split.
  - intros F. split; [discriminate|]. clear D. induction F as [|a b xs ys E F IH]; constructor; [apply P_Resist.rbind_iff in E; exact E|exact IH].
  - intros [_ F]. clear D. induction F as [|a b xs ys E F IH]; constructor; [apply P_Resist.rbind_iff; exact E|exact IH].
Qed.
Example c88_places_example : forall errors, multiprocess_simulate (fun x : nat => Ok (INR x)) (fun y => Ok (y + 1)) [3; 4]%nat [1; 0]%nat = Ok errors -> errors = [INR 3 + 1; INR 4 + 1].
Proof. intros errors E. rewrite c88_order_example in E. injection E as <-. reflexivity. Qed.
(** No suggestions: refused. *)
Theorem c88_empty {X Y} (fn : X -> result Y) error_fn done : multiprocess_simulate fn error_fn [] done = Err (Throw "max_workers must be greater than 0").
Proof. reflexivity. Qed.
(** The loop: one batch per iteration, each observation is the evaluation of its suggestion, the reports are strictly improving and the last one is the least error observed. *)
Theorem c88_loop {X Y} (fn : X -> result Y) error_fn suggest schedule n_iters n observed reports :
  (forall i, (1 <= i)%nat -> forall j, (j < n)%nat -> In j (schedule i)) -> (forall obs l, suggest obs n = Ok l -> length l = n) ->
  hebo_optimization_loop fn error_fn suggest schedule n_iters n = Ok (observed, reports) ->
  length observed = (n_iters * n)%nat /\ (forall x e, In (x, e) observed -> evaluate fn error_fn x = Ok e) /\
  StronglySorted (fun p q => (fst p < fst q)%nat /\ snd q < snd p) reports /\ (forall i v, In (i, v) reports -> (1 <= i <= n_iters)%nat) /\
  (n_iters <> 0%nat -> n <> 0%nat /\ exists b i rest, least (map snd observed) b /\ reports = (rest ++ [(i, b)])%list).
Proof. exact (hebo_spec fn error_fn suggest schedule n_iters n observed reports). Qed.
(** Each batch was suggested from exactly the observations before it, and iteration [j] is reported exactly when its batch improves on everything before. *)
Theorem c88_trace {X Y} (fn : X -> result Y) error_fn suggest schedule n_iters n observed reports :
  (forall i, (1 <= i)%nat -> forall j, (j < n)%nat -> In j (schedule i)) -> (forall obs l, suggest obs n = Ok l -> length l = n) ->
  hebo_optimization_loop fn error_fn suggest schedule n_iters n = Ok (observed, reports) ->
  (forall k, (k < n_iters)%nat -> suggest (firstn (k * n) observed) n = Ok (map fst (firstn n (skipn (k * n) observed)))) /\
  (forall j v, In (j, v) reports <-> (1 <= j <= n_iters)%nat /\ least (map snd (firstn (j * n) observed)) v /\ forall w, In w (map snd (firstn ((j - 1) * n) observed)) -> v < w).
Proof. exact (hebo_trace fn error_fn suggest schedule n_iters n observed reports). Qed.
Example c88_loop_example : hebo_optimization_loop (fun x : nat => Ok x) (fun y => Ok (10 - INR y)) (fun obs n => Ok (repeat (length obs) n)) (fun _ => [0]%nat) 2 1
  = Ok ([(0%nat, 10 - INR 0); (1%nat, 10 - INR 1)], [(1%nat, 10 - INR 0); (2%nat, Rmin (10 - INR 0) (10 - INR 1))]).
Proof.
  unfold hebo_optimization_loop. cbn [hebo_loop rbind repeat length]. unfold multiprocess_simulate. cbn. assert (E : Rmin (10 - 0) (10 - 1) = 10 - 1) by (apply Rmin_right; lra). rewrite E.
  destruct (Rlt_dec (10 - 1) (10 - 0)) as [_|F]; [reflexivity|lra].
Qed.
(** Asking for no suggestions fails in the first iteration. *)
Theorem c88_none {X Y} (fn : X -> result Y) error_fn suggest schedule n_iters : (forall obs, suggest obs 0%nat = Ok []) -> n_iters <> 0%nat ->
  hebo_optimization_loop fn error_fn suggest schedule n_iters 0 = Err (Throw "max_workers must be greater than 0").
Proof. exact (hebo_none fn error_fn suggest schedule n_iters). Qed.
Example c88_none_example : hebo_optimization_loop (fun x : nat => Ok x) (fun y => Ok (10 - INR y)) (fun obs n => Ok (repeat (length obs) n)) (fun _ => [0]%nat) 2 0 = Err (Throw "max_workers must be greater than 0").
Proof. apply c88_none; [reflexivity|discriminate]. Qed.
Print Assumptions c87_modes.
Print Assumptions c87_select.
Print Assumptions c87_positions.
Print Assumptions c87_positive.
Print Assumptions c87_eigen.
Print Assumptions c87_refused.
Print Assumptions c87_linearised.
Print Assumptions c87_solvable.
Print Assumptions c87_vectors_refuted.
Print Assumptions c87_ghz.
Print Assumptions c87_around.
Print Assumptions c87_roots.
Print Assumptions c87_merge_refuted.
Print Assumptions c88_order.
Print Assumptions c88_places.
Print Assumptions c88_empty.
Print Assumptions c88_loop.
Print Assumptions c88_trace.
Print Assumptions c88_none.
