(** Property C102: the analytical roots of the Smit-Beljers solver. *)
From Verif Require Import P_Sym P_SB P_SBTheorems P_TwoSolvers P_Analytic P_AnalyticMore.
From Coq Require Import Reals Lra Lia Permutation.
Open Scope R_scope.

(** What the table holds for the derivative by two angles: the derivative of the energy, except when sympy reduces it to 0. *)
Theorem c102_table zero N E symbols a b : NoDup symbols -> In a symbols -> In b symbols -> angle_of N a -> angle_of N b ->
  exists before p after e, pairs symbols = (before ++ p :: after)%list /\ (p = (a, b) \/ p = (b, a)) /\
    get_all_second_derivatives zero N E symbols (org_diff N a b) = Some e /\
    (zero (second E p) = false -> e = second E p) /\
    (zero (second E p) = true -> (exists v, stale zero N E before v /\ e = v) \/ fresh zero N E before /\ zero e = true).
Proof. exact (table_spec zero N E symbols a b). Qed.
Example c102_table_example : NoDup late /\ In (Theta 0) late /\ In (Theta 1) late /\ angle_of 2 (Theta 0) /\ angle_of 2 (Theta 1).
Proof. split; [unfold late; repeat constructor; cbn; intuition discriminate|]. split; [cbn; tauto|]. split; [cbn; tauto|]. split; [exists 0%nat|exists 1%nat]; auto. Qed.
(** The entries of the matrix of the unknown energy *)
Theorem c102_functional N a x b y : (a < N)%nat -> (b < N)%nat -> (x < 2)%nat -> (y < 2)%nat ->
  general_hessian_functional N (2 * a + x)%nat (2 * b + y)%nat = (Some (Nat.min (2 * a + x) (2 * b + y), Nat.max (2 * a + x) (2 * b + y)), imag a x b y).
Proof. intros. rewrite func_entry by assumption. unfold org_diff. rewrite !ang_arg by assumption. reflexivity. Qed.
(** When no second derivative of the energy vanishes identically, the substituted matrix at [w] is the Smit-Beljers matrix at [w gamma]: the analytical roots times gamma are the frequencies of the numerical solvers. *)
Theorem c102_matrix zero s symbols H hh : sound zero -> numbered s -> traversal s symbols -> all_lively s -> energy_hessian (set_H H s) = Ok hh ->
  exists A : smatrix, forall r c, (r < 2 * length (sv_layers s))%nat -> (c < 2 * length (sv_layers s))%nat -> analytical_matrix zero s symbols r c = Ok (A r c) /\
  forall rho w, in_field (get_cartesian H) rho -> eval (upd rho Omega w) (fst (A r c)) = eval (upd rho Omega (w * gamma)) (fst (hh r c)) /\ eval (upd rho Omega w) (snd (A r c)) = eval (upd rho Omega (w * gamma)) (snd (hh r c)).
Proof. exact (matrix_good zero s symbols H hh). Qed.
Theorem c102_roots zero s symbols H hh rho w v : sound zero -> numbered s -> traversal s symbols -> all_lively s -> energy_hessian (set_H H s) = Ok hh -> in_field (get_cartesian H) rho ->
  (solves zero s symbols rho w v <-> annihilated (2 * length (sv_layers s)) hh (upd rho Omega (w * gamma)) v).
Proof. exact (solves_iff zero s symbols H hh rho w v). Qed.
(** That is so for every single layer with a moment. *)
Theorem c102_one_layer s l : sv_layers s = [l] -> sb_id l = 0%nat -> sb_Ms l <> 0 -> sb_thickness l <> 0 -> numbered s /\ all_lively s.
Proof. intros HL HI HM HT. split; [|exact (one_lively s l HL HI HM HT)]. intros i Hi. rewrite HL in Hi. cbn in Hi. assert (i = 0%nat) by lia. subst i. unfold the_layer. rewrite HL. exact HI. Qed.
Definition sole : solver := Solver [free_film 0] [] [] None [] None.
Example c102_roots_example : sound plain_zero /\ numbered sole /\ traversal sole [Hz; Theta 0; Hx; Phi 0; Hy] /\ all_lively sole /\ (exists hh, energy_hessian (set_H (VO 1 2 3) sole) = Ok hh) /\
  exists rho, in_field (get_cartesian (VO 1 2 3)) rho.
Proof.
  split; [exact plain_sound|]. destruct (c102_one_layer sole (free_film 0) eq_refl eq_refl ltac:(cbn; lra) ltac:(cbn; lra)) as [A B]. split; [exact A|]. split.
  - split; [repeat constructor; cbn; intuition discriminate|]. intros a (i & Hi & Ha). cbn in Hi. assert (i = 0%nat) by lia. subst i. destruct Ha as [-> | ->]; cbn; tauto.
  - split; [exact B|]. split; [apply solver_hessian_ok; discriminate|]. destruct (get_cartesian (VO 1 2 3)) as [x y z]. exists (fun u => match u with Hx => x | Hy => y | Hz => z | _ => 0 end). reflexivity.
Qed.
(** If the energy does not contain one of the angles (the set of its symbols lacks it), the entries for that angle cannot become numbers. *)
Theorem c102_missing zero s symbols a x b y : (a < length (sv_layers s))%nat -> (b < length (sv_layers s))%nat -> (x < 2)%nat -> (y < 2)%nat ->
  ~ In (ang Theta Phi a x) symbols \/ ~ In (ang Theta Phi b y) symbols ->
  analytical_matrix zero s symbols (2 * a + x)%nat (2 * b + y)%nat = Err (Throw "Cannot convert expression to float").
Proof. exact (matrix_missing zero s symbols a x b y). Qed.
Example c102_missing_example : ~ In (ang Theta Phi 0 1) [Hz; Theta 0; Hx; Hy].
Proof. cbn. intuition discriminate. Qed.
(** Finding: for layers that are not coupled the table depends on the order in which the set of symbols is traversed. *)
Theorem c102_order_refuted : ~ (forall zero s E symbols symbols' k e e' rho, sound zero -> numbered s -> create_energy s (Some field_syms) false = Ok E -> traversal s symbols -> Permutation symbols symbols' ->
  get_all_second_derivatives zero (length (sv_layers s)) E symbols k = Some e -> get_all_second_derivatives zero (length (sv_layers s)) E symbols' k = Some e' -> eval rho e = eval rho e').
Proof.
  intros C. destruct (field_energy_ok free_pair) as [E HE]. assert (NU : numbered free_pair) by (intros i Hi; cbn in Hi; destruct i as [|[|]]; [reflexivity|reflexivity|lia]).
  assert (TR : traversal free_pair late).
  { split; [unfold late; repeat constructor; cbn; intuition discriminate|]. intros a (i & Hi & Ha). cbn in Hi. destruct i as [|[|]]; [| |lia]; destruct Ha as [-> | ->]; cbn; tauto. }
  assert (PM : Permutation late early).
  { apply NoDup_Permutation; [apply TR|unfold early; repeat constructor; cbn; intuition discriminate|]. intros u. unfold late, early. cbn. tauto. }
  pose proof (C plain_zero free_pair E late early _ _ _ (fun s => match s with Phi _ => PI / 2 | _ => 0 end) plain_sound NU HE TR PM (late_value E HE) (early_value E)) as X.
  rewrite (hy_value E HE), (plain_sound _ (free_zero E HE)) in X. unfold mu0 in X. lra.
Qed.
(** ... and it can hold another derivative than that of the energy. *)
Theorem c102_value_refuted : ~ (forall zero s E symbols a b e rho x, sound zero -> numbered s -> create_energy s (Some field_syms) false = Ok E -> traversal s symbols -> angle_of (length (sv_layers s)) a -> angle_of (length (sv_layers s)) b ->
  get_all_second_derivatives zero (length (sv_layers s)) E symbols (org_diff (length (sv_layers s)) a b) = Some e -> partial2 (field_energy s) rho a b x -> eval rho e = x).
Proof.
  intros C. destruct (field_energy_ok free_pair) as [E HE]. assert (NU : numbered free_pair) by (intros i Hi; cbn in Hi; destruct i as [|[|]]; [reflexivity|reflexivity|lia]).
  assert (TR : traversal free_pair late).
  { split; [unfold late; repeat constructor; cbn; intuition discriminate|]. intros a (i & Hi & Ha). cbn in Hi. destruct i as [|[|]]; [| |lia]; destruct Ha as [-> | ->]; cbn; tauto. }
  set (rho := fun s => match s with Phi _ => PI / 2 | _ => 0 end). pose proof (diff_partial2 E rho (Theta 0) (Theta 1) (E_whole free_pair E HE)) as P. rewrite (E_value free_pair E HE) in P.
  pose proof (C plain_zero free_pair E late (Theta 0) (Theta 1) _ rho _ plain_sound NU HE TR ltac:(exists 0%nat; cbn; auto) ltac:(exists 1%nat; cbn; auto) (late_value E HE) P) as X.
  unfold rho in X. rewrite (hy_value E HE) in X. change (diff (diff E (Theta 0)) (Theta 1)) with (second E (Theta 0, Theta 1)) in X. rewrite (plain_sound _ (free_zero E HE)) in X. unfold mu0 in X. lra.
Qed.

Print Assumptions c102_table.
Print Assumptions c102_functional.
Print Assumptions c102_matrix.
Print Assumptions c102_roots.
Print Assumptions c102_one_layer.
Print Assumptions c102_order_refuted.
Print Assumptions c102_value_refuted.
Print Assumptions c102_missing.
