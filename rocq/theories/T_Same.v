(** Property C109: layers described differently move alike. *)
From Verif Require Import P_ReachEx P_BarEx P_SameRun.
Open Scope R_scope.
Open Scope st_scope.

(** The easy axis may be given in either direction. *)
Theorem c109_axis l : same_motion l (set_l_anis (Scal (-1) (l_anis l)) l).
Proof. exact (other_axis l). Qed.
(** Of the four vector fields only the sum counts. *)
Theorem c109_fields l e o d r : (forall t h, applied l t h <-> applied (with_fields e o d r l) t h) -> same_motion l (with_fields e o d r l).
Proof. exact (other_fields l e o d r). Qed.
(** A film c times as thick with c times the couplings, DMI vectors and current; with the static spin-orbit torque, whose fields follow the current alone, the current would count separately. *)
Theorem c109_thickness c l jt jb qt qb i dt db : c <> 0 -> times c (l_IECTop l) jt -> times c (l_IECBottom l) jb -> times c (l_QuadTop l) qt -> times c (l_QuadBottom l) qb -> times c (l_current l) i ->
  times_axial c (l_IDMITop l) dt -> times_axial c (l_IDMIBottom l) db -> l_includeSTT l = true \/ l_includeSOT l = false \/ l_dynamicSOT l = true -> same_motion l (with_thickness c jt jb qt qb i dt db l).
Proof. intros Hc H1 H2 H3 H4 H5 H6 H7 HS. exact (other_thickness c Hc l jt jb qt qb i dt db H1 H2 H3 H4 H5 H6 H7 HS). Qed.
(** One layer of a stack may be replaced. *)
Theorem c109_one a b p l m : nth_error (j_layers a) p = Some l -> same_motion l m -> j_layers b = (firstn p (j_layers a) ++ m :: skipn (S p) (j_layers a))%list -> same_stack a b.
Proof. exact (same_one a b p l m). Qed.

(** One step of any solver, thermal and coloured noise included *)
Theorem c109_step r t dt a b a' : same_stack a b -> (r = RunSingle -> layerNo a = 1%nat) -> run_runner r t dt a = (a', Ok tt) -> exists b', run_runner r t dt b = (b', Ok tt) /\ same_stack a' b'.
Proof. exact (step_same r t dt a b a'). Qed.
(** Whole simulations *)
Theorem c109_run T dt wf e e' mode a b a' : same_stack a b -> j_mode b <> MR_STRIP -> runSimulation T dt wf e mode a = (a', Ok tt) ->
  exists b', runSimulation T dt wf e' mode b = (b', Ok tt) /\ same_stack a' b' /\ mags (j_layers b') = mags (j_layers a').
Proof. intros F M E. destruct (run_same T dt wf e e' mode a b a' F M E) as (b' & A & B). exists b'. split; [exact A|]. split; [exact B|exact (same_mags _ _ B)]. Qed.
(** Strips of the size the constructor demands *)
Theorem c109_strip T dt wf e e' mode a b a' : same_stack a b -> same_readout a b -> j_mode a = MR_STRIP -> strip_sized b -> runSimulation T dt wf e mode a = (a', Ok tt) ->
  exists b', runSimulation T dt wf e' mode b = (b', Ok tt) /\ same_stack a' b' /\ mags (j_layers b') = mags (j_layers a').
Proof. intros F R M Z E. destruct (run_same_strip T dt wf e e' mode a b a' F R M Z E) as (b' & A & B). exists b'. split; [exact A|]. split; [exact B|exact (same_mags _ _ B)]. Qed.
Theorem c109_both T dt wf e e' mode a b : same_stack a b -> j_mode a <> MR_STRIP -> j_mode b <> MR_STRIP ->
  ((exists a', runSimulation T dt wf e mode a = (a', Ok tt)) <-> (exists b', runSimulation T dt wf e' mode b = (b', Ok tt))).
Proof. exact (run_same_iff T dt wf e e' mode a b). Qed.
Theorem c109_log T dt wf e e' mode a b a' b' : same_stack a b -> named a -> named b -> runSimulation T dt wf e mode a = (a', Ok tt) -> runSimulation T dt wf e' mode b = (b', Ok tt) ->
  forall p l m, nth_error (j_layers a) p = Some l -> nth_error (j_layers b) p = Some m -> forall tag, In tag ["mx"; "my"; "mz"]%string -> exists new,
  col (colname (l_id l) tag) (j_log a') = (col (colname (l_id l) tag) (j_log a) ++ new)%list /\ col (colname (l_id m) tag) (j_log b') = (col (colname (l_id m) tag) (j_log b) ++ new)%list.
Proof. exact (run_same_log T dt wf e e' mode a b a' b'). Qed.
(** All resistances, those of a strip too, are read the same. *)
Theorem c109_resistance a b r : same_stack a b -> same_readout a b -> map l_reference (j_layers b) = map l_reference (j_layers a) -> (resistance_row a r <-> resistance_row b r).
Proof. exact (resistance_same a b r). Qed.

Lemma readout_layers ls j : same_readout j (set_j_layers ls j).
Proof. destruct j. unfold same_readout. repeat (split; [reflexivity|]). reflexivity. Qed.
(** A field of 1 along x given as the external or as the Oersted field; the chain of three coupled layers with the axis of the middle one reversed *)
Definition ex_along : adriver := AX (cdrv 1) (cdrv 0) (cdrv 0).
Example c109_example_fields id : same_motion (set_l_external ex_along (ex_spin id)) (with_fields null_axial ex_along null_axial null_axial (set_l_external ex_along (ex_spin id))).
Proof.
  apply c109_fields. intros t h. unfold applied, with_fields. cbn [l_external l_Oersted l_Hdmi l_Hreserved set_l_external set_l_Oersted set_l_Hdmi set_l_Hreserved].
  split; intros (e & o & d & r & A & B & C & D & ->).
  - exists o, e, d, r. repeat split; try assumption. destruct e, o, d, r. unfold Plus. cbn. apply vec_eq; ring.
  - exists o, e, d, r. repeat split; try assumption. destruct e, o, d, r. unfold Plus. cbn. apply vec_eq; ring.
Qed.
Definition ex_reversed : junction := set_j_layers [ex_link "a" X1; set_l_anis (Scal (-1) (l_anis (ex_link "b" Y1))) (ex_link "b" Y1); ex_link "c" Z1] (ex_chain X1 Y1 Z1).
Example c109_example : same_stack (ex_chain X1 Y1 Z1) ex_reversed /\ j_mode ex_reversed <> MR_STRIP /\ same_readout (ex_chain X1 Y1 Z1) ex_reversed /\ map l_reference (j_layers ex_reversed) = map l_reference (j_layers (ex_chain X1 Y1 Z1)) /\ exists j', runSimulation 1 1 1 true RK4 (ex_chain X1 Y1 Z1) = (j', Ok tt).
Proof.
  split; [exact (c109_one (ex_chain X1 Y1 Z1) ex_reversed 1 (ex_link "b" Y1) _ eq_refl (c109_axis _) eq_refl)|]. split; [discriminate|]. split; [apply readout_layers|]. split; [reflexivity|].
  apply (chain_runs _ _ _ _ _ _ _ _ 1 1); first [lra | exact counts_1_1 | lia].
Qed.
Example c109_example_strip : let l := ex_link "a" X1 in let m := set_l_anis (Scal (-1) (l_anis l)) l in
  same_stack (ex_bar l) (ex_bar m) /\ same_readout (ex_bar l) (ex_bar m) /\ j_mode (ex_bar l) = MR_STRIP /\ strip_sized (ex_bar m) /\ exists j', runSimulation 1 1 1 true RK4 (ex_bar l) = (j', Ok tt).
Proof.
  intros l m. split; [exact (c109_one (ex_bar l) (ex_bar m) 0 l m eq_refl (c109_axis l) eq_refl)|]. split; [exact (readout_layers [m] (ex_bar l))|]. split; [reflexivity|]. split; [repeat split|].
  exact bar_runs.
Qed.
Lemma constant_twice v : times 2 (cdrv v) (cdrv (2 * v)).
Proof. intros t x. change (Ok v = Ok x <-> Ok (2 * v) = Ok (2 * x)). split; intros E; [congruence|]. injection E as E. f_equal. lra. Qed.
Lemma zero_twice : times 2 default_driver default_driver.
Proof. intros t x. change (Ok 0 = Ok x <-> Ok 0 = Ok (2 * x)). split; intros E; injection E as E; f_equal; lra. Qed.
Lemma axial_twice : times_axial 2 null_axial null_axial.
Proof. intros t x. change (Ok (CV 0 0 0) = Ok x <-> Ok (CV 0 0 0) = Ok (Scal 2 x)). destruct x as [x y z]. unfold Scal. cbn. split; intros E; injection E as E1 E2 E3; f_equal; apply vec_eq; cbn; lra. Qed.
(** Twice the thickness with twice the coupling *)
Example c109_example_thickness id m : same_motion (ex_link id m) (with_thickness 2 (cdrv (2 * / gamma0)) (cdrv (2 * / gamma0)) default_driver default_driver default_driver null_axial null_axial (ex_link id m)).
Proof.
  apply c109_thickness; try exact (constant_twice _); try exact zero_twice; try exact axial_twice; [lra|right; left; reflexivity].
Qed.

(** The static spin-orbit torque has to be left out: its fields follow the current, not the current per thickness. *)
Definition ex_orbit : layer := set_l_current (cdrv 1) (set_l_dampingLikeTorque 1 (set_l_reference Z1 (set_l_refType RFIXED (set_l_dynamicSOT false (set_l_includeSOT true (ex_spin "a")))))).
Definition ex_orbit_thick : layer := with_thickness 2 default_driver default_driver default_driver default_driver (cdrv 2) null_axial null_axial ex_orbit.
Lemma orbit_field l i : l = ex_orbit \/ l = ex_orbit_thick -> i = FI (CV 0 0 (/ gamma0)) Zero Zero Zero 0 0 0 0 0 Zero Zero -> H_eff l i X1 Zero Zero (dipole_total l Zero Zero) Zero = CV 0 0 (/ gamma0).
Proof.
  intros [-> | ->] ->; unfold H_eff, IEC_total, IDMI_total, H_anis, dipole_total, H_iec, H_idmi, H_tensor; cbn -[Rmult Rplus Rdiv Rinv gamma0 mu0 Ropp]; unfold Rdiv, X1; vsimp; cbn -[Rmult Rplus Rdiv Rinv gamma0 mu0 Ropp]; apply vec_eq; cbn -[Rmult Rplus Rdiv Rinv gamma0 mu0 Ropp]; ring.
Qed.
Lemma orbit_rhs l I : l = ex_orbit \/ l = ex_orbit_thick -> getCurrentScalarValue (l_current l) 0 = Ok I -> rhs l 0 X1 Zero Zero (LLG_sot 0 (1 * I) (0 * I) X1 (CV 0 0 (/ gamma0)) Z1).
Proof.
  intros D E. rewrite <- (orbit_field l _ D eq_refl). exists (FI (CV 0 0 (/ gamma0)) Zero Zero Zero 0 0 0 0 0 Zero Zero).
  destruct D as [-> | ->]; (split; [repeat split|]; split; [cbn; lra|]; split; [cbn; lra|]); [exact (llg_sot_static ex_orbit 0 X1 Zero Zero _ I eq_refl eq_refl eq_refl E)|exact (llg_sot_static ex_orbit_thick 0 X1 Zero Zero _ I eq_refl eq_refl eq_refl E)].
Qed.
Theorem c109_static_refuted : exists c l jt jb qt qb i dt db, c <> 0 /\ times c (l_IECTop l) jt /\ times c (l_IECBottom l) jb /\ times c (l_QuadTop l) qt /\ times c (l_QuadBottom l) qb /\ times c (l_current l) i /\
  times_axial c (l_IDMITop l) dt /\ times_axial c (l_IDMIBottom l) db /\ ~ same_motion l (with_thickness c jt jb qt qb i dt db l).
Proof.
  exists 2, ex_orbit, default_driver, default_driver, default_driver, default_driver, (cdrv 2), null_axial, null_axial. split; [lra|].
  split; [exact zero_twice|]. split; [exact zero_twice|]. split; [exact zero_twice|]. split; [exact zero_twice|]. split; [replace (cdrv 2) with (cdrv (2 * 1)) by (f_equal; ring); exact (constant_twice 1)|].
  split; [exact axial_twice|]. split; [exact axial_twice|]. fold ex_orbit_thick. intros S.
  pose proof (proj1 (sm_rhs _ _ S 0 X1 Zero Zero _) (orbit_rhs ex_orbit 1 (or_introl eq_refl) eq_refl)) as A. pose proof (orbit_rhs ex_orbit_thick 2 (or_intror eq_refl) eq_refl) as B.
  pose proof (f_equal cz (rhs_unique _ _ _ _ _ _ _ A B)) as C. unfold LLG_sot, LL, prefactor, Scal, Plus, Cross, X1, Z1 in C. cbn -[Rmult Rplus Rdiv Rinv gamma0 Ropp] in C. unfold gamma0 in C. field_simplify in C; lra.
Qed.

Print Assumptions c109_axis.
Print Assumptions c109_fields.
Print Assumptions c109_thickness.
Print Assumptions c109_one.
Print Assumptions c109_step.
Print Assumptions c109_run.
Print Assumptions c109_strip.
Print Assumptions c109_both.
Print Assumptions c109_log.
Print Assumptions c109_resistance.
Print Assumptions c109_static_refuted.
