(** Layers that do not interact evolve as if alone. *)
From Verif Require Export P_Cache.
From Verif Require Export S_Alone.
Open Scope R_scope.
Open Scope st_scope.

(** ** The right-hand side does not see the neighbours *)
Lemma uncoupled_static l l' : static l l' -> uncoupled l -> uncoupled l'.
Proof. intros (m & c & rp & bf & ->) H. exact H. Qed.
Lemma uncoupled_prepared l : uncoupled l -> uncoupled (prepared l).
Proof. unfold prepared. destruct (Req_EM_T _ _); intros H; exact H. Qed.

(** Two computations that agree on all uncoupled layers, the first keeping layers static. *)
Definition same {A} (m n : ST layer A) : Prop := forall l, uncoupled l -> m l = n l.
Lemma same_refl {A} (m : ST layer A) : same m m. Proof. intros l _. reflexivity. Qed.
Lemma same_bind {A B} (m n : ST layer A) (f g : A -> ST layer B) :
  P_Monad.keeps static m -> same m n -> (forall a, same (f a) (g a)) -> same (bind m f) (bind n g).
Proof.
  intros K H1 H2 l Hl. unfold bind. rewrite <- (H1 l Hl). specialize (K l). destruct (m l) as [l1 [a|e]]; [|reflexivity].
  apply H2. exact (uncoupled_static _ _ K Hl).
Qed.
Lemma bind_get {B} (f : layer -> ST layer B) l : bind get f l = f l l. Proof. reflexivity. Qed.
Lemma iec_zero (l : layer) m b : calculateIEC_ l 0 0 m b = calculateIEC_ l 0 0 m vnull.
Proof. unfold calculateIEC_. f_equal. destruct b; vsimp. apply vec_eq; cbn; ring. Qed.
Lemma idmi_zero (l : layer) m b : calculateIDMI_ l Zero m b = calculateIDMI_ l Zero m vnull.
Proof. unfold calculateIDMI_. f_equal. destruct b; vsimp. apply vec_eq; cbn; ring. Qed.
Lemma dipole_zero b Ms : calculate_tensor_interaction b null_tensor Ms = calculate_tensor_interaction vnull null_tensor Ms.
Proof. unfold calculate_tensor_interaction. destruct b; cbn. apply vec_eq; cbn; ring. Qed.
Lemma same_iec t m b top : same (calculateIEC t m b top) (calculateIEC t m vnull vnull).
Proof.
  intros l (H1 & H2 & H3 & H4 & _). unfold calculateIEC, bind, get, lift, modify. cbn.
  destruct (getCurrentScalarValue (l_IECBottom l) t) as [v1|] eqn:E1; [|reflexivity]. apply H1 in E1. subst v1.
  destruct (getCurrentScalarValue (l_IECTop l) t) as [v1|] eqn:E1; [|reflexivity]. apply H2 in E1. subst v1.
  destruct (getCurrentScalarValue (l_QuadBottom l) t) as [v1|] eqn:E1; [|reflexivity]. apply H3 in E1. subst v1.
  destruct (getCurrentScalarValue (l_QuadTop l) t) as [v1|] eqn:E1; [|reflexivity]. apply H4 in E1. subst v1.
  rewrite (iec_zero l m b), (iec_zero l m top). reflexivity.
Qed.
Lemma same_idmi t m b top : same (calculateIDMI t m b top) (calculateIDMI t m vnull vnull).
Proof.
  intros l (_ & _ & _ & _ & H5 & H6 & _). unfold calculateIDMI, bind, get, lift. cbn.
  destruct (getCurrentAxialDrivers (l_IDMIBottom l) t) as [v1|] eqn:E1; [|reflexivity]. apply H5 in E1. subst v1.
  destruct (getCurrentAxialDrivers (l_IDMITop l) t) as [v1|] eqn:E1.
  - apply H6 in E1. subst v1. rewrite (idmi_zero l m b), (idmi_zero l m top). reflexivity.
  - rewrite (idmi_zero l m b). reflexivity.
Qed.
Ltac ks := unfold calculateExternalField, calculateHOeField, calculateIEC, calculateIDMI, calculateAnisotropy, calculateHdmiField; repeat kstep.
Ltac sstep := first
  [ apply same_iec | apply same_idmi | apply same_refl | apply same_bind; [ks| |intros ?] | progress cbv zeta ].
Lemma same_inj t dt m b top d w : same (calculateHeffDipoleInjection t dt m b top d w) (calculateHeffDipoleInjection t dt m vnull vnull d w).
Proof. unfold calculateHeffDipoleInjection. repeat sstep. Qed.
Lemma same_heff t dt m b top w : same (calculateHeff t dt m b top w) (calculateHeff t dt m vnull vnull w).
Proof.
  intros l Hl. unfold calculateHeff. rewrite !bind_get. cbv zeta.
  assert (D : l_dipoleBottom l = null_tensor /\ l_dipoleTop l = null_tensor) by (split; apply Hl). destruct D as [D1 D2].
  rewrite D1, D2, (dipole_zero b), (dipole_zero top).
  refine (same_bind _ _ _ _ _ (same_refl _) (fun _ => same_inj _ _ _ _ _ _ _) l Hl). kstep.
Qed.
Lemma same_solve t m dt b top h : same (solveLLG t m dt b top h) (solveLLG t m dt vnull vnull h).
Proof.
  intros l (_ & _ & _ & _ & _ & _ & _ & _ & H). unfold solveLLG. rewrite !bind_get. cbv zeta.
  destruct (l_includeSTT l) eqn:ES.
  - assert (E : pick_reference l b top = pick_reference l vnull vnull) by (unfold pick_reference; destruct (H (or_introl eq_refl)) as [-> | ->]; reflexivity).
    rewrite E. reflexivity.
  - destruct (l_includeSOT l) eqn:EO; [|reflexivity].
    assert (E : pick_reference l b top = pick_reference l vnull vnull) by (unfold pick_reference; destruct (H (or_intror eq_refl)) as [-> | ->]; reflexivity).
    rewrite E. reflexivity.
Qed.
Lemma same_llg t m b top dt : same (calculateLLGWithFieldTorque t m b top dt) (calculateLLGWithFieldTorque t m vnull vnull dt).
Proof.
  unfold calculateLLGWithFieldTorque. apply same_bind; [apply P_Step.keeps_heff|apply same_heff|]. intros h. apply same_solve.
Qed.
Lemma same_rk4 t dt b top : same (rk4_step t dt b top) (rk4_step t dt vnull vnull).
Proof.
  unfold rk4_step, rk4_generic.
  repeat first [apply same_llg | apply same_refl | apply same_bind; [first [apply P_Step.keeps_llg | repeat kstep]| |intros ?] | progress cbv zeta].
Qed.
Lemma same_eh t dt b top : same (eulerHeun_layer t dt b top) (eulerHeun_layer t dt vnull vnull).
Proof.
  unfold eulerHeun_layer.
  repeat first [apply same_llg | apply same_refl | apply same_bind; [first [apply P_Step.keeps_llg | apply P_Step.keeps_noise | repeat kstep]| |intros ?] | progress cbv zeta].
Qed.
Lemma same_h1 t dt b top : same (heun_layer1 t dt b top) (heun_layer1 t dt vnull vnull).
Proof.
  unfold heun_layer1.
  repeat first [apply same_llg | apply same_refl | apply same_bind; [first [apply P_Step.keeps_llg | apply P_Step.keeps_noise | repeat kstep]| |intros ?] | progress cbv zeta].
Qed.
Lemma same_h2 t dt h b top : same (heun_layer2 t dt h b top) (heun_layer2 t dt h vnull vnull).
Proof.
  unfold heun_layer2.
  repeat first [apply same_llg | apply same_refl | apply same_bind; [first [apply P_Step.keeps_llg | repeat kstep]| |intros ?] | progress cbv zeta].
Qed.

(** ** One step *)
Lemma alone_layers l : j_layers (alone l) = [l]. Proof. reflexivity. Qed.
Lemma alone_inj l l' : set_j_layers [l] (alone l') = alone l. Proof. reflexivity. Qed.
Lemma alone_rk4 t dt l l' : runSingleLayerSolver t dt (alone l) = (alone l', Ok tt) <-> rk4_step t dt vnull vnull l = (l', Ok tt).
Proof.
  unfold runSingleLayerSolver. rewrite alone_layers. destruct (rk4_step t dt vnull vnull l) as [l1 r]. rewrite alone_inj. split.
  - intros E. injection E as -> ->. reflexivity.
  - intros E. injection E as -> ->. reflexivity.
Qed.
Definition eh_alone (t dt : R) (l l' : layer) : Prop :=
  exists l1 mp, eulerHeun_layer t dt vnull vnull l = (l1, Ok mp) /\ l' = set_l_mag (vnormalize mp) l1.
Lemma alone_eh t dt l l' : eulerHeunSolverStep t dt (alone l) = (alone l', Ok tt) <-> eh_alone t dt l l'.
Proof.
  unfold eulerHeunSolverStep, eh_alone. rewrite alone_layers. cbn [eulerHeun_pass].
  destruct (eulerHeun_layer t dt vnull vnull l) as [l1 [mp|e]].
  - cbn [assign_mags]. rewrite alone_inj. split.
    + intros E. injection E as E. exists l1, mp. auto.
    + intros (x & y & E & ->). injection E as -> ->. reflexivity.
  - split; [discriminate|]. intros (x & y & E & _). discriminate.
Qed.
Definition heun_alone (t dt : R) (l l' : layer) : Prop :=
  exists l1 h, heun_layer1 t dt vnull vnull l = (l1, Ok h) /\ heun_layer2 t dt h vnull vnull l1 = (l', Ok tt).
Lemma alone_heun t dt l l' : heunSolverStep t dt (alone l) = (alone l', Ok tt) <-> heun_alone t dt l l'.
Proof.
  unfold heunSolverStep, heun_alone. rewrite alone_layers. cbn [heun_pass1].
  destruct (heun_layer1 t dt vnull vnull l) as [l1 [h|e]].
  - cbn [heun_pass2]. split.
    + destruct (heun_layer2 t dt h vnull vnull l1) as [l2 [[]|e]] eqn:E2; [|discriminate].
      rewrite alone_inj. intros E. injection E as ->. exists l1, h. auto.
    + intros (x & y & E & E2). injection E as <- <-. rewrite E2. reflexivity.
  - split; [discriminate|]. intros (x & y & E & _). discriminate.
Qed.
Lemma eh_apart t dt j j' : (forall l, In l (j_layers j) -> uncoupled l) ->
  eulerHeunSolverStep t dt j = (j', Ok tt) <-> stepwise (fun _ => eh_alone t dt) j j'.
Proof.
  intros HU. unfold eulerHeunSolverStep. rewrite eh_gpass. split.
  - destruct (gpass _ _ _) as [ls [mps|e]] eqn:E; [|discriminate]. intros H. injection H as <-.
    apply (gpass_iff _ _ _ _ _ (eh_mag t dt)) in E. destruct E as (HL & HL2 & HP).
    split; [reflexivity|]. cbn [j_layers set_j_layers]. split; [rewrite assign_length; exact HL|].
    intros p l l' Hl Hl'. destruct (nth_error_same_length _ _ _ _ HL Hl) as [l1 Hl1].
    destruct (nth_error_same_length _ _ _ _ HL2 Hl) as [mp Hmp].
    rewrite (assign_nth _ _ _ _ _ Hl1 Hmp) in Hl'.
    assert (El' : l' = set_l_mag (vnormalize mp) l1) by congruence.
    exists l1, mp. split; [|exact El']. rewrite <- (HP p l l1 mp Hl Hl1 Hmp). symmetry. apply same_eh, HU. eapply nth_error_In; exact Hl.
  - intros (Hj & HL & HP).
    destruct (pointwise_choice (fun p l (x : layer * cvec) => eulerHeun_layer t dt vnull vnull l = (fst x, Ok (snd x))
       /\ forall l', nth_error (j_layers j') p = Some l' -> l' = set_l_mag (vnormalize (snd x)) (fst x)) (j_layers j)) as (xs & HL2 & HQ).
    { intros p l Hl. destruct (nth_error_same_length _ _ _ _ HL Hl) as [l' Hl'].
      destruct (HP p l l' Hl Hl') as (l1 & mp & E & El'). exists (l1, mp). split; [exact E|]. intros k Hk. cbn [fst snd]. congruence. }
    assert (E : gpass (eulerHeun_layer t dt) vnull (j_layers j) = (map fst xs, Ok (map snd xs))).
    { apply (gpass_iff _ _ _ _ _ (eh_mag t dt)). rewrite !map_length. split; [exact HL2|]. split; [exact HL2|].
      intros p l l' r H1 H2 H3. rewrite nth_error_map in H2, H3. destruct (nth_error xs p) as [x|] eqn:Ex; [|discriminate].
      cbn in H2, H3. injection H2 as <-. injection H3 as <-. destruct (HQ p l x H1 Ex) as [X _]. rewrite <- X. apply same_eh, HU. eapply nth_error_In; exact H1. }
    rewrite E. rewrite Hj. f_equal. f_equal. apply nth_error_ext_len; [rewrite assign_length, map_length; congruence|].
    intros p l l' H1 H2. destruct (nth_error_same_length (j_layers j') (j_layers j) p l' (eq_sym HL) H2) as [l0 H0].
    destruct (nth_error_same_length _ _ _ _ HL2 H0) as [x Hx]. destruct (HQ p l0 x H0 Hx) as [_ HE].
    assert (Hf := map_nth_error fst p xs Hx). assert (Hs := map_nth_error snd p xs Hx).
    rewrite (assign_nth _ _ _ _ _ Hf Hs) in H1. specialize (HE l' H2). congruence.
Qed.
Lemma heun_apart t dt j j' : (forall l, In l (j_layers j) -> uncoupled l) ->
  heunSolverStep t dt j = (j', Ok tt) <-> stepwise (fun _ => heun_alone t dt) j j'.
Proof.
  intros HU. unfold heunSolverStep. rewrite heun1_gpass.
  assert (HK : forall b top l l1 h, uncoupled l -> heun_layer1 t dt b top l = (l1, Ok h) -> uncoupled l1).
  { intros b top l l1 h Hl E. apply heun1_sound in E. destruct E as (w & f & _ & _ & _ & _ & c & ->).
    eapply uncoupled_static; [|exact Hl]. eapply static_trans; [apply static_advance|apply static_cache]. }
  split.
  - destruct (gpass _ _ _) as [ls [hs|e]] eqn:E; [|discriminate].
    destruct (heun_pass2 _ _ _ _ _) as [ls' r] eqn:E2. intros H. injection H as <- ->.
    apply (gpass_iff _ _ _ _ _ (h1_mag t dt)) in E. destruct E as (HL & HL2 & HP).
    apply pass2_iff in E2; [|congruence]. destruct E2 as [HL3 HP2].
    split; [reflexivity|]. cbn [j_layers set_j_layers]. split; [congruence|].
    intros p l l' Hl Hl'. destruct (nth_error_same_length _ _ _ _ HL Hl) as [l1 Hl1].
    destruct (nth_error_same_length _ _ _ _ HL2 Hl) as [h Hh].
    specialize (HP p l l1 h Hl Hl1 Hh). specialize (HP2 p l1 h l' Hl1 Hh Hl').
    assert (Ul : uncoupled l) by (apply HU; eapply nth_error_In; exact Hl). assert (Ul1 := HK _ _ _ _ _ Ul HP).
    exists l1, h. rewrite (same_h1 t dt _ _ l Ul) in HP. rewrite (same_h2 t dt h _ _ l1 Ul1) in HP2. split; [exact HP|exact HP2].
  - intros (Hj & HL & HP).
    destruct (pointwise_choice (fun p l (x : layer * heun_stage) => heun_layer1 t dt vnull vnull l = (fst x, Ok (snd x))
       /\ forall l', nth_error (j_layers j') p = Some l' -> heun_layer2 t dt (snd x) vnull vnull (fst x) = (l', Ok tt)) (j_layers j)) as (xs & HL2 & HQ).
    { intros p l Hl. destruct (nth_error_same_length _ _ _ _ HL Hl) as [l' Hl'].
      destruct (HP p l l' Hl Hl') as (l1 & h & E & E2). exists (l1, h). split; [exact E|]. intros k Hk. cbn [fst snd]. congruence. }
    assert (E : gpass (heun_layer1 t dt) vnull (j_layers j) = (map fst xs, Ok (map snd xs))).
    { apply (gpass_iff _ _ _ _ _ (h1_mag t dt)). rewrite !map_length. split; [exact HL2|]. split; [exact HL2|].
      intros p l l' r H1 H2 H3. rewrite nth_error_map in H2, H3. destruct (nth_error xs p) as [x|] eqn:Ex; [|discriminate].
      cbn in H2, H3. injection H2 as <-. injection H3 as <-. destruct (HQ p l x H1 Ex) as [X _]. rewrite <- X. apply same_h1, HU. eapply nth_error_In; exact H1. }
    rewrite E.
    assert (E2 : heun_pass2 t dt vnull (map snd xs) (map fst xs) = (j_layers j', Ok tt)).
    { apply pass2_iff; [rewrite !map_length; reflexivity|]. rewrite map_length. split; [congruence|].
      intros p l1 h l' H1 H2 H3. rewrite nth_error_map in H1, H2. destruct (nth_error xs p) as [x|] eqn:Ex; [|discriminate].
      cbn in H1, H2. injection H1 as <-. injection H2 as <-.
      destruct (nth_error_same_length xs (j_layers j) p x (eq_sym HL2) Ex) as [l Hl]. destruct (HQ p l x Hl Ex) as [X Y].
      rewrite <- (Y l' H3). apply same_h2. refine (HK _ _ _ _ _ _ X). apply HU. eapply nth_error_In; exact Hl. }
    rewrite E2. rewrite <- Hj. reflexivity.
Qed.
Lemma multi_apart t dt j j' : (forall l, In l (j_layers j) -> uncoupled l) ->
  runMultiLayerSolver t dt j = (j', Ok tt) <-> stepwise (fun _ l l' => rk4_step t dt vnull vnull l = (l', Ok tt)) j j'.
Proof.
  intros HU. rewrite multi_iff. unfold stepwise. 
  split; intros (Hj & HL & HP); (split; [exact Hj|]); (split; [exact HL|]); intros p l l' H1 H2; specialize (HP p l l' H1 H2); rewrite <- HP;
    [symmetry|]; apply same_rk4, HU; eapply nth_error_In; exact H1.
Qed.
(** A step of the whole junction is one step of each layer alone. *)
Definition solo (used : solver_mode) (t dt : R) (l l' : layer) : Prop :=
  run_runner (runner_table 1 used) t dt (alone l) = (alone l', Ok tt).
Lemma stepwise_ext (P Q : layer -> layer -> Prop) j j' : (forall l l', P l l' <-> Q l l') -> stepwise (fun _ => P) j j' <-> stepwise (fun _ => Q) j j'.
Proof. intros H. unfold stepwise. split; intros (A & B & C); (split; [exact A|]); (split; [exact B|]); intros p l l' H1 H2; apply H, (C p l l' H1 H2). Qed.
Lemma single_apart t dt j j' : layerNo j = 1%nat ->
  runSingleLayerSolver t dt j = (j', Ok tt) <-> stepwise (fun _ l l' => rk4_step t dt vnull vnull l = (l', Ok tt)) j j'.
Proof.
  unfold layerNo. intros HL. rewrite single_iff. unfold stepwise. split.
  - intros (_ & A & B & C). split; [exact A|]. split; [exact B|]. intros [|p] l l' H1 H2; [exact (C _ _ _ H1 H2)|].
    exfalso. assert (S p < length (j_layers j))%nat by (apply nth_error_Some; congruence). lia.
  - intros (A & B & C). split; [destruct (j_layers j); discriminate|]. split; [exact A|]. split; [exact B|]. intros [|p] l l' H1 H2; [exact (C _ _ _ H1 H2)|].
    exfalso. assert (S p < length (j_layers j))%nat by (apply nth_error_Some; congruence). lia.
Qed.
Lemma step_apart used t dt j j' : (forall l, In l (j_layers j) -> uncoupled l) ->
  run_runner (runner_table (layerNo j) used) t dt j = (j', Ok tt) <-> stepwise (fun _ => solo used t dt) j j'.
Proof.
  intros HU. unfold solo.
  assert (R4 : run_runner (match layerNo j with 1%nat => RunSingle | _ => RunMulti end) t dt j = (j', Ok tt) <->
               stepwise (fun _ l l' => runSingleLayerSolver t dt (alone l) = (alone l', Ok tt)) j j').
  { rewrite (stepwise_ext _ (fun l l' => rk4_step t dt vnull vnull l = (l', Ok tt)) j j' (alone_rk4 t dt)).
    destruct (layerNo j) as [|[|n]] eqn:EN; cbn [run_runner]; [apply multi_apart, HU|apply single_apart, EN|apply multi_apart, HU]. }
  destruct used; cbn [runner_table run_runner].
  - rewrite (stepwise_ext _ _ j j' (alone_eh t dt)). apply eh_apart, HU.
  - exact R4.
  - exact R4.
  - rewrite (stepwise_ext _ _ j j' (alone_heun t dt)). apply heun_apart, HU.
Qed.

(** ** Whole runs *)
Lemma one_table mode j used l : one_scheme mode j -> In l (j_layers j) ->
  mode_table (exists k, In k (j_layers j) /\ noisy k) mode used <-> mode_table (exists k, In k [l] /\ noisy k) mode used.
Proof.
  intros HS Hl. unfold mode_table. destruct HS as [->|[->|[HA|HA]]].
  - destruct (noisy_list_dec (j_layers j)) as [X|X], (noisy_list_dec [l]) as [Y|Y]; tauto.
  - destruct (noisy_list_dec (j_layers j)) as [X|X], (noisy_list_dec [l]) as [Y|Y]; tauto.
  - assert (X : exists k, In k (j_layers j) /\ noisy k) by eauto. assert (Y : exists k, In k [l] /\ noisy k) by (exists l; split; [left; reflexivity|auto]). tauto.
  - assert (X : ~ exists k, In k (j_layers j) /\ noisy k) by (intros (k & A & B); exact (HA k A B)).
    assert (Y : ~ exists k, In k [l] /\ noisy k) by (intros (k & [<-|[]] & B); exact (HA l Hl B)). tauto.
Qed.
Lemma traj_unique r dt s s' N : s 0%nat = s' 0%nat -> trajectory r dt s N -> trajectory r dt s' N -> forall k, (k <= N)%nat -> s k = s' k.
Proof.
  intros H0 H H'. induction k as [|k IH]; intros Hk; [exact H0|]. assert (E := H k ltac:(lia)). assert (E' := H' k ltac:(lia)).
  rewrite IH in E by lia. congruence.
Qed.
Lemma table_unique (P : Prop) mode u u' : P \/ ~ P -> mode_table P mode u -> mode_table P mode u' -> u = u'.
Proof. unfold mode_table. intros [H|H] [A B] [C D]; [rewrite A, C by exact H|rewrite B, D by exact H]; reflexivity. Qed.
Lemma run_none T dt wf e mode j w j0 r used : step_counts T dt wf 0 w -> selects mode 0 j j0 r used -> runSimulation T dt wf e mode j = (j0, Ok tt).
Proof.
  intros (H1 & H2 & H3 & H4 & H5 & H6) HS. unfold runSimulation.
  destruct (Rlt_dec wf dt) as [H|_]; [lra|].
  unfold bind at 1, lift at 1. rewrite fdiv_ok by exact H2. unfold bind at 1, lift at 1.
  rewrite (proj2 (to_unsigned_iff (T / dt) 0)) by auto.
  unfold bind at 1, lift at 1. rewrite fdiv_ok by exact H2. unfold bind at 1, lift at 1.
  rewrite (proj2 (to_unsigned_iff (wf / dt) w)) by auto. unfold bind at 1.
  rewrite (proj2 (getSolver_iff _ _ _ _ _ _) HS). reflexivity.
Qed.
Lemma alone_named l : named (alone l).
Proof. split; [exact I|]. split; [intros X; discriminate|]. cbn. constructor; [intros []|constructor]. Qed.
(** The run of one layer alone, from the states it goes through. *)
Lemma alone_run T dt wf e mode N w used l x : step_counts T dt wf N w -> N = 0%nat \/ (w > 0)%nat ->
  preparable N l -> mode_table (exists k, In k [l] /\ noisy k) mode used -> x 0%nat = prepared l ->
  (forall k, (k < N)%nat -> solo used (INR k * dt) dt (x k) (x (S k))) ->
  exists k, runSimulation T dt wf e mode (alone l) = (k, Ok tt) /\ j_layers k = [x N] /\
    j_logLength k = rows_needed N w /\ 
    col "time" (j_log k) = map (fun i => INR (i * w) * dt) (seq 0 (rows_needed N w)) /\
    forall U, us U = 0%nat -> col (colname (l_id l) U) (j_log k) = flat_map (fun i => values U (tag_row e (x (S (i * w))))) (seq 0 (rows_needed N w)).
Proof.
  intros HC Hw HP HM H0 HT.
  assert (HS : selects mode N (alone l) (alone (prepared l)) (runner_table 1 used) used).
  { split; [intros k [<-|[]]; exact HP|]. split; [reflexivity|]. split; [exact HM|reflexivity]. }
  assert (HTr : trajectory (runner_table 1 used) dt (fun k => alone (x k)) N) by (intros k Hk; exact (HT k Hk)).
  assert (EX : exists k, runSimulation T dt wf e mode (alone l) = (k, Ok tt)).
  { destruct Hw as [->|Hw].
    - exists (alone (prepared l)). exact (run_none _ _ _ _ _ _ _ _ _ _ HC HS).
    - apply (run_complete _ _ _ e mode (alone l) N w _ _ used (fun k => alone (x k)) HC HS Hw); [discriminate|cbn; rewrite H0; reflexivity|exact HTr|].
      intros k Hk. eexists. exists []. split; [reflexivity|reflexivity]. }
  destruct EX as [k E]. exists k. split; [exact E|].
  destruct (run_columns _ _ _ _ _ _ _ (alone_named l) E) as (N' & w' & j0 & r & used' & s & HC' & HS' & H0' & HTr' & _ & Ej & Htime & HL).
  destruct (step_counts_unique _ _ _ _ _ _ _ HC HC') as [-> ->].
  assert (used' = used). { destruct HS' as (_ & _ & A & _). eapply table_unique; [apply (noisy_list_dec [l])|exact A|exact HM]. } subst used'.
  assert (Er : r = runner_table 1 used) by apply HS'. subst r.
  assert (Ej0 : j0 = alone (prepared l)) by apply HS'.
  assert (ES : forall i, (i <= N)%nat -> s i = alone (x i)).
  { apply (traj_unique (runner_table 1 used) dt s (fun k => alone (x k)) N); [cbn; congruence|exact HTr'|exact HTr]. }
  split. { rewrite Ej. cbn [j_layers set_j_log]. rewrite ES by lia. reflexivity. }
  split. { rewrite Ej. reflexivity. }
  split. { exact Htime. }
  intros U HU. rewrite (HL 0%nat l eq_refl U HU). change (col (colname (l_id l) U) (j_log (alone l))) with (@nil R). cbn [app].
  rewrite !flat_map_concat_map. f_equal. apply map_ext_in. intros i Hi. apply in_seq in Hi.
  assert (Hk' : (S (i * w) <= N)%nat) by (apply (row_in_run N w i Hw); lia). unfold layer_at. rewrite (ES _ Hk'). reflexivity.
Qed.
Lemma real_tags U : In U ("I"%string :: energy_tags true) -> us U = 0%nat.
Proof.
  intros [<-|H]; [reflexivity|]. cbn in H. repeat (destruct H as [<-|H]; [reflexivity|]). contradiction.
Qed.
Lemma run_apart T dt wf e mode j j' : one_scheme mode j -> (forall l, In l (j_layers j) -> uncoupled l) ->
  runSimulation T dt wf e mode j = (j', Ok tt) -> forall p l, nth_error (j_layers j) p = Some l ->
  exists k l', runSimulation T dt wf e mode (alone l) = (k, Ok tt) /\ nth_error (j_layers j') p = Some l' /\ j_layers k = [l'] /\
    (named j -> j_logLength j' = (j_logLength j + j_logLength k)%nat /\ col "time" (j_log j') = (col "time" (j_log j) ++ col "time" (j_log k))%list /\
      forall tag, In tag ("I"%string :: energy_tags true) ->
        col (colname (l_id l) tag) (j_log j') = (col (colname (l_id l) tag) (j_log j) ++ col (colname (l_id l) tag) (j_log k))%list).
Proof.
  intros HO HU E p l Hl. destruct (run_sound _ _ _ _ _ _ _ E) as (N & w & j0 & r & used & s & rows & HC & HS & H0 & Htr & Hw & HR & Ej & Hcol).
  assert (Hin : In l (j_layers j)) by (eapply nth_error_In; exact Hl).
  assert (Er : r = runner_table (layerNo j) used) by apply HS.
  assert (HW : forall k, (k <= N)%nat -> stepwise (fun _ a b => static a b) j0 (s k)) by (intros k Hk; rewrite <- H0; exact (traj_static _ _ _ _ _ Htr Hk)).
  assert (HL0 : j_layers j0 = map prepared (j_layers j)) by (destruct HS as (_ & -> & _); reflexivity).
  assert (Hno : forall k, (k <= N)%nat -> layerNo (s k) = layerNo j).
  { intros k Hk. destruct (HW k Hk) as (_ & L & _). unfold layerNo. rewrite L, HL0, map_length. reflexivity. }
  assert (HUk : forall k x, (k <= N)%nat -> In x (j_layers (s k)) -> uncoupled x).
  { intros k x Hk Hx. apply In_nth_error in Hx. destruct Hx as [q Hq]. destruct (HW k Hk) as (_ & L & P).
    destruct (nth_error_same_length _ _ _ _ (eq_sym L) Hq) as [y Hy]. apply (uncoupled_static y); [exact (P _ _ _ Hy Hq)|].
    rewrite HL0, nth_error_map in Hy. destruct (nth_error (j_layers j) q) as [z|] eqn:Ez; [|discriminate]. injection Hy as <-.
    apply uncoupled_prepared, HU. eapply nth_error_In; exact Ez. }
  assert (HAt : forall k, (k <= N)%nat -> nth_error (j_layers (s k)) p = Some (layer_at s p k l)).
  { intros k Hk. exact (proj1 (layer_at_static _ _ _ _ _ _ _ _ _ _ _ HS H0 Htr Hl Hk)). }
  destruct (alone_run T dt wf e mode N w used l (fun k => layer_at s p k l)) as (k & Ek & Lk & Nk & Tk & Ck); [exact HC|exact Hw|apply HS, Hin| | | |].
  { apply (one_table mode j used l HO Hin), HS. }
  { unfold layer_at. rewrite H0, HL0. apply nth_error_nth. rewrite nth_error_map, Hl. reflexivity. }
  { intros k Hk. assert (X := Htr k Hk). rewrite Er, <- (Hno k) in X by lia. apply step_apart in X; [|intros; apply (HUk k); [lia|assumption]].
    destruct X as (_ & _ & X). apply (X p); apply HAt; lia. }
  exists k, (layer_at s p N l). split; [exact Ek|]. split; [rewrite Ej; apply HAt; lia|]. split; [exact Lk|].
  intros HN. destruct (run_columns _ _ _ _ _ _ _ HN E) as (N' & w' & j0' & r' & used' & s' & HC' & HS' & H0' & Htr' & _ & Ej' & Ht' & HL').
  destruct (step_counts_unique _ _ _ _ _ _ _ HC HC') as [-> ->].
  assert (used' = used). { destruct HS' as (_ & _ & A & _). eapply table_unique; [apply (noisy_list_dec (j_layers j))|exact A|apply HS]. } subst used'.
  assert (r' = r) by (rewrite Er; apply HS'). subst r'.
  assert (j0' = j0) by (destruct HS as (_ & -> & _); apply HS'). subst j0'.
  assert (ES : forall i, (i <= N)%nat -> s' i = s i) by (apply (traj_unique r dt s' s N); [congruence|exact Htr'|exact Htr]).
  split; [rewrite Ej', Nk; reflexivity|]. split; [rewrite Ht', Tk; reflexivity|].
  intros tag HT. apply real_tags in HT. rewrite (HL' p l Hl tag HT), (Ck tag HT). f_equal. rewrite !flat_map_concat_map. f_equal. apply map_ext_in. intros i Hi. apply in_seq in Hi.
  assert (Hk' : (S (i * w) <= N)%nat) by (apply (row_in_run N w i Hw); lia). unfold layer_at. rewrite (ES _ Hk'). reflexivity.
Qed.
Lemma alone_states T dt wf e mode l k : runSimulation T dt wf e mode (alone l) = (k, Ok tt) ->
  exists N w used x, step_counts T dt wf N w /\ (N = 0%nat \/ (w > 0)%nat) /\ preparable N l /\ mode_table (exists y, In y [l] /\ noisy y) mode used /\
    x 0%nat = prepared l /\ forall i, (i < N)%nat -> solo used (INR i * dt) dt (x i) (x (S i)).
Proof.
  intros E. destruct (run_sound _ _ _ _ _ _ _ E) as (N & w & j0 & r & used & s & rows & HC & HS & H0 & Htr & Hw & _).
  exists N, w, used, (fun i => layer_at s 0 i l). split; [exact HC|]. split; [exact Hw|]. split; [apply HS; left; reflexivity|]. split; [apply HS|].
  assert (EJ : j0 = alone (prepared l)) by apply HS.
  assert (HA : forall i, (i <= N)%nat -> s i = alone (layer_at s 0 i l)).
  { intros i Hi. pose proof (traj_static _ _ _ _ _ Htr Hi) as (A & B & _). rewrite H0, EJ in A, B. unfold layer_at.
    destruct (j_layers (s i)) as [|a [|b ls]] eqn:EL; try discriminate. cbn [nth]. exact A. }
  split; [unfold layer_at; rewrite H0, EJ; reflexivity|].
  intros i Hi. unfold solo. rewrite <- !HA by lia. assert (Er : r = runner_table 1 used) by apply HS. rewrite <- Er. exact (Htr i Hi).
Qed.
Lemma run_together T dt wf e mode j : one_scheme mode j -> (forall l, In l (j_layers j) -> uncoupled l) ->
  j_layers j <> [] -> j_mode j <> MR_STRIP ->
  (forall l, In l (j_layers j) -> exists k, runSimulation T dt wf e mode (alone l) = (k, Ok tt)) ->
  exists j', runSimulation T dt wf e mode j = (j', Ok tt).
Proof.
  intros HO HU HN HM HR.
  assert (H1 : exists N w used, step_counts T dt wf N w /\ (N = 0%nat \/ (w > 0)%nat) /\ mode_table (exists k, In k (j_layers j) /\ noisy k) mode used).
  { destruct (j_layers j) as [|l ls] eqn:EL; [contradiction|]. rewrite <- EL in *. assert (Hl : In l (j_layers j)) by (rewrite EL; left; reflexivity).
    destruct (HR l Hl) as [k E]. destruct (alone_states _ _ _ _ _ _ _ E) as (N & w & used & x & A & B & _ & C & _).
    exists N, w, used. split; [exact A|]. split; [exact B|]. apply (one_table mode j used l HO Hl), C. }
  destruct H1 as (N & w & used & HC & Hw & HT).
  assert (HQ : forall l, In l (j_layers j) -> preparable N l /\ exists x, x 0%nat = prepared l /\ forall i, (i < N)%nat -> solo used (INR i * dt) dt (x i) (x (S i))).
  { intros l Hl. destruct (HR l Hl) as [k E]. destruct (alone_states _ _ _ _ _ _ _ E) as (N' & w' & used' & x & A & _ & B & C & D & F).
    destruct (step_counts_unique _ _ _ _ _ _ _ HC A) as [-> ->]. split; [exact B|].
    assert (used' = used). { eapply table_unique; [apply (noisy_list_dec [l])|exact C|apply (one_table mode j used l HO Hl), HT]. } subst used'. eauto. }
  destruct (pointwise_choice (fun (p : nat) l (x : nat -> layer) => x 0%nat = prepared l /\ forall i, (i < N)%nat -> solo used (INR i * dt) dt (x i) (x (S i))) (j_layers j)) as (xs & HL & HX).
  { intros p l Hl. apply HQ. eapply nth_error_In; exact Hl. }
  set (s := fun k => set_j_layers (map (fun x => x k) xs) j).
  assert (H0 : s 0%nat = set_j_layers (map prepared (j_layers j)) j).
  { unfold s. f_equal. apply nth_error_ext_len; [rewrite !map_length; congruence|]. intros p a b Ha Hb. rewrite nth_error_map in Ha, Hb.
    destruct (nth_error xs p) as [x|] eqn:Ex; [|discriminate]. destruct (nth_error (j_layers j) p) as [l|] eqn:El; [|discriminate].
    destruct (HX p l x El Ex) as [X _]. cbn in Ha, Hb. congruence. }
  assert (HS : selects mode N j (s 0%nat) (runner_table (layerNo j) used) used).
  { split; [intros l Hl; apply HQ, Hl|]. split; [exact H0|]. split; [exact HT|reflexivity]. }
  assert (Hno : forall k, layerNo (s k) = layerNo j) by (intros k; unfold layerNo, s; cbn [j_layers set_j_layers]; rewrite map_length; congruence).
  assert (HK : forall k, (k <= N)%nat -> forall x, In x (j_layers (s k)) -> uncoupled x).
  { induction k as [|k IH]; intros Hk y Hy.
    - rewrite H0 in Hy. cbn [j_layers set_j_layers] in Hy. apply in_map_iff in Hy. destruct Hy as (z & <- & Hz). apply uncoupled_prepared, HU, Hz.
    - unfold s in Hy. cbn [j_layers set_j_layers] in Hy. apply in_map_iff in Hy. destruct Hy as (x & <- & Hx).
      assert (Hxk : uncoupled (x k)). { apply IH; [lia|]. unfold s. cbn [j_layers set_j_layers]. apply in_map_iff. eauto. }
      apply In_nth_error in Hx. destruct Hx as [p Hp]. destruct (nth_error_same_length xs (j_layers j) p x (eq_sym HL) Hp) as [l Hl].
      destruct (HX p l x Hl Hp) as [_ X]. specialize (X k ltac:(lia)).
      apply step_static in X. destruct X as (_ & _ & X). exact (uncoupled_static _ _ (X 0%nat _ _ eq_refl eq_refl) Hxk). }
  assert (HTr : trajectory (runner_table (layerNo j) used) dt s N).
  { intros k Hk. rewrite <- (Hno k). apply step_apart; [apply HK; lia|]. split; [reflexivity|]. unfold s. cbn [j_layers set_j_layers].
    split; [rewrite !map_length; reflexivity|]. intros p a b Ha Hb. rewrite nth_error_map in Ha, Hb.
    destruct (nth_error xs p) as [x|] eqn:Hp; [|discriminate]. injection Ha as <-. injection Hb as <-.
    destruct (nth_error_same_length xs (j_layers j) p x (eq_sym HL) Hp) as [l Hl]. destruct (HX p l x Hl Hp) as [_ X]. exact (X k Hk). }
  destruct Hw as [->|Hw].
  - eexists. exact (run_none _ _ _ _ _ _ _ _ _ _ HC HS).
  - apply (run_complete _ _ _ e mode j N w _ _ used s HC HS Hw (fun X => False_ind _ (HM X)) eq_refl HTr).
    intros k Hk. assert (Hmode : j_mode (s (S (k * w))) = j_mode j) by reflexivity.
    unfold log_row, resistance_row. destruct (j_mode (s (S (k * w)))); [|destruct (j_layers (s (S (k * w)))) as [|? [|? ?]]|congruence];
    eexists; eexists; (split; [reflexivity|reflexivity]).
Qed.

(** ** A temperature on one layer changes the solver of all layers *)
Definition ex_spin (id : string) : layer := set_l_external (caxial (CV 0 0 (/ gamma0)))
  (LY id (CV 1 0 0) (CV 0 0 1) 1 1 (1 * 1) 1 null_tensor null_tensor null_tensor 0 0 0 0 0 1 0
    false false true false false false true false vnull RNONE
    default_driver default_driver default_driver default_driver default_driver
    default_driver default_driver default_driver default_driver
    null_axial null_axial null_axial null_axial null_axial null_axial
    1 0 0 all_axes (0%nat, 0, 0) None (fun _ _ => vnull) 0 (fun _ => 0) 3 empty_cache).
Definition ex_cold (id : string) : layer := set_l_temperature (cdrv 0) (set_l_temperatureSet true (ex_spin id)).
Definition ex_plain_pair (a b : layer) : junction := JN MR_NONE [a; b] 0 0 [] [] [] [] [] [] [] [] 0 "R".
Lemma rhs_unique l t m b top d d' : rhs l t m b top d -> rhs l t m b top d' -> d = d'.
Proof. intros H H'. apply (rhs_iff _ _ _ _ _ 0) in H, H'. destruct H as [x X], H' as [y Y]. congruence. Qed.
Lemma spin_rhs id t m b top : rhs (ex_spin id) t m b top (CV (- cy m) (cx m) 0).
Proof.
  set (i := FI (CV 0 0 (/ gamma0)) Zero Zero Zero 0 0 0 0 0 Zero Zero).
  assert (H : rhs (ex_spin id) t m b top (LLG_plain 0 m (H_eff (ex_spin id) i m b top (dipole_total (ex_spin id) b top) Zero))).
  { exists i. split; [repeat split|]. split; [cbn; lra|]. split; [cbn; lra|]. apply llg_plain; reflexivity. }
  assert (E : H_eff (ex_spin id) i m b top (dipole_total (ex_spin id) b top) Zero = CV 0 0 (/ gamma0)).
  { unfold H_eff, IEC_total, IDMI_total, H_anis, dipole_total, H_iec, H_idmi, H_tensor, i. destruct m, b, top. cbn -[Rmult Rplus Rdiv Rinv gamma0 mu0 Ropp].
    unfold Rdiv. vsimp. cbn -[Rmult Rplus Rdiv Rinv gamma0 mu0 Ropp]. apply vec_eq; cbn -[Rmult Rplus Rdiv Rinv gamma0 mu0 Ropp]; ring. }
  rewrite E in H. replace (CV (- cy m) (cx m) 0) with (LLG_plain 0 m (CV 0 0 (/ gamma0))); [exact H|].
  unfold LLG_plain, prefactor, LL. destruct m as [x y z]. vsimp. unfold gamma0. apply vec_eq; cbn [cx cy cz]; field.
Qed.
Lemma counts_1_1 : step_counts 1 1 1 1 1.
Proof. repeat split; try lra; left; cbn; lra. Qed.
Lemma spin_total id : total_layer (ex_spin id).
Proof. intros t m b top. eexists. apply spin_rhs. Qed.
Lemma spin_runnable id : runnable (ex_spin id).
Proof. split; [apply spin_total|]. split; [reflexivity|discriminate]. Qed.
Lemma cold_runnable id : runnable (ex_cold id).
Proof.
  split; [|split; [reflexivity|]].
  - intros t m b top. apply plain_total; try reflexivity; try (cbn; lra). intros s. exists (FI (CV 0 0 (/ gamma0)) Zero Zero Zero 0 0 0 0 0 Zero Zero). repeat split.
  - intros _ t. eexists. split; [cbn; lra|]. exists 0. split; [reflexivity|]. split; [cbn; lra|]. split; [|reflexivity].
    apply Req_le. unfold Rdiv. ring.
Qed.
Lemma spin_uncoupled id : uncoupled (ex_spin id) /\ uncoupled (ex_cold id).
Proof.
  assert (X : forall t v, getCurrentScalarValue default_driver t = Ok v -> v = 0) by (intros t v E; injection E as <-; reflexivity).
  assert (Y : forall t v, getCurrentAxialDrivers null_axial t = Ok v -> v = Zero) by (intros t v E; injection E as <-; reflexivity).
  split; (split; [exact X|]); (split; [exact X|]); (split; [exact X|]); (split; [exact X|]); (split; [exact Y|]); (split; [exact Y|]); (split; [reflexivity|]); (split; [reflexivity|]); intros [H|H]; discriminate.
Qed.
Lemma norm_ratio v u : Normalised v u -> cx v * cy u = cy v * cx u.
Proof. intros [[-> ->]|[_ ->]]; [cbn; ring|]. destruct v. cbn. ring. Qed.
Lemma cold_pair_end j' : runSimulation 1 1 1 false RK4 (ex_plain_pair (ex_spin "a") (ex_cold "b")) = (j', Ok tt) ->
  exists l, nth_error (j_layers j') 0 = Some l /\ cx (l_mag l) <> 0 /\ cx (l_mag l) = cy (l_mag l).
Proof.
  intros E. destruct (run_sound _ _ _ _ _ _ _ E) as (N & w & j0 & r & used & s & rows & HC & HS & H0 & Htr & _ & _ & Ej & _).
    destruct (step_counts_unique _ _ _ _ _ _ _ counts_1_1 HC) as [-> ->].
    assert (used = EULER_HEUN). { destruct HS as (_ & _ & [HM _] & _). apply HM. exists (ex_cold "b"). split; [right; left; reflexivity|left; reflexivity]. } subst used.
    assert (r = RunEulerHeun) by apply HS. subst r. assert (T0 := Htr 0%nat ltac:(lia)). rewrite Ej. cbn [j_layers set_j_log].
    assert (EJ : s 0%nat = ex_plain_pair (ex_spin "a") (ex_cold "b")).
    { rewrite H0. destruct HS as (_ & -> & _). unfold ex_plain_pair, set_j_layers, prepared. cbn -[ex_spin ex_cold]. 
      assert (Z1 : l_nScale (ex_spin "a") = 0) by reflexivity. assert (Z2 : l_nScale (ex_cold "b") = 0) by reflexivity. rewrite Z1, Z2. destruct (Req_EM_T 0 0); [reflexivity|lra]. }
    rewrite EJ in T0. apply eh_sound in T0. destruct T0 as (_ & HL & HP). cbn in HL.
    destruct (j_layers (s 1%nat)) as [|l ls] eqn:EL; [discriminate|]. exists l. split; [reflexivity|].
    destruct (HP 0%nat (ex_spin "a") l eq_refl eq_refl) as (wn & c & (x & y & Hx & Hy & ->) & (_ & f & Hf & HN) & _).
    assert (Ef := rhs_unique _ _ _ _ _ _ _ Hf (spin_rhs _ _ _ _ _)). subst f.
    unfold thermal_part in Hx. cbn in Hx. subst x. destruct Hy as [[_ ->]|[X _]]; [|exfalso; apply X; reflexivity].
    cbv zeta in HN. match type of HN with Normalised ?x _ => assert (Ev : x = CV 1 1 0) end.
    { clear HN Hf. unfold LLG_plain, LL. cbn [l_mag ex_spin set_l_external]. vsimp. apply vec_eq; cbn [cx cy cz]; ring. }
    assert (HN1 : Normalised (CV 1 1 0) (l_mag l)) by (rewrite <- Ev; exact HN). clear HN Ev. rename HN1 into HN. assert (U : cx (l_mag l) <> 0).
    { destruct HN as [[X _]|[X ->]]; [unfold Zero in X; injection X; lra|]. cbn [Scal cx]. rewrite Rmult_1_r. apply Rinv_neq_0_compat. intros Y. apply X, Norm_zero_iff, Y. }
    split; [exact U|]. apply norm_ratio in HN. cbn in HN. lra. 
Qed.
Lemma single_runner t dt j j' : run_runner RunSingle t dt j = (j', Ok tt) -> stepwise (RK4_single_rel t dt) j j'.
Proof. exact (single_sound t dt j j'). Qed.
Lemma spin_end k : runSimulation 1 1 1 false RK4 (alone (ex_spin "a")) = (k, Ok tt) ->
  exists l, nth_error (j_layers k) 0 = Some l /\ 13 * cy (l_mag l) = 20 * cx (l_mag l).
Proof.
  intros Ek. destruct (run_sound _ _ _ _ _ _ _ Ek) as (N & w & j0 & r & used & s & rows & HC & HS & H0 & Htr & _ & _ & Ej & _).
    destruct (step_counts_unique _ _ _ _ _ _ _ counts_1_1 HC) as [-> ->].
    assert (used = RK4). { destruct HS as (_ & _ & [_ HM] & _). apply HM. intros (x & [<-|[]] & [X|X]); [discriminate|apply X; reflexivity]. } subst used.
    assert (r = RunSingle) by apply HS. subst r. assert (T0 := Htr 0%nat ltac:(lia)). rewrite Ej. cbn [j_layers set_j_log].
    assert (EJ : s 0%nat = alone (ex_spin "a")).
    { rewrite H0. destruct HS as (_ & -> & _). unfold alone, set_j_layers, prepared. cbn -[ex_spin ex_cold]. 
      assert (Z1 : l_nScale (ex_spin "a") = 0) by reflexivity. rewrite Z1. destruct (Req_EM_T 0 0); [reflexivity|lra]. }
    rewrite EJ in T0. apply single_runner in T0. destruct T0 as (_ & HL & HP). cbn in HL.
    destruct (j_layers (s 1%nat)) as [|l ls] eqn:EL; [discriminate|]. exists l. split; [reflexivity|].
    destruct (HP 0%nat (ex_spin "a") l eq_refl eq_refl) as ((f1 & f2 & f3 & f4 & F1 & F2 & F3 & F4 & HN) & _).
    change (l_mag (ex_spin "a")) with (CV 1 0 0) in *.
    assert (X : f1 = CV 0 1 0) by (rewrite (rhs_unique _ _ _ _ _ _ _ F1 (spin_rhs _ _ _ _ _)); apply vec_eq; cbn; ring). subst f1. clear F1.
    assert (X : f2 = CV (-1/2) 1 0) by (rewrite (rhs_unique _ _ _ _ _ _ _ F2 (spin_rhs _ _ _ _ _)); apply vec_eq; cbn; field). subst f2. clear F2.
    assert (X : f3 = CV (-1/2) (3/4) 0) by (rewrite (rhs_unique _ _ _ _ _ _ _ F3 (spin_rhs _ _ _ _ _)); apply vec_eq; cbn; field). subst f3. clear F3.
    assert (X : f4 = CV (-3/4) (1/2) 0) by (rewrite (rhs_unique _ _ _ _ _ _ _ F4 (spin_rhs _ _ _ _ _)); apply vec_eq; cbn; field). subst f4. clear F4.
    apply norm_ratio in HN. unfold Sum in HN. cbn [fold_right cx cy Plus Scal Zero] in HN. clear -HN. revert HN. generalize (cx (l_mag l)) (cy (l_mag l)). intros x y HN. lra.
Qed.
Lemma cold_solver : exists a b j j' k,
  Junction_plain [a; b] = Ok j /\ uncoupled a /\ uncoupled b /\ ~ noisy a /\ (forall t, getCurrentScalarValue (l_temperature b) t = Ok 0) /\
  runSimulation 1 1 1 false RK4 j = (j', Ok tt) /\ runSimulation 1 1 1 false RK4 (alone a) = (k, Ok tt) /\
  nth_error (j_layers j') 0 <> nth_error (j_layers k) 0.
Proof.
  destruct (run_exists 1 1 1 false RK4 (ex_plain_pair (ex_spin "a") (ex_cold "b")) 1 1) as [j' E]; [lra|discriminate|discriminate|exact counts_1_1|lia| |].
  { intros l [<-|[<-|[]]]; [apply spin_runnable|apply cold_runnable]. }
  destruct (run_exists 1 1 1 false RK4 (alone (ex_spin "a")) 1 1) as [k Ek]; [lra|discriminate|discriminate|exact counts_1_1|lia| |].
  { intros l [<-|[]]. apply spin_runnable. }
  exists (ex_spin "a"), (ex_cold "b"), (ex_plain_pair (ex_spin "a") (ex_cold "b")), j', k.
  split; [reflexivity|]. split; [apply spin_uncoupled|]. split; [apply spin_uncoupled|]. split; [intros [X|X]; [discriminate|apply X; reflexivity]|].
  split; [reflexivity|]. split; [exact E|]. split; [exact Ek|].
  assert (A := cold_pair_end _ E). assert (B := spin_end _ Ek).
  destruct A as (l & A & U & A2), B as (l' & B & B2). rewrite A, B. intros X. injection X as <-.
  apply U. clear -A2 B2. revert A2 B2. generalize (cx (l_mag l)) (cy (l_mag l)). intros x y. lra.
Qed.
