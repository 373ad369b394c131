(** What the energy columns contain. *)
From Verif Require Export S_Cache P_RunEx.
Open Scope R_scope.
Open Scope st_scope.

Lemma solveLLG_remembers l t m dt b top H l' d : solveLLG t m dt b top H l = (l', Ok d) ->
  exists c, l' = set_l_cache c l /\ remembers_torque l t b top (l_cache l) c /\
    c = set_c_I_log (c_I_log c) (set_c_Hfl_v (c_Hfl_v c) (set_c_Hdl_v (c_Hdl_v c) (l_cache l))).
Proof.
  unfold solveLLG, remembers_torque. unfold bind at 1. unfold get. unfold bind at 1. unfold lift at 1.
  rewrite fdiv_ok by (generalize (conv_pos (l_damping l)); lra). cbv beta iota zeta.
  rewrite polariser_eq. set (p := polariser l b top).
  destruct (l_includeSTT l) eqn:HSTT.
  - intros E. binv E. apply lift_inv in X. destruct X as [-> X]. binv E. apply modify_inv in X0. subst.
    binv E. apply lift_inv in X0. destruct X0 as [-> _]. binv E. apply lift_inv in X0. destruct X0 as [-> _].
    apply ret_inv in E. destruct E as [-> _]. eexists. split; [reflexivity|]. split; [|destruct (l_cache l); reflexivity].
    split; [exact X|]. split; reflexivity.
  - destruct (l_includeSOT l) eqn:HSOT.
    + intros E. binv E. destruct (l_dynamicSOT l) eqn:HD.
      * binv X. apply lift_inv in X0. destruct X0 as [-> X0]. binv X. apply lift_inv in X1. destruct X1 as [-> X1].
        apply ret_inv in X. destruct X as [-> ->]. binv E. apply modify_inv in X. subst. binv E. apply modify_inv in X. subst.
        apply ret_inv in E. destruct E as [-> _]. unfold upd_cache. cbn [fst snd]. eexists. split; [rewrite set_cache_twice; reflexivity|]. split; [|destruct (l_cache l); reflexivity].
        exists a0, a1. split; [split; [exact X0|]; split; [exact X1|reflexivity]|]. rewrite !vscale_Scal. split; reflexivity.
      * binv X. apply lift_inv in X0. destruct X0 as [-> X0]. binv X. apply modify_inv in X1. subst.
        apply ret_inv in X. destruct X as [-> ->]. binv E. apply modify_inv in X. subst. binv E. apply modify_inv in X. subst.
        apply ret_inv in E. destruct E as [-> _]. unfold upd_cache. cbn [fst snd]. eexists. split; [rewrite !set_cache_twice; reflexivity|]. split; [|destruct (l_cache l); reflexivity].
        exists (l_dampingLikeTorque l * a0), (l_fieldLikeTorque l * a0). split; [split; [exact X0|]; split; reflexivity|]. rewrite !vscale_Scal. split; reflexivity.
    + intros E. apply ret_inv in E. destruct E as [-> _]. exists (l_cache l). split; [destruct l; reflexivity|]. split; [|destruct (l_cache l); reflexivity].
      repeat split.
Qed.
Lemma torque_frame l t b top c0 c0' c : c_I_log c0' = c_I_log c0 -> c_Hfl_v c0' = c_Hfl_v c0 -> c_Hdl_v c0' = c_Hdl_v c0 ->
  remembers_torque l t b top c0' c -> remembers_torque l t b top c0 c.
Proof.
  intros E1 E2 E3. unfold remembers_torque. rewrite E1, E2, E3. exact (fun H => H).
Qed.
Lemma torque_cache l t b top c0 c cc : remembers_torque (set_l_cache cc l) t b top c0 c <-> remembers_torque l t b top c0 c.
Proof. reflexivity. Qed.
Lemma solve_after_field l t m dt b top H c1 l' d dip :
  solveLLG t m dt b top H (set_l_cache c1 l) = (l', Ok d) ->
  (exists i, inputs_at l t i /\ c1 = field_cache l i m b top (match dip with Some x => set_c_Hdipole x (l_cache l) | None => l_cache l end)) ->
  remembers l t m b top dip (l_cache l) (l_cache l').
Proof.
  intros E (i & Hi & Ec). apply solveLLG_remembers in E. destruct E as (c & -> & HT & Hc).
  change (l_cache (set_l_cache c1 l)) with c1 in HT, Hc. change (l_cache (set_l_cache c (set_l_cache c1 l))) with c.
  apply torque_cache in HT.
  assert (HT' : remembers_torque l t b top (l_cache l) c).
  { revert HT. apply torque_frame; rewrite Ec; destruct dip; reflexivity. }
  clear HT. unfold remembers. rewrite Hc in *. clear Hc. subst c1. split; [exists i; split; [exact Hi|]; destruct dip; repeat split|].
  split; [destruct dip; reflexivity|]. split; [destruct dip; reflexivity|]. split; [destruct dip; reflexivity|]. exact HT'.
Qed.
Lemma llg_remembers l t m b top dt l' d : calculateLLGWithFieldTorque t m b top dt l = (l', Ok d) ->
  remembers l t m b top (Some (dipole_total l b top)) (l_cache l) (l_cache l').
Proof.
  unfold calculateLLGWithFieldTorque. intros E. binv E. apply Heff_iff in X. destruct X as (i & Hi & _ & _ & _ & ->).
  eapply solve_after_field; [exact E|]. exists i. split; [exact Hi|reflexivity].
Qed.
Lemma llg_inj_remembers l t m b top dip dt fl l' d :
  calculateLLGWithFieldTorqueDipoleInjection t m b top dip dt fl l = (l', Ok d) ->
  remembers l t m b top None (l_cache l) (l_cache l').
Proof.
  unfold calculateLLGWithFieldTorqueDipoleInjection. intros E. binv E. apply Heff_inj_iff in X. destruct X as (i & Hi & _ & _ & _ & ->).
  eapply solve_after_field; [exact E|]. exists i. split; [exact Hi|reflexivity].
Qed.
(** Only the unchanged parts matter for what was remembered before. *)
Lemma torque_chain l t t' b top b' top' c0 c1 c2 : remembers_torque l t b top c0 c1 -> remembers_torque l t' b' top' c1 c2 ->
  remembers_torque l t' b' top' c0 c2.
Proof.
  unfold remembers_torque. destruct (l_includeSTT l).
  - intros (_ & A & B) (C & D & F). rewrite <- A, <- B. auto.
  - destruct (l_includeSOT l).
    + intros (hd & hf & A & _ & _) (hd' & hf' & C & D & F). exists hd', hf'. split; [|auto].
      destruct (l_dynamicSOT l); [|exact C]. destruct A as (_ & _ & A), C as (C1 & C2 & C3). rewrite <- A. auto.
    + intros (A & B & C) (D & F & G). rewrite <- A, <- B, <- C. auto.
Qed.
Lemma remembers_chain l t t' m m' b top b' top' d c0 c1 c2 dip :
  remembers l t m b top d c0 c1 -> remembers l t' m' b' top' dip c1 c2 -> (dip = None -> d = None) ->
  remembers l t' m' b' top' dip c0 c2.
Proof.
  intros (_ & _ & D1 & F1 & T1) (I2 & A2 & D2 & F2 & T2) Hd. split; [exact I2|]. split; [exact A2|].
  split; [rewrite D2; destruct dip; [reflexivity|rewrite D1, Hd; reflexivity]|]. split; [rewrite F2; exact F1|].
  eapply torque_chain; eassumption.
Qed.
Lemma remembers_static l l' t m b top dip c0 c : static l l' -> remembers l' t m b top dip c0 c -> remembers l t m b top dip c0 c.
Proof.
  intros (m' & c' & rp & bf & ->) ((i & Hi & H1) & H2 & H3 & H4 & H5).
  split; [exists i; split; [exact Hi|exact H1]|]. split; [exact H2|]. split; [exact H3|]. split; [exact H4|exact H5].
Qed.
Lemma dipole_static l l' b top : static l l' -> dipole_total l' b top = dipole_total l b top.
Proof. intros (m' & c' & rp & bf & ->). reflexivity. Qed.
Section RK4cache.
  Context (f : R -> cvec -> ST layer cvec) (F : layer -> R -> cvec -> cvec -> Prop) (b top : cvec) (dip : layer -> option cvec).
  Context (Hf : forall l t m d, (exists l', f t m l = (l', Ok d)) <-> F l t m d)
          (Hsame : forall l t m d l', f t m l = (l', Ok d) -> same_but_cache l l')
          (HF : forall l l' t m d, static l l' -> F l t m d -> F l' t m d)
          (Hr : forall l t m d l', f t m l = (l', Ok d) -> remembers l t m b top (dip l) (l_cache l) (l_cache l'))
          (Hd : forall l c, dip (set_l_cache c l) = dip l).
  Lemma rk4_generic_remembers l t dt l' : rk4_generic f t dt l = (l', Ok tt) ->
    exists f1 f2 f3, F l t (l_mag l) f1 /\ F l (t + dt / 2) (Plus (l_mag l) (Scal (dt / 2) f1)) f2 /\
      F l (t + dt / 2) (Plus (l_mag l) (Scal (dt / 2) f2)) f3 /\
      remembers l (t + dt) (Plus (l_mag l) (Scal dt f3)) b top (dip l) (l_cache l) (l_cache l').
  Proof.
    assert (fst' : forall l t m l' d, f t m l = (l', Ok d) -> F l t m d /\ exists c, l' = set_l_cache c l /\ remembers l t m b top (dip l) (l_cache l) c).
    { intros l0 t0 m0 l1 d0 E0. destruct (fstep f F Hf Hsame _ _ _ _ _ E0) as [A [c ->]]. split; [exact A|]. exists c. split; [reflexivity|].
      exact (Hr _ _ _ _ _ E0). }
    assert (fb : forall c l t m d, F (set_l_cache c l) t m d -> F l t m d) by (apply fback; exact HF).
    assert (rb : forall c l t m c0 c1, remembers (set_l_cache c l) t m b top (dip l) c0 c1 -> remembers l t m b top (dip l) c0 c1).
    { intros c l0 t0 m0 c0 c1. apply remembers_static. apply static_cache. }
    unfold rk4_generic. intros E. binv E. apply get_inv in X. destruct X as [-> ->].
    binv E. apply fst' in X. destruct X as [F1 [c1 [-> R1]]].
    binv E. apply fst' in X. destruct X as [F2 [c2 [-> R2]]]. rewrite Hd in R2. apply fb in F2. apply rb in R2. rewrite set_cache_twice in *.
    binv E. apply fst' in X. destruct X as [F3 [c3 [-> R3]]]. rewrite Hd in R3. apply fb in F3. apply rb in R3. rewrite set_cache_twice in *.
    binv E. apply fst' in X. destruct X as [F4 [c4 [-> R4]]]. rewrite Hd in R4. apply fb in F4. apply rb in R4. rewrite set_cache_twice in *.
    binv E. apply lift_vdiv6 in X. destruct X as [-> ->].
    rewrite rk4_stage_args, half_time in F2, F3. rewrite rk4_stage_last in R4.
    apply modify_inv in E. subst l'. exists a, a0, a1. split; [exact F1|]. split; [exact F2|]. split; [exact F3|].
    change (l_cache (set_l_mag (vnormalize (vadd (l_mag l) (Scal (/ 6) (vadd (vadd (vadd (vscale a dt) (vscale (vscale a0 dt) 2)) (vscale (vscale a1 dt) 2)) (vscale a2 dt))))) (set_l_cache c4 l))) with c4.
    change (l_cache (set_l_cache c1 l)) with c1 in R2. change (l_cache (set_l_cache c2 l)) with c2 in R3. change (l_cache (set_l_cache c3 l)) with c3 in R4.
    eapply remembers_chain; [|exact R4|exact (fun H => H)]. eapply remembers_chain; [|exact R3|exact (fun H => H)].
    eapply remembers_chain; [exact R1|exact R2|exact (fun H => H)].
  Qed.
End RK4cache.
Lemma rk4_remembers l t dt b top l' : rk4_step t dt b top l = (l', Ok tt) ->
  exists q, RK4_last_stage l t dt b top q /\
    remembers l (t + dt) q b top (Some (dipole_total l b top)) (l_cache l) (l_cache l').
Proof.
  intros E. unfold rk4_step in E.
  destruct (rk4_generic_remembers (fun s m => calculateLLGWithFieldTorque s m b top dt) (fun l s m d => rhs l s m b top d) b top (fun l => Some (dipole_total l b top))) with (6 := E)
    as (f1 & f2 & f3 & A & B & C & D).
  - intros. apply rhs_iff.
  - intros l0 s m d l1. apply llg_total_same.
  - intros. eapply static_rhs; eassumption.
  - intros l0 s m d l1. apply llg_remembers.
  - reflexivity.
  - eexists. split; [|exact D]. exists f1, f2, f3. auto.
Qed.
Lemma rk4_inj_remembers l t dt b top dip l' : rk4_stepDipoleInjection t dt b top dip l = (l', Ok tt) ->
  exists f1 f2 f3, rhs_inj l t (l_mag l) b top dip f1 /\ rhs_inj l (t + dt / 2) (Plus (l_mag l) (Scal (dt / 2) f1)) b top dip f2 /\
    rhs_inj l (t + dt / 2) (Plus (l_mag l) (Scal (dt / 2) f2)) b top dip f3 /\
    remembers l (t + dt) (Plus (l_mag l) (Scal dt f3)) b top None (l_cache l) (l_cache l').
Proof.
  intros E. unfold rk4_stepDipoleInjection in E.
  destruct (rk4_generic_remembers (fun s m => calculateLLGWithFieldTorqueDipoleInjection s m b top dip dt vnull) (fun l s m d => rhs_inj l s m b top dip d) b top (fun l => None)) with (6 := E)
    as (f1 & f2 & f3 & A & B & C & D).
  - intros. apply rhs_inj_iff.
  - intros l0 s m d l1. apply llg_inj_same.
  - intros. eapply static_rhs_inj; eassumption.
  - intros l0 s m d l1. apply llg_inj_remembers.
  - reflexivity.
  - exists f1, f2, f3. auto.
Qed.
(** ** Stochastic steps *)
Lemma advance_l_cache l : l_cache (advance_noise l) = l_cache l. Proof. reflexivity. Qed.
Lemma eh_layer_remembers t dt b top l l' mp : eulerHeun_layer t dt b top l = (l', Ok mp) ->
  remembers l t (l_mag l) b top (Some (dipole_total l b top)) (l_cache l) (l_cache l').
Proof.
  unfold eulerHeun_layer. intros E. binv E. apply noise_iff in X. destruct X as [_ ->].
  binv E. apply get_inv in X. destruct X as [-> ->].
  binv E. apply llg_remembers in X. rewrite advance_l_cache in X. apply (remembers_static l _ _ _ _ _ _ _ _ (static_advance l)) in X.
  rewrite (dipole_static l _ _ _ (static_advance l)) in X. change (l_mag (advance_noise l)) with (l_mag l) in X.
  binv E. apply lift_inv in X0. destruct X0 as [-> _]. binv E. apply lift_inv in X0. destruct X0 as [-> _].
  binv E. apply lift_inv in X0. destruct X0 as [-> _]. apply ret_inv in E. destruct E as [-> _]. exact X.
Qed.
Lemma heun1_remembers t dt b top l l' h : heun_layer1 t dt b top l = (l', Ok h) ->
  remembers l t (l_mag l) b top (Some (dipole_total l b top)) (l_cache l) (l_cache l').
Proof.
  unfold heun_layer1. intros E. binv E. apply get_inv in X. destruct X as [-> ->].
  binv E. apply llg_remembers in X. binv E. apply noise_iff in X0. destruct X0 as [_ ->].
  binv E. apply get_inv in X0. destruct X0 as [-> ->]. binv E. apply lift_inv in X0. destruct X0 as [-> _].
  binv E. apply lift_inv in X0. destruct X0 as [-> _]. apply ret_inv in E. destruct E as [-> _]. rewrite advance_l_cache. exact X.
Qed.
Lemma heun2_remembers t dt h b top l l' : heun_layer2 t dt h b top l = (l', Ok tt) ->
  remembers l (t + dt) (h_mNext h) b top (Some (dipole_total l b top)) (l_cache l) (l_cache l').
Proof.
  unfold heun_layer2. intros E. binv E. apply llg_remembers in X. binv E. apply get_inv in X0. destruct X0 as [-> ->].
  binv E. apply lift_inv in X0. destruct X0 as [-> _]. binv E. apply lift_inv in X0. destruct X0 as [-> _].
  binv E. apply modify_inv in X0. subst. apply modify_inv in E. subst l'. exact X.
Qed.
(** ** Junction steps *)
Lemma step_remembers r t dt j j' : run_runner r t dt j = (j', Ok tt) ->
  exists ps, forall p l l', stepped r p -> nth_error (j_layers j) p = Some l -> nth_error (j_layers j') p = Some l' ->
    exists q b top, evaluation_point r (mags (j_layers j)) ps t dt p l q b top /\
      remembers l (last_evaluation r t dt) q b top (Some (dipole_total l b top)) (l_cache l) (l_cache l').
Proof.
  destruct r; cbn [run_runner stepped evaluation_point last_evaluation].
  all: cycle 2.
  - unfold heunSolverStep. rewrite heun1_gpass. change vnull with Zero.
    destruct (gpass _ _ _) as [ls [hs|e]] eqn:E; [|discriminate].
    destruct (heun_pass2 _ _ _ _ _) as [ls' r] eqn:E2. intros H. injection H as <- ->.
    apply (gpass_iff _ _ _ _ _ (h1_mag t dt)) in E. destruct E as (HL & HL2 & HP).
    apply pass2_iff in E2; [|congruence]. destruct E2 as [HL3 HP2].
    exists (map h_mNext hs). intros p l l' _ Hl Hl'. cbn [j_layers set_j_layers] in Hl'.
    destruct (nth_error_same_length _ _ _ _ HL Hl) as [l1 Hl1]. destruct (nth_error_same_length _ _ _ _ HL2 Hl) as [h Hh].
    specialize (HP p l l1 h Hl Hl1 Hh). rewrite belowb_zero in HP. assert (R1 := heun1_remembers _ _ _ _ _ _ _ HP). apply heun1_sound in HP.
    destruct HP as (w & f & Hn & Hdt & Hf & Eh & c & ->).
    specialize (HP2 p _ h l' Hl1 Hh Hl'). rewrite belowb_zero in HP2. apply heun2_remembers in HP2.
    assert (Hst : static l (set_l_cache c (advance_noise l))).
    { eapply static_trans; [apply static_advance|apply static_cache]. }
    apply (remembers_static l _ _ _ _ _ _ _ _ Hst) in HP2. rewrite (dipole_static l _ _ _ Hst) in HP2.
    exists (h_mNext h), (below (map h_mNext hs) p), (above (map h_mNext hs) p). split.
    + split; [reflexivity|]. split; [reflexivity|]. split; [exact (map_nth_error h_mNext p hs Hh)|].
      exists w. split; [exact Hn|]. split; [exact Hdt|]. exists f. split; [exact Hf|]. rewrite Eh. reflexivity.
    + eapply remembers_chain; [exact R1|exact HP2|discriminate].
  - unfold eulerHeunSolverStep. rewrite eh_gpass. change vnull with Zero.
    destruct (gpass _ _ _) as [ls [mps|e]] eqn:E; [|discriminate]. intros H. injection H as <-.
    apply (gpass_iff _ _ _ _ _ (eh_mag t dt)) in E. destruct E as (HL & HL2 & HP).
    exists []. intros p l l' _ Hl Hl'. cbn [j_layers set_j_layers] in Hl'.
    destruct (nth_error_same_length _ _ _ _ HL Hl) as [l1 Hl1]. destruct (nth_error_same_length _ _ _ _ HL2 Hl) as [mp Hmp].
    rewrite (assign_nth _ _ _ _ _ Hl1 Hmp) in Hl'. assert (El' : l' = set_l_mag (vnormalize mp) l1) by congruence. clear Hl'. subst l'.
    specialize (HP p l l1 mp Hl Hl1 Hmp). rewrite belowb_zero in HP. apply eh_layer_remembers in HP.
    exists (l_mag l), (below (mags (j_layers j)) p), (above (mags (j_layers j)) p). auto.
  - intros E. apply single_iff in E. destruct E as (_ & _ & _ & HP). exists []. intros p l l' -> Hl Hl'.
    specialize (HP 0%nat l l' Hl Hl'). cbv beta iota in HP. apply rk4_remembers in HP. destruct HP as (q & A & B). exists q, Zero, Zero. auto.
  - intros E. apply multi_iff in E. destruct E as (_ & _ & HP). exists []. intros p l l' _ Hl Hl'.
    specialize (HP p l l' Hl Hl'). cbv beta in HP. apply rk4_remembers in HP. destruct HP as (q & A & B). eexists q, _, _. split; [|exact B]. auto.
Qed.
(** ** Whole runs *)
Lemma remembers_prepared l t m b top dip c0 c : remembers (prepared l) t m b top dip c0 c <-> remembers l t m b top dip c0 c.
Proof. unfold prepared. destruct (Req_EM_T (l_nScale l) 0); reflexivity. Qed.
Lemma prepared_cache l : l_cache (prepared l) = l_cache l.
Proof. unfold prepared. destruct (Req_EM_T (l_nScale l) 0); reflexivity. Qed.
Lemma dipole_prepared l b top : dipole_total (prepared l) b top = dipole_total l b top.
Proof. unfold prepared. destruct (Req_EM_T (l_nScale l) 0); reflexivity. Qed.
Lemma layer_row_values l :
  values "K" (tag_row true l) = [c_K_log (l_cache l)] /\ values "Jbottom" (tag_row true l) = [c_Jbottom_log (l_cache l)] /\
  values "Jtop" (tag_row true l) = [c_Jtop_log (l_cache l)] /\
  values "Hextx" (tag_row true l) = [cx (c_Hext (l_cache l))] /\ values "Hexty" (tag_row true l) = [cy (c_Hext (l_cache l))] /\ values "Hextz" (tag_row true l) = [cz (c_Hext (l_cache l))] /\
  values "Hiecx" (tag_row true l) = [cx (c_HIEC (l_cache l))] /\ values "Hiecy" (tag_row true l) = [cy (c_HIEC (l_cache l))] /\ values "Hiecz" (tag_row true l) = [cz (c_HIEC (l_cache l))] /\
  values "Hanisx" (tag_row true l) = [cx (c_HAnis (l_cache l))] /\ values "Hanisy" (tag_row true l) = [cy (c_HAnis (l_cache l))] /\ values "Hanisz" (tag_row true l) = [cz (c_HAnis (l_cache l))] /\
  values "Hdemagx" (tag_row true l) = [cx (c_Hdemag (l_cache l))] /\ values "Hdemagy" (tag_row true l) = [cy (c_Hdemag (l_cache l))] /\ values "Hdemagz" (tag_row true l) = [cz (c_Hdemag (l_cache l))] /\
  values "Hthx" (tag_row true l) = [cx (c_Hfluctuation (l_cache l))] /\ values "Hthy" (tag_row true l) = [cy (c_Hfluctuation (l_cache l))] /\ values "Hthz" (tag_row true l) = [cz (c_Hfluctuation (l_cache l))].
Proof. unfold tag_row. destruct (l_includeSOT l), (l_includeSTT l); repeat split. Qed.
Lemma layer_row_sot l : l_includeSOT l = true ->
  values "Hflx" (tag_row true l) = [cx (c_Hfl_v (l_cache l))] /\ values "Hfly" (tag_row true l) = [cy (c_Hfl_v (l_cache l))] /\ values "Hflz" (tag_row true l) = [cz (c_Hfl_v (l_cache l))] /\
  values "Hdlx" (tag_row true l) = [cx (c_Hdl_v (l_cache l))] /\ values "Hdly" (tag_row true l) = [cy (c_Hdl_v (l_cache l))] /\ values "Hdlz" (tag_row true l) = [cz (c_Hdl_v (l_cache l))].
Proof. intros H. unfold tag_row. rewrite H. destruct (l_includeSTT l); repeat split. Qed.
Lemma static_includeSOT l l' : static l l' -> l_includeSOT l' = l_includeSOT l.
Proof. intros H. apply (static_fields _ _ H). Qed.
Lemma traj_fluctuation r dt s N k p l lk : (forall q x, nth_error (j_layers (s 0%nat)) q = Some x -> stepped r q) -> trajectory r dt s N -> (k <= N)%nat -> nth_error (j_layers (s 0%nat)) p = Some l ->
  nth_error (j_layers (s k)) p = Some lk -> c_Hfluctuation (l_cache lk) = c_Hfluctuation (l_cache l).
Proof.
  intros HS HT. revert lk. induction k as [|k IH]; intros lk Hk Hl Hlk; [congruence|].
  destruct (step_static _ _ _ _ _ (HT k ltac:(lia))) as (_ & L & _).
  destruct (nth_error_same_length _ _ p lk (eq_sym L) Hlk) as [x Hx].
  destruct (step_remembers _ _ _ _ _ (HT k ltac:(lia))) as [ps HP].
  destruct (HP p x lk (HS _ _ Hl) Hx Hlk) as (q & b & top & _ & (_ & _ & _ & HF & _)). rewrite HF. apply IH; [lia|exact Hl|exact Hx].
Qed.
Lemma run_remembers T dt wf mode j j' p l : named j -> runSimulation T dt wf true mode j = (j', Ok tt) ->
  nth_error (j_layers j) p = Some l ->
  exists N w j0 r used cs, step_counts T dt wf N w /\ selects mode N j j0 r used /\ length cs = rows_needed N w /\
    logged_columns (l_id l) (l_includeSOT l) (j_log j) (j_log j') cs /\
    forall k c, nth_error cs k = Some c ->
      c_Hfluctuation c = c_Hfluctuation (l_cache l) /\
      exists q b top c0, remembers l (last_evaluation r (INR (k * w) * dt) dt) q b top (Some (dipole_total l b top)) c0 c.
Proof.
  intros HN E Hl. destruct (run_columns _ _ _ _ _ _ _ HN E) as (N & w & j0 & r & used & s & HC & HS & H0 & Htr & Hw & Ej & Htime & HL).
  assert (HK : forall k, (k < rows_needed N w)%nat -> (S (k * w) <= N)%nat).
  { intros k Hk. exact (row_in_run N w k Hw Hk). }
  exists N, w, j0, r, used, (map (fun k => l_cache (layer_at s p (S (k * w)) l)) (seq 0 (rows_needed N w))).
  split; [exact HC|]. split; [exact HS|]. split; [rewrite map_length, seq_length; reflexivity|].
  split.
  - assert (G : forall tag f, us tag = 0%nat -> (forall k, (k < rows_needed N w)%nat -> values tag (tag_row true (layer_at s p (S (k * w)) l)) = [f (l_cache (layer_at s p (S (k * w)) l))]) ->
      col (colname (l_id l) tag) (j_log j') = (col (colname (l_id l) tag) (j_log j) ++ map f (map (fun k => l_cache (layer_at s p (S (k * w)) l)) (seq 0 (rows_needed N w))))%list).
    { intros tag f U HV. rewrite (HL p l Hl tag U). f_equal. apply flat_map_single; [rewrite !map_length; reflexivity|]. intros k x y Hx Hy.
      assert (Hin : In x (seq 0 (rows_needed N w))) by (eapply nth_error_In; exact Hx). apply in_seq in Hin.
      rewrite map_map, nth_error_map, Hx in Hy. injection Hy as <-. apply HV. lia. }
    unfold logged_columns. cbv zeta.
    repeat match goal with |- _ /\ _ => split end; try (apply G; [reflexivity|]; intros k _; apply layer_row_values).
    intros SOT. repeat match goal with |- _ /\ _ => split end; (apply G; [reflexivity|]; intros k Hk; apply layer_row_sot;
      destruct (layer_at_static _ _ _ _ _ _ _ _ _ _ _ HS H0 Htr Hl (HK k Hk)) as [_ HSt]; rewrite (static_includeSOT _ _ HSt);
      destruct (prepared_fields l) as (_ & D & _); congruence).
  - intros k c Hc. assert (Hk : (k < rows_needed N w)%nat).
    { assert (X : nth_error (map (fun k => l_cache (layer_at s p (S (k * w)) l)) (seq 0 (rows_needed N w))) k <> None) by congruence.
      apply nth_error_Some in X. rewrite map_length, seq_length in X. exact X. }
    rewrite nth_error_map_seq in Hc by exact Hk. injection Hc as <-.
    assert (Hk' := HK k Hk).
    destruct (layer_at_static _ _ _ _ _ _ _ _ _ _ _ HS H0 Htr Hl Hk') as [H2 _].
    assert (Hk0 : (k * w <= N)%nat) by lia.
    destruct (layer_at_static _ _ _ _ _ _ _ _ _ _ _ HS H0 Htr Hl Hk0) as [H1 HSt].
    assert (HP0 : nth_error (j_layers j0) p = Some (prepared l)).
    { destruct HS as (_ & -> & _). cbn [j_layers set_j_layers]. rewrite nth_error_map, Hl. reflexivity. }
    assert (Hs : forall q x, nth_error (j_layers (s 0%nat)) q = Some x -> stepped r q).
    { intros q x Hq. rewrite H0 in Hq. exact (selects_stepped _ _ _ _ _ _ _ _ HS Hq). }
    split.
    + rewrite <- H0 in HP0. rewrite (traj_fluctuation r dt s N _ p _ _ Hs Htr Hk' HP0 H2). rewrite prepared_cache. reflexivity.
    + destruct (step_remembers _ _ _ _ _ (Htr (k * w)%nat ltac:(lia))) as [ps HP].
      destruct (HP p _ _ ltac:(rewrite <- H0 in HP0; exact (Hs _ _ HP0)) H1 H2) as (q & b & top & _ & HR).
      apply (remembers_static _ _ _ _ _ _ _ _ _ HSt) in HR. rewrite (dipole_static _ _ _ _ HSt), dipole_prepared in HR.
      apply (proj1 (remembers_prepared _ _ _ _ _ _ _ _)) in HR. exists q, b, top, (l_cache (layer_at s p (k * w) l)). exact HR.
Qed.
(** The anisotropy, coupling and external-field columns are driver values at that time. *)
Lemma run_driver_columns T dt wf mode j j' p l : named j -> runSimulation T dt wf true mode j = (j', Ok tt) ->
  nth_error (j_layers j) p = Some l ->
  exists N w j0 r used Ks Hs, step_counts T dt wf N w /\ selects mode N j j0 r used /\
    length Ks = rows_needed N w /\ length Hs = rows_needed N w /\
    col (colname (l_id l) "K") (j_log j') = (col (colname (l_id l) "K") (j_log j) ++ Ks)%list /\
    col (colname (l_id l) "Hextx") (j_log j') = (col (colname (l_id l) "Hextx") (j_log j) ++ map cx Hs)%list /\
    (forall k K, nth_error Ks k = Some K -> getCurrentScalarValue (l_anisotropy l) (last_evaluation r (INR (k * w) * dt) dt) = Ok K) /\
    (forall k H, nth_error Hs k = Some H -> getCurrentAxialDrivers (l_external l) (last_evaluation r (INR (k * w) * dt) dt) = Ok H).
Proof.
  intros HN E Hl. destruct (run_remembers _ _ _ _ _ _ _ _ HN E Hl) as (N & w & j0 & r & used & cs & HC & HS & HLn & HCol & HR).
  exists N, w, j0, r, used, (map c_K_log cs), (map c_Hext cs). rewrite !map_length.
  split; [exact HC|]. split; [exact HS|]. split; [exact HLn|]. split; [exact HLn|].
  destruct HCol as (A & _ & _ & (B & _) & _). split; [exact A|]. split; [rewrite map_map; exact B|]. split.
  - intros k K HK. rewrite nth_error_map in HK. destruct (nth_error cs k) as [c|] eqn:Ec; [|discriminate]. injection HK as <-.
    destruct (HR k c Ec) as (_ & q & b & top & c0 & ((i & Hi & Q) & _)). destruct Q as (_ & _ & _ & _ & _ & -> & _). apply Hi.
  - intros k H HK. rewrite nth_error_map in HK. destruct (nth_error cs k) as [c|] eqn:Ec; [|discriminate]. injection HK as <-.
    destruct (HR k c Ec) as (_ & q & b & top & c0 & ((i & Hi & Q) & _)). destruct Q as (-> & _). apply Hi.
Qed.
Lemma step_counts_unique T dt wf N w N' w' : step_counts T dt wf N w -> step_counts T dt wf N' w' -> N' = N /\ w' = w.
Proof.
  intros (_ & _ & A & B & C & D) (_ & _ & A' & B' & _).
  assert (X1 := proj2 (to_unsigned_iff _ N) (conj A C)). assert (X2 := proj2 (to_unsigned_iff _ N') (conj A' C)).
  assert (Y1 := proj2 (to_unsigned_iff _ w) (conj B D)). assert (Y2 := proj2 (to_unsigned_iff _ w') (conj B' D)). split; congruence.
Qed.
(** Layers whose fluctuation field starts at zero log zeros in the thermal columns whatever the temperature. *)
Lemma run_thermal_zero T dt wf mode j j' p l : named j -> runSimulation T dt wf true mode j = (j', Ok tt) ->
  nth_error (j_layers j) p = Some l -> c_Hfluctuation (l_cache l) = Zero ->
  exists n, j_logLength j' = (j_logLength j + n)%nat /\
    forall tag, In tag ["Hthx"; "Hthy"; "Hthz"]%string ->
    col (colname (l_id l) tag) (j_log j') = (col (colname (l_id l) tag) (j_log j) ++ repeat 0 n)%list.
Proof.
  intros HN E Hl HZ. destruct (run_grid _ _ _ _ _ _ _ HN E) as (N & w & HC & _ & HLen & _).
  destruct (run_remembers _ _ _ _ _ _ _ _ HN E Hl) as (N' & w' & j0 & r & used & cs & HC' & HS & HLn & HCol & HR).
  assert (EN := step_counts_unique _ _ _ _ _ _ _ HC HC').
  destruct EN as [-> ->]. exists (rows_needed N w). split; [exact HLen|].
  assert (G : forall f, f Zero = 0 -> map (fun c => f (c_Hfluctuation c)) cs = repeat 0 (rows_needed N w)).
  { intros f Hf0. rewrite <- HLn. clear HLn HCol. revert HR. generalize w. induction cs as [|c cs IH]; intros v HR; [reflexivity|]. cbn [map repeat length]. f_equal.
    - destruct (HR 0%nat c eq_refl) as [-> _]. rewrite HZ. exact Hf0.
    - apply nth_error_ext_len; [rewrite repeat_length, map_length; reflexivity|]. intros k x y Hx Hy.
      rewrite nth_error_map in Hx. destruct (nth_error cs k) as [d|] eqn:Ed; [|discriminate]. injection Hx as <-.
      destruct (HR (S k) d Ed) as [-> _]. rewrite HZ, Hf0. apply nth_error_In, repeat_spec in Hy. congruence. }
  destruct HCol as (_ & _ & _ & _ & _ & _ & _ & (A & B & C) & _).
  intros tag [<-|[<-|[<-|[]]]]; [rewrite A|rewrite B|rewrite C]; f_equal; apply G; reflexivity.
Qed.
(** A layer whose anisotropy is switched on after the first time point. *)
Definition ex_switch : layer := set_l_anisotropy (SD step 0 5 (-1) (-1) (-1) (-1) (1 / 2) 100 (-1) (-1)) (ex_layer "free" (CV 1 0 0)).
Definition ex_switch_junction : junction := JN MR_NONE [ex_switch] 0 0 [] [] [] [] [] [] [] [] 0 "R".
Lemma ex_switch_named : named ex_switch_junction.
Proof. split; [exact I|]. split; [discriminate|]. cbn. constructor; [intros []|constructor]. Qed.
Lemma ex_switch_runs : exists j', runSimulation 1 1 1 true RK4 ex_switch_junction = (j', Ok tt).
Proof.
  apply (run_exists _ _ _ _ _ _ 1 1); [lra|discriminate|discriminate| |lia|].
  - repeat split; try lra; left; cbn; lra.
  - intros l [<-|[]]. split; [|split; [reflexivity|discriminate]]. intros t m1 b top. apply plain_total; try reflexivity; try (cbn; lra).
    intros s. eexists (FI Zero Zero Zero Zero _ 0 0 0 0 Zero Zero). repeat split.
Qed.
Lemma logged_late : exists j j', Junction_plain [ex_switch] = Ok j /\ runSimulation 1 1 1 true RK4 j = (j', Ok tt) /\
  col "time" (j_log j') = [0] /\ getCurrentScalarValue (l_anisotropy ex_switch) 0 = Ok 0 /\ col "free_K" (j_log j') = [5].
Proof.
  destruct ex_switch_runs as [j' E]. exists ex_switch_junction, j'. split; [reflexivity|]. split; [exact E|].
  destruct (run_grid _ _ _ _ _ _ _ ex_switch_named E) as (N & w & HC & _ & _ & HT & _).
  destruct (run_driver_columns _ _ _ _ _ _ 0 ex_switch ex_switch_named E eq_refl) as (N' & w' & j0 & r & used & Ks & Hs & HC' & HS & HLK & _ & HK & _ & HV & _).
  assert (C1 : step_counts 1 1 1 1 1) by (repeat split; try lra; left; cbn; lra).
  destruct (step_counts_unique _ _ _ _ _ _ _ C1 HC) as [-> ->]. destruct (step_counts_unique _ _ _ _ _ _ _ C1 HC') as [-> ->].
  split. { rewrite HT. cbn. f_equal. ring. }
  split. { cbn. unfold stepUpdate. destruct (Rle_dec (1 / 2) 0); [lra|]. f_equal. ring. }
  change (col "free_K" (j_log j') = [5]). change (colname (l_id ex_switch) "K") with "free_K"%string in HK. rewrite HK. cbn [j_log ex_switch_junction].
  cbn in HLK. destruct Ks as [|K [|? ?]]; try discriminate. specialize (HV 0%nat K eq_refl).
  assert (Er : r = RunSingle).
  { destruct HS as (_ & _ & [_ M] & ->). rewrite M; [reflexivity|]. intros (l & [<-|[]] & [X|X]); [discriminate|]. apply X. reflexivity. }
  subst r. cbn in HV. unfold stepUpdate in HV.
  destruct (Rle_dec (1 / 2) (0 * 1 + 1)) as [_|X]; [|lra]. destruct (Rle_dec (0 * 1 + 1) 100) as [_|X]; [|lra].
  injection HV as <-. cbn. f_equal. ring.
Qed.
