(** Stacks: coupling, one step, setters. *)
From Verif Require Export S_Stack P_Ctor P_Drivers.
Open Scope R_scope.
Open Scope st_scope.

(** ** Resistance laws *)
Lemma fold_plus xs : forall a, fold_left Rplus xs a = a + Total xs.
Proof. induction xs as [|x xs IH]; intros a; cbn; [ring|]. rewrite IH. unfold Total. ring. Qed.
Lemma sum_inverses_iff rs : forall a v, sum_inverses rs a = Ok v <-> (forall x, In x rs -> x <> 0) /\ v = a + fold_right (fun x y => / x + y) 0 rs.
Proof.
  induction rs as [|x rs IH]; intros a v; cbn [sum_inverses fold_right].
  - split; [intros H; injection H as <-; split; [intros ? []|ring]|intros [_ ->]; f_equal; ring].
  - unfold fdiv. destruct (Req_EM_T x 0) as [E|E]; cbn [rbind].
    + split; [discriminate|]. intros [H _]. exfalso. exact (H x (or_introl eq_refl) E).
    + rewrite IH. split.
      * intros [H ->]. split; [intros y [<-|Hy]; [exact E|exact (H y Hy)]|]. unfold Rdiv. ring.
      * intros [H ->]. split; [intros y Hy; apply H; right; exact Hy|]. unfold Rdiv. ring.
Qed.
Lemma stack_resistance_iff k rs r : calculateStackResistance k rs = Ok r <-> stack_resistance k rs r.
Proof.
  destruct k; cbn [calculateStackResistance stack_resistance].
  - rewrite fold_plus, Rplus_0_l. split; [intros H; injection H as <-; reflexivity|intros ->; reflexivity].
  - unfold ParallelOf. split.
    + intros E. apply rbind_inv in E. destruct E as (v & E1 & E2). apply sum_inverses_iff in E1. destruct E1 as [H ->].
      rewrite Rplus_0_l in E2. apply fdiv_inv in E2. destruct E2 as [H2 ->]. split; [exact H|]. split; [exact H2|]. unfold Rdiv. ring.
    + intros (H & H2 & ->). rewrite (proj2 (sum_inverses_iff rs 0 _) (conj H eq_refl)). cbn [rbind]. rewrite Rplus_0_l, fdiv_ok by exact H2.
      f_equal. unfold Rdiv. ring.
Qed.
Lemma Total_nonneg xs : (forall x, In x xs -> 0 < x) -> 0 <= Total xs.
Proof.
  induction xs as [|x xs IH]; intros H; cbn; [lra|]. assert (0 < x) by (apply H; left; reflexivity).
  assert (0 <= Total xs) by (apply IH; intros; apply H; right; assumption). unfold Total in *. lra.
Qed.
Lemma series_above xs : (forall x, In x xs -> 0 < x) -> forall x, In x xs -> x <= Total xs.
Proof.
  induction xs as [|a xs IH]; intros H x Hx; [destruct Hx|destruct Hx as [<-|Hx]]; cbn.
  - assert (0 <= Total xs) by (apply Total_nonneg; intros; apply H; right; assumption). unfold Total in *. lra.
  - assert (0 < a) by (apply H; left; reflexivity).
    assert (x <= Total xs) by (apply IH; [intros; apply H; right|]; assumption). unfold Total in *. lra.
Qed.

(** ** Coupling strength *)
Lemma getCoupling_iff s i c : getCoupling s i = Ok c <-> coupling_at s i c.
Proof.
  unfold getCoupling, coupling_at. destruct (s_coupling s) as [|a [|b cs]].
  - split; [discriminate|]. intros [H|[H _]]; [discriminate|cbn in H; lia].
  - split; [intros H; injection H as <-; left; reflexivity|]. intros [H|[H _]]; [congruence|cbn in H; lia].
  - destruct (nth_error (a :: b :: cs) i) eqn:E; split.
    + intros H. right. split; [cbn; lia|congruence].
    + intros [H|[_ H]]; congruence.
    + discriminate.
    + intros [H|[_ H]]; congruence.
Qed.
Lemma top_iff s j m : getLayerMagnetisation j (s_top s) = Ok m <-> top_mag s j m.
Proof. apply getMag_iff. Qed.
Lemma bottom_iff s j m : getLayerMagnetisation j (s_bottom s) = Ok m <-> bottom_mag s j m.
Proof. apply getMag_iff. Qed.
Lemma first_unique id j l k : first_with id j l -> first_with id j k -> l = k.
Proof. intros A B. apply getLayer_iff in A, B. congruence. Qed.
Lemma veqb_iff a b : veqb a b = true <-> a = b.
Proof.
  unfold veqb. destruct a as [a1 a2 a3], b as [b1 b2 b3]. cbn [cx cy cz].
  destruct (Req_EM_T a1 b1), (Req_EM_T a2 b2), (Req_EM_T a3 b3); cbn; split; try discriminate; try congruence;
  intros H; injection H; congruence.
Qed.
Lemma same_pol_iff id p js : same_polarisation id p js = Ok tt <-> forall j, In j js -> exists l, first_with id j l /\ l_reference l = p.
Proof.
  induction js as [|j js IH]; cbn [same_polarisation]; [split; [intros _ ? []|reflexivity]|]. split.
  - intros E. apply rbind_inv in E. destruct E as (l & El & E). apply getLayer_iff in El. destruct (veqb p (l_reference l)) eqn:Ev; [|discriminate].
    apply veqb_iff in Ev. intros k [<-|Hk]; [exists l; split; [exact El|congruence]|]. apply (proj1 IH); assumption.
  - intros H. destruct (H j (or_introl eq_refl)) as (l & Hl & Hr). apply getLayer_iff in Hl. rewrite Hl. cbn [rbind].
    rewrite (proj2 (veqb_iff p (l_reference l)) (eq_sym Hr)). apply IH. intros k Hk. apply H. right. exact Hk.
Qed.
Lemma polarisation_iff s p : getPolarisationVector s = Ok p <-> shared_reference s p.
Proof.
  unfold getPolarisationVector, shared_reference. destruct (s_js s) as [|j js].
  - split; [discriminate|]. intros (_ & H & _). contradiction.
  - split.
    + intros E. apply rbind_inv in E. destruct E as (l & El & E). apply rbind_inv in E. destruct E as ([] & Es & E).
      destruct (Req_EM_T (vlength (l_reference l)) 0) as [Z|Z]; [discriminate|]. injection E as <-.
      split; [intros X; apply Z, zero_length, X|]. split; [discriminate|]. intros k [<-|Hk].
      * exists l. split; [apply getLayer_iff, El|reflexivity].
      * exact (proj1 (same_pol_iff _ _ _) Es k Hk).
    + intros (Hp & _ & H). destruct (H j (or_introl eq_refl)) as (l & Hl & Hr). apply getLayer_iff in Hl. rewrite Hl. cbn [rbind].
      rewrite (proj2 (same_pol_iff (s_top s) (l_reference l) js)) by (rewrite Hr; intros k Hk; apply H; right; exact Hk). cbn [rbind].
      destruct (Req_EM_T (vlength (l_reference l)) 0) as [Z|Z]; [exfalso; apply Hp; rewrite <- Hr; apply zero_length, Z|]. congruence.
Qed.
Lemma two_true js : two_layer_members js = Ok true <-> bilayers js.
Proof.
  unfold bilayers. induction js as [|j js IH]; cbn [two_layer_members]; [split; [intros _ ? []|reflexivity]|].
  destruct (Nat.leb_spec 3 (layerNo j)) as [H|H].
  - split; [discriminate|]. intros X. specialize (X j (or_introl eq_refl)). lia.
  - destruct (Nat.eqb_spec (layerNo j) 2) as [E|E]; cbn [negb].
    + rewrite IH. split; [intros X k [<-|Hk]; [exact E|exact (X k Hk)]|intros X k Hk; apply X; right; exact Hk].
    + split; [discriminate|]. intros X. specialize (X j (or_introl eq_refl)). contradiction.
Qed.
Lemma two_iff js two : two_layer_members js = Ok two <-> two_members js two.
Proof.
  unfold two_members. destruct two.
  - rewrite two_true. split; [auto|intros [[_ H]|[H _]]; [exact H|discriminate]].
  - split.
    + intros E. right. split; [reflexivity|]. induction js as [|j js IH]; cbn [two_layer_members] in E; [discriminate|].
      destruct (Nat.leb_spec 3 (layerNo j)) as [H|H]; [discriminate|]. destruct (Nat.eqb_spec (layerNo j) 2) as [E2|E2]; cbn [negb] in E.
      * destruct (IH E) as (k & i & H1 & H2 & H3). exists (S k), i. split; [exact H1|]. split; [exact H2|].
        intros [|q] x Hq Hx; cbn in Hx; [congruence|]. apply (H3 q); [lia|exact Hx].
      * exists 0%nat, j. split; [reflexivity|]. split; [lia|]. intros q x Hq. lia.
    + intros [[H _]|[_ H]]; [discriminate|]. destruct H as (k & j & H1 & H2 & H3). revert k H1 H3. induction js as [|i js IH]; intros [|k] H1 H3; try discriminate.
      * cbn in H1. injection H1 as ->. cbn [two_layer_members]. destruct (Nat.leb_spec 3 (layerNo j)); [lia|].
        destruct (Nat.eqb_spec (layerNo j) 2); [lia|reflexivity].
      * assert (HI := H3 0%nat i ltac:(lia) eq_refl). cbn [two_layer_members]. rewrite HI. cbn. apply (IH k); [exact H1|].
        intros q x Hq Hx. apply (H3 (S q)); [lia|exact Hx].
Qed.
Lemma freeze_iff s two js fs : freeze s two js = Ok fs <->
  Forall2 (fun j f => top_mag s j (fst f) /\ polariser_of s two j (snd f)) js fs.
Proof.
  revert fs. induction js as [|j js IH]; intros fs; cbn [freeze].
  - split; [intros H; injection H as <-; constructor|intros H; inversion H; reflexivity].
  - split.
    + intros E. apply rbind_inv in E. destruct E as (m & Em & E). apply rbind_inv in E. destruct E as (p & Ep & E).
      apply rbind_inv in E. destruct E as (gs & Eg & E). injection E as <-. constructor; [|apply IH, Eg]. cbn [fst snd].
      split; [apply top_iff, Em|]. unfold polariser_of. destruct two; [apply bottom_iff, Ep|apply polarisation_iff, Ep].
    + intros H. inversion H as [|j' [m p] js' gs [Hm Hp] Hg]; subst. cbn [fst snd] in Hm, Hp.
      rewrite (proj2 (top_iff s j m) Hm). cbn [rbind].
      assert (Ep : (if two then getLayerMagnetisation j (s_bottom s) else getPolarisationVector s) = Ok p).
      { unfold polariser_of in Hp. destruct two; [apply bottom_iff, Hp|apply polarisation_iff, Hp]. }
      rewrite Ep. cbn [rbind]. rewrite (proj2 (IH gs) Hg). reflexivity.
Qed.
Definition sign_term (k : stack_kind) (a b : R) : R := match k with Series => a + b | Parallel => a - b end.
Lemma effective_iff s i m1 m2 p c : getEffectiveCouplingStrength s i m1 m2 p = Ok c <->
  exists k, coupling_at s i k /\ c = k * match s_kind s with Series => Dot m1 p + Dot m2 p | Parallel => Dot m1 p - Dot m2 p end.
Proof.
  unfold getEffectiveCouplingStrength. rewrite !c_dot_Dot. split.
  - intros E. apply rbind_inv in E. destruct E as (k & Ek & E). apply getCoupling_iff in Ek. injection E as <-. exists k. split; [exact Ek|].
    destruct (s_kind s); reflexivity.
  - intros (k & Hk & ->). rewrite (proj2 (getCoupling_iff s i k) Hk). cbn [rbind]. destruct (s_kind s); reflexivity.
Qed.
Lemma term_iff s i pj j pf f c : couplingTerm s i pj j pf f = Ok c <->
  exists k m1 m2 p, coupling_at s i k /\
    (if s_delayed s then m1 = fst pf /\ m2 = fst f /\ p = snd pf
     else top_mag s pj m1 /\ top_mag s j m2 /\ bottom_mag s pj p) /\
    c = k * match s_kind s with Series => Dot m1 p + Dot m2 p | Parallel => Dot m1 p - Dot m2 p end.
Proof.
  unfold couplingTerm. destruct (s_delayed s).
  - rewrite effective_iff. split; [intros (k & A & B); eauto 10|intros (k & m1 & m2 & p & A & (-> & -> & ->) & B); eauto].
  - split.
    + intros E. apply rbind_inv in E. destruct E as (m1 & E1 & E). apply rbind_inv in E. destruct E as (m2 & E2 & E).
      apply rbind_inv in E. destruct E as (p & E3 & E). apply effective_iff in E. destruct E as (k & A & B).
      exists k, m1, m2, p. split; [exact A|]. split; [|exact B]. split; [apply top_iff, E1|]. split; [apply top_iff, E2|apply bottom_iff, E3].
    + intros (k & m1 & m2 & p & A & (H1 & H2 & H3) & B). rewrite (proj2 (top_iff s pj m1) H1). cbn [rbind].
      rewrite (proj2 (top_iff s j m2) H2). cbn [rbind]. rewrite (proj2 (bottom_iff s pj p) H3). cbn [rbind]. apply effective_iff. eauto.
Qed.
Lemma mul_iff d k d' : driver_mul d k = Ok d' <-> constructible d /\ d' = driver_imul d k.
Proof.
  split.
  - intros E. assert (C : constructible d).
    { apply constructible_iff. apply (mk_ok_iff (d_update d) (d_const d * k) (d_amp d * k) (d_freq d) (d_phase d) (d_period d) (d_cycle d)
        (d_tstart d) (d_tstop d) (d_edge d) (d_steady d)). eexists. exact E. }
    split; [exact C|]. rewrite (mul_is_imul d k C) in E. congruence.
  - intros [C ->]. apply mul_is_imul, C.
Qed.
Lemma localDriver_iff s q e d : localDriver s q e = Ok d <-> constructible (s_current s) /\ d = rescaled (s_current s) e (phase_of s q).
Proof.
  unfold localDriver. split.
  - intros E. apply rbind_inv in E. destruct E as (d1 & E1 & E). apply mul_iff in E1. destruct E1 as [C ->]. injection E as <-. split; [exact C|].
    unfold rescaled, phaseShift, driver_imul, phase_of, getPhaseOffset. reflexivity.
  - intros [C ->]. rewrite (proj2 (mul_iff _ e _) (conj C eq_refl)). reflexivity.
Qed.

(** ** One member *)
Definition member_ok (r : runner) (t dt : R) (d : sdriver) (j j' : junction) (rc : R * R) : Prop :=
  j_layers j <> [] /\ run_runner r t dt (with_current d j) = (j', Ok tt) /\
  member_resistance j' (fst rc) /\ getCurrentScalarValue d t = Ok (snd rc).
Lemma setter_all {f : ST layer unit} {h : layer -> layer} (Hf : forall l, f l = (h l, Ok tt)) ls :
  setter_loop "all" f ls = (map h ls, Ok (match ls with [] => false | _ => true end)).
Proof.
  induction ls as [|l ls IH]; [reflexivity|]. cbn [setter_loop]. rewrite orb_true_r, Hf, IH. cbn [map]. reflexivity.
Qed.
Lemma layerSetter_all {f : ST layer unit} {h : layer -> layer} (Hf : forall l, f l = (h l, Ok tt)) j :
  layerSetter "all" f j = (set_j_layers (map h (j_layers j)) j,
    match j_layers j with [] => Err (Throw "Failed to find a layer with a given id") | _ => Ok tt end).
Proof. unfold layerSetter. rewrite (setter_all Hf). destruct (j_layers j); reflexivity. Qed.
Lemma set_current_all d j : setLayerCurrentDriver "all" d j = (with_current d j,
    match j_layers j with [] => Err (Throw "Failed to find a layer with a given id") | _ => Ok tt end).
Proof. unfold setLayerCurrentDriver, with_current. apply layerSetter_all. reflexivity. Qed.
Lemma member_resistance_iff j x : j_mode j = MR_CLASSIC ->
  ((exists rs, getMagnetoresistance j = Ok rs /\ match rs with y :: _ => Ok y | [] => Err Undefined end = Ok x) <-> member_resistance j x).
Proof.
  intros HM. unfold getMagnetoresistance, member_resistance. rewrite HM. destruct (j_layers j) as [|l0 [|l1 [|l2 rest]]].
  - split; [intros (rs & H & _); discriminate|intros [_ []]].
  - rewrite gmr_eq, c_dot_Dot. split; [intros (rs & H & H2); injection H as <-; injection H2 as <-; split; reflexivity|intros [_ ->]; eauto].
  - rewrite gmr_eq, c_dot_Dot. split; [intros (rs & H & H2); injection H as <-; injection H2 as <-; split; reflexivity|intros [_ ->]; eauto].
  - split; [intros (rs & H & _); discriminate|intros [_ []]].
Qed.
Lemma runner_mode r t dt j j' : run_runner r t dt j = (j', Ok tt) -> j_mode j' = j_mode j /\ layerNo j' = layerNo j.
Proof. intros E. apply step_static in E. destruct E as (X & HL & _). split; [rewrite X; reflexivity|exact HL]. Qed.
Lemma with_current_layers d j : layerNo (with_current d j) = layerNo j.
Proof. unfold layerNo, with_current. cbn. apply map_length. Qed.
Lemma member_iff2 r t dt d j j' rc : j_mode j = MR_CLASSIC ->
  (member_step r t dt d j = (j', Ok rc) <-> member_ok r t dt d j j' rc).
Proof.
  intros HM. unfold member_step, member_ok, bind at 1. rewrite set_current_all. destruct (j_layers j) as [|l ls] eqn:EL.
  - split; [discriminate|]. intros [H _]. contradiction.
  - assert (HW : j_mode (with_current d j) = MR_CLASSIC) by exact HM. split.
    + intros E. split; [discriminate|]. apply bind_inv in E. destruct E as (j1 & [] & E0 & E). destruct (runner_mode _ _ _ _ _ E0) as [HM' _]. rewrite HW in HM'.
      apply bind_inv in E. destruct E as (j2 & j3 & E1 & E). apply get_inv in E1. destruct E1 as [-> <-].
      apply bind_inv in E. destruct E as (j4 & rs & E1 & E). apply lift_inv in E1. destruct E1 as [-> E1].
      apply bind_inv in E. destruct E as (j5 & r0 & E2 & E). apply lift_inv in E2. destruct E2 as [-> E2].
      apply bind_inv in E. destruct E as (j6 & c & E3 & E). apply lift_inv in E3. destruct E3 as [-> E3].
      apply ret_inv in E. destruct E as [-> ->]. split; [exact E0|]. split; [|exact E3].
      apply member_resistance_iff; eauto.
    + intros (_ & H1 & H2 & H3). destruct (runner_mode _ _ _ _ _ H1) as [HM' _]. rewrite HW in HM'.
      apply (member_resistance_iff j' (fst rc) HM') in H2. destruct H2 as (rs & A & B).
      unfold bind. rewrite H1. unfold get, lift. rewrite A, B, H3. unfold ret. destruct rc; reflexivity.
Qed.

(** ** All members *)
Lemma couplingTerm_order s i k pj j pf f : i = k -> couplingTerm s i pj j pf f = couplingTerm s k pj j pf f.
Proof. intros ->. reflexivity. Qed.
Lemma factor_0 terms : factor terms 0 = 1.
Proof. reflexivity. Qed.
Lemma factor_cons c terms q : factor (c :: terms) (S q) = (1 + c) * factor terms q.
Proof. reflexivity. Qed.
Definition loop_ok s r t dt order eff pj0 (pf0 : cvec * cvec) frozen js js' rcs terms : Prop :=
  length js' = length js /\ length rcs = length js /\ length terms = length js /\
  (forall i c pj j pf f, nth_error terms i = Some c -> nth_error (pj0 :: js') i = Some pj -> nth_error js i = Some j ->
     nth_error (pf0 :: frozen) i = Some pf -> nth_error frozen i = Some f -> couplingTerm s (order + i) pj j pf f = Ok c) /\
  (js <> [] -> constructible (s_current s)) /\
  forall q j j' rc, nth_error js q = Some j -> nth_error js' q = Some j' -> nth_error rcs q = Some rc ->
    member_ok r t dt (rescaled (s_current s) (eff * factor terms (S q)) (phase_of s (S (order + q)))) j j' rc.
Lemma loop_sound s r t dt js : forall order eff pj0 pf0 frozen js' rcs, classic_members js ->
  stack_loop s r t dt (S order) eff (Some (pj0, pf0)) frozen js = (js', Ok rcs) ->
  exists terms, loop_ok s r t dt order eff pj0 pf0 frozen js js' rcs terms.
Proof.
  induction js as [|j js IH]; intros order eff pj0 pf0 frozen js' rcs HC E; cbn [stack_loop] in E.
  - destruct frozen; injection E as <- <-; exists []; (split; [reflexivity|]; split; [reflexivity|]; split; [reflexivity|]; split;
      [intros [|i]; discriminate|]; split; [congruence|intros [|q]; discriminate]).
  - destruct frozen as [|f frozen]; [discriminate|]. cbn [stack_loop] in E. replace (S order - 1)%nat with order in E by lia.
    destruct (couplingTerm s order pj0 j pf0 f) as [c|] eqn:Ec; cbn [rbind] in E; [|discriminate].
    destruct (localDriver s (S order) (eff * (1 + c))) as [d|] eqn:Ed; [|discriminate]. apply localDriver_iff in Ed. destruct Ed as [Hc ->].
    destruct (member_step _ _ _ _ j) as [j1 [rc|]] eqn:Em; [|discriminate].
    apply member_iff2 in Em; [|exact (HC j (or_introl eq_refl))].
    destruct (stack_loop _ _ _ _ _ _ _ _ js) as [rest' [rcs'|]] eqn:El; [|discriminate]. injection E as <- <-.
    apply IH in El; [|intros k Hk; apply HC; right; exact Hk]. destruct El as (terms & L1 & L2 & L3 & HT & _ & HM).
    exists (c :: terms). split; [cbn; congruence|]. split; [cbn; congruence|]. split; [cbn; congruence|]. split; [|split; [intros _; exact Hc|]].
    + intros [|i] c0 pj j0 pf f0 H1 H2 H3 H4 H5; cbn [nth_error] in *.
      * injection H1 as <-. injection H2 as <-. injection H3 as <-. injection H4 as <-. injection H5 as <-. rewrite Nat.add_0_r. exact Ec.
      * rewrite (couplingTerm_order s _ (S order + i)) by lia. exact (HT i c0 pj j0 pf f0 H1 H2 H3 H4 H5).
    + intros [|q] j0 j' rc0 H1 H2 H3; cbn [nth_error] in *.
      * injection H1 as <-. injection H2 as <-. injection H3 as <-. rewrite factor_cons, factor_0, Rmult_1_r, Nat.add_0_r. exact Em.
      * rewrite factor_cons, <- Rmult_assoc. rewrite <- Nat.add_succ_comm. exact (HM q j0 j' rc0 H1 H2 H3).
Qed.
Lemma loop_complete s r t dt js : forall order eff pj0 pf0 frozen js' rcs terms, classic_members js -> length frozen = length js ->
  loop_ok s r t dt order eff pj0 pf0 frozen js js' rcs terms ->
  stack_loop s r t dt (S order) eff (Some (pj0, pf0)) frozen js = (js', Ok rcs).
Proof.
  induction js as [|j js IH]; intros order eff pj0 pf0 frozen js' rcs terms HC HF (L1 & L2 & L3 & HT & Hc & HM).
  - destruct js'; [|discriminate]. destruct rcs; [|discriminate]. destruct frozen; reflexivity.
  - destruct frozen as [|f frozen]; [discriminate|]. destruct js' as [|j1 js']; [discriminate|]. destruct rcs as [|rc rcs]; [discriminate|].
    destruct terms as [|c terms]; [discriminate|]. cbn [stack_loop]. replace (S order - 1)%nat with order by lia.
    assert (Ec := HT 0%nat c pj0 j pf0 f eq_refl eq_refl eq_refl eq_refl eq_refl). rewrite Nat.add_0_r in Ec. rewrite Ec. cbn [rbind].
    rewrite (proj2 (localDriver_iff s (S order) (eff * (1 + c)) _) (conj (Hc ltac:(discriminate)) eq_refl)).
    assert (Em := HM 0%nat j j1 rc eq_refl eq_refl eq_refl). rewrite factor_cons, factor_0, Rmult_1_r, Nat.add_0_r in Em.
    apply member_iff2 in Em; [|exact (HC j (or_introl eq_refl))]. rewrite Em.
    rewrite (IH (S order) (eff * (1 + c)) j1 f frozen js' rcs terms); [reflexivity| | |].
    + intros k Hk. apply HC. right. exact Hk.
    + cbn in HF. congruence.
    + split; [cbn in *; congruence|]. split; [cbn in *; congruence|]. split; [cbn in *; congruence|]. split; [|split].
      * intros i c0 pj j0 pf f0 H1 H2 H3 H4 H5. rewrite (couplingTerm_order s _ (order + S i)) by lia.
        exact (HT (S i) c0 pj j0 pf f0 H1 H2 H3 H4 H5).
      * intros _. apply Hc. discriminate.
      * intros q j0 j' rc0 H1 H2 H3. specialize (HM (S q) j0 j' rc0 H1 H2 H3). rewrite factor_cons, <- Rmult_assoc, <- Nat.add_succ_comm in HM. exact HM.
Qed.
(** The whole loop, starting with the first member. *)
Definition members_ok s r t dt frozen js js' rcs terms : Prop :=
  length js' = length js /\ length rcs = length js /\ length terms = (length js - 1)%nat /\
  (forall i c pj j pf f, nth_error terms i = Some c -> nth_error js' i = Some pj -> nth_error js (S i) = Some j ->
     nth_error frozen i = Some pf -> nth_error frozen (S i) = Some f -> couplingTerm s i pj j pf f = Ok c) /\
  constructible (s_current s) /\
  forall q j j' rc, nth_error js q = Some j -> nth_error js' q = Some j' -> nth_error rcs q = Some rc ->
    member_ok r t dt (rescaled (s_current s) (factor terms q) (phase_of s q)) j j' rc.
Lemma members_iff s r t dt frozen js js' rcs : classic_members js -> js <> [] -> length frozen = length js ->
  (stack_loop s r t dt 0 1 None frozen js = (js', Ok rcs) <-> exists terms, members_ok s r t dt frozen js js' rcs terms).
Proof.
  intros HC HN HF. destruct js as [|j js]; [contradiction|]. destruct frozen as [|f frozen]; [discriminate|].
  assert (HC1 : classic_members js) by (intros k Hk; apply HC; right; exact Hk). cbn [stack_loop]. split.
  - intros E. destruct (localDriver s 0 1) as [d|] eqn:Ed; [|discriminate]. apply localDriver_iff in Ed. destruct Ed as [Hc ->].
    destruct (member_step _ _ _ _ j) as [j1 [rc|]] eqn:Em; [|discriminate].
    apply member_iff2 in Em; [|exact (HC j (or_introl eq_refl))].
    destruct (stack_loop _ _ _ _ _ _ _ _ js) as [rest' [rcs'|]] eqn:El; [|discriminate]. injection E as <- <-.
    apply loop_sound in El; [|exact HC1]. destruct El as (terms & L1 & L2 & L3 & HT & _ & HM). exists terms.
    split; [cbn; congruence|]. split; [cbn; congruence|]. split; [cbn; lia|]. split; [|split; [exact Hc|]].
    + intros i c pj j0 pf f0 H1 H2 H3 H4 H5. exact (HT i c pj j0 pf f0 H1 H2 H3 H4 H5).
    + intros [|q] j0 j' rc0 H1 H2 H3; cbn [nth_error] in *.
      * injection H1 as <-. injection H2 as <-. injection H3 as <-. exact Em.
      * specialize (HM q j0 j' rc0 H1 H2 H3). rewrite Rmult_1_l in HM. exact HM.
  - intros (terms & L1 & L2 & L3 & HT & Hc & HM). destruct js' as [|j1 js']; [discriminate|]. destruct rcs as [|rc rcs]; [discriminate|].
    rewrite (proj2 (localDriver_iff s 0 1 _) (conj Hc eq_refl)).
    assert (Em := HM 0%nat j j1 rc eq_refl eq_refl eq_refl). apply member_iff2 in Em; [|exact (HC j (or_introl eq_refl))].
    rewrite factor_0 in Em. rewrite Em.
    rewrite (loop_complete s r t dt js 0 1 j1 f frozen js' rcs terms); [reflexivity|exact HC1|cbn in HF; congruence|].
    split; [cbn in *; congruence|]. split; [cbn in *; congruence|]. split; [cbn in *; lia|]. split; [|split].
    + intros i c pj j0 pf f0 H1 H2 H3 H4 H5. exact (HT i c pj j0 pf f0 H1 H2 H3 H4 H5).
    + intros _. exact Hc.
    + intros q j0 j' rc0 H1 H2 H3. rewrite Rmult_1_l. exact (HM (S q) j0 j' rc0 H1 H2 H3).
Qed.
Lemma set_js_self s : set_s_js (s_js s) s = s.
Proof. destruct s; reflexivity. Qed.
Lemma top_unique s j a b : top_mag s j a -> top_mag s j b -> a = b.
Proof. intros A B. apply top_iff in A, B. congruence. Qed.
Lemma polariser_unique s two j a b : polariser_of s two j a -> polariser_of s two j b -> a = b.
Proof.
  unfold polariser_of. destruct two.
  - intros A B. apply bottom_iff in A, B. congruence.
  - intros A B. apply polarisation_iff in A, B. congruence.
Qed.
Lemma Forall2_exists {A B} (P : A -> B -> Prop) xs : (forall x, In x xs -> exists y, P x y) -> exists ys, Forall2 P xs ys.
Proof.
  induction xs as [|x xs IH]; intros H; [exists []; constructor|]. destruct (H x (or_introl eq_refl)) as [y Hy].
  destruct IH as [ys Hys]; [intros z Hz; apply H; right; exact Hz|]. exists (y :: ys). constructor; assumption.
Qed.
Lemma nth_some {A} (xs : list A) i : (i < length xs)%nat -> exists x, nth_error xs i = Some x.
Proof. intros H. destruct (nth_error xs i) eqn:E; [eauto|]. apply nth_error_None in E. lia. Qed.
Lemma nth_lt {A} (xs : list A) i x : nth_error xs i = Some x -> (i < length xs)%nat.
Proof. intros H. apply nth_error_Some. congruence. Qed.
Lemma advance_iff r two t dt s s' rcs : classic_members (s_js s) -> s_js s <> [] ->
  (advance_members r two t dt s = (s', Ok rcs) <->
   exists terms js', stack_step s two r t dt (s_js s) terms rcs js' /\ s' = set_s_js js' s).
Proof.
  intros HC HN. unfold advance_members, stack_step. rewrite set_js_self. split.
  - intros E. destruct (freeze s two (s_js s)) as [fs|] eqn:EF; [|discriminate]. apply freeze_iff in EF.
    destruct (stack_loop _ _ _ _ _ _ _ _ _) as [js x] eqn:EL. injection E as <- ->.
    assert (HF := proj1 (Forall2_nth _ _ _) EF). destruct HF as [LF HF].
    apply members_iff in EL; [|exact HC|exact HN|exact LF]. destruct EL as (terms & L1 & L2 & L3 & HT & Hc & HM).
    exists terms, js. split; [|reflexivity]. split; [|split; [exact L1|split; [exact L2|split; [exact L3|split; [|split; [exact Hc|]]]]]].
    + intros j Hj. apply In_nth_error in Hj. destruct Hj as [q Hq].
      assert (Hlt : (q < length (s_js s))%nat) by (apply nth_error_Some; congruence). rewrite <- LF in Hlt.
      destruct (nth_some _ _ Hlt) as [f Hf]. destruct (HF q j f Hq Hf). eauto.
    + intros i c Hi. assert (Hlt := nth_lt _ _ _ Hi). rewrite L3 in Hlt.
      destruct (nth_some (s_js s) i ltac:(lia)) as [j Hj]. destruct (nth_some (s_js s) (S i) ltac:(lia)) as [j1 Hj1].
      destruct (nth_some js i ltac:(lia)) as [j' Hj']. destruct (nth_some fs i ltac:(lia)) as [f Hf].
      destruct (nth_some fs (S i) ltac:(lia)) as [f1 Hf1].
      specialize (HT i c j' j1 f f1 Hi Hj' Hj1 Hf Hf1). apply term_iff in HT. destruct HT as (k & m1 & m2 & p & A & B & C).
      destruct (HF i j f Hj Hf) as [F1 F2]. destruct (HF (S i) j1 f1 Hj1 Hf1) as [G1 G2].
      exists j, j1, k, m1, m2, p. split; [exact Hj|]. split; [exact Hj1|]. split; [exact A|]. split; [|split; [|exact C]].
      * destruct (s_delayed s); [destruct B as (_ & -> & _); exact G1|tauto].
      * destruct (s_delayed s); [destruct B as (-> & _ & ->); split; assumption|exists j'; tauto].
    + intros q j j' x cur H1 H2 H3. exact (HM q j j' (x, cur) H1 H2 H3).
  - intros (terms & js' & (HI & L1 & L2 & L3 & HT & Hc & HM) & ->).
    destruct (Forall2_exists (fun j f => top_mag s j (fst f) /\ polariser_of s two j (snd f)) (s_js s)) as [fs EF].
    { intros j Hj. destruct (HI j Hj) as [[m Hm] [p Hp]]. exists (m, p). split; assumption. }
    rewrite (proj2 (freeze_iff s two (s_js s) fs) EF).
    assert (HF := proj1 (Forall2_nth _ _ _) EF). destruct HF as [LF HF].
    rewrite (proj2 (members_iff s r t dt fs (s_js s) js' rcs HC HN LF)); [reflexivity|].
    exists terms. split; [exact L1|]. split; [exact L2|]. split; [exact L3|]. split; [|split; [exact Hc|]].
    + intros i c pj j1 pf f H1 H2 H3 H4 H5. destruct (HT i c H1) as (j & j1' & k & m1 & m2 & p & A1 & A2 & A3 & A4 & A5 & A6).
      rewrite H3 in A2. injection A2 as <-. destruct (HF i j pf A1 H4) as [F1 F2]. destruct (HF (S i) j1 f H3 H5) as [G1 G2].
      apply term_iff. exists k, m1, m2, p. split; [exact A3|]. split; [|exact A6]. destruct (s_delayed s).
      * destruct A5 as [B1 B2]. split; [exact (top_unique _ _ _ _ B1 F1)|]. split; [exact (top_unique _ _ _ _ A4 G1)|exact (polariser_unique _ _ _ _ _ B2 F2)].
      * destruct A5 as (j' & B1 & B2 & B3). rewrite H2 in B1. injection B1 as <-. auto.
    + intros q j j' [x cur] H1 H2 H3. exact (HM q j j' x cur H1 H2 H3).
Qed.
