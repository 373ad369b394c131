(** Consequences for stacks: uncoupled members, broadcast settings, the common runner, and runs that succeed. *)
From Verif Require Export P_StackLog P_RunEx.
Open Scope R_scope.
Open Scope st_scope.

(** ** Coupling *)
Lemma rescaled_one d : rescaled d 1 0 = d.
Proof. unfold rescaled. destruct d. cbn. f_equal; ring. Qed.
Lemma factor_zero terms q : (forall c, In c terms -> c = 0) -> factor terms q = 1.
Proof.
  revert q. induction terms as [|c terms IH]; intros q H.
  - unfold factor. rewrite firstn_nil. reflexivity.
  - destruct q as [|q]; [reflexivity|]. rewrite factor_cons, IH by (intros; apply H; right; assumption).
    rewrite (H c (or_introl eq_refl)). ring.
Qed.
Lemma phase_zero s q : s_phase s = 0 -> phase_of s q = 0.
Proof. intros H. unfold phase_of. rewrite H. destruct (s_kind s); ring. Qed.
(** Without coupling every member moves as it would alone under the stack's current. *)
Lemma uncoupled_step s two r t dt js terms rcs js' : uncoupled s -> stack_step s two r t dt js terms rcs js' ->
  forall q j j' x cur, nth_error js q = Some j -> nth_error js' q = Some j' -> nth_error rcs q = Some (x, cur) ->
  run_runner r t dt (with_current (s_current s) j) = (j', Ok tt) /\ getCurrentScalarValue (s_current s) t = Ok cur.
Proof.
  intros [HU HP] (_ & _ & _ & _ & HT & _ & HM) q j j' x cur H1 H2 H3. destruct (HM q j j' x cur H1 H2 H3) as (_ & A & _ & B).
  assert (F : factor terms q = 1).
  { apply factor_zero. intros c Hc. apply In_nth_error in Hc. destruct Hc as [i Hi]. destruct (HT i c Hi) as (_ & _ & k & m1 & m2 & p & _ & _ & Hk & _ & _ & ->).
    rewrite (HU i k Hk). ring. }
  rewrite F, (phase_zero s q HP), rescaled_one in A, B. auto.
Qed.
(** The current through a member is its factor times the stack's current. *)
Lemma member_current s two r t dt js terms rcs js' : s_phase s = 0 -> stack_step s two r t dt js terms rcs js' ->
  forall q j j' x cur, nth_error js q = Some j -> nth_error js' q = Some j' -> nth_error rcs q = Some (x, cur) ->
  (amplitude_linear (d_update (s_current s)) \/ 0 <= factor terms q) ->
  exists base, getCurrentScalarValue (s_current s) t = Ok base /\ cur = factor terms q * base.
Proof.
  intros HP (_ & _ & _ & _ & _ & _ & HM) q j j' x cur H1 H2 H3 Hk. destruct (HM q j j' x cur H1 H2 H3) as (_ & _ & _ & B).
  rewrite (phase_zero s q HP) in B.
  assert (E : rescaled (s_current s) (factor terms q) 0 = driver_imul (s_current s) (factor terms q)).
  { unfold rescaled, driver_imul. destruct (s_current s). cbn. f_equal. ring. }
  rewrite E, (imul_value _ _ _ Hk) in B. destruct (getCurrentScalarValue (s_current s) t) as [b|e]; [|discriminate].
  exists b. split; [reflexivity|]. cbn in B. congruence.
Qed.
(** The first member gets the stack's current itself. *)
Lemma first_current s two r t dt js terms rcs js' : s_phase s = 0 -> stack_step s two r t dt js terms rcs js' ->
  forall j j' x cur, nth_error js 0 = Some j -> nth_error js' 0 = Some j' -> nth_error rcs 0 = Some (x, cur) ->
  run_runner r t dt (with_current (s_current s) j) = (j', Ok tt) /\ getCurrentScalarValue (s_current s) t = Ok cur.
Proof.
  intros HP (_ & _ & _ & _ & _ & _ & HM) j j' x cur H1 H2 H3. destruct (HM 0%nat j j' x cur H1 H2 H3) as (_ & A & _ & B).
  rewrite factor_0, (phase_zero s 0 HP), rescaled_one in A, B. auto.
Qed.
(** Consecutive factors. *)
Lemma factor_next terms q c : nth_error terms q = Some c -> factor terms (S q) = factor terms q * (1 + c).
Proof.
  revert q. induction terms as [|x terms IH]; intros q H; [destruct q; discriminate|]. destruct q as [|q].
  - cbn in H. injection H as ->. rewrite factor_cons, !factor_0. ring.
  - rewrite !factor_cons, (IH q H). ring.
Qed.

(** ** Broadcast settings *)
Lemma effect_det x l a b : effect x l a -> effect x l b -> a = b.
Proof.
  intros Ha Hb. apply layer_ext. intros f.
  destruct x; cbn [effect] in Ha, Hb; repeat match goal with H : _ /\ _ |- _ => destruct H end;
  match goal with A : same_except _ l a, B : same_except _ l b |- _ =>
    specialize (A f); specialize (B f); destruct f; cbn [same_field] in A, B |- *; first [congruence | rewrite A by not_in; rewrite B by not_in; reflexivity] end.
Qed.
Lemma addressed_dec id x ls p : addressed id x ls p \/ ~ addressed id x ls p.
Proof. apply Classical_Prop.classic. Qed.
(** A junction-wide setting in one equivalence. *)
Lemma set_iff id x j j' : j_layers j <> [] -> (junction_set id x j = (j', Ok tt) <-> set_everywhere id x j j' /\ exists p, addressed id x (j_layers j) p).
Proof.
  intros HN. split.
  - intros E. destruct (set_success _ _ _ _ E) as [A B]. split; [exact A|exact (B HN)].
  - intros [HS HA]. destruct HS as (E2 & L2 & P2). destruct (set_accepted id x j HA) as [j1 E].
    + intros p l Hl AD. destruct (nth_error_same_length _ _ _ _ L2 Hl) as [l' Hl']. apply (proj1 (P2 p l l' Hl Hl') AD).
    + rewrite E. f_equal. destruct (set_success _ _ _ _ E) as [(E1 & L1 & P1) _]. rewrite E1, E2. f_equal.
      apply list_nth_ext; [congruence|]. intros p a b Ha Hb.
      destruct (nth_error_same_length _ _ _ _ (eq_sym L1) Ha) as [l Hl]. destruct (addressed_dec id x (j_layers j) p) as [AD|AD].
      * destruct (proj1 (P1 p l a Hl Ha) AD) as [_ F1]. destruct (proj1 (P2 p l b Hl Hb) AD) as [_ F2]. exact (effect_det _ _ _ _ F1 F2).
      * rewrite (proj2 (P1 p l a Hl Ha) AD), (proj2 (P2 p l b Hl Hb) AD). reflexivity.
Qed.
(** The three settings that every layer of every member receives. *)
Definition always (x : setting) : Prop := match x with SOersted _ | SExternalField _ | SCurrent _ => True | _ => False end.
Lemma set_all_iff x j j' : always x -> (junction_set "all" x j = (j', Ok tt) <-> j_layers j <> [] /\ set_everywhere "all" x j j').
Proof.
  intros HA. destruct (j_layers j) as [|l ls] eqn:EL.
  - split; [|intros [X _]; contradiction]. intros E. exfalso.
    destruct x; try contradiction; cbn in E; unfold setLayerExternalFieldDriver, setLayerOerstedFieldDriver, setLayerCurrentDriver, layerSetter in E; rewrite EL in E; discriminate.
  - rewrite set_iff by (rewrite EL; discriminate). split; [intros [A _]; split; [discriminate|exact A]|].
    intros [_ A]. split; [exact A|]. exists 0%nat, l. rewrite EL. split; [reflexivity|left; reflexivity].
Qed.
Lemma set_all_exists x j : always x -> j_layers j <> [] -> exists j', junction_set "all" x j = (j', Ok tt).
Proof.
  intros HA HN. apply set_accepted.
  - destruct (j_layers j) as [|l ls] eqn:EL; [contradiction|]. exists 0%nat, l. split; [reflexivity|left; reflexivity].
  - intros p l _ _. destruct x; try contradiction; exact I.
Qed.
Lemma broadcast_all_iff x s s' : always x -> (broadcast (junction_set "all" x) s = (s', Ok tt) <->
  populated (s_js s) /\ s' = set_s_js (s_js s') s /\ everywhere x (s_js s) (s_js s')).
Proof.
  intros HA. rewrite broadcast_iff, Forall2_nth. split.
  - intros (E & L & P). split; [|split; [exact E|split; [congruence|]]].
    + intros j Hj. apply In_nth_error in Hj. destruct Hj as [q Hq]. destruct (nth_error_same_length _ _ _ _ L Hq) as [j' Hj'].
      apply (set_all_iff x j j' HA), (P q j j' Hq Hj').
    + intros q j j' H1 H2. apply (set_all_iff x j j' HA), (P q j j' H1 H2).
  - intros (HP & E & L & P). split; [exact E|]. split; [congruence|]. intros q j j' H1 H2. apply (set_all_iff x j j' HA).
    split; [apply HP; eapply nth_error_In; exact H1|exact (P q j j' H1 H2)].
Qed.
Lemma on_junctions_total f js : (forall j, In j js -> exists j', f j = (j', Ok tt)) -> exists js', on_junctions f js = (js', Ok tt).
Proof.
  intros H. destruct (Forall2_exists (fun j j' => f j = (j', Ok tt)) js H) as [js' HF]. exists js'. apply on_junctions_iff, HF.
Qed.
Lemma broadcast_accepted x s : always x -> populated (s_js s) -> exists s', broadcast (junction_set "all" x) s = (s', Ok tt).
Proof.
  intros HA HP. destruct (on_junctions_total (junction_set "all" x) (s_js s)) as [js' E].
  - intros j Hj. apply set_all_exists; [exact HA|apply HP, Hj].
  - unfold broadcast. rewrite E. eauto.
Qed.
Lemma oersted_iff d s s' : stack_setOerstedFieldDriver d s = (s', Ok tt) <->
  populated (s_js s) /\ s' = set_s_js (s_js s') s /\ everywhere (SOersted d) (s_js s) (s_js s').
Proof. exact (broadcast_all_iff (SOersted d) s s' I). Qed.
Lemma external_iff d s s' : stack_setExternalFieldDriver d s = (s', Ok tt) <->
  populated (s_js s) /\ s' = set_s_js (s_js s') s /\ everywhere (SExternalField d) (s_js s) (s_js s').
Proof. exact (broadcast_all_iff (SExternalField d) s s' I). Qed.
Lemma current_iff d s s' : setCoupledCurrentDriver d s = (s', Ok tt) <->
  populated (s_js s) /\ s' = set_s_current d true (set_s_js (s_js s') s) /\ everywhere (SCurrent d) (s_js s) (s_js s').
Proof.
  unfold setCoupledCurrentDriver, bind, get, modify. cbv beta iota.
  change (setLayerCurrentDriver "all" d) with (junction_set "all" (SCurrent d)).
  destruct (broadcast (junction_set "all" (SCurrent d)) (set_s_current d (s_currentSet s) s)) as [s1 [[]|e]] eqn:E.
  - apply (broadcast_all_iff (SCurrent d)) in E; [|exact I]. destruct E as (HP & E & HE). split.
    + intros X. injection X as <-. split; [exact HP|]. split; [rewrite E; reflexivity|exact HE].
    + intros (_ & E' & HE'). rewrite E'. f_equal. rewrite E. unfold set_s_current, set_s_js. cbn. f_equal.
      apply list_nth_ext; [rewrite (proj1 HE), (proj1 HE'); reflexivity|]. intros q a b Ha Hb.
      assert (L : length (s_js s1) = length (s_js s)) by exact (proj1 HE).
      destruct (nth_error_same_length _ _ _ _ (eq_sym L) Ha) as [j Hj]. assert (J1 := proj2 HE q j a Hj Ha). assert (J2 := proj2 HE' q j b Hj Hb).
      assert (HJ : j_layers j <> []) by (apply HP; eapply nth_error_In; exact Hj).
      assert (K1 := proj2 (set_all_iff (SCurrent d) j a I) (conj HJ J1)). assert (K2 := proj2 (set_all_iff (SCurrent d) j b I) (conj HJ J2)). congruence.
  - split; [discriminate|]. intros (HP & _). destruct (broadcast_accepted (SCurrent d) (set_s_current d (s_currentSet s) s) I HP) as [s2 E2]. congruence.
Qed.
Lemma reset_eq s : resetCoupledCurrentDriver s =
  match setCoupledCurrentDriver default_driver s with (s', x) => (match x with Ok _ => set_s_current default_driver false s' | _ => s' end, x) end.
Proof.
  unfold resetCoupledCurrentDriver, setCoupledCurrentDriver, bind, get, modify. cbv beta iota. change (slice DynNull) with default_driver.
  destruct (broadcast _ _) as [s1 [[]|e]]; reflexivity.
Qed.
Lemma reset_iff s s' : resetCoupledCurrentDriver s = (s', Ok tt) <->
  populated (s_js s) /\ s' = set_s_current default_driver false (set_s_js (s_js s') s) /\ everywhere (SCurrent default_driver) (s_js s) (s_js s').
Proof.
  rewrite reset_eq. destruct (setCoupledCurrentDriver default_driver s) as [s1 [[]|e]] eqn:E.
  - assert (E0 := E). apply current_iff in E. destruct E as (HP & E & HE). split.
    + intros X. injection X as <-. split; [exact HP|]. split; [rewrite E; reflexivity|exact HE].
    + intros (_ & E' & HE'). f_equal.
      assert (X : setCoupledCurrentDriver default_driver s = (set_s_current default_driver true s', Ok tt)).
      { apply current_iff. split; [exact HP|]. split; [rewrite E' at 1; reflexivity|exact HE']. }
      rewrite E0 in X. apply (f_equal fst) in X. cbn in X. rewrite X. rewrite E'. reflexivity.
  - split; [discriminate|]. intros (HP & E' & HE').
    assert (X : setCoupledCurrentDriver default_driver s = (set_s_current default_driver true s', Ok tt)).
    { apply current_iff. split; [exact HP|]. split; [rewrite E' at 1; reflexivity|exact HE']. }
    congruence.
Qed.
(** A member without layers stops the broadcast with an exception. *)
Lemma broadcast_refused x s : always x -> ~ populated (s_js s) -> exists s' msg, broadcast (junction_set "all" x) s = (s', Err (Throw msg)).
Proof.
  intros HA HP. destruct (broadcast (junction_set "all" x) s) as [s' [[]|e]] eqn:E.
  - apply (broadcast_all_iff x s s' HA) in E. destruct E as [X _]. contradiction.
  - exists s'. unfold broadcast in E. destruct (on_junctions (junction_set "all" x) (s_js s)) as [js r] eqn:EJ. injection E as <- ->.
    assert (X : exists msg, e = Throw msg).
    { clear HP. revert js EJ. induction (s_js s) as [|j rest IH]; intros js EJ; cbn [on_junctions] in EJ; [discriminate|].
      destruct (junction_set "all" x j) as [j1 [[]|e1]] eqn:E1.
      - destruct (on_junctions (junction_set "all" x) rest) as [js1 r1]. injection EJ as _ ->. apply (IH js1). reflexivity.
      - injection EJ as _ <-. destruct (set_failure _ _ _ _ _ E1) as [X _]. exact X. }
    destruct X as [msg ->]. eauto.
Qed.

(** ** Settings of one member, couplings, delay *)
Lemma on_member_iff {A} (f : ST junction A) js : forall i js' x, (i < length js)%nat ->
  (on_member i f js = (js', x) <->
   length js' = length js /\ (exists j j', nth_error js i = Some j /\ nth_error js' i = Some j' /\ f j = (j', x)) /\
   forall q, q <> i -> nth_error js' q = nth_error js q).
Proof.
  induction js as [|j js IH]; intros i js' x Hi; [cbn in Hi; lia|]. destruct i as [|i]; cbn [on_member].
  - destruct (f j) as [j1 y] eqn:E1. split.
    + intros E. injection E as <- <-. split; [reflexivity|]. split; [exists j, j1; auto|]. intros [|q] Hq; [contradiction|reflexivity].
    + intros (HL & (a & b & Ha & Hb & E) & HQ). cbn in Ha. injection Ha as <-. destruct js' as [|j' js']; [discriminate|]. cbn in Hb. injection Hb as ->.
      rewrite E1 in E. injection E as -> ->. f_equal. f_equal. apply list_nth_ext; [cbn in HL; congruence|].
      intros q u v Hu Hv. specialize (HQ (S q) ltac:(discriminate)). cbn in HQ. congruence.
  - destruct (on_member i f js) as [js1 y] eqn:E1. assert (Hi' : (i < length js)%nat) by (cbn in Hi; lia). split.
    + intros E. injection E as <- <-. apply IH in E1; [|exact Hi']. destruct E1 as (HL & (a & b & Ha & Hb & E) & HQ). split; [cbn; congruence|].
      split; [exists a, b; auto|]. intros [|q] Hq; [reflexivity|]. cbn. apply HQ. congruence.
    + intros (HL & (a & b & Ha & Hb & E) & HQ). destruct js' as [|j' js']; [discriminate|].
      assert (X := HQ 0%nat ltac:(discriminate)). cbn in X. injection X as ->.
      assert (E2 : on_member i f js = (js', x)).
      { apply IH; [exact Hi'|]. split; [cbn in HL; congruence|]. split; [exists a, b; auto|]. intros q Hq. apply (HQ (S q)). congruence. }
      congruence.
Qed.
Lemma on_member_out {A} (f : ST junction A) js : forall i, (length js <= i)%nat -> on_member i f js = (js, Err Undefined).
Proof.
  induction js as [|j js IH]; intros i Hi; [destruct i; reflexivity|]. destruct i as [|i]; [cbn in Hi; lia|]. cbn [on_member].
  rewrite IH by (cbn in Hi; lia). reflexivity.
Qed.
Lemma member_call_iff (f : ST junction unit) i s s' x : (i < length (s_js s))%nat ->
  (member_call i f s = (s', x) <-> member_changed i s s' (fun j j' => f j = (j', x))).
Proof.
  intros Hi. unfold member_call, member_changed. destruct (on_member i f (s_js s)) as [js y] eqn:E. split.
  - intros X. injection X as <- <-. split; [reflexivity|]. cbn. apply (proj1 (on_member_iff f (s_js s) i js y Hi)) in E. destruct E as (A & B & C). auto.
  - intros (E1 & A & B & C). assert (X := proj2 (on_member_iff f (s_js s) i (s_js s') x Hi) (conj A (conj B C))). rewrite E in X. injection X as -> ->. congruence.
Qed.
Lemma member_call_out (f : ST junction unit) i s : (length (s_js s) <= i)%nat -> member_call i f s = (s, Err Undefined).
Proof. intros H. unfold member_call. rewrite on_member_out by exact H. rewrite set_js_self. reflexivity. Qed.
(** A member's setting: that member only. *)
Lemma magnetisation_iff i id m s s' : (i < length (s_js s))%nat -> populated (s_js s) ->
  (stack_setMagnetisation i id m s = (s', Ok tt) <->
   member_changed i s s' (fun j j' => set_everywhere id (SMagnetisation m) j j' /\ exists p, addressed id (SMagnetisation m) (j_layers j) p)).
Proof.
  intros Hi HP. unfold stack_setMagnetisation. rewrite (member_call_iff _ i s s' _ Hi). unfold member_changed.
  split; intros (A & B & (j & j' & H1 & H2 & H3) & D); (split; [exact A|split; [exact B|split; [|exact D]]]); exists j, j'; (split; [exact H1|split; [exact H2|]]);
  assert (HJ : j_layers j <> []) by (apply HP; eapply nth_error_In; exact H1); apply (set_iff id (SMagnetisation m) j j' HJ); exact H3.
Qed.
Lemma anisotropy_iff i id k s s' : (i < length (s_js s))%nat -> populated (s_js s) ->
  (setJunctionAnisotropyDriver i id k s = (s', Ok tt) <->
   member_changed i s s' (fun j j' => set_everywhere id (SAnisotropy k) j j' /\ exists p, addressed id (SAnisotropy k) (j_layers j) p)).
Proof.
  intros Hi HP. unfold setJunctionAnisotropyDriver. rewrite (member_call_iff _ i s s' _ Hi). unfold member_changed.
  split; intros (A & B & (j & j' & H1 & H2 & H3) & D); (split; [exact A|split; [exact B|split; [|exact D]]]); exists j, j'; (split; [exact H1|split; [exact H2|]]);
  assert (HJ : j_layers j <> []) by (apply HP; eapply nth_error_In; exact H1); apply (set_iff id (SAnisotropy k) j j' HJ); exact H3.
Qed.
Lemma couplings_iff cs s s' : setCouplingStrengthN cs s = (s', Ok tt) <-> S (length cs) = length (s_js s) /\ s' = set_s_coupling cs s \/ length cs = 0%nat /\ length (s_js s) = 0%nat /\ s' = set_s_coupling cs s.
Proof.
  unfold setCouplingStrengthN, bind, get, modify, fail. destruct (Nat.eqb_spec (length cs) (length (s_js s) - 1)) as [H|H].
  - split; [intros E; injection E as <-; destruct (length (s_js s)); [right|left]; split; try lia; auto|].
    intros [[_ ->]|(_ & _ & ->)]; reflexivity.
  - split; [discriminate|]. intros [[X _]|(X & Y & _)]; exfalso; lia.
Qed.
Lemma couplings_refused cs s : (1 <= length (s_js s))%nat -> S (length cs) <> length (s_js s) -> exists msg, setCouplingStrengthN cs s = (s, Err (Throw msg)).
Proof.
  intros H0 H. unfold setCouplingStrengthN, bind, get, modify, fail. destruct (Nat.eqb_spec (length cs) (length (s_js s) - 1)) as [X|_]; [lia|eauto].
Qed.
Lemma coupling1_eq c s : setCouplingStrength1 c s = (set_s_coupling [c] s, Ok tt).
Proof. reflexivity. Qed.
Lemma delayed_iff b s s' : setDelayed b s = (s', Ok tt) <-> (b = true \/ bilayers (s_js s)) /\ s' = set_s_delayed b s.
Proof.
  unfold setDelayed, bind, get, modify, lift, fail, isTwoLayerMemberStack. destruct b.
  - split; [intros E; injection E as <-; auto|intros [_ ->]; reflexivity].
  - rewrite <- two_true. destruct (two_layer_members (s_js s)) as [[]|e].
    + split; [intros E; injection E as <-; auto|intros [_ ->]; reflexivity].
    + split; [discriminate|intros [[X|X] _]; discriminate].
    + split; [discriminate|intros [[X|X] _]; discriminate].
Qed.
Lemma clear_iff s s' : clearLogs s = (s', Ok tt) <->
  s' = set_s_log [] (set_s_js (map (set_j_log [] 0) (s_js s)) s).
Proof.
  assert (E : forall js, on_junctions clearLog js = (map (set_j_log [] 0) js, Ok tt)).
  { induction js as [|j js IH]; [reflexivity|]. cbn [on_junctions map]. rewrite IH. reflexivity. }
  unfold clearLogs, bind, broadcast, modify. rewrite E. split; [intros X; injection X as <-; reflexivity|intros ->; reflexivity].
Qed.
Lemma getJunction_iff s i j : getJunction s i = Ok j <-> nth_error (s_js s) i = Some j.
Proof. unfold getJunction. destruct (nth_error (s_js s) i); split; congruence. Qed.
Lemma junctionLog_iff s i g : getJunctionLog s i = Ok g <-> exists j, nth_error (s_js s) i = Some j /\ j_log j = g.
Proof.
  unfold getJunctionLog. destruct (nth_error (s_js s) i) as [j|]; split; try discriminate.
  - intros E. injection E as <-. eauto.
  - intros (k & E & <-). injection E as ->. reflexivity.
  - intros (k & E & _). discriminate.
Qed.
Lemma out_of_range s i : (length (s_js s) <= i)%nat -> (exists msg, getJunction s i = Err (Throw msg)) /\ (exists msg, getJunctionLog s i = Err (Throw msg)).
Proof. intros H. apply nth_error_None in H. unfold getJunction, getJunctionLog. rewrite H. eauto. Qed.
Lemma stack_getMag_iff s i id m : stack_getMagnetisation s i id = Ok m <-> exists j l, nth_error (s_js s) i = Some j /\ first_with id j l /\ m = l_mag l.
Proof.
  unfold stack_getMagnetisation. destruct (nth_error (s_js s) i) as [j|].
  - rewrite getMag_iff. split; [intros (l & A & B); eauto|intros (k & l & E & A & B); injection E as ->; eauto].
  - split; [discriminate|intros (k & l & E & _); discriminate].
Qed.

(** The saved file: header and rows of the log; a stack that never logged gains an empty time column. *)
Lemma save_all g n rows : save_rows n 0 g = Ok rows <-> saved g n (map fst g) rows.
Proof.
  rewrite save_rows_iff. unfold saved. rewrite map_length. split.
  - intros [L P]. split; [reflexivity|]. split; [exact L|]. split; [intros c k v Hc; rewrite nth_error_map, Hc; reflexivity|]. intros i row Hi. apply save_row_iff. exact (P i row Hi).
  - intros (_ & L & _ & P). split; [exact L|]. intros a row Ha. apply save_row_iff. exact (P a row Ha).
Qed.
Lemma stack_save_iff f s s' header rows : stack_saveLogs f s = (s', Ok (Some (header, rows))) <->
  f <> ""%string /\ header = map fst (s_log s) /\
  ((exists ts, log_get "time" (s_log s) = Some ts /\ s' = s /\ saved (s_log s) (length ts) header rows) \/
   (log_get "time" (s_log s) = None /\ rows = [] /\ s' = set_s_log (s_log s ++ [("time"%string, [])])%list s)).
Proof.
  unfold stack_saveLogs, bind, get, ret, modify, lift. destruct (String.eqb_spec f ""%string) as [E|E]; [split; [discriminate|intros [H _]; contradiction]|].
  destruct (log_get "time" (s_log s)) as [ts|].
  - destruct (save_rows (length ts) 0 (s_log s)) as [rs|e] eqn:ES.
    + split.
      * intros X. injection X as <- <- <-. apply save_all in ES. split; [exact E|]. split; [reflexivity|]. left. exists ts. auto.
      * intros (_ & -> & [(ts' & Ht & -> & H)|(X & _)]); [|discriminate]. injection Ht as <-. apply save_all in H. congruence.
    + split; [discriminate|]. intros (_ & -> & [(ts' & Ht & -> & H)|(X & _)]); [|discriminate]. injection Ht as <-. apply save_all in H. congruence.
  - split.
    + intros X. injection X as <- <- <-. split; [exact E|]. split; [reflexivity|]. right. auto.
    + intros (_ & -> & [(ts' & Ht & _)|(_ & -> & ->)]); [discriminate|reflexivity].
Qed.
Lemma stack_save_noname s : stack_saveLogs "" s = (s, Ok None).
Proof. reflexivity. Qed.

(** ** The common runner *)
Lemma with_current_nth d j p l : nth_error (j_layers j) p = Some l -> nth_error (j_layers (with_current d j)) p = Some (set_l_current d l).
Proof. intros H. unfold with_current. cbn. apply map_nth_error, H. Qed.
Lemma single_step_upper s two t dt js terms rcs js' : stack_step s two RunSingle t dt js terms rcs js' ->
  forall q j j' p l l', nth_error js q = Some j -> nth_error js' q = Some j' -> (1 <= p)%nat ->
    nth_error (j_layers j) p = Some l -> nth_error (j_layers j') p = Some l' -> exists d, l' = set_l_current d l.
Proof.
  intros (_ & L1 & L2 & _ & _ & _ & HM) q j j' p l l' H1 H2 Hp H3 H4.
  assert (Hq : (q < length rcs)%nat) by (rewrite L2; apply nth_lt in H1; exact H1). destruct (nth_some rcs q Hq) as [[x cur] H5].
  destruct (HM q j j' x cur H1 H2 H5) as (_ & A & _). cbv zeta in A. cbn [run_runner] in A. apply single_sound in A. destruct A as (_ & _ & P).
  eexists. destruct p as [|p]; [lia|]. exact (P _ _ _ (with_current_nth _ _ _ _ H3) H4).
Qed.
Lemma step_layers s two r t dt js terms rcs js' q j j' : stack_step s two r t dt js terms rcs js' ->
  nth_error js q = Some j -> nth_error js' q = Some j' -> layerNo j' = layerNo j.
Proof.
  intros (_ & L1 & L2 & _ & _ & _ & HM) H1 H2.
  assert (Hq : (q < length rcs)%nat) by (rewrite L2; apply nth_lt in H1; exact H1). destruct (nth_some rcs q Hq) as [[x cur] H5].
  destruct (HM q j j' x cur H1 H2 H5) as (_ & A & _). apply runner_mode in A. rewrite with_current_layers in A. apply A.
Qed.
(** When the last member has one layer and there is no noise, the upper layers of all members keep still. *)
Lemma single_run_upper s0 two dt N w s' sg rcs rows : stack_effect s0 two RunSingle dt N w s' sg rcs rows ->
  forall k q j0 jk p l lk, (k <= N)%nat -> nth_error (s_js s0) q = Some j0 -> nth_error (sg k) q = Some jk -> (1 <= p)%nat ->
    nth_error (j_layers j0) p = Some l -> nth_error (j_layers jk) p = Some lk -> l_mag lk = l_mag l.
Proof.
  intros (E0 & _ & HS & _). induction k as [|k IH]; intros q j0 jk p l lk Hk H0 H1 Hp H2 H3.
  - rewrite E0 in H1. assert (j0 = jk) by congruence. subst. congruence.
  - destruct (HS k ltac:(lia)) as [terms HT]. assert (HT' := HT). destruct HT' as (_ & L1 & _).
    destruct (nth_error_same_length _ _ _ _ (eq_sym L1) H1) as [jp Hjp].
    assert (LN := step_layers _ _ _ _ _ _ _ _ _ _ _ _ HT Hjp H1).
    destruct (nth_error_same_length _ _ _ _ (eq_sym LN) H3) as [lp Hlp].
    destruct (single_step_upper _ _ _ _ _ _ _ _ HT q jp jk p lp lk Hjp H1 Hp Hlp H3) as [d ->].
    change (l_mag (set_l_current d lp)) with (l_mag lp). apply (IH q j0 jp p l lp ltac:(lia) H0 Hjp Hp H2 Hlp).
Qed.
Lemma noise_mismatch T dt wf N w s jq jr : stack_counts T dt wf N w -> In jq (s_js s) -> In jr (s_js s) ->
  (exists l, In l (j_layers jq) /\ noisy l) -> ~ (exists l, In l (j_layers jr) /\ noisy l) ->
  (forall j l, In j (s_js s) -> In l (j_layers j) -> preparable N l) ->
  exists s' msg, stack_runSimulation T dt wf s = (s', Err (Throw msg)).
Proof.
  intros (Hd & Hle & C1 & C2) Hq Hr Nq Nr HP. unfold stack_runSimulation.
  unfold bind at 1, lift at 1. rewrite fdiv_ok by exact Hd. unfold bind at 1, lift at 1. rewrite (proj2 (wrapped_iff _ _) C2).
  unfold bind at 1, lift at 1. rewrite fdiv_ok by exact Hd. unfold bind at 1, lift at 1. rewrite (proj2 (wrapped_iff _ _) C1).
  destruct (Rlt_dec wf dt); [lra|]. unfold bind at 1.
  destruct (pick_solvers N (s_js s)) as [js [rms|e]] eqn:EP.
  - apply pick_iff in EP. destruct EP as (L1 & L2 & P). destruct (all_equal (map snd rms)) eqn:EA; [|cbn [negb]; unfold fail; eauto]. exfalso.
    apply In_nth_error in Hq, Hr. destruct Hq as [a Ha], Hr as [b Hb].
    destruct (nth_error_same_length _ _ _ _ L1 Ha) as [ja Ja]. destruct (nth_error_same_length _ _ _ _ L1 Hb) as [jb Jb].
    destruct (nth_error_same_length _ _ _ _ L2 Ha) as [ra Ra]. destruct (nth_error_same_length _ _ _ _ L2 Hb) as [rb Rb].
    assert (Sa := P _ _ _ _ Ha Ja Ra). assert (Sb := P _ _ _ _ Hb Jb Rb).
    destruct Sa as (_ & _ & Ta & _), Sb as (_ & _ & Tb & _). destruct Ta as [Ta _], Tb as [_ Tb]. specialize (Ta Nq). specialize (Tb Nr).
    apply (proj1 (all_equal_iff _)) with (a := snd ra) (b := snd rb) in EA; [congruence| |]; apply in_map; eapply nth_error_In; eassumption.
  - exfalso. assert (X : exists js' rms, pick_solvers N (s_js s) = (js', Ok rms)).
    { destruct (Forall2_exists (fun j (y : junction * (runner * solver_mode)) => selects RK4 N j (fst y) (fst (snd y)) (snd (snd y))) (s_js s)) as [ys HF].
      - intros j Hj. destruct (noisy_list_dec (j_layers j)) as [Hn|Hn].
        + exists (set_j_layers (map prepared (j_layers j)) j, (runner_table (layerNo j) EULER_HEUN, EULER_HEUN)).
          split; [intros l Hl; apply (HP j l Hj Hl)|]. split; [reflexivity|]. split; [|reflexivity]. cbn [fst snd]. split; intros X; [reflexivity|contradiction].
        + exists (set_j_layers (map prepared (j_layers j)) j, (runner_table (layerNo j) RK4, RK4)).
          split; [intros l Hl; apply (HP j l Hj Hl)|]. split; [reflexivity|]. split; [|reflexivity]. cbn [fst snd]. split; intros X; [contradiction|reflexivity].
      - exists (map fst ys), (map snd ys). apply pick_iff. apply Forall2_nth in HF. destruct HF as [HL HF]. rewrite !map_length. split; [congruence|]. split; [congruence|].
        intros q j j' rm H1 H2 H3. rewrite nth_error_map in H2, H3. destruct (nth_error ys q) as [y|] eqn:Ey; [|discriminate].
        cbn in H2, H3. injection H2 as <-. injection H3 as <-. exact (HF q j y H1 Ey). }
    destruct X as (js' & rms & X). congruence.
Qed.

(** ** Stacks that run *)
Definition carrier (two : bool) (ref : cvec) (s : stack) (j : junction) : Prop :=
  j_mode j = MR_CLASSIC /\ (layerNo j = 1%nat \/ layerNo j = 2%nat) /\ In (s_top s) (ids j) /\
  (if two then In (s_bottom s) (ids j) else s_delayed s = true /\ ref <> Zero /\ forall l, In l (j_layers j) -> l_reference l = ref) /\
  forall d l, d_update d = constant -> In l (j_layers j) -> runnable (set_l_current d l).
Lemma first_exists id j : In id (ids j) -> exists l, first_with id j l.
Proof.
  intros H. destruct (getLayer_total j id) as [X|X]; [exact X|]. exfalso. unfold ids in H. apply in_map_iff in H. destruct H as (l & E & Hl). exact (X l Hl E).
Qed.
Lemma carrier_top two ref s j : carrier two ref s j -> exists m, top_mag s j m.
Proof. intros (_ & _ & H & _). destruct (first_exists _ _ H) as [l Hl]. exists (l_mag l), l. auto. Qed.
Lemma carrier_bottom ref s j : carrier true ref s j -> exists m, bottom_mag s j m.
Proof. intros (_ & _ & _ & H & _). destruct (first_exists _ _ H) as [l Hl]. exists (l_mag l), l. auto. Qed.
Lemma rescaled_const d k ph t : d_update d = constant -> exists c, getCurrentScalarValue (rescaled d k ph) t = Ok c.
Proof. intros H. unfold getCurrentScalarValue, rescaled. cbn [d_update]. rewrite H. cbn. eauto. Qed.
Lemma static_current d e l l' : static (set_l_current d l) l' -> static (set_l_current e l) (set_l_current e l').
Proof. intros (m & c & rp & bf & ->). exists m, c, rp, bf. reflexivity. Qed.
Lemma member_total two ref s r t dt d j : 0 <= dt -> d_update d = constant -> carrier two ref s j ->
  exists j' rc, member_step r t dt d j = (j', Ok rc) /\ carrier two ref s j'.
Proof.
  intros Hdt Hd (HM & HL & HT & HB & HR).
  assert (HN : j_layers j <> []) by (intros X; unfold layerNo in HL; rewrite X in HL; destruct HL; discriminate).
  destruct (step_total r t dt (with_current d j)) as [j' E].
  - intros X. assert (Y := with_current_layers d j). unfold layerNo in Y. rewrite X in Y. destruct (j_layers j); [contradiction|discriminate].
  - exact Hdt.
  - intros l Hl. unfold with_current in Hl. cbn in Hl. apply in_map_iff in Hl. destruct Hl as (l0 & <- & Hl0).
    specialize (HR d l0 Hd Hl0). split; [apply HR|apply runnable_noise, HR].
  - assert (SW := step_static _ _ _ _ _ E). assert (HS := stepwise_shape _ _ SW).
    destruct (runner_mode _ _ _ _ _ E) as [HM' HL']. rewrite with_current_layers in HL'.
    assert (HI : ids j' = ids j).
    { destruct SW as (_ & L & P). unfold ids. transitivity (map l_id (j_layers (with_current d j))).
      - apply pointwise_ids; [exact L|]. intros p l l' H1 H2. apply (static_fields l l'), (P _ _ _ H1 H2).
      - unfold with_current. cbn. rewrite map_map. reflexivity. }
    assert (HX : exists x, member_resistance j' x).
    { unfold member_resistance. change (j_mode (with_current d j)) with (j_mode j) in HM'. rewrite HM', HM. rewrite <- HL' in HL. unfold layerNo in HL.
      destruct (j_layers j') as [|l0 [|l1 [|l2 rest]]]; try (destruct HL; discriminate); eauto. }
    destruct HX as [x HX]. assert (HC : exists c, getCurrentScalarValue d t = Ok c) by (unfold getCurrentScalarValue; rewrite Hd; eauto). destruct HC as [c HC].
    exists j', (x, c). split.
    + apply (member_iff2 r t dt d j j' (x, c) HM). split; [exact HN|]. split; [exact E|]. split; [exact HX|exact HC].
    + split; [rewrite HM'; exact HM|]. split; [rewrite HL'; exact HL|]. split; [rewrite HI; exact HT|]. split.
      { destruct two; [rewrite HI; exact HB|]. destruct HB as (B1 & B2 & B3). split; [exact B1|]. split; [exact B2|]. intros l' Hl'.
        apply In_nth_error in Hl'. destruct Hl' as [p Hp]. destruct SW as (_ & L & P).
        destruct (nth_error_same_length _ _ _ _ (eq_sym L) Hp) as [l1 Hl1]. assert (Hl1' := Hl1). unfold with_current in Hl1'. cbn in Hl1'.
        rewrite nth_error_map in Hl1'. destruct (nth_error (j_layers j) p) as [l|] eqn:El; [|discriminate]. cbn in Hl1'. injection Hl1' as <-.
        destruct (P _ _ _ Hl1 Hp) as (m & c0 & rp & bf & ->). change (l_reference l = ref). apply B3. eapply nth_error_In. exact El. }
      intros e l' He Hl'. apply In_nth_error in Hl'. destruct Hl' as [p Hp]. destruct SW as (_ & L & P).
      destruct (nth_error_same_length _ _ _ _ (eq_sym L) Hp) as [l1 Hl1]. assert (Hl1' := Hl1). unfold with_current in Hl1'. cbn in Hl1'.
      rewrite nth_error_map in Hl1'. destruct (nth_error (j_layers j) p) as [l|] eqn:El; [|discriminate]. cbn in Hl1'. injection Hl1' as <-.
      apply (static_runnable (set_l_current e l)); [exact (static_current _ _ _ _ (P _ _ _ Hl1 Hp))|]. apply HR; [exact He|eapply nth_error_In; exact El].
Qed.
Definition coupled_up_to (s : stack) (n : nat) : Prop := forall i, (i < n)%nat -> exists c, coupling_at s i c.
Lemma term_total two ref s i pj j pf f : (exists c, coupling_at s i c) -> carrier two ref s pj -> carrier two ref s j -> exists c, couplingTerm s i pj j pf f = Ok c.
Proof.
  intros [k Hk] Hp Hj. destruct (carrier_top _ _ _ _ Hp) as [m1 H1]. destruct (carrier_top _ _ _ _ Hj) as [m2 H2].
  destruct (s_delayed s) eqn:ED.
  - eexists. apply term_iff. rewrite ED. exists k, (fst pf), (fst f), (snd pf). split; [exact Hk|]. split; [auto|reflexivity].
  - assert (X : two = true) by (destruct two; [reflexivity|destruct Hp as (_ & _ & _ & (Y & _) & _); congruence]). subst two.
    destruct (carrier_bottom _ _ _ Hp) as [p H3]. eexists. apply term_iff. rewrite ED. exists k, m1, m2, p. split; [exact Hk|]. split; [auto|reflexivity].
Qed.
Lemma loop_total two ref s r t dt : 0 <= dt -> constructible (s_current s) -> d_update (s_current s) = constant ->
  forall js order eff prev frozen, length frozen = length js -> (forall j, In j js -> carrier two ref s j) ->
  (forall i, (i < order + length js - 1)%nat -> exists c, coupling_at s i c) ->
  match prev with None => True | Some (pj, _) => (1 <= order)%nat /\ carrier two ref s pj end ->
  exists js' rcs, stack_loop s r t dt order eff prev frozen js = (js', Ok rcs) /\ length js' = length js /\ length rcs = length js /\ forall j, In j js' -> carrier two ref s j.
Proof.
  intros Hdt HC HD. induction js as [|j js IH]; intros order eff prev frozen HL HJ HK HP.
  - exists [], []. destruct frozen; [|discriminate]. cbn. split; [reflexivity|]. split; [reflexivity|]. split; [reflexivity|]. intros j [].
  - destruct frozen as [|f frozen]; [discriminate|]. cbn [stack_loop].
    assert (HJ0 : carrier two ref s j) by (apply HJ; left; reflexivity).
    assert (HE : exists e, (match prev with None => Ok eff | Some (pj, pf) => c <-- couplingTerm s (order - 1) pj j pf f ;; Ok (eff * (1 + c)) end) = Ok e).
    { destruct prev as [[pj pf]|]; [|eauto]. destruct HP as [Ho HP]. destruct (term_total two ref s (order - 1) pj j pf f) as [c Ec]; [|exact HP|exact HJ0|].
      - apply HK. cbn [length]. lia.
      - rewrite Ec. cbn [rbind]. eauto. }
    destruct HE as [e ->]. rewrite (proj2 (localDriver_iff s order e _) (conj HC eq_refl)).
    destruct (member_total two ref s r t dt (rescaled (s_current s) e (phase_of s order)) j Hdt HD HJ0) as (j' & rc & E & HJ').
    rewrite E. destruct (IH (S order) e (Some (j', f)) frozen) as (js' & rcs & E2 & L1 & L2 & HJs).
    + cbn in HL. congruence.
    + intros k Hk. apply HJ. right. exact Hk.
    + intros i Hi. apply HK. cbn [length]. lia.
    + split; [lia|exact HJ'].
    + rewrite E2. eexists. eexists. split; [reflexivity|]. cbn [length]. split; [congruence|]. split; [congruence|]. intros k [<-|Hk]; [exact HJ'|exact (HJs k Hk)].
Qed.
Definition stack_ready (two : bool) (ref : cvec) (s : stack) : Prop :=
  constructible (s_current s) /\ d_update (s_current s) = constant /\ coupled_up_to s (length (s_js s) - 1) /\ s_js s <> [] /\
  forall j, In j (s_js s) -> carrier two ref s j.
Lemma advance_total two ref r t dt s : 0 <= dt -> stack_ready two ref s ->
  exists s' rcs, advance_members r two t dt s = (s', Ok rcs) /\ stack_ready two ref s' /\ length (s_js s') = length (s_js s) /\ s' = set_s_js (s_js s') s.
Proof.
  intros Hdt (HC & HD & HK & HN & HJ). unfold advance_members.
  destruct (Forall2_exists (fun j f => top_mag s j (fst f) /\ polariser_of s two j (snd f)) (s_js s)) as [fs HF].
  { intros j Hj. destruct (carrier_top _ _ _ _ (HJ j Hj)) as [m Hm]. destruct two.
    - destruct (carrier_bottom _ _ _ (HJ j Hj)) as [p Hp]. exists (m, p). auto.
    - exists (m, ref). split; [exact Hm|]. split; [apply (HJ j Hj)|]. split; [exact HN|]. intros k Hk. destruct (HJ k Hk) as (_ & _ & HT & (_ & _ & HR) & _).
      destruct (first_exists _ _ HT) as [l Hl]. exists l. split; [exact Hl|]. apply HR. destruct Hl as (p & Hp & _). eapply nth_error_In. exact Hp. }
  rewrite (proj2 (freeze_iff s two (s_js s) fs) HF). apply Forall2_nth in HF. destruct HF as [HL _].
  destruct (loop_total two ref s r t dt Hdt HC HD (s_js s) 0 1 None fs) as (js' & rcs & E & L1 & L2 & HJ'); [congruence|exact HJ|exact HK|exact I|].
  rewrite E. eexists. eexists. split; [reflexivity|]. split; [|split; [exact L1|reflexivity]].
  split; [exact HC|]. split; [exact HD|]. split; [cbn [set_s_js s_js]; rewrite L1; exact HK|]. split; [|exact HJ'].
  cbn. intros X. rewrite X in L1. destruct (s_js s); [contradiction|discriminate].
Qed.
Lemma ready_classic two ref s : stack_ready two ref s -> classic_members (s_js s).
Proof. intros (_ & _ & _ & _ & H) j Hj. apply (H j Hj). Qed.
Lemma stack_run_exists two ref T dt wf s N w : 0 <= dt -> s_kind s = Series -> two_members (s_js s) two -> stack_ready two ref s -> stack_counts T dt wf N w -> (w > 0)%nat ->
  (forall j l, In j (s_js s) -> In l (j_layers j) -> l_nScale l = 0) ->
  (exists used, forall j, In j (s_js s) -> mode_table (exists l, In l (j_layers j) /\ noisy l) RK4 used) ->
  exists s', stack_runSimulation T dt wf s = (s', Ok tt).
Proof.
  intros Hdt HK H2M HR HC Hw HS [used HU]. assert (HR' := HR). destruct HR' as (_ & _ & _ & HN & HJ).
  assert (HP : map (fun j => set_j_layers (map prepared (j_layers j)) j) (s_js s) = s_js s).
  { rewrite <- (map_id (s_js s)) at 2. apply map_ext_in. intros j Hj. rewrite <- set_layers_id. f_equal. rewrite <- (map_id (j_layers j)) at 2.
    apply map_ext_in. intros l Hl. unfold prepared. destruct (Req_EM_T (l_nScale l) 0) as [|X]; [reflexivity|]. exfalso. exact (X (HS j l Hj Hl)). }
  destruct (last_map_some (s_js s) HN) as [jl Hlast].
  assert (TR : forall M, exists sg rcs, sg 0%nat = s_js s /\ stack_ready two ref (set_s_js (sg M) s) /\
    forall k, (k < M)%nat -> exists terms, stack_step s two (runner_table (layerNo jl) used) (INR k * dt) dt (sg k) terms (rcs k) (sg (S k))).
  { induction M as [|M (sg & rcs & H0 & HM & HT)].
    - exists (fun _ => s_js s), (fun _ => []). split; [reflexivity|]. split; [rewrite set_js_self; exact HR|]. intros k Hk; lia.
    - destruct (advance_total two ref (runner_table (layerNo jl) used) (INR M * dt) dt (set_s_js (sg M) s) Hdt HM) as (s1 & rc & E & R1 & L1 & Es).
      assert (HM' := HM). destruct HM' as (_ & _ & _ & HN' & _).
      apply advance_iff in E; [|exact (ready_classic _ _ _ HM)|exact HN']. destruct E as (terms & js' & HT1 & ->).
      exists (fun k => if Nat.leb k M then sg k else js'), (fun k => if Nat.ltb k M then rcs k else rc). split; [cbn; exact H0|].
      rewrite (proj2 (Nat.leb_gt (S M) M)) by lia. split; [exact R1|]. intros k Hk. destruct (Nat.eq_dec k M) as [->|Hne].
      + rewrite Nat.leb_refl, Nat.ltb_irrefl. rewrite (proj2 (Nat.leb_gt (S M) M)) by lia. exists terms. exact HT1.
      + rewrite (proj2 (Nat.leb_le k M)), (proj2 (Nat.ltb_lt k M)), (proj2 (Nat.leb_le (S k) M)) by lia. apply HT. lia. }
  destruct (TR N) as (sg & rcs & H0 & _ & HT).
  refine (stack_run_complete T dt wf s N w s (runner_table (layerNo jl) used) two sg rcs (ready_classic _ _ _ HR) HN HC _ _ Hw H0 HT _).
  - split; [rewrite HP; symmetry; apply set_js_self|]. split; [intros j l Hj Hl; left; exact (HS j l Hj Hl)|]. exists used. split; [exact HU|].
    intros jl' Hl'. rewrite Hlast in Hl'. injection Hl' as <-. reflexivity.
  - exact H2M.
  - intros k Hk. unfold stack_resistance. rewrite HK. eauto.
Qed.
(** Two bilayers in series. *)
Definition ex_stack : stack :=
  STK Series (cdrv 5) true [] "free" "pinned" [1 / 2] true 0 [ex_junction 3 (CV 0 0 1); ex_junction 0 (CV 0 1 0)].
Lemma ex_stack_reachable : exists s0, mkStack Series [ex_junction 3 (CV 0 0 1); ex_junction 0 (CV 0 1 0)] "free" "pinned" 0 = Ok s0 /\
  (forall j, In j (s_js s0) -> fresh_member j) /\
  stack_history [KCurrent (cdrv 5); KCoupling (1/2)] s0 (set_s_js (map (with_current (cdrv 5)) (s_js ex_stack)) ex_stack).
Proof.
  eexists. split; [reflexivity|]. split.
  - intros j Hj. cbn in Hj. destruct Hj as [<-|[<-|[]]].
    + exists (ex_pair 3 (CV 0 0 1)). split; [right; left; exists 100, 200; reflexivity|]. cbn. constructor; [|constructor; [intros []|constructor]]. intros [X|[]]. discriminate.
    + exists (ex_pair 0 (CV 0 1 0)). split; [right; left; exists 100, 200; reflexivity|]. cbn. constructor; [|constructor; [intros []|constructor]]. intros [X|[]]. discriminate.
  - eapply SH_cons; [reflexivity|left; reflexivity|]. eapply SH_cons; [reflexivity|left; reflexivity|]. apply SH_nil.
Qed.
Lemma ex_pair_current J h d l : In l (ex_pair J h) -> runnable (set_l_current d l).
Proof.
  intros H. cbn in H. destruct h. destruct H as [<-|[<-|[]]]; (split; [|split; [reflexivity|discriminate]]);
  intros t m b top; apply plain_total; try reflexivity; try (cbn; lra); intros s.
  - exists (FI (CV cx cy cz) Zero Zero Zero 0 0 J 0 0 Zero Zero). repeat split.
  - exists (FI (CV cx cy cz) Zero Zero Zero 0 J 0 0 0 Zero Zero). repeat split.
Qed.
Lemma ex_carrier J h : carrier true Zero ex_stack (ex_junction J h).
Proof.
  split; [reflexivity|]. split; [right; reflexivity|]. split; [left; reflexivity|]. split; [right; left; reflexivity|].
  intros d l _ Hl. apply (ex_pair_current J h d l Hl).
Qed.
Lemma ex_stack_ready : stack_ready true Zero ex_stack.
Proof.
  split; [apply constructible_iff; cbn; split; discriminate|]. split; [reflexivity|]. split; [intros i _; exists (1/2); left; reflexivity|]. split; [discriminate|].
  intros j Hj. cbn in Hj. destruct Hj as [<-|[<-|[]]]; apply ex_carrier.
Qed.
Lemma stack_counts_10_2 : stack_counts 10 1 2 10 2.
Proof.
  split; [lra|]. split; [lra|]. split; (split; [lra|]); left; (split; [lra|]); left; cbn; lra.
Qed.
Lemma ex_stack_runs : exists s', stack_runSimulation 10 1 2 ex_stack = (s', Ok tt).
Proof.
  apply (stack_run_exists true Zero 10 1 2 ex_stack 10 2); [lra|reflexivity|left; split; [reflexivity|intros j [<-|[<-|[]]]; reflexivity]|exact ex_stack_ready|exact stack_counts_10_2|lia| |].
  - intros j l Hj Hl. cbn in Hj. destruct Hj as [<-|[<-|[]]]; cbn in Hl; destruct Hl as [<-|[<-|[]]]; reflexivity.
  - exists RK4. intros j Hj. split; [|reflexivity]. intros (l & Hl & Hn). exfalso.
    cbn in Hj. destruct Hj as [<-|[<-|[]]]; cbn in Hl; destruct Hl as [<-|[<-|[]]]; destruct Hn as [X|X]; try discriminate; apply X; reflexivity.
Qed.

(** A bilayer followed by a single pinned layer: the last member picks the single-layer runner for both. *)
Definition ex_ref_pair : junction :=
  JN MR_CLASSIC (map (set_l_reference (CV 1 0 0)) (ex_pair 3 (CV 0 0 1))) 100 200 [] [] [] [] [] [] [] [] 0 "R_free_pinned".
Definition ex_ref_single : junction :=
  JN MR_CLASSIC [set_l_reference (CV 1 0 0) (set_l_external (caxial (CV 0 0 1)) (ex_layer "free" (CV 0 1 0)))] 100 200 [] [] [] [] [] [] [] [] 0 "R".
Definition ex_mixed : stack := STK Series (cdrv 5) true [] "free" "pinned" [1 / 2] true 0 [ex_ref_pair; ex_ref_single].
Lemma ex_mixed_ready : stack_ready false (CV 1 0 0) ex_mixed.
Proof.
  assert (NZ : CV 1 0 0 <> Zero) by (intros X; injection X; lra).
  split; [apply constructible_iff; cbn; split; discriminate|]. split; [reflexivity|]. split; [intros i _; exists (1/2); left; reflexivity|]. split; [discriminate|].
  intros j [<-|[<-|[]]].
  - split; [reflexivity|]. split; [right; reflexivity|]. split; [left; reflexivity|]. split; [split; [reflexivity|split; [exact NZ|]]|].
    + intros l [<-|[<-|[]]]; reflexivity.
    + intros d l _ [<-|[<-|[]]]; (split; [|split; [reflexivity|discriminate]]); intros t m b top; apply plain_total; try reflexivity; try (cbn; lra); intros s.
      * exists (FI (CV 0 0 1) Zero Zero Zero 0 0 3 0 0 Zero Zero). repeat split.
      * exists (FI (CV 0 0 1) Zero Zero Zero 0 3 0 0 0 Zero Zero). repeat split.
  - split; [reflexivity|]. split; [left; reflexivity|]. split; [left; reflexivity|]. split; [split; [reflexivity|split; [exact NZ|]]|].
    + intros l [<-|[]]; reflexivity.
    + intros d l _ [<-|[]]; (split; [|split; [reflexivity|discriminate]]); intros t m b top; apply plain_total; try reflexivity; try (cbn; lra); intros s.
      exists (FI (CV 0 0 1) Zero Zero Zero 0 0 0 0 0 Zero Zero). repeat split.
Qed.
Lemma ex_mixed_quiet j : In j (s_js ex_mixed) -> ~ exists l, In l (j_layers j) /\ noisy l.
Proof.
  intros Hj (l & Hl & Hn). destruct Hj as [<-|[<-|[]]]; cbn in Hl; repeat (destruct Hl as [<-|Hl]; [destruct Hn as [X|X]; [discriminate|apply X; reflexivity]|]); destruct Hl.
Qed.
Lemma ex_mixed_runs : exists s', stack_runSimulation 10 1 2 ex_mixed = (s', Ok tt).
Proof.
  apply (stack_run_exists false (CV 1 0 0) 10 1 2 ex_mixed 10 2); [lra|reflexivity| |exact ex_mixed_ready|exact stack_counts_10_2|lia| |].
  - right. split; [reflexivity|]. exists 1%nat, ex_ref_single. split; [reflexivity|]. split; [cbn; lia|]. intros [|q] i Hq Hi; [cbn in Hi; injection Hi as <-; reflexivity|lia].
  - intros j l [<-|[<-|[]]] Hl; cbn in Hl; repeat (destruct Hl as [<-|Hl]; [reflexivity|]); destruct Hl.
  - exists RK4. intros j Hj. split; [|reflexivity]. intros X. destruct (ex_mixed_quiet j Hj X).
Qed.
(** The upper layer of the bilayer is under torque but does not move, whatever the run. *)
Lemma ex_mixed_frozen T dt wf s' : stack_runSimulation T dt wf ex_mixed = (s', Ok tt) ->
  exists j l, nth_error (s_js s') 0 = Some j /\ nth_error (j_layers j) 1 = Some l /\ l_mag l = CV 0 1 0.
Proof.
  intros E. apply stack_run_sound in E; [|intros j [<-|[<-|[]]]; reflexivity|discriminate].
  destruct E as (N & w & s0 & r & two & sg & rcs & rows & HC & (HS & _ & used & HU & HR) & HT & HE).
  assert (U : used = RK4). { apply (proj2 (HU ex_ref_pair (or_introl eq_refl))). apply ex_mixed_quiet. left; reflexivity. }
  subst used. specialize (HR ex_ref_single eq_refl). cbn in HR. subst r.
  assert (Hj0 : nth_error (s_js s0) 0 = Some (set_j_layers (map prepared (j_layers ex_ref_pair)) ex_ref_pair)) by (rewrite HS; reflexivity).
  assert (HE' := HE). destruct HE' as (E0 & _ & HSt & Es & _ & _ & _ & HL & HM).
  assert (LL : forall k, (k <= N)%nat -> exists jk, nth_error (sg k) 0 = Some jk /\ layerNo jk = 2%nat).
  { induction k as [|k IH]; intros Hk; [rewrite E0; eexists; split; [exact Hj0|reflexivity]|].
    destruct (IH ltac:(lia)) as (jk & Hjk & Lk). destruct (HSt k ltac:(lia)) as [terms HT']. assert (HT2 := HT'). destruct HT2 as (_ & L1 & _).
    destruct (nth_error_same_length _ _ _ _ L1 Hjk) as [jn Hjn]. exists jn. split; [exact Hjn|]. rewrite (step_layers _ _ _ _ _ _ _ _ _ _ _ _ HT' Hjk Hjn). exact Lk. }
  destruct (LL N (le_n N)) as (jN & HjN & LN). destruct (nth_error_same_length _ _ _ _ HL Hj0) as [j' Hj'].
  destruct (HM _ _ _ _ Hj0 HjN Hj') as [Ej _]. assert (Hp : (1 < length (j_layers jN))%nat) by (unfold layerNo in LN; lia).
  destruct (nth_some _ _ Hp) as [l Hl]. exists j', l. split; [exact Hj'|]. split; [rewrite Ej; exact Hl|].
  assert (X := single_run_upper _ _ _ _ _ _ _ _ _ HE N 0%nat _ jN 1%nat _ l (le_n N) Hj0 HjN (le_n 1) eq_refl Hl).
  rewrite X. unfold prepared. destruct (Req_EM_T _ 0); reflexivity.
Qed.
