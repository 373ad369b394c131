(** Interacting groups: the fields and one step. *)
From Verif Require Export P_Dipole.
Open Scope R_scope.
Open Scope st_scope.

Lemma at_index_iff {A} (xs : list A) i x : at_index xs i = Ok x <-> nth_error xs i = Some x.
Proof. unfold at_index. destruct (nth_error xs i); split; congruence. Qed.
Lemma still_vec v : axial_of_vec v = Ok (still v).
Proof. destruct v. reflexivity. Qed.
Lemma still_value v t : getCurrentAxialDrivers (still v) t = Ok v.
Proof. destruct v. reflexivity. Qed.
Lemma Plus_assoc a b c : Plus (Plus a b) c = Plus a (Plus b c).
Proof. vring. Qed.
Lemma Plus_zero_l a : Plus Zero a = a.
Proof. vring. Qed.
Lemma Plus_zero_r a : Plus a Zero = a.
Proof. vring. Qed.
Lemma Plus_comm a b : Plus a b = Plus b a.
Proof. vring. Qed.
Lemma Sum_nil : Sum [] = Zero.
Proof. reflexivity. Qed.
Lemma Sum_cons h hs : Sum (h :: hs) = Plus h (Sum hs).
Proof. reflexivity. Qed.
(** One contribution. *)
Definition gives (g : group) (i q : nat) (h : cvec) : Prop :=
  exists ri rq ji jq li lq, nth_error (g_coords g) i = Some ri /\ nth_error (g_coords g) q = Some rq /\
    nth_error (g_js g) i = Some ji /\ nth_error (g_js g) q = Some jq /\ first_with (g_top g) ji li /\ first_with (g_top g) jq lq /\
    g_fn g ri rq li lq = Ok h.
Lemma sum_extra_iff g i n : forall j acc H, sum_extra g i n j acc = Ok H <->
  exists hs, length hs = n /\ H = Plus acc (Sum hs) /\
    forall q h, nth_error hs q = Some h -> if Nat.eq_dec (j + q) i then h = Zero else gives g i (j + q) h.
Proof.
  induction n as [|n IH]; intros j acc H; cbn [sum_extra].
  - split.
    + intros E. injection E as <-. exists []. split; [reflexivity|]. split; [rewrite Sum_nil, Plus_zero_r; reflexivity|]. intros [|q] h X; discriminate.
    + intros (hs & L & -> & _). destruct hs; [|discriminate]. rewrite Sum_nil, Plus_zero_r. reflexivity.
  - destruct (Nat.eqb_spec i j) as [->|NE].
    + rewrite IH. split.
      * intros (hs & L & -> & P). exists (Zero :: hs). split; [cbn; congruence|]. split; [rewrite Sum_cons, Plus_zero_l; reflexivity|].
        intros [|q] h X; cbn in X.
        -- injection X as <-. rewrite Nat.add_0_r. destruct (Nat.eq_dec j j); [reflexivity|contradiction].
        -- rewrite Nat.add_succ_r. exact (P q h X).
      * intros (hs & L & -> & P). destruct hs as [|h hs]; [discriminate|]. assert (P0 := P 0%nat h eq_refl). rewrite Nat.add_0_r in P0.
        destruct (Nat.eq_dec j j); [|contradiction]. subst h. exists hs. split; [cbn in L; lia|]. split; [rewrite Sum_cons, Plus_zero_l; reflexivity|].
        intros q h X. specialize (P (S q) h X). rewrite Nat.add_succ_r in P. exact P.
    + split.
      * intros E.
        destruct (at_index (g_coords g) i) as [ri|] eqn:E1; cbn [rbind] in E; [|discriminate].
        destruct (at_index (g_coords g) j) as [rj|] eqn:E2; cbn [rbind] in E; [|discriminate].
        destruct (at_index (g_js g) i) as [ji|] eqn:E3; cbn [rbind] in E; [|discriminate].
        destruct (getLayer ji (g_top g)) as [li|] eqn:E4; cbn [rbind] in E; [|discriminate].
        destruct (at_index (g_js g) j) as [jj|] eqn:E5; cbn [rbind] in E; [|discriminate].
        destruct (getLayer jj (g_top g)) as [lj|] eqn:E6; cbn [rbind] in E; [|discriminate].
        destruct (g_fn g ri rj li lj) as [h0|] eqn:E7; cbn [rbind] in E; [|discriminate].
        apply at_index_iff in E1, E2, E3, E5. apply getLayer_iff in E4, E6.
        apply IH in E. destruct E as (hs & L & -> & P). exists (h0 :: hs). split; [cbn; congruence|]. split; [rewrite Sum_cons, vadd_Plus, Plus_assoc; reflexivity|].
        intros [|q] h X; cbn in X.
        -- injection X as <-. rewrite Nat.add_0_r. destruct (Nat.eq_dec j i); [congruence|]. exists ri, rj, ji, jj, li, lj. auto 10.
        -- rewrite Nat.add_succ_r. exact (P q h X).
      * intros (hs & L & -> & P). destruct hs as [|h hs]; [discriminate|]. assert (P0 := P 0%nat h eq_refl). rewrite Nat.add_0_r in P0.
        destruct (Nat.eq_dec j i); [congruence|]. destruct P0 as (ri & rj & ji & jj & li & lj & E1 & E2 & E3 & E5 & E4 & E6 & E7).
        apply at_index_iff in E1, E2, E3, E5. apply getLayer_iff in E4, E6. rewrite E1, E2, E3. cbn [rbind]. rewrite E4, E5. cbn [rbind]. rewrite E6. cbn [rbind]. rewrite E7.
        cbn [rbind]. apply IH. exists hs. split; [cbn in L; lia|]. split; [rewrite Sum_cons, vadd_Plus, Plus_assoc; reflexivity|].
        intros q h1 X. specialize (P (S q) h1 X). rewrite Nat.add_succ_r in P. exact P.
Qed.
Lemma field_iff g i H : sum_extra g i (length (g_js g)) 0 vnull = Ok H <->
  field_of_others (g_fn g) (g_coords g) (g_top g) (length (g_js g)) (fun q => nth_error (g_js g) q) i H.
Proof.
  rewrite sum_extra_iff, vnull_Zero. unfold field_of_others. split; intros (hs & L & E & P); exists hs; (split; [exact L|]);
    (split; [rewrite E, ?Plus_zero_l; reflexivity|exact P]).
Qed.
Lemma field_ext f cs top n at1 at2 i H : (forall q, (q < n)%nat \/ q = i -> at1 q = at2 q) -> field_of_others f cs top n at1 i H -> field_of_others f cs top n at2 i H.
Proof.
  intros E (hs & L & EH & P). exists hs. split; [exact L|]. split; [exact EH|]. intros q h X. specialize (P q h X). assert (Hq := nth_lt _ _ _ X).
  destruct (Nat.eq_dec q i); [exact P|]. rewrite <- (E q), <- (E i) by lia. exact P.
Qed.
Lemma field_det f cs top n at_ i H K : field_of_others f cs top n at_ i H -> field_of_others f cs top n at_ i K -> H = K.
Proof.
  intros (hs & L & -> & P) (ks & M & -> & Q). f_equal. apply list_nth_ext; [congruence|]. intros q h k Hh Hk. specialize (P q h Hh). specialize (Q q k Hk).
  destruct (Nat.eq_dec q i); [congruence|]. destruct P as (ri & rq & ji & jq & li & lq & A1 & A2 & A3 & A4 & A5 & A6 & A7).
  destruct Q as (ri' & rq' & ji' & jq' & li' & lq' & B1 & B2 & B3 & B4 & B5 & B6 & B7).
  rewrite A1 in B1. rewrite A2 in B2. rewrite A3 in B3. rewrite A4 in B4. injection B1 as <-. injection B2 as <-. injection B3 as <-. injection B4 as <-.
  apply getLayer_iff in A5, A6, B5, B6. rewrite A5 in B5. rewrite A6 in B6. injection B5 as <-. injection B6 as <-. congruence.
Qed.
(** Setting the reserved field. *)
Lemma receives_iff top H j j1 : junction_set top (SReserved (still H)) j = (j1, Ok tt) <-> receives top H j j1.
Proof.
  destruct (j_layers j) as [|l ls] eqn:EL.
  - split.
    + cbn [junction_set]. unfold setLayerReservedInteractionField, layerSetter. rewrite EL. intros E. discriminate.
    + intros [_ (p & l & X & _)]. rewrite EL in X. destruct p; discriminate.
  - unfold receives. rewrite (set_iff top (SReserved (still H)) j j1) by (rewrite EL; discriminate). reflexivity.
Qed.
Lemma set_nth_length {A} (a : A) xs : forall i, length (set_nth i a xs) = length xs.
Proof. induction xs as [|x xs IH]; intros [|i]; cbn; congruence. Qed.
Lemma set_nth_same {A} (a : A) xs : forall i, (i < length xs)%nat -> nth_error (set_nth i a xs) i = Some a.
Proof. induction xs as [|x xs IH]; intros [|i] H; cbn in *; try lia; [reflexivity|apply IH; lia]. Qed.
Lemma set_nth_other {A} (a : A) xs : forall i q, q <> i -> nth_error (set_nth i a xs) q = nth_error xs q.
Proof. induction xs as [|x xs IH]; intros [|i] [|q] H; cbn; try reflexivity; try congruence. apply IH. lia. Qed.
Lemma set_g_self g : set_g_js (g_js g) g = g.
Proof. destruct g. reflexivity. Qed.
Lemma set_extra_sound n : forall i g g', (i + n = length (g_js g))%nat -> set_extra n i g = (g', Ok tt) ->
  g' = set_g_js (g_js g') g /\ length (g_js g') = length (g_js g) /\
  (forall q, (q < i)%nat -> nth_error (g_js g') q = nth_error (g_js g) q) /\
  forall q j j1, (i <= q)%nat -> nth_error (g_js g) q = Some j -> nth_error (g_js g') q = Some j1 ->
    exists H, field_of_others (g_fn g) (g_coords g) (g_top g) (length (g_js g))
                (fun p => nth_error (if Nat.ltb p q then g_js g' else g_js g) p) q H /\ receives (g_top g) H j j1.
Proof.
  induction n as [|n IH]; intros i g g' Hi E; cbn [set_extra] in E.
  - apply ret_inv in E. destruct E as [-> _]. split; [symmetry; apply set_g_self|]. split; [reflexivity|]. split; [reflexivity|].
    intros q j j1 Hq Hj. apply nth_lt in Hj. lia.
  - apply bind_inv in E. destruct E as (g0 & g1 & E0 & E). apply get_inv in E0. destruct E0 as [-> ->].
    apply bind_inv in E. destruct E as (g0 & h & E0 & E). apply lift_inv in E0. destruct E0 as [-> E0].
    apply bind_inv in E. destruct E as (g0 & d & E1 & E). apply lift_inv in E1. destruct E1 as [-> E1].
    rewrite still_vec in E1. apply Ok_inj in E1. subst d.
    apply bind_inv in E. destruct E as (g1 & [] & E1 & E). apply field_iff in E0.
    destruct (on_member i _ (g_js g)) as [js x] eqn:EM. injection E1 as <- ->.
    apply (proj1 (on_member_iff _ (g_js g) i js (Ok tt) ltac:(lia))) in EM. destruct EM as (L & (j & j1 & Hj & Hj1 & ES) & HO).
    change (setLayerReservedInteractionField (g_top g) (still h) j) with (junction_set (g_top g) (SReserved (still h)) j) in ES. apply receives_iff in ES.
    apply IH in E; [|cbn [g_js set_g_js]; lia]. cbn [g_js g_fn g_coords g_top set_g_js] in E. destruct E as (A & B & C & D).
    split; [rewrite A at 1; reflexivity|]. split; [congruence|]. split.
    + intros q Hq. rewrite C by lia. apply HO. lia.
    + intros q k k1 Hq Hk Hk1. destruct (Nat.eq_dec q i) as [->|NE].
      * rewrite C in Hk1 by lia. rewrite Hk in Hj. injection Hj as <-. rewrite Hk1 in Hj1. injection Hj1 as <-. exists h. split; [|exact ES].
        eapply field_ext; [|exact E0]. intros p _. cbv beta. destruct (Nat.ltb_spec p i) as [Hp|Hp]; [|reflexivity]. rewrite C, HO by lia. reflexivity.
      * destruct (D q k k1) as (H & F & RC); [lia|rewrite HO by exact NE; exact Hk|exact Hk1|]. exists H. split; [|exact RC].
        rewrite L in F. eapply field_ext; [|exact F]. intros p _. cbv beta. destruct (Nat.ltb_spec p q) as [Hp|Hp]; [reflexivity|]. apply HO. lia.
Qed.
Lemma set_extra_complete n : forall i g js1, (i + n = length (g_js g))%nat -> length js1 = length (g_js g) ->
  (forall q, (q < i)%nat -> nth_error js1 q = nth_error (g_js g) q) ->
  (forall q j j1, (i <= q)%nat -> nth_error (g_js g) q = Some j -> nth_error js1 q = Some j1 ->
    exists H, field_of_others (g_fn g) (g_coords g) (g_top g) (length (g_js g))
                (fun p => nth_error (if Nat.ltb p q then js1 else g_js g) p) q H /\ receives (g_top g) H j j1) ->
  set_extra n i g = (set_g_js js1 g, Ok tt).
Proof.
  induction n as [|n IH]; intros i g js1 Hi L HL HP; cbn [set_extra].
  - replace js1 with (g_js g); [rewrite set_g_self; reflexivity|]. apply list_nth_ext; [congruence|]. intros q x y Hx Hy.
    rewrite HL in Hy by (apply nth_lt in Hx; lia). congruence.
  - destruct (nth_some (g_js g) i ltac:(lia)) as [j Hj]. destruct (nth_some js1 i ltac:(lia)) as [j1 Hj1].
    destruct (HP i j j1 ltac:(lia) Hj Hj1) as (H & F & RC).
    assert (F0 : field_of_others (g_fn g) (g_coords g) (g_top g) (length (g_js g)) (fun q => nth_error (g_js g) q) i H).
    { eapply field_ext; [|exact F]. intros p _. cbv beta. destruct (Nat.ltb_spec p i) as [Hp|Hp]; [|reflexivity]. apply HL, Hp. }
    apply field_iff in F0. apply receives_iff in RC. unfold bind at 1. unfold get. unfold bind at 1. unfold lift at 1. rewrite F0.
    unfold bind at 1. unfold lift. rewrite still_vec. unfold bind at 1.
    set (js2 := set_nth i j1 (g_js g)).
    assert (N2 : forall q, nth_error js2 q = if Nat.eq_dec q i then Some j1 else nth_error (g_js g) q).
    { intros q. unfold js2. destruct (Nat.eq_dec q i) as [->|]; [apply set_nth_same; lia|apply set_nth_other; assumption]. }
    assert (L2 : length js2 = length (g_js g)).
    { apply set_nth_length. }
    rewrite (proj2 (on_member_iff (setLayerReservedInteractionField (g_top g) (still H)) (g_js g) i js2 (Ok tt) ltac:(lia))).
    2:{ split; [exact L2|]. split.
        - exists j, j1. split; [exact Hj|]. split; [rewrite N2; destruct (Nat.eq_dec i i); [reflexivity|contradiction]|exact RC].
        - intros q Hq. rewrite N2. destruct (Nat.eq_dec q i); [contradiction|reflexivity]. }
    rewrite (IH (S i) (set_g_js js2 g) js1); [destruct g; reflexivity| | | |]; cbn [g_js g_fn g_coords g_top set_g_js]; rewrite ?L2.
    + lia.
    + exact L.
    + intros q Hq. rewrite N2. destruct (Nat.eq_dec q i) as [->|]; [exact Hj1|]. apply HL. lia.
    + intros q k k1 Hq Hk Hk1. rewrite N2 in Hk. destruct (Nat.eq_dec q i); [lia|]. destruct (HP q k k1 ltac:(lia) Hk Hk1) as (K & FK & RK).
      exists K. split; [|exact RK]. eapply field_ext; [|exact FK]. intros p _. cbv beta. destruct (Nat.ltb_spec p q) as [Hp|Hp]; [reflexivity|].
      rewrite N2. destruct (Nat.eq_dec p i); [lia|reflexivity].
Qed.
Lemma group_each_iff f g g' : group_each f g = (g', Ok tt) <->
  g' = set_g_js (g_js g') g /\ Forall2 (fun j j' => f j = (j', Ok tt)) (g_js g) (g_js g').
Proof.
  unfold group_each. destruct (on_junctions f (g_js g)) as [js x] eqn:E. split.
  - intros X. injection X as <- ->. split; [reflexivity|]. apply on_junctions_iff, E.
  - intros [-> F]. cbn [g_js set_g_js] in F. apply on_junctions_iff in F. rewrite F in E. injection E as <- <-. reflexivity.
Qed.
(** One step, as the code does it. *)
Lemma step_sequential t dt r g g' : stepFunctionalSolver t dt r g = (g', Ok tt) <->
  g' = set_g_js (g_js g') g /\ group_step_sequential (g_fn g) (g_coords g) (g_top g) r t dt (g_js g) (g_js g').
Proof.
  unfold stepFunctionalSolver. split.
  - intros E. apply bind_inv in E. destruct E as (g0 & g1 & E0 & E). apply get_inv in E0. destruct E0 as [-> ->].
    apply bind_inv in E. destruct E as (g1 & [] & E0 & E). apply set_extra_sound in E0; [|reflexivity]. destruct E0 as (A & B & _ & D).
    apply group_each_iff in E. destruct E as [E F]. split; [rewrite E at 1; rewrite A at 1; reflexivity|].
    apply Forall2_nth in F. destruct F as [LF F]. split; [congruence|]. exists (g_js g1). split; [exact B|].
    intros i j j1 j' Hj Hj1 Hj'. split; [exact (D i j j1 ltac:(lia) Hj Hj1)|exact (F i j1 j' Hj1 Hj')].
  - intros [-> (L & js1 & L1 & P)]. cbn [g_js set_g_js] in L, P. unfold bind at 1. unfold get. unfold bind.
    rewrite (set_extra_complete (length (g_js g)) 0 g js1); [|reflexivity|exact L1|intros; lia|].
    + apply group_each_iff. cbn [g_js set_g_js]. split; [destruct g; reflexivity|]. apply Forall2_nth. split; [congruence|].
      intros i j1 j' Hj1 Hj'. destruct (nth_some (g_js g) i) as [j Hj]; [apply nth_lt in Hj1; lia|]. apply (P i j j1 j' Hj Hj1 Hj').
    + intros q j j1 _ Hj Hj1. destruct (nth_some (g_js g') q) as [j' Hj']; [apply nth_lt in Hj; lia|]. apply (P q j j1 j' Hj Hj1 Hj').
Qed.
