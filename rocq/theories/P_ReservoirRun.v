(** Reservoirs: steps, runs, log and setters. *)
From Verif Require Export P_Reservoir.
Open Scope R_scope.
Open Scope st_scope.

(** ** Member calls on one layer *)
Lemma on_layer_ok {A} i (f : ST layer A) r r' x : on_layer i f r = (r', Ok x) <->
  r_cols r <> 0%nat /\ exists l l', cell (r_layers r) (r_cols r) i = Some l /\ f l = (l', Ok x) /\
    r' = set_r_layers (set2 (i / r_cols r, i mod r_cols r)%nat l' (r_layers r)) r.
Proof.
  unfold on_layer, getMatrixCoordinates. destruct (Nat.eqb_spec (r_cols r) 0) as [HC|HC]; cbn [rbind]; [split; [discriminate|intros [X _]; contradiction]|].
  destruct (at_index2 (r_layers r) _) as [l|e] eqn:E; cbn [rbind].
  - apply index2_iff in E. destruct (f l) as [l' y] eqn:F. split.
    + intros X. injection X as <- ->. split; [exact HC|]. exists l, l'. auto.
    + intros (_ & l0 & l0' & C & F0 & ->). unfold cell in C. rewrite E in C. injection C as <-. rewrite F in F0. injection F0 as <- ->. reflexivity.
  - split; [discriminate|]. intros (_ & l0 & l0' & C & _). unfold cell in C. apply index2_iff in C. congruence.
Qed.
Lemma changed_iff {A} i (f : ST layer A) (P : layer -> layer -> Prop) r r' : (exists x, on_layer i f r = (r', Ok x)) <->
  r_cols r <> 0%nat /\ cell_changed i r r' (fun l l' => exists x, f l = (l', Ok x)).
Proof.
  split.
  - intros [x E]. apply on_layer_ok in E. destruct E as (HC & l & l' & C & F & ->). split; [exact HC|]. unfold cell_changed. cbn [r_layers set_r_layers r_cols].
    assert (N : entry (r_layers r) (i / r_cols r) (i mod r_cols r) <> None) by (unfold cell in C; congruence).
    split; [reflexivity|]. split; [apply set2_shape|]. split.
    + exists l, l'. split; [exact C|]. split; [unfold cell; rewrite set2_entry by exact N; rewrite !Nat.eqb_refl; reflexivity|eauto].
    + intros p q H. rewrite set2_entry by exact N. destruct (Nat.eqb_spec p (i / r_cols r)), (Nat.eqb_spec q (i mod r_cols r)); cbn [andb]; try reflexivity. destruct H; contradiction.
  - intros (HC & E & SH & (l & l' & C & C' & x & F) & FR). exists x. apply on_layer_ok. split; [exact HC|]. exists l, l'. split; [exact C|]. split; [exact F|].
    rewrite E at 1. f_equal.
    assert (N : entry (r_layers r) (i / r_cols r) (i mod r_cols r) <> None) by (unfold cell in C; congruence).
    apply matrix_ext.
    + destruct SH as [L1 S1]. destruct (set2_shape (i / r_cols r) (i mod r_cols r) l' (r_layers r)) as [L2 S2]. split; [congruence|].
      intros p a b Ha Hb. destruct (nth_some (r_layers r) p) as [c Hc]; [apply nth_lt in Hb; lia|]. rewrite (S1 p c b Hc Hb), (S2 p c a Hc Ha). reflexivity.
    + intros p q. rewrite set2_entry by exact N. destruct (Nat.eqb_spec p (i / r_cols r)) as [->|NP]; cbn [andb]; [|apply FR; auto].
      destruct (Nat.eqb_spec q (i mod r_cols r)) as [->|NQ]; [exact C'|apply FR; auto].
Qed.

(** ** One step *)
Lemma dipole_layers ls r e v : reservoir_dipole (set_r_layers ls r) e v = reservoir_dipole r e v.
Proof.
  assert (G : forall ts i acc, sum_dipoles (set_r_layers ls r) ts i acc = sum_dipoles r ts i acc).
  { induction ts as [|t ts IH]; intros i acc; cbn [sum_dipoles]; [reflexivity|]. cbn [r_frozen r_Ms set_r_layers].
    destruct (at_index (r_frozen r) i) as [m|]; cbn [rbind]; [|reflexivity]. destruct (at_index (r_Ms r) i); cbn [rbind]; [apply IH|reflexivity]. }
  unfold reservoir_dipole. cbn [r_tensors set_r_layers]. destruct (at_index (r_tensors r) e); cbn [rbind]; [rewrite G|]; reflexivity.
Qed.
Lemma steps_sound t dt n : forall i r r', step_layers_from t dt n i r = (r', Ok tt) ->
  r' = set_r_layers (r_layers r') r /\ same_shape (r_layers r) (r_layers r') /\
  (forall e, (i <= e < i + n)%nat -> exists l l' v d, cell (r_layers r) (r_cols r) e = Some l /\ cell (r_layers r') (r_cols r) e = Some l' /\
     nth_error (r_vol r) e = Some v /\ reservoir_dipole r e v = Ok d /\ rk4_stepDipoleInjection t dt vnull vnull d l = (l', Ok tt)) /\
  forall p q, (forall e, (i <= e < i + n)%nat -> p <> (e / r_cols r)%nat \/ q <> (e mod r_cols r)%nat) -> entry (r_layers r') p q = entry (r_layers r) p q.
Proof.
  induction n as [|n IH]; intros i r r' E; cbn [step_layers_from] in E.
  - apply ret_inv in E. destruct E as [-> _]. split; [destruct r; reflexivity|]. split; [apply shape_self|]. split; [intros; lia|reflexivity].
  - apply bind_inv in E. destruct E as (r0 & r1 & E0 & E). apply get_inv in E0. destruct E0 as [-> ->].
    apply bind_inv in E. destruct E as (r0 & v & E0 & E). apply lift_inv in E0. destruct E0 as [-> Ev].
    apply bind_inv in E. destruct E as (r0 & d & E0 & E). apply lift_inv in E0. destruct E0 as [-> Ed].
    apply bind_inv in E. destruct E as (r0 & [] & E0 & E). apply on_layer_ok in E0. destruct E0 as (HC & l & l' & C & F & ->).
    apply IH in E. destruct E as (Er & SH & P & FR). cbn [r_layers set_r_layers r_cols r_vol] in *.
    assert (N : entry (r_layers r) (i / r_cols r) (i mod r_cols r) <> None) by (unfold cell in C; congruence).
    split; [rewrite Er; reflexivity|]. split; [exact (shape_compose _ _ _ (set2_shape _ _ _ _) SH)|]. split.
    + intros e He. destruct (Nat.eq_dec e i) as [->|NE].
      * exists l, l', v, d. split; [exact C|]. split; [|split; [apply at_index_iff, Ev|split; [exact Ed|exact F]]].
        unfold cell. rewrite FR; [rewrite set2_entry by exact N; rewrite !Nat.eqb_refl; reflexivity|]. intros e He'.
        destruct (Nat.eq_dec (i / r_cols r) (e / r_cols r)) as [E1|E1]; [|left; exact E1]. right. intros E2. assert (X := same_position _ _ _ HC E1 E2). lia.
      * destruct (P e ltac:(lia)) as (k & k' & v' & d' & X1 & X2 & X3 & X4 & X5). exists k, k', v', d'. split; [|split; [exact X2|split; [exact X3|split; [rewrite <- X4; symmetry; apply dipole_layers|exact X5]]]].
        unfold cell in X1. rewrite set2_entry in X1 by exact N.
        destruct (Nat.eqb_spec (e / r_cols r) (i / r_cols r)) as [E1|E1]; cbn [andb] in X1; [|exact X1].
        destruct (Nat.eqb_spec (e mod r_cols r) (i mod r_cols r)) as [E2|E2]; [|exact X1]. destruct (NE (same_position _ _ _ HC E1 E2)).
    + intros p q H. rewrite FR by (intros e He; apply H; lia). rewrite set2_entry by exact N.
      destruct (Nat.eqb_spec p (i / r_cols r)), (Nat.eqb_spec q (i mod r_cols r)); cbn [andb]; try reflexivity. destruct (H i ltac:(lia)); contradiction.
Qed.
Lemma steps_total t dt n : forall i r, r_cols r <> 0%nat ->
  (forall e, (i <= e < i + n)%nat -> exists l l' v d, cell (r_layers r) (r_cols r) e = Some l /\
     nth_error (r_vol r) e = Some v /\ reservoir_dipole r e v = Ok d /\ rk4_stepDipoleInjection t dt vnull vnull d l = (l', Ok tt)) ->
  exists r', step_layers_from t dt n i r = (r', Ok tt).
Proof.
  induction n as [|n IH]; intros i r HC H; cbn [step_layers_from]; [eexists; reflexivity|].
  destruct (H i ltac:(lia)) as (l & l' & v & d & C & V & D & F). unfold bind at 1, get. unfold bind at 1, lift at 1. rewrite (proj2 (at_index_iff _ _ _) V).
  unfold bind at 1, lift at 1. rewrite D. unfold bind at 1.
  rewrite (proj2 (on_layer_ok i (rk4_stepDipoleInjection t dt vnull vnull d) r (set_r_layers (set2 (i / r_cols r, i mod r_cols r)%nat l' (r_layers r)) r) tt)).
  2:{ split; [exact HC|]. exists l, l'. auto. }
  assert (N : entry (r_layers r) (i / r_cols r) (i mod r_cols r) <> None) by (unfold cell in C; congruence).
  apply IH; cbn [r_layers set_r_layers r_cols r_vol]; [exact HC|]. intros e He. destruct (H e ltac:(lia)) as (k & k' & v' & d' & X1 & X2 & X3 & X4). exists k, k', v', d'.
  split; [|split; [exact X2|split; [rewrite dipole_layers; exact X3|exact X4]]]. unfold cell. rewrite set2_entry by exact N.
  destruct (Nat.eqb_spec (e / r_cols r) (i / r_cols r)) as [E1|E1]; cbn [andb]; [|exact X1].
  destruct (Nat.eqb_spec (e mod r_cols r) (i mod r_cols r)) as [E2|E2]; [|exact X1]. assert (X := same_position _ _ _ HC E1 E2). lia.
Qed.
Lemma wired_cols r : wired r -> r_cols r <> 0%nat.
Proof. intros (H & _) X. unfold noElements in H. rewrite X in H. lia. Qed.
Lemma frozen_iff r r' ms : wired r -> (collectFrozenMMatrix r = (r', Ok ms) <->
  per_cell (r_layers r) (r_cols r) (noElements r) l_mag ms /\ r' = set_r_frozen ms r).
Proof.
  intros W. assert (HC := wired_cols r W). assert (Hn : (0 < noElements r)%nat) by (destruct W; lia).
  unfold collectFrozenMMatrix, bind, get, lift, modify, ret. destruct (collect l_mag (r_layers r) (r_cols r) (noElements r) 0) as [xs|e] eqn:E.
  - apply collect_cells in E; [|exact Hn]. destruct E as [_ E]. split.
    + intros X. injection X as <- <-. auto.
    + intros [P ->]. rewrite (per_cell_det _ _ _ _ _ _ P E). reflexivity.
  - split; [discriminate|]. intros [P _]. assert (X := proj2 (collect_cells l_mag (r_layers r) (r_cols r) (noElements r) ms Hn) (conj HC P)). congruence.
Qed.
Lemma frozen_wired r ms : wired r -> length ms = noElements r -> wired (set_r_frozen ms r).
Proof. intros W _. exact W. Qed.
Lemma step_sound t dt r r' : wired r -> runSolver t dt r = (r', Ok tt) -> reservoir_step t dt r r'.
Proof.
  intros W E. unfold runSolver in E. apply bind_inv in E. destruct E as (r1 & ms & E1 & E). apply (frozen_iff r r1 ms W) in E1. destruct E1 as [P ->].
  apply bind_inv in E. destruct E as (r0 & r1 & E0 & E). apply get_inv in E0. destruct E0 as [-> ->]. apply steps_sound in E. destruct E as (Er & SH & Q & FR).
  change (noElements (set_r_frozen ms r)) with (noElements r) in *. cbn [r_layers r_cols r_vol set_r_frozen] in *.
  assert (EF : r_frozen r' = ms) by (rewrite Er; reflexivity). unfold reservoir_step. rewrite EF.
  split; [exact Er|]. split; [exact P|]. split; [exact SH|]. split.
  - intros e l l' He Cl Cl'. destruct (Q e ltac:(lia)) as (k & k' & v & d & X1 & X2 & X3 & X4 & X5). rewrite Cl in X1. rewrite Cl' in X2. injection X1 as <-. injection X2 as <-.
    exists d. split; [|rewrite !vnull_Zero in X5; exact X5].
    assert (W' : wired (set_r_frozen ms r)) by exact W. exact (proj1 (field_cell_iff (set_r_frozen ms r) e d W' He) (ex_intro _ v (conj X3 X4))).
  - intros p q H. apply FR. intros e He. unfold noElements in He. destruct (position_bound (r_rows r) (r_cols r) e ltac:(lia)) as [B1 B2]. destruct H; [left|right]; lia.
Qed.
Lemma entry_outside {A} (m m' : list (list A)) p q : same_shape m m' -> entry m p q = None -> entry m' p q = None.
Proof.
  intros [L S] H. unfold entry in *. destruct (nth_error m' p) as [row'|] eqn:E; [|reflexivity]. destruct (nth_some m p) as [row Hr]; [apply nth_lt in E; lia|].
  rewrite Hr in H. apply nth_error_None. apply nth_error_None in H. rewrite (S p row row' Hr E). exact H.
Qed.
Lemma cell_present {A} (m m' : list (list A)) cols e l : same_shape m m' -> cell m cols e = Some l -> exists l', cell m' cols e = Some l'.
Proof.
  intros [L S] H. apply entry_row in H. destruct H as (row & H1 & H2). destruct (nth_error_same_length _ _ _ _ L H1) as [row' H1'].
  destruct (nth_some row' (e mod cols)) as [l' Hl']; [rewrite (S _ _ _ H1 H1'); exact (nth_lt _ _ _ H2)|]. exists l'. apply entry_row. eauto.
Qed.
Lemma step_det t dt r a b : wired r -> reservoir_step t dt r a -> reservoir_step t dt r b -> a = b.
Proof.
  intros W (Ea & Pa & Sa & Qa & Fa) (Eb & Pb & Sb & Qb & Fb). assert (HC := wired_cols r W).
  assert (X : r_frozen a = r_frozen b) by exact (per_cell_det _ _ _ _ _ _ Pa Pb). rewrite Ea, Eb, X. f_equal. symmetry. apply matrix_ext.
  - destruct Sa as [L1 S1], Sb as [L2 S2]. split; [congruence|]. intros p u v Hu Hv. destruct (nth_some (r_layers r) p) as [c Hc]; [apply nth_lt in Hv; lia|].
    rewrite (S2 p c v Hc Hv), (S1 p c u Hc Hu). reflexivity.
  - intros p q. destruct (Nat.lt_ge_cases p (r_rows r)) as [Hp|Hp]; [|rewrite Fa, Fb by auto; reflexivity].
    destruct (Nat.lt_ge_cases q (r_cols r)) as [Hq|Hq]; [|rewrite Fa, Fb by auto; reflexivity].
    set (e := (p * r_cols r + q)%nat). assert (He : (e < noElements r)%nat) by (unfold noElements, e; nia).
    assert (E1 : (e / r_cols r = p)%nat) by (unfold e; rewrite Nat.div_add_l by exact HC; rewrite Nat.div_small by exact Hq; lia).
    assert (E2 : (e mod r_cols r = q)%nat) by (unfold e; rewrite Nat.add_comm, Nat.mod_add by exact HC; apply Nat.mod_small, Hq).
    destruct W as (_ & _ & _ & _ & WL). destruct (WL e He) as [l Hl]. destruct (cell_present _ _ _ _ _ Sa Hl) as [la Hla]. destruct (cell_present _ _ _ _ _ Sb Hl) as [lb Hlb].
    destruct (Qa e l la He Hl Hla) as (H & AH & RH). destruct (Qb e l lb He Hl Hlb) as (K & AK & RK). rewrite <- X in AK. assert (HK := applied_det _ _ _ _ _ AH AK). subst K.
    rewrite RH in RK. injection RK as <-. unfold cell in Hla, Hlb. rewrite E1, E2 in Hla, Hlb. congruence.
Qed.
Lemma step_exists t dt r : wired r -> (forall e l H, (e < noElements r)%nat -> cell (r_layers r) (r_cols r) e = Some l -> exists l', rk4_stepDipoleInjection t dt Zero Zero H l = (l', Ok tt)) ->
  exists r', runSolver t dt r = (r', Ok tt).
Proof.
  intros W HS. assert (HC := wired_cols r W). assert (W' := W). destruct W' as (_ & _ & _ & _ & WL). destruct (per_cell_exists (r_layers r) (r_cols r) (noElements r) l_mag WL) as [ms P].
  unfold runSolver. unfold bind at 1. rewrite (proj2 (frozen_iff r (set_r_frozen ms r) ms W) (conj P eq_refl)). unfold bind at 1, get.
  change (noElements (set_r_frozen ms r)) with (noElements r). apply steps_total; cbn [r_cols r_layers r_vol set_r_frozen]; [exact HC|]. intros e He.
  assert (WF : wired (set_r_frozen ms r)) by exact W. destruct (applied_exists (set_r_frozen ms r) ms e WF (proj2 He) (proj1 P)) as [H AH].
  change ms with (r_frozen (set_r_frozen ms r)) in AH at 2. apply (field_cell_iff _ _ _ WF (proj2 He)) in AH. destruct AH as (v & V & D).
  destruct (WL e ltac:(lia)) as [l Hl]. destruct (HS e l H ltac:(lia) Hl) as [l' F]. exists l, l', v, H. rewrite !vnull_Zero. auto.
Qed.
Lemma step_complete t dt r r' : wired r -> reservoir_step t dt r r' -> runSolver t dt r = (r', Ok tt).
Proof.
  intros W HR. assert (HR' := HR). destruct HR' as (Er & P & SH & Q & FR). assert (HC := wired_cols r W). assert (W' := W). destruct W' as (_ & _ & _ & _ & WL).
  assert (X : exists r2, runSolver t dt r = (r2, Ok tt)).
  { unfold runSolver. unfold bind at 1. rewrite (proj2 (frozen_iff r (set_r_frozen (r_frozen r') r) (r_frozen r') W) (conj P eq_refl)). unfold bind at 1, get.
    set (ms := r_frozen r') in *. change (noElements (set_r_frozen ms r)) with (noElements r). apply steps_total; cbn [r_cols r_layers r_vol set_r_frozen]; [exact HC|]. intros e He.
    assert (WF : wired (set_r_frozen ms r)) by exact W. destruct (WL e ltac:(lia)) as [l Hl]. destruct (cell_present _ _ _ _ _ SH Hl) as [l' Hl'].
    destruct (Q e l l' ltac:(lia) Hl Hl') as (H & AH & F).
    assert (AH' : applied_field (set_r_frozen ms r) (r_frozen (set_r_frozen ms r)) e H) by exact AH.
    apply (field_cell_iff _ _ _ WF (proj2 He)) in AH'. destruct AH' as (v & V & D). exists l, l', v, H. rewrite !vnull_Zero. auto. }
  destruct X as [r2 E]. rewrite E. f_equal. exact (step_det _ _ _ _ _ W (step_sound _ _ _ _ W E) HR).
Qed.
Lemma step_iff t dt r r' : wired r -> (runSolver t dt r = (r', Ok tt) <-> reservoir_step t dt r r').
Proof. intros W. split; [apply step_sound, W|apply step_complete, W]. Qed.
Lemma step_wired t dt r r' : wired r -> reservoir_step t dt r r' -> wired r'.
Proof.
  intros (H2 & T & LM & LV & WL) (E & _ & SH & _). unfold wired, noElements in *. rewrite E. cbn [r_coords r_cols r_rows r_Ms r_vol r_tensors r_layers set_r_layers set_r_frozen].
  split; [exact H2|]. split; [exact T|]. split; [exact LM|]. split; [exact LV|]. intros e He. destruct (WL e He) as [l Hl]. exact (cell_present _ _ _ _ _ SH Hl).
Qed.

(** ** Log *)
Lemma log_cells_iff cols ls n : forall i g g', log_cells cols n i ls g = Ok g' <->
  (n = 0%nat \/ cols <> 0%nat) /\ exists ms, length ms = n /\ (forall e m, nth_error ms e = Some m -> exists l, cell ls cols (i + e) = Some l /\ m = l_mag l) /\
    g' = push_all (concat (mapi (cell_row cols) i ms)) g.
Proof.
  induction n as [|n IH]; intros i g g'; cbn [log_cells].
  - split.
    + intros E. injection E as <-. split; [auto|]. exists []. split; [reflexivity|]. split; [intros [|e] m X; discriminate|reflexivity].
    + intros (_ & ms & L & _ & ->). destruct ms; [reflexivity|discriminate].
  - split.
    + intros E. destruct (getMatrixCoordinates cols i) as [p|] eqn:EP; [|discriminate]. cbn [rbind] in E. apply coordinates_iff in EP. destruct EP as [HC ->].
      destruct (at_index2 ls _) as [l|] eqn:EL; [|discriminate]. cbn [rbind] in E. apply index2_iff in EL. apply IH in E. destruct E as (_ & ms & L & P & ->).
      split; [auto|]. exists (l_mag l :: ms). split; [cbn; congruence|]. split; [|reflexivity]. intros [|e] m X; [injection X as <-; exists l; rewrite Nat.add_0_r; auto|].
      rewrite <- Nat.add_succ_comm. exact (P e m X).
    + intros ([X|HC] & ms & L & P & ->); [discriminate|]. destruct ms as [|m ms]; [discriminate|]. destruct (P 0%nat m eq_refl) as (l & C & ->). rewrite Nat.add_0_r in C.
      rewrite (proj2 (coordinates_iff cols i _) (conj HC eq_refl)). cbn [rbind]. unfold cell in C. apply index2_iff in C. rewrite C. cbn [rbind]. apply IH. split; [auto|].
      exists ms. split; [cbn in L; congruence|]. split; [|reflexivity]. intros e m X. rewrite Nat.add_succ_comm. exact (P (S e) m X).
Qed.
Lemma log_iff t r r' : wired r -> (logReservoirkData t r = (r', Ok tt) <->
  exists ms, per_cell (r_layers r) (r_cols r) (noElements r) l_mag ms /\ r' = set_r_log (push_all (reservoir_row (r_cols r) t ms) (r_log r)) r).
Proof.
  intros W. assert (HC := wired_cols r W). unfold logReservoirkData, bind, get, lift, modify. split.
  - destruct (log_cells _ _ _ _ _) as [g|] eqn:E; [|discriminate]. apply log_cells_iff in E. destruct E as (_ & ms & L & P & ->). intros X. injection X as <-. exists ms. split; [split; [exact L|exact P]|]. reflexivity.
  - intros (ms & [L P] & ->). rewrite (proj2 (log_cells_iff (r_cols r) (r_layers r) (noElements r) 0 (log_push "time" t (r_log r)) (push_all (reservoir_row (r_cols r) t ms) (r_log r)))); [reflexivity|].
    split; [auto|]. exists ms. split; [exact L|]. split; [exact P|]. reflexivity.
Qed.
Lemma log_wired g r : wired r -> wired (set_r_log g r). Proof. intros W. exact W. Qed.
(** ** Runs *)
Lemma sim_sound dt n : forall i r r', wired r -> reservoir_sim dt n i r = (r', Ok tt) ->
  exists sg ms, sg 0%nat = r /\ sg n = r' /\ forall k, (k < n)%nat ->
    exists mid, reservoir_step (INR (i + k) * dt) dt (sg k) mid /\ wired (sg k) /\
      per_cell (r_layers mid) (r_cols r) (noElements r) l_mag (ms k) /\
      sg (S k) = set_r_log (push_all (reservoir_row (r_cols r) (INR (i + k) * dt) (ms k)) (r_log mid)) mid.
Proof.
  induction n as [|n IH]; intros i r r' W E; cbn [reservoir_sim] in E.
  - apply ret_inv in E. destruct E as [-> _]. exists (fun _ => r), (fun _ => []). split; [reflexivity|]. split; [reflexivity|]. intros; lia.
  - apply bind_inv in E. destruct E as (r1 & [] & E1 & E). apply (step_iff _ _ _ _ W) in E1. assert (W1 := step_wired _ _ _ _ W E1).
    apply bind_inv in E. destruct E as (r2 & [] & E2 & E). apply (log_iff _ _ _ W1) in E2. destruct E2 as (m0 & P0 & ->).
    assert (DIM : r_cols r1 = r_cols r /\ noElements r1 = noElements r) by (destruct E1 as (-> & _); split; reflexivity). destruct DIM as [D1 D2].
    apply IH in E; [|exact W1]. destruct E as (sg & ms & H0 & Hn & HS). cbn [r_cols set_r_log] in HS. change (noElements (set_r_log _ r1)) with (noElements r1) in HS. rewrite D1, D2 in *.
    exists (fun k => match k with O => r | S k => sg k end), (fun k => match k with O => m0 | S k => ms k end). split; [reflexivity|]. split; [exact Hn|].
    intros [|k] Hk.
    + exists r1. rewrite Nat.add_0_r. split; [exact E1|]. split; [exact W|]. split; [exact P0|exact H0].
    + rewrite <- Nat.add_succ_comm. apply HS. lia.
Qed.
Lemma sim_complete dt n : forall i r (sg : nat -> reservoir) ms, wired r -> sg 0%nat = r ->
  (forall k, (k < n)%nat -> exists mid, reservoir_step (INR (i + k) * dt) dt (sg k) mid /\
      per_cell (r_layers mid) (r_cols r) (noElements r) l_mag (ms k) /\
      sg (S k) = set_r_log (push_all (reservoir_row (r_cols r) (INR (i + k) * dt) (ms k)) (r_log mid)) mid) ->
  reservoir_sim dt n i r = (sg n, Ok tt).
Proof.
  induction n as [|n IH]; intros i r sg ms W H0 HS; cbn [reservoir_sim]; [rewrite H0; reflexivity|].
  destruct (HS 0%nat ltac:(lia)) as (mid & ST & P & E). rewrite Nat.add_0_r, H0 in *. assert (W1 := step_wired _ _ _ _ W ST).
  assert (DIM : r_cols mid = r_cols r /\ noElements mid = noElements r) by (destruct ST as (-> & _); split; reflexivity). destruct DIM as [D1 D2].
  unfold bind at 1. rewrite (step_complete _ _ _ _ W ST). unfold bind at 1. rewrite (proj2 (log_iff (INR i * dt) mid (sg 1%nat) W1)).
  2:{ exists (ms 0%nat). rewrite D1, D2. auto. }
  assert (W2 : wired (sg 1%nat)) by (rewrite E; exact W1).
  assert (DS : r_cols (sg 1%nat) = r_cols r /\ noElements (sg 1%nat) = noElements r) by (rewrite E; split; assumption). destruct DS as [D3 D4].
  apply (IH (S i) (sg 1%nat) (fun k => sg (S k)) (fun k => ms (S k)) W2 eq_refl). intros k Hk. rewrite D3, D4, Nat.add_succ_comm. apply (HS (S k)). lia.
Qed.
Lemma signed_iff x n : (exists z, to_int x = Ok z /\ Z.to_nat z = n) <-> signed_count x n.
Proof.
  unfold to_int, signed_count.
  destruct (Rlt_dec (-2147483649) x) as [H1|H1]; [|split; [intros (z & X & _); discriminate|intros [[? _] _]; lra]].
  destruct (Rlt_dec x 2147483648) as [H2|H2]; [|split; [intros (z & X & _); discriminate|intros [[_ ?] _]; lra]].
  destruct (Rle_dec 0 x) as [H0|H0].
  - assert (Z0 : exists z, (0 <= z)%Z /\ IZR z <= x < IZR z + 1).
    { exists (Int_part x). destruct (base_Int_part x) as [B1 B2]. set (z := Int_part x) in *. assert (-1 < z)%Z by (apply lt_IZR; lra). split; [lia|lra]. }
    destruct Z0 as (z & Hz & Hxz). rewrite (ztrunc_nonneg x z Hz Hxz). assert (HI : INR (Z.to_nat z) <= x < INR (Z.to_nat z) + 1) by (rewrite INR_IZR_INZ, Z2Nat.id by lia; exact Hxz). split.
    + intros (y & E & <-). apply Ok_inj in E. subst y. split; [lra|]. left. split; [exact H0|]. left. exact HI.
    + intros [_ [[_ [H|[H _]]]|[H _]]]; [|lra|lra]. exists z. split; [reflexivity|].
      assert (A : (Z.to_nat z < S n)%nat) by (apply INR_lt; rewrite S_INR; lra). assert (B : (n < S (Z.to_nat z))%nat) by (apply INR_lt; rewrite S_INR; lra). lia.
  - assert (N : (ztrunc x <= 0)%Z).
    { unfold ztrunc. destruct (Rle_dec 0 x); [contradiction|]. destruct (base_Int_part (- x)) as [B1 B2]. set (z := Int_part (- x)) in *. assert (-1 < z)%Z by (apply lt_IZR; lra). lia. }
    split.
    + intros (y & E & <-). apply Ok_inj in E. subst y. split; [lra|]. right. split; [lra|]. lia.
    + intros [_ [[X _]|[_ ->]]]; [lra|]. exists (ztrunc x). split; [reflexivity|lia].
Qed.
Lemma effect_form dt r N (sg : nat -> reservoir) ms : (forall k, (k < N)%nat -> exists mid, reservoir_step (INR k * dt) dt (sg k) mid /\
      per_cell (r_layers mid) (r_cols r) (noElements r) l_mag (ms k) /\
      sg (S k) = set_r_log (push_all (reservoir_row (r_cols r) (INR k * dt) (ms k)) (r_log mid)) mid) -> sg 0%nat = r -> reservoir_effect r dt N sg ms.
Proof.
  intros HS H0. split; [exact H0|]. intros k Hk. destruct (HS k Hk) as (mid & A & B & C). exists mid. split; [exact A|]. split; [exact B|].
  rewrite C. cbn [r_log set_r_log]. split; [reflexivity|]. intros key. apply col_push_all.
Qed.
Lemma run_sound T dt r r' : wired r -> reservoir_runSimulation T dt r = (r', Ok tt) ->
  exists N sg ms, dt <> 0 /\ signed_count (T / dt) N /\ r' = sg N /\ reservoir_effect r dt N sg ms.
Proof.
  intros W E. unfold reservoir_runSimulation in E. apply bind_inv in E. destruct E as (s1 & q & E1 & E). apply lift_inv in E1. destruct E1 as [-> E1]. apply fdiv_inv in E1. destruct E1 as [Hd ->].
  apply bind_inv in E. destruct E as (s1 & z & E1 & E). apply lift_inv in E1. destruct E1 as [-> E1]. apply (sim_sound _ _ _ _ _ W) in E. destruct E as (sg & ms & H0 & HN & HS).
  exists (Z.to_nat z), sg, ms. split; [exact Hd|]. split; [apply signed_iff; eauto|]. split; [auto|]. apply effect_form; [|exact H0].
  intros k Hk. destruct (HS k Hk) as (mid & A & _ & B & C). exists mid. auto.
Qed.
Lemma effect_wired r dt N sg ms : wired r -> reservoir_effect r dt N sg ms -> forall k, (k <= N)%nat -> wired (sg k) /\ r_cols (sg k) = r_cols r /\ noElements (sg k) = noElements r.
Proof.
  intros W (H0 & HS) k. induction k as [|k IH]; intros Hk; [rewrite H0; auto|]. destruct (IH ltac:(lia)) as (A & B & C). destruct (HS k ltac:(lia)) as (mid & ST & _ & E & _).
  rewrite E. assert (W1 := step_wired _ _ _ _ A ST). split; [exact W1|]. destruct ST as (X & _). cbn [r_cols set_r_log]. change (noElements (set_r_log _ mid)) with (noElements mid).
  rewrite X. split; [exact B|exact C].
Qed.
(** A reservoir whose layers have a derivative everywhere can run. *)
Definition lasting (r : reservoir) : Prop :=
  forall e l, (e < noElements r)%nat -> cell (r_layers r) (r_cols r) e = Some l -> forall H s m, exists d, rhs_inj l s m Zero Zero H d.
Lemma Normalised_exists v : exists u, Normalised v u.
Proof. destruct (zero_dec v) as [H|H]; eexists; [left|right]; eauto. Qed.
Lemma inj_total l t dt H : (forall s m, exists d, rhs_inj l s m Zero Zero H d) -> exists l', rk4_stepDipoleInjection t dt Zero Zero H l = (l', Ok tt).
Proof.
  intros T. destruct (T t (l_mag l)) as [f1 F1]. destruct (T (t + dt / 2) (Plus (l_mag l) (Scal (dt / 2) f1))) as [f2 F2].
  destruct (T (t + dt / 2) (Plus (l_mag l) (Scal (dt / 2) f2))) as [f3 F3]. destruct (T (t + dt) (Plus (l_mag l) (Scal dt f3))) as [f4 F4].
  destruct (Normalised_exists (Plus (l_mag l) (Scal (dt / 6) (Sum [f1; Scal 2 f2; Scal 2 f3; f4])))) as [m' Hm].
  destruct (rk4_inj_complete l t dt Zero Zero H m') as [c E]; [exists f1, f2, f3, f4; auto|]. eauto.
Qed.
Lemma step_lasting t dt r r' : reservoir_step t dt r r' -> wired r -> lasting r -> lasting r'.
Proof.
  intros (Er & _ & SH & Q & _) W HL e l' He Hl' H s m. assert (DIM : r_cols r' = r_cols r /\ noElements r' = noElements r) by (rewrite Er; split; reflexivity).
  destruct DIM as [D1 D2]. rewrite D1, D2 in *. assert (X : exists l, cell (r_layers r) (r_cols r) e = Some l).
  { destruct W as (_ & _ & _ & _ & WL). exact (WL e He). }
  destruct X as [l Hl]. destruct (Q e l l' He Hl Hl') as (K & _ & F). apply rk4_inj_sound in F. destruct F as [_ [c E]].
  destruct (HL e l He Hl H s m) as [d D]. exists d. apply (static_rhs_inj l); [|exact D]. exists (l_mag l'), c, (l_rpos l), (l_bfn l). rewrite E at 1. destruct l. reflexivity.
Qed.
Lemma sim_total dt n : forall i r, wired r -> lasting r -> exists r', reservoir_sim dt n i r = (r', Ok tt).
Proof.
  induction n as [|n IH]; intros i r W HL; cbn [reservoir_sim]; [eexists; reflexivity|].
  destruct (step_exists (INR i * dt) dt r W) as [r1 E1]. { intros e l H He Hl. apply inj_total. intros s m. exact (HL e l He Hl H s m). }
  unfold bind at 1. rewrite E1. apply (step_iff _ _ _ _ W) in E1. assert (W1 := step_wired _ _ _ _ W E1). assert (L1 := step_lasting _ _ _ _ E1 W HL).
  unfold bind at 1. destruct (per_cell_exists (r_layers r1) (r_cols r1) (noElements r1) l_mag) as [ms P]; [apply W1|].
  rewrite (proj2 (log_iff (INR i * dt) r1 _ W1) (ex_intro _ ms (conj P eq_refl))). apply IH; [exact W1|exact L1].
Qed.
Lemma run_exists T dt r N : wired r -> lasting r -> dt <> 0 -> signed_count (T / dt) N -> exists r', reservoir_runSimulation T dt r = (r', Ok tt).
Proof.
  intros W HL Hd HN. apply signed_iff in HN. destruct HN as (z & Ez & _). unfold reservoir_runSimulation. unfold bind at 1, lift at 1. rewrite fdiv_ok by exact Hd.
  unfold bind at 1, lift. rewrite Ez. apply sim_total; assumption.
Qed.
(** ** Column names and values *)
Lemma split_us a b x y : us a = 0%nat -> us b = 0%nat -> (a ++ "_" ++ x = b ++ "_" ++ y)%string -> a = b /\ x = y.
Proof.
  revert b. induction a as [|c a IH]; intros [|d b] Ha Hb E.
  - cbn in E. injection E as ->. auto.
  - cbn in E. injection E as <- _. cbn in Hb. discriminate.
  - cbn in E. injection E as -> _. cbn in Ha. discriminate.
  - cbn in E. injection E as <- E. cbn in Ha, Hb. destruct (IH b) as [-> ->]; [lia|lia|exact E|auto].
Qed.
Lemma us_digits d : us (NilEmpty.string_of_uint d) = 0%nat.
Proof. induction d; cbn; assumption || reflexivity. Qed.
Lemma us_to_string n : us (to_string n) = 0%nat.
Proof. unfold to_string. destruct (Nat.to_uint n) as [|d|d|d|d|d|d|d|d|d|d] eqn:E; try reflexivity; cbn; apply us_digits. Qed.
Lemma cell_name_inj cols a b x y : cols <> 0%nat -> us x = 0%nat -> us y = 0%nat -> cell_name cols a ("_" ++ x) = cell_name cols b ("_" ++ y) -> a = b /\ x = y.
Proof.
  intros HC Hx Hy E. unfold cell_name in E. cbn [append] in E. injection E as E.
  apply (split_us (to_string (a / cols)) (to_string (b / cols)) (to_string (a mod cols) ++ "_" ++ x) (to_string (b mod cols) ++ "_" ++ y)) in E; try apply us_to_string. destruct E as [E1 E].
  apply split_us in E; try apply us_to_string. destruct E as [E2 ->]. apply to_string_inj in E1, E2. split; [exact (same_position _ _ _ HC E1 E2)|reflexivity].
Qed.
Lemma cells_keys cols ms : forall i, map fst (concat (mapi (cell_row cols) i ms)) =
  flat_map (fun e => [cell_name cols e "_x"; cell_name cols e "_y"; cell_name cols e "_z"]%string) (seq i (length ms)).
Proof. induction ms as [|m ms IH]; intros i; [reflexivity|]. cbn [mapi concat length seq flat_map]. rewrite map_app, IH. reflexivity. Qed.
Lemma row_keys cols t ms : map fst (reservoir_row cols t ms) = reservoir_keys cols (length ms).
Proof. unfold reservoir_row, reservoir_keys. cbn [map fst]. f_equal. apply cells_keys. Qed.
Lemma keys_nodup cols n : cols <> 0%nat -> NoDup (reservoir_keys cols n).
Proof.
  intros HC. unfold reservoir_keys. constructor.
  - intros H. apply in_flat_map in H. destruct H as (e & _ & [H|[H|[H|[]]]]); discriminate.
  - generalize 0%nat. induction n as [|n IH]; intros i; cbn [seq flat_map]; [constructor|]. apply NoDup_app_intro; [|apply IH|].
    + assert (D : forall x y, us x = 0%nat -> us y = 0%nat -> x <> y -> cell_name cols i ("_" ++ x) <> cell_name cols i ("_" ++ y)).
      { intros x y Hx Hy NE E. apply cell_name_inj in E; try assumption. tauto. }
      constructor; [|constructor; [|constructor; [intros []|constructor]]].
      * intros [E|[E|[]]]; [apply (D "y" "x")%string in E|apply (D "z" "x")%string in E]; try reflexivity; try discriminate; destruct E.
      * intros [E|[]]. apply (D "z" "y")%string in E; try reflexivity; try discriminate; destruct E.
    + intros k Hk H. apply in_flat_map in H. destruct H as (e & He & H). apply in_seq in He.
      assert (X : exists x y, us x = 0%nat /\ us y = 0%nat /\ k = cell_name cols i ("_" ++ x) /\ k = cell_name cols e ("_" ++ y)).
      { assert (A : exists x, us x = 0%nat /\ k = cell_name cols i ("_" ++ x)).
        { destruct Hk as [<-|[<-|[<-|[]]]]; [exists "x"%string|exists "y"%string|exists "z"%string]; split; reflexivity. }
        assert (B : exists x, us x = 0%nat /\ k = cell_name cols e ("_" ++ x)).
        { destruct H as [<-|[<-|[<-|[]]]]; [exists "x"%string|exists "y"%string|exists "z"%string]; split; reflexivity. }
        destruct A as (x & ? & ?), B as (y & ? & ?). exists x, y. auto. }
      destruct X as (x & y & Hx & Hy & -> & E). apply cell_name_inj in E; try assumption. lia.
Qed.
Lemma row_values cols t ms : cols <> 0%nat -> values "time" (reservoir_row cols t ms) = [t] /\
  (forall e m, nth_error ms e = Some m -> values (cell_name cols e "_x") (reservoir_row cols t ms) = [cx m] /\
     values (cell_name cols e "_y") (reservoir_row cols t ms) = [cy m] /\ values (cell_name cols e "_z") (reservoir_row cols t ms) = [cz m]) /\
  forall key, ~ In key (reservoir_keys cols (length ms)) -> values key (reservoir_row cols t ms) = [].
Proof.
  intros HC. assert (ND : NoDup (map fst (reservoir_row cols t ms))) by (rewrite row_keys; apply keys_nodup, HC).
  split; [apply values_at; [exact ND|left; reflexivity]|]. split.
  - intros e m He. assert (X := mapi_in (cell_row cols) ms 0 e m He). cbn [Nat.add] in X.
    assert (Y : forall kv, In kv (cell_row cols e m) -> In kv (reservoir_row cols t ms)).
    { intros kv Hkv. right. apply in_concat. exists (cell_row cols e m). auto. }
    split; [|split]; (apply values_at; [exact ND|]); apply Y; cbn; auto.
  - intros key H. apply values_none. rewrite row_keys. exact H.
Qed.
Lemma effect_log r dt N sg ms : wired r -> reservoir_effect r dt N sg ms -> forall key,
  col key (r_log (sg N)) = (col key (r_log r) ++ flat_map (fun k => values key (reservoir_row (r_cols r) (INR k * dt) (ms k))) (seq 0 N))%list.
Proof.
  intros W (H0 & HS) key. assert (G : forall n, (n <= N)%nat -> col key (r_log (sg n)) =
    (col key (r_log r) ++ flat_map (fun k => values key (reservoir_row (r_cols r) (INR k * dt) (ms k))) (seq 0 n))%list); [|apply G; lia].
  induction n as [|n IH]; intros Hn; [rewrite H0; cbn; rewrite app_nil_r; reflexivity|].
  destruct (HS n ltac:(lia)) as (mid & ST & P & E & C). rewrite C. destruct ST as (X & _). rewrite X. cbn [r_log set_r_layers set_r_frozen]. rewrite IH by lia.
  rewrite seq_S, flat_map_app, <- app_assoc. cbn [flat_map Nat.add]. rewrite app_nil_r. reflexivity.
Qed.
Lemma flat_single {A B} (f : A -> list B) (g : A -> B) xs : (forall x, In x xs -> f x = [g x]) -> flat_map f xs = map g xs.
Proof. induction xs as [|x xs IH]; intros H; [reflexivity|]. cbn. rewrite (H x) by (left; reflexivity). cbn. f_equal. apply IH. intros y Hy. apply H. right. exact Hy. Qed.
Lemma flat_none {A B} (f : A -> list B) xs : (forall x, In x xs -> f x = []) -> flat_map f xs = [].
Proof. induction xs as [|x xs IH]; intros H; [reflexivity|]. cbn. rewrite (H x) by (left; reflexivity). apply IH. intros y Hy. apply H. right. exact Hy. Qed.
Lemma effect_columns r dt N sg ms : wired r -> reservoir_effect r dt N sg ms ->
  col "time" (r_log (sg N)) = (col "time" (r_log r) ++ map (fun k => INR k * dt) (seq 0 N))%list /\
  (forall e, (e < noElements r)%nat -> exists m : nat -> cvec, (forall k, (k < N)%nat -> nth_error (ms k) e = Some (m k)) /\
     col (cell_name (r_cols r) e "_x") (r_log (sg N)) = (col (cell_name (r_cols r) e "_x") (r_log r) ++ map (fun k => cx (m k)) (seq 0 N))%list /\
     col (cell_name (r_cols r) e "_y") (r_log (sg N)) = (col (cell_name (r_cols r) e "_y") (r_log r) ++ map (fun k => cy (m k)) (seq 0 N))%list /\
     col (cell_name (r_cols r) e "_z") (r_log (sg N)) = (col (cell_name (r_cols r) e "_z") (r_log r) ++ map (fun k => cz (m k)) (seq 0 N))%list) /\
  forall key, ~ In key (reservoir_keys (r_cols r) (noElements r)) -> col key (r_log (sg N)) = col key (r_log r).
Proof.
  intros W EF. assert (HC := wired_cols r W). assert (LM : forall k, (k < N)%nat -> length (ms k) = noElements r).
  { intros k Hk. destruct EF as (_ & HS). destruct (HS k Hk) as (mid & _ & [L _] & _). exact L. }
  split; [|split].
  - rewrite (effect_log r dt N sg ms W EF). f_equal. apply flat_single. intros k _. apply row_values, HC.
  - intros e He. exists (fun k => nth e (ms k) Zero).
    assert (NT : forall k, (k < N)%nat -> nth_error (ms k) e = Some (nth e (ms k) Zero)) by (intros k Hk; apply nth_error_nth'; rewrite LM by exact Hk; exact He).
    split; [exact NT|]. split; [|split]; rewrite (effect_log r dt N sg ms W EF); f_equal; apply flat_single; intros k Hk; apply in_seq in Hk;
      apply (proj1 (proj2 (row_values (r_cols r) (INR k * dt) (ms k) HC)) e _ (NT k ltac:(lia))).
  - intros key H. rewrite (effect_log r dt N sg ms W EF), flat_none, app_nil_r; [reflexivity|]. intros k Hk. apply in_seq in Hk.
    apply (proj2 (proj2 (row_values (r_cols r) (INR k * dt) (ms k) HC))). rewrite LM by lia. exact H.
Qed.
(** ** Setters, getters, logs *)
Lemma cell_set_iff {A} i (f : ST layer A) (h : layer -> layer) r r' : (forall l, exists x, f l = (h l, Ok x)) ->
  ((exists x, on_layer i f r = (r', Ok x)) <-> r_cols r <> 0%nat /\ cell_changed i r r' (fun l l' => l' = h l)).
Proof.
  intros H. rewrite (changed_iff i f (fun _ _ => True)). unfold cell_changed.
  assert (Q : forall l l', (exists x, f l = (l', Ok x)) <-> l' = h l).
  { intros l l'. destruct (H l) as [y E]. rewrite E. split; [intros [x X]; congruence|intros ->; eauto]. }
  setoid_rewrite Q. reflexivity.
Qed.
Lemma set_external_iff i d r r' : reservoir_setLayerExternalField i d r = (r', Ok tt) <->
  r_cols r <> 0%nat /\ cell_changed i r r' (fun l l' => l' = set_l_external d l).
Proof.
  rewrite <- (cell_set_iff i (setExternalFieldDriver d)) by (intros l; eexists; reflexivity). unfold reservoir_setLayerExternalField. split; [eauto|intros [[] E]; exact E].
Qed.
Lemma set_anisotropy_iff i d r r' : reservoir_setLayerAnisotropy i d r = (r', Ok tt) <->
  r_cols r <> 0%nat /\ cell_changed i r r' (fun l l' => l' = set_l_anisotropy d l).
Proof.
  rewrite <- (cell_set_iff i (setAnisotropyDriver d)) by (intros l; eexists; reflexivity). unfold reservoir_setLayerAnisotropy. split; [eauto|intros [[] E]; exact E].
Qed.
Lemma set_all_external d r r' x : setAllExternalField d r = (r', x) -> x = Ok tt /\ r' = set_r_layers (r_layers r') r /\ same_shape (r_layers r) (r_layers r') /\
  forall p q, entry (r_layers r') p q = option_map (set_l_external d) (entry (r_layers r) p q).
Proof.
  intros E. unfold setAllExternalField, modify in E. injection E as <- <-. cbn [r_layers set_r_layers]. split; [reflexivity|]. split; [reflexivity|]. split.
  - split; [apply map_length|]. intros p a b Ha Hb. rewrite nth_error_map, Ha in Hb. injection Hb as <-. apply map_length.
  - intros p q. unfold entry. rewrite nth_error_map. destruct (nth_error (r_layers r) p); cbn [option_map]; [apply nth_error_map|reflexivity].
Qed.
Lemma getCell_iff r i l : reservoir_getLayer r i = Ok l <-> r_cols r <> 0%nat /\ cell (r_layers r) (r_cols r) i = Some l.
Proof. apply cell_iff. Qed.
Lemma getCellMag_iff r i m : reservoir_getMagnetisation r i = Ok m <-> r_cols r <> 0%nat /\ exists l, cell (r_layers r) (r_cols r) i = Some l /\ m = l_mag l.
Proof.
  unfold reservoir_getMagnetisation. split.
  - destruct (reservoir_getLayer r i) as [l|] eqn:E; [|discriminate]. intros X. injection X as <-. apply getCell_iff in E. destruct E. eauto.
  - intros (HC & l & C & ->). rewrite (proj2 (getCell_iff r i l) (conj HC C)). reflexivity.
Qed.
Lemma clear_iff r r' x : reservoir_clearLogs r = (r', x) <-> x = Ok tt /\ r' = set_r_log [] r.
Proof. unfold reservoir_clearLogs, modify. split; [intros X; injection X as <- <-; auto|intros [-> ->]; reflexivity]. Qed.
Lemma reservoir_save_iff f r r' header rows : reservoir_saveLogs f r = (r', Ok (Some (header, rows))) <->
  f <> ""%string /\ header = map fst (r_log r) /\
  ((exists ts, log_get "time" (r_log r) = Some ts /\ r' = r /\ saved (r_log r) (length ts) header rows) \/
   (log_get "time" (r_log r) = None /\ rows = [] /\ r' = set_r_log (r_log r ++ [("time"%string, [])])%list r)).
Proof.
  unfold reservoir_saveLogs, bind, get, ret, modify, lift. destruct (String.eqb_spec f ""%string) as [E|E]; [split; [discriminate|intros [H _]; contradiction]|].
  destruct (log_get "time" (r_log r)) as [ts|].
  - destruct (save_rows (length ts) 0 (r_log r)) as [rs|e] eqn:ES.
    + split.
      * intros X. injection X as <- <- <-. apply save_all in ES. split; [exact E|]. split; [reflexivity|]. left. exists ts. auto.
      * intros (_ & -> & [(ts' & Ht & -> & H)|(X & _)]); [|discriminate]. injection Ht as <-. apply save_all in H. congruence.
    + split; [discriminate|]. intros (_ & -> & [(ts' & Ht & -> & H)|(X & _)]); [|discriminate]. injection Ht as <-. apply save_all in H. congruence.
  - split.
    + intros X. injection X as <- <- <-. split; [exact E|]. split; [reflexivity|]. right. auto.
    + intros (_ & -> & [(ts' & Ht & _)|(_ & -> & ->)]); [discriminate|reflexivity].
Qed.
(** ** Which cells are felt *)
Lemma last_cell_partner n i : (i < n)%nat -> partner n i = i.
Proof. intros H. unfold partner. destruct (Nat.ltb_spec i n); [reflexivity|lia]. Qed.
Lemma Sum_app a b : Sum (a ++ b) = Plus (Sum a) (Sum b).
Proof. induction a as [|x a IH]; cbn [app]; [rewrite Sum_nil, Plus_zero_l; reflexivity|]. rewrite !Sum_cons, IH, Plus_assoc. reflexivity. Qed.
Lemma Sum_scal k hs : Sum (map (Scal k) hs) = Scal k (Sum hs).
Proof. induction hs as [|h hs IH]; cbn [map]; [rewrite !Sum_nil; unfold Scal, Zero; cbn [cx cy cz]; f_equal; ring|]. rewrite !Sum_cons, IH. generalize (Sum hs). vring. Qed.
Lemma applied_last r ms H v : wired r -> length ms = noElements r -> (forall q w, nth_error (r_vol r) q = Some w -> w = v) ->
  applied_field r ms (noElements r - 1) H -> intended_field r ms (noElements r - 1) H.
Proof.
  intros (H2 & _ & LM & LV & _) Lm HV (v' & hs & V & L & -> & P). rewrite (HV _ _ V). exists (map (Scal v) hs ++ [Zero])%list.
  split; [rewrite app_length, map_length; cbn; lia|]. split; [rewrite Sum_app, Sum_scal, Sum_cons, Sum_nil, !Plus_zero_r; reflexivity|]. intros q h Hq.
  destruct (Nat.eq_dec q (noElements r - 1)) as [->|NE].
  - rewrite nth_error_app2 in Hq by (rewrite map_length; lia). rewrite map_length, L, Nat.sub_diag in Hq. injection Hq as <-. reflexivity.
  - assert (Hlt := nth_lt _ _ _ Hq). rewrite app_length, map_length, L in Hlt. cbn in Hlt. rewrite nth_error_app1 in Hq by (rewrite map_length; lia). rewrite nth_error_map in Hq.
    destruct (nth_error hs q) as [h0|] eqn:Eh; [|discriminate]. injection Hq as <-. destruct (P q h0 Eh) as (a & b & m & Ms & A & B & M1 & M2 & ->).
    rewrite last_cell_partner in B by lia. destruct (nth_some (r_vol r) q) as [w Hw]; [lia|]. exists a, b, m, Ms, v. rewrite (HV _ _ Hw) in Hw.
    repeat (split; [assumption|]). rewrite scal_scal. f_equal. ring.
Qed.
Lemma last_cell_unfelt r ms ms' e H : (forall i, (i < noElements r - 1)%nat -> nth_error ms' i = nth_error ms i) -> applied_field r ms e H -> applied_field r ms' e H.
Proof.
  intros EQ (v & hs & V & L & E & P). exists v, hs. repeat (split; [assumption|]). intros i h Hi. destruct (P i h Hi) as (a & b & m & Ms & A & B & M1 & M2 & M3).
  exists a, b, m, Ms. rewrite EQ by (apply nth_lt in Hi; lia). auto.
Qed.
Lemma applied_alike r r2 ms ms2 e H : alike_but_last r r2 -> (e < noElements r - 1)%nat ->
  (forall i, (i < noElements r - 1)%nat -> nth_error ms2 i = nth_error ms i) -> applied_field r ms e H -> applied_field r2 ms2 e H.
Proof.
  intros (EC & ER & EL & EQ) He EM (v & hs & V & L & E & P). assert (EN : noElements r2 = noElements r) by (unfold noElements; congruence).
  exists v, hs. destruct (EQ e He) as (_ & _ & EV). rewrite EV, EN, EC, EL. split; [exact V|]. split; [exact L|]. split; [exact E|]. intros i h Hi.
  destruct (P i h Hi) as (a & b & m & Ms & A & B & M1 & M2 & M3). exists a, b, m, Ms. assert (Hl := nth_lt _ _ _ Hi). rewrite L in Hl.
  destruct (EQ i Hl) as (_ & E1 & _). rewrite E1, EM by exact Hl. auto.
Qed.
Lemma step_alike t dt r r2 r' r2' : alike_but_last r r2 -> reservoir_step t dt r r' -> reservoir_step t dt r2 r2' -> wired r -> alike_but_last r' r2'.
Proof.
  intros AL ST ST2 W. assert (AL' := AL). destruct AL' as (EC & ER & EL & EQ). destruct ST as (X & P & SH & Q & _), ST2 as (X2 & P2 & SH2 & Q2 & _).
  assert (EN : noElements r2 = noElements r) by (unfold noElements; congruence).
  assert (EM : forall i, (i < noElements r - 1)%nat -> nth_error (r_frozen r2') i = nth_error (r_frozen r') i).
  { intros i Hi. destruct P as [L1 P1], P2 as [L2 P2]. destruct (nth_some (r_frozen r') i) as [m1 H1]; [lia|]. destruct (nth_some (r_frozen r2') i) as [m2 H2]; [lia|].
    destruct (P1 i m1 H1) as (l1 & C1 & ->). destruct (P2 i m2 H2) as (l2 & C2 & ->). rewrite EL in C2. rewrite (proj1 (EQ i Hi)) in C2. congruence. }
  unfold alike_but_last. assert (EN' : noElements r' = noElements r) by (rewrite X; reflexivity). rewrite EN'.
  assert (Y : r_coords r2' = r_coords r' /\ r_rows r2' = r_rows r' /\ r_cols r2' = r_cols r') by (rewrite X, X2; auto). destruct Y as (Y1 & Y2 & Y3).
  split; [exact Y1|]. split; [exact Y2|]. split; [exact Y3|]. intros e He. assert (EC' : r_cols r' = r_cols r) by (rewrite X; reflexivity). rewrite EC'. destruct (EQ e He) as (E1 & E2 & E3). split.
  - destruct W as (_ & _ & _ & _ & WL). destruct (WL e ltac:(lia)) as [l Hl]. assert (Hl2 := Hl). rewrite <- E1 in Hl2.
    destruct (cell_present _ _ _ _ _ SH Hl) as [l' Hl']. destruct (cell_present _ _ _ _ _ SH2 Hl2) as [l2' Hl2'].
    destruct (Q e l l' ltac:(lia) Hl Hl') as (H & AH & RH). rewrite <- EL in Hl2, Hl2'. destruct (Q2 e l l2' ltac:(lia) Hl2 Hl2') as (K & AK & RK).
    assert (AH2 := applied_alike r r2 _ (r_frozen r2') e H AL He EM AH). assert (HK := applied_det _ _ _ _ _ AH2 AK). subst K. rewrite RH in RK. injection RK as <-.
    rewrite EL in Hl2'. congruence.
  - rewrite X, X2. auto.
Qed.
Lemma effect_alike r r2 dt N sg ms sg2 ms2 : alike_but_last r r2 -> wired r -> reservoir_effect r dt N sg ms -> reservoir_effect r2 dt N sg2 ms2 ->
  forall k, (k <= N)%nat -> alike_but_last (sg k) (sg2 k).
Proof.
  intros AL W EF EF2 k. induction k as [|k IH]; intros Hk; [destruct EF as [-> _], EF2 as [-> _]; exact AL|].
  destruct (effect_wired r dt N sg ms W EF k ltac:(lia)) as (Wk & _). specialize (IH ltac:(lia)).
  destruct EF as [_ EF], EF2 as [_ EF2]. destruct (EF k ltac:(lia)) as (mid & S1 & _ & E1 & _). destruct (EF2 k ltac:(lia)) as (mid2 & S2 & _ & E2 & _).
  rewrite E1, E2. exact (step_alike _ _ _ _ _ _ IH S1 S2 Wk).
Qed.
Lemma signed_unique x a b : signed_count x a -> signed_count x b -> a = b.
Proof.
  intros A B. apply signed_iff in A, B. destruct A as (z & E & <-), B as (y & F & <-). rewrite E in F. apply Ok_inj in F. congruence.
Qed.
Lemma run_alike T dt r r2 r' r2' : alike_but_last r r2 -> wired r -> wired r2 -> reservoir_runSimulation T dt r = (r', Ok tt) -> reservoir_runSimulation T dt r2 = (r2', Ok tt) ->
  alike_but_last r' r2'.
Proof.
  intros AL W W2 E E2. apply (run_sound _ _ _ _ W) in E. apply (run_sound _ _ _ _ W2) in E2. destruct E as (N & sg & ms & _ & C & -> & EF), E2 as (N2 & sg2 & ms2 & _ & C2 & -> & EF2).
  assert (N2 = N) by exact (signed_unique _ _ _ C2 C). subst N2. exact (effect_alike _ _ _ _ _ _ _ _ AL W EF EF2 N ltac:(lia)).
Qed.
(** ** Two cells a unit apart *)
Definition ex_cells : list (list layer) :=
  [[set_l_external (caxial (CV 0 0 1)) (ex_layer "a" (CV 1 0 0)); set_l_external (caxial (CV 0 0 1)) (ex_layer "b" (CV 0 1 0))]].
Definition ex_grid : list (list cvec) := [[CV 0 0 0; CV 1 0 0]].
Lemma ex_grid_distinct : distinct_cells ex_grid 2 2.
Proof.
  intros a b H. assert (a = 0%nat) by lia. assert (b = 1%nat) by lia. subst. exists (CV 0 0 0), (CV 1 0 0). split; [reflexivity|]. split; [reflexivity|]. intros X. injection X. lra.
Qed.
Lemma ex_reservoir_exists : exists r, mkReservoir ex_grid ex_cells = Ok r.
Proof.
  assert (P : forall e, (e < 2)%nat -> exists l, cell ex_cells 2 e = Some l). { intros [|[|e]] H; [eexists; reflexivity|eexists; reflexivity|lia]. }
  destruct (per_cell_exists ex_cells 2 2 l_Ms P) as [Ms PM]. destruct (per_cell_exists ex_cells 2 2 (fun l => l_thickness l * l_cellSurface l) P) as [vol PV].
  assert (X : exists ts, computeReservoirDipoleMatrix 2 2 ex_grid = Ok ts). { apply fill_total; [discriminate|]. intros a b H. apply pairs_in in H. apply ex_grid_distinct, H. }
  destruct X as [ts T]. apply matrix_sound in T. destruct T as (_ & _ & T).
  exists (RSV [] ex_grid (repeat Zero 2) Ms vol ts ex_cells 1 2). apply mkReservoir_iff. exists [CV 0 0 0; CV 1 0 0], []. split; [reflexivity|]. cbv zeta.
  split; [apply le_n|]. split; [exact ex_grid_distinct|]. split; [reflexivity|]. split; [exact PM|]. split; [exact PV|exact T].
Qed.
Lemma ex_lasting r : mkReservoir ex_grid ex_cells = Ok r -> lasting r.
Proof.
  intros E. apply mkReservoir_iff in E. destruct E as (first & rest & X & H). injection X as <- <-. cbv zeta in H. destruct H as (_ & _ & Er & _).
  intros e l He Hl. rewrite Er in He, Hl. cbn in He. cbn [r_layers r_cols length] in Hl.
  assert (Q : l = set_l_external (caxial (CV 0 0 1)) (ex_layer "a" (CV 1 0 0)) \/ l = set_l_external (caxial (CV 0 0 1)) (ex_layer "b" (CV 0 1 0))).
  { destruct e as [|[|e]]; [left|right|lia]; injection Hl as <-; reflexivity. }
  intros H s m. destruct Q as [-> | ->]; eexists; exists (FI (CV 0 0 1) Zero Zero Zero 0 0 0 0 0 Zero Zero); (split; [repeat split|]); (split; [cbn; lra|]); (split; [cbn; lra|]); apply llg_plain; reflexivity.
Qed.
Lemma ex_runs r : mkReservoir ex_grid ex_cells = Ok r -> exists r', reservoir_runSimulation 10 1 r = (r', Ok tt).
Proof.
  intros E. apply (run_exists 10 1 r 10); [exact (mkReservoir_wired _ _ _ E)|exact (ex_lasting r E)|lra|]. split; [lra|]. left. split; [lra|]. left. cbn. lra.
Qed.
Lemma ex_norm : Norm (CV 1 0 0) = 1.
Proof. unfold Norm. replace (Norm2 (CV 1 0 0)) with 1 by (unfold Norm2, Dot; cbn; ring). apply sqrt_1. Qed.
Lemma wrong_neighbour : exists r ms H, mkReservoir ex_grid ex_cells = Ok r /\ per_cell (r_layers r) (r_cols r) (noElements r) l_mag ms /\
  applied_field r ms 0 H /\ ~ intended_field r ms 0 H.
Proof.
  destruct ex_reservoir_exists as [r E]. assert (W := mkReservoir_wired _ _ _ E). destruct (per_cell_exists (r_layers r) (r_cols r) (noElements r) l_mag) as [ms P]; [apply W|].
  destruct (applied_exists r ms 0 W ltac:(destruct W; lia) (proj1 P)) as [H AH]. exists r, ms, H. split; [exact E|]. split; [exact P|]. split; [exact AH|]. intros IH.
  apply mkReservoir_iff in E. destruct E as (first & rest & X & Y). injection X as <- <-. cbv zeta in Y. destruct Y as (_ & _ & Er & PM & PV & _). cbn [length] in *. cbn [Nat.mul Nat.add ex_grid length] in *.
  assert (N2 : noElements r = 2%nat) by (rewrite Er; reflexivity).
  assert (CO : forall e, cell (r_coords r) (r_cols r) e = cell ex_grid 2 e) by (intros e; rewrite Er; reflexivity).
  assert (LY : forall e, cell (r_layers r) (r_cols r) e = cell ex_cells 2 e) by (intros e; rewrite Er; reflexivity).
  assert (MAG : forall q m, nth_error ms q = Some m -> exists l, cell ex_cells 2 q = Some l /\ m = l_mag l) by (intros q m Hq; rewrite <- LY; exact (proj2 P q m Hq)).
  assert (MS : forall q x, nth_error (r_Ms r) q = Some x -> (q < 2)%nat -> x = 1).
  { intros q x Hx Hq. destruct (proj2 PM q x Hx) as (l & C & ->). destruct q as [|[|q]]; [| |lia]; cbn in C; injection C as <-; reflexivity. }
  assert (VOL : forall q x, nth_error (r_vol r) q = Some x -> (q < 2)%nat -> x = 1).
  { intros q x Hx Hq. destruct (proj2 PV q x Hx) as (l & C & ->). destruct q as [|[|q]]; [| |lia]; cbn in C; injection C as <-; cbn; ring. }
  destruct AH as (v & hs & V & L & -> & PA). rewrite N2 in L. destruct hs as [|h [|h' hs]]; try discriminate. destruct (PA 0%nat h eq_refl) as (a & b & m & Ms & A & B & M1 & M2 & ->).
  rewrite CO in A, B. cbn in A, B. injection A as <-. injection B as <-. destruct (MAG _ _ M1) as (l & C & ->). cbn in C. injection C as <-. rewrite (VOL 0%nat v V ltac:(lia)), (MS 0%nat Ms M2 ltac:(lia)) in IH.
  destruct IH as (ks & LK & EK & PK). rewrite N2 in LK. destruct ks as [|k0 [|k1 [|k2 ks]]]; try discriminate. assert (K0 := PK 0%nat k0 eq_refl). cbn in K0. subst k0.
  assert (K1 := PK 1%nat k1 eq_refl). cbn in K1. destruct K1 as (a' & b' & m' & Ms' & v' & A' & B' & M1' & M2' & M3' & ->).
  change (entry (r_coords r) (0 / r_cols r) (0 mod r_cols r)) with (cell (r_coords r) (r_cols r) 0) in A'.
  rewrite CO in A'. cbn in A'. injection A' as <-. assert (B'' : cell (r_coords r) (r_cols r) 1 = Some b') by exact B'. rewrite CO in B''. cbn in B''. injection B'' as <-.
  destruct (MAG 1%nat m' M1') as (l & C & ->). cbn in C. injection C as <-. rewrite (VOL 1%nat v' M3' ltac:(lia)), (MS 1%nat Ms' M2' ltac:(lia)) in EK.
  rewrite !Sum_cons, !Sum_nil in EK. replace (Minus (CV 1 0 0) (CV 0 0 0)) with (CV 1 0 0) in EK by (unfold Minus; cbn; f_equal; ring).
  unfold DipoleField in EK. rewrite ex_norm in EK. apply (f_equal cy) in EK. pose proof MU0_pos as MU. pose proof PI_RGT_0 as PP. cbn in EK. 
  unfold Rdiv in EK. replace (1 * (1 * (1 * (1 * (1 * 1))))) with 1 in EK by ring. replace (1 * (1 * (1 * 1))) with 1 in EK by ring. rewrite Rinv_1 in EK.
  assert (K1 : 0 < / MAGNETIC_PERMEABILITY) by (apply Rinv_0_lt_compat, MU). assert (K2 : 0 < / (4 * PI)) by (apply Rinv_0_lt_compat; lra).
  assert (K3 := Rmult_lt_0_compat _ _ K1 K2). lra.
Qed.
(** The term of the own magnetisation, through the tensor to the next cell. *)
Lemma feels_itself r ms e H : (e < noElements r - 1)%nat -> applied_field r ms e H ->
  exists v hs a b m Ms, nth_error (r_vol r) e = Some v /\ H = Scal v (Sum hs) /\ length hs = (noElements r - 1)%nat /\
    cell (r_coords r) (r_cols r) e = Some a /\ cell (r_coords r) (r_cols r) (S e) = Some b /\
    nth_error ms e = Some m /\ nth_error (r_Ms r) e = Some Ms /\
    nth_error hs e = Some (Scal (Ms / MAGNETIC_PERMEABILITY) (DipoleField (Minus b a) m)).
Proof.
  intros He (v & hs & V & L & E & P). destruct (nth_some hs e) as [h Hh]; [lia|]. destruct (P e h Hh) as (a & b & m & Ms & A & B & M1 & M2 & ->).
  unfold partner in B. rewrite Nat.ltb_irrefl in B. exists v, hs, a, b, m, Ms. repeat (split; [assumption|]). exact Hh.
Qed.
