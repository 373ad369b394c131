(** Junction-wide steps. *)
From Verif Require Export P_Step2.
Open Scope R_scope.
Open Scope st_scope.

Definition belowb (b : cvec) (ms : list cvec) (p : nat) : cvec :=
  match p with O => b | S q => nth q ms Zero end.
Lemma belowb_zero ms p : belowb Zero ms p = below ms p.
Proof. reflexivity. Qed.
Lemma belowb_cons b m ms p : belowb b (m :: ms) (S p) = belowb m ms p.
Proof. destruct p; reflexivity. Qed.
Lemma above_cons m ms p : above (m :: ms) (S p) = above ms p.
Proof. reflexivity. Qed.

(** ** RK4 loop *)
Lemma multi_loop_cons f l rest b y top tl :
  multi_loop f (b :: y :: top :: tl) (l :: rest) =
  match f b top l with
  | (l', Err e) => (l' :: rest, Err e)
  | (l', Ok _) => match multi_loop f (y :: top :: tl) rest with (rest', r) => (l' :: rest', r) end
  end.
Proof. reflexivity. Qed.
Lemma multi_loop_iff f b ls ls' :
  multi_loop f (b :: map l_mag ls ++ [vnull]) ls = (ls', Ok tt) <->
  length ls' = length ls /\
  forall p l l', nth_error ls p = Some l -> nth_error ls' p = Some l' ->
    f (belowb b (mags ls) p) (above (mags ls) p) l = (l', Ok tt).
Proof.
  revert b ls'. induction ls as [|l rest IH]; intros b ls'.
  - cbn. split.
    + intros E. injection E as <-. split; [reflexivity|]. intros [|p]; discriminate.
    + intros [H _]. destruct ls'; [reflexivity|discriminate].
  - assert (ET : exists x tl, map l_mag rest ++ [vnull] = x :: tl /\ x = above (mags (l :: rest)) 0).
    { destruct rest as [|r rest']; cbn; eauto. }
    destruct ET as (x & tl & ET & EX).
    cbn [map app]. rewrite ET. rewrite multi_loop_cons.
    split.
    + destruct (f b x l) as [l1 [u|e]] eqn:E1; [|discriminate].
      destruct (multi_loop f (l_mag l :: x :: tl) rest) as [rest1 r1] eqn:E2. intros E. injection E as <- ->.
      rewrite <- ET in E2. apply IH in E2. destruct E2 as [HL HP]. split; [cbn; congruence|].
      intros [|p] k k' Hk Hk'.
      * cbn in Hk, Hk'. injection Hk as <-. injection Hk' as <-. cbn [belowb]. rewrite <- EX. destruct u. exact E1.
      * cbn in Hk, Hk'. unfold mags. cbn [map]. rewrite belowb_cons, above_cons. apply HP; assumption.
    + intros [HL HP]. destruct ls' as [|l1 rest1]; [discriminate|].
      rewrite EX. assert (E1 := HP 0%nat l l1 eq_refl eq_refl). cbn [belowb] in E1. rewrite E1. rewrite <- EX, <- ET.
      assert (E2 : multi_loop f (l_mag l :: map l_mag rest ++ [vnull]) rest = (rest1, Ok tt)).
      { apply IH. split; [cbn in HL; congruence|]. intros p k k' Hk Hk'.
        specialize (HP (S p) k k' Hk Hk'). unfold mags in HP. cbn [map] in HP. rewrite belowb_cons, above_cons in HP. exact HP. }
      rewrite E2. reflexivity.
Qed.
Lemma set_layers_id j : set_j_layers (j_layers j) j = j.
Proof. destruct j; reflexivity. Qed.
Lemma j_eta j ls : j_layers (set_j_layers ls j) = ls.
Proof. reflexivity. Qed.
Lemma multi_iff t dt j j' : runMultiLayerSolver t dt j = (j', Ok tt) <->
  stepwise (fun p l l' => rk4_step t dt (below (mags (j_layers j)) p) (above (mags (j_layers j)) p) l = (l', Ok tt)) j j'.
Proof.
  unfold runMultiLayerSolver, stepwise, magCopies. split.
  - destruct (multi_loop _ _ _) as [ls r] eqn:E. intros H. injection H as <- ->. cbn [j_layers set_j_layers].
    rewrite vnull_Zero in E at 1. apply multi_loop_iff in E. destruct E as [HL HP]. auto.
  - intros (Hj & HL & HP). assert (E := proj2 (multi_loop_iff (rk4_step t dt) Zero (j_layers j) (j_layers j')) (conj HL HP)).
    change Zero with vnull in E. rewrite E. rewrite <- Hj. reflexivity.
Qed.
Lemma multi_sound t dt j j' : runMultiLayerSolver t dt j = (j', Ok tt) ->
  stepwise (RK4_multi_rel (mags (j_layers j)) t dt) j j'.
Proof.
  intros E. apply multi_iff in E. destruct E as (Hj & HL & HP). split; [exact Hj|]. split; [exact HL|].
  intros p l l' H1 H2. apply rk4_sound. eauto.
Qed.
Lemma nth_error_same_length {A B} (xs : list A) (ys : list B) p x :
  length ys = length xs -> nth_error xs p = Some x -> exists y, nth_error ys p = Some y.
Proof.
  intros HL H. assert (HN : nth_error xs p <> None) by congruence. apply nth_error_Some in HN. rewrite <- HL in HN.
  apply nth_error_Some in HN. destruct (nth_error ys p) eqn:E; [eauto|contradiction].
Qed.
(** Choosing a list of results pointwise. *)
Lemma pointwise_choice {A B} (Q : nat -> A -> B -> Prop) (xs : list A) :
  (forall p x, nth_error xs p = Some x -> exists y, Q p x y) ->
  exists ys, length ys = length xs /\ forall p x y, nth_error xs p = Some x -> nth_error ys p = Some y -> Q p x y.
Proof.
  revert Q. induction xs as [|x xs IH]; intros Q H.
  - exists []. split; [reflexivity|]. intros [|p]; discriminate.
  - destruct (H 0%nat x eq_refl) as [y Hy].
    destruct (IH (fun p => Q (S p))) as (ys & HL & HQ). { intros p z Hz. apply (H (S p) z Hz). }
    exists (y :: ys). split; [cbn; congruence|]. intros [|p] a b Ha Hb; cbn in Ha, Hb.
    + injection Ha as <-. injection Hb as <-. exact Hy.
    + eapply HQ; eassumption.
Qed.
Lemma nth_error_ext_len {A} (xs ys : list A) : length ys = length xs ->
  (forall p x y, nth_error xs p = Some x -> nth_error ys p = Some y -> x = y) -> xs = ys.
Proof.
  revert ys. induction xs as [|x xs IH]; intros [|y ys] HL H; try discriminate; [reflexivity|].
  f_equal; [exact (H 0%nat x y eq_refl eq_refl)|]. apply IH; [cbn in HL; congruence|].
  intros p a b Ha Hb. exact (H (S p) a b Ha Hb).
Qed.
Lemma mags_ext ls ls' : length ls' = length ls ->
  (forall p l l', nth_error ls p = Some l -> nth_error ls' p = Some l' -> l_mag l = l_mag l') -> mags ls = mags ls'.
Proof.
  intros HL H. apply nth_error_ext_len; [unfold mags; rewrite !map_length; exact HL|].
  unfold mags. intros p x y Hx Hy. rewrite nth_error_map in Hx, Hy.
  destruct (nth_error ls p) eqn:E1; [|discriminate]. destruct (nth_error ls' p) eqn:E2; [|discriminate].
  injection Hx as <-. injection Hy as <-. eauto.
Qed.
(** A step that has a specified outcome succeeds with that outcome. *)
Lemma multi_complete t dt j j' :
  stepwise (RK4_multi_rel (mags (j_layers j)) t dt) j j' ->
  exists j'', runMultiLayerSolver t dt j = (j'', Ok tt) /\ mags (j_layers j'') = mags (j_layers j').
Proof.
  intros (Hj & HL & HP).
  destruct (pointwise_choice (fun p l l'' => rk4_step t dt (below (mags (j_layers j)) p) (above (mags (j_layers j)) p) l = (l'', Ok tt)
     /\ forall l', nth_error (j_layers j') p = Some l' -> l_mag l'' = l_mag l') (j_layers j)) as (ls & HL2 & HQ).
  { intros p l Hl. destruct (nth_error_same_length _ _ _ _ HL Hl) as [l' Hl']. destruct (HP p l l' Hl Hl') as [HS _].
    apply rk4_complete in HS. destruct HS as [c HS]. eexists. split; [exact HS|].
    intros k Hk. assert (k = l') by congruence. subst. reflexivity. }
  exists (set_j_layers ls j). split.
  - apply multi_iff. split; [reflexivity|]. split; [exact HL2|]. intros p l l' H1 H2. apply (HQ p l l' H1 H2).
  - cbn [j_layers set_j_layers]. apply mags_ext; [congruence|]. intros p l l' H1 H2.
    destruct (nth_error_same_length ls (j_layers j) p l (eq_sym HL2) H1) as [l0 H0].
    destruct (HQ p l0 l H0 H1) as [_ HE]. exact (HE l' H2).
Qed.

(** ** RK4 single *)
Lemma single_iff t dt j j' : runSingleLayerSolver t dt j = (j', Ok tt) <->
  j_layers j <> [] /\
  stepwise (fun p l l' => match p with O => rk4_step t dt Zero Zero l = (l', Ok tt) | S _ => l' = l end) j j'.
Proof.
  unfold runSingleLayerSolver, stepwise. destruct (j_layers j) as [|l rest] eqn:EJ.
  - split; [discriminate|]. intros [H _]. contradiction.
  - split.
    + destruct (rk4_step t dt vnull vnull l) as [l1 r] eqn:E. intros H. injection H as <- ->.
      cbn [j_layers set_j_layers]. split; [discriminate|]. split; [destruct j; reflexivity|]. split; [reflexivity|].
      intros [|p] k k' H1 H2; cbn in H1, H2.
      * injection H1 as <-. injection H2 as <-. exact E.
      * congruence.
    + intros (_ & Hj & HL & HP). destruct (j_layers j') as [|l1 rest1] eqn:EJ'; [discriminate|].
      change vnull with Zero. rewrite (HP 0%nat l l1 eq_refl eq_refl). 
      assert (rest1 = rest). { symmetry. apply nth_error_ext_len; [cbn in HL; congruence|].
        intros p x y H1 H2. symmetry. exact (HP (S p) x y H1 H2). }
      subst rest1. rewrite <- Hj. reflexivity.
Qed.
Lemma single_sound t dt j j' : runSingleLayerSolver t dt j = (j', Ok tt) -> stepwise (RK4_single_rel t dt) j j'.
Proof.
  intros E. apply single_iff in E. destruct E as (_ & Hj & HL & HP). split; [exact Hj|]. split; [exact HL|].
  intros [|p] l l' H1 H2; specialize (HP _ l l' H1 H2); [|exact HP]. apply rk4_sound. exact HP.
Qed.

(** ** Generic pass with live neighbours whose magnetisation does not change during the pass *)
Fixpoint gpass {A} (f : cvec -> cvec -> ST layer A) (bottom : cvec) (ls : list layer) : list layer * result (list A) :=
  match ls with
  | [] => ([], Ok [])
  | l :: rest =>
      let top := match rest with [] => vnull | r :: _ => l_mag r end in
      match f bottom top l with
      | (l', Err e) => (l' :: rest, Err e)
      | (l', Ok mp) =>
          match gpass f (l_mag l') rest with
          | (rest', Err e) => (l' :: rest', Err e)
          | (rest', Ok mps) => (l' :: rest', Ok (mp :: mps))
          end
      end
  end.
Lemma eh_gpass t dt b ls : eulerHeun_pass t dt b ls = gpass (eulerHeun_layer t dt) b ls.
Proof. revert b. induction ls as [|l rest IH]; intros b; [reflexivity|]. cbn [eulerHeun_pass gpass].
  destruct (eulerHeun_layer _ _ _ _ _) as [l' [mp|e]]; [|reflexivity]. rewrite IH. reflexivity. Qed.
Lemma heun1_gpass t dt b ls : heun_pass1 t dt b ls = gpass (heun_layer1 t dt) b ls.
Proof. revert b. induction ls as [|l rest IH]; intros b; [reflexivity|]. cbn [heun_pass1 gpass].
  destruct (heun_layer1 _ _ _ _ _) as [l' [mp|e]]; [|reflexivity]. rewrite IH. reflexivity. Qed.
Lemma gpass_iff {A} (f : cvec -> cvec -> ST layer A) b ls ls' (rs : list A) :
  (forall b top l l' r, f b top l = (l', Ok r) -> l_mag l' = l_mag l) ->
  gpass f b ls = (ls', Ok rs) <->
  length ls' = length ls /\ length rs = length ls /\
  forall p l l' r, nth_error ls p = Some l -> nth_error ls' p = Some l' -> nth_error rs p = Some r ->
    f (belowb b (mags ls) p) (above (mags ls) p) l = (l', Ok r).
Proof.
  intros Hm. revert b ls' rs. induction ls as [|l rest IH]; intros b ls' rs.
  - cbn. split.
    + intros E. injection E as <- <-. repeat split. intros [|p]; discriminate.
    + intros (H & H' & _). destruct ls', rs; try discriminate. reflexivity.
  - cbn [gpass]. set (top := match rest with [] => vnull | r :: _ => l_mag r end).
    assert (ET : top = above (mags (l :: rest)) 0) by (unfold top; destruct rest; reflexivity). clearbody top.
    split.
    + destruct (f b top l) as [l1 [r1|e]] eqn:E1; [|discriminate].
      destruct (gpass f (l_mag l1) rest) as [rest1 [rs1|e]] eqn:E2; [|discriminate].
      intros E. injection E as <- <-. rewrite (Hm _ _ _ _ _ E1) in E2. apply IH in E2. destruct E2 as (HL & HL2 & HP).
      split; [cbn; congruence|]. split; [cbn; congruence|].
      intros [|p] k k' r Hk Hk' Hr; cbn in Hk, Hk', Hr.
      * injection Hk as <-. injection Hk' as <-. injection Hr as <-. rewrite <- ET. exact E1.
      * unfold mags. cbn [map]. rewrite belowb_cons, above_cons. apply HP; assumption.
    + intros (HL & HL2 & HP). destruct ls' as [|l1 rest1]; [discriminate|]. destruct rs as [|r1 rs1]; [discriminate|].
      assert (E1 := HP 0%nat l l1 r1 eq_refl eq_refl eq_refl). cbn [belowb] in E1. rewrite <- ET in E1. rewrite E1.
      rewrite (Hm _ _ _ _ _ E1).
      assert (E2 : gpass f (l_mag l) rest = (rest1, Ok rs1)).
      { apply IH. split; [cbn in HL; congruence|]. split; [cbn in HL2; congruence|].
        intros p k k' r Hk Hk' Hr. specialize (HP (S p) k k' r Hk Hk' Hr).
        unfold mags in HP. cbn [map] in HP. rewrite belowb_cons, above_cons in HP. exact HP. }
      rewrite E2. reflexivity.
Qed.
Lemma eh_mag t dt b top l l' r : eulerHeun_layer t dt b top l = (l', Ok r) -> l_mag l' = l_mag l.
Proof. intros E. apply eh_layer_sound in E. destruct E as (w & f & _ & _ & _ & _ & c & ->). reflexivity. Qed.
Lemma h1_mag t dt b top l l' r : heun_layer1 t dt b top l = (l', Ok r) -> l_mag l' = l_mag l.
Proof. intros E. apply heun1_sound in E. destruct E as (w & f & _ & _ & _ & _ & c & ->). reflexivity. Qed.

(** ** Euler-Heun *)
Lemma assign_length ls ms : length (assign_mags ls ms) = length ls.
Proof. revert ms. induction ls as [|l ls IH]; intros [|m ms]; cbn; congruence. Qed.
Lemma assign_nth ls ms p l m : nth_error ls p = Some l -> nth_error ms p = Some m ->
  nth_error (assign_mags ls ms) p = Some (set_l_mag (vnormalize m) l).
Proof. revert ms p. induction ls as [|k ls IH]; intros [|n ms] [|p] H1 H2; try discriminate; cbn in *.
  - congruence. - eauto. Qed.
Lemma eh_sound t dt j j' : eulerHeunSolverStep t dt j = (j', Ok tt) ->
  stepwise (EulerHeun_rel (mags (j_layers j)) t dt) j j'.
Proof.
  unfold eulerHeunSolverStep. rewrite eh_gpass. change vnull with Zero.
  destruct (gpass _ _ _) as [ls [mps|e]] eqn:E; [|discriminate]. intros H. injection H as <-.
  apply (gpass_iff _ _ _ _ _ (eh_mag t dt)) in E. destruct E as (HL & HL2 & HP).
  split; [reflexivity|]. cbn [j_layers set_j_layers]. split; [rewrite assign_length; exact HL|].
  intros p l l' Hl Hl'. destruct (nth_error_same_length _ _ _ _ HL Hl) as [l1 Hl1].
  destruct (nth_error_same_length _ _ _ _ HL2 Hl) as [mp Hmp].
  rewrite (assign_nth _ _ _ _ _ Hl1 Hmp) in Hl'. 
  assert (El' : l' = set_l_mag (vnormalize mp) l1) by congruence. clear Hl'. subst l'.
  specialize (HP p l l1 mp Hl Hl1 Hmp). rewrite belowb_zero in HP. apply eh_layer_sound in HP.
  destruct HP as (w & f & Hn & Hdt & Hf & -> & c & ->). exists w, c. split; [exact Hn|]. split; [|reflexivity].
  split; [exact Hdt|]. exists f. split; [exact Hf|]. apply normalize_spec.
Qed.
Lemma eh_complete t dt j j' : stepwise (EulerHeun_rel (mags (j_layers j)) t dt) j j' ->
  exists j'', eulerHeunSolverStep t dt j = (j'', Ok tt) /\ mags (j_layers j'') = mags (j_layers j').
Proof.
  intros (Hj & HL & HP).
  destruct (pointwise_choice (fun p l (x : layer * cvec) => eulerHeun_layer t dt (below (mags (j_layers j)) p) (above (mags (j_layers j)) p) l = (fst x, Ok (snd x))
     /\ forall l', nth_error (j_layers j') p = Some l' -> vnormalize (snd x) = l_mag l') (j_layers j)) as (xs & HL2 & HQ).
  { intros p l Hl. destruct (nth_error_same_length _ _ _ _ HL Hl) as [l' Hl'].
    destruct (HP p l l' Hl Hl') as (w & c & Hn & (Hdt & f & Hf & HN) & _).
    destruct (eh_layer_complete _ _ _ _ _ _ _ Hn Hdt Hf) as [c' E]. exists (set_l_cache c' (advance_noise l), eh_value l dt f w).
    split; [exact E|]. intros k Hk. assert (k = l') by congruence. subst. cbn [snd]. symmetry. apply Normalised_iff. exact HN. }
  assert (E : gpass (eulerHeun_layer t dt) Zero (j_layers j) = (map fst xs, Ok (map snd xs))).
  { apply (gpass_iff _ _ _ _ _ (eh_mag t dt)). rewrite !map_length. split; [exact HL2|]. split; [exact HL2|].
    intros p l l' r H1 H2 H3. rewrite nth_error_map in H2, H3. destruct (nth_error xs p) as [x|] eqn:Ex; [|discriminate].
    cbn in H2, H3. injection H2 as <-. injection H3 as <-. apply (HQ p l x H1 Ex). }
  exists (set_j_layers (assign_mags (map fst xs) (map snd xs)) j). split.
  - unfold eulerHeunSolverStep. rewrite eh_gpass. change vnull with Zero. rewrite E. reflexivity.
  - cbn [j_layers set_j_layers]. apply mags_ext; [rewrite assign_length, map_length; congruence|].
    intros p l l' H1 H2. destruct (nth_error_same_length (j_layers j') (j_layers j) p l' (eq_sym HL) H2) as [l0 H0].
    destruct (nth_error_same_length _ _ _ _ HL2 H0) as [x Hx]. destruct (HQ p l0 x H0 Hx) as [_ HE].
    assert (Hf := map_nth_error fst p xs Hx). assert (Hs := map_nth_error snd p xs Hx).
    rewrite (assign_nth _ _ _ _ _ Hf Hs) in H1. 
    assert (El : l = set_l_mag (vnormalize (snd x)) (fst x)) by congruence. subst l. exact (HE l' H2).
Qed.

(** ** Heun *)
Lemma pass2_iff t dt b hs ls ls' : length hs = length ls ->
  heun_pass2 t dt b hs ls = (ls', Ok tt) <->
  length ls' = length ls /\
  forall p l h l', nth_error ls p = Some l -> nth_error hs p = Some h -> nth_error ls' p = Some l' ->
    heun_layer2 t dt h (belowb b (map h_mNext hs) p) (above (map h_mNext hs) p) l = (l', Ok tt).
Proof.
  revert b hs ls'. induction ls as [|l rest IH]; intros b hs ls' HL.
  - destruct hs; [|discriminate]. cbn. split.
    + intros E. injection E as <-. split; [reflexivity|]. intros [|p]; discriminate.
    + intros [H _]. destruct ls'; [reflexivity|discriminate].
  - destruct hs as [|h hs]; [discriminate|]. cbn [heun_pass2].
    set (top := match hs with [] => vnull | r :: _ => h_mNext r end).
    assert (ET : top = above (map h_mNext (h :: hs)) 0) by (unfold top; destruct hs; reflexivity). clearbody top.
    cbn in HL. injection HL as HL. split.
    + destruct (heun_layer2 t dt h b top l) as [l1 [u|e]] eqn:E1; [|discriminate].
      destruct (heun_pass2 t dt (h_mNext h) hs rest) as [rest1 r1] eqn:E2. intros E. injection E as <- ->.
      apply IH in E2; [|exact HL]. destruct E2 as [HL2 HP]. split; [cbn; congruence|].
      intros [|p] k hh k' Hk Hh Hk'; cbn in Hk, Hh, Hk'.
      * injection Hk as <-. injection Hh as <-. injection Hk' as <-. rewrite <- ET. destruct u. exact E1.
      * cbn [map]. rewrite belowb_cons, above_cons. apply HP; assumption.
    + intros [HL2 HP]. destruct ls' as [|l1 rest1]; [discriminate|].
      assert (E1 := HP 0%nat l h l1 eq_refl eq_refl eq_refl). rewrite <- ET in E1. cbn [belowb] in E1. rewrite E1.
      assert (E2 : heun_pass2 t dt (h_mNext h) hs rest = (rest1, Ok tt)).
      { apply IH; [exact HL|]. split; [cbn in HL2; congruence|]. intros p k hh k' Hk Hh Hk'.
        specialize (HP (S p) k hh k' Hk Hh Hk'). cbn [map] in HP. rewrite belowb_cons, above_cons in HP. exact HP. }
      rewrite E2. reflexivity.
Qed.
Lemma heun_sound t dt j j' : heunSolverStep t dt j = (j', Ok tt) ->
  exists ws ps, length ws = length (j_layers j) /\ length ps = length (j_layers j) /\
    stepwise (Heun_rel (mags (j_layers j)) ws ps t dt) j j'.
Proof.
  unfold heunSolverStep. rewrite heun1_gpass. change vnull with Zero.
  destruct (gpass _ _ _) as [ls [hs|e]] eqn:E; [|discriminate].
  destruct (heun_pass2 _ _ _ _ _) as [ls' r] eqn:E2. intros H. injection H as <- ->.
  apply (gpass_iff _ _ _ _ _ (h1_mag t dt)) in E. destruct E as (HL & HL2 & HP).
  apply pass2_iff in E2; [|congruence]. destruct E2 as [HL3 HP2].
  exists (map h_dW hs), (map h_mNext hs). rewrite !map_length. split; [exact HL2|]. split; [exact HL2|].
  split; [reflexivity|]. cbn [j_layers set_j_layers]. split; [congruence|].
  intros p l l' Hl Hl'. destruct (nth_error_same_length _ _ _ _ HL Hl) as [l1 Hl1].
  destruct (nth_error_same_length _ _ _ _ HL2 Hl) as [h Hh].
  specialize (HP p l l1 h Hl Hl1 Hh). rewrite belowb_zero in HP. apply heun1_sound in HP.
  destruct HP as (w & f & Hn & Hdt & Hf & Eh & c & ->).
  specialize (HP2 p _ h l' Hl1 Hh Hl'). rewrite belowb_zero in HP2. apply heun2_sound in HP2.
  destruct HP2 as (f' & _ & Hf' & HN & c' & El').
  assert (Hst : static (set_l_cache c (advance_noise l)) l).
  { apply static_sym. eapply static_trans; [apply static_advance|apply static_cache]. }
  apply (static_rhs _ _ _ _ _ _ _ Hst) in Hf'. subst h.
  exists w, (heun_pred l dt f w), c'. 
  split; [exact (map_nth_error h_dW p hs Hh)|]. split; [exact (map_nth_error h_mNext p hs Hh)|].
  split; [exact Hn|]. split. { split; [exact Hdt|]. exists f. split; [exact Hf|reflexivity]. }
  split. { exists f, f'. split; [exact Hf|]. split; [exact Hf'|]. exact HN. }
  rewrite El' at 1. rewrite set_cache_twice. reflexivity.
Qed.
Lemma heun_complete t dt j j' ws ps : length ws = length (j_layers j) -> length ps = length (j_layers j) ->
  stepwise (Heun_rel (mags (j_layers j)) ws ps t dt) j j' ->
  exists j'', heunSolverStep t dt j = (j'', Ok tt) /\ mags (j_layers j'') = mags (j_layers j').
Proof.
  intros HW HPs (Hj & HL & HP).
  destruct (pointwise_choice (fun p l (x : layer * heun_stage) =>
     heun_layer1 t dt (below (mags (j_layers j)) p) (above (mags (j_layers j)) p) l = (fst x, Ok (snd x)) /\
     nth_error ps p = Some (h_mNext (snd x)) /\ (exists c, fst x = set_l_cache c (advance_noise l)) /\
     forall l', nth_error (j_layers j') p = Some l' -> 0 <= dt /\
       exists f', rhs l (t + dt) (h_mNext (snd x)) (below ps p) (above ps p) f' /\
                  Normalised (heun_value l dt (snd x) f') (l_mag l')) (j_layers j)) as (xs & HL2 & HQ).
  { intros p l Hl. destruct (nth_error_same_length _ _ _ _ HL Hl) as [l' Hl'].
    destruct (HP p l l' Hl Hl') as (w & q & c & Hw & Hq & Hn & (Hdt & f & Hf & Eq) & (f2 & f' & Hf2 & Hf' & HN) & _).
    assert (f2 = f).
    { apply (rhs_iff _ _ _ _ _ dt) in Hf, Hf2. destruct Hf as [x1 X1], Hf2 as [x2 X2]. congruence. }
    subst f2. destruct (heun1_complete _ _ _ _ _ _ _ Hn Hdt Hf) as [c' E].
    exists (set_l_cache c' (advance_noise l), heun_stage_of l dt f w). cbn [fst snd].
    split; [exact E|]. split; [rewrite Hq, Eq; reflexivity|]. split; [eauto|].
    intros k Hk. assert (k = l') by congruence. subst k. split; [exact Hdt|]. exists f'. subst q.
    split; [exact Hf'|exact HN]. }
  assert (E : gpass (heun_layer1 t dt) Zero (j_layers j) = (map fst xs, Ok (map snd xs))).
  { apply (gpass_iff _ _ _ _ _ (h1_mag t dt)). rewrite !map_length. split; [exact HL2|]. split; [exact HL2|].
    intros p l l' r H1 H2 H3. rewrite nth_error_map in H2, H3. destruct (nth_error xs p) as [x|] eqn:Ex; [|discriminate].
    cbn in H2, H3. injection H2 as <-. injection H3 as <-. apply (HQ p l x H1 Ex). }
  assert (EP : map h_mNext (map snd xs) = ps).
  { apply nth_error_ext_len; [rewrite !map_length; congruence|]. intros p x y Hx Hy.
    rewrite map_map, nth_error_map in Hx. destruct (nth_error xs p) as [z|] eqn:Ez; [|discriminate]. cbn in Hx.
    destruct (nth_error_same_length xs (j_layers j) p z (eq_sym HL2) Ez) as [l0 H0].
    destruct (HQ p l0 z H0 Ez) as (_ & HE & _). congruence. }
  destruct (pointwise_choice (fun p (x : layer * heun_stage) l'' =>
     heun_layer2 t dt (snd x) (below ps p) (above ps p) (fst x) = (l'', Ok tt) /\
     forall l', nth_error (j_layers j') p = Some l' -> l_mag l'' = l_mag l') xs) as (ls & HL3 & HR).
  { intros p x Hx. destruct (nth_error_same_length xs (j_layers j) p x (eq_sym HL2) Hx) as [l Hl].
    destruct (HQ p l x Hl Hx) as (_ & _ & (c & Ec) & HE). destruct (nth_error_same_length _ _ _ _ HL Hl) as [l' Hl'].
    destruct (HE l' Hl') as (Hdt & f' & Hf' & HN).
    assert (Hst : static l (fst x)). { rewrite Ec. eapply static_trans; [apply static_advance|apply static_cache]. }
    apply (static_rhs _ _ _ _ _ _ _ Hst) in Hf'. destruct (heun2_complete _ _ _ _ _ _ _ Hdt Hf') as [c' E'].
    eexists. split; [exact E'|]. intros k Hk. assert (k = l') by congruence. subst k. cbn [l_mag set_l_mag].
    symmetry. apply Normalised_iff. replace (heun_value (fst x) dt (snd x) f') with (heun_value l dt (snd x) f') by (rewrite Ec; reflexivity).
    exact HN. }
  exists (set_j_layers ls j). split.
  - unfold heunSolverStep. rewrite heun1_gpass. change vnull with Zero. rewrite E.
    assert (E2 : heun_pass2 t dt Zero (map snd xs) (map fst xs) = (ls, Ok tt)).
    { apply pass2_iff; [rewrite !map_length; reflexivity|]. split; [rewrite map_length; exact HL3|].
      intros p l h l' H1 H2 H3. rewrite nth_error_map in H1, H2. destruct (nth_error xs p) as [x|] eqn:Ex; [|discriminate].
      cbn in H1, H2. injection H1 as <-. injection H2 as <-. rewrite EP. apply (HR p x l' Ex H3). }
    rewrite E2. reflexivity.
  - cbn [j_layers set_j_layers]. apply mags_ext; [congruence|]. intros p l l' H1 H2.
    destruct (nth_error_same_length ls xs p l (eq_sym HL3) H1) as [x Hx]. destruct (HR p x l Hx H1) as [_ HE]. exact (HE l' H2).
Qed.
