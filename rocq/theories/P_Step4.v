(** Outcomes of junction-wide steps, order independence, equilibria. *)
From Verif Require Export P_Step3 P_LayerEx.
Open Scope R_scope.
Open Scope st_scope.

Lemma single_complete t dt j j' : j_layers j <> [] -> stepwise (RK4_single_rel t dt) j j' ->
  exists j'', runSingleLayerSolver t dt j = (j'', Ok tt) /\ mags (j_layers j'') = mags (j_layers j').
Proof.
  intros HN (Hj & HL & HP). destruct (j_layers j) as [|l rest] eqn:EJ; [contradiction|].
  destruct (j_layers j') as [|l' rest'] eqn:EJ'; [discriminate|].
  destruct (HP 0%nat l l' eq_refl eq_refl) as [HS _].
  apply rk4_complete in HS. destruct HS as [c HS].
  exists (set_j_layers (set_l_mag (l_mag l') (set_l_cache c l) :: rest) j). split.
  - unfold runSingleLayerSolver. rewrite EJ. change vnull with Zero. rewrite HS. reflexivity.
  - cbn [j_layers set_j_layers mags map l_mag set_l_mag]. f_equal. f_equal.
    apply nth_error_ext_len; [cbn in HL; congruence|]. intros p x y H1 H2. symmetry. exact (HP (S p) x y H1 H2).
Qed.
Lemma stepwise_length Rel j j' : stepwise Rel j j' -> length (j_layers j') = length (j_layers j).
Proof. intros (_ & H & _). exact H. Qed.
(** Every step changes only magnetisation, remembered values and generator positions. *)
Lemma step_static r t dt j j' : run_runner r t dt j = (j', Ok tt) ->
  stepwise (fun _ l l' => static l l') j j'.
Proof.
  destruct r; cbn [run_runner]; intros E.
  - apply single_sound in E. destruct E as (Hj & HL & HP). split; [exact Hj|]. split; [exact HL|].
    intros [|p] l l' H1 H2; specialize (HP _ _ _ H1 H2); cbn in HP.
    + destruct HP as (_ & c & ->). eapply static_trans; [apply static_cache|apply static_mag].
    + subst. apply static_refl.
  - apply multi_sound in E. destruct E as (Hj & HL & HP). split; [exact Hj|]. split; [exact HL|].
    intros p l l' H1 H2; specialize (HP _ _ _ H1 H2). destruct HP as (_ & c & ->).
    eapply static_trans; [apply static_cache|apply static_mag].
  - apply heun_sound in E. destruct E as (ws & ps & _ & _ & Hj & HL & HP). split; [exact Hj|]. split; [exact HL|].
    intros p l l' H1 H2; specialize (HP _ _ _ H1 H2). destruct HP as (w & q & c & _ & _ & _ & _ & _ & ->).
    eapply static_trans; [apply static_advance|]. eapply static_trans; [apply static_cache|apply static_mag].
  - apply eh_sound in E. destruct E as (Hj & HL & HP). split; [exact Hj|]. split; [exact HL|].
    intros p l l' H1 H2; specialize (HP _ _ _ H1 H2). destruct HP as (w & c & _ & _ & ->).
    eapply static_trans; [apply static_advance|]. eapply static_trans; [apply static_cache|apply static_mag].
Qed.
Lemma Normalised_UnitOrZero v u : Normalised v u -> UnitOrZero u.
Proof. intros H. apply Normalised_iff in H. subst. apply vnormalize_UnitOrZero. Qed.
Lemma step_normalised r t dt j j' p l' : run_runner r t dt j = (j', Ok tt) -> stepped r p ->
  nth_error (j_layers j') p = Some l' -> UnitOrZero (l_mag l').
Proof.
  intros E Hp Hl'.
  assert (HL : exists l, nth_error (j_layers j) p = Some l).
  { apply step_static, stepwise_length in E. exact (nth_error_same_length _ _ _ _ (eq_sym E) Hl'). }
  destruct HL as [l Hl]. destruct r; cbn [run_runner] in E.
  - apply single_sound in E. destruct E as (Hj & HL & HP). cbn in Hp. subst p.
    destruct (HP _ _ _ Hl Hl') as ((f1 & f2 & f3 & f4 & _ & _ & _ & _ & H) & _). exact (Normalised_UnitOrZero _ _ H).
  - apply multi_sound in E. destruct E as (Hj & HL & HP).
    destruct (HP _ _ _ Hl Hl') as ((f1 & f2 & f3 & f4 & _ & _ & _ & _ & H) & _). exact (Normalised_UnitOrZero _ _ H).
  - apply heun_sound in E. destruct E as (ws & ps & _ & _ & Hj & HL & HP).
    destruct (HP _ _ _ Hl Hl') as (w & q & c & _ & _ & _ & _ & (f & f' & _ & _ & H) & _). exact (Normalised_UnitOrZero _ _ H).
  - apply eh_sound in E. destruct E as (Hj & HL & HP).
    destruct (HP _ _ _ Hl Hl') as (w & c & _ & (_ & f & _ & H) & _). exact (Normalised_UnitOrZero _ _ H).
Qed.

(** Outcome characterisations. *)
Lemma rk4_single_outcome t dt j ms : j_layers j <> [] ->
  (outcome (runSingleLayerSolver t dt) j ms <-> exists j', stepwise (RK4_single_rel t dt) j j' /\ mags (j_layers j') = ms).
Proof.
  intros HN. split.
  - intros (j1 & E & <-). exists j1. split; [apply single_sound; exact E|reflexivity].
  - intros (j' & H & <-). apply single_complete in H; [|exact HN]. exact H.
Qed.
Lemma rk4_multi_outcome t dt j ms :
  outcome (runMultiLayerSolver t dt) j ms <->
  exists j', stepwise (RK4_multi_rel (mags (j_layers j)) t dt) j j' /\ mags (j_layers j') = ms.
Proof.
  split.
  - intros (j1 & E & <-). exists j1. split; [apply multi_sound; exact E|reflexivity].
  - intros (j' & H & <-). apply multi_complete in H. exact H.
Qed.
Lemma eulerHeun_outcome t dt j ms :
  outcome (eulerHeunSolverStep t dt) j ms <->
  exists j', stepwise (EulerHeun_rel (mags (j_layers j)) t dt) j j' /\ mags (j_layers j') = ms.
Proof.
  split.
  - intros (j1 & E & <-). exists j1. split; [apply eh_sound; exact E|reflexivity].
  - intros (j' & H & <-). apply eh_complete in H. exact H.
Qed.
Lemma heun_outcome t dt j ms :
  outcome (heunSolverStep t dt) j ms <->
  exists j' ws ps, length ws = layerNo j /\ length ps = layerNo j /\
    stepwise (Heun_rel (mags (j_layers j)) ws ps t dt) j j' /\ mags (j_layers j') = ms.
Proof.
  split.
  - intros (j1 & E & <-). apply heun_sound in E. destruct E as (ws & ps & H1 & H2 & H3). exists j1, ws, ps. auto.
  - intros (j' & ws & ps & H1 & H2 & H & <-). exact (heun_complete _ _ _ _ _ _ H1 H2 H).
Qed.

(** ** Order independence *)
Lemma replace_length {A} p (x : A) xs : length (replace_nth p x xs) = length xs.
Proof. revert p. induction xs; intros [|p]; cbn; congruence. Qed.
Lemma replace_nth_eq {A} p (x : A) xs y : nth_error xs p = Some y -> nth_error (replace_nth p x xs) p = Some x.
Proof. revert p. induction xs; intros [|p] H; try discriminate; cbn in *; eauto. Qed.
Lemma replace_nth_neq {A} p q (x : A) xs : p <> q -> nth_error (replace_nth p x xs) q = nth_error xs q.
Proof. revert p q. induction xs; intros [|p] [|q] H; cbn; try reflexivity; try congruence; try (destruct q; reflexivity). apply IHxs. congruence. Qed.
Lemma exec_any_order t dt ms order ls ls' :
  length ls' = length ls -> NoDup order ->
  (forall p l l', In p order -> nth_error ls p = Some l -> nth_error ls' p = Some l' ->
     rk4_step t dt (below ms p) (above ms p) l = (l', Ok tt)) ->
  (forall p, In p order -> (p < length ls)%nat) ->
  (forall p, ~ In p order -> nth_error ls' p = nth_error ls p) ->
  snapshot_exec t dt ms order ls ls' /\ forall ls2, snapshot_exec t dt ms order ls ls2 -> ls2 = ls'.
Proof.
  revert ls. induction order as [|p order IH]; intros ls HL HN Hs Hin Hout.
  - assert (ls' = ls). { apply nth_error_ext_len; [congruence|]. intros p x y H1 H2. rewrite (Hout p) in H1; [congruence|intros []]. }
    subst. split; [constructor|]. intros ls2 H. inversion H; reflexivity.
  - inversion HN as [|? ? Hni HN']; subst.
    assert (Hp : (p < length ls)%nat) by (apply Hin; left; reflexivity).
    destruct (nth_error ls p) as [l|] eqn:El; [|apply nth_error_None in El; lia].
    destruct (nth_error_same_length _ _ _ _ HL El) as [l' El'].
    assert (E := Hs p l l' (or_introl eq_refl) El El').
    destruct (IH (replace_nth p l' ls)) as [HA HB].
    + rewrite replace_length. exact HL.
    + exact HN'.
    + intros q k k' Hq Hk Hk'. assert (p <> q) by (intros ->; contradiction). rewrite replace_nth_neq in Hk by assumption.
      apply Hs; [right|..]; assumption.
    + intros q Hq. rewrite replace_length. apply Hin. right. exact Hq.
    + intros q Hq. destruct (Nat.eq_dec p q) as [->|Hd].
      * rewrite (replace_nth_eq _ _ _ _ El). exact El'.
      * rewrite replace_nth_neq by assumption. apply Hout. intros [H|H]; [contradiction|contradiction].
    + split; [econstructor; eassumption|]. intros ls2 H. inversion H as [|q ord2 ls3 k k' ls4 H2 H4 H6]; subst.
      assert (k = l) by congruence. subst. assert (k' = l') by congruence. subst. apply HB. assumption.
Qed.
Lemma snapshot_order t dt j j' order :
  runMultiLayerSolver t dt j = (j', Ok tt) -> NoDup order ->
  (forall p, In p order <-> (p < layerNo j)%nat) ->
  snapshot_exec t dt (mags (j_layers j)) order (j_layers j) (j_layers j') /\
  forall ls2, snapshot_exec t dt (mags (j_layers j)) order (j_layers j) ls2 -> ls2 = j_layers j'.
Proof.
  intros E HN Ho. apply multi_iff in E. destruct E as (Hj & HL & HP). unfold layerNo in Ho.
  apply exec_any_order; auto.
  - intros p H. apply Ho. exact H.
  - intros p H. assert (~ (p < length (j_layers j))%nat) by (intros X; apply H, Ho, X).
    rewrite (proj2 (nth_error_None _ _)), (proj2 (nth_error_None _ _)); [reflexivity|lia|lia].
Qed.

(** ** Equilibria *)
Lemma rest_rhs l b top : aligned_at_rest l b top -> forall s, rhs l s (l_mag l) b top Zero.
Proof.
  intros (HU & H1 & H2 & H3 & H4 & H) s. destruct (H s) as (i & Hi & HC). exists i. split; [exact Hi|].
  split; [exact H3|]. split; [exact H4|].
  assert (HS := llg_plain l s (l_mag l) b top (H_eff l i (l_mag l) b top (dipole_total l b top) Zero) H1 H2).
  replace (LLG_plain (l_damping l) (l_mag l) (H_eff l i (l_mag l) b top (dipole_total l b top) Zero)) with Zero in HS; [exact HS|].
  unfold LLG_plain, LL. rewrite HC, Cross_Zero_r. clear. vring.
Qed.
Lemma quiet_noise l t w : quiet l -> noise_spec l t w <-> w = Zero.
Proof.
  intros [H1 H2]. unfold noise_spec, thermal_part, coloured_part. rewrite H1. split.
  - intros (a & b & -> & [[_ ->]|[H _]] & ->); [|contradiction]. apply Plus_Zero_l.
  - intros ->. exists Zero, Zero. split; [reflexivity|]. split; [left; auto|]. symmetry. apply Plus_Zero_l.
Qed.
Lemma quiet_advance l : quiet l -> advance_noise l = l.
Proof.
  intros [H1 H2]. unfold advance_noise. rewrite H1. destruct (Req_EM_T (l_nScale l) 0); [|contradiction]. destruct l; reflexivity.
Qed.
Lemma unit_normalised v : Unit v -> Normalised v v.
Proof. intros H. apply Normalised_iff. symmetry. apply vnormalize_id. exact H. Qed.
Lemma plain_no_field a m : LLG_plain a m Zero = Zero.
Proof. unfold LLG_plain, LL. rewrite !Cross_Zero_r. clear. vring. Qed.
Lemma rest_rk4 l b top t dt : aligned_at_rest l b top ->
  RK4_scheme (fun s m d => rhs l s m b top d) t dt (l_mag l) (l_mag l).
Proof.
  intros H. assert (HR := rest_rhs _ _ _ H). destruct H as (HU & _).
  assert (Z : forall k, Plus (l_mag l) (Scal k Zero) = l_mag l) by (intros; rewrite Scal_Zero, Plus_Zero_r; reflexivity).
  exists Zero, Zero, Zero, Zero. rewrite !Z. repeat split; try apply HR.
  replace (Sum _) with Zero by (cbn [Sum fold_right]; rewrite !Scal_Zero, !Plus_Zero_l; reflexivity).
  rewrite Z. apply unit_normalised. exact HU.
Qed.
Lemma mags_same j : mags (j_layers j) = map l_mag (j_layers j). Proof. reflexivity. Qed.
Lemma below_same_idx (ms ps : list cvec) : ms = ps -> forall p, below ms p = below ps p. Proof. intros ->. reflexivity. Qed.
Lemma rest_step r t dt j : at_rest j -> 0 <= dt -> (r = RunSingle -> layerNo j = 1%nat) ->
  exists j', run_runner r t dt j = (j', Ok tt) /\ mags (j_layers j') = mags (j_layers j).
Proof.
  intros HR Hdt Hr.
  assert (SELF : j = set_j_layers (j_layers j) j) by (destruct j; reflexivity).
  destruct r; cbn [run_runner].
  - specialize (Hr eq_refl). unfold layerNo in Hr. apply single_complete; [intros E; rewrite E in Hr; discriminate|].
    split; [exact SELF|]. split; [reflexivity|]. intros [|p] l l' H1 H2.
    + assert (l' = l) by congruence. subst l'. split.
      * destruct (HR _ _ H1) as [HA _]. destruct (j_layers j) as [|k [|k2 rest]]; try discriminate.
        cbn in HA. apply rest_rk4. exact HA.
      * exists (l_cache l). destruct l; reflexivity.
    + cbn. congruence.
  - apply multi_complete. split; [exact SELF|]. split; [reflexivity|]. intros p l l' H1 H2.
    assert (l' = l) by congruence. subst l'. destruct (HR _ _ H1) as [HA _]. split; [apply rest_rk4; exact HA|].
    exists (l_cache l). destruct l; reflexivity.
  - apply (heun_complete _ _ _ _ (map (fun _ => Zero) (j_layers j)) (mags (j_layers j))); [apply map_length..|].
    split; [exact SELF|]. split; [reflexivity|]. intros p l l' H1 H2.
    assert (l' = l) by congruence. subst l'. destruct (HR _ _ H1) as [HA HQ]. assert (HF := rest_rhs _ _ _ HA).
    exists Zero, (l_mag l), (l_cache l).
    split; [exact (map_nth_error (fun _ => Zero) p _ H1)|]. split; [exact (map_nth_error l_mag p _ H1)|].
    split; [apply quiet_noise; auto|]. split.
    { split; [exact Hdt|]. exists Zero. split; [apply HF|]. rewrite plain_no_field, !Scal_Zero, !Plus_Zero_r. reflexivity. }
    split.
    { exists Zero, Zero. split; [apply HF|]. split; [apply HF|]. rewrite !plain_no_field.
      rewrite !Plus_Zero_r, !Scal_Zero, !Plus_Zero_r. apply unit_normalised, HA. }
    rewrite quiet_advance by exact HQ. destruct l; reflexivity.
  - apply eh_complete. split; [exact SELF|]. split; [reflexivity|]. intros p l l' H1 H2.
    assert (l' = l) by congruence. subst l'. destruct (HR _ _ H1) as [HA HQ]. assert (HF := rest_rhs _ _ _ HA).
    exists Zero, (l_cache l). split; [apply quiet_noise; auto|]. split.
    { split; [exact Hdt|]. exists Zero. split; [apply HF|]. cbv zeta beta. rewrite !plain_no_field.
      rewrite !Plus_Zero_r, !Scal_Zero, !Plus_Zero_r. apply unit_normalised, HA. }
    rewrite quiet_advance by exact HQ. destruct l; reflexivity.
Qed.
Lemma static_rest l l' b top : static l l' -> l_mag l' = l_mag l -> aligned_at_rest l b top -> aligned_at_rest l' b top.
Proof.
  intros (m & c & rp & bf & ->) E. cbn in E. subst m. intros H. exact H.
Qed.
Lemma static_quiet l l' : static l l' -> quiet l -> quiet l'.
Proof. intros (m & c & rp & bf & ->) H. exact H. Qed.
Lemma step_keeps_rest r t dt j j' : at_rest j -> run_runner r t dt j = (j', Ok tt) ->
  mags (j_layers j') = mags (j_layers j) -> at_rest j'.
Proof.
  intros HR E EM. apply step_static in E. destruct E as (_ & HL & HP). intros p l' Hl'. rewrite EM.
  destruct (nth_error_same_length _ _ _ _ (eq_sym HL) Hl') as [l Hl]. specialize (HP _ _ _ Hl Hl').
  destruct (HR _ _ Hl) as [HA HQ]. split; [|eapply static_quiet; eassumption].
  eapply static_rest; [exact HP| |exact HA].
  assert (X1 := map_nth_error l_mag p _ Hl). assert (X2 := map_nth_error l_mag p _ Hl').
  unfold mags in EM. rewrite EM in X2. congruence.
Qed.

(** ** A junction on which every runner succeeds *)
Lemma plain_total l : l_includeSTT l = false -> l_includeSOT l = false -> l_Ms l <> 0 -> l_thickness l <> 0 ->
  (forall t, exists i, inputs_at l t i) -> forall t m b top, exists d, rhs l t m b top d.
Proof.
  intros H1 H2 H3 H4 HI t m b top. destruct (HI t) as [i Hi]. eexists. exists i. repeat split; try eassumption.
  all: try (apply Hi). apply llg_plain; assumption.
Qed.
Lemma total_rk4 l b top : (forall t m, exists d, rhs l t m b top d) ->
  forall t dt, exists m', RK4_scheme (fun s m d => rhs l s m b top d) t dt (l_mag l) m'.
Proof.
  intros H t dt. destruct (H t (l_mag l)) as [f1 H1].
  destruct (H (t + dt / 2) (Plus (l_mag l) (Scal (dt / 2) f1))) as [f2 H2].
  destruct (H (t + dt / 2) (Plus (l_mag l) (Scal (dt / 2) f2))) as [f3 H3].
  destruct (H (t + dt) (Plus (l_mag l) (Scal dt f3))) as [f4 H4].
  eexists. exists f1, f2, f3, f4. repeat split; try eassumption. apply normalize_spec.
Qed.
Definition total_layer (l : layer) : Prop := forall t m b top, exists d, rhs l t m b top d.
Definition noisy_total (l : layer) : Prop := forall t, exists w, noise_spec l t w.
(** Every runner succeeds from every state whose layers have a derivative and noise at all times. *)
Lemma step_total r t dt j : j_layers j <> [] -> 0 <= dt ->
  (forall l, In l (j_layers j) -> total_layer l /\ noisy_total l) ->
  exists j', run_runner r t dt j = (j', Ok tt).
Proof.
  intros HN Hdt HT.
  assert (HT' : forall p l, nth_error (j_layers j) p = Some l -> total_layer l /\ noisy_total l).
  { intros p l H. apply HT. eapply nth_error_In. exact H. }
  set (ms := mags (j_layers j)).
  destruct r; cbn [run_runner].
  - destruct (j_layers j) as [|l rest] eqn:EJ; [contradiction|].
    destruct (total_rk4 l Zero Zero (fun t m => proj1 (HT l (or_introl eq_refl)) t m Zero Zero) t dt) as [m' Hm].
    apply rk4_complete in Hm. destruct Hm as [c E]. unfold runSingleLayerSolver. rewrite EJ. change vnull with Zero.
    rewrite E. eauto.
  - destruct (pointwise_choice (fun p l l' => RK4_multi_rel ms t dt p l l') (j_layers j)) as (ls & HL & HP).
    { intros p l Hl. destruct (HT' p l Hl) as [H1 _].
      destruct (total_rk4 l (below ms p) (above ms p) (fun t m => H1 t m _ _) t dt) as [m' Hm].
      exists (set_l_mag m' (set_l_cache (l_cache l) l)). split; [exact Hm|eauto]. }
    destruct (multi_complete t dt j (set_j_layers ls j)) as (j'' & E & _); [|eauto]. split; [reflexivity|]. split; [exact HL|exact HP].
  - destruct (pointwise_choice (fun p l (wq : cvec * cvec) => noise_spec l t (fst wq) /\
       Heun_predictor l t dt (below ms p) (above ms p) (fst wq) (snd wq)) (j_layers j)) as (wqs & HL & HP).
    { intros p l Hl. destruct (HT' p l Hl) as [H1 H2]. destruct (H2 t) as [w Hw].
      destruct (H1 t (l_mag l) (below ms p) (above ms p)) as [f Hf].
      eexists (w, _). split; [exact Hw|]. split; [exact Hdt|]. exists f. split; [exact Hf|]. cbn [snd fst]. reflexivity. }
    set (ws := map fst wqs). set (ps := map snd wqs).
    destruct (pointwise_choice (Heun_rel ms ws ps t dt) (j_layers j)) as (ls & HL2 & HP2).
    { intros p l Hl. destruct (HT' p l Hl) as [H1 H2]. destruct (nth_error_same_length _ _ _ _ HL Hl) as [[w q] Hwq].
      destruct (HP p l _ Hl Hwq) as [Hn Hp]. cbn [fst snd] in Hn, Hp.
      destruct (H1 t (l_mag l) (below ms p) (above ms p)) as [f Hf].
      destruct (H1 (t + dt) q (below ps p) (above ps p)) as [f' Hf'].
      eexists (set_l_mag _ (set_l_cache (l_cache l) (advance_noise l))). exists w, q, (l_cache l).
      split; [exact (map_nth_error fst p _ Hwq)|]. split; [exact (map_nth_error snd p _ Hwq)|]. split; [exact Hn|].
      split; [exact Hp|]. split; [|reflexivity]. exists f, f'. split; [exact Hf|]. split; [exact Hf'|].
      apply normalize_spec. }
    destruct (heun_complete t dt j (set_j_layers ls j) ws ps) as (j'' & E & _); [..|eauto].
    + unfold ws. rewrite map_length. exact HL.
    + unfold ps. rewrite map_length. exact HL.
    + split; [reflexivity|]. split; [exact HL2|exact HP2].
  - destruct (pointwise_choice (EulerHeun_rel ms t dt) (j_layers j)) as (ls & HL & HP).
    { intros p l Hl. destruct (HT' p l Hl) as [H1 H2]. destruct (H2 t) as [w Hw].
      destruct (H1 t (l_mag l) (below ms p) (above ms p)) as [f Hf].
      eexists (set_l_mag _ (set_l_cache (l_cache l) (advance_noise l))). exists w, (l_cache l).
      split; [exact Hw|]. split; [|reflexivity]. split; [exact Hdt|]. exists f. split; [exact Hf|]. apply normalize_spec. }
    destruct (eh_complete t dt j (set_j_layers ls j)) as (j'' & E & _); [|eauto]. split; [reflexivity|]. split; [exact HL|exact HP].
Qed.
(** An exchange-coupled bilayer in a field. *)
Definition ex_pair (J : R) (h : cvec) : list layer :=
  [set_l_IECTop (cdrv J) (set_l_external (caxial h) (ex_layer "free" (CV 1 0 0)));
   set_l_IECBottom (cdrv J) (set_l_external (caxial h) (ex_layer "pinned" (CV 0 1 0)))].
Definition ex_junction (J : R) (h : cvec) : junction :=
  JN MR_CLASSIC (ex_pair J h) 100 200 [] [] [] [] [] [] [] [] 0 "R_free_pinned".
Lemma ex_junction_constructed J h : Junction_classic (ex_pair J h) 100 200 = Ok (ex_junction J h).
Proof. reflexivity. Qed.
Lemma ex_pair_total J h l : In l (ex_pair J h) -> total_layer l /\ noisy_total l.
Proof.
  intros H. split.
  - cbn in H. destruct h. destruct H as [<-|[<-|[]]]; intros t m b top; apply plain_total; try reflexivity; try (cbn; lra); intros s.
    + exists (FI (CV cx cy cz) Zero Zero Zero 0 0 J 0 0 Zero Zero). repeat split.
    + exists (FI (CV cx cy cz) Zero Zero Zero 0 J 0 0 0 Zero Zero). repeat split.
  - intros t. exists Zero. apply quiet_noise; [|reflexivity]. cbn in H. destruct H as [<-|[<-|[]]]; split; reflexivity.
Qed.
Lemma ex_junction_steps r t dt J h : 0 <= dt -> exists j', run_runner r t dt (ex_junction J h) = (j', Ok tt).
Proof. intros H. apply step_total; [discriminate|exact H|]. apply ex_pair_total. Qed.
(** Two parallel layers along a field, ferromagnetically or antiferromagnetically coupled, are at rest. *)
Definition ex_rest (J : R) (k : R) : junction :=
  JN MR_CLASSIC [set_l_IECTop (cdrv J) (set_l_external (caxial (CV 0 0 k)) (ex_layer "free" (CV 0 0 1)));
   set_l_IECBottom (cdrv J) (set_l_external (caxial (CV 0 0 k)) (ex_layer "pinned" (CV 0 0 (-1))))] 100 200 [] [] [] [] [] [] [] [] 0 "R_free_pinned".
Lemma norm_z k : Norm2 (CV 0 0 k) = k * k.
Proof. vsimp. ring. Qed.
Lemma ex_rest_at_rest J k : at_rest (ex_rest J k).
Proof.
  assert (U : forall z, z * z = 1 -> Unit (CV 0 0 z)). { intros z Hz. unfold Unit. rewrite norm_z. exact Hz. }
  intros [|[|p]] l H; cbn in H.
  - injection H as <-. split; [|split; reflexivity].
    split; [apply U; ring|]. split; [reflexivity|]. split; [reflexivity|]. split; [cbn; lra|]. split; [cbn; lra|].
    intros s. exists (FI (CV 0 0 k) Zero Zero Zero 0 0 J 0 0 Zero Zero). split; [repeat split|].
    unfold H_eff, IEC_total, H_iec, H_anis, H_tensor, IDMI_total, H_idmi, dipole_total. cbn -[Rmult Rplus Rdiv Rminus].
    unfold Cross. cbn [cx cy cz]. apply vec_eq; cbn [cx cy cz]; unfold Rdiv; ring.
  - injection H as <-. split; [|split; reflexivity].
    split; [apply U; ring|]. split; [reflexivity|]. split; [reflexivity|]. split; [cbn; lra|]. split; [cbn; lra|].
    intros s. exists (FI (CV 0 0 k) Zero Zero Zero 0 J 0 0 0 Zero Zero). split; [repeat split|].
    unfold H_eff, IEC_total, H_iec, H_anis, H_tensor, IDMI_total, H_idmi, dipole_total. cbn -[Rmult Rplus Rdiv Rminus].
    unfold Cross. cbn [cx cy cz]. apply vec_eq; cbn [cx cy cz]; unfold Rdiv; ring.
  - destruct p; discriminate.
Qed.
