(** Log alignment over arbitrary call histories. *)
From Verif Require Export P_Api.
Open Scope R_scope.
Open Scope st_scope.

(** ** Every layer-level function keeps the id, whatever its outcome *)
Definition keeps {A} (m : ST layer A) : Prop := forall l l' r, m l = (l', r) -> l_id l' = l_id l.
Lemma keeps_bind {A B} (m : ST layer A) (f : A -> ST layer B) : keeps m -> (forall a, keeps (f a)) -> keeps (bind m f).
Proof.
  intros H1 H2 l l' r. unfold bind. destruct (m l) as [l1 [a|e]] eqn:E; intros X.
  - rewrite (H2 a _ _ _ X). exact (H1 _ _ _ E).
  - injection X as <- _. exact (H1 _ _ _ E).
Qed.
Lemma keeps_ret {A} (a : A) : keeps (ret a). Proof. intros l l' r E. injection E as <- _. reflexivity. Qed.
Lemma keeps_fail {A} e : keeps (@fail layer A e). Proof. intros l l' r E. injection E as <- _. reflexivity. Qed.
Lemma keeps_lift {A} (x : result A) : keeps (lift x). Proof. intros l l' r E. injection E as <- _. reflexivity. Qed.
Lemma keeps_get : keeps get. Proof. intros l l' r E. injection E as <- _. reflexivity. Qed.
Lemma keeps_modify f : (forall l, l_id (f l) = l_id l) -> keeps (modify f).
Proof. intros H l l' r E. injection E as <- _. apply H. Qed.
Ltac kp := repeat first
  [ match goal with |- keeps (bind _ _) => apply keeps_bind; [|intros] end | apply keeps_ret | apply keeps_fail | apply keeps_lift | apply keeps_get
  | apply keeps_modify; intros; reflexivity
  | match goal with |- keeps (if ?b then _ else _) => destruct b end
  | match goal with |- keeps (match ?b with _ => _ end) => destruct b end ].
Lemma keeps_dipole t dt m b top d w : keeps (calculateHeffDipoleInjection t dt m b top d w).
Proof.
  unfold calculateHeffDipoleInjection, calculateExternalField, calculateHOeField, calculateIEC, calculateIDMI, calculateAnisotropy, calculateHdmiField.
  kp.
Qed.
Lemma keeps_heff t dt m b top w : keeps (calculateHeff t dt m b top w).
Proof. unfold calculateHeff. kp. apply keeps_dipole. Qed.
Lemma keeps_llg t m dt b top h : keeps (solveLLG t m dt b top h).
Proof. unfold solveLLG. kp. Qed.
Lemma keeps_rhs t m b top dt : keeps (calculateLLGWithFieldTorque t m b top dt).
Proof. unfold calculateLLGWithFieldTorque. kp. apply keeps_heff. apply keeps_llg. Qed.
Lemma keeps_rk4 t dt b top : keeps (rk4_step t dt b top).
Proof. unfold rk4_step, rk4_generic. kp; apply keeps_rhs. Qed.
Lemma keeps_draw : keeps draw.
Proof. intros l l' r E. injection E as <- _. reflexivity. Qed.
Lemma keeps_noise t dt : keeps (drawNoise t dt).
Proof. unfold drawNoise, getStochasticLangevinVector, getOneFVector. kp; try apply keeps_draw. Qed.
Lemma keeps_eh t dt b top : keeps (eulerHeun_layer t dt b top).
Proof. unfold eulerHeun_layer. kp; [apply keeps_noise|apply keeps_rhs]. Qed.
Lemma keeps_heun1 t dt b top : keeps (heun_layer1 t dt b top).
Proof. unfold heun_layer1. kp; [apply keeps_rhs|apply keeps_noise]. Qed.
Lemma keeps_heun2 t dt h b top : keeps (heun_layer2 t dt h b top).
Proof. unfold heun_layer2. kp; apply keeps_rhs. Qed.

(** ** Shape of a junction: what the column names depend on *)
Definition shape (j j' : junction) : Prop := ids j' = ids j /\ j_mode j' = j_mode j /\ j_Rtag j' = j_Rtag j.
Lemma shape_refl j : shape j j. Proof. repeat split. Qed.
Lemma shape_trans a b c : shape a b -> shape b c -> shape a c.
Proof. intros (A & B & C) (D & E & F). repeat split; congruence. Qed.
Lemma shape_layers ls j : map l_id ls = ids j -> shape j (set_j_layers ls j).
Proof. intros H. repeat split. exact H. Qed.
Lemma shape_log g n j : shape j (set_j_log g n j). Proof. repeat split. Qed.
Definition mcols (id : string) : list string := [colname id "mx"; colname id "my"; colname id "mz"]%string.
Lemma row_keys_ids j : row_keys j = (flat_map mcols (ids j) ++
  match j_mode j, ids j with
  | MR_CLASSIC, [_] => ["R"%string] | MR_CLASSIC, _ :: _ :: _ => [j_Rtag j]
  | MR_STRIP, _ => ["Rx"; "Ry"; "Rz"]%string | _, _ => [] end ++ ["time"%string])%list.
Proof.
  unfold row_keys, ids. rewrite !flat_map_concat_map, map_map. destruct (j_mode j); [reflexivity| |reflexivity].
  destruct (j_layers j) as [|a [|b r]]; reflexivity.
Qed.
Lemma shape_keys j j' : shape j j' -> row_keys j' = row_keys j.
Proof. intros (A & B & C). rewrite !row_keys_ids, A, B, C. reflexivity. Qed.
Lemma shape_tag j j' : shape j j' -> tag_ok j -> tag_ok j'.
Proof.
  intros (A & B & C). unfold tag_ok, ids in *. destruct (j_layers j) as [|a [|b r]], (j_layers j') as [|a' [|b' r']]; try discriminate; auto.
  cbn [map] in A. injection A as A1 A2 A3. intros H1 H2. rewrite C, A1, A2. apply H1. congruence.
Qed.
Lemma shape_classic j j' : shape j j' -> classic_two j -> classic_two j'.
Proof.
  intros (A & B & C) H M. unfold layerNo in *. assert (L : length (ids j') = length (ids j)) by congruence. unfold ids in L. rewrite !map_length in L.
  rewrite L. apply H. congruence.
Qed.

(** ** Steps keep the shape *)
Lemma multi_loop_ids f : (forall b top, keeps (f b top)) -> forall ls copies ls' r,
  multi_loop f copies ls = (ls', r) -> map l_id ls' = map l_id ls.
Proof.
  intros K. induction ls as [|l rest IH]; intros copies ls' r E.
  - assert (X : multi_loop f copies [] = ([], Ok tt)) by (destruct copies as [|? [|? [|? ?]]]; reflexivity). rewrite X in E.
    assert (ls' = []) by congruence. subst. reflexivity.
  - destruct copies as [|b [|x [|top more]]]; try (cbn [multi_loop] in E; assert (ls' = l :: rest) by congruence; subst; reflexivity).
    change (match f b top l with (l', Err e) => (l' :: rest, Err e) | (l', Ok _) => match multi_loop f (x :: top :: more) rest with (rest', r) => (l' :: rest', r) end end = (ls', r)) in E.
    destruct (f b top l) as [l1 [u|e]] eqn:Ef; pose proof (K _ _ _ _ _ Ef) as Kl.
    + destruct (multi_loop f (x :: top :: more) rest) as [rest' r1] eqn:Em. injection E as <- <-. cbn [map]. rewrite Kl, (IH _ _ _ Em). reflexivity.
    + injection E as <- _. cbn [map]. rewrite Kl. reflexivity.
Qed.
Lemma eh_pass_ids t dt : forall ls b ls' r, eulerHeun_pass t dt b ls = (ls', r) -> map l_id ls' = map l_id ls.
Proof.
  induction ls as [|l rest IH]; intros b ls' r E; cbn [eulerHeun_pass] in E; [apply (f_equal fst) in E; cbn [fst] in E; subst; reflexivity|].
  destruct (eulerHeun_layer _ _ _ _ l) as [l1 [u|e]] eqn:Ef; pose proof (keeps_eh _ _ _ _ _ _ _ Ef) as Kl.
  - destruct (eulerHeun_pass t dt (l_mag l1) rest) as [rest' [x|x]] eqn:Em; injection E as <- _; cbn [map]; rewrite Kl, (IH _ _ _ Em); reflexivity.
  - injection E as <- _. cbn [map]. rewrite Kl. reflexivity.
Qed.
Lemma heun_pass1_ids t dt : forall ls b ls' r, heun_pass1 t dt b ls = (ls', r) -> map l_id ls' = map l_id ls.
Proof.
  induction ls as [|l rest IH]; intros b ls' r E; cbn [heun_pass1] in E; [apply (f_equal fst) in E; cbn [fst] in E; subst; reflexivity|].
  destruct (heun_layer1 _ _ _ _ l) as [l1 [u|e]] eqn:Ef; pose proof (keeps_heun1 _ _ _ _ _ _ _ Ef) as Kl.
  - destruct (heun_pass1 t dt (l_mag l1) rest) as [rest' [x|x]] eqn:Em; injection E as <- _; cbn [map]; rewrite Kl, (IH _ _ _ Em); reflexivity.
  - injection E as <- _. cbn [map]. rewrite Kl. reflexivity.
Qed.
Lemma heun_pass2_ids t dt : forall ls hs b ls' r, heun_pass2 t dt b hs ls = (ls', r) -> map l_id ls' = map l_id ls.
Proof.
  induction ls as [|l rest IH]; intros hs b ls' r E; [destruct hs; apply (f_equal fst) in E; cbn [fst heun_pass2] in E; subst; reflexivity|].
  destruct hs as [|h hs]; cbn [heun_pass2] in E; [apply (f_equal fst) in E; cbn [fst] in E; subst; reflexivity|].
  destruct (heun_layer2 _ _ _ _ _ l) as [l1 [u|e]] eqn:Ef; pose proof (keeps_heun2 _ _ _ _ _ _ _ _ Ef) as Kl.
  - destruct (heun_pass2 t dt (h_mNext h) hs rest) as [rest' x] eqn:Em; injection E as <- _; cbn [map]; rewrite Kl, (IH _ _ _ _ Em); reflexivity.
  - injection E as <- _. cbn [map]. rewrite Kl. reflexivity.
Qed.
Lemma assign_ids : forall ls ms, map l_id (assign_mags ls ms) = map l_id ls.
Proof. induction ls as [|l ls IH]; intros [|m ms]; cbn; try reflexivity. rewrite IH. reflexivity. Qed.
Lemma runner_shape r t dt j j' x : run_runner r t dt j = (j', x) -> shape j j'.
Proof.
  destruct r; cbn [run_runner].
  - unfold runSingleLayerSolver. destruct (j_layers j) as [|l rest] eqn:EL; [intros E; injection E as <- _; apply shape_refl|].
    destruct (rk4_step t dt vnull vnull l) as [l' y] eqn:E1. intros E; injection E as <- _. apply shape_layers. unfold ids. rewrite EL. cbn [map].
    rewrite (keeps_rk4 _ _ _ _ _ _ _ E1). reflexivity.
  - unfold runMultiLayerSolver. destruct (multi_loop _ _ _) as [ls y] eqn:E1. intros E; injection E as <- _. apply shape_layers.
    exact (multi_loop_ids _ (fun b top => keeps_rk4 t dt b top) _ _ _ _ E1).
  - unfold heunSolverStep. destruct (heun_pass1 _ _ _ _) as [ls [hs|e]] eqn:E1.
    + destruct (heun_pass2 _ _ _ _ _) as [ls' y] eqn:E2. intros E; injection E as <- _. apply shape_layers.
      rewrite (heun_pass2_ids _ _ _ _ _ _ _ E2). exact (heun_pass1_ids _ _ _ _ _ _ E1).
    + intros E; injection E as <- _. apply shape_layers. exact (heun_pass1_ids _ _ _ _ _ _ E1).
  - unfold eulerHeunSolverStep. destruct (eulerHeun_pass _ _ _ _) as [ls [ms|e]] eqn:E1; intros E; injection E as <- _; apply shape_layers.
    + rewrite assign_ids. exact (eh_pass_ids _ _ _ _ _ _ E1).
    + exact (eh_pass_ids _ _ _ _ _ _ E1).
Qed.
Lemma create_keeps N : keeps (createBufferedAlphaNoise N).
Proof. unfold createBufferedAlphaNoise. kp. Qed.
Lemma getSolver_loop_ids : forall ls m N ls' r, getSolver_loop m N ls = (ls', r) -> map l_id ls' = map l_id ls.
Proof.
  induction ls as [|l rest IH]; intros m N ls' r E; cbn [getSolver_loop] in E; [apply (f_equal fst) in E; cbn [fst] in E; subst; reflexivity|].
  destruct (Req_EM_T (l_nScale l) 0).
  - destruct (getSolver_loop _ N rest) as [rest' x] eqn:E1. injection E as <- _. cbn [map]. rewrite (IH _ _ _ _ E1). reflexivity.
  - destruct (createBufferedAlphaNoise N l) as [l1 [u|e]] eqn:Ef; pose proof (create_keeps _ _ _ _ Ef) as Kl.
    + destruct (getSolver_loop _ N rest) as [rest' x] eqn:E1. injection E as <- _. cbn [map]. rewrite Kl, (IH _ _ _ _ E1). reflexivity.
    + injection E as <- _. cbn [map]. rewrite Kl. reflexivity.
Qed.

(** ** Logs *)
Definition nice (g : log_t) : Prop := NoDup (map fst g) /\ forall k c, In (k, c) g -> c <> [].
Lemma push_keys k v g : forall x, In x (map fst (log_push k v g)) <-> x = k \/ In x (map fst g).
Proof.
  induction g as [|[k0 c] g IH]; intros x; cbn [log_push map fst In]; [intuition congruence|].
  destruct (String.eqb_spec k0 k) as [->|H]; cbn [map fst In]; [|rewrite IH]; intuition congruence.
Qed.
Lemma push_nice k v g : nice g -> nice (log_push k v g).
Proof.
  induction g as [|[k0 c] g IH]; intros [H1 H2]; cbn [log_push].
  - split; [constructor; [intros []|constructor]|]. intros k1 c1 [E|[]]. injection E as <- <-. discriminate.
  - cbn [map fst] in H1. inversion H1 as [|? ? N1 N2]; subst. destruct (String.eqb_spec k0 k) as [->|H].
    + split; [exact H1|]. intros k1 c1 [E|E]; [injection E as <- <-; destruct c; discriminate|]. apply (H2 k1). right. exact E.
    + destruct IH as [I1 I2]; [split; [exact N2|intros; apply (H2 k1); right; assumption]|]. split.
      * cbn [map fst]. constructor; [rewrite push_keys; intuition congruence|exact I1].
      * intros k1 c1 [E|E]; [apply (H2 k1); left; exact E|apply (I2 k1 c1 E)].
Qed.
Lemma push_all_nice row g : nice g -> nice (push_all row g).
Proof. revert g. induction row as [|[k v] row IH]; intros g H; [exact H|]. apply IH, push_nice, H. Qed.
Lemma col_in g k c : NoDup (map fst g) -> In (k, c) g -> col k g = c.
Proof.
  unfold col. induction g as [|[k0 c0] g IH]; intros H X; [destruct X|]. destruct X as [E|E]; cbn [log_get map fst] in *.
  - injection E as <- <-. rewrite String.eqb_refl. reflexivity.
  - inversion H as [|? ? N1 N2]; subst. destruct (String.eqb_spec k0 k) as [->|X].
    + exfalso. apply N1. exact (in_map fst g (k, c) E).
    + apply IH; assumption.
Qed.
Definition good (j : junction) : Prop :=
  tag_ok j /\ classic_two j /\ NoDup (ids j) /\ nice (j_log j) /\
  forall key, length (col key (j_log j)) = if in_dec string_dec key (row_keys j) then j_logLength j else 0%nat.
Lemma good_aligned j : good j -> aligned j.
Proof.
  intros (_ & _ & _ & [N1 N2] & H) k c Hin. specialize (H k). rewrite (col_in _ _ _ N1 Hin) in H.
  destruct (in_dec _ _ _); [exact H|]. destruct c; [|discriminate]. exfalso. exact (N2 _ _ Hin eq_refl).
Qed.
Lemma good_layers ls j : map l_id ls = ids j -> good j -> good (set_j_layers ls j).
Proof.
  intros HI (H1 & H2 & H3 & H4 & H5). pose proof (shape_layers ls j HI) as S.
  split; [exact (shape_tag _ _ S H1)|]. split; [exact (shape_classic _ _ S H2)|]. split; [destruct S as [-> _]; exact H3|].
  split; [exact H4|]. rewrite (shape_keys _ _ S). exact H5.
Qed.
Lemma good_shape j j' : shape j j' -> j_log j' = j_log j -> j_logLength j' = j_logLength j -> good j -> good j'.
Proof.
  intros S E1 E2 (H1 & H2 & H3 & H4 & H5).
  split; [exact (shape_tag _ _ S H1)|]. split; [exact (shape_classic _ _ S H2)|]. split; [destruct S as [-> _]; exact H3|].
  rewrite E1, E2. split; [exact H4|]. rewrite (shape_keys _ _ S). exact H5.
Qed.
Lemma good_row j t row : good j -> log_row false j t row -> good (set_j_log (push_all row (j_log j)) (S (j_logLength j)) j).
Proof.
  intros (H1 & H2 & H3 & H4 & H5) HR. pose proof (shape_log (push_all row (j_log j)) (S (j_logLength j)) j) as S.
  split; [exact (shape_tag _ _ S H1)|]. split; [exact (shape_classic _ _ S H2)|]. split; [exact H3|].
  split; [apply push_all_nice, H4|]. intros key. rewrite (shape_keys _ _ S). cbn [j_log j_logLength set_j_log].
  rewrite col_push_all, app_length, H5. pose proof (row_keys_of _ _ _ _ eq_refl HR) as EK.
  rewrite (values_length_nodup key row) by (rewrite EK; apply row_keys_nodup; assumption). rewrite EK.
  destruct (in_dec _ _ _); lia.
Qed.
Definition soft {A} (r : result A) : Prop := match r with Ok _ => True | Err (Throw _) => True | _ => False end.
Lemma fdiv_soft x y e : fdiv x y = Err e -> ~ soft (@Err R e).
Proof. unfold fdiv. destruct (Req_EM_T y 0); [|discriminate]. intros E. injection E as <-. exact (fun x => x). Qed.
Lemma strip_acc_soft ls : forall a b c d e f g x y er, strip_acc ls a b c d e f g x y = Err er -> ~ soft (@Err R er).
Proof.
  induction ls as [|l ls IH]; intros a b c d e f g x y er E; cbn [strip_acc] in E; [discriminate|].
  destruct a, b, c, d, e, f, g; try (injection E as <-; exact (fun x => x)).
  unfold rbind in E at 1. destruct (fdiv 1 _) as [ix|e1] eqn:E1; [|injection E as <-; exact (fdiv_soft _ _ _ E1)].
  unfold rbind in E at 1. destruct (fdiv 1 _) as [iy|e1] eqn:E2 in E; [|injection E as <-; exact (fdiv_soft _ _ _ E2)].
  exact (IH _ _ _ _ _ _ _ _ _ _ E).
Qed.
Lemma log_res_soft j g er : log_resistance j g = Err er -> ~ soft (@Err R er).
Proof.
  unfold log_resistance. destruct (j_mode j); [discriminate|destruct (j_layers j) as [|? [|? ?]]; discriminate|].
  unfold stripMagnetoResistance. unfold rbind. destruct (strip_acc _ _ _ _ _ _ _ _ _ _) as [p|e1] eqn:E1.
  - destruct (fdiv 1 (fst p)) as [ix|e2] eqn:E2; [|intros E; injection E as <-; exact (fdiv_soft _ _ _ E2)].
    destruct (fdiv 1 (snd p)) as [iy|e3] eqn:E3; [discriminate|intros E; injection E as <-; exact (fdiv_soft _ _ _ E3)].
  - intros E. injection E as <-. exact (strip_acc_soft _ _ _ _ _ _ _ _ _ _ _ E1).
Qed.
Lemma sim_good r dt w n : forall i j j' x, good j -> sim_loop r dt w false n i j = (j', x) -> soft x -> good j'.
Proof.
  induction n as [|n IH]; intros i j j' x G E S.
  - injection E as <- _. exact G.
  - cbn [sim_loop] in E. unfold bind at 1 in E. destruct (run_runner r (INR i * dt) dt j) as [j1 [u|e]] eqn:E1.
    + assert (G1 : good j1).
      { destruct (run_runner_keeps_log r (INR i * dt) dt j) as [A B]. rewrite E1 in A, B. cbn [fst] in A, B.
        exact (good_shape _ _ (runner_shape _ _ _ _ _ _ E1) A B G). }
      unfold bind at 1 in E. destruct (Nat.eqb w 0); [injection E as _ <-; destruct S|].
      destruct (Nat.eqb (i mod w) 0).
      * destruct (logLayerParams (INR i * dt) dt false j1) as [j2 [v|e]] eqn:E2.
        -- destruct v. destruct (log_sound _ _ _ _ _ E2) as (row & HR & ->). exact (IH _ _ _ _ (good_row _ _ _ G1 HR) E S).
        -- exfalso. assert (X : x = Err e) by congruence. subst x. unfold logLayerParams in E2.
           destruct (log_resistance j1 _) as [g|e2] eqn:E3; [discriminate|]. apply (log_res_soft _ _ _ E3). assert (e2 = e) by congruence. subst. exact S.
      * exact (IH _ _ _ _ G1 E S).
    + injection E as <- _. destruct (run_runner_keeps_log r (INR i * dt) dt j) as [A B]. rewrite E1 in A, B. cbn [fst] in A, B.
      exact (good_shape _ _ (runner_shape _ _ _ _ _ _ E1) A B G).
Qed.
Lemma run_good T dt wf mode j j' x : good j -> runSimulation T dt wf false mode j = (j', x) -> soft x -> good j'.
Proof.
  intros G E S. unfold runSimulation in E. destruct (Rlt_dec wf dt); [injection E as <- _; exact G|].
  unfold bind, lift in E. destruct (fdiv T dt) as [q1|e]; [|injection E as <- _; exact G].
  destruct (to_unsigned q1) as [N|e]; [|injection E as <- _; exact G].
  destruct (fdiv wf dt) as [q2|e]; [|injection E as <- _; exact G].
  destruct (to_unsigned q2) as [w|e]; [|injection E as <- _; exact G].
  unfold getSolver in E. destruct (getSolver_loop mode N (j_layers j)) as [ls [m|e]] eqn:EG; pose proof (getSolver_loop_ids _ _ _ _ _ EG) as HI.
  - exact (sim_good _ _ _ _ _ _ _ _ (good_layers ls j HI G) E S).
  - injection E as <- _. exact (good_layers ls j HI G).
Qed.
Lemma pointwise_ids (ls ls' : list layer) : length ls' = length ls ->
  (forall p l l', nth_error ls p = Some l -> nth_error ls' p = Some l' -> l_id l' = l_id l) -> map l_id ls' = map l_id ls.
Proof.
  revert ls'. induction ls as [|l ls IH]; intros [|l' ls'] HL H; try discriminate; [reflexivity|]. cbn [map].
  rewrite (H 0%nat l l' eq_refl eq_refl). f_equal. apply IH; [cbn in HL; congruence|]. intros p. exact (H (S p)).
Qed.
Lemma set_good id s j j' x : good j -> junction_set id s j = (j', x) -> good j'.
Proof.
  intros G E. destruct x as [[]|e].
  - apply set_success in E. destruct E as [(-> & HL & HP) _]. apply good_layers; [|exact G]. apply pointwise_ids; [exact HL|].
    intros p l l' H1 H2. destruct (HP p l l' H1 H2) as [A B]. destruct (addressed_dec id s (j_layers j) p) as [X|X].
    + apply (effect_id s), (A X).
    + rewrite (B X). reflexivity.
  - apply set_failure in E. destruct E as [_ [(q & -> & HL & Hq & HP)|[-> _]]]; [|exact G]. apply good_layers; [|exact G].
    apply pointwise_ids; [exact HL|]. intros p l l' H1 H2. destruct (HP p l l' H1 H2) as (A & B & C & D).
    destruct (lt_eq_lt_dec p q) as [[X|X]|X].
    + destruct (addressed_dec id s (j_layers j) p) as [Y|Y]; [apply (effect_id s), (A X Y)|rewrite (B X Y); reflexivity].
    + apply (refused_id s), (C X).
    + rewrite (D X). reflexivity.
Qed.
Lemma couple_good a b c j j' x : good j -> junction_couple a b c j = (j', x) -> good j'.
Proof.
  intros G E. destruct x as [[]|e].
  - apply couple_success in E. destruct E as (p & -> & HL & _ & _ & HP). apply good_layers; [|exact G]. apply pointwise_ids; [exact HL|].
    intros q l l' H1 H2. destruct (HP q l l' H1 H2) as (A & B & C).
    destruct (Nat.eq_dec q p) as [X|X]; [|destruct (Nat.eq_dec q (S p)) as [Y|Y]].
    + specialize (A X). destruct c; destruct A as [_ A]; apply (A F_id); not_in.
    + specialize (B Y). destruct c; destruct B as [_ B]; apply (B F_id); not_in.
    + rewrite (C X Y). reflexivity.
  - apply couple_failure in E. destruct E as (-> & _). exact G.
Qed.
Lemma clear_good j : good j -> good (set_j_log [] 0 j).
Proof.
  intros (H1 & H2 & H3 & H4 & H5). pose proof (shape_log [] 0 j) as S.
  split; [exact (shape_tag _ _ S H1)|]. split; [exact (shape_classic _ _ S H2)|]. split; [exact H3|].
  split; [split; [constructor|intros k c []]|]. intros key. unfold col. cbn [j_log j_logLength set_j_log log_get length]. destruct (in_dec _ _ _); reflexivity.
Qed.
Lemma call_good a j j' r : good j -> call a j = (j', r) -> soft r -> good j'.
Proof.
  destruct a; cbn [call]; intros G E S.
  - exact (run_good _ _ _ _ _ _ _ G E S).
  - injection E as <- _. apply clear_good, G.
  - exact (set_good _ _ _ _ _ G E).
  - exact (couple_good _ _ _ _ _ _ G E).
Qed.
Lemma history_good calls j j' : history calls j j' -> good j -> good j'.
Proof.
  induction 1 as [j|a calls j j1 j2 r E S H IH]; intros G; [exact G|]. apply IH. refine (call_good _ _ _ _ G E _).
  destruct S as [->|[msg ->]]; exact I.
Qed.
(** ** Fresh junctions *)
Lemma constructed_good ls j : constructed ls j -> NoDup (map l_id ls) -> good j /\ j_layers j = ls /\ (j_mode j = MR_STRIP -> strip_sized j).
Proof.
  intros H ND. assert (X : j_layers j = ls /\ j_log j = [] /\ j_logLength j = 0%nat /\ tag_ok j /\ classic_two j /\ (j_mode j = MR_STRIP -> strip_sized j)).
  { destruct H as [E|[(Rp & Rap & E)|(a & b & c & d & e & f & g & E)]].
    - destruct ls; [discriminate|]. injection E as <-. repeat split; try discriminate. cbn. destruct ls; [exact I|discriminate].
    - unfold Junction_classic in E. destruct ls as [|l0 [|l1 [|l2 ls]]]; try discriminate.
      + destruct (Req_EM_T _ 0); [discriminate|]. injection E as <-. repeat split; try discriminate. intros _. cbn. lia.
      + injection E as <-. repeat split; try discriminate. intros _. cbn. lia.
    - unfold Junction_strip in E. destruct (Nat.eqb (length ls) 0); [discriminate|].
      match type of E with (if ?b then _ else _) = _ => destruct b eqn:EB; [discriminate|] end. injection E as <-.
      rewrite !orb_false_iff, !negb_false_iff, !Nat.eqb_eq in EB.
      repeat split; try discriminate.
      + cbn. destruct ls as [|? [|? ?]]; try exact I. discriminate.
      + cbn. unfold layerNo. cbn. intuition congruence.
      + cbn. unfold layerNo. cbn. intuition congruence.
      + cbn. unfold layerNo. cbn. intuition congruence.
      + cbn. unfold layerNo. cbn. intuition congruence.
      + cbn. unfold layerNo. cbn. intuition congruence.
      + cbn. unfold layerNo. cbn. intuition congruence.
      + cbn. unfold layerNo. cbn. intuition congruence. }
  destruct X as (E1 & E2 & E3 & E4 & E5 & E6). split; [|split; [exact E1|exact E6]].
  split; [exact E4|]. split; [exact E5|]. split; [unfold ids; rewrite E1; exact ND|]. rewrite E2, E3.
  split; [split; [constructor|intros k c []]|]. intros key. unfold col. cbn [j_log j_logLength set_j_log log_get length]. destruct (in_dec _ _ _); reflexivity.
Qed.
Lemma save_row_total g i n : (forall k c, In (k, c) g -> length c = n) -> (i < n)%nat ->
  save_row i g = Ok (map (fun kc => nth i (snd kc) 0) g).
Proof.
  intros H Hi. induction g as [|[k c] g IH]; [reflexivity|]. cbn [save_row map snd].
  assert (Hc : length c = n) by (apply (H k); left; reflexivity).
  rewrite (nth_error_nth' c 0) by lia. unfold rbind. rewrite IH; [reflexivity|]. intros k1 c1 H1. apply (H k1). right. exact H1.
Qed.
Lemma save_rows_total g n : (forall k c, In (k, c) g -> length c = n) -> forall m i, (i + m <= n)%nat ->
  save_rows m i g = Ok (map (fun i => map (fun kc => nth i (snd kc) 0) g) (seq i m)).
Proof.
  intros H. induction m as [|m IH]; intros i Hi; [reflexivity|]. cbn [save_rows seq map].
  rewrite (save_row_total g i n H) by lia. unfold rbind. rewrite IH by lia. reflexivity.
Qed.
Lemma save_aligned j f : aligned j -> f <> ""%string ->
  saveLogs j f = Ok (map fst (j_log j), map (fun i => map (fun kc => nth i (snd kc) 0) (j_log j)) (seq 0 (j_logLength j))).
Proof.
  intros H Hf. unfold saveLogs. destruct (String.eqb_spec f ""); [contradiction|].
  rewrite (save_rows_total _ _ H) by lia. reflexivity.
Qed.
Lemma history_aligned ls j0 calls j : constructed ls j0 -> NoDup (map l_id ls) -> history calls j0 j ->
  aligned j /\ forall f, f <> ""%string -> exists table, saveLogs j f = Ok table /\ length (snd table) = j_logLength j.
Proof.
  intros H1 H2 H3. assert (A : aligned j) by (apply good_aligned, (history_good _ _ _ H3), (constructed_good ls j0 H1 H2)).
  split; [exact A|]. intros f Hf. rewrite (save_aligned j f A Hf). eexists. split; [reflexivity|]. cbn [snd]. rewrite map_length, seq_length. reflexivity.
Qed.
Lemma history_columns ls j0 calls j key : constructed ls j0 -> NoDup (map l_id ls) -> history calls j0 j ->
  length (col key (j_log j)) = if in_dec string_dec key (row_keys j) then j_logLength j else 0%nat.
Proof. intros H1 H2 H3. apply (history_good _ _ _ H3), (constructed_good ls j0 H1 H2). Qed.
