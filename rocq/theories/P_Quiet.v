(** Without noise the random streams are never read. *)
From Verif Require Export P_RunProps.
Open Scope R_scope.
Open Scope st_scope.

Lemma langevin_quiet t dt l : l_temperatureSet l = false -> getStochasticLangevinVector t dt l = (l, Ok vnull).
Proof. intros H. unfold getStochasticLangevinVector, bind, get. rewrite H. reflexivity. Qed.
Lemma onef_quiet l : l_nScale l = 0 -> getOneFVector l = (l, Ok vnull).
Proof. intros H. unfold getOneFVector, bind, get. destruct (Req_EM_T (l_nScale l) 0); [reflexivity|contradiction]. Qed.
Lemma noise_quiet t dt l : quiet l -> drawNoise t dt l = (l, Ok (vadd vnull vnull)).
Proof.
  intros [H1 H2]. unfold drawNoise. unfold bind at 1. rewrite langevin_quiet by exact H1. unfold bind at 1. rewrite onef_quiet by exact H2. reflexivity.
Qed.
Section Reseed.
  Context (rng : nat -> R) (rp : nat) (src : nat -> nat -> cvec) (ng : nat) (bf : option vnoise).
  Definition reseed (l : layer) : layer := set_l_rng rng (set_l_rpos rp (set_l_nsrc src (set_l_ngen ng (set_l_bfn bf l)))).
  Ltac cm := repeat first
    [ match goal with |- comm _ _ (bind get _) => apply comm_reader_bind; [intros; reflexivity|intros ? ?] end
    | match goal with |- comm _ _ (bind _ _) => apply comm_bind; [|intros] end
    | apply comm_ret | apply comm_fail | apply comm_lift
    | apply comm_modify; [intros; reflexivity|intros ? X; exact X]
    | match goal with |- comm _ _ (if ?b then _ else _) => destruct b end ].
  Lemma cm_dipole t dt m b top d w : comm quiet reseed (calculateHeffDipoleInjection t dt m b top d w).
  Proof.
    unfold calculateHeffDipoleInjection, calculateExternalField, calculateHOeField, calculateIEC, calculateIDMI, calculateAnisotropy, calculateHdmiField.
    cm.
  Qed.
  Lemma cm_heff t dt m b top w : comm quiet reseed (calculateHeff t dt m b top w).
  Proof. unfold calculateHeff. cm. apply cm_dipole. Qed.
  Lemma cm_llg t m dt b top h : comm quiet reseed (solveLLG t m dt b top h).
  Proof. unfold solveLLG. cm. Qed.
  Lemma cm_rhs t m b top dt : comm quiet reseed (calculateLLGWithFieldTorque t m b top dt).
  Proof. unfold calculateLLGWithFieldTorque. cm. apply cm_heff. apply cm_llg. Qed.
  Lemma cm_rk4 t dt b top : comm quiet reseed (rk4_step t dt b top).
  Proof. unfold rk4_step, rk4_generic. cm; apply cm_rhs. Qed.
  Lemma cm_noise t dt : comm quiet reseed (drawNoise t dt).
  Proof.
    intros l HQ. rewrite (noise_quiet t dt l HQ), (noise_quiet t dt (reseed l) HQ). split; [reflexivity|exact HQ].
  Qed.
  Lemma cm_eh t dt b top : comm quiet reseed (eulerHeun_layer t dt b top).
  Proof. unfold eulerHeun_layer. cm; [apply cm_noise|apply cm_rhs]. Qed.
  Lemma cm_heun1 t dt b top : comm quiet reseed (heun_layer1 t dt b top).
  Proof. unfold heun_layer1. cm; [apply cm_rhs|apply cm_noise]. Qed.
  Lemma cm_heun2 t dt h b top : comm quiet reseed (heun_layer2 t dt h b top).
  Proof. unfold heun_layer2. cm; apply cm_rhs. Qed.
End Reseed.

Definition qrel (l k : layer) : Prop := quiet l /\ reseeded l k.
Definition cong {A} (m : ST layer A) : Prop := forall l k, qrel l k -> qrel (fst (m l)) (fst (m k)) /\ snd (m k) = snd (m l).
Lemma comm_cong {A} (m : ST layer A) : (forall rng rp src ng bf, comm quiet (reseed rng rp src ng bf) m) -> cong m.
Proof.
  intros H l k [HQ (rng & rp & src & ng & bf & ->)]. destruct (H rng rp src ng bf l HQ) as [E Q].
  fold (reseed rng rp src ng bf l). rewrite E. cbn [fst snd]. split; [|reflexivity]. split; [exact Q|]. exists rng, rp, src, ng, bf. reflexivity.
Qed.
Lemma qrel_mag l k : qrel l k -> l_mag k = l_mag l.
Proof. intros [_ (a & b & c & d & e & ->)]. reflexivity. Qed.
Lemma qrel_set_mag l k m : qrel l k -> qrel (set_l_mag m l) (set_l_mag m k).
Proof. intros [Q (a & b & c & d & e & ->)]. split; [exact Q|]. exists a, b, c, d, e. reflexivity. Qed.
Lemma qrel_mags ls ks : Forall2 qrel ls ks -> map l_mag ks = map l_mag ls.
Proof. induction 1 as [|l k ls ks H _ IH]; [reflexivity|]. cbn. rewrite (qrel_mag _ _ H), IH. reflexivity. Qed.
Lemma cong_multi f : (forall b top, cong (f b top)) -> forall ls ks copies, Forall2 qrel ls ks ->
  Forall2 qrel (fst (multi_loop f copies ls)) (fst (multi_loop f copies ks)) /\ snd (multi_loop f copies ks) = snd (multi_loop f copies ls).
Proof.
  intros HC ls ks copies H. revert copies. induction H as [|l k ls ks H HF IH]; intros copies.
  - replace (multi_loop f copies []) with (@nil layer, @Ok unit tt) by (destruct copies as [|? [|? [|? ?]]]; reflexivity). split; [constructor|reflexivity].
  - destruct copies as [|b [|x [|top more]]]; try (split; [constructor; assumption|reflexivity]).
    change (multi_loop f (b :: x :: top :: more) (l :: ls)) with (match f b top l with (l', Err e) => (l' :: ls, Err e) | (l', Ok _) => match multi_loop f (x :: top :: more) ls with (rest', r) => (l' :: rest', r) end end).
    change (multi_loop f (b :: x :: top :: more) (k :: ks)) with (match f b top k with (l', Err e) => (l' :: ks, Err e) | (l', Ok _) => match multi_loop f (x :: top :: more) ks with (rest', r) => (l' :: rest', r) end end).
    destruct (HC b top l k H) as [A B]. destruct (f b top l) as [l1 r1], (f b top k) as [k1 r2]. cbn [fst snd] in A, B. subst r2.
    destruct r1 as [u|e]; [|split; [constructor; assumption|reflexivity]].
    destruct (IH (x :: top :: more)) as [C D]. destruct (multi_loop f (x :: top :: more) ls), (multi_loop f (x :: top :: more) ks). cbn [fst snd] in *.
    split; [constructor; assumption|exact D].
Qed.
Lemma head_mag ls ks : Forall2 qrel ls ks -> match ks with [] => vnull | r :: _ => l_mag r end = match ls with [] => vnull | r :: _ => l_mag r end.
Proof. intros H. inversion H; subst; [reflexivity|]. apply qrel_mag. assumption. Qed.
Lemma cong_eh t dt : forall ls ks b, Forall2 qrel ls ks ->
  Forall2 qrel (fst (eulerHeun_pass t dt b ls)) (fst (eulerHeun_pass t dt b ks)) /\ snd (eulerHeun_pass t dt b ks) = snd (eulerHeun_pass t dt b ls).
Proof.
  intros ls ks b H. revert b. induction H as [|l k ls ks H HF IH]; intros b; [split; [constructor|reflexivity]|].
  cbn [eulerHeun_pass]. rewrite (head_mag _ _ HF). set (top := match ls with [] => vnull | r :: _ => l_mag r end).
  destruct (comm_cong _ (fun a b' c d e => cm_eh a b' c d e t dt b top) l k H) as [A B].
  destruct (eulerHeun_layer t dt b top l) as [l1 r1], (eulerHeun_layer t dt b top k) as [k1 r2]. cbn [fst snd] in A, B. subst r2.
  destruct r1 as [u|e]; [|split; [constructor; assumption|reflexivity]]. rewrite (qrel_mag _ _ A).
  destruct (IH (l_mag l1)) as [C D]. destruct (eulerHeun_pass t dt (l_mag l1) ls) as [x1 x2], (eulerHeun_pass t dt (l_mag l1) ks) as [y1 y2]. cbn [fst snd] in *. subst y2.
  destruct x2; (split; [constructor; assumption|reflexivity]).
Qed.
Lemma cong_h1 t dt : forall ls ks b, Forall2 qrel ls ks ->
  Forall2 qrel (fst (heun_pass1 t dt b ls)) (fst (heun_pass1 t dt b ks)) /\ snd (heun_pass1 t dt b ks) = snd (heun_pass1 t dt b ls).
Proof.
  intros ls ks b H. revert b. induction H as [|l k ls ks H HF IH]; intros b; [split; [constructor|reflexivity]|].
  cbn [heun_pass1]. rewrite (head_mag _ _ HF). set (top := match ls with [] => vnull | r :: _ => l_mag r end).
  destruct (comm_cong _ (fun a b' c d e => cm_heun1 a b' c d e t dt b top) l k H) as [A B].
  destruct (heun_layer1 t dt b top l) as [l1 r1], (heun_layer1 t dt b top k) as [k1 r2]. cbn [fst snd] in A, B. subst r2.
  destruct r1 as [u|e]; [|split; [constructor; assumption|reflexivity]]. rewrite (qrel_mag _ _ A).
  destruct (IH (l_mag l1)) as [C D]. destruct (heun_pass1 t dt (l_mag l1) ls) as [x1 x2], (heun_pass1 t dt (l_mag l1) ks) as [y1 y2]. cbn [fst snd] in *. subst y2.
  destruct x2; (split; [constructor; assumption|reflexivity]).
Qed.
Lemma cong_h2 t dt : forall hs ls ks b, Forall2 qrel ls ks ->
  Forall2 qrel (fst (heun_pass2 t dt b hs ls)) (fst (heun_pass2 t dt b hs ks)) /\ snd (heun_pass2 t dt b hs ks) = snd (heun_pass2 t dt b hs ls).
Proof.
  induction hs as [|h hs IH]; intros ls ks b H.
  - inversion H; subst; cbn; (split; [|reflexivity]); [constructor|exact H].
  - inversion H as [|l k ls' ks' H1 HF]; subst; cbn [heun_pass2]; [split; [constructor|reflexivity]|].
    set (top := match hs with [] => vnull | r :: _ => h_mNext r end).
    destruct (comm_cong _ (fun a b' c d e => cm_heun2 a b' c d e t dt h b top) l k H1) as [A B].
    destruct (heun_layer2 t dt h b top l) as [l1 r1], (heun_layer2 t dt h b top k) as [k1 r2]. cbn [fst snd] in A, B. subst r2.
    destruct r1 as [u|e]; [|split; [constructor; assumption|reflexivity]].
    destruct (IH ls' ks' (h_mNext h) HF) as [C D]. destruct (heun_pass2 t dt (h_mNext h) hs ls') as [x1 x2], (heun_pass2 t dt (h_mNext h) hs ks') as [y1 y2]. cbn [fst snd] in *. subst y2.
    split; [constructor; assumption|reflexivity].
Qed.
Lemma cong_assign : forall ls ks ms, Forall2 qrel ls ks -> Forall2 qrel (assign_mags ls ms) (assign_mags ks ms).
Proof.
  intros ls ks ms H. revert ms. induction H as [|l k ls ks H HF IH]; intros [|m ms]; cbn; try constructor; try assumption; [|apply IH].
  apply qrel_set_mag. exact H.
Qed.
(** Junctions that differ only in the random state of quiet layers. *)
Definition jrel (j i : junction) : Prop := exists ks, i = set_j_layers ks j /\ Forall2 qrel (j_layers j) ks.
Lemma jrel_layers ls ks j i : jrel j i -> Forall2 qrel ls ks -> jrel (set_j_layers ls j) (set_j_layers ks i).
Proof. intros (k0 & -> & _) H. exists ks. split; [reflexivity|exact H]. Qed.
Lemma jrel_inv j i : jrel j i -> Forall2 qrel (j_layers j) (j_layers i).
Proof. intros (ks & -> & H). exact H. Qed.
Lemma cong_runner r t dt j i : jrel j i -> jrel (fst (run_runner r t dt j)) (fst (run_runner r t dt i)) /\ snd (run_runner r t dt i) = snd (run_runner r t dt j).
Proof.
  intros HJ. pose proof (jrel_inv _ _ HJ) as HL. destruct r; cbn [run_runner].
  - unfold runSingleLayerSolver. inversion HL as [E1 E2|l k ls ks H1 HF E1 E2]; [split; [exact HJ|reflexivity]|].
    destruct (comm_cong _ (fun a b' c d e => cm_rk4 a b' c d e t dt vnull vnull) l k H1) as [A B].
    destruct (rk4_step t dt vnull vnull l) as [l1 r1], (rk4_step t dt vnull vnull k) as [k1 r2]. cbn [fst snd] in *. subst r2.
    split; [|reflexivity]. apply jrel_layers; [exact HJ|constructor; assumption].
  - unfold runMultiLayerSolver, magCopies. rewrite (qrel_mags _ _ HL).
    destruct (cong_multi _ (fun b top => comm_cong _ (fun a b' c d e => cm_rk4 a b' c d e t dt b top)) _ _ (vnull :: map l_mag (j_layers j) ++ [vnull])%list HL) as [A B].
    destruct (multi_loop _ _ (j_layers j)) as [x1 x2], (multi_loop _ _ (j_layers i)) as [y1 y2]. cbn [fst snd] in *. subst y2.
    split; [|reflexivity]. apply jrel_layers; assumption.
  - unfold heunSolverStep. destruct (cong_h1 t dt _ _ vnull HL) as [A B].
    destruct (heun_pass1 t dt vnull (j_layers j)) as [x1 x2], (heun_pass1 t dt vnull (j_layers i)) as [y1 y2]. cbn [fst snd] in *. subst y2.
    destruct x2 as [hs|e]; [|split; [apply jrel_layers; assumption|reflexivity]].
    destruct (cong_h2 t dt hs _ _ vnull A) as [C D]. destruct (heun_pass2 t dt vnull hs x1) as [z1 z2], (heun_pass2 t dt vnull hs y1) as [w1 w2]. cbn [fst snd] in *. subst w2.
    split; [apply jrel_layers; assumption|reflexivity].
  - unfold eulerHeunSolverStep. destruct (cong_eh t dt _ _ vnull HL) as [A B].
    destruct (eulerHeun_pass t dt vnull (j_layers j)) as [x1 x2], (eulerHeun_pass t dt vnull (j_layers i)) as [y1 y2]. cbn [fst snd] in *. subst y2.
    destruct x2 as [ms|e]; (split; [apply jrel_layers; try assumption|reflexivity]). apply cong_assign. exact A.
Qed.
Lemma reseeded_row e l k : reseeded l k -> layer_row e k = layer_row e l.
Proof. intros (a & b & c & d & f & ->). reflexivity. Qed.
Lemma cong_log t dt e j i : jrel j i -> jrel (fst (logLayerParams t dt e j)) (fst (logLayerParams t dt e i)) /\ snd (logLayerParams t dt e i) = snd (logLayerParams t dt e j).
Proof.
  intros (ks & -> & HL). unfold logLayerParams. cbn [j_layers set_j_layers j_log j_logLength].
  assert (EG : forall g, fold_left (log_layer e) ks g = fold_left (log_layer e) (j_layers j) g).
  { intros g. rewrite !log_layers_row. f_equal. induction HL as [|l k ls ks H HF IH]; [reflexivity|]. cbn [flat_map]. rewrite IH, (reseeded_row e l k) by apply H. reflexivity. }
  rewrite EG. set (g := fold_left (log_layer e) (j_layers j) (j_log j)).
  assert (ER : log_resistance (set_j_layers ks j) g = log_resistance j g).
  { unfold log_resistance, stripMagnetoResistance. cbn [j_mode set_j_layers j_layers j_Rtag j_Rx0 j_Ry0 j_AMR_X j_AMR_Y j_SMR_X j_SMR_Y j_AHE].
    unfold calculateMagnetoresistance. cbn [j_Rp j_Rap set_j_layers].
    destruct (j_mode j); [reflexivity| |].
    - destruct HL as [|l k ls ks' H HF]; [reflexivity|]. assert (E1 := qrel_mag _ _ H). destruct H as [_ (a & b & c & d & f & ->)].
      destruct HF as [|l2 k2 ls2 ks2 H2 HF2]; [reflexivity|]. rewrite (qrel_mag _ _ H2). reflexivity.
    - assert (ES : forall a b c d f h m x y, strip_acc ks a b c d f h m x y = strip_acc (j_layers j) a b c d f h m x y).
      { clear -HL. induction HL as [|l k ls ks H HF IH]; intros a b c d f h m x y; [reflexivity|]. cbn [strip_acc].
        destruct a, b, c, d, f, h, m; try reflexivity. rewrite (qrel_mag _ _ H). unfold rbind. destruct (fdiv 1 _); [|reflexivity]. destruct (fdiv 1 _); [|reflexivity]. apply IH. }
      rewrite ES. reflexivity. }
  rewrite ER. destruct (log_resistance j g) as [g'|er]; (split; [|reflexivity]); exists ks; (split; [reflexivity|exact HL]).
Qed.
Lemma cong_sim r dt w e n : forall i0 j i, jrel j i ->
  jrel (fst (sim_loop r dt w e n i0 j)) (fst (sim_loop r dt w e n i0 i)) /\ snd (sim_loop r dt w e n i0 i) = snd (sim_loop r dt w e n i0 j).
Proof.
  induction n as [|n IH]; intros i0 j i HJ; [split; [exact HJ|reflexivity]|]. cbn [sim_loop]. unfold bind.
  destruct (cong_runner r (INR i0 * dt) dt j i HJ) as [A B].
  destruct (run_runner r (INR i0 * dt) dt j) as [j1 r1], (run_runner r (INR i0 * dt) dt i) as [i1 r2]. cbn [fst snd] in A, B. subst r2.
  destruct r1 as [u|er]; [|split; [exact A|reflexivity]].
  destruct (Nat.eqb w 0); [split; [exact A|reflexivity]|]. destruct (Nat.eqb (i0 mod w) 0).
  - destruct (cong_log (INR i0 * dt) dt e j1 i1 A) as [C D].
    destruct (logLayerParams (INR i0 * dt) dt e j1) as [j2 r2], (logLayerParams (INR i0 * dt) dt e i1) as [i2 r3]. cbn [fst snd] in C, D. subst r3.
    destruct r2 as [v|er]; [|split; [exact C|reflexivity]]. apply IH. exact C.
  - apply IH. exact A.
Qed.
Lemma getSolver_quiet mode N ls : Forall quiet ls -> getSolver_loop mode N ls = (ls, Ok mode).
Proof.
  intros H. revert mode. induction H as [|l ls [H1 H2] HF IH]; intros mode; [reflexivity|]. cbn [getSolver_loop]. rewrite H1.
  destruct (Req_EM_T (l_nScale l) 0); [|contradiction]. rewrite IH. reflexivity.
Qed.
Lemma qrel_quiet ls ks : Forall2 qrel ls ks -> Forall quiet ls /\ Forall quiet ks.
Proof.
  induction 1 as [|l k ls ks [H (a & b & c & d & e & ->)] HF [IH1 IH2]]; [split; constructor|]. split; constructor; assumption.
Qed.
Lemma qrel_length ls ks : Forall2 qrel ls ks -> length ks = length ls.
Proof. induction 1; cbn; congruence. Qed.
Lemma cong_run T dt wf e mode j i : jrel j i ->
  jrel (fst (runSimulation T dt wf e mode j)) (fst (runSimulation T dt wf e mode i)) /\ snd (runSimulation T dt wf e mode i) = snd (runSimulation T dt wf e mode j).
Proof.
  intros HJ. unfold runSimulation. destruct (Rlt_dec wf dt); [split; [exact HJ|reflexivity]|]. unfold bind, lift.
  destruct (fdiv T dt) as [q1|]; [|split; [exact HJ|reflexivity]]. destruct (to_unsigned q1) as [N|]; [|split; [exact HJ|reflexivity]].
  destruct (fdiv wf dt) as [q2|]; [|split; [exact HJ|reflexivity]]. destruct (to_unsigned q2) as [w|]; [|split; [exact HJ|reflexivity]].
  pose proof (jrel_inv _ _ HJ) as HL. destruct (qrel_quiet _ _ HL) as [Q1 Q2]. unfold getSolver. rewrite !getSolver_quiet by assumption.
  rewrite !set_layers_id. cbn [fst]. rewrite (qrel_length _ _ HL). apply cong_sim. exact HJ.
Qed.
Lemma quiet_run T dt wf e mode j j' ks r : Forall quiet (j_layers j) -> Forall2 reseeded (j_layers j) ks ->
  runSimulation T dt wf e mode j = (j', r) ->
  exists ks', runSimulation T dt wf e mode (set_j_layers ks j) = (set_j_layers ks' j', r) /\ Forall2 reseeded (j_layers j') ks' /\ mags ks' = mags (j_layers j').
Proof.
  intros HQ HF E. assert (HJ : jrel j (set_j_layers ks j)).
  { exists ks. split; [reflexivity|]. clear E. induction HF as [|l k ls ks' H HF IH]; [constructor|]. inversion HQ; subst. constructor; [split; assumption|apply IH; assumption]. }
  destruct (cong_run T dt wf e mode j _ HJ) as [(ks' & E1 & HL) E2]. rewrite E in E1, HL, E2. cbn [fst snd] in *. exists ks'.
  destruct (runSimulation T dt wf e mode (set_j_layers ks j)) as [a b]. cbn [fst snd] in *. subst a b. split; [reflexivity|]. split.
  - clear -HL. induction HL as [|l k ls ks H HF IH]; [constructor|]. constructor; [apply H|exact IH].
  - exact (qrel_mags _ _ HL).
Qed.
