(** Relabelling the axes: proofs. *)
From Verif Require Export S_Rot P_Monad.
From Coq Require Import Psatz FunctionalExtensionality.
From Coq Require Import Ascii.
From Coq Require String.
Open Scope R_scope.
Open Scope st_scope.

(** ** Vectors *)
Lemma rot_null : rotate vnull = vnull. Proof. reflexivity. Qed.
Lemma rot_add a b : vadd (rotate a) (rotate b) = rotate (vadd a b). Proof. reflexivity. Qed.
Lemma rot_sub a b : vsub (rotate a) (rotate b) = rotate (vsub a b). Proof. reflexivity. Qed.
Lemma rot_scale a s : vscale (rotate a) s = rotate (vscale a s). Proof. reflexivity. Qed.
Lemma rot_div a s v : vdiv a s = Ok v -> vdiv (rotate a) s = Ok (rotate v).
Proof. unfold vdiv. destruct (Req_EM_T s 0); [discriminate|]. intros H. injection H as <-. reflexivity. Qed.
Lemma rot_length a : vlength (rotate a) = vlength a.
Proof. unfold vlength, rotate. cbn [cx cy cz]. f_equal. ring. Qed.
Lemma rot_normal a : vnormalize (rotate a) = rotate (vnormalize a).
Proof. unfold vnormalize. rewrite rot_length. destruct (Req_EM_T (vlength a) 0); reflexivity. Qed.
Lemma rot_cross a b : c_cross (rotate a) (rotate b) = rotate (c_cross a b).
Proof. unfold c_cross, rotate. cbn. f_equal; ring. Qed.
Lemma rot_dot a b : c_dot (rotate a) (rotate b) = c_dot a b.
Proof. unfold c_dot, rotate. cbn. ring. Qed.
Lemma rot_tensor m t Ms : calculate_tensor_interaction (rotate m) (rotateT t) Ms = rotate (calculate_tensor_interaction m t Ms).
Proof. unfold calculate_tensor_interaction, rotateT, rotate, vscale. cbn. f_equal; ring. Qed.
Lemma rot_axial d t v : getCurrentAxialDrivers d t = Ok v -> getCurrentAxialDrivers (rotateA d) t = Ok (rotate v).
Proof.
  unfold getCurrentAxialDrivers. cbn [rotateA ax0 ax1 ax2]. destruct (getCurrentScalarValue (ax0 d) t) as [x|]; [|discriminate]. destruct (getCurrentScalarValue (ax1 d) t) as [y|]; [|discriminate]. destruct (getCurrentScalarValue (ax2 d) t) as [z|]; [|discriminate]. cbn. intros H. injection H as <-. reflexivity.
Qed.
Lemma rot_uni d a : getUniAxialDriver d (rotate_axis a) = rotateA (getUniAxialDriver d a).
Proof. destruct a; reflexivity. Qed.
Lemma rot_thrice v : rotate (rotate (rotate v)) = v. Proof. destruct v. reflexivity. Qed.

(** ** Layer functions *)
Notation sim := (simok in_triples rotateL).
Lemma sim_get {B} (chi : B -> B) (f1 f2 : layer -> ST layer B) : (forall l, sim chi (f1 l) (f2 (rotateL l))) -> sim chi (bind get f1) (bind get f2).
Proof. intros H. apply simok_get_bind. intros s Hs s' b E. exact (H s s s' b Hs E). Qed.
Lemma sim_mod f g : (forall l, g (rotateL l) = rotateL (f l)) -> (forall l, l_rpos (f l) = l_rpos l) -> sim (fun u => u) (modify f) (modify g).
Proof. intros H K. apply simok_modify; [intros l _; apply H|]. intros l Hl. unfold in_triples in *. rewrite K. exact Hl. Qed.
Lemma sim_scalar {B} (chi : B -> B) (r : result R) (f1 f2 : R -> ST layer B) : (forall a, sim chi (f1 a) (f2 a)) -> sim chi (bind (lift r) f1) (bind (lift r) f2).
Proof. intros H. apply simok_bind with (psi := fun a => a); [|exact H]. apply simok_lift. intros a E. exact E. Qed.
Lemma sim_axial {B} (chi : B -> B) d t (f1 f2 : cvec -> ST layer B) : (forall v, sim chi (f1 v) (f2 (rotate v))) -> sim chi (bind (lift (getCurrentAxialDrivers d t)) f1) (bind (lift (getCurrentAxialDrivers (rotateA d) t)) f2).
Proof. intros H. apply simok_bind with (psi := rotate); [|exact H]. apply simok_lift. apply rot_axial. Qed.
Lemma sim_vdiv {B} (chi : B -> B) a s (f1 f2 : cvec -> ST layer B) : (forall v, sim chi (f1 v) (f2 (rotate v))) -> sim chi (bind (lift (vdiv a s)) f1) (bind (lift (vdiv (rotate a) s)) f2).
Proof. intros H. apply simok_bind with (psi := rotate); [|exact H]. apply simok_lift. intros v. apply rot_div. Qed.
Lemma sim_do {B} (chi : B -> B) f g (f1 f2 : unit -> ST layer B) : (forall l, g (rotateL l) = rotateL (f l)) -> (forall l, l_rpos (f l) = l_rpos l) -> (forall u, sim chi (f1 u) (f2 u)) -> sim chi (bind (modify f) f1) (bind (modify g) f2).
Proof. intros H K L. apply simok_bind with (psi := fun u => u); [apply sim_mod; assumption|exact L]. Qed.
Lemma sim_call {B} (chi : B -> B) m1 m2 (f1 f2 : cvec -> ST layer B) : sim rotate m1 m2 -> (forall v, sim chi (f1 v) (f2 (rotate v))) -> sim chi (bind m1 f1) (bind m2 f2).
Proof. intros H K. apply simok_bind with (psi := rotate); assumption. Qed.
Lemma sim_retv a : sim rotate (ret a) (ret (rotate a)).
Proof. apply simok_ret. reflexivity. Qed.
Ltac rotnorm := cbn [rotateL l_id l_mag l_anis l_Ms l_thickness l_cellVolume l_cellSurface l_demag l_dipoleBottom l_dipoleTop l_damping l_fieldLikeTorque l_dampingLikeTorque l_slon l_beta l_kappa l_spinPol l_includeSTT l_includeSOT l_dynamicSOT l_alternativeSTT l_temperatureSet l_reference l_refType l_temperature l_IECTop l_IECBottom l_QuadTop l_QuadBottom l_current l_anisotropy l_flDriver l_dlDriver l_IDMITop l_IDMIBottom l_Hreserved l_external l_Oersted l_Hdmi l_nAlpha l_nScale l_nStd l_nAxis l_bfn l_nsrc l_ngen l_rng l_rpos l_cache]; repeat first [rewrite rot_add|rewrite rot_sub|rewrite rot_scale|rewrite rot_cross|rewrite rot_dot|rewrite rot_tensor|rewrite rot_normal].
Ltac simgo := repeat match goal with
  | |- simok _ _ _ (bind get _) _ => apply sim_get; intros ?l; cbv zeta; rotnorm
  | |- simok _ _ _ (bind (lift (getCurrentAxialDrivers _ _)) _) _ => apply sim_axial; intros ?v; cbv zeta; rotnorm
  | |- simok _ _ _ (bind (lift (vdiv _ _)) _) _ => apply sim_vdiv; intros ?v; cbv zeta; rotnorm
  | |- simok _ _ _ (bind (lift _) _) _ => apply sim_scalar; intros ?a; cbv zeta; rotnorm
  | |- simok _ _ _ (bind (modify _) _) _ => apply sim_do; [reflexivity|reflexivity|intros ?u; cbv zeta; rotnorm]
  | |- simok _ _ _ (ret _) _ => apply sim_retv
  end.
Lemma sim_external t : sim rotate (calculateExternalField t) (calculateExternalField t).
Proof. unfold calculateExternalField. simgo. Qed.
Lemma sim_oersted t : sim rotate (calculateHOeField t) (calculateHOeField t).
Proof. unfold calculateHOeField. simgo. Qed.
Lemma sim_hdmi t : sim rotate (calculateHdmiField t) (calculateHdmiField t).
Proof. unfold calculateHdmiField. apply sim_get; intros l. apply simok_lift. apply rot_axial. Qed.
Lemma sim_anis m t : sim rotate (calculateAnisotropy m t) (calculateAnisotropy (rotate m) t).
Proof. unfold calculateAnisotropy. simgo. Qed.
Lemma rot_iec l J J2 m c v : calculateIEC_ l J J2 m c = Ok v -> calculateIEC_ (rotateL l) J J2 (rotate m) (rotate c) = Ok (rotate v).
Proof. unfold calculateIEC_. rotnorm. apply rot_div. Qed.
Lemma sim_iec t m b top : sim rotate (calculateIEC t m b top) (calculateIEC t (rotate m) (rotate b) (rotate top)).
Proof.
  unfold calculateIEC. simgo. apply sim_call; [apply simok_lift; intros v; apply rot_iec|]. intros v. apply sim_call; [apply simok_lift; intros w; apply rot_iec|]. intros w. rotnorm. apply sim_retv.
Qed.
Lemma rot_idmi l d m c v : calculateIDMI_ l d m c = Ok v -> calculateIDMI_ (rotateL l) (rotate d) (rotate m) (rotate c) = Ok (rotate v).
Proof.
  unfold calculateIDMI_. cbv zeta. rotnorm. intros H. apply rot_div in H. rewrite <- H. f_equal. unfold rotate, c_dot. cbn. f_equal; ring.
Qed.
Lemma sim_idmi t m b top : sim rotate (calculateIDMI t m b top) (calculateIDMI t (rotate m) (rotate b) (rotate top)).
Proof.
  unfold calculateIDMI. simgo. apply sim_call; [apply simok_lift; intros w; apply rot_idmi|]. intros w. simgo. apply sim_call; [apply simok_lift; intros w'; apply rot_idmi|]. intros w'. rotnorm. apply sim_retv.
Qed.
Ltac simcall H := apply sim_call; [apply H|intros ?v; cbv zeta; rotnorm].
Lemma sim_heff_dip t dt m b top d h : sim rotate (calculateHeffDipoleInjection t dt m b top d h) (calculateHeffDipoleInjection t dt (rotate m) (rotate b) (rotate top) (rotate d) (rotate h)).
Proof.
  unfold calculateHeffDipoleInjection. simcall sim_external. simgo. simcall sim_oersted. simgo. simcall sim_iec. simgo. simcall sim_idmi. simgo. simcall sim_anis. simgo. simcall sim_hdmi. simgo.
Qed.
Lemma sim_heff t dt m b top h : sim rotate (calculateHeff t dt m b top h) (calculateHeff t dt (rotate m) (rotate b) (rotate top) (rotate h)).
Proof. unfold calculateHeff. simgo. apply sim_heff_dip. Qed.
Lemma rot_ref l b top : pick_reference (rotateL l) (rotate b) (rotate top) = rotate (pick_reference l b top).
Proof. unfold pick_reference. rotnorm. destruct (l_refType l); reflexivity. Qed.
Lemma sim_llg t m dt b top h : sim rotate (solveLLG t m dt b top h) (solveLLG t (rotate m) dt (rotate b) (rotate top) (rotate h)).
Proof.
  unfold solveLLG. apply sim_get; intros l; cbv zeta. rewrite rot_ref. rotnorm. apply sim_scalar; intros a. destruct (l_includeSTT l); [|destruct (l_includeSOT l)].
  - simgo.
  - apply simok_bind with (psi := fun q => q); [|intros q; simgo]. destruct (l_dynamicSOT l); simgo; apply simok_ret; reflexivity.
  - simgo.
Qed.
Lemma rot_stoch l m w v : stochasticTorque l m w = Ok v -> stochasticTorque (rotateL l) (rotate m) (rotate w) = Ok (rotate v).
Proof.
  unfold stochasticTorque. cbv zeta. rotnorm. destruct (fdiv (- GYRO) (1 + l_damping l ^ 2)) as [c|]; [|discriminate]. cbn [rbind]. intros H. injection H as <-. rotnorm. reflexivity.
Qed.
Lemma sim_rhs_dip t m b top d dt h : sim rotate (calculateLLGWithFieldTorqueDipoleInjection t m b top d dt h) (calculateLLGWithFieldTorqueDipoleInjection t (rotate m) (rotate b) (rotate top) (rotate d) dt (rotate h)).
Proof. unfold calculateLLGWithFieldTorqueDipoleInjection. simcall sim_heff_dip. apply sim_llg. Qed.
Lemma sim_rhs t m b top dt : sim rotate (calculateLLGWithFieldTorque t m b top dt) (calculateLLGWithFieldTorque t (rotate m) (rotate b) (rotate top) dt).
Proof. unfold calculateLLGWithFieldTorque. simcall (sim_heff t dt m b top vnull). apply sim_llg. Qed.
Lemma sim_rk4_generic f g t dt : (forall t m, sim rotate (f t m) (g t (rotate m))) -> sim (fun u => u) (rk4_generic f t dt) (rk4_generic g t dt).
Proof.
  intros H. unfold rk4_generic. apply sim_get; intros l. cbv zeta. rotnorm. do 4 (simcall H). simgo. apply sim_mod; [|reflexivity]. intros l0. rotnorm. reflexivity.
Qed.
Lemma sim_rk4 t dt b top : sim (fun u => u) (rk4_step t dt b top) (rk4_step t dt (rotate b) (rotate top)).
Proof. apply sim_rk4_generic. intros. apply sim_rhs. Qed.
Lemma sim_rk4_dip t dt b top d : sim (fun u => u) (rk4_stepDipoleInjection t dt b top d) (rk4_stepDipoleInjection t dt (rotate b) (rotate top) (rotate d)).
Proof. apply sim_rk4_generic. intros. apply (sim_rhs_dip t0 m b top d dt vnull). Qed.

(** ** Noise *)
Lemma stream0 f k : (k mod 3 = 0)%nat -> rotate_stream f k = f (S (S k)) /\ rotate_stream f (S k) = f k /\ rotate_stream f (S (S k)) = f (S k).
Proof.
  intros H. assert (H1 : (S k mod 3 = 1)%nat) by (rewrite <- (Nat.add_1_r k), Nat.add_mod, H by lia; reflexivity). assert (H2 : (S (S k) mod 3 = 2)%nat) by (replace (S (S k)) with (k + 2)%nat by lia; rewrite Nat.add_mod, H by lia; reflexivity).
  unfold rotate_stream. rewrite H, H1, H2. replace (k + 2)%nat with (S (S k)) by lia. replace (S k - 1)%nat with k by lia. replace (S (S k) - 1)%nat with (S k) by lia. auto.
Qed.
Lemma rot_std t dt l : getLangevinStochasticStandardDeviation t dt (rotateL l) = getLangevinStochasticStandardDeviation t dt l.
Proof. reflexivity. Qed.
Lemma sim_langevin t dt : sim rotate (getStochasticLangevinVector t dt) (getStochasticLangevinVector t dt).
Proof.
  unfold getStochasticLangevinVector. apply sim_get; intros l. rewrite rot_std. rotnorm. destruct (negb (l_temperatureSet l)); [apply sim_retv|]. apply sim_scalar; intros s.
  intros l0 l1 v P E. unfold bind, draw, ret in *. injection E as <- <-. unfold in_triples in *. cbn [l_rpos rotateL set_l_rpos l_rng]. destruct (stream0 (l_rng l0) (l_rpos l0) P) as (-> & -> & ->). split; [reflexivity|]. replace (S (S (S (l_rpos l0)))) with (l_rpos l0 + 1 * 3)%nat by lia. rewrite Nat.mod_add by lia. exact P.
Qed.
Lemma rot_tick n n' v : tickVector n = (n', v) -> tickVector (rotateN n) = (rotateN n', rotate v).
Proof.
  unfold tickVector. cbv zeta. intros H. injection H as <- <-. cbn [rotateN vn_axis vn_scale vn_raw vn_pos]. f_equal. destruct (vn_axis n); cbn [rotate_axis]; try reflexivity. rewrite rot_normal. apply rot_scale.
Qed.
Lemma sim_onef : sim rotate getOneFVector getOneFVector.
Proof.
  unfold getOneFVector. apply sim_get; intros l. rotnorm. destruct (Req_EM_T (l_nScale l) 0); [apply sim_retv|]. destruct (l_bfn l) as [ns|]; cbn [option_map]; [|apply simok_fail]. destruct (tickVector ns) as [ns1 v] eqn:E. rewrite (rot_tick _ _ _ E). simgo.
Qed.
Lemma sim_noise t dt : sim rotate (drawNoise t dt) (drawNoise t dt).
Proof. unfold drawNoise. simcall sim_langevin. simcall sim_onef. apply sim_retv. Qed.
Lemma sim_eh t dt b top : sim rotate (eulerHeun_layer t dt b top) (eulerHeun_layer t dt (rotate b) (rotate top)).
Proof.
  unfold eulerHeun_layer. simcall sim_noise. apply sim_get; intros l. cbv zeta. rotnorm. simcall sim_rhs. apply sim_call; [apply simok_lift; intros w; apply rot_stoch|]. intros w. simgo. rotnorm. apply sim_call; [apply simok_lift; intros w'; apply rot_stoch|]. intros w'. rotnorm. apply sim_retv.
Qed.
Definition rotateH (h : heun_stage) : heun_stage := HS (rotate (h_fn h)) (rotate (h_gn h)) (rotate (h_dW h)) (rotate (h_mNext h)).
Lemma sim_h1 t dt b top : sim rotateH (heun_layer1 t dt b top) (heun_layer1 t dt (rotate b) (rotate top)).
Proof.
  unfold heun_layer1. apply sim_get; intros l. rotnorm. simcall sim_rhs. simcall sim_noise. apply sim_get; intros l1. rotnorm. apply sim_call; [apply simok_lift; intros w; apply rot_stoch|]. intros w. simgo. apply simok_ret. reflexivity.
Qed.
Lemma sim_h2 t dt h b top : sim (fun u => u) (heun_layer2 t dt h b top) (heun_layer2 t dt (rotateH h) (rotate b) (rotate top)).
Proof.
  unfold heun_layer2. cbn [rotateH h_fn h_gn h_dW h_mNext]. simcall sim_rhs. apply sim_get; intros l. apply sim_call; [apply simok_lift; intros w; apply rot_stoch|]. intros w. simgo. apply sim_mod; [|reflexivity]. intros l0. rotnorm. reflexivity.
Qed.
Lemma sim_create N : sim (fun u => u) (createBufferedAlphaNoise N) (createBufferedAlphaNoise N).
Proof.
  unfold createBufferedAlphaNoise. apply sim_get; intros l. rotnorm. destruct (Rlt_dec (l_nAlpha l) 0); [apply simok_fail|]. destruct (l_nAxis l); cbn [rotate_axis]; try apply simok_fail; (destruct (Nat.eqb N 0); [apply simok_fail|]); simgo; (apply sim_mod; reflexivity).
Qed.

(** ** Loops over layers *)
Notation triples := (Forall in_triples).
Lemma multi_cons f b m top c l ls : multi_loop f (b :: m :: top :: c) (l :: ls) = match f b top l with (l', Err e) => (l' :: ls, Err e) | (l', Ok _) => match multi_loop f (m :: top :: c) ls with (r', r) => (l' :: r', r) end end.
Proof. reflexivity. Qed.
Lemma rot_multi f g : (forall b top, sim (fun u => u) (f b top) (g (rotate b) (rotate top))) -> forall ls copies ls', triples ls -> multi_loop f copies ls = (ls', Ok tt) ->
  multi_loop g (map rotate copies) (map rotateL ls) = (map rotateL ls', Ok tt) /\ triples ls'.
Proof.
  intros H. induction ls as [|l ls IH]; intros copies ls' P E; cbn [multi_loop map] in *.
  - destruct copies; injection E as <-; auto.
  - destruct copies as [|b [|m [|top copies]]]; try discriminate. rewrite multi_cons in E. cbn [map]. rewrite multi_cons. inversion P as [|? ? P1 P2]; subst. destruct (f b top l) as [l1 [u|e]] eqn:F; [|discriminate]. destruct (H b top l l1 u P1 F) as [-> P3].
    destruct (multi_loop f (m :: top :: copies) ls) as [r [[]|e]] eqn:E2; [|discriminate]. injection E as <-. destruct (IH _ _ P2 E2) as [E3 P4]. cbn [map] in E3. rewrite E3. split; [reflexivity|constructor; assumption].
Qed.
Lemma rot_copies ls : magCopies (map rotateL ls) = map rotate (magCopies ls).
Proof. unfold magCopies. cbn [map]. rewrite map_app, !map_map. reflexivity. Qed.
Lemma rot_top ls : match map rotateL ls with [] => vnull | r :: _ => l_mag r end = rotate match ls with [] => vnull | r :: _ => l_mag r end.
Proof. destruct ls; reflexivity. Qed.
Lemma rot_eh_pass t dt : forall ls b ls' ms, triples ls -> eulerHeun_pass t dt b ls = (ls', Ok ms) -> eulerHeun_pass t dt (rotate b) (map rotateL ls) = (map rotateL ls', Ok (map rotate ms)) /\ triples ls'.
Proof.
  induction ls as [|l ls IH]; intros b ls' ms P E; cbn [eulerHeun_pass map] in *.
  - injection E as <- <-. auto.
  - inversion P as [|? ? P1 P2]; subst. rewrite rot_top. destruct (eulerHeun_layer t dt b _ l) as [l1 [mp|e]] eqn:F; [|discriminate]. destruct (sim_eh _ _ _ _ l l1 mp P1 F) as [-> P3].
    destruct (eulerHeun_pass t dt (l_mag l1) ls) as [r [mps|e]] eqn:E2; [|discriminate]. injection E as <- <-. destruct (IH _ _ _ P2 E2) as [E3 P4]. cbn [rotateL l_mag]. rewrite E3. split; [reflexivity|constructor; assumption].
Qed.
Lemma rot_assign : forall ls ms, assign_mags (map rotateL ls) (map rotate ms) = map rotateL (assign_mags ls ms).
Proof. induction ls as [|l ls IH]; intros [|m ms]; cbn [assign_mags map]; try reflexivity. rewrite IH, rot_normal. reflexivity. Qed.
Lemma assign_triples : forall ls ms, triples ls -> triples (assign_mags ls ms).
Proof. induction ls as [|l ls IH]; intros [|m ms] P; cbn [assign_mags]; auto. inversion P as [|? ? P1 P2]; subst. constructor; [exact P1|apply IH; exact P2]. Qed.
Lemma rot_h1_pass t dt : forall ls b ls' hs, triples ls -> heun_pass1 t dt b ls = (ls', Ok hs) -> heun_pass1 t dt (rotate b) (map rotateL ls) = (map rotateL ls', Ok (map rotateH hs)) /\ triples ls'.
Proof.
  induction ls as [|l ls IH]; intros b ls' hs P E; cbn [heun_pass1 map] in *.
  - injection E as <- <-. auto.
  - inversion P as [|? ? P1 P2]; subst. rewrite rot_top. destruct (heun_layer1 t dt b _ l) as [l1 [h|e]] eqn:F; [|discriminate]. destruct (sim_h1 _ _ _ _ l l1 h P1 F) as [-> P3].
    destruct (heun_pass1 t dt (l_mag l1) ls) as [r [rs|e]] eqn:E2; [|discriminate]. injection E as <- <-. destruct (IH _ _ _ P2 E2) as [E3 P4]. cbn [rotateL l_mag]. rewrite E3. split; [reflexivity|constructor; assumption].
Qed.
Lemma rot_h2_pass t dt : forall ls hs b ls', triples ls -> heun_pass2 t dt b hs ls = (ls', Ok tt) -> heun_pass2 t dt (rotate b) (map rotateH hs) (map rotateL ls) = (map rotateL ls', Ok tt) /\ triples ls'.
Proof.
  induction ls as [|l ls IH]; intros hs b ls' P E; cbn [map] in *.
  - destruct hs; injection E as <-; auto.
  - destruct hs as [|h hs]; [discriminate|]. cbn [map heun_pass2] in *. inversion P as [|? ? P1 P2]; subst. replace (match map rotateH hs with [] => vnull | r :: _ => h_mNext r end) with (rotate match hs with [] => vnull | r :: _ => h_mNext r end) by (destruct hs; reflexivity).
    destruct (heun_layer2 t dt h b _ l) as [l1 [u|e]] eqn:F; [|discriminate]. destruct (sim_h2 _ _ _ _ _ l l1 u P1 F) as [-> P3].
    destruct (heun_pass2 t dt (h_mNext h) hs ls) as [r [[]|e]] eqn:E2; [|discriminate]. injection E as <-. destruct (IH _ _ _ P2 E2) as [E3 P4]. cbn [rotateH h_mNext]. rewrite E3. split; [reflexivity|constructor; assumption].
Qed.
Lemma rot_solver_loop N : forall ls m ls' m', triples ls -> getSolver_loop m N ls = (ls', Ok m') -> getSolver_loop m N (map rotateL ls) = (map rotateL ls', Ok m') /\ triples ls'.
Proof.
  induction ls as [|l ls IH]; intros m ls' m' P E; cbn [getSolver_loop map] in *.
  - injection E as <- <-. auto.
  - inversion P as [|? ? P1 P2]; subst. rotnorm. destruct (Req_EM_T (l_nScale l) 0).
    + destruct (getSolver_loop _ N ls) as [r x] eqn:E2. injection E as <- ->. destruct (IH _ _ _ P2 E2) as [-> P4]. split; [reflexivity|constructor; assumption].
    + destruct (createBufferedAlphaNoise N l) as [l1 [u|e]] eqn:F; [|discriminate]. destruct (sim_create N l l1 u P1 F) as [-> P3]. destruct (getSolver_loop _ N ls) as [r x] eqn:E2. injection E as <- ->. destruct (IH _ _ _ P2 E2) as [-> P4]. split; [reflexivity|constructor; assumption].
Qed.

(** ** Columns *)
Lemma get_push k v g k' : log_get k' (log_push k v g) = if String.eqb k k' then Some (match log_get k g with Some c => c ++ [v] | None => [v] end) else log_get k' g.
Proof.
  induction g as [|[q c] g IH]; cbn [log_push log_get].
  - reflexivity.
  - destruct (String.eqb_spec q k) as [->|N]; cbn [log_get].
    + destruct (String.eqb_spec k k'); reflexivity.
    + rewrite IH. destruct (String.eqb_spec q k') as [->|N']; [|reflexivity]. destruct (String.eqb_spec k k'); [congruence|reflexivity].
Qed.
Lemma next_inj a b : next_letter a = next_letter b -> a = b.
Proof.
  unfold next_letter. destruct (Ascii.eqb_spec a "x"%char); destruct (Ascii.eqb_spec b "x"%char); destruct (Ascii.eqb_spec a "y"%char); destruct (Ascii.eqb_spec b "y"%char); destruct (Ascii.eqb_spec a "z"%char); destruct (Ascii.eqb_spec b "z"%char); congruence.
Qed.
Lemma key_inj : forall a b, rotate_key a = rotate_key b -> a = b.
Proof.
  induction a as [|x a IH]; intros [|y b]; try reflexivity.
  - destruct b; discriminate.
  - destruct a; discriminate.
  - destruct a as [|x' a], b as [|y' b]; intros H.
    + injection H as H. apply next_inj in H. congruence.
    + destruct b; discriminate.
    + destruct a; discriminate.
    + change (String.String x (rotate_key (String.String x' a)) = String.String y (rotate_key (String.String y' b))) in H. assert (H1 : x = y) by congruence. assert (H2 : rotate_key (String.String x' a) = rotate_key (String.String y' b)) by congruence. rewrite (IH _ H2), H1. reflexivity.
Qed.
Lemma key_app k a : rotate_key (k ++ String.String a String.EmptyString) = (k ++ String.String (next_letter a) String.EmptyString)%string.
Proof. induction k as [|x k IH]; [reflexivity|]. cbn [String.append rotate_key]. destruct (k ++ String.String a String.EmptyString)%string eqn:E; [destruct k; discriminate|]. rewrite IH. reflexivity. Qed.
Lemma key_end k t : t <> String.EmptyString -> rotate_key t = t -> rotate_key (k ++ t) = (k ++ t)%string.
Proof. intros N H. induction k as [|x k IH]; [exact H|]. cbn [String.append rotate_key]. destruct (k ++ t)%string eqn:E; [destruct k; [cbn in E; congruence|discriminate]|]. rewrite IH. reflexivity. Qed.
Lemma key_tail k t : t <> String.EmptyString -> rotate_key (k ++ t) = (k ++ rotate_key t)%string.
Proof. intros N. induction k as [|x k IH]; [reflexivity|]. cbn [String.append rotate_key]. destruct (k ++ t)%string eqn:E; [destruct k; [cbn in E; congruence|discriminate]|]. rewrite IH. reflexivity. Qed.
Lemma push_rot k v g g' : rotated_log g g' -> rotated_log (log_push k v g) (log_push (rotate_key k) v g').
Proof.
  intros H q. rewrite !get_push, H. destruct (String.eqb_spec (rotate_key k) (rotate_key q)) as [E|N].
  - apply key_inj in E. subst q. rewrite String.eqb_refl. reflexivity.
  - destruct (String.eqb_spec k q) as [->|]; [contradiction|apply H].
Qed.
Lemma push_fixed k v g g' : rotate_key k = k -> rotated_log g g' -> rotated_log (log_push k v g) (log_push k v g').
Proof. intros E H. rewrite <- E at 2. apply push_rot. exact H. Qed.
(** Two logs with the same columns. *)
Definition same_log (g g' : log_t) : Prop := forall k, log_get k g' = log_get k g.
Lemma rotated_same g g1 g2 : rotated_log g g1 -> same_log g1 g2 -> rotated_log g g2.
Proof. intros H K q. rewrite K. apply H. Qed.
Lemma same_push k v g g' : same_log g g' -> same_log (log_push k v g) (log_push k v g').
Proof. intros H q. rewrite !get_push, !H. reflexivity. Qed.
Lemma push_swap k v k' v' g : k <> k' -> same_log (log_push k v (log_push k' v' g)) (log_push k' v' (log_push k v g)).
Proof. intros N q. rewrite !get_push. destruct (String.eqb_spec k q), (String.eqb_spec k' q), (String.eqb_spec k k'), (String.eqb_spec k' k); subst; try congruence; reflexivity. Qed.
Lemma same_trans a b c : same_log a b -> same_log b c -> same_log a c.
Proof. intros H K q. rewrite K. apply H. Qed.
Lemma app_last k a b : a <> b -> (k ++ String.String a String.EmptyString)%string <> (k ++ String.String b String.EmptyString)%string.
Proof. intros N. induction k as [|x k IH]; cbn [String.append]; intros H; [congruence|]. apply IH. congruence. Qed.
Lemma vec_rot k v g g' : rotated_log g g' -> rotated_log (push_vec k v g) (push_vec k (rotate v) g').
Proof.
  intros H. unfold push_vec. cbn [rotate cx cy cz].
  apply (push_rot (k ++ "x") (cx v)) in H. apply (push_rot (k ++ "y") (cy v)) in H. apply (push_rot (k ++ "z") (cz v)) in H. rewrite !key_app in H. cbn [next_letter Ascii.eqb Bool.eqb] in H.
  eapply rotated_same; [exact H|]. eapply same_trans; [apply push_swap; apply app_last; discriminate|]. apply same_trans with (b := log_push (k ++ "z") (cy v) (log_push (k ++ "x") (cz v) (log_push (k ++ "y") (cx v) g'))).
  - intros q. reflexivity.
  - apply same_push. apply push_swap. apply app_last. discriminate.
Qed.
Lemma energies_rot l g g' : rotated_log g g' -> rotated_log (log_energies l g) (log_energies (rotateL l) g').
Proof.
  intros H. unfold log_energies. cbv zeta. rotnorm. cbn [rotateC c_K_log c_Jbottom_log c_Jtop_log c_I_log c_Hext c_HIEC c_HAnis c_Hdemag c_Hfluctuation c_Hdl_v c_Hfl_v].
  assert (K : forall t v g g', t <> String.EmptyString -> rotate_key t = t -> rotated_log g g' -> rotated_log (log_push (l_id l ++ t) v g) (log_push (l_id l ++ t) v g')) by (intros; apply push_fixed; [apply key_end; assumption|assumption]).
  destruct (l_includeSOT l); destruct (l_includeSTT l); cbn [orb]; repeat first [apply K; [discriminate|reflexivity|]|apply vec_rot]; exact H.
Qed.
Lemma layer_rot e l g g' : rotated_log g g' -> rotated_log (log_layer e g l) (log_layer e g' (rotateL l)).
Proof. intros H. unfold log_layer. cbv zeta. rotnorm. apply vec_rot. destruct e; [apply energies_rot|]; exact H. Qed.
Lemma layers_rot e : forall ls g g', rotated_log g g' -> rotated_log (fold_left (log_layer e) ls g) (fold_left (log_layer e) (map rotateL ls) g').
Proof. induction ls as [|l ls IH]; intros g g' H; cbn [fold_left map]; [exact H|]. apply IH. apply layer_rot. exact H. Qed.

(** ** Junctions *)
(** A step that turns relabelled junctions into relabelled ones. *)
Definition jsim {A} (m1 m2 : ST junction A) : Prop := forall j j1 j' a, triples (j_layers j) -> axis_free j -> rotated j j1 -> m1 j = (j', Ok a) ->
  exists j1', m2 j1 = (j1', Ok a) /\ rotated j' j1' /\ triples (j_layers j') /\ axis_free j'.
Lemma jsim_bind {A B} (m1 m2 : ST junction A) (f1 f2 : A -> ST junction B) : jsim m1 m2 -> (forall a, jsim (f1 a) (f2 a)) -> jsim (bind m1 f1) (bind m2 f2).
Proof. intros H K j j1 j' b P F Q E. apply bind_inv in E. destruct E as (s & a & E1 & E2). destruct (H _ _ _ _ P F Q E1) as (t & E3 & Q3 & P3 & F3). destruct (K a _ _ _ _ P3 F3 Q3 E2) as (u & E4 & G). exists u. split; [unfold bind; rewrite E3; exact E4|exact G]. Qed.
Lemma jsim_ret {A} (a : A) : jsim (ret a) (ret a).
Proof. intros j j1 j' b P F Q E. injection E as <- <-. exists j1. repeat (split; [reflexivity || assumption|]). exact F. Qed.
Lemma jsim_lift {A} (r : result A) : jsim (lift r) (lift r).
Proof. intros j j1 j' b P F Q E. injection E as <- ->. exists j1. repeat (split; [reflexivity || assumption|]). exact F. Qed.
Lemma jsim_fail {A} e (m : ST junction A) : jsim (fail e) m.
Proof. intros j j1 j' b P F Q E. discriminate. Qed.
Lemma rotated_layers j j1 ls ls1 : rotated j j1 -> ls1 = map rotateL ls -> rotated (set_j_layers ls j) (set_j_layers ls1 j1).
Proof. intros (H1 & H2 & H3 & H4 & H5 & H6 & H7) ->. repeat split; assumption. Qed.
Lemma jsim_log t dt e : jsim (logLayerParams t dt e) (logLayerParams t dt e).
Proof.
  intros j j1 j' a P F Q E. destruct Q as (Q1 & Q2 & Q3 & Q4 & Q5 & Q6 & Q7). destruct F as [F1 F2]. unfold logLayerParams in *. rewrite Q1.
  pose proof (layers_rot e (j_layers j) _ _ Q2) as L. set (g := fold_left (log_layer e) (j_layers j) (j_log j)) in *. set (g1 := fold_left (log_layer e) (map rotateL (j_layers j)) (j_log j1)) in *.
  assert (T : forall h, log_resistance j g = Ok h -> exists h1, log_resistance j1 g1 = Ok h1 /\ rotated_log h h1).
  { intros h R0. unfold log_resistance in *. rewrite Q4, Q1, Q7. unfold calculateMagnetoresistance in *. rewrite Q5, Q6. destruct (j_mode j); [injection R0 as <-; exists g1; auto| |congruence]. destruct (j_layers j) as [|l0 [|l1 ls]]; cbn [map]; injection R0 as <-; rotnorm; (eexists; split; [reflexivity|]); [exact L| |]; apply push_fixed; try assumption; reflexivity. }
  destruct (log_resistance j g) as [h|er] eqn:R0; [|discriminate]. injection E as <- <-. destruct (T h eq_refl) as (h1 & -> & L1). eexists. split; [reflexivity|]. split; [|split; [exact P|split; assumption]]. unfold rotated. cbn [set_j_log j_layers j_log j_logLength j_mode j_Rp j_Rap j_Rtag]. rewrite Q3. repeat (split; [assumption || reflexivity|]). split; [apply push_fixed; [reflexivity|exact L1]|]. repeat split; assumption.
Qed.
Lemma jsim_runner r t dt : jsim (run_runner r t dt) (run_runner r t dt).
Proof.
  intros j j1 j' a P F Q E. pose proof Q as (Q1 & _). destruct r; cbn [run_runner] in *; unfold runSingleLayerSolver, runMultiLayerSolver, heunSolverStep, eulerHeunSolverStep in *; rewrite Q1.
  - destruct (j_layers j) as [|l ls]; [discriminate|]. cbn [map]. destruct (rk4_step t dt vnull vnull l) as [l' x] eqn:E1. injection E as <- ->. inversion P as [|? ? P1 P2]; subst. destruct (sim_rk4 t dt vnull vnull l l' a P1 E1) as [E2 P3]. rewrite rot_null in E2. rewrite E2. eexists. split; [reflexivity|]. split; [apply rotated_layers; [exact Q|reflexivity]|]. split; [constructor; assumption|exact F].
  - destruct (multi_loop (rk4_step t dt) (magCopies (j_layers j)) (j_layers j)) as [ls x] eqn:E1. injection E as <- ->. destruct a. destruct (rot_multi _ (rk4_step t dt) (sim_rk4 t dt) _ _ _ P E1) as [E2 P3]. rewrite rot_copies, E2. eexists. split; [reflexivity|]. split; [apply rotated_layers; [exact Q|reflexivity]|]. split; [exact P3|exact F].
  - destruct (heun_pass1 t dt vnull (j_layers j)) as [ls [hs|er]] eqn:E1; [|discriminate]. destruct (rot_h1_pass _ _ _ _ _ _ P E1) as [E2 P2]. rewrite rot_null in E2. rewrite E2. destruct (heun_pass2 t dt vnull hs ls) as [ls2 x] eqn:E3. injection E as <- ->. destruct a. destruct (rot_h2_pass _ _ _ _ _ _ P2 E3) as [E4 P4]. rewrite rot_null in E4. rewrite E4. eexists. split; [reflexivity|]. split; [apply rotated_layers; [exact Q|reflexivity]|]. split; [exact P4|exact F].
  - destruct (eulerHeun_pass t dt vnull (j_layers j)) as [ls [ms|er]] eqn:E1; [|discriminate]. injection E as <- <-. destruct (rot_eh_pass _ _ _ _ _ _ P E1) as [E2 P2]. rewrite rot_null in E2. rewrite E2. eexists. split; [reflexivity|]. split; [apply rotated_layers; [exact Q|apply rot_assign]|]. split; [apply assign_triples; exact P2|exact F].
Qed.
Lemma jsim_loop r dt w e : forall n i, jsim (sim_loop r dt w e n i) (sim_loop r dt w e n i).
Proof.
  induction n as [|n IH]; intros i; cbn [sim_loop]; [apply jsim_ret|]. cbv zeta. apply jsim_bind; [apply jsim_runner|]. intros _. apply jsim_bind; [|intros _; apply IH]. destruct (Nat.eqb w 0); [apply jsim_fail|]. destruct (Nat.eqb (i mod w) 0); [apply jsim_log|apply jsim_ret].
Qed.
Lemma jsim_solver mode N : jsim (getSolver mode N) (getSolver mode N).
Proof.
  intros j j1 j' a P F Q E. pose proof Q as (Q1 & _). unfold getSolver in *. rewrite Q1. destruct (getSolver_loop mode N (j_layers j)) as [ls [m|er]] eqn:E1; [|discriminate]. injection E as <- <-. destruct (rot_solver_loop _ _ _ _ _ P E1) as [-> P2]. rewrite map_length. eexists. split; [reflexivity|]. split; [apply rotated_layers; [exact Q|reflexivity]|]. split; [exact P2|exact F].
Qed.
Lemma jsim_run T dt wf e mode : jsim (runSimulation T dt wf e mode) (runSimulation T dt wf e mode).
Proof.
  unfold runSimulation. destruct (Rlt_dec wf dt); [apply jsim_fail|]. do 4 (apply jsim_bind; [apply jsim_lift|intros ?a]). apply jsim_bind; [apply jsim_solver|]. intros [r m]. apply jsim_loop.
Qed.

(** ** Setters *)
Lemma sim_member s : sim (fun u => u) (member s) (member (rotate_setting s)).
Proof.
  destruct s; cbn [rotate_setting member].
  all: try (unfold setTemperatureDriver, setNonStochasticLangevinDriver, setAnisotropyDriver, setExternalFieldDriver, setOerstedFieldDriver, setCurrentDriver, setReservedInteractionField, setHdmiDriver, setAlternativeSTT, setOneFNoise, setReferenceLayerVec; simgo; apply sim_mod; reflexivity).
  - unfold setDampingLikeTorqueDriver. apply sim_do; [reflexivity|reflexivity|]. intros _. apply sim_get; intros l. rotnorm. destruct (l_includeSTT l); [apply simok_fail|]. destruct (negb (l_dynamicSOT l)); [apply simok_fail|]. apply sim_mod; reflexivity.
  - unfold setFieldLikeTorqueDriver. apply sim_do; [reflexivity|reflexivity|]. intros _. apply sim_get; intros l. rotnorm. destruct (l_includeSTT l); [apply simok_fail|]. destruct (negb (l_dynamicSOT l)); [apply simok_fail|]. apply sim_mod; reflexivity.
  - unfold setMagnetisation. rewrite rot_length. destruct (Req_EM_T (vlength m) 0); [apply simok_fail|]. simgo. apply sim_mod; [|reflexivity]. intros l. rotnorm. reflexivity.
  - unfold setReferenceLayerType. apply sim_get; intros l. rotnorm. rewrite rot_length. destruct r; try (apply sim_mod; reflexivity). destruct (Req_EM_T (vlength (l_reference l)) 0); [apply simok_fail|apply sim_mod; reflexivity].
Qed.
Lemma rot_setter id f g : sim (fun u => u) f g -> forall ls ls' b, triples ls -> setter_loop id f ls = (ls', Ok b) -> setter_loop id g (map rotateL ls) = (map rotateL ls', Ok b) /\ triples ls'.
Proof.
  intros H. induction ls as [|l ls IH]; intros ls' b P E; cbn [setter_loop map] in *.
  - injection E as <- <-. auto.
  - inversion P as [|? ? P1 P2]; subst. cbn [rotateL l_id] in *. destruct (String.eqb (l_id l) id || String.eqb id "all").
    + destruct (f l) as [l1 [u|e]] eqn:F; [|discriminate]. destruct (H l l1 u P1 F) as [F2 P3]. change (LY _ _ _ _ _ _ _ _ _ _ _ _ _ _ _ _ _ _ _ _ _ _ _ _ _ _ _ _ _ _ _ _ _ _ _ _ _ _ _ _ _ _ _ _ _ _ _ _ _ _ _ _ _) with (rotateL l). rewrite F2. destruct (setter_loop id f ls) as [r [b'|e]] eqn:E2; [|discriminate]. injection E as <- <-. destruct (IH _ _ P2 eq_refl) as [-> P4]. split; [reflexivity|constructor; assumption].
    + destruct (setter_loop id f ls) as [r x] eqn:E2. injection E as <- ->. destruct (IH _ _ P2 eq_refl) as [-> P4]. split; [reflexivity|constructor; assumption].
Qed.
Lemma rot_every f g : sim (fun u => u) f g -> forall ls ls', triples ls -> on_every f ls = (ls', Ok tt) -> on_every g (map rotateL ls) = (map rotateL ls', Ok tt) /\ triples ls'.
Proof.
  intros H. induction ls as [|l ls IH]; intros ls' P E; cbn [on_every map] in *.
  - injection E as <-. auto.
  - inversion P as [|? ? P1 P2]; subst. destruct (f l) as [l1 [u|e]] eqn:F; [|discriminate]. destruct (H l l1 u P1 F) as [-> P3]. destruct (on_every f ls) as [r x] eqn:E2. injection E as <- ->. destruct (IH _ P2 eq_refl) as [-> P4]. split; [reflexivity|constructor; assumption].
Qed.
Lemma rot_first id f g : sim (fun u => u) f g -> forall ls ls', triples ls -> on_first id f ls = (ls', Ok tt) -> on_first id g (map rotateL ls) = (map rotateL ls', Ok tt) /\ triples ls'.
Proof.
  intros H. induction ls as [|l ls IH]; intros ls' P E; cbn [on_first map] in *; [discriminate|].
  inversion P as [|? ? P1 P2]; subst. change (l_id (rotateL l)) with (l_id l). destruct (String.eqb (l_id l) id).
  - destruct (f l) as [l1 x] eqn:F. injection E as <- ->. destruct (H l l1 tt P1 F) as [-> P3]. split; [reflexivity|constructor; assumption].
  - destruct (on_first id f ls) as [r x] eqn:E2. injection E as <- ->. destruct (IH _ P2 eq_refl) as [-> P4]. split; [reflexivity|constructor; assumption].
Qed.
Lemma couple_cons a b f1 f2 l u ls : coupling_loop a b f1 f2 (l :: u :: ls) = if String.eqb (l_id l) a && String.eqb (l_id u) b || String.eqb (l_id l) b && String.eqb (l_id u) a then
    match f1 l with (l', Err e) => (l' :: u :: ls, Err e) | (l', Ok _) => match f2 u with (u', Err e) => (l' :: u' :: ls, Err e) | (u', Ok _) => (l' :: u' :: ls, Ok true) end end
  else match coupling_loop a b f1 f2 (u :: ls) with (t, r) => (l :: t, r) end.
Proof. reflexivity. Qed.
Lemma rot_couple a b f1 f2 g1 g2 : sim (fun u => u) f1 g1 -> sim (fun u => u) f2 g2 -> forall ls ls' x, triples ls -> coupling_loop a b f1 f2 ls = (ls', Ok x) -> coupling_loop a b g1 g2 (map rotateL ls) = (map rotateL ls', Ok x) /\ triples ls'.
Proof.
  intros H1 H2. induction ls as [|l [|u ls] IH]; intros ls' x P E.
  - injection E as <- <-. auto.
  - injection E as <- <-. auto.
  - inversion P as [|? ? P1 P2]; subst. inversion P2 as [|? ? P3 P4]; subst. cbn [map]. rewrite couple_cons in *. change (l_id (rotateL l)) with (l_id l). change (l_id (rotateL u)) with (l_id u). destruct (String.eqb (l_id l) a && String.eqb (l_id u) b || String.eqb (l_id l) b && String.eqb (l_id u) a).
    + destruct (f1 l) as [l1 [y|e]] eqn:F; [|discriminate]. destruct (H1 l l1 y P1 F) as [-> P5]. destruct (f2 u) as [u1 [z|e]] eqn:G; [|discriminate]. destruct (H2 u u1 z P3 G) as [-> P6]. injection E as <- <-. split; [reflexivity|repeat constructor; assumption].
    + destruct (coupling_loop a b f1 f2 (u :: ls)) as [r y] eqn:E2. injection E as <- ->. destruct (IH _ _ P2 eq_refl) as [E3 P5]. cbn [map] in E3. rewrite E3. split; [reflexivity|constructor; assumption].
Qed.
Lemma jsim_setter id f g : sim (fun u => u) f g -> jsim (layerSetter id f) (layerSetter id g).
Proof.
  intros H j j1 j' a P F Q E. pose proof Q as (Q1 & _). unfold layerSetter in *. rewrite Q1. destruct (setter_loop id f (j_layers j)) as [ls [[|]|e]] eqn:E1; try discriminate. injection E as <- <-. destruct (rot_setter id f g H _ _ _ P E1) as [-> P2]. eexists. split; [reflexivity|]. split; [apply rotated_layers; [exact Q|reflexivity]|]. split; [exact P2|exact F].
Qed.
Lemma jsim_allfirst id f g : sim (fun u => u) f g -> jsim (allOrFirst id f) (allOrFirst id g).
Proof.
  intros H j j1 j' a P F Q E. pose proof Q as (Q1 & _). unfold allOrFirst in *. rewrite Q1. destruct a. destruct (String.eqb id "all").
  - destruct (on_every f (j_layers j)) as [ls x] eqn:E1. injection E as <- ->. destruct (rot_every f g H _ _ P E1) as [-> P2]. eexists. split; [reflexivity|]. split; [apply rotated_layers; [exact Q|reflexivity]|]. split; [exact P2|exact F].
  - destruct (on_first id f (j_layers j)) as [ls x] eqn:E1. injection E as <- ->. destruct (rot_first id f g H _ _ P E1) as [-> P2]. eexists. split; [reflexivity|]. split; [apply rotated_layers; [exact Q|reflexivity]|]. split; [exact P2|exact F].
Qed.
Lemma jsim_couple a b f1 f2 g1 g2 : sim (fun u => u) f1 g1 -> sim (fun u => u) f2 g2 -> jsim (setCouplingDriver a b f1 f2) (setCouplingDriver a b g1 g2).
Proof.
  intros H1 H2 j j1 j' u P F Q E. pose proof Q as (Q1 & _). unfold setCouplingDriver in *. rewrite Q1. destruct (coupling_loop a b f1 f2 (j_layers j)) as [ls [[|]|e]] eqn:E1; try discriminate. injection E as <- <-. destruct (rot_couple a b f1 f2 g1 g2 H1 H2 _ _ _ P E1) as [-> P2]. eexists. split; [reflexivity|]. split; [apply rotated_layers; [exact Q|reflexivity]|]. split; [exact P2|exact F].
Qed.
Lemma jsim_set id s : jsim (junction_set id s) (junction_set id (rotate_setting s)).
Proof. destruct s; cbn [rotate_setting junction_set]; first [apply jsim_setter|apply jsim_allfirst]; match goal with |- simok _ _ _ ?m _ => idtac end; [apply (sim_member (STemperature d))|apply (sim_member (SNonStochasticTemperature d))|apply (sim_member (SAnisotropy d))|apply (sim_member (SExternalField d))|apply (sim_member (SOersted d))|apply (sim_member (SCurrent d))|apply (sim_member (SDampingLike d))|apply (sim_member (SFieldLike d))|apply (sim_member (SReserved d))|apply (sim_member (SHdmi d))|apply (sim_member (SMagnetisation m))|apply (sim_member (SAlternativeSTT b))|apply (sim_member (SOneF sources bias scale))|apply (sim_member (SReferenceVec r))|apply (sim_member (SReferenceType r))]. Qed.
Lemma jsim_call a : jsim (call a) (call (rotate_call a)).
Proof.
  destruct a as [T dt wf mode| |id s|x y [d|d|d]]; cbn [rotate_call call junction_couple].
  - apply jsim_run.
  - intros j j1 j' u P F Q E. injection E as <- <-. destruct Q as (Q1 & Q2 & Q3 & Q4 & Q5 & Q6 & Q7). eexists. split; [reflexivity|]. split; [|split; [exact P|exact F]]. unfold rotated. cbn. repeat (split; [assumption|]). split; [intros k; reflexivity|]. repeat split; assumption.
  - apply jsim_set.
  - apply jsim_couple; apply sim_mod; reflexivity.
  - apply jsim_couple; apply sim_mod; reflexivity.
  - apply jsim_couple; apply sim_mod; reflexivity.
Qed.
Lemma calls_forward : forall calls j j1 j', triples (j_layers j) -> axis_free j -> rotated j j1 -> succeeds calls j j' ->
  exists j1', succeeds (map rotate_call calls) j1 j1' /\ rotated j' j1' /\ triples (j_layers j') /\ axis_free j'.
Proof.
  induction calls as [|a calls IH]; intros j j1 j' P F Q E; cbn [succeeds map] in *.
  - subst j'. exists j1. auto.
  - destruct E as (s & E1 & E2). destruct (jsim_call a _ _ _ _ P F Q E1) as (s1 & E3 & Q2 & P2 & F2). destruct (IH _ _ _ P2 F2 Q2 E2) as (t & E4 & G). exists t. split; [exists s1; auto|exact G].
Qed.

(** ** Three relabellings *)
Lemma stream_thrice f k : rotate_stream (rotate_stream (rotate_stream f)) k = f k.
Proof.
  assert (M : exists q, k = (3 * q)%nat \/ k = S (3 * q) \/ k = S (S (3 * q))). { exists (k / 3)%nat. pose proof (Nat.div_mod k 3). pose proof (Nat.mod_upper_bound k 3). lia. }
  destruct M as [q M]. assert (Q : (3 * q mod 3 = 0)%nat) by (rewrite Nat.mul_comm; apply Nat.mod_mul; lia). assert (G : forall g, rotate_stream g (3 * q) = g (S (S (3 * q))) /\ rotate_stream g (S (3 * q)) = g (3 * q)%nat /\ rotate_stream g (S (S (3 * q))) = g (S (3 * q))) by (intros g; apply stream0; exact Q).
  destruct (G f) as (A1 & A2 & A3). destruct (G (rotate_stream f)) as (B1 & B2 & B3). destruct (G (rotate_stream (rotate_stream f))) as (C1 & C2 & C3). destruct M as [-> | [-> | ->]]; congruence.
Qed.
Lemma tensor_thrice t : rotateT (rotateT (rotateT t)) = t. Proof. destruct t as [[] [] []]. reflexivity. Qed.
Lemma axial_thrice d : rotateA (rotateA (rotateA d)) = d. Proof. destruct d. reflexivity. Qed.
Lemma axis_thrice a : rotate_axis (rotate_axis (rotate_axis a)) = a. Proof. destruct a; reflexivity. Qed.
Lemma noise_thrice n : rotateN (rotateN (rotateN n)) = n.
Proof. destruct n as [a s f p]. unfold rotateN. cbn [vn_axis vn_scale vn_raw vn_pos]. rewrite axis_thrice. f_equal. apply functional_extensionality. intros k. apply rot_thrice. Qed.
Lemma cache_thrice c : rotateC (rotateC (rotateC c)) = c.
Proof. unfold rotateC. cbn [c_H_log c_Hoe_log c_Hext c_Hdipole c_Hdemag c_Hoe c_HAnis c_Hfluctuation c_Hdmi c_Hidmi c_Hfl_v c_Hdl_v c_HIEC c_Jbottom_log c_Jtop_log c_J2bottom_log c_J2top_log c_K_log c_I_log]. rewrite !rot_thrice. destruct c. reflexivity. Qed.
Lemma layer_thrice l : rotateL (rotateL (rotateL l)) = l.
Proof.
  unfold rotateL. cbn [l_id l_mag l_anis l_Ms l_thickness l_cellVolume l_cellSurface l_demag l_dipoleBottom l_dipoleTop l_damping l_fieldLikeTorque l_dampingLikeTorque l_slon l_beta l_kappa l_spinPol l_includeSTT l_includeSOT l_dynamicSOT l_alternativeSTT l_temperatureSet l_nonStochTemp l_nonStochOneF l_pinkNoiseSet l_reference l_refType l_temperature l_IECTop l_IECBottom l_QuadTop l_QuadBottom l_current l_anisotropy l_flDriver l_dlDriver l_IDMITop l_IDMIBottom l_Hreserved l_external l_Oersted l_Hdmi l_nAlpha l_nScale l_nStd l_nAxis l_ofn l_bfn l_nsrc l_ngen l_rng l_rpos l_cache].
  rewrite !rot_thrice, !tensor_thrice, !axial_thrice, axis_thrice, cache_thrice.
  replace (option_map rotateN (option_map rotateN (option_map rotateN (l_bfn l)))) with (l_bfn l) by (destruct (l_bfn l) as [n|]; cbn [option_map]; [rewrite noise_thrice|]; reflexivity).
  replace (fun n k => rotate (rotate (rotate (l_nsrc l n k)))) with (l_nsrc l) by (apply functional_extensionality; intros n; apply functional_extensionality; intros k; symmetry; apply rot_thrice).
  replace (rotate_stream (rotate_stream (rotate_stream (l_rng l)))) with (l_rng l) by (apply functional_extensionality; intros k; symmetry; apply stream_thrice).
  destruct l. reflexivity.
Qed.
Lemma letter_thrice a : next_letter (next_letter (next_letter a)) = a.
Proof. unfold next_letter. destruct (Ascii.eqb_spec a "x"%char) as [->|]; [reflexivity|]. destruct (Ascii.eqb_spec a "y"%char) as [->|]; [reflexivity|]. destruct (Ascii.eqb_spec a "z"%char) as [->|]; [reflexivity|]. rewrite (proj2 (Ascii.eqb_neq a "x"%char)), (proj2 (Ascii.eqb_neq a "y"%char)), (proj2 (Ascii.eqb_neq a "z"%char)) by assumption. rewrite (proj2 (Ascii.eqb_neq a "x"%char)), (proj2 (Ascii.eqb_neq a "y"%char)), (proj2 (Ascii.eqb_neq a "z"%char)) by assumption. reflexivity. Qed.
Lemma key_cons a b r : rotate_key (String.String a (String.String b r)) = String.String a (rotate_key (String.String b r)).
Proof. reflexivity. Qed.
Lemma key_some b r : exists b' r', rotate_key (String.String b r) = String.String b' r'.
Proof. destruct r; cbn; eauto. Qed.
Lemma key_thrice : forall k, rotate_key (rotate_key (rotate_key k)) = k.
Proof.
  induction k as [|a [|b r] IH]; [reflexivity|cbn; rewrite letter_thrice; reflexivity|]. rewrite key_cons. destruct (key_some b r) as (b1 & r1 & E1). rewrite E1 in *. rewrite key_cons. destruct (key_some b1 r1) as (b2 & r2 & E2). rewrite E2 in *. rewrite key_cons. rewrite IH. reflexivity.
Qed.
Lemma call_thrice a : rotate_call (rotate_call (rotate_call a)) = a.
Proof. destruct a as [T dt wf mode| |id s|x y [d|d|d]]; cbn [rotate_call]; try reflexivity; [|rewrite axial_thrice; reflexivity]. destruct s; cbn [rotate_setting]; rewrite ?axial_thrice, ?rot_thrice; reflexivity. Qed.
Lemma calls_thrice calls : map rotate_call (map rotate_call (map rotate_call calls)) = calls.
Proof. rewrite !map_map. rewrite <- (map_id calls) at 2. apply map_ext. exact call_thrice. Qed.
(** A relabelled junction exists. *)
Definition rotateJ (j : junction) : junction := set_j_log (map (fun c => (rotate_key (fst c), snd c)) (j_log j)) (j_logLength j) (set_j_layers (map rotateL (j_layers j)) j).
Lemma rotateJ_rotated j : rotated j (rotateJ j).
Proof.
  unfold rotated, rotateJ. cbn [set_j_log set_j_layers j_layers j_log j_logLength j_mode j_Rp j_Rap j_Rtag]. repeat (split; [reflexivity|]). split; [|repeat split; reflexivity]. intros k. induction (j_log j) as [|[q c] g IH]; cbn [map log_get fst snd]; [reflexivity|]. rewrite IH.
  destruct (String.eqb_spec (rotate_key q) (rotate_key k)) as [E|N]; [apply key_inj in E; subst; rewrite String.eqb_refl; reflexivity|]. destruct (String.eqb_spec q k); [subst; contradiction|reflexivity].
Qed.
Lemma rotated_thrice j j1 j2 : rotated j j1 -> rotated j1 j2 -> rotated j2 j.
Proof.
  intros (A1 & A2 & A3 & A4 & A5 & A6 & A7) (B1 & B2 & B3 & B4 & B5 & B6 & B7). unfold rotated. repeat split; try congruence.
  - rewrite B1, A1, !map_map. rewrite <- (map_id (j_layers j)) at 1. apply map_ext. intros l. symmetry. apply layer_thrice.
  - intros k. rewrite <- (key_thrice k). rewrite B2, A2. rewrite key_thrice. reflexivity.
Qed.
Lemma rotated_triples j j1 : rotated j j1 -> triples (j_layers j) -> triples (j_layers j1).
Proof. intros (-> & _) P. apply Forall_map. exact P. Qed.
Lemma rotated_free j j1 : rotated j j1 -> axis_free j -> axis_free j1.
Proof. intros (_ & _ & _ & M & _ & _ & T) [F1 F2]. split; congruence. Qed.
Lemma succeeds_unique : forall calls j j1 j2, succeeds calls j j1 -> succeeds calls j j2 -> j1 = j2.
Proof. induction calls as [|a calls IH]; cbn; intros j j1 j2 H K; [congruence|]. destruct H as (s & E1 & H), K as (s' & E2 & K). rewrite E1 in E2. injection E2 as <-. exact (IH _ _ _ H K). Qed.
Lemma calls_backward calls j j1 j1' : triples (j_layers j) -> axis_free j -> rotated j j1 -> succeeds (map rotate_call calls) j1 j1' -> exists j', succeeds calls j j' /\ rotated j' j1'.
Proof.
  intros P F Q E. pose proof (rotated_triples _ _ Q P) as P1. pose proof (rotated_free _ _ Q F) as F1.
  destruct (calls_forward _ _ _ _ P1 F1 (rotateJ_rotated j1) E) as (j2' & E2 & Q2 & P2' & F2'). pose proof (rotated_triples _ _ (rotateJ_rotated j1) P1) as P2. pose proof (rotated_free _ _ (rotateJ_rotated j1) F1) as F2. pose proof (rotated_thrice _ _ _ Q (rotateJ_rotated j1)) as Q3.
  destruct (calls_forward _ _ _ _ P2 F2 Q3 E2) as (j' & E3 & Q4 & _). rewrite calls_thrice in E3. exists j'. split; [exact E3|]. destruct (calls_forward _ _ _ _ P F Q E3) as (j1'' & E4 & Q5 & _). rewrite (succeeds_unique _ _ _ _ E E4). exact Q5.
Qed.
Lemma run_both T dt wf e mode j j1 : triples (j_layers j) -> axis_free j -> rotated j j1 ->
  (forall j', runSimulation T dt wf e mode j = (j', Ok tt) -> exists j1', runSimulation T dt wf e mode j1 = (j1', Ok tt) /\ rotated j' j1') /\
  (forall j1', runSimulation T dt wf e mode j1 = (j1', Ok tt) -> exists j', runSimulation T dt wf e mode j = (j', Ok tt) /\ rotated j' j1').
Proof.
  intros P F Q. pose proof (jsim_run T dt wf e mode) as J. split.
  - intros j' E. destruct (J _ _ _ _ P F Q E) as (j1' & E1 & Q1 & _). eauto.
  - intros j1' E. pose proof (rotated_triples _ _ Q P) as P1. pose proof (rotated_free _ _ Q F) as F1. pose proof (rotateJ_rotated j1) as R1. pose proof (rotated_thrice _ _ _ Q R1) as Q3.
    destruct (J _ _ _ _ P1 F1 R1 E) as (j2' & E2 & _). destruct (J _ _ _ _ (rotated_triples _ _ R1 P1) (rotated_free _ _ R1 F1) Q3 E2) as (j' & E3 & _). exists j'. split; [exact E3|]. destruct (J _ _ _ _ P F Q E3) as (j1'' & E4 & Q5 & _). rewrite E in E4. injection E4 as <-. exact Q5.
Qed.
