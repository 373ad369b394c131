(** Proofs about simulations carried on by a second call (C104). *)
From Verif Require Import P_Alone P_RunProps P_Reach.
From Verif Require Export P_Alone S_Continue.
Open Scope R_scope.
Open Scope st_scope.

Lemma unchanging_static l l' : static l l' -> unchanging l -> unchanging l'.
Proof. intros (m & c & rp & bf & ->) H. exact H. Qed.
(** Two computations that agree on all layers with constant drivers. *)
Definition timeless {A} (m n : ST layer A) : Prop := forall l, unchanging l -> m l = n l.
Lemma tl_refl {A} (m : ST layer A) : timeless m m. Proof. intros l _. reflexivity. Qed.
Lemma tl_bind {A B} (m n : ST layer A) (f g : A -> ST layer B) :
  P_Monad.keeps static m -> timeless m n -> (forall a, timeless (f a) (g a)) -> timeless (bind m f) (bind n g).
Proof.
  intros K H1 H2 l Hl. unfold bind. rewrite <- (H1 l Hl). specialize (K l). destruct (m l) as [l1 [a|e]]; [|reflexivity].
  apply H2. exact (unchanging_static _ _ K Hl).
Qed.
Lemma tl_get {B} (f g : layer -> ST layer B) : (forall l, unchanging l -> timeless (f l) (g l)) -> timeless (bind get f) (bind get g).
Proof. intros H l Hl. exact (H l Hl l Hl). Qed.
Lemma tl_if {A} (c : bool) (m n p q : ST layer A) : timeless m p -> timeless n q -> timeless (if c then m else n) (if c then p else q).
Proof. destruct c; auto. Qed.
Ltac steady := match goal with H : unchanging ?l |- _ => let U := fresh in pose proof H as U; unfold unchanging, constant_axial, constant_scalar in U; decompose [and] U; clear U end.
Ltac tl := first
  [ apply tl_refl
  | apply tl_get; intros ? ?; cbv zeta
  | apply tl_bind; [repeat kstep| |intros ?]
  | apply tl_if
  | progress cbv zeta
  | steady; match goal with E : (forall t, _ t = _) |- timeless (lift (_ ?d ?t)) _ => rewrite (E t); apply tl_refl end ].
Lemma tl_ext t : timeless (calculateExternalField t) (calculateExternalField 0).
Proof. unfold calculateExternalField. repeat tl. Qed.
Lemma tl_oe t : timeless (calculateHOeField t) (calculateHOeField 0).
Proof. unfold calculateHOeField. repeat tl. Qed.
Lemma tl_dmi t : timeless (calculateHdmiField t) (calculateHdmiField 0).
Proof. unfold calculateHdmiField. repeat tl. Qed.
Lemma tl_anis m t : timeless (calculateAnisotropy m t) (calculateAnisotropy m 0).
Proof. unfold calculateAnisotropy. repeat tl. Qed.
Lemma tl_iec t m b top : timeless (calculateIEC t m b top) (calculateIEC 0 m b top).
Proof. unfold calculateIEC. repeat tl. Qed.
Lemma tl_idmi t m b top : timeless (calculateIDMI t m b top) (calculateIDMI 0 m b top).
Proof. unfold calculateIDMI. repeat tl. Qed.
Lemma tl_reserved l t : unchanging l -> timeless (lift (getCurrentAxialDrivers (l_Hreserved l) t)) (lift (getCurrentAxialDrivers (l_Hreserved l) 0)).
Proof. intros (_ & _ & _ & H & _). rewrite (H t). apply tl_refl. Qed.
Lemma keeps_upd f : P_Monad.keeps static (modify (upd_cache f)).
Proof. repeat kstep. Qed.
Lemma keeps_ext t : P_Monad.keeps static (calculateExternalField t). Proof. ks. Qed.
Lemma keeps_oe t : P_Monad.keeps static (calculateHOeField t). Proof. ks. Qed.
Lemma keeps_dmi t : P_Monad.keeps static (calculateHdmiField t). Proof. ks. Qed.
Lemma keeps_anis m t : P_Monad.keeps static (calculateAnisotropy m t). Proof. ks. Qed.
Lemma keeps_iec t m b top : P_Monad.keeps static (calculateIEC t m b top). Proof. ks. Qed.
Lemma keeps_idmi t m b top : P_Monad.keeps static (calculateIDMI t m b top). Proof. ks. Qed.
Lemma tl_inj t dt m b top d w : timeless (calculateHeffDipoleInjection t dt m b top d w) (calculateHeffDipoleInjection 0 dt m b top d w).
Proof.
  unfold calculateHeffDipoleInjection.
  apply tl_bind; [apply keeps_ext|apply tl_ext|intros h1]. apply tl_bind; [apply keeps_upd|apply tl_refl|intros _].
  apply tl_bind; [apply keeps_oe|apply tl_oe|intros h2]. apply tl_bind; [apply keeps_upd|apply tl_refl|intros _].
  apply tl_get. intros l Hl. cbv zeta. apply tl_bind; [apply keeps_upd|apply tl_refl|intros _].
  apply tl_bind; [apply keeps_iec|apply tl_iec|intros h3]. apply tl_bind; [apply keeps_upd|apply tl_refl|intros _].
  apply tl_bind; [apply keeps_idmi|apply tl_idmi|intros h4]. apply tl_bind; [apply keeps_upd|apply tl_refl|intros _].
  apply tl_bind; [apply keeps_anis|apply tl_anis|intros h5]. apply tl_bind; [apply keeps_upd|apply tl_refl|intros _].
  apply tl_bind; [apply keeps_dmi|apply tl_dmi|intros h6]. apply tl_bind; [apply keeps_upd|apply tl_refl|intros _].
  apply tl_bind; [kstep|apply tl_reserved; exact Hl|intros h7]. apply tl_refl.
Qed.
Lemma tl_heff t dt m b top w : timeless (calculateHeff t dt m b top w) (calculateHeff 0 dt m b top w).
Proof. unfold calculateHeff. apply tl_get; intros l Hl; cbv zeta. apply tl_bind; [apply keeps_upd|apply tl_refl|intros _]. apply tl_inj. Qed.
Lemma tl_solve t m dt b top h : timeless (solveLLG t m dt b top h) (solveLLG 0 m dt b top h).
Proof.
  intros l Hl. destruct Hl as (_ & _ & _ & _ & _ & _ & _ & _ & _ & _ & _ & _ & H1 & H2 & H3). unfold solveLLG. rewrite !bind_get. cbv zeta. rewrite (H1 t), (H2 t), (H3 t). reflexivity.
Qed.
Lemma tl_llg0 t m b top dt : timeless (calculateLLGWithFieldTorque t m b top dt) (calculateLLGWithFieldTorque 0 m b top dt).
Proof. unfold calculateLLGWithFieldTorque. apply tl_bind; [apply P_Step.keeps_heff|apply tl_heff|]. intros h. apply tl_solve. Qed.
Lemma tl_llg t t' m b top dt : timeless (calculateLLGWithFieldTorque t m b top dt) (calculateLLGWithFieldTorque t' m b top dt).
Proof. intros l Hl. rewrite (tl_llg0 t m b top dt l Hl), (tl_llg0 t' m b top dt l Hl). reflexivity. Qed.
Lemma tl_noise t t' dt : timeless (drawNoise t dt) (drawNoise t' dt).
Proof.
  unfold drawNoise. apply tl_bind; [apply P_Step.keeps_langevin| |intros a; apply tl_refl]. unfold getStochasticLangevinVector. apply tl_get. intros l Hl.
  apply tl_if; [apply tl_refl|]. apply tl_bind; [kstep| |intros s; apply tl_refl].
  unfold getLangevinStochasticStandardDeviation. steady. match goal with E : forall t, getCurrentScalarValue (l_temperature l) t = _ |- _ => rewrite (E t), (E t') end. apply tl_refl.
Qed.
Lemma tl_rk4 t t' dt b top : timeless (rk4_step t dt b top) (rk4_step t' dt b top).
Proof.
  unfold rk4_step, rk4_generic.
  repeat first [apply tl_llg | apply tl_refl | apply tl_get; intros ? ?; cbv zeta | apply tl_bind; [first [apply P_Step.keeps_llg | repeat kstep]| |intros ?] | progress cbv zeta].
Qed.
Lemma tl_eh t t' dt b top : timeless (eulerHeun_layer t dt b top) (eulerHeun_layer t' dt b top).
Proof.
  unfold eulerHeun_layer.
  repeat first [apply tl_llg | apply tl_noise | apply tl_refl | apply tl_bind; [first [apply P_Step.keeps_llg | apply P_Step.keeps_noise | repeat kstep]| |intros ?] | progress cbv zeta].
Qed.
Lemma tl_h1 t t' dt b top : timeless (heun_layer1 t dt b top) (heun_layer1 t' dt b top).
Proof.
  unfold heun_layer1.
  repeat first [apply tl_llg | apply tl_noise | apply tl_refl | apply tl_bind; [first [apply P_Step.keeps_llg | apply P_Step.keeps_noise | repeat kstep]| |intros ?] | progress cbv zeta].
Qed.
Lemma tl_h2 t t' dt h b top : timeless (heun_layer2 t dt h b top) (heun_layer2 t' dt h b top).
Proof.
  unfold heun_layer2.
  repeat first [apply tl_llg | apply tl_refl | apply tl_bind; [first [apply P_Step.keeps_llg | repeat kstep]| |intros ?] | progress cbv zeta].
Qed.

(** ** Steps of the junction *)
Definition all_unchanging (ls : list layer) : Prop := forall l, In l ls -> unchanging l.
Lemma multi_timeless t t' dt cs ls : all_unchanging ls -> multi_loop (rk4_step t dt) cs ls = multi_loop (rk4_step t' dt) cs ls.
Proof.
  revert cs. induction ls as [|l ls IH]; intros cs H; [destruct cs; reflexivity|]. destruct cs as [|b [|y [|top cs]]]; try reflexivity. rewrite !multi_loop_cons.
  rewrite (tl_rk4 t t' dt b top l (H l (or_introl eq_refl))). destruct (rk4_step t' dt b top l) as [l' [u|e]]; [|reflexivity].
  rewrite IH by (intros k Hk; apply H; right; exact Hk). reflexivity.
Qed.
Lemma gpass_timeless {A} (f g : cvec -> cvec -> ST layer A) ls : (forall b top, timeless (f b top) (g b top)) -> all_unchanging ls -> forall b, gpass f b ls = gpass g b ls.
Proof.
  intros HF. induction ls as [|l ls IH]; intros H b; [reflexivity|]. cbn [gpass]. cbv zeta. rewrite (HF _ _ l (H l (or_introl eq_refl))).
  destruct (g b _ l) as [l' [u|e]]; [|reflexivity]. rewrite IH by (intros k Hk; apply H; right; exact Hk). reflexivity.
Qed.
Lemma gpass_static {A} (f : cvec -> cvec -> ST layer A) : (forall b top, P_Monad.keeps static (f b top)) -> forall ls b l', In l' (fst (gpass f b ls)) -> exists l, In l ls /\ static l l'.
Proof.
  intros K. induction ls as [|l ls IH]; intros b k Hk; [contradiction|]. cbn [gpass] in Hk. cbv zeta in Hk.
  pose proof (K b (match ls with [] => vnull | r :: _ => l_mag r end) l) as KK. destruct (f b _ l) as [l' [u|e]]; cbn [fst] in *.
  - specialize (IH (l_mag l') k). destruct (gpass f (l_mag l') ls) as [ls' [v|e]]; cbn [fst] in *; (destruct Hk as [<-|Hk]; [exists l; split; [left; reflexivity|exact KK]|]);
      destruct (IH Hk) as (x & Hx & Sx); exists x; (split; [right; exact Hx|exact Sx]).
  - destruct Hk as [<-|Hk]; [exists l; split; [left; reflexivity|exact KK]|]. exists k. split; [right; exact Hk|apply static_refl].
Qed.
Lemma pass2_timeless t t' dt ls : all_unchanging ls -> forall b hs, heun_pass2 t dt b hs ls = heun_pass2 t' dt b hs ls.
Proof.
  induction ls as [|l ls IH]; intros H b hs; [destruct hs; reflexivity|]. destruct hs as [|h hs]; [reflexivity|]. cbn [heun_pass2]. cbv zeta.
  rewrite (tl_h2 t t' dt h _ _ l (H l (or_introl eq_refl))). destruct (heun_layer2 t' dt h b _ l) as [l' [u|e]]; [|reflexivity].
  rewrite IH by (intros k Hk; apply H; right; exact Hk). reflexivity.
Qed.
Lemma keeps_h1 t dt b top : P_Monad.keeps static (heun_layer1 t dt b top).
Proof. unfold heun_layer1. repeat first [apply P_Step.keeps_llg | apply P_Step.keeps_noise | kstep]. Qed.
Lemma step_timeless r t t' dt j : all_unchanging (j_layers j) -> run_runner r t dt j = run_runner r t' dt j.
Proof.
  intros H. destruct r; cbn [run_runner].
  - unfold runSingleLayerSolver. destruct (j_layers j) as [|l rest] eqn:E; [reflexivity|]. rewrite (tl_rk4 t t' dt vnull vnull l (H l (or_introl eq_refl))). reflexivity.
  - unfold runMultiLayerSolver. rewrite (multi_timeless t t' dt _ _ H). reflexivity.
  - unfold heunSolverStep. rewrite !heun1_gpass, (gpass_timeless _ _ _ (fun b top => tl_h1 t t' dt b top) H).
    pose proof (gpass_static _ (keeps_h1 t' dt) (j_layers j) vnull) as G. destruct (gpass (heun_layer1 t' dt) vnull (j_layers j)) as [ls [hs|e]]; [|reflexivity]. cbn [fst] in G.
    rewrite (pass2_timeless t t' dt ls); [reflexivity|]. intros l Hl. destruct (G l Hl) as (x & Hx & S). exact (unchanging_static _ _ S (H x Hx)).
  - unfold eulerHeunSolverStep. rewrite !eh_gpass, (gpass_timeless _ _ _ (fun b top => tl_eh t t' dt b top) H). reflexivity.
Qed.
