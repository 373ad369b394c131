(** Setters by id, couplings, and the log over arbitrary call histories. *)
From Verif Require Export S_Api P_Keys.
Open Scope R_scope.
Open Scope st_scope.

Lemma layer_ext l l' : (forall f, same_field f l l') -> l' = l.
Proof.
  intros H.
  pose proof (H F_id) as H_id.
  pose proof (H F_mag) as H_mag.
  pose proof (H F_anis) as H_anis.
  pose proof (H F_Ms) as H_Ms.
  pose proof (H F_thickness) as H_thickness.
  pose proof (H F_cellVolume) as H_cellVolume.
  pose proof (H F_cellSurface) as H_cellSurface.
  pose proof (H F_demag) as H_demag.
  pose proof (H F_dipoleBottom) as H_dipoleBottom.
  pose proof (H F_dipoleTop) as H_dipoleTop.
  pose proof (H F_damping) as H_damping.
  pose proof (H F_fieldLikeTorque) as H_fieldLikeTorque.
  pose proof (H F_dampingLikeTorque) as H_dampingLikeTorque.
  pose proof (H F_slon) as H_slon.
  pose proof (H F_beta) as H_beta.
  pose proof (H F_kappa) as H_kappa.
  pose proof (H F_spinPol) as H_spinPol.
  pose proof (H F_includeSTT) as H_includeSTT.
  pose proof (H F_includeSOT) as H_includeSOT.
  pose proof (H F_dynamicSOT) as H_dynamicSOT.
  pose proof (H F_alternativeSTT) as H_alternativeSTT.
  pose proof (H F_temperatureSet) as H_temperatureSet.
  pose proof (H F_nonStochTemp) as H_nonStochTemp.
  pose proof (H F_nonStochOneF) as H_nonStochOneF.
  pose proof (H F_pinkNoiseSet) as H_pinkNoiseSet.
  pose proof (H F_reference) as H_reference.
  pose proof (H F_refType) as H_refType.
  pose proof (H F_temperature) as H_temperature.
  pose proof (H F_IECTop) as H_IECTop.
  pose proof (H F_IECBottom) as H_IECBottom.
  pose proof (H F_QuadTop) as H_QuadTop.
  pose proof (H F_QuadBottom) as H_QuadBottom.
  pose proof (H F_current) as H_current.
  pose proof (H F_anisotropy) as H_anisotropy.
  pose proof (H F_flDriver) as H_flDriver.
  pose proof (H F_dlDriver) as H_dlDriver.
  pose proof (H F_IDMITop) as H_IDMITop.
  pose proof (H F_IDMIBottom) as H_IDMIBottom.
  pose proof (H F_Hreserved) as H_Hreserved.
  pose proof (H F_external) as H_external.
  pose proof (H F_Oersted) as H_Oersted.
  pose proof (H F_Hdmi) as H_Hdmi.
  pose proof (H F_nAlpha) as H_nAlpha.
  pose proof (H F_nScale) as H_nScale.
  pose proof (H F_nStd) as H_nStd.
  pose proof (H F_nAxis) as H_nAxis.
  pose proof (H F_ofn) as H_ofn.
  pose proof (H F_bfn) as H_bfn.
  pose proof (H F_nsrc) as H_nsrc.
  pose proof (H F_ngen) as H_ngen.
  pose proof (H F_rng) as H_rng.
  pose proof (H F_rpos) as H_rpos.
  pose proof (H F_cache) as H_cache.
  clear H. destruct l, l'. cbn [same_field] in *. cbn in *. subst. reflexivity.
Qed.
Ltac not_in := cbn [In]; intuition discriminate.
Ltac frame := let f := fresh "f" in intros f; destruct f; cbn; let H := fresh in intros H; try reflexivity; exfalso; apply H; tauto.
Lemma effect_det s l a b : accepts s l -> effect s l a -> effect s l b -> a = b.
Proof.
  intros _ Ha Hb. apply layer_ext. intros f.
  destruct s; cbn [effect] in Ha, Hb;
  repeat match goal with H : _ /\ _ |- _ => destruct H end;
  match goal with A : same_except _ l a, B : same_except _ l b |- _ =>
    specialize (A f); specialize (B f); destruct f; cbn [same_field] in A, B |- *; first [congruence | rewrite A by not_in; rewrite B by not_in; reflexivity] end.
Qed.
Lemma member_sound s l l' r : member s l = (l', Ok r) -> accepts s l /\ effect s l l'.
Proof.
  destruct s; cbn [member accepts effect].
  1-6: intros E; injection E as <- _; split; [exact I|]; repeat (split; [reflexivity|]); frame.
  - unfold setDampingLikeTorqueDriver, bind, modify, get, fail. cbn [l_includeSTT l_dynamicSOT set_l_includeSOT].
    destruct (l_includeSTT l); [discriminate|]. destruct (l_dynamicSOT l); cbn [negb]; [|discriminate].
    intros E; injection E as <- _. split; [split; reflexivity|]. repeat (split; [reflexivity|]); frame.
  - unfold setFieldLikeTorqueDriver, bind, modify, get, fail. cbn [l_includeSTT l_dynamicSOT set_l_includeSOT].
    destruct (l_includeSTT l); [discriminate|]. destruct (l_dynamicSOT l); cbn [negb]; [|discriminate].
    intros E; injection E as <- _. split; [split; reflexivity|]. repeat (split; [reflexivity|]); frame.
  - intros E; injection E as <- _; split; [exact I|]; repeat (split; [reflexivity|]); frame.
  - intros E; injection E as <- _; split; [exact I|]; repeat (split; [reflexivity|]); frame.
  - unfold setMagnetisation, bind, modify, fail. rewrite vlength_Norm. destruct (Req_EM_T (Norm m) 0) as [E|HN]; [discriminate|].
    intros E. assert (HZ : m <> Zero) by (intros X; apply HN, Norm_zero_iff, X).
    apply (f_equal fst) in E. cbn [fst] in E. subst l'. split; [exact HZ|].
    split; [change (vnormalize m = Scal (/ Norm m) m); apply vnormalize_nonzero; exact HZ|frame].
  - intros E; injection E as <- _; split; [exact I|]; repeat (split; [reflexivity|]); frame.
  - intros E; injection E as <- _; split; [exact I|]; repeat (split; [reflexivity|]); frame.
  - intros E; injection E as <- _; split; [exact I|]; repeat (split; [reflexivity|]); frame.
  - unfold setReferenceLayerType, bind, get, modify, fail. destruct r0; try rewrite vlength_Norm; try (destruct (Req_EM_T (Norm (l_reference l)) 0) as [E|HN]; [discriminate|]);
    intros E; injection E as <- _; (split; [try exact I|split; [reflexivity|frame]]).
    intros X; apply HN, Norm_zero_iff, X.
Qed.
Lemma member_total s l : accepts s l -> exists l', member s l = (l', Ok tt).
Proof.
  destruct s; cbn [member accepts]; try (intros _; eexists; reflexivity).
  - intros [H1 H2]. unfold setDampingLikeTorqueDriver, bind, modify, get, fail. cbn [l_includeSTT l_dynamicSOT set_l_includeSOT].
    rewrite H1, H2. eexists; reflexivity.
  - intros [H1 H2]. unfold setFieldLikeTorqueDriver, bind, modify, get, fail. cbn [l_includeSTT l_dynamicSOT set_l_includeSOT].
    rewrite H1, H2. eexists; reflexivity.
  - intros H. unfold setMagnetisation, bind, modify, fail. rewrite vlength_Norm.
    destruct (Req_EM_T (Norm m) 0) as [E|HN]; [exfalso; apply H, Norm_zero_iff, E|]. eexists; reflexivity.
  - unfold setReferenceLayerType, bind, get, modify, fail. destruct r; intros H; try (eexists; reflexivity).
    rewrite vlength_Norm. destruct (Req_EM_T (Norm (l_reference l)) 0) as [E|HN]; [exfalso; apply H, Norm_zero_iff, E|]. eexists; reflexivity.
Qed.
Lemma member_iff s l l' : member s l = (l', Ok tt) <-> accepts s l /\ effect s l l'.
Proof.
  split; [apply member_sound|]. intros [HA HE]. destruct (member_total s l HA) as [l1 E].
  destruct (member_sound _ _ _ _ E) as [_ HE1]. rewrite (effect_det s l l' l1 HA HE HE1). exact E.
Qed.
Lemma member_err s l l' e : member s l = (l', Err e) -> ~ accepts s l /\ refused_effect s l l' /\ exists msg, e = Throw msg.
Proof.
  destruct s; cbn [member accepts refused_effect]; try discriminate.
  - unfold setDampingLikeTorqueDriver, bind, modify, get, fail. cbn [l_includeSTT l_dynamicSOT set_l_includeSOT].
    destruct (l_includeSTT l) eqn:E1; [|destruct (l_dynamicSOT l) eqn:E2; cbn [negb]; [discriminate|]];
    intros E; injection E as <- <-; (split; [intros [? ?]; congruence|]); (split; [split; [reflexivity|frame]|eauto]).
  - unfold setFieldLikeTorqueDriver, bind, modify, get, fail. cbn [l_includeSTT l_dynamicSOT set_l_includeSOT].
    destruct (l_includeSTT l) eqn:E1; [|destruct (l_dynamicSOT l) eqn:E2; cbn [negb]; [discriminate|]];
    intros E; injection E as <- <-; (split; [intros [? ?]; congruence|]); (split; [split; [reflexivity|frame]|eauto]).
  - unfold setMagnetisation, bind, modify, fail. rewrite vlength_Norm. destruct (Req_EM_T (Norm m) 0) as [E|HN]; [|discriminate].
    intros X; injection X as <- <-. split; [intros H; apply H, Norm_zero_iff, E|]. split; [reflexivity|eauto].
  - unfold setReferenceLayerType, bind, get, modify, fail. destruct r; try discriminate.
    rewrite vlength_Norm. destruct (Req_EM_T (Norm (l_reference l)) 0) as [E|HN]; [|discriminate].
    intros X; injection X as <- <-. split; [intros H; apply H, Norm_zero_iff, E|]. split; [reflexivity|eauto].
Qed.
Lemma effect_id s l l' : effect s l l' -> l_id l' = l_id l.
Proof.
  destruct s; cbn [effect]; intros H; repeat match goal with H : _ /\ _ |- _ => destruct H end;
  match goal with A : same_except _ l l' |- _ => apply (A F_id); not_in end.
Qed.
Lemma refused_id s l l' : refused_effect s l l' -> l_id l' = l_id l.
Proof.
  destruct s; cbn [refused_effect]; intros H; try (subst; reflexivity); destruct H as [_ A]; apply (A F_id); not_in.
Qed.

(** ** Loops over the layers *)
Definition matches (id : string) (l : layer) : Prop := l_id l = id \/ id = "all"%string.
Lemma matches_bool id l : (String.eqb (l_id l) id || String.eqb id "all") = true <-> matches id l.
Proof. unfold matches. rewrite orb_true_iff, !String.eqb_eq. tauto. Qed.
Lemma matches_dec id l : {matches id l} + {~ matches id l}.
Proof. destruct (String.eqb (l_id l) id || String.eqb id "all") eqn:E; [left|right]; rewrite <- matches_bool; congruence. Qed.
(** Layers selected by [sel] go through f in order. *)
Definition loop_ok (sel : nat -> Prop) (f : ST layer unit) (ls ls' : list layer) : Prop :=
  length ls' = length ls /\
  forall p l l', nth_error ls p = Some l -> nth_error ls' p = Some l' ->
    (sel p -> f l = (l', Ok tt)) /\ (~ sel p -> l' = l).
Definition loop_err (sel : nat -> Prop) (f : ST layer unit) (q : nat) (e : err) (ls ls' : list layer) : Prop :=
  length ls' = length ls /\ sel q /\ (q < length ls)%nat /\
  forall p l l', nth_error ls p = Some l -> nth_error ls' p = Some l' ->
    ((p < q)%nat -> sel p -> f l = (l', Ok tt)) /\ ((p < q)%nat -> ~ sel p -> l' = l) /\
    (p = q -> f l = (l', Err e)) /\ ((p > q)%nat -> l' = l).
Lemma loop_ok_cons (sel : nat -> Prop) (f : ST layer unit) l ls l' ls' :
  (sel 0%nat -> f l = (l', Ok tt)) -> (~ sel 0%nat -> l' = l) -> loop_ok (fun p => sel (S p)) f ls ls' -> loop_ok sel f (l :: ls) (l' :: ls').
Proof.
  intros H1 H2 [HL HP]. split; [cbn; congruence|]. intros [|p] a b Ha Hb; cbn in Ha, Hb.
  - injection Ha as <-. injection Hb as <-. auto.
  - exact (HP p a b Ha Hb).
Qed.
Lemma loop_ok_cons_inv (sel : nat -> Prop) (f : ST layer unit) l ls l' ls' : loop_ok sel f (l :: ls) (l' :: ls') ->
  (sel 0%nat -> f l = (l', Ok tt)) /\ (~ sel 0%nat -> l' = l) /\ loop_ok (fun p => sel (S p)) f ls ls'.
Proof.
  intros [HL HP]. destruct (HP 0%nat l l' eq_refl eq_refl) as [A B]. split; [exact A|]. split; [exact B|].
  split; [cbn in HL; congruence|]. intros p a b Ha Hb. exact (HP (S p) a b Ha Hb).
Qed.
Lemma loop_err_cons (sel : nat -> Prop) (f : ST layer unit) q e l ls l' ls' :
  (sel 0%nat -> f l = (l', Ok tt)) -> (~ sel 0%nat -> l' = l) -> loop_err (fun p => sel (S p)) f q e ls ls' ->
  loop_err sel f (S q) e (l :: ls) (l' :: ls').
Proof.
  intros H1 H2 (HL & Hq & Hlt & HP). split; [cbn; congruence|]. split; [exact Hq|]. split; [cbn; lia|].
  intros [|p] a b Ha Hb; cbn in Ha, Hb.
  - injection Ha as <-. injection Hb as <-. repeat split; auto; try lia.
  - destruct (HP p a b Ha Hb) as (A & B & C & D). repeat split; intros; [apply A|apply B|apply C|apply D]; try lia; auto.
Qed.
Lemma loop_err_here (sel : nat -> Prop) (f : ST layer unit) e l ls l' : sel 0%nat -> f l = (l', Err e) -> loop_err sel f 0 e (l :: ls) (l' :: ls).
Proof.
  intros H1 H2. split; [reflexivity|]. split; [exact H1|]. split; [cbn; lia|]. intros [|p] a b Ha Hb; cbn in Ha, Hb.
  - injection Ha as <-. injection Hb as <-. repeat split; auto; lia.
  - repeat split; intros; try lia. congruence.
Qed.
Definition msel (id : string) (ls : list layer) (p : nat) : Prop := exists l, nth_error ls p = Some l /\ matches id l.
Lemma msel_0 id l ls : msel id (l :: ls) 0 <-> matches id l.
Proof. unfold msel. cbn. split; [intros (k & E & H); injection E as <-; exact H|intros H; exists l; auto]. Qed.
Lemma loop_ok_ext (s1 s2 : nat -> Prop) f ls ls' : (forall p, s1 p <-> s2 p) -> loop_ok s1 f ls ls' -> loop_ok s2 f ls ls'.
Proof. intros H [HL HP]. split; [exact HL|]. intros p a b Ha Hb. destruct (HP p a b Ha Hb) as [A B]. split; intros X; [apply A|apply B]; rewrite (H p); exact X. Qed.
Lemma loop_err_ext (s1 s2 : nat -> Prop) f q e ls ls' : (forall p, s1 p <-> s2 p) -> loop_err s1 f q e ls ls' -> loop_err s2 f q e ls ls'.
Proof.
  intros H (HL & Hq & Hlt & HP). split; [exact HL|]. split; [apply H; exact Hq|]. split; [exact Hlt|].
  intros p a b Ha Hb. destruct (HP p a b Ha Hb) as (A & B & C & D). repeat split; intros; [apply A|apply B|apply C|apply D]; auto; rewrite (H p); auto.
Qed.
Lemma setter_loop_ok id f ls ls' b : setter_loop id f ls = (ls', Ok b) ->
  loop_ok (msel id ls) f ls ls' /\ (b = true <-> exists p, msel id ls p).
Proof.
  revert ls' b. induction ls as [|l ls IH]; intros ls' b E; cbn [setter_loop] in E.
  - injection E as <- <-. split; [split; [reflexivity|intros [|p]; discriminate]|].
    split; [discriminate|]. intros (p & k & Hk & _). destruct p; discriminate.
  - destruct (String.eqb (l_id l) id || String.eqb id "all") eqn:EM.
    + apply matches_bool in EM. destruct (f l) as [l1 [u|er]] eqn:Ef; [|discriminate]. destruct u.
      destruct (setter_loop id f ls) as [ls1 [b1|er]] eqn:EL; [|discriminate]. injection E as <- <-.
      destruct (IH _ _ eq_refl) as [IH1 IH2]. split.
      * apply loop_ok_cons; [intros _; exact Ef|intros X; exfalso; apply X, msel_0, EM|exact IH1].
      * split; [intros _; exists 0%nat; apply msel_0; exact EM|reflexivity].
    + assert (NM : ~ matches id l) by (rewrite <- matches_bool; congruence).
      destruct (setter_loop id f ls) as [ls1 r1] eqn:EL. injection E as <- ->.
      destruct (IH _ _ eq_refl) as [IH1 IH2]. split.
      * apply loop_ok_cons; [intros X; exfalso; apply NM, (msel_0 id l ls), X|reflexivity|exact IH1].
      * rewrite IH2. split; [intros (p & Hp); exists (S p); exact Hp|]. intros ([|p] & Hp); [exfalso; apply NM, (msel_0 id l ls), Hp|exists p; exact Hp].
Qed.
Lemma setter_loop_err id f ls ls' e : setter_loop id f ls = (ls', Err e) -> exists q, loop_err (msel id ls) f q e ls ls'.
Proof.
  revert ls'. induction ls as [|l ls IH]; intros ls' E; cbn [setter_loop] in E; [discriminate|].
  destruct (String.eqb (l_id l) id || String.eqb id "all") eqn:EM.
  - apply matches_bool in EM. destruct (f l) as [l1 [u|er]] eqn:Ef.
    + destruct u. destruct (setter_loop id f ls) as [ls1 [b1|er]] eqn:EL; [discriminate|]. injection E as <- ->.
      destruct (IH _ eq_refl) as [q Hq]. exists (S q).
      apply loop_err_cons; [intros _; exact Ef|intros X; exfalso; apply X, msel_0, EM|exact Hq].
    + injection E as <- ->. exists 0%nat. apply loop_err_here; [apply msel_0; exact EM|exact Ef].
  - assert (NM : ~ matches id l) by (rewrite <- matches_bool; congruence).
    destruct (setter_loop id f ls) as [ls1 r1] eqn:EL. injection E as <- ->.
    destruct (IH _ eq_refl) as [q Hq]. exists (S q).
    apply loop_err_cons; [intros X; exfalso; apply NM, (msel_0 id l ls), X|reflexivity|exact Hq].
Qed.
Lemma on_every_ok f ls ls' : on_every f ls = (ls', Ok tt) -> loop_ok (fun p => True) f ls ls'.
Proof.
  revert ls'. induction ls as [|l ls IH]; intros ls' E; cbn [on_every] in E.
  - injection E as <-. split; [reflexivity|intros [|p]; discriminate].
  - destruct (f l) as [l1 [[]|er]] eqn:Ef; [|discriminate]. destruct (on_every f ls) as [ls1 r] eqn:EL. injection E as <- ->.
    apply loop_ok_cons; [intros _; exact Ef|intros X; exfalso; apply X; exact I|]. apply IH. reflexivity.
Qed.
Lemma on_every_err f ls ls' e : on_every f ls = (ls', Err e) -> exists q, loop_err (fun p => True) f q e ls ls'.
Proof.
  revert ls'. induction ls as [|l ls IH]; intros ls' E; cbn [on_every] in E; [discriminate|].
  destruct (f l) as [l1 [[]|er]] eqn:Ef.
  - destruct (on_every f ls) as [ls1 r] eqn:EL. injection E as <- ->. destruct (IH _ eq_refl) as [q Hq]. exists (S q).
    apply loop_err_cons; [intros _; exact Ef|intros X; exfalso; apply X; exact I|exact Hq].
  - injection E as <- ->. exists 0%nat. apply loop_err_here; [exact I|exact Ef].
Qed.
Definition fsel (id : string) (ls : list layer) (p : nat) : Prop :=
  exists l, nth_error ls p = Some l /\ l_id l = id /\ forall q k, (q < p)%nat -> nth_error ls q = Some k -> l_id k <> id.
Lemma fsel_0 id l ls : fsel id (l :: ls) 0 <-> l_id l = id.
Proof. unfold fsel. cbn. split; [intros (k & E & H & _); injection E as <-; exact H|intros H; exists l; repeat split; auto; intros; lia]. Qed.
Lemma fsel_S id l ls p : fsel id (l :: ls) (S p) <-> l_id l <> id /\ fsel id ls p.
Proof.
  unfold fsel. cbn [nth_error]. split.
  - intros (k & E & H & F). split; [apply (F 0%nat l); [lia|reflexivity]|]. exists k. repeat split; auto.
    intros q m Hq Hm. apply (F (S q) m); [lia|exact Hm].
  - intros [N (k & E & H & F)]. exists k. repeat split; auto. intros [|q] m Hq Hm; cbn in Hm; [congruence|]. apply (F q m); [lia|exact Hm].
Qed.
Lemma fsel_none_after id l ls p : l_id l = id -> ~ fsel id (l :: ls) (S p).
Proof. intros H. rewrite fsel_S. tauto. Qed.
Lemma on_first_ok id f ls ls' : on_first id f ls = (ls', Ok tt) -> loop_ok (fsel id ls) f ls ls' /\ exists p, fsel id ls p.
Proof.
  revert ls'. induction ls as [|l ls IH]; intros ls' E; cbn [on_first] in E; [discriminate|].
  destruct (String.eqb_spec (l_id l) id) as [EI|EI].
  - destruct (f l) as [l1 r] eqn:Ef. injection E as <- ->. split; [|exists 0%nat; apply fsel_0; exact EI].
    apply loop_ok_cons; [intros _; exact Ef|intros X; exfalso; apply X, fsel_0, EI|].
    split; [reflexivity|]. intros p a b Ha Hb. split; [intros X; exfalso; exact (fsel_none_after _ _ _ _ EI X)|intros _; congruence].
  - destruct (on_first id f ls) as [ls1 r] eqn:EL. injection E as <- ->. destruct (IH _ eq_refl) as [A [p Hp]]. split.
    + apply loop_ok_cons; [intros X; exfalso; apply EI, (fsel_0 id l ls), X|reflexivity|].
      eapply loop_ok_ext; [|exact A]. intros q. rewrite fsel_S. tauto.
    + exists (S p). apply fsel_S. auto.
Qed.
Lemma on_first_err id f ls ls' e : on_first id f ls = (ls', Err e) ->
  (exists q, loop_err (fsel id ls) f q e ls ls') \/
  (ls' = ls /\ (forall p, ~ fsel id ls p) /\ e = Throw "Failed to find a layer with a given id").
Proof.
  revert ls'. induction ls as [|l ls IH]; intros ls' E; cbn [on_first] in E.
  - right. injection E as <- <-. repeat split. intros p (k & Hk & _). destruct p; discriminate.
  - destruct (String.eqb_spec (l_id l) id) as [EI|EI].
    + destruct (f l) as [l1 r] eqn:Ef. injection E as <- ->. left. exists 0%nat. apply loop_err_here; [apply fsel_0; exact EI|exact Ef].
    + destruct (on_first id f ls) as [ls1 r] eqn:EL. injection E as <- ->. destruct (IH _ eq_refl) as [[q A]|(-> & A & B)].
      * left. exists (S q). apply loop_err_cons; [intros X; exfalso; apply EI, (fsel_0 id l ls), X|reflexivity|].
        eapply loop_err_ext; [|exact A]. intros p. rewrite fsel_S. tauto.
      * right. repeat split; auto. intros [|p]; [rewrite fsel_0; exact EI|rewrite fsel_S; intros [_ X]; exact (A p X)].
Qed.

(** ** Junction-level setters *)
Definition the_setter (id : string) (s : setting) : ST junction unit :=
  if to_first s then allOrFirst id (member s) else layerSetter id (member s).
Lemma junction_set_eq id s : junction_set id s = the_setter id s.
Proof. destruct s; reflexivity. Qed.
Lemma addressed_msel id s ls p : to_first s = false -> addressed id s ls p <-> msel id ls p.
Proof.
  intros H. unfold addressed, msel, matches. split; intros (l & Hl & X); exists l; (split; [exact Hl|]).
  - destruct X as [X|[X _]]; auto.
  - destruct X as [X|X]; [right; split; [exact X|congruence]|left; exact X].
Qed.
Lemma addressed_fsel id s ls p : to_first s = true -> id <> "all"%string -> addressed id s ls p <-> fsel id ls p.
Proof.
  intros H Hn. unfold addressed, fsel. split; intros (l & Hl & X); exists l; (split; [exact Hl|]).
  - destruct X as [X|[X Y]]; [contradiction|]. split; [exact X|exact (Y H)].
  - destruct X as [X1 X2]. right. split; [exact X1|intros _; exact X2].
Qed.
Lemma addressed_all s ls p : addressed "all" s ls p <-> exists l, nth_error ls p = Some l.
Proof. unfold addressed. split; [intros (l & Hl & _); eauto|intros (l & Hl); exists l; auto]. Qed.
Lemma loop_ok_valid (sel sel' : nat -> Prop) f ls ls' : (forall p l, nth_error ls p = Some l -> (sel p <-> sel' p)) -> loop_ok sel f ls ls' -> loop_ok sel' f ls ls'.
Proof. intros H [HL HP]. split; [exact HL|]. intros p a b Ha Hb. destruct (HP p a b Ha Hb) as [A B]. split; intros X; [apply A|apply B]; rewrite (H p a Ha); exact X. Qed.
Lemma loop_err_valid (sel sel' : nat -> Prop) f q e ls ls' : (forall p l, nth_error ls p = Some l -> (sel p <-> sel' p)) -> loop_err sel f q e ls ls' -> loop_err sel' f q e ls ls'.
Proof.
  intros H (HL & Hq & Hlt & HP). split; [exact HL|]. split.
  { destruct (nth_error ls q) as [a|] eqn:Ea; [apply (H q a Ea); exact Hq|apply nth_error_None in Ea; lia]. }
  split; [exact Hlt|]. intros p a b Ha Hb. destruct (HP p a b Ha Hb) as (A & B & C & D).
  repeat split; intros; [apply A|apply B|apply C|apply D]; auto; rewrite (H p a Ha); auto.
Qed.
Lemma set_ok id s j j' : junction_set id s j = (j', Ok tt) ->
  exists ls', j' = set_j_layers ls' j /\ loop_ok (addressed id s (j_layers j)) (member s) (j_layers j) ls' /\
    (j_layers j <> [] -> exists p, addressed id s (j_layers j) p).
Proof.
  rewrite junction_set_eq. unfold the_setter. destruct (to_first s) eqn:EF.
  - unfold allOrFirst. destruct (String.eqb_spec id "all") as [->|HA].
    + destruct (on_every _ _) as [ls' r] eqn:E. intros X. injection X as <- ->. exists ls'. split; [reflexivity|].
      apply on_every_ok in E. split.
      * eapply loop_ok_valid; [|exact E]. intros p l Hl. rewrite addressed_all. split; eauto.
      * intros HN. destruct (j_layers j) as [|l rest]; [contradiction|]. exists 0%nat. apply addressed_all. exists l. reflexivity.
    + destruct (on_first _ _ _) as [ls' r] eqn:E. intros X. injection X as <- ->. exists ls'. split; [reflexivity|].
      apply on_first_ok in E. destruct E as [A [p B]]. split.
      * eapply loop_ok_ext; [|exact A]. intros q. symmetry. apply addressed_fsel; assumption.
      * intros _. exists p. apply addressed_fsel; assumption.
  - unfold layerSetter. destruct (setter_loop _ _ _) as [ls' [[]|e]] eqn:E; try discriminate. intros X. injection X as <-.
    exists ls'. split; [reflexivity|]. apply setter_loop_ok in E. destruct E as [A [B _]]. split.
    + eapply loop_ok_ext; [|exact A]. intros q. symmetry. apply addressed_msel; assumption.
    + intros _. destruct (B eq_refl) as [p Hp]. exists p. apply addressed_msel; assumption.
Qed.
Lemma set_err id s j j' e : junction_set id s j = (j', Err e) ->
  (exists q ls', j' = set_j_layers ls' j /\ loop_err (addressed id s (j_layers j)) (member s) q e (j_layers j) ls') \/
  (j' = j /\ (forall p, ~ addressed id s (j_layers j) p) /\ e = Throw "Failed to find a layer with a given id").
Proof.
  rewrite junction_set_eq. unfold the_setter. destruct (to_first s) eqn:EF.
  - unfold allOrFirst. destruct (String.eqb_spec id "all") as [->|HA].
    + destruct (on_every _ _) as [ls' r] eqn:E. intros X. injection X as <- ->.
      apply on_every_err in E. destruct E as [q E]. left. exists q, ls'. split; [reflexivity|].
      eapply loop_err_valid; [|exact E]. intros p l Hl. rewrite addressed_all. split; eauto.
    + destruct (on_first _ _ _) as [ls' r] eqn:E. intros X. injection X as <- ->.
      apply on_first_err in E. destruct E as [[q E]|(-> & A & B)].
      * left. exists q, ls'. split; [reflexivity|]. eapply loop_err_ext; [|exact E]. intros p. symmetry. apply addressed_fsel; assumption.
      * right. split; [apply set_layers_id|]. split; [|exact B]. intros p X. apply (A p). apply (addressed_fsel id s); assumption.
  - unfold layerSetter. destruct (setter_loop _ _ _) as [ls' [[]|er]] eqn:E; try discriminate; intros X; injection X as <- <-.
    + right. apply setter_loop_ok in E. destruct E as [[HL HP] [_ B]].
      assert (NS : forall p, ~ msel id (j_layers j) p) by (intros p Hp; assert (false = true) by (apply B; eauto); discriminate).
      split; [|split; [|reflexivity]].
      * replace ls' with (j_layers j); [apply set_layers_id|]. apply nth_error_ext_len; [exact HL|]. intros p x y Hx Hy.
        symmetry. apply (HP p x y Hx Hy). apply NS.
      * intros p X. apply (NS p). apply (addressed_msel id s); assumption.
    + left. apply setter_loop_err in E. destruct E as [q E]. exists q, ls'. split; [reflexivity|].
      eapply loop_err_ext; [|exact E]. intros p. symmetry. apply addressed_msel; assumption.
Qed.
Lemma set_success id s j j' : junction_set id s j = (j', Ok tt) ->
  set_everywhere id s j j' /\ (j_layers j <> [] -> exists p, addressed id s (j_layers j) p).
Proof.
  intros E. apply set_ok in E. destruct E as (ls' & -> & [HL HP] & HX). split; [|exact HX].
  split; [reflexivity|]. split; [exact HL|]. intros p l l' H1 H2. destruct (HP p l l' H1 H2) as [A B].
  split; [intros X; apply member_iff, A, X|exact B].
Qed.
Lemma set_failure id s j j' e : junction_set id s j = (j', Err e) ->
  (exists msg, e = Throw msg) /\
  ((exists q, refused_at id s q j j') \/ (j' = j /\ forall p, ~ addressed id s (j_layers j) p)).
Proof.
  intros E. apply set_err in E. destruct E as [(q & ls' & -> & HL & Hq & Hlt & HP)|(-> & A & ->)].
  - destruct (nth_error (j_layers j) q) as [lq|] eqn:Eq; [|apply nth_error_None in Eq; lia].
    destruct (nth_error_same_length _ _ _ _ HL Eq) as [lq' Eq'].
    destruct (HP q lq lq' Eq Eq') as (_ & _ & C & _). destruct (member_err _ _ _ _ (C eq_refl)) as (_ & _ & M).
    split; [exact M|]. left. exists q. split; [reflexivity|]. split; [exact HL|]. split; [exact Hq|].
    intros p l l' H1 H2. destruct (HP p l l' H1 H2) as (A & B & C' & D). split; [|split; [|split]].
    + intros X Y. apply member_iff. auto.
    + exact B.
    + intros X. destruct (member_err _ _ _ _ (C' X)) as (M1 & M2 & _). auto.
    + exact D.
  - split; [eauto|]. right. auto.
Qed.
(** Conversely the call succeeds whenever every addressed layer accepts. *)
Lemma addressed_dec id s ls p : addressed id s ls p \/ ~ addressed id s ls p.
Proof.
  destruct (nth_error ls p) as [l|] eqn:E; [|right; intros (l & Hl & _); congruence].
  destruct (to_first s) eqn:EF.
  - destruct (string_dec id "all") as [->|HA]; [left; apply addressed_all; eauto|].
    assert (D : forall ls p, fsel id ls p \/ ~ fsel id ls p).
    { clear. induction ls as [|l ls IH]; intros p; [right; intros (k & Hk & _); destruct p; discriminate|].
      destruct p as [|p]; [rewrite fsel_0; destruct (string_dec (l_id l) id); tauto|].
      rewrite fsel_S. destruct (string_dec (l_id l) id) as [X|X]; [right; tauto|]. destruct (IH p); tauto. }
    rewrite (addressed_fsel id s ls p EF HA). apply D.
  - rewrite (addressed_msel id s ls p EF). unfold msel. destruct (matches_dec id l) as [M|M]; [left; eauto|].
    right. intros (k & Hk & Hm). assert (k = l) by congruence. subst. contradiction.
Qed.
Lemma set_accepted id s j : (exists p, addressed id s (j_layers j) p) ->
  (forall p l, nth_error (j_layers j) p = Some l -> addressed id s (j_layers j) p -> accepts s l) ->
  exists j', junction_set id s j = (j', Ok tt).
Proof.
  intros [p Hp] HA. destruct (junction_set id s j) as [j' [[]|e]] eqn:E; [eauto|].
  apply set_failure in E. destruct E as [_ [(q & _ & HL & Hq & HP)|[_ X]]]; [|exfalso; exact (X p Hp)].
  exfalso. destruct Hq as (l & Hl & Hq'). assert (Hq : addressed id s (j_layers j) q) by (exists l; auto).
  destruct (nth_error_same_length _ _ _ _ HL Hl) as [l' Hl']. destruct (HP q l l' Hl Hl') as (_ & _ & C & _).
  destruct (C eq_refl) as [N _]. apply N. exact (HA q l Hl Hq).
Qed.

(** ** Couplings *)
Lemma couple_sym a b c j : junction_couple a b c j = junction_couple b a c j.
Proof.
  assert (L : forall f g ls, coupling_loop a b f g ls = coupling_loop b a f g ls).
  { intros f g. induction ls as [|l0 [|l1 rest] IH]; try reflexivity. cbn [coupling_loop] in *. rewrite orb_comm, IH. reflexivity. }
  destruct c; cbn [junction_couple]; unfold setIECDriver, setQuadIECDriver, setIDMIDriver, setCouplingDriver; rewrite L; reflexivity.
Qed.
Definition ctop (c : coupling) : ST layer unit :=
  match c with CIEC d => setIECDriverTop d | CQuad d => setQuadIECDriverTop d | CIDMI d => setIDMIDriverTop d end.
Definition cbot (c : coupling) : ST layer unit :=
  match c with CIEC d => setIECDriverBottom d | CQuad d => setQuadIECDriverBottom d | CIDMI d => setIDMIDriverBottom d end.
Lemma ctop_ok c l : exists l', ctop c l = (l', Ok tt) /\ top_effect c l l'.
Proof. destruct c; eexists; (split; [reflexivity|split; [reflexivity|frame]]). Qed.
Lemma cbot_ok c l : exists l', cbot c l = (l', Ok tt) /\ bottom_effect c l l'.
Proof. destruct c; eexists; (split; [reflexivity|split; [reflexivity|frame]]). Qed.
Lemma pair_S a b l ls p : pair_at a b (l :: ls) (S p) <-> pair_at a b ls p.
Proof. reflexivity. Qed.
Lemma coupling_loop_spec a b c ls : exists ls',
  (coupling_loop a b (ctop c) (cbot c) ls = (ls', Ok false) /\ ls' = ls /\ forall p, ~ pair_at a b ls p) \/
  (coupling_loop a b (ctop c) (cbot c) ls = (ls', Ok true) /\ length ls' = length ls /\
   exists p, pair_at a b ls p /\ (forall q, (q < p)%nat -> ~ pair_at a b ls q) /\
   forall q l l', nth_error ls q = Some l -> nth_error ls' q = Some l' ->
    (q = p -> top_effect c l l') /\ (q = S p -> bottom_effect c l l') /\ (q <> p -> q <> S p -> l' = l)).
Proof.
  induction ls as [|l0 [|l1 rest] IH].
  - exists []. left. split; [reflexivity|]. split; [reflexivity|]. intros p (l & u & H & _). destruct p; discriminate.
  - exists [l0]. left. split; [reflexivity|]. split; [reflexivity|]. intros p (l & u & _ & H & _). destruct p as [|p]; [discriminate|destruct p; discriminate].
  - cbn [coupling_loop] in *.
    destruct ((String.eqb (l_id l0) a && String.eqb (l_id l1) b) || (String.eqb (l_id l0) b && String.eqb (l_id l1) a)) eqn:EP.
    + assert (P0 : pair_at a b (l0 :: l1 :: rest) 0).
      { exists l0, l1. split; [reflexivity|]. split; [reflexivity|]. apply orb_true_iff in EP. rewrite !andb_true_iff, !String.eqb_eq in EP. exact EP. }
      destruct (ctop_ok c l0) as (l0' & E0 & T0). destruct (cbot_ok c l1) as (l1' & E1 & T1). rewrite E0, E1.
      exists (l0' :: l1' :: rest). right. split; [reflexivity|]. split; [reflexivity|]. exists 0%nat. split; [exact P0|]. split; [intros; lia|].
      intros [|[|q]] l l' H1 H2; cbn in H1, H2.
      * injection H1 as <-. injection H2 as <-. split; [intros _; exact T0|]. split; [intros; lia|]. intros; lia.
      * injection H1 as <-. injection H2 as <-. split; [intros; lia|]. split; [intros _; exact T1|]. intros; lia.
      * split; [intros; lia|]. split; [intros; lia|]. intros _ _. congruence.
    + assert (NP : ~ pair_at a b (l0 :: l1 :: rest) 0).
      { intros (l & u & H1 & H2 & H). cbn in H1, H2. injection H1 as <-. injection H2 as <-.
        rewrite <- !String.eqb_eq, <- !andb_true_iff, <- orb_true_iff in H. congruence. }
      destruct IH as (ls' & [(E & -> & N)|(E & HL & p & HP & HF & HQ)]); rewrite E.
      * exists (l0 :: l1 :: rest). left. split; [reflexivity|]. split; [reflexivity|]. intros [|p]; [exact NP|exact (N p)].
      * exists (l0 :: ls'). right. split; [reflexivity|]. split; [cbn in *; congruence|]. exists (S p). split; [exact HP|]. split.
        { intros [|q] Hq; [exact NP|]. apply (HF q). lia. }
        intros [|q] l l' H1 H2; cbn [nth_error] in H1, H2.
        -- split; [intros; lia|]. split; [intros; lia|]. intros _ _. congruence.
        -- destruct (HQ q l l' H1 H2) as (A & B & C). split; [intros; apply A; lia|]. split; [intros; apply B; lia|]. intros; apply C; lia.
Qed.
Lemma couple_eq a b c j : junction_couple a b c j = setCouplingDriver a b (ctop c) (cbot c) j.
Proof. destruct c; reflexivity. Qed.
Lemma couple_success a b c j j' : junction_couple a b c j = (j', Ok tt) -> exists p, coupled_at a b c p j j'.
Proof.
  rewrite couple_eq. unfold setCouplingDriver. destruct (coupling_loop_spec a b c (j_layers j)) as (ls' & [(E & -> & N)|(E & HL & p & HP & HF & HQ)]); rewrite E.
  - discriminate.
  - intros X. injection X as <-. exists p. split; [reflexivity|]. split; [exact HL|]. auto.
Qed.
Lemma couple_failure a b c j j' e : junction_couple a b c j = (j', Err e) ->
  j' = j /\ (forall p, ~ pair_at a b (j_layers j) p) /\ exists msg, e = Throw msg.
Proof.
  rewrite couple_eq. unfold setCouplingDriver. destruct (coupling_loop_spec a b c (j_layers j)) as (ls' & [(E & -> & N)|(E & HL & p & HP & HF & HQ)]); rewrite E.
  - intros X. injection X as <- <-. split; [apply set_layers_id|]. split; [exact N|eauto].
  - discriminate.
Qed.
Lemma couple_found a b c j p : pair_at a b (j_layers j) p -> exists j', junction_couple a b c j = (j', Ok tt).
Proof.
  intros HP. destruct (junction_couple a b c j) as [j' [[]|e]] eqn:E; [eauto|]. apply couple_failure in E. destruct E as (_ & N & _).
  exfalso. exact (N p HP).
Qed.
