(** Proofs about the effective field and the LLG right-hand side. *)
From Verif Require Export P_Vec P_Monad S_Layer.
Open Scope R_scope.
Open Scope st_scope.

Lemma set_cache_id l : set_l_cache (l_cache l) l = l.
Proof. destruct l; reflexivity. Qed.
Lemma set_cache_twice c c' l : set_l_cache c (set_l_cache c' l) = set_l_cache c l.
Proof. destruct l; reflexivity. Qed.
Lemma same_but_cache_set c l : same_but_cache l (set_l_cache c l).
Proof. unfold same_but_cache. destruct l; reflexivity. Qed.
Lemma same_but_cache_refl l : same_but_cache l l.
Proof. unfold same_but_cache. symmetry; apply set_cache_id. Qed.
Lemma same_but_cache_trans a b c : same_but_cache a b -> same_but_cache b c -> same_but_cache a c.
Proof. unfold same_but_cache. intros H1 H2. rewrite H2 at 1. rewrite H1. apply set_cache_twice. Qed.
Lemma same_but_cache_ex l l' : same_but_cache l l' -> exists c, l' = set_l_cache c l.
Proof. intros H. exists (l_cache l'). exact H. Qed.
Lemma upd_cache_same f l : same_but_cache l (upd_cache f l).
Proof. apply same_but_cache_set. Qed.
Lemma inputs_set_cache c l t i : inputs_at (set_l_cache c l) t i <-> inputs_at l t i.
Proof. unfold inputs_at. reflexivity. Qed.

(** The individual terms computed by the code. *)
Lemma mu0_eq : MAGNETIC_PERMEABILITY = mu0.
Proof. unfold MAGNETIC_PERMEABILITY, mu0. lra. Qed.
Lemma IEC_term l J J2 m c h : calculateIEC_ l J J2 m c = Ok h ->
  l_Ms l * l_thickness l <> 0 /\ h = H_iec J J2 (l_Ms l * l_thickness l) m c.
Proof.
  unfold calculateIEC_. intros H. apply vdiv_inv in H. destruct H as [H ->]. split; [exact H|].
  unfold H_iec. set (k := l_Ms l * l_thickness l) in *; clearbody k.
  rewrite c_dot_Dot, Dot_comm. destruct c, m; vsimp. apply vec_eq; field; exact H.
Qed.
Lemma IEC_term_ok l J J2 m c : l_Ms l * l_thickness l <> 0 ->
  calculateIEC_ l J J2 m c = Ok (H_iec J J2 (l_Ms l * l_thickness l) m c).
Proof.
  intros H. destruct (calculateIEC_ l J J2 m c) as [h|e] eqn:E.
  - apply IEC_term in E. destruct E as [_ ->]; reflexivity.
  - unfold calculateIEC_ in E. rewrite vdiv_ok in E by exact H. discriminate.
Qed.
Lemma IDMI_term l D m c h : calculateIDMI_ l D m c = Ok h ->
  l_Ms l * l_thickness l <> 0 /\ h = H_idmi D (l_Ms l * l_thickness l) c.
Proof.
  unfold calculateIDMI_. intros H. apply vdiv_inv in H. destruct H as [H ->]. split; [exact H|].
  unfold H_idmi. set (k := l_Ms l * l_thickness l) in *; clearbody k. destruct c, D; vsimp. apply vec_eq; field; exact H.
Qed.
Lemma IDMI_term_ok l D m c : l_Ms l * l_thickness l <> 0 ->
  calculateIDMI_ l D m c = Ok (H_idmi D (l_Ms l * l_thickness l) c).
Proof.
  intros H. destruct (calculateIDMI_ l D m c) as [h|e] eqn:E.
  - apply IDMI_term in E. destruct E as [_ ->]; reflexivity.
  - unfold calculateIDMI_ in E. rewrite vdiv_ok in E by exact H. discriminate.
Qed.
Lemma tensor_term N Ms m : calculate_tensor_interaction m N Ms = H_tensor N Ms m.
Proof. rewrite tensor_interaction_spec, mu0_eq. reflexivity. Qed.
Lemma anis_term n K Ms m : Ms <> 0 -> vscale n (2 * K * c_dot n m / Ms) = H_anis n K Ms m.
Proof. intros H. unfold H_anis. destruct n, m; vsimp. apply vec_eq; field; exact H. Qed.

(** Cache written by a successful field evaluation. *)
Definition field_cache (l : layer) (i : field_inputs) (m b top : cvec) (c : lcache) : lcache :=
  LC (fi_ext i) (fi_oe i) (fi_ext i) (c_Hdipole c) (H_tensor (l_demag l) (l_Ms l) m) (fi_oe i)
     (H_anis (l_anis l) (fi_K i) (l_Ms l) m) (c_Hfluctuation c) (fi_dmi i) (IDMI_total l i b top)
     (c_Hfl_v c) (c_Hdl_v c) (IEC_total l i m b top)
     (fi_Jb i) (fi_Jt i) (fi_J2b i) (fi_J2t i) (fi_K i) (c_I_log c).

Lemma sum_eq hext hanis hiec hidmi hoe hdmi hf hdemag dip hres :
  vadd (vsub (vsub (vadd (vadd (vadd (vadd (vadd (vadd hext hanis) hiec) hidmi) hoe) hdmi) hf) hdemag) dip) hres
  = Sum [hext; hanis; hiec; hidmi; hoe; hdmi; hf; Scal (-1) hdemag; Scal (-1) dip; hres].
Proof.
  unfold Sum, fold_right. repeat match goal with v : cvec |- _ => destruct v end. vsimp.
  apply vec_eq; ring.
Qed.

Lemma upd_upd f g l : upd_cache g (upd_cache f l) = upd_cache (fun c => g (f c)) l.
Proof. destruct l; reflexivity. Qed.

Ltac bstep E := etransitivity; [eapply bind_ok; E|].

Lemma extField_ok t l h : getCurrentAxialDrivers (l_external l) t = Ok h ->
  calculateExternalField t l = (upd_cache (set_c_H_log h) l, Ok h).
Proof. intros E. unfold calculateExternalField, bind, get, lift, modify, ret. rewrite E. reflexivity. Qed.
Lemma HOe_ok t l h : getCurrentAxialDrivers (l_Oersted l) t = Ok h ->
  calculateHOeField t l = (upd_cache (set_c_Hoe_log h) l, Ok h).
Proof. intros E. unfold calculateHOeField, bind, get, lift, modify, ret. rewrite E. reflexivity. Qed.
Lemma IEC_ok t m b top l jb jt j2b j2t :
  getCurrentScalarValue (l_IECBottom l) t = Ok jb -> getCurrentScalarValue (l_IECTop l) t = Ok jt ->
  getCurrentScalarValue (l_QuadBottom l) t = Ok j2b -> getCurrentScalarValue (l_QuadTop l) t = Ok j2t ->
  l_Ms l * l_thickness l <> 0 ->
  calculateIEC t m b top l =
   (upd_cache (fun c => set_c_J2top_log j2t (set_c_J2bottom_log j2b (set_c_Jtop_log jt (set_c_Jbottom_log jb c)))) l,
    Ok (Plus (H_iec jb j2b (l_Ms l * l_thickness l) m b) (H_iec jt j2t (l_Ms l * l_thickness l) m top))).
Proof.
  intros E1 E2 E3 E4 HM. unfold calculateIEC, bind, get, lift, modify, ret. rewrite E1, E2, E3, E4.
  rewrite !IEC_term_ok by exact HM. rewrite vadd_Plus, !upd_upd. reflexivity.
Qed.
Lemma IDMI_ok t m b top l db dtp :
  getCurrentAxialDrivers (l_IDMIBottom l) t = Ok db -> getCurrentAxialDrivers (l_IDMITop l) t = Ok dtp ->
  l_Ms l * l_thickness l <> 0 ->
  calculateIDMI t m b top l =
   (l, Ok (Plus (H_idmi db (l_Ms l * l_thickness l) b) (H_idmi dtp (l_Ms l * l_thickness l) top))).
Proof.
  intros E1 E2 HM. unfold calculateIDMI, bind, get, lift, ret. rewrite E1, E2.
  rewrite !IDMI_term_ok by exact HM. rewrite vadd_Plus. reflexivity.
Qed.
Lemma Anis_ok t m l K : getCurrentScalarValue (l_anisotropy l) t = Ok K -> l_Ms l <> 0 ->
  calculateAnisotropy m t l = (upd_cache (set_c_K_log K) l, Ok (H_anis (l_anis l) K (l_Ms l) m)).
Proof.
  intros E HM. unfold calculateAnisotropy, bind, get, lift, modify, ret. rewrite E.
  rewrite fdiv_ok by exact HM. rewrite anis_term by exact HM. reflexivity.
Qed.
Lemma Hdmi_ok t l h : getCurrentAxialDrivers (l_Hdmi l) t = Ok h -> calculateHdmiField t l = (l, Ok h).
Proof. intros E. unfold calculateHdmiField, bind, get, lift. rewrite E. reflexivity. Qed.

Lemma Heff_inj_forward l t dt m b top dip fl i :
  inputs_at l t i -> l_Ms l <> 0 -> l_thickness l <> 0 ->
  calculateHeffDipoleInjection t dt m b top dip fl l =
    (set_l_cache (field_cache l i m b top (l_cache l)) l, Ok (H_eff l i m b top dip fl)).
Proof.
  intros (I1 & I2 & I3 & I4 & I5 & I6 & I7 & I8 & I9 & I10 & I11) HMs Hth.
  assert (HMt : l_Ms l * l_thickness l <> 0) by (apply Rmult_integral_contrapositive_currified; assumption).
  unfold calculateHeffDipoleInjection.
  bstep ltac:(apply extField_ok; exact I1). bstep reflexivity.
  bstep ltac:(apply HOe_ok; exact I2). bstep reflexivity. bstep reflexivity. cbv zeta. bstep reflexivity.
  bstep ltac:(apply IEC_ok; [exact I6|exact I7|exact I8|exact I9|exact HMt]). bstep reflexivity.
  bstep ltac:(apply IDMI_ok; [exact I10|exact I11|exact HMt]). bstep reflexivity.
  bstep ltac:(apply Anis_ok; [exact I5|exact HMs]). bstep reflexivity.
  bstep ltac:(apply Hdmi_ok; exact I3). bstep reflexivity.
  bstep ltac:(unfold lift; apply (f_equal (pair _)); exact I4).
  unfold ret. rewrite sum_eq, tensor_term, !upd_upd. unfold upd_cache.
  f_equal. 
Qed.

(** Inversions: what a successful sub-evaluation says, with the new state only up to its cache. *)
Lemma upd_inv f l l' u : modify (upd_cache f) l = (l', Ok u) -> exists c, l' = set_l_cache c l.
Proof. intros E. injection E as <- _. eexists; reflexivity. Qed.
Ltac binv E := let l1 := fresh "l1" in let a := fresh "a" in let X := fresh "X" in
  apply bind_inv in E; destruct E as (l1 & a & X & E).
Ltac upd X := let c := fresh "c" in apply upd_inv in X; destruct X as [c X]; subst; rewrite ?set_cache_twice in *.
Ltac rd X := unfold get, lift in X; injection X; clear X; intros.
Lemma extField_inv t l l' h : calculateExternalField t l = (l', Ok h) ->
  getCurrentAxialDrivers (l_external l) t = Ok h /\ exists c, l' = set_l_cache c l.
Proof.
  unfold calculateExternalField. intros E. binv E. rd X. subst. binv E. rd X. subst. binv E.
  upd X. injection E as <- <-. split; [assumption|eexists; reflexivity].
Qed.
Lemma HOe_inv t l l' h : calculateHOeField t l = (l', Ok h) ->
  getCurrentAxialDrivers (l_Oersted l) t = Ok h /\ exists c, l' = set_l_cache c l.
Proof.
  unfold calculateHOeField. intros E. binv E. rd X. subst. binv E. rd X. subst. binv E.
  upd X. injection E as <- <-. split; [assumption|eexists; reflexivity].
Qed.
Lemma IEC_inv t m b top l l' h : calculateIEC t m b top l = (l', Ok h) ->
  (exists jb, getCurrentScalarValue (l_IECBottom l) t = Ok jb) /\
  (exists jt, getCurrentScalarValue (l_IECTop l) t = Ok jt) /\
  (exists j2b, getCurrentScalarValue (l_QuadBottom l) t = Ok j2b) /\
  (exists j2t, getCurrentScalarValue (l_QuadTop l) t = Ok j2t) /\
  l_Ms l * l_thickness l <> 0 /\ exists c, l' = set_l_cache c l.
Proof.
  unfold calculateIEC. intros E. binv E. rd X. subst. binv E. rd X. subst. binv E. upd X.
  binv E. rd X. subst. binv E. upd X. binv E. rd X. subst. binv E. upd X. binv E. rd X. subst. binv E. upd X.
  binv E. rd X. subst. binv E. rd X. subst. injection E as <- <-.
  match goal with H : calculateIEC_ _ _ _ _ _ = _ |- _ => apply IEC_term in H; destruct H as [HM _] end.
  repeat (split; [solve [eauto]|]). eauto.
Qed.
Lemma IDMI_inv t m b top l l' h : calculateIDMI t m b top l = (l', Ok h) ->
  (exists db, getCurrentAxialDrivers (l_IDMIBottom l) t = Ok db) /\
  (exists dtp, getCurrentAxialDrivers (l_IDMITop l) t = Ok dtp) /\ l' = l.
Proof.
  unfold calculateIDMI. intros E. binv E. rd X. subst. binv E. rd X. subst. binv E. rd X. subst.
  binv E. rd X. subst. binv E. rd X. subst. injection E as <- <-. eauto.
Qed.
Lemma Anis_inv t m l l' h : calculateAnisotropy m t l = (l', Ok h) ->
  (exists K, getCurrentScalarValue (l_anisotropy l) t = Ok K) /\ exists c, l' = set_l_cache c l.
Proof.
  unfold calculateAnisotropy. intros E. binv E. rd X. subst. binv E. rd X. subst. binv E. upd X.
  binv E. rd X. subst. injection E as <- <-. eauto.
Qed.
Lemma Hdmi_inv t l l' h : calculateHdmiField t l = (l', Ok h) ->
  getCurrentAxialDrivers (l_Hdmi l) t = Ok h /\ l' = l.
Proof. unfold calculateHdmiField. intros E. binv E. rd X. subst. rd E. subst. auto. Qed.

Lemma Heff_inj_backward l t dt m b top dip fl l' h :
  calculateHeffDipoleInjection t dt m b top dip fl l = (l', Ok h) ->
  exists i, inputs_at l t i /\ l_Ms l <> 0 /\ l_thickness l <> 0.
Proof.
  intros E. unfold calculateHeffDipoleInjection in E.
  binv E. apply extField_inv in X. destruct X as [I1 [cc1 ->]]. binv E. upd X.
  binv E. apply HOe_inv in X. destruct X as [I2 [cc2 ->]]. rewrite ?set_cache_twice in *. binv E. upd X.
  binv E. rd X. subst. cbv zeta in E. binv E. upd X.
  binv E. apply IEC_inv in X. destruct X as ([jb I6] & [jt I7] & [j2b I8] & [j2t I9] & HM & [cc3 ->]).
  rewrite ?set_cache_twice in *. binv E. upd X.
  binv E. apply IDMI_inv in X. destruct X as ([db I10] & [dtp I11] & ->). binv E. upd X.
  binv E. apply Anis_inv in X. destruct X as ([K I5] & [cc4 ->]). rewrite ?set_cache_twice in *. binv E. upd X.
  binv E. apply Hdmi_inv in X. destruct X as (I3 & ->). binv E. upd X.
  binv E. unfold lift in X. injection X as _ I4.
  eexists (FI _ _ _ _ _ _ _ _ _ _ _).
  apply Rmult_neq_0_reg in HM. unfold inputs_at.
  cbn [fi_ext fi_oe fi_dmi fi_res fi_K fi_Jb fi_Jt fi_J2b fi_J2t fi_Db fi_Dt].
  split; [|exact HM].
  split; [exact I1|]. split; [exact I2|]. split; [exact I3|]. split; [exact I4|]. split; [exact I5|].
  split; [exact I6|]. split; [exact I7|]. split; [exact I8|]. split; [exact I9|]. split; [exact I10|exact I11].
Qed.

Lemma Heff_inj_iff l t dt m b top dip fl l' h :
  calculateHeffDipoleInjection t dt m b top dip fl l = (l', Ok h) <->
  exists i, inputs_at l t i /\ l_Ms l <> 0 /\ l_thickness l <> 0 /\
    h = H_eff l i m b top dip fl /\ l' = set_l_cache (field_cache l i m b top (l_cache l)) l.
Proof.
  split.
  - intros H. destruct (Heff_inj_backward _ _ _ _ _ _ _ _ _ _ H) as (i & Hi & HM & Ht).
    exists i. rewrite (@Heff_inj_forward l t dt m b top dip fl i) in H by assumption.
    injection H as <- <-. auto.
  - intros (i & Hi & HM & Ht & -> & ->). apply Heff_inj_forward; assumption.
Qed.

Lemma Heff_iff l t dt m b top fl l' h :
  calculateHeff t dt m b top fl l = (l', Ok h) <->
  exists i, inputs_at l t i /\ l_Ms l <> 0 /\ l_thickness l <> 0 /\
    h = H_eff l i m b top (dipole_total l b top) fl /\
    l' = set_l_cache (field_cache l i m b top (set_c_Hdipole (dipole_total l b top) (l_cache l))) l.
Proof.
  unfold calculateHeff, bind, get, modify. rewrite !tensor_term, vadd_Plus.
  fold (dipole_total l b top). rewrite Heff_inj_iff.
  split; intros (i & Hi & HM & Ht & Eh & El); exists i;
    (split; [exact Hi|]); (split; [exact HM|]); (split; [exact Ht|]);
    (split; [exact Eh|]); rewrite El; unfold upd_cache; destruct l; reflexivity.
Qed.

(** ** solveLLG *)
Lemma prefactor_eq a : 1 / (1 + a ^ 2) * - gamma0 = prefactor a.
Proof. unfold prefactor. generalize (conv_pos a). intros H. field. nra. Qed.
Lemma gyro_eq : GYRO = gamma0. Proof. reflexivity. Qed.
Lemma polariser_eq l b top : pick_reference l b top = polariser l b top.
Proof. reflexivity. Qed.

Lemma plain_eq a m H :
  vscale (vscale (vadd (c_cross m H) (vscale (c_cross m (c_cross m H)) a)) (- GYRO)) (1 / (1 + a ^ 2))
  = LLG_plain a m H.
Proof.
  unfold LLG_plain, LL. rewrite <- prefactor_eq, <- gyro_eq. destruct m, H; vsimp. apply vec_eq; ring.
Qed.
Lemma sot_eq a hdl hfl m H p :
  vscale (vscale (vadd (vadd (vadd (c_cross m H) (vscale (c_cross m (c_cross m H)) a))
     (vscale (c_cross m p) (hfl - a * hdl))) (vscale (c_cross m (c_cross m p)) (hdl + a * hfl))) (- GYRO))
     (1 / (1 + a ^ 2))
  = LLG_sot a hdl hfl m H p.
Proof.
  unfold LLG_sot, LL. rewrite <- prefactor_eq, <- gyro_eq. rewrite !c_cross_Cross.
  generalize (Cross m (Cross m H)); intros A. generalize (Cross m (Cross m p)); intros B.
  generalize (Cross m H); intros C. generalize (Cross m p); intros D.
  destruct A, B, C, D; vsimp. apply vec_eq; ring.
Qed.
Lemma stt_eq a k be x m H p :
  vscale (vadd (vadd (vscale (vadd (c_cross m H) (vscale (c_cross m (c_cross m H)) a)) (- GYRO))
     (vscale (vscale (c_cross m (c_cross m p)) (- (GYRO * x))) k))
     (vscale (vscale (c_cross m p) (GYRO * x)) be)) (1 / (1 + a ^ 2))
  = LLG_stt a k be x m H p.
Proof.
  unfold LLG_stt, LL. rewrite <- prefactor_eq, <- gyro_eq. rewrite !c_cross_Cross.
  generalize (Cross m (Cross m H)); intros A. generalize (Cross m (Cross m p)); intros B.
  generalize (Cross m H); intros C. generalize (Cross m p); intros D.
  destruct A, B, C, D; vsimp. apply vec_eq; ring.
Qed.
Lemma hbar_eq : HBAR = hbar. Proof. reflexivity. Qed.
Lemma e0_pos : 0 < e0. Proof. unfold e0. apply Rdiv_lt_0_compat; [lra|apply pow_lt; lra]. Qed.

Lemma eta_num l m p : (fdiv (l_spinPol l) (1 + l_slon l * c_dot m p) =
      if Req_EM_T (eta_den true (l_slon l) (Dot m p)) 0 then Err NonFinite
      else Ok (eta true (l_spinPol l) (l_slon l) (Dot m p))) /\
   (fdiv (l_spinPol l * l_slon l ^ 2) (l_slon l ^ 2 + 1 + (l_slon l ^ 2 - 1) * c_dot m p) =
      if Req_EM_T (eta_den false (l_slon l) (Dot m p)) 0 then Err NonFinite
      else Ok (eta false (l_spinPol l) (l_slon l) (Dot m p))).
Proof.
  rewrite c_dot_Dot. unfold eta, eta_den. split; [reflexivity|].
  replace (l_slon l ^ 2) with (l_slon l * l_slon l) by ring. reflexivity.
Qed.

Lemma stt_amp x aJ y : x = a_J aJ y -> x = x. Proof. reflexivity. Qed.

Lemma solveLLG_sound l t m dt b top H l' d :
  solveLLG t m dt b top H l = (l', Ok d) -> llg_spec l t m b top H d /\ same_but_cache l l'.
Proof.
  unfold solveLLG. unfold bind at 1. unfold get. unfold bind at 1. unfold lift at 1.
  rewrite fdiv_ok by (generalize (conv_pos (l_damping l)); lra). cbv beta iota zeta.
  rewrite polariser_eq. set (p := polariser l b top).
  destruct (l_includeSTT l) eqn:HSTT.
  - unfold bind at 1, lift at 1. destruct (getCurrentScalarValue (l_current l) t) as [I|] eqn:HI; [|discriminate].
    unfold bind at 1, modify. cbv beta iota. unfold bind at 1, lift at 1.
    destruct (fdiv (HBAR * I) (ELECTRON_CHARGE * l_Ms l * l_thickness l)) as [aJ|] eqn:HaJ; [|discriminate].
    apply fdiv_inv in HaJ. destruct HaJ as [Hden ->].
    unfold bind at 1, lift at 1. destruct (eta_num l m p) as [E1 E2]. rewrite E1, E2. clear E1 E2.
    assert (Hsel : (if l_alternativeSTT l
        then if Req_EM_T (eta_den true (l_slon l) (Dot m p)) 0 then Err NonFinite
             else Ok (eta true (l_spinPol l) (l_slon l) (Dot m p))
        else if Req_EM_T (eta_den false (l_slon l) (Dot m p)) 0 then Err NonFinite
             else Ok (eta false (l_spinPol l) (l_slon l) (Dot m p)))
       = if Req_EM_T (eta_den (l_alternativeSTT l) (l_slon l) (Dot m p)) 0 then Err NonFinite
         else Ok (eta (l_alternativeSTT l) (l_spinPol l) (l_slon l) (Dot m p))).
    { destruct (l_alternativeSTT l); reflexivity. }
    rewrite Hsel. clear Hsel.
    destruct (Req_EM_T (eta_den (l_alternativeSTT l) (l_slon l) (Dot m p)) 0) as [|Hed]; [discriminate|].
    unfold ret. intros E. injection E as <- <-. split; [|apply upd_cache_same].
    rewrite Rmult_assoc. rewrite stt_eq. rewrite hbar_eq. change ELECTRON_CHARGE with e0.
    fold (a_J I (l_Ms l) (l_thickness l)). apply llg_stt; try assumption.
    + intros E; apply Hden; rewrite E; ring.
    + intros E; apply Hden; rewrite E; ring.
  - destruct (l_includeSOT l) eqn:HSOT.
    + destruct (l_dynamicSOT l) eqn:Hdyn.
      * unfold bind at 1. unfold bind at 1, lift at 1.
        destruct (getCurrentScalarValue (l_dlDriver l) t) as [hdl|] eqn:H1; [|discriminate].
        unfold bind at 1, lift at 1.
        destruct (getCurrentScalarValue (l_flDriver l) t) as [hfl|] eqn:H2; [|discriminate].
        unfold ret, bind, modify. cbn [fst snd]. intros E. injection E as <- <-.
        split; [|eapply same_but_cache_trans; apply upd_cache_same].
        rewrite sot_eq. apply llg_sot_dynamic; assumption.
      * unfold bind at 1. unfold bind at 1, lift at 1.
        destruct (getCurrentScalarValue (l_current l) t) as [I|] eqn:H1; [|discriminate].
        unfold ret, bind, modify. cbn [fst snd]. intros E. injection E as <- <-.
        split; [|eapply same_but_cache_trans; [eapply same_but_cache_trans|]; apply upd_cache_same].
        rewrite sot_eq. apply llg_sot_static; assumption.
    + unfold ret. intros E. injection E as <- <-. split; [|apply same_but_cache_refl].
      rewrite plain_eq. apply llg_plain; assumption.
Qed.

Lemma solveLLG_complete l t m dt b top H d :
  llg_spec l t m b top H d -> exists l', solveLLG t m dt b top H l = (l', Ok d).
Proof.
  intros S. destruct (solveLLG t m dt b top H l) as [l' [d'|e]] eqn:E.
  - destruct (@solveLLG_sound _ _ _ _ _ _ _ _ _ E) as [S' _]. exists l'. do 2 f_equal.
    inversion S; inversion S'; subst; congruence.
  - exfalso. revert E. unfold solveLLG. unfold bind at 1. unfold get. unfold bind at 1. unfold lift at 1.
    rewrite fdiv_ok by (generalize (conv_pos (l_damping l)); lra). cbv beta iota zeta.
    rewrite polariser_eq. set (p := polariser l b top).
    inversion S as [H1 H2 Hd | I H1 H2 H3 H4 H5 Hd | hdl hfl H1 H2 H3 H4 H5 Hd | I H1 H2 H3 H4 Hd];
      rewrite H1, ?H2, ?H3.
    + discriminate.
    + unfold bind at 1, lift at 1.
      unfold bind at 1, modify. cbv beta iota. unfold bind at 1, lift at 1.
      assert (Hd2 : ELECTRON_CHARGE * l_Ms l * l_thickness l <> 0).
      { change ELECTRON_CHARGE with e0. generalize e0_pos; intros.
        repeat apply Rmult_integral_contrapositive_currified; lra || assumption. }
      rewrite fdiv_ok by exact Hd2.
      unfold bind at 1, lift at 1. destruct (eta_num l m p) as [E1 E2]. rewrite E1, E2. clear E1 E2.
      fold p in H5. destruct (l_alternativeSTT l); destruct Req_EM_T; try contradiction; discriminate.
    + unfold bind, lift, modify, ret. rewrite H4, H5. discriminate.
    + unfold bind, lift, modify, ret. rewrite H4. discriminate.
Qed.

Lemma solveLLG_iff l t m dt b top H d :
  (exists l', solveLLG t m dt b top H l = (l', Ok d)) <-> llg_spec l t m b top H d.
Proof.
  split; [|apply solveLLG_complete]. intros [l' E]. exact (proj1 (@solveLLG_sound _ _ _ _ _ _ _ _ _ E)).
Qed.

Lemma llg_spec_cache c l t m b top H d : llg_spec (set_l_cache c l) t m b top H d <-> llg_spec l t m b top H d.
Proof.
  split; intros S; inversion S; subst.
  - apply (llg_plain l); assumption. - apply (llg_stt l); assumption.
  - apply (llg_sot_dynamic l); assumption. - apply (llg_sot_static l); assumption.
  - apply (llg_plain (set_l_cache c l)); assumption.
  - apply (llg_stt (set_l_cache c l)); assumption.
  - apply (llg_sot_dynamic (set_l_cache c l)); assumption.
  - apply (llg_sot_static (set_l_cache c l)); assumption.
Qed.

(** Complete derivative: field then torque. *)
Lemma llg_total_iff l t m b top dt d :
  (exists l', calculateLLGWithFieldTorque t m b top dt l = (l', Ok d)) <->
  exists i, inputs_at l t i /\ l_Ms l <> 0 /\ l_thickness l <> 0 /\
    llg_spec l t m b top (H_eff l i m b top (dipole_total l b top) Zero) d.
Proof.
  unfold calculateLLGWithFieldTorque. split.
  - intros [l' E]. apply bind_inv in E. destruct E as (l1 & h & E1 & E2).
    apply Heff_iff in E1. destruct E1 as (i & Hi & HM & Ht & -> & ->). exists i.
    apply solveLLG_sound in E2. destruct E2 as [E2 _]. apply llg_spec_cache in E2. auto.
  - intros (i & Hi & HM & Ht & S).
    set (c := field_cache l i m b top (set_c_Hdipole (dipole_total l b top) (l_cache l))).
    assert (E : calculateHeff t dt m b top vnull l = (set_l_cache c l, Ok (H_eff l i m b top (dipole_total l b top) Zero))).
    { apply Heff_iff. exists i. auto. }
    apply (llg_spec_cache c) in S. apply solveLLG_complete with (dt := dt) in S. destruct S as [l' S].
    exists l'. unfold bind. rewrite E. exact S.
Qed.
Lemma llg_total_same l t m b top dt l' d :
  calculateLLGWithFieldTorque t m b top dt l = (l', Ok d) -> same_but_cache l l'.
Proof.
  unfold calculateLLGWithFieldTorque. intros E. apply bind_inv in E. destruct E as (l1 & h & E1 & E2).
  apply Heff_iff in E1. destruct E1 as (i & Hi & HM & Ht & -> & ->).
  apply solveLLG_sound in E2. destruct E2 as [_ E2]. eapply same_but_cache_trans; [|exact E2].
  apply same_but_cache_set.
Qed.
