(** Proofs for T_Layer.v (C01, C02, C15-C18, C20). *)
From Verif Require Export P_Layer.
Open Scope R_scope.
Open Scope st_scope.

(** ** Vector identities *)
Lemma Dot_Scal a k b : Dot a (Scal k b) = k * Dot a b.
Proof. vring. Qed.
Lemma Dot_Plus a b c : Dot a (Plus b c) = Dot a b + Dot a c.
Proof. vring. Qed.
Lemma Cross_Scal a k b : Cross a (Scal k b) = Scal k (Cross a b).
Proof. vring. Qed.
Lemma Cross_Zero_r a : Cross a Zero = Zero.
Proof. vring. Qed.
Lemma Scal_Zero k : Scal k Zero = Zero.
Proof. vring. Qed.
Lemma Plus_Zero_l a : Plus Zero a = a.
Proof. vring. Qed.
Lemma Plus_Zero_r a : Plus a Zero = a.
Proof. vring. Qed.
Lemma Dot_double m H : Dot H (Cross m (Cross m H)) = - Norm2 (Cross m H).
Proof. vring. Qed.

(** ** C01 *)
Lemma llg_spec_tangent l t m b top H d : llg_spec l t m b top H d -> Dot m d = 0.
Proof.
  intros S; inversion S; unfold LLG_plain, LLG_stt, LLG_sot, LL;
    rewrite ?Dot_Scal, ?Dot_Plus, ?Dot_Scal, ?Dot_Cross_l; ring.
Qed.
Lemma torque_tangent l t m b top dt l' d :
  calculateLLGWithFieldTorque t m b top dt l = (l', Ok d) -> Dot m d = 0.
Proof.
  intros E. assert (E' : exists l', calculateLLGWithFieldTorque t m b top dt l = (l', Ok d)) by eauto.
  apply llg_total_iff in E'. destruct E' as (i & _ & _ & _ & S). exact (llg_spec_tangent _ _ _ _ _ _ _ S).
Qed.
Lemma torque_tangent_injected l t m b top dip dt fl l' d :
  calculateLLGWithFieldTorqueDipoleInjection t m b top dip dt fl l = (l', Ok d) -> Dot m d = 0.
Proof.
  unfold calculateLLGWithFieldTorqueDipoleInjection. intros E. apply bind_inv in E.
  destruct E as (l1 & h & _ & E). apply solveLLG_sound in E. destruct E as [S _].
  exact (llg_spec_tangent _ _ _ _ _ _ _ S).
Qed.
Lemma stochastic_spec l m dW : stochasticTorque l m dW = Ok (LLG_plain (l_damping l) m dW).
Proof.
  unfold stochasticTorque. generalize (conv_pos (l_damping l)); intros Hc.
  rewrite fdiv_ok by lra. cbn [rbind]. f_equal. rewrite <- plain_eq.
  rewrite !c_cross_Cross. generalize (Cross m (Cross m dW)); intros A. generalize (Cross m dW); intros B.
  destruct A, B; vsimp. unfold Rdiv. apply vec_eq; ring.
Qed.
Lemma stochastic_tangent l m dW d : stochasticTorque l m dW = Ok d -> Dot m d = 0.
Proof.
  rewrite stochastic_spec. intros E. injection E as <-. unfold LLG_plain, LL.
  rewrite Dot_Scal, Dot_Plus, Dot_Scal, !Dot_Cross_l. ring.
Qed.

(** ** C02 *)
Lemma plain_power a m H : Dot H (LLG_plain a m H) = gamma0 * a / (1 + a * a) * Norm2 (Cross m H).
Proof.
  unfold LLG_plain, LL, prefactor. rewrite Dot_Scal, Dot_Plus, Dot_Scal, Dot_Cross_r, Dot_double.
  field. nra.
Qed.
Lemma gamma_pos : 0 < gamma0. Proof. unfold gamma0; lra. Qed.
Lemma plain_dissipates l t m b top H l' d dt :
  l_includeSTT l = false -> l_includeSOT l = false ->
  solveLLG t m dt b top H l = (l', Ok d) ->
  let a := l_damping l in
  Dot H d = gamma0 * a / (1 + a * a) * Norm2 (Cross m H) /\
  (0 <= a -> 0 <= Dot H d) /\ (a = 0 -> Dot H d = 0) /\
  (0 < a -> Dot H d = 0 -> Cross m H = Zero).
Proof.
  intros H1 H2 E a. apply solveLLG_sound in E. destruct E as [S _].
  assert (Ed : d = LLG_plain a m H) by (unfold a; inversion S; congruence). clear S.
  rewrite Ed, plain_power. fold gamma0.
  assert (Hp : 0 < 1 + a * a) by nra. assert (Hi := Rinv_0_lt_compat _ Hp).
  assert (Hg := gamma_pos). assert (Hn := Norm2_nonneg (Cross m H)).
  split; [reflexivity|]. unfold Rdiv. split; [|split].
  - intros Ha. apply Rmult_le_pos; [|exact Hn]. apply Rmult_le_pos; [nra|lra].
  - intros ->. ring.
  - intros Ha E. apply Norm2_zero. apply Rmult_integral in E. destruct E as [E|E]; [|exact E].
    exfalso. assert (0 < gamma0 * a) by nra. assert (0 < gamma0 * a * / (1 + a * a)) by (apply Rmult_lt_0_compat; lra).
    lra.
Qed.

(** ** C15 *)
Lemma heff_spec l t dt m b top fl h :
  (exists l', calculateHeff t dt m b top fl l = (l', Ok h)) <->
  exists i, inputs_at l t i /\ l_Ms l <> 0 /\ l_thickness l <> 0 /\
    h = H_eff l i m b top (dipole_total l b top) fl.
Proof.
  split.
  - intros [l' E]. apply Heff_iff in E. destruct E as (i & ? & ? & ? & ? & _). eauto.
  - intros (i & H1 & H2 & H3 & H4). eexists. apply Heff_iff. exists i. repeat split; try assumption.
    apply H1. all: apply H1.
Qed.
Lemma heff_inj_spec l t dt m b top dip fl h :
  (exists l', calculateHeffDipoleInjection t dt m b top dip fl l = (l', Ok h)) <->
  exists i, inputs_at l t i /\ l_Ms l <> 0 /\ l_thickness l <> 0 /\ h = H_eff l i m b top dip fl.
Proof.
  split.
  - intros [l' E]. apply Heff_inj_iff in E. destruct E as (i & ? & ? & ? & ? & _). eauto.
  - intros (i & H1 & H2 & H3 & H4). eexists. apply Heff_inj_iff. exists i. eauto 6.
Qed.
Lemma inputs_unique l t i i' : inputs_at l t i -> inputs_at l t i' -> i = i'.
Proof.
  intros (A1&A2&A3&A4&A5&A6&A7&A8&A9&A10&A11) (B1&B2&B3&B4&B5&B6&B7&B8&B9&B10&B11).
  destruct i, i'. cbn in *. congruence.
Qed.
Lemma heff_frame l t dt m b top fl l' h :
  calculateHeff t dt m b top fl l = (l', Ok h) -> same_but_cache l l'.
Proof. intros E. apply Heff_iff in E. destruct E as (i & _ & _ & _ & _ & ->). apply same_but_cache_set. Qed.

Lemma Heff_fields_affine l i i' m b top dip fl fl' :
  fi_K i = fi_K i' -> fi_Jb i = fi_Jb i' -> fi_Jt i = fi_Jt i' -> fi_J2b i = fi_J2b i' ->
  fi_J2t i = fi_J2t i' -> fi_Db i = fi_Db i' -> fi_Dt i = fi_Dt i' ->
  Minus (H_eff l i' m b top dip fl') (H_eff l i m b top dip fl) =
  Sum [Minus (fi_ext i') (fi_ext i); Minus (fi_oe i') (fi_oe i); Minus (fi_dmi i') (fi_dmi i);
       Minus (fi_res i') (fi_res i); Minus fl' fl].
Proof.
  destruct i as [e o d r K Jb Jt J2b J2t Db Dt], i' as [e' o' d' r' K' Jb' Jt' J2b' J2t' Db' Dt'].
  cbn [fi_K fi_Jb fi_Jt fi_J2b fi_J2t fi_Db fi_Dt]. intros -> -> -> -> -> -> ->.
  unfold H_eff, IEC_total, IDMI_total, Sum, fold_right.
  cbn [fi_ext fi_oe fi_dmi fi_res fi_K fi_Jb fi_Jt fi_J2b fi_J2t fi_Db fi_Dt].
  generalize (H_anis (l_anis l) K' (l_Ms l) m) (Plus (H_iec Jb' J2b' (l_Ms l * l_thickness l) m b)
    (H_iec Jt' J2t' (l_Ms l * l_thickness l) m top))
    (Plus (H_idmi Db' (l_Ms l * l_thickness l) b) (H_idmi Dt' (l_Ms l * l_thickness l) top))
    (H_tensor (l_demag l) (l_Ms l) m).
  intros h1 h2 h3 h4. clear.
  repeat match goal with v : cvec |- _ => destruct v end. vsimp. apply vec_eq; ring.
Qed.

Lemma heff_affine l t dt m b top fl fl' ex oe dm rs i i' l1 l2 h h' :
  let l' := set_l_external ex (set_l_Oersted oe (set_l_Hdmi dm (set_l_Hreserved rs l))) in
  inputs_at l t i -> inputs_at l' t i' ->
  calculateHeff t dt m b top fl l = (l1, Ok h) -> calculateHeff t dt m b top fl' l' = (l2, Ok h') ->
  Minus h' h =
  Sum [Minus (fi_ext i') (fi_ext i); Minus (fi_oe i') (fi_oe i); Minus (fi_dmi i') (fi_dmi i);
       Minus (fi_res i') (fi_res i); Minus fl' fl].
Proof.
  intros l' Hi Hi' E E'.
  apply Heff_iff in E. destruct E as (j & Hj & _ & _ & -> & _).
  apply Heff_iff in E'. destruct E' as (j' & Hj' & _ & _ & -> & _).
  rewrite (inputs_unique _ _ _ _ Hj Hi) in *. rewrite (inputs_unique _ _ _ _ Hj' Hi') in *.
  destruct Hi as (A1&A2&A3&A4&A5&A6&A7&A8&A9&A10&A11), Hi' as (B1&B2&B3&B4&B5&B6&B7&B8&B9&B10&B11).
  unfold l' in *. cbn [l_anisotropy l_IECBottom l_IECTop l_QuadBottom l_QuadTop l_IDMIBottom l_IDMITop
    set_l_external set_l_Oersted set_l_Hdmi set_l_Hreserved] in B5, B6, B7, B8, B9, B10, B11.
  change (H_eff (set_l_external ex (set_l_Oersted oe (set_l_Hdmi dm (set_l_Hreserved rs l)))) i' m b top
     (dipole_total (set_l_external ex (set_l_Oersted oe (set_l_Hdmi dm (set_l_Hreserved rs l)))) b top) fl')
    with (H_eff l i' m b top (dipole_total l b top) fl').
  apply Heff_fields_affine; congruence.
Qed.

(** Cached (logged) contributions after a field evaluation. *)
Lemma heff_logged l t dt m b top fl l' h :
  calculateHeff t dt m b top fl l = (l', Ok h) ->
  exists i, inputs_at l t i /\
    c_Hext (l_cache l') = fi_ext i /\ c_HAnis (l_cache l') = H_anis (l_anis l) (fi_K i) (l_Ms l) m /\
    c_HIEC (l_cache l') = IEC_total l i m b top /\
    c_Hdemag (l_cache l') = H_tensor (l_demag l) (l_Ms l) m /\
    c_K_log (l_cache l') = fi_K i /\ c_Jbottom_log (l_cache l') = fi_Jb i /\
    c_Jtop_log (l_cache l') = fi_Jt i /\ c_Hfluctuation (l_cache l') = c_Hfluctuation (l_cache l).
Proof.
  intros E. apply Heff_iff in E. destruct E as (i & Hi & _ & _ & _ & ->). exists i.
  split; [exact Hi|]. repeat split.
Qed.

(** ** C16, C17: gradients *)
Lemma deriv_quadratic (c1 c2 x v : R) :
  derivable_pt_lim (fun s => - c1 * (x + s * v) - c2 * (x + s * v) ^ 2) 0 (- (c1 + 2 * c2 * x) * v).
Proof.
  assert (E : (- (c1 + 2 * c2 * x) * v) =
     (- c1 * (0 + (1 * v + 0 * 0)) - c2 * (INR 2 * (x + 0 * v) ^ 1 * (0 + (1 * v + 0 * 0))))).
  { cbn [INR pow]. ring. }
  rewrite E.
  assert (L : derivable_pt_lim (fun s => x + s * v) 0 (0 + (1 * v + 0 * 0))).
  { apply (derivable_pt_lim_plus (fun _ => x) (fun s => s * v)); [apply derivable_pt_lim_const|].
    apply (derivable_pt_lim_mult (fun s => s) (fun _ => v)); [apply derivable_pt_lim_id|apply derivable_pt_lim_const]. }
  apply (derivable_pt_lim_minus (fun s => - c1 * (x + s * v)) (fun s => c2 * (x + s * v) ^ 2)).
  - apply (derivable_pt_lim_scal (fun s => x + s * v)). exact L.
  - apply (derivable_pt_lim_scal (fun s => (x + s * v) ^ 2)).
    apply (derivable_pt_lim_comp (fun s => x + s * v) (fun y => y ^ 2)); [exact L|].
    apply (derivable_pt_lim_pow (x + 0 * v) 2).
Qed.
Lemma deriv_ext f g x d : (forall s, f s = g s) -> derivable_pt_lim f x d -> derivable_pt_lim g x d.
Proof. intros H D eps He. destruct (D eps He) as [delta Hd]. exists delta. intros h H1 H2. rewrite <- !H. auto. Qed.

Lemma anis_gradient l t m v K l' h :
  getCurrentScalarValue (l_anisotropy l) t = Ok K ->
  calculateAnisotropy m t l = (l', Ok h) ->
  derivable_pt_lim (fun s => - K * (Dot (l_anis l) (Plus m (Scal s v))) ^ 2) 0 (- l_Ms l * Dot h v).
Proof.
  intros HK E. assert (HM : l_Ms l <> 0).
  { unfold calculateAnisotropy in E. binv E. rd X. subst. binv E. rd X. subst. binv E. upd X. binv E. rd X. subst.
    match goal with H : fdiv _ _ = Ok _ |- _ => apply fdiv_inv in H; destruct H as [H _]; exact H end. }
  rewrite (Anis_ok _ _ _ _ HK HM) in E. injection E as _ <-. unfold H_anis.
  apply (deriv_ext (fun s => - 0 * (Dot (l_anis l) m + s * Dot (l_anis l) v) - K * (Dot (l_anis l) m + s * Dot (l_anis l) v) ^ 2)).
  { intros s. rewrite Dot_Plus, Dot_Scal. ring. }
  replace (- l_Ms l * Dot (Scal (2 * K / l_Ms l * Dot (l_anis l) m) (l_anis l)) v) with
    (- (0 + 2 * K * Dot (l_anis l) m) * Dot (l_anis l) v).
  - apply deriv_quadratic.
  - rewrite (Dot_comm (Scal _ _)), Dot_Scal, (Dot_comm v). field. exact HM.
Qed.

Lemma iec_gradient l J J2 m c v h :
  calculateIEC_ l J J2 m c = Ok h ->
  derivable_pt_lim (fun s => - J * Dot c (Plus m (Scal s v)) - J2 * (Dot c (Plus m (Scal s v))) ^ 2) 0
    (- (l_Ms l * l_thickness l) * Dot h v).
Proof.
  intros E. apply IEC_term in E. destruct E as [HM ->]. unfold H_iec.
  apply (deriv_ext (fun s => - J * (Dot c m + s * Dot c v) - J2 * (Dot c m + s * Dot c v) ^ 2)).
  { intros s. rewrite Dot_Plus, Dot_Scal. ring. }
  replace (- (l_Ms l * l_thickness l) * Dot (Scal ((J + 2 * J2 * Dot m c) / (l_Ms l * l_thickness l)) c) v) with
    (- (J + 2 * J2 * Dot c m) * Dot c v).
  - apply deriv_quadratic.
  - rewrite (Dot_comm (Scal _ _)), Dot_Scal, (Dot_comm v), (Dot_comm m).
    set (k := l_Ms l * l_thickness l) in *. clearbody k. field. exact HM.
Qed.

Lemma iec_full t m b top l l' h : calculateIEC t m b top l = (l', Ok h) ->
  exists jb jt j2b j2t,
   getCurrentScalarValue (l_IECBottom l) t = Ok jb /\ getCurrentScalarValue (l_IECTop l) t = Ok jt /\
   getCurrentScalarValue (l_QuadBottom l) t = Ok j2b /\ getCurrentScalarValue (l_QuadTop l) t = Ok j2t /\
   l_Ms l * l_thickness l <> 0 /\
   h = Plus (H_iec jb j2b (l_Ms l * l_thickness l) m b) (H_iec jt j2t (l_Ms l * l_thickness l) m top).
Proof.
  intros E. assert (E' := E). apply IEC_inv in E'.
  destruct E' as ([jb E1] & [jt E2] & [j2b E3] & [j2t E4] & HM & _).
  rewrite (IEC_ok _ _ _ _ _ _ _ _ _ E1 E2 E3 E4 HM) in E. injection E as _ <-.
  exists jb, jt, j2b, j2t. auto 8.
Qed.
Lemma H_iec_Zero J J2 k m : H_iec J J2 k m Zero = Zero.
Proof. unfold H_iec. apply Scal_Zero. Qed.

Lemma iec_action_reaction t m1 m2 lo up lo' up' h1 h2 :
  l_IECTop lo = l_IECBottom up -> l_QuadTop lo = l_QuadBottom up ->
  calculateIEC t m1 vnull m2 lo = (lo', Ok h1) -> calculateIEC t m2 m1 vnull up = (up', Ok h2) ->
  Plus (Scal (l_Ms lo * l_thickness lo) (Cross m1 h1)) (Scal (l_Ms up * l_thickness up) (Cross m2 h2)) = Zero.
Proof.
  intros H1 H2 E1 E2.
  apply iec_full in E1. destruct E1 as (jb & jt & j2b & j2t & A1 & A2 & A3 & A4 & HM1 & ->).
  apply iec_full in E2. destruct E2 as (kb & kt & k2b & k2t & B1 & B2 & B3 & B4 & HM2 & ->).
  rewrite H1 in A2. rewrite H2 in A4. assert (jt = kb) by congruence. assert (j2t = k2b) by congruence. subst.
  rewrite vnull_Zero, !H_iec_Zero, Plus_Zero_l, Plus_Zero_r. unfold H_iec.
  rewrite !Cross_Scal. rewrite (Dot_comm m2 m1).
  set (k1 := l_Ms lo * l_thickness lo) in *. set (k2 := l_Ms up * l_thickness up) in *. clearbody k1 k2.
  destruct m1 as [a1 a2 a3], m2 as [b1 b2 b3]. vsimp. apply vec_eq; field; auto.
Qed.

(** ** C18 *)
Lemma idmi_full t m b top l l' h : calculateIDMI t m b top l = (l', Ok h) ->
  exists db dtp, getCurrentAxialDrivers (l_IDMIBottom l) t = Ok db /\ getCurrentAxialDrivers (l_IDMITop l) t = Ok dtp /\
   l_Ms l * l_thickness l <> 0 /\
   h = Plus (H_idmi db (l_Ms l * l_thickness l) b) (H_idmi dtp (l_Ms l * l_thickness l) top).
Proof.
  unfold calculateIDMI. intros E. binv E. rd X. subst. binv E. rd X. subst. binv E. rd X. subst.
  binv E. rd X. subst. binv E. rd X. subst. injection E as <- <-.
  repeat match goal with H : calculateIDMI_ _ _ _ _ = _ |- _ => apply IDMI_term in H; destruct H as [? H]; subst end.
  do 2 eexists. split; [eassumption|]. split; [eassumption|]. split; [assumption|]. apply vadd_Plus.
Qed.
Lemma H_idmi_Zero D k : H_idmi D k Zero = Zero.
Proof. unfold H_idmi. vring. Qed.
Lemma idmi_total_torque t m1 m2 lo up lo' up' h1 h2 D :
  getCurrentAxialDrivers (l_IDMITop lo) t = Ok D -> getCurrentAxialDrivers (l_IDMIBottom up) t = Ok D ->
  calculateIDMI t m1 vnull m2 lo = (lo', Ok h1) -> calculateIDMI t m2 m1 vnull up = (up', Ok h2) ->
  let total := Plus (Scal (l_Ms lo * l_thickness lo) (Cross m1 h1)) (Scal (l_Ms up * l_thickness up) (Cross m2 h2)) in
  total = Plus (Cross m1 (Cross m2 D)) (Cross m2 (Cross m1 D)) /\
  Dot D total = 2 * (Dot m1 D * Dot m2 D - Dot m1 m2 * Norm2 D).
Proof.
  intros H1 H2 E1 E2.
  apply idmi_full in E1. destruct E1 as (db & dtp & A1 & A2 & HM1 & ->).
  apply idmi_full in E2. destruct E2 as (eb & etp & B1 & B2 & HM2 & ->).
  assert (dtp = D) by congruence. assert (eb = D) by congruence. subst dtp eb.
  rewrite vnull_Zero, !H_idmi_Zero, Plus_Zero_l, Plus_Zero_r.
  assert (T : Plus (Scal (l_Ms lo * l_thickness lo) (Cross m1 (H_idmi D (l_Ms lo * l_thickness lo) m2)))
     (Scal (l_Ms up * l_thickness up) (Cross m2 (H_idmi D (l_Ms up * l_thickness up) m1))) =
     Plus (Cross m1 (Cross m2 D)) (Cross m2 (Cross m1 D))).
  { unfold H_idmi. rewrite !Cross_Scal.
    set (k1 := l_Ms lo * l_thickness lo) in *. set (k2 := l_Ms up * l_thickness up) in *. clearbody k1 k2.
    generalize (Cross m1 (Cross m2 D)) (Cross m2 (Cross m1 D)). intros [x1 x2 x3] [y1 y2 y3]. vsimp. apply vec_eq; field; auto. }
  cbv zeta. rewrite T. split; [reflexivity|]. clear. vring.
Qed.

(** ** C20 *)
Definition without_torques (l : layer) : layer := set_l_includeSOT false (set_l_includeSTT false l).
Lemma LL_no_torque x y m p : Cross m p = Zero ->
  Plus (Scal x (Cross m (Cross m p))) (Scal y (Cross m p)) = Zero.
Proof. intros ->. rewrite Cross_Zero_r. vring. Qed.
Lemma spec_no_torque l t m b top H d : Cross m (polariser l b top) = Zero ->
  llg_spec l t m b top H d -> d = LLG_plain (l_damping l) m H.
Proof.
  intros Hp S. inversion S; subst; [reflexivity| | |]; unfold LLG_stt, LLG_sot, LLG_plain; f_equal;
    rewrite Hp, Cross_Zero_r, !Scal_Zero, !Plus_Zero_r; reflexivity.
Qed.
Lemma inputs_without l t i : inputs_at (without_torques l) t i <-> inputs_at l t i.
Proof. reflexivity. Qed.
Lemma torques_vanish l t m b top dt l' d : Cross m (polariser l b top) = Zero ->
  calculateLLGWithFieldTorque t m b top dt l = (l', Ok d) ->
  exists l'', calculateLLGWithFieldTorque t m b top dt (without_torques l) = (l'', Ok d).
Proof.
  intros Hp E. assert (E' : exists l', calculateLLGWithFieldTorque t m b top dt l = (l', Ok d)) by eauto.
  apply llg_total_iff in E'. destruct E' as (i & Hi & HM & Ht & S).
  apply llg_total_iff. exists i. apply inputs_without in Hi. split; [exact Hi|].
  split; [exact HM|]. split; [exact Ht|]. apply spec_no_torque in S; [|exact Hp]. subst d.
  apply (llg_plain (without_torques l)); reflexivity.
Qed.
