(** Proofs about single-layer and junction steps. *)
From Verif Require Export P_LayerProps S_Step.
Open Scope R_scope.
Open Scope st_scope.

(** ** Frame *)
Lemma static_refl l : static l l.
Proof. exists (l_mag l), (l_cache l), (l_rpos l), (l_bfn l). destruct l; reflexivity. Qed.
Lemma static_trans a b c : static a b -> static b c -> static a c.
Proof.
  intros (m & ch & rp & bf & ->) (m' & c' & rp' & bf' & ->). exists m', c', rp', bf'. destruct a; reflexivity.
Qed.
Lemma static_sym a b : static a b -> static b a.
Proof.
  intros (m & ch & rp & bf & ->). exists (l_mag a), (l_cache a), (l_rpos a), (l_bfn a). destruct a; reflexivity.
Qed.
Lemma static_cache c l : static l (set_l_cache c l).
Proof. exists (l_mag l), c, (l_rpos l), (l_bfn l). destruct l; reflexivity. Qed.
Lemma static_upd f l : static l (upd_cache f l).
Proof. apply static_cache. Qed.
Lemma static_mag m l : static l (set_l_mag m l).
Proof. exists m, (l_cache l), (l_rpos l), (l_bfn l). destruct l; reflexivity. Qed.
Lemma static_rpos n l : static l (set_l_rpos n l).
Proof. exists (l_mag l), (l_cache l), n, (l_bfn l). destruct l; reflexivity. Qed.
Lemma static_bfn n l : static l (set_l_bfn n l).
Proof. exists (l_mag l), (l_cache l), (l_rpos l), n. destruct l; reflexivity. Qed.
Lemma static_same_cache l l' : same_but_cache l l' -> static l l'.
Proof. intros ->. apply static_cache. Qed.
Lemma static_inputs l l' t i : static l l' -> inputs_at l t i -> inputs_at l' t i.
Proof. intros (m & c & rp & bf & ->) H. exact H. Qed.
Lemma static_llg l l' t m b top H d : static l l' -> llg_spec l t m b top H d -> llg_spec l' t m b top H d.
Proof.
  intros (m' & c & rp & bf & ->) S. inversion S; subst.
  - apply (llg_plain (set_l_mag m' (set_l_cache c (set_l_rpos rp (set_l_bfn bf l))))); assumption.
  - apply (llg_stt (set_l_mag m' (set_l_cache c (set_l_rpos rp (set_l_bfn bf l))))); assumption.
  - apply (llg_sot_dynamic (set_l_mag m' (set_l_cache c (set_l_rpos rp (set_l_bfn bf l))))); assumption.
  - apply (llg_sot_static (set_l_mag m' (set_l_cache c (set_l_rpos rp (set_l_bfn bf l))))); assumption.
Qed.
Lemma static_rhs l l' t m b top d : static l l' -> rhs l t m b top d -> rhs l' t m b top d.
Proof.
  intros Hs (i & H1 & H2 & H3 & H4). exists i. split; [eapply static_inputs; eassumption|].
  pose proof (static_llg _ _ _ _ _ _ _ _ Hs H4) as H5.
  destruct Hs as (m' & c & rp & bf & ->). split; [exact H2|]. split; [exact H3|]. exact H5.
Qed.
Lemma static_rhs_inj l l' t m b top dip d : static l l' -> rhs_inj l t m b top dip d -> rhs_inj l' t m b top dip d.
Proof.
  intros Hs (i & H1 & H2 & H3 & H4). exists i. split; [eapply static_inputs; eassumption|].
  pose proof (static_llg _ _ _ _ _ _ _ _ Hs H4) as H5.
  destruct Hs as (m' & c & rp & bf & ->). split; [exact H2|]. split; [exact H3|]. exact H5.
Qed.

Ltac kstep := first
  [ apply (keeps_bind static static_trans); [|intros ?]
  | apply (keeps_ret static static_refl) | apply (keeps_fail static static_refl)
  | apply (keeps_lift static static_refl) | apply (keeps_get static static_refl)
  | apply (keeps_modify static static_refl static_trans); intros ?; first [apply static_upd | apply static_mag]
  | apply (keeps_modify static); intros ?; first [apply static_upd | apply static_mag]
  | match goal with |- keeps _ (if ?c then _ else _) => destruct c end
  | progress cbv zeta ].
Lemma keeps_heff_inj t dt m b top dip fl : keeps static (calculateHeffDipoleInjection t dt m b top dip fl).
Proof.
  unfold calculateHeffDipoleInjection, calculateExternalField, calculateHOeField, calculateIEC, calculateIDMI,
    calculateAnisotropy, calculateHdmiField. repeat kstep.
Qed.
Lemma keeps_heff t dt m b top fl : keeps static (calculateHeff t dt m b top fl).
Proof. unfold calculateHeff. repeat kstep. Qed.
Lemma keeps_solve t m dt b top h : keeps static (solveLLG t m dt b top h).
Proof. unfold solveLLG. repeat kstep. Qed.
Lemma keeps_llg t m b top dt : keeps static (calculateLLGWithFieldTorque t m b top dt).
Proof. unfold calculateLLGWithFieldTorque. kstep; [apply keeps_heff|apply keeps_solve]. Qed.
Lemma keeps_llg_inj t m b top dip dt fl : keeps static (calculateLLGWithFieldTorqueDipoleInjection t m b top dip dt fl).
Proof. unfold calculateLLGWithFieldTorqueDipoleInjection. kstep; [apply keeps_heff_inj|apply keeps_solve]. Qed.
Lemma keeps_rk4g f t dt : (forall t m, keeps static (f t m)) -> keeps static (rk4_generic f t dt).
Proof. intros H. unfold rk4_generic. repeat first [apply H | kstep]. Qed.
Lemma keeps_rk4 t dt b top : keeps static (rk4_step t dt b top).
Proof. apply keeps_rk4g. intros. apply keeps_llg. Qed.
Lemma keeps_rk4_inj t dt b top dip : keeps static (rk4_stepDipoleInjection t dt b top dip).
Proof. apply keeps_rk4g. intros. apply keeps_llg_inj. Qed.
Lemma keeps_draw : keeps static draw.
Proof. intros l. apply static_rpos. Qed.
Lemma keeps_langevin t dt : keeps static (getStochasticLangevinVector t dt).
Proof. unfold getStochasticLangevinVector. repeat first [apply keeps_draw | kstep]. Qed.
Lemma keeps_onef : keeps static getOneFVector.
Proof.
  intros l. unfold getOneFVector, bind, get. destruct (Req_EM_T (l_nScale l) 0); [apply static_refl|].
  destruct (l_bfn l) as [nn|]; [|apply static_refl]. destruct (tickVector nn) as [n' v]. apply static_bfn.
Qed.
Lemma keeps_noise t dt : keeps static (drawNoise t dt).
Proof. unfold drawNoise. repeat first [apply keeps_langevin | apply keeps_onef | kstep]. Qed.

(** ** Normalisation *)
Lemma normalize_spec v : Normalised v (vnormalize v).
Proof.
  destruct (zero_dec v) as [->|H].
  - left. split; [reflexivity|apply vnormalize_zero].
  - right. split; [exact H|apply vnormalize_nonzero, H].
Qed.
Lemma Normalised_fun v u u' : Normalised v u -> Normalised v u' -> u = u'.
Proof. intros [[A B]|[A B]] [[C D]|[C D]]; subst; try contradiction; reflexivity. Qed.
Lemma Normalised_iff v u : Normalised v u <-> u = vnormalize v.
Proof. split; [intros H; exact (Normalised_fun _ _ _ H (normalize_spec v))|intros ->; apply normalize_spec]. Qed.

(** ** RK4 *)
Lemma rhs_iff l t m b top dt d :
  (exists l', calculateLLGWithFieldTorque t m b top dt l = (l', Ok d)) <-> rhs l t m b top d.
Proof. apply llg_total_iff. Qed.
Lemma rhs_inj_iff l t m b top dip dt d :
  (exists l', calculateLLGWithFieldTorqueDipoleInjection t m b top dip dt vnull l = (l', Ok d)) <-> rhs_inj l t m b top dip d.
Proof.
  unfold calculateLLGWithFieldTorqueDipoleInjection, rhs_inj. split.
  - intros [l' E]. apply bind_inv in E. destruct E as (l1 & h & E1 & E2).
    apply Heff_inj_iff in E1. destruct E1 as (i & Hi & HM & Ht & -> & ->).
    apply solveLLG_sound in E2. destruct E2 as [S _]. apply llg_spec_cache in S. exists i. auto.
  - intros (i & Hi & HM & Ht & S). pose proof (Heff_inj_forward l t dt m b top dip vnull i Hi HM Ht) as E.
    assert (S' := proj2 (llg_spec_cache (field_cache l i m b top (l_cache l)) l t m b top _ d) S).
    destruct (solveLLG_complete _ _ _ dt _ _ _ _ S') as [l' E'].
    exists l'. unfold bind. rewrite E. exact E'.
Qed.
Lemma llg_inj_same l t m b top dip dt fl l' d :
  calculateLLGWithFieldTorqueDipoleInjection t m b top dip dt fl l = (l', Ok d) -> same_but_cache l l'.
Proof.
  unfold calculateLLGWithFieldTorqueDipoleInjection. intros E. apply bind_inv in E. destruct E as (l1 & h & E1 & E2).
  apply Heff_inj_iff in E1. destruct E1 as (i & Hi & HM & Ht & -> & ->).
  apply solveLLG_sound in E2. destruct E2 as [_ E2]. eapply same_but_cache_trans; [|exact E2].
  apply same_but_cache_set.
Qed.

Lemma modify_inv {S} (f : S -> S) s s' u : modify f s = (s', Ok u) -> s' = f s.
Proof. unfold modify. generalize (f s). intros x E. injection E as <-. reflexivity. Qed.
Lemma lift_vdiv6 (a : cvec) (l l' : layer) v : lift (vdiv a 6) l = (l', Ok v) -> l' = l /\ v = Scal (/ 6) a.
Proof.
  unfold lift. rewrite vdiv_ok by lra. generalize (Scal (/ 6) a). intros w E. injection E as <- <-. auto.
Qed.
Section RK4gen.
  Context (f : R -> cvec -> ST layer cvec) (F : layer -> R -> cvec -> cvec -> Prop).
  Context (Hf : forall l t m d, (exists l', f t m l = (l', Ok d)) <-> F l t m d)
          (Hsame : forall l t m d l', f t m l = (l', Ok d) -> same_but_cache l l')
          (HF : forall l l' t m d, static l l' -> F l t m d -> F l' t m d).
  Lemma fstep l t m l' d : f t m l = (l', Ok d) -> F l t m d /\ exists c, l' = set_l_cache c l.
  Proof. intros E. split; [apply Hf; eauto|]. apply same_but_cache_ex. eapply Hsame; eassumption. Qed.
  Lemma fback c l t m d : F (set_l_cache c l) t m d -> F l t m d.
  Proof. apply HF. apply static_sym, static_cache. Qed.
  Lemma rk4_stage_args m dt g : vadd m (vscale (vscale g dt) (1 / 2)) = Plus m (Scal (dt / 2) g).
  Proof. destruct m, g; vsimp. apply vec_eq; field. Qed.
  Lemma rk4_stage_last m dt g : vadd m (vscale g dt) = Plus m (Scal dt g).
  Proof. vring. Qed.
  Lemma rk4_final m dt f1 f2 f3 f4 :
    vadd m (Scal (/ 6) (vadd (vadd (vadd (vscale f1 dt) (vscale (vscale f2 dt) 2)) (vscale (vscale f3 dt) 2)) (vscale f4 dt)))
    = Plus m (Scal (dt / 6) (Sum [f1; Scal 2 f2; Scal 2 f3; f4])).
  Proof. unfold Sum, fold_right. destruct m, f1, f2, f3, f4; vsimp. apply vec_eq; field. Qed.
  Lemma half_time t dt : t + 1 / 2 * dt = t + dt / 2.
  Proof. lra. Qed.
  Lemma rk4_generic_iff l t dt l' :
    rk4_generic f t dt l = (l', Ok tt) ->
    RK4_scheme (F l) t dt (l_mag l) (l_mag l') /\ exists c, l' = set_l_mag (l_mag l') (set_l_cache c l).
  Proof.
    unfold rk4_generic. intros E. binv E. rd X. subst.
    binv E. apply fstep in X. destruct X as [F1 [c1 ->]].
    binv E. apply fstep in X. destruct X as [F2 [c2 ->]]. apply fback in F2. rewrite set_cache_twice in *.
    binv E. apply fstep in X. destruct X as [F3 [c3 ->]]. apply fback in F3. rewrite set_cache_twice in *.
    binv E. apply fstep in X. destruct X as [F4 [c4 ->]]. apply fback in F4. rewrite set_cache_twice in *.
    binv E. apply lift_vdiv6 in X. destruct X as [-> ->].
    rewrite rk4_stage_args, half_time in F2, F3. rewrite rk4_stage_last in F4.
    apply modify_inv in E. subst l'. split.
    - exists a, a0, a1, a2. repeat (split; [assumption|]). rewrite rk4_final. apply normalize_spec.
    - exists c4. reflexivity.
  Qed.
  Lemma rk4_generic_complete l t dt m' :
    RK4_scheme (F l) t dt (l_mag l) m' -> exists c, rk4_generic f t dt l = (set_l_mag m' (set_l_cache c l), Ok tt).
  Proof.
    intros (f1 & f2 & f3 & f4 & F1 & F2 & F3 & F4 & N).
    apply Hf in F1. destruct F1 as [l1 E1]. destruct (same_but_cache_ex _ _ (Hsame _ _ _ _ _ E1)) as [c1 ->].
    apply (HF _ _ _ _ _ (static_cache c1 l)) in F2. apply Hf in F2. destruct F2 as [l2 E2].
    destruct (same_but_cache_ex _ _ (Hsame _ _ _ _ _ E2)) as [c2 ->]. rewrite set_cache_twice in E2.
    apply (HF _ _ _ _ _ (static_cache c2 l)) in F3. apply Hf in F3. destruct F3 as [l3 E3].
    destruct (same_but_cache_ex _ _ (Hsame _ _ _ _ _ E3)) as [c3 ->]. rewrite set_cache_twice in E3.
    apply (HF _ _ _ _ _ (static_cache c3 l)) in F4. apply Hf in F4. destruct F4 as [l4 E4].
    destruct (same_but_cache_ex _ _ (Hsame _ _ _ _ _ E4)) as [c4 ->]. rewrite set_cache_twice in E4.
    exists c4. unfold rk4_generic. unfold bind at 1, get. cbv zeta.
    unfold bind at 1. rewrite E1. rewrite rk4_stage_args, half_time. unfold bind at 1. rewrite E2.
    rewrite rk4_stage_args. unfold bind at 1. rewrite E3. rewrite rk4_stage_last. unfold bind at 1. rewrite E4.
    unfold bind at 1, lift. rewrite vdiv_ok by lra. unfold modify. rewrite rk4_final.
    apply Normalised_iff in N. subst. reflexivity.
  Qed.
End RK4gen.

Lemma rk4_sound l t dt b top l' : rk4_step t dt b top l = (l', Ok tt) ->
  RK4_scheme (fun s m d => rhs l s m b top d) t dt (l_mag l) (l_mag l') /\
  exists c, l' = set_l_mag (l_mag l') (set_l_cache c l).
Proof.
  unfold rk4_step. intros E.
  exact (rk4_generic_iff _ (fun l s m d => rhs l s m b top d) (fun l t m d => rhs_iff l t m b top dt d)
    (fun l t m d l' => llg_total_same l t m b top dt l' d) (fun l l' t m d => static_rhs l l' t m b top d) l t dt l' E).
Qed.
Lemma rk4_complete l t dt b top m' : RK4_scheme (fun s m d => rhs l s m b top d) t dt (l_mag l) m' ->
  exists c, rk4_step t dt b top l = (set_l_mag m' (set_l_cache c l), Ok tt).
Proof.
  unfold rk4_step. intros E.
  exact (rk4_generic_complete _ (fun l s m d => rhs l s m b top d) (fun l t m d => rhs_iff l t m b top dt d)
    (fun l t m d l' => llg_total_same l t m b top dt l' d) (fun l l' t m d => static_rhs l l' t m b top d) l t dt m' E).
Qed.
Lemma rk4_inj_sound l t dt b top dip l' : rk4_stepDipoleInjection t dt b top dip l = (l', Ok tt) ->
  RK4_scheme (fun s m d => rhs_inj l s m b top dip d) t dt (l_mag l) (l_mag l') /\
  exists c, l' = set_l_mag (l_mag l') (set_l_cache c l).
Proof.
  unfold rk4_stepDipoleInjection. intros E.
  exact (rk4_generic_iff _ (fun l s m d => rhs_inj l s m b top dip d) (fun l t m d => rhs_inj_iff l t m b top dip dt d)
    (fun l t m d l' => llg_inj_same l t m b top dip dt vnull l' d) (fun l l' t m d => static_rhs_inj l l' t m b top dip d) l t dt l' E).
Qed.
Lemma rk4_inj_complete l t dt b top dip m' : RK4_scheme (fun s m d => rhs_inj l s m b top dip d) t dt (l_mag l) m' ->
  exists c, rk4_stepDipoleInjection t dt b top dip l = (set_l_mag m' (set_l_cache c l), Ok tt).
Proof.
  unfold rk4_stepDipoleInjection. intros E.
  exact (rk4_generic_complete _ (fun l s m d => rhs_inj l s m b top dip d) (fun l t m d => rhs_inj_iff l t m b top dip dt d)
    (fun l t m d l' => llg_inj_same l t m b top dip dt vnull l' d) (fun l l' t m d => static_rhs_inj l l' t m b top dip d) l t dt m' E).
Qed.
