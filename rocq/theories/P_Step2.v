(** Noise draws, Euler-Heun and Heun layer steps, junction-wide steps. *)
From Verif Require Export P_Step.
Open Scope R_scope.
Open Scope st_scope.

(** ** Noise *)
Lemma kB_eq : BOLTZMANN_CONST = kB. Proof. reflexivity. Qed.
Lemma gyro_eq' : GYRO = gamma0. Proof. reflexivity. Qed.
Lemma langevin_sd_iff t dt l s :
  getLangevinStochasticStandardDeviation t dt l = Ok s <-> thermal_sd l t s.
Proof.
  unfold getLangevinStochasticStandardDeviation, thermal_sd. rewrite kB_eq, gyro_eq'.
  assert (Hg := gamma_pos).
  destruct (Req_EM_T (l_cellVolume l) 0) as [E|HV].
  { split; [discriminate|intros [H _]; contradiction]. }
  destruct (getCurrentScalarValue (l_temperature l) t) as [T|e]; cbn [rbind].
  2:{ split; [discriminate|intros (_ & T & H & _); discriminate]. }
  destruct (Req_EM_T (l_Ms l) 0) as [EM|HM].
  { rewrite EM. unfold fdiv. destruct (Req_EM_T (0 * l_cellVolume l * gamma0) 0) as [_|N]; [|exfalso; apply N; ring].
    split; [discriminate|]. intros (_ & T' & _ & H & _). contradiction. }
  assert (HP : l_Ms l * l_cellVolume l * gamma0 <> 0).
  { apply Rmult_integral_contrapositive_currified; [apply Rmult_integral_contrapositive_currified; assumption|lra]. }
  rewrite fdiv_ok by exact HP. cbn [rbind].
  destruct (Rlt_dec _ 0) as [HL|HL].
  - split; [discriminate|]. intros (_ & T' & H & _ & H0 & _). injection H as <-. lra.
  - split.
    + intros H. injection H as <-. split; [exact HV|]. exists T. split; [reflexivity|]. split; [exact HM|].
      split; [lra|reflexivity].
    + intros (_ & T' & H & _ & H0 & ->). injection H as <-. reflexivity.
Qed.
Lemma langevin_iff t dt l l' v :
  getStochasticLangevinVector t dt l = (l', Ok v) <->
  thermal_part l t v /\ l' = set_l_rpos (if l_temperatureSet l then (l_rpos l + 3)%nat else l_rpos l) l.
Proof.
  unfold getStochasticLangevinVector, thermal_part, bind at 1, get.
  destruct (l_temperatureSet l); cbn [negb].
  - unfold bind, lift.
    destruct (getLangevinStochasticStandardDeviation t dt l) as [s|e] eqn:E.
    + apply langevin_sd_iff in E. unfold draw, ret. cbn [l_rpos l_rng set_l_rpos].
      replace (S (l_rpos l)) with (l_rpos l + 1)%nat by lia.
      replace (S (l_rpos l + 1)) with (l_rpos l + 2)%nat by lia.
      replace (S (l_rpos l + 2)) with (l_rpos l + 3)%nat by lia.
      change (set_l_rpos (l_rpos l + 3) (set_l_rpos (l_rpos l + 2) (set_l_rpos (l_rpos l + 1) l)))
        with (set_l_rpos (l_rpos l + 3) l).
      rewrite vscale_Scal. set (w := CV _ _ _). clearbody w. split.
      * intros H. assert (H1 := f_equal fst H). assert (H2 := f_equal snd H). cbn [fst snd] in H1, H2.
        assert (v = Scal s w) by congruence. split; [exists s; auto|auto].
      * intros [(s' & Hs & ->) ->]. replace s' with s; [reflexivity|].
        destruct E as (_ & T & A1 & _ & _ & ->), Hs as (_ & T' & A2 & _ & _ & ->). congruence.
    + split; [discriminate|]. intros [(s & Hs & _) _]. apply (langevin_sd_iff t dt) in Hs. congruence.
  - split.
    + intros H. injection H as <- <-. split; [reflexivity|]. destruct l; reflexivity.
    + intros [-> ->]. destruct l; reflexivity.
Qed.
Lemma tick_fst n : fst (tickVector n) = VN (vn_axis n) (vn_scale n) (vn_raw n) (S (vn_pos n)).
Proof. reflexivity. Qed.
Lemma tick_iff n v : snd (tickVector n) = v <-> coloured_sample n v.
Proof.
  unfold tickVector, coloured_sample. cbn [snd]. rewrite vscale_Scal. destruct (vn_axis n).
  - split; intros H; symmetry; exact H.
  - split; intros H; symmetry; exact H.
  - split; intros H; symmetry; exact H.
  - split.
    + intros <-. exists (vnormalize (vn_raw n (vn_pos n))). split; [apply normalize_spec|reflexivity].
    + intros (u & Hu & ->). apply Normalised_iff in Hu. subst; reflexivity.
  - rewrite vnull_Zero, Scal_Zero. split; intros H; symmetry; exact H.
Qed.
Lemma onef_iff l l' v :
  getOneFVector l = (l', Ok v) <->
  coloured_part l v /\
  l' = set_l_bfn (if Req_EM_T (l_nScale l) 0 then l_bfn l
             else match l_bfn l with
                  | Some n => Some (VN (vn_axis n) (vn_scale n) (vn_raw n) (S (vn_pos n)))
                  | None => None end) l.
Proof.
  unfold getOneFVector, coloured_part, bind, get. destruct (Req_EM_T (l_nScale l) 0) as [E|E].
  - unfold ret. split.
    + intros H. injection H as <- <-. split; [left; auto|destruct l; reflexivity].
    + intros [[[_ ->]|[H _]] ->]; [|contradiction]. destruct l; reflexivity.
  - destruct (l_bfn l) as [nn|].
    + destruct (tickVector nn) as [n' w] eqn:ET. assert (E1 := f_equal fst ET). assert (E2 := f_equal snd ET).
      rewrite tick_fst in E1. cbn [fst] in E1. subst n'. cbn [snd] in E2. apply tick_iff in E2.
      unfold modify, ret. split.
      * intros H. injection H as <- <-. split; [right; eauto|reflexivity].
      * intros [[[H _]|(_ & n' & H & Hv)] ->]; [contradiction|]. injection H as <-.
        apply tick_iff in E2, Hv. congruence.
    + split; [discriminate|]. intros [[[H _]|(_ & n' & H & Hv)] _]; [contradiction|discriminate].
Qed.
Lemma noise_iff t dt l l' w : drawNoise t dt l = (l', Ok w) <-> noise_spec l t w /\ l' = advance_noise l.
Proof.
  unfold drawNoise, noise_spec. split.
  - intros E. binv E. apply langevin_iff in X. destruct X as [X ->]. binv E. apply onef_iff in X0.
    destruct X0 as [X0 ->]. injection E as <- <-. split.
    + exists a, a0. split; [exact X|]. split; [exact X0|]. apply vadd_Plus.
    + reflexivity.
  - intros [(a & b & Ha & Hb & ->) ->].
    assert (E1 := proj2 (langevin_iff t dt l _ a) (conj Ha eq_refl)).
    unfold bind at 1. rewrite E1. unfold bind at 1.
    match goal with |- context [getOneFVector ?l1] =>
      assert (E2 := proj2 (onef_iff l1 _ b) (conj Hb eq_refl)) end.
    rewrite E2. rewrite vadd_Plus. reflexivity.
Qed.
Lemma static_advance l : static l (advance_noise l).
Proof. unfold advance_noise. eapply static_trans; [apply static_rpos|apply static_bfn]. Qed.
Lemma fsqrt_iff x s : fsqrt x = Ok s <-> 0 <= x /\ s = sqrt x.
Proof.
  unfold fsqrt. destruct (Rlt_dec x 0) as [H|H].
  - split; [discriminate|]. intros [H1 _]. lra.
  - split; [intros E; injection E as <-; split; [lra|reflexivity]|intros [_ ->]; reflexivity].
Qed.

(** ** Euler-Heun, one layer *)
Definition eh_value (l : layer) (dt : R) (f w : cvec) : cvec :=
  let g := LLG_plain (l_damping l) (l_mag l) w in
  let g' := LLG_plain (l_damping l) (Plus (l_mag l) (Scal (sqrt dt) g)) w in
  Plus (l_mag l) (Plus (Scal dt f) (Scal (sqrt dt / 2) (Plus g g'))).
Lemma eh_algebra m f g g' dt s :
  vadd (vadd m (vscale f dt)) (vscale (vscale (vadd g g') (1 / 2)) s)
  = Plus m (Plus (Scal dt f) (Scal (s / 2) (Plus g g'))).
Proof. destruct m, f, g, g'; vsimp. apply vec_eq; field. Qed.
Lemma lift_inv {S A} (r : result A) (s s' : S) a : lift r s = (s', Ok a) -> s' = s /\ r = Ok a.
Proof. unfold lift. intros E. inversion E. auto. Qed.
Lemma get_inv {S} (s s' a : S) : get s = (s', Ok a) -> s' = s /\ a = s.
Proof. unfold get. intros E. inversion E. auto. Qed.
Lemma ret_inv {S A} (s s' : S) (a b : A) : ret a s = (s', Ok b) -> s' = s /\ b = a.
Proof. unfold ret. intros E. inversion E. auto. Qed.
Lemma eh_layer_sound t dt b top l l' mp :
  eulerHeun_layer t dt b top l = (l', Ok mp) ->
  exists w f, noise_spec l t w /\ 0 <= dt /\ rhs l t (l_mag l) b top f /\
    mp = eh_value l dt f w /\ exists c, l' = set_l_cache c (advance_noise l).
Proof.
  unfold eulerHeun_layer. intros E. binv E. apply noise_iff in X. destruct X as [Hn ->].
  binv E. apply get_inv in X. destruct X as [-> ->].
  binv E. assert (HS := llg_total_same _ _ _ _ _ _ _ _ X). apply same_but_cache_ex in HS. destruct HS as [c ->].
  assert (HR : rhs (advance_noise l) t (l_mag (advance_noise l)) b top a0) by (apply (rhs_iff _ _ _ _ _ dt); eauto).
  apply (static_rhs _ l) in HR; [|apply static_sym, static_advance].
  binv E. apply lift_inv in X0. destruct X0 as [-> X0]. rewrite stochastic_spec in X0. 
  assert (a1 = LLG_plain (l_damping l) (l_mag l) a) by (injection X0; intros <-; reflexivity). subst a1. clear X0.
  binv E. apply lift_inv in X0. destruct X0 as [-> X0]. apply fsqrt_iff in X0. destruct X0 as [Hdt ->].
  binv E. apply lift_inv in X0. destruct X0 as [-> X0]. rewrite stochastic_spec in X0.
  apply ret_inv in E. destruct E as [-> ->].
  exists a, a0. split; [exact Hn|]. split; [exact Hdt|]. split; [exact HR|]. split; [|eauto].
  rewrite eh_algebra. unfold eh_value. do 3 f_equal.
  rewrite vadd_Plus, vscale_Scal in X0. injection X0; intros <-. reflexivity.
Qed.
Lemma eh_layer_complete t dt b top l w f :
  noise_spec l t w -> 0 <= dt -> rhs l t (l_mag l) b top f ->
  exists c, eulerHeun_layer t dt b top l = (set_l_cache c (advance_noise l), Ok (eh_value l dt f w)).
Proof.
  intros Hn Hdt Hf. apply (static_rhs _ _ _ _ _ _ _ (static_advance l)) in Hf.
  apply (rhs_iff _ _ _ _ _ dt) in Hf. destruct Hf as [l1 E1].
  destruct (same_but_cache_ex _ _ (llg_total_same _ _ _ _ _ _ _ _ E1)) as [c ->].
  exists c. unfold eulerHeun_layer. unfold bind at 1. rewrite (proj2 (noise_iff t dt l _ w) (conj Hn eq_refl)).
  unfold bind at 1, get. unfold bind at 1. change (l_mag (advance_noise l)) with (l_mag l). rewrite E1.
  unfold bind at 1, lift. rewrite stochastic_spec. unfold bind at 1. rewrite (proj2 (fsqrt_iff dt _) (conj Hdt eq_refl)).
  unfold bind at 1. rewrite stochastic_spec. unfold ret. rewrite eh_algebra, vadd_Plus, vscale_Scal. reflexivity.
Qed.

(** ** Heun, one layer *)
Definition heun_pred (l : layer) (dt : R) (f w : cvec) : cvec :=
  Plus (l_mag l) (Plus (Scal dt f) (Scal (sqrt dt) (LLG_plain (l_damping l) (l_mag l) w))).
Definition heun_stage_of (l : layer) (dt : R) (f w : cvec) : heun_stage :=
  HS f (LLG_plain (l_damping l) (l_mag l) w) w (heun_pred l dt f w).
Lemma heun_pred_algebra m f g dt s : vadd (vadd m (vscale f dt)) (vscale g s) = Plus m (Plus (Scal dt f) (Scal s g)).
Proof. vring. Qed.
Lemma advance_cache c l : advance_noise (set_l_cache c l) = set_l_cache c (advance_noise l).
Proof. destruct l; reflexivity. Qed.
Lemma noise_spec_cache c l t w : noise_spec (set_l_cache c l) t w <-> noise_spec l t w.
Proof. reflexivity. Qed.
Lemma heun1_sound t dt b top l l' h :
  heun_layer1 t dt b top l = (l', Ok h) ->
  exists w f, noise_spec l t w /\ 0 <= dt /\ rhs l t (l_mag l) b top f /\
    h = heun_stage_of l dt f w /\ exists c, l' = set_l_cache c (advance_noise l).
Proof.
  unfold heun_layer1. intros E. binv E. apply get_inv in X. destruct X as [-> ->].
  binv E. assert (HS := llg_total_same _ _ _ _ _ _ _ _ X). apply same_but_cache_ex in HS. destruct HS as [c ->].
  assert (HR : rhs l t (l_mag l) b top a) by (apply (rhs_iff _ _ _ _ _ dt); eauto).
  binv E. apply noise_iff in X0. destruct X0 as [Hn ->]. change (noise_spec l t a0) in Hn. rewrite advance_cache in *.
  binv E. apply get_inv in X0. destruct X0 as [-> ->].
  binv E. apply lift_inv in X0. destruct X0 as [-> X0]. rewrite stochastic_spec in X0.
  assert (a1 = LLG_plain (l_damping l) (l_mag l) a0) by (injection X0; intros <-; reflexivity). subst a1. clear X0.
  binv E. apply lift_inv in X0. destruct X0 as [-> X0]. apply fsqrt_iff in X0. destruct X0 as [Hdt ->].
  apply ret_inv in E. destruct E as [-> ->].
  exists a0, a. split; [exact Hn|]. split; [exact Hdt|]. split; [exact HR|]. split; [|eauto].
  rewrite heun_pred_algebra. reflexivity.
Qed.
Lemma heun1_complete t dt b top l w f :
  noise_spec l t w -> 0 <= dt -> rhs l t (l_mag l) b top f ->
  exists c, heun_layer1 t dt b top l = (set_l_cache c (advance_noise l), Ok (heun_stage_of l dt f w)).
Proof.
  intros Hn Hdt Hf. apply (rhs_iff _ _ _ _ _ dt) in Hf. destruct Hf as [l1 E1].
  destruct (same_but_cache_ex _ _ (llg_total_same _ _ _ _ _ _ _ _ E1)) as [c ->].
  exists c. unfold heun_layer1. unfold bind at 1, get. unfold bind at 1. rewrite E1.
  change (noise_spec (set_l_cache c l) t w) in Hn. unfold bind at 1. rewrite (proj2 (noise_iff t dt _ _ w) (conj Hn eq_refl)).
  rewrite advance_cache. unfold bind at 1. unfold bind at 1, lift. rewrite stochastic_spec.
  unfold bind at 1. rewrite (proj2 (fsqrt_iff dt _) (conj Hdt eq_refl)). unfold ret.
  rewrite heun_pred_algebra. reflexivity.
Qed.
Definition heun_value (l : layer) (dt : R) (h : heun_stage) (f' : cvec) : cvec :=
  Plus (l_mag l) (Plus (Scal (dt / 2) (Plus (h_fn h) f'))
    (Scal (sqrt dt / 2) (Plus (h_gn h) (LLG_plain (l_damping l) (h_mNext h) (h_dW h))))).
Lemma heun_corr_algebra m f g dt s :
  vadd (vadd m (vscale f (1 / 2 * dt))) (vscale (vscale g (1 / 2)) s) = Plus m (Plus (Scal (dt / 2) f) (Scal (s / 2) g)).
Proof. destruct m, f, g; vsimp. apply vec_eq; field. Qed.
Lemma heun2_sound t dt h b top l l' :
  heun_layer2 t dt h b top l = (l', Ok tt) ->
  exists f', 0 <= dt /\ rhs l (t + dt) (h_mNext h) b top f' /\ Normalised (heun_value l dt h f') (l_mag l') /\
    exists c, l' = set_l_mag (l_mag l') (set_l_cache c l).
Proof.
  unfold heun_layer2. intros E. binv E.
  assert (HS := llg_total_same _ _ _ _ _ _ _ _ X). apply same_but_cache_ex in HS. destruct HS as [c ->].
  assert (HR : rhs l (t + dt) (h_mNext h) b top a) by (apply (rhs_iff _ _ _ _ _ dt); eauto).
  binv E. apply get_inv in X0. destruct X0 as [-> ->].
  binv E. apply lift_inv in X0. destruct X0 as [-> X0]. rewrite stochastic_spec in X0.
  assert (a0 = LLG_plain (l_damping l) (h_mNext h) (h_dW h)) by (injection X0; intros <-; reflexivity). subst a0. clear X0.
  binv E. apply lift_inv in X0. destruct X0 as [-> X0]. apply fsqrt_iff in X0. destruct X0 as [Hdt ->].
  binv E. apply modify_inv in X0. subst. apply modify_inv in E. subst l'.
  exists a. split; [exact Hdt|]. split; [exact HR|]. split.
  - rewrite heun_corr_algebra, !vadd_Plus. apply normalize_spec.
  - exists c. destruct l; reflexivity.
Qed.
Lemma heun2_complete t dt h b top l f' :
  0 <= dt -> rhs l (t + dt) (h_mNext h) b top f' ->
  exists c, heun_layer2 t dt h b top l = (set_l_mag (vnormalize (heun_value l dt h f')) (set_l_cache c l), Ok tt).
Proof.
  intros Hdt Hf. apply (rhs_iff _ _ _ _ _ dt) in Hf. destruct Hf as [l1 E1].
  destruct (same_but_cache_ex _ _ (llg_total_same _ _ _ _ _ _ _ _ E1)) as [c ->].
  exists c. unfold heun_layer2. unfold bind at 1. rewrite E1. unfold bind at 1, get. unfold bind at 1, lift.
  rewrite stochastic_spec. unfold bind at 1. rewrite (proj2 (fsqrt_iff dt _) (conj Hdt eq_refl)).
  rewrite heun_corr_algebra, !vadd_Plus. reflexivity.
Qed.
