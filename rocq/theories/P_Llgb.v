(** Lemmas on the Landau-Lifshitz-Bloch layer: damping, field, derivative, thermal fields. *)
From Verif Require Export S_Llgb P_StackProps.
From Verif Require Export P_Vec.
Open Scope R_scope.
Open Scope st_scope.

Lemma lift_bind {S A B} (r : result A) (f : A -> ST S B) s : bind (lift r) f s = match r with Ok a => f a s | Err e => (s, Err e) end.
Proof. unfold bind, lift. destruct r; reflexivity. Qed.
Lemma get_bind {S B} (f : S -> ST S B) s : bind get f s = f s s.
Proof. reflexivity. Qed.
Lemma modify_bind {S B} (g : S -> S) (f : unit -> ST S B) s : bind (modify g) f s = f tt (g s).
Proof. reflexivity. Qed.
Lemma bind_iff {S A B} (m : ST S A) (f : A -> ST S B) s s' b :
  bind m f s = (s', Ok b) <-> exists s1 a, m s = (s1, Ok a) /\ f a s1 = (s', Ok b).
Proof.
  unfold bind. destruct (m s) as [s1 [a|e]]; split.
  - intros H. exists s1, a. auto.
  - intros (s2 & a2 & E & H). injection E as <- <-. exact H.
  - discriminate.
  - intros (s2 & a2 & E & H). discriminate.
Qed.
Lemma bind_fdiv {S B} a b (f : R -> ST S B) s s' x :
  bind (lift (fdiv a b)) f s = (s', Ok x) <-> b <> 0 /\ f (a / b) s = (s', Ok x).
Proof.
  rewrite lift_bind. unfold fdiv. destruct (Req_EM_T b 0) as [E|E].
  - split; [discriminate|tauto].
  - tauto.
Qed.
Lemma bind_value {S A B} (r : result A) (f : A -> ST S B) s s' x :
  bind (lift r) f s = (s', Ok x) <-> exists v, r = Ok v /\ f v s = (s', Ok x).
Proof.
  rewrite lift_bind. destruct r as [v|e]; split.
  - intros H. exists v. auto.
  - intros (w & E & H). injection E as <-. exact H.
  - discriminate.
  - intros (w & E & _). discriminate.
Qed.
Lemma ret_iff {S A} (a b : A) (s s' : S) : ret a s = (s', Ok b) <-> s' = s /\ b = a.
Proof. unfold ret. split; [intros H; injection H as <- <-; auto|intros [-> ->]; reflexivity]. Qed.

Lemma alpha_par_iff t l l' v : getAlphaParallel t l = (l', Ok v) <->
  exists T, getCurrentScalarValue (b_temperature l) t = Ok T /\ b_Tc l <> 0 /\
    v = alpha_par (b_damping l) T (b_Tc l) /\ l' = set_b_apar_log v l.
Proof.
  unfold getAlphaParallel. rewrite get_bind, bind_value.
  split.
  - intros (T & HT & H). rewrite bind_fdiv in H. destruct H as [Hc H]. rewrite modify_bind, ret_iff in H.
    destruct H as [-> ->]. exists T. unfold alpha_par. repeat split; auto. ring.
  - intros (T & HT & Hc & -> & ->). exists T. split; [exact HT|]. rewrite bind_fdiv. split; [exact Hc|].
    rewrite modify_bind, ret_iff. unfold alpha_par. split; [f_equal|]; ring.
Qed.
Lemma alpha_perp_iff t l l' v : getAlphaPerpendicular t l = (l', Ok v) <->
  exists T, getCurrentScalarValue (b_temperature l) t = Ok T /\ b_Tc l <> 0 /\
    v = alpha_perp (b_damping l) T (b_Tc l) /\ l' = set_b_aperp_log v l.
Proof.
  assert (E : forall T, b_Tc l <> 0 -> (if Rle_dec (b_Tc l) T then b_damping l * (T / b_Tc l) * (2 / 3) else b_damping l * (1 - T / b_Tc l * (1 / 3)))
    = alpha_perp (b_damping l) T (b_Tc l)).
  { intros T Hc. unfold alpha_perp. destruct (Rle_dec (b_Tc l) T), (Rlt_dec T (b_Tc l)); try lra; field; exact Hc. }
  unfold getAlphaPerpendicular. rewrite get_bind, bind_value.
  split.
  - intros (T & HT & H). rewrite bind_fdiv in H. destruct H as [Hc H]. rewrite modify_bind, ret_iff in H.
    destruct H as [-> ->]. exists T. rewrite (E T Hc). auto.
  - intros (T & HT & Hc & -> & ->). exists T. split; [exact HT|]. rewrite bind_fdiv. split; [exact Hc|].
    rewrite modify_bind, ret_iff. rewrite (E T Hc). auto.
Qed.
Lemma length2 m : vlength m ^ 2 = Norm2 m.
Proof. rewrite vlength_Norm, <- Norm_sqr. ring. Qed.
Lemma longitudinal_iff t m l l' v : getLongitudinal t m l = (l', Ok v) <->
  exists T, getCurrentScalarValue (b_temperature l) t = Ok T /\ b_chi l <> 0 /\ (T <= b_Tc l -> b_me l <> 0) /\
    v = H_long T (b_Tc l) (b_chi l) (b_me l) m /\ l' = l.
Proof.
  unfold getLongitudinal. rewrite get_bind, bind_value.
  assert (E : forall T, (bind (lift (fdiv 1 (2 * b_chi l))) (fun ratio_susc : R =>
      let m2 := vlength m ^ 2 in
      if Rle_dec T (b_Tc l)
      then ratio_m <- lift (fdiv m2 (b_me l ^ 2));; ret (vscale m (ratio_susc * (1 - ratio_m)))
      else q <- lift (fdiv (b_Tc l) (T - b_Tc l));;
           (let ration_T_alt := 1 + 3 / 5 * q * m2 in
            s <- lift (fdiv 1 (b_chi l));; ret (vscale m (- s * ration_T_alt)))) l = (l', Ok v)) <->
     (b_chi l <> 0 /\ (T <= b_Tc l -> b_me l <> 0) /\ v = H_long T (b_Tc l) (b_chi l) (b_me l) m /\ l' = l)).
  { intros T. rewrite bind_fdiv. cbv zeta. rewrite length2. unfold H_long.
    destruct (Rle_dec T (b_Tc l)) as [Hle|Hgt].
    - rewrite bind_fdiv, ret_iff, vscale_Scal. split.
      + intros (Hc & Hm & -> & ->). assert (b_chi l <> 0) by (intros C; apply Hc; rewrite C; ring).
        assert (b_me l <> 0) by (intros C; apply Hm; rewrite C; ring).
        repeat split; auto. f_equal. field. auto.
      + intros (Hc & Hm & -> & ->). specialize (Hm Hle).
        split; [lra|]. split; [apply pow_nonzero; exact Hm|]. split; [reflexivity|]. f_equal. field. auto.
    - rewrite bind_fdiv, bind_fdiv, ret_iff, vscale_Scal. split.
      + intros (Hc & Hq & Hs & -> & ->). repeat split; auto. f_equal. field. auto.
      + intros (Hc & _ & -> & ->). split; [lra|]. split; [lra|]. split; [exact Hc|]. split; [reflexivity|]. f_equal. field. split; lra. }
  split.
  - intros (T & HT & H). apply E in H. exists T. tauto.
  - intros (T & HT & H). exists T. split; [exact HT|]. apply E. exact H.
Qed.
Definition b_logged (Tperp Tpar K T : R) (l : blayer) : blayer :=
  set_b_apar_log (alpha_par (b_damping l) Tpar (b_Tc l))
    (set_b_aperp_log (alpha_perp (b_damping l) Tperp (b_Tc l)) (set_b_T_log T (set_b_K_log K l))).
Lemma heff_iff t m l l' v : b_calculateHeff t m l = (l', Ok v) <->
  exists i, b_inputs_at l t i /\ b_chi l <> 0 /\ (bi_T i <= b_Tc l -> b_me l <> 0) /\
    v = b_H l i m /\ l' = set_b_K_log (bi_K i) l.
Proof.
  unfold b_calculateHeff, b_calculateAnisotropy. rewrite bind_iff. split.
  - intros (s1 & a & H1 & H). rewrite get_bind, bind_value in H1. destruct H1 as (K & HK & H1).
    rewrite modify_bind, ret_iff in H1. destruct H1 as [-> ->].
    rewrite get_bind, bind_value in H. destruct H as (h & Hh & H). rewrite bind_iff in H.
    destruct H as (s2 & f & Hf & H). apply longitudinal_iff in Hf. destruct Hf as (T & HT & Hc & Hm & -> & ->).
    rewrite ret_iff in H. destruct H as [-> ->]. exists (BI T K h). unfold b_inputs_at, b_H. cbn [bi_T bi_K bi_h Sum fold_right].
    cbn [b_temperature b_external b_chi b_Tc b_me set_b_K_log] in *. repeat split; auto.
    rewrite vscale_Scal, c_dot_Dot, !vadd_Plus.
    generalize (Scal (K * Dot (b_anis l) m) (b_anis l)) (H_long T (b_Tc l) (b_chi l) (b_me l) m). vring.
  - intros ([T K h] & (HT & HK & Hh) & Hc & Hm & -> & ->). cbn [bi_T bi_K bi_h] in *.
    exists (set_b_K_log K l), (vscale (b_anis l) (K * c_dot (b_anis l) m)). split.
    + rewrite get_bind, bind_value. exists K. split; [exact HK|reflexivity].
    + rewrite get_bind, bind_value. exists h. split; [exact Hh|]. rewrite bind_iff.
      exists (set_b_K_log K l), (H_long T (b_Tc l) (b_chi l) (b_me l) m). split; [|rewrite ret_iff; split; [reflexivity|]].
      * apply longitudinal_iff. exists T. auto.
      * unfold b_H. cbn [bi_T bi_K bi_h Sum fold_right]. rewrite vscale_Scal, c_dot_Dot, !vadd_Plus.
        generalize (Scal (K * Dot (b_anis l) m) (b_anis l)) (H_long T (b_Tc l) (b_chi l) (b_me l) m). vring.
Qed.
Lemma inv_length m : m <> Zero -> (1 / vlength m) ^ 2 = / Norm2 m.
Proof.
  intros Hm. rewrite vlength_Norm, <- Norm_sqr. assert (Norm m <> 0) by (intros E; apply Hm, Norm_zero_iff, E). field. assumption.
Qed.
Lemma vlength_nz m : vlength m <> 0 <-> m <> Zero.
Proof. rewrite vlength_Norm, Norm_zero_iff. tauto. Qed.
Lemma one_sq a : 1 + a ^ 2 <> 0.
Proof. pose proof (conv_pos a). lra. Qed.
Lemma solve_iff t dt m h l l' v : b_solveLLG t dt m h l = (l', Ok v) <->
  exists T, getCurrentScalarValue (b_temperature l) t = Ok T /\ b_Tc l <> 0 /\ m <> Zero /\
    v = LLB (b_damping l) (alpha_perp (b_damping l) T (b_Tc l)) (alpha_par (b_damping l) T (b_Tc l)) m h /\
    l' = set_b_apar_log (alpha_par (b_damping l) T (b_Tc l)) (set_b_aperp_log (alpha_perp (b_damping l) T (b_Tc l)) (set_b_T_log T l)).
Proof.
  assert (V : forall ap aq, m <> Zero -> vscale (vadd (vsub (vscale (c_cross m h) (-1)) (vscale (vscale (c_cross m (c_cross m h)) ap) ((1 / vlength m) ^ 2)))
        (vscale (vscale (vscale m (c_dot m h)) aq) ((1 / vlength m) ^ 2))) (GYRO / (1 + b_damping l ^ 2)) = LLB (b_damping l) ap aq m h).
  { intros ap aq Hm. rewrite (inv_length m Hm). unfold LLB. cbn [Sum fold_right]. rewrite c_dot_Dot, !c_cross_Cross.
    change GYRO with gamma0. replace (1 + b_damping l * b_damping l) with (1 + b_damping l ^ 2) by ring. unfold Rdiv.
    generalize (gamma0 * / (1 + b_damping l ^ 2)) (/ Norm2 m) (Dot m h) (Cross m (Cross m h)) (Cross m h). vring. }
  unfold b_solveLLG. rewrite get_bind, bind_value. split.
  - intros (T & HT & H). rewrite modify_bind, bind_fdiv in H. destruct H as [Hm H]. apply vlength_nz in Hm. rewrite bind_fdiv in H.
    destruct H as [_ H]. rewrite bind_iff in H. destruct H as (s1 & ap & E1 & H). apply alpha_perp_iff in E1.
    destruct E1 as (T1 & HT1 & Hc & -> & ->). cbn [b_temperature set_b_T_log b_damping b_Tc] in HT1, Hc, H. rewrite HT in HT1. injection HT1 as <-.
    rewrite bind_iff in H. destruct H as (s2 & aq & E2 & H). apply alpha_par_iff in E2.
    destruct E2 as (T2 & HT2 & _ & -> & ->). cbn [b_temperature set_b_T_log set_b_aperp_log b_damping b_Tc] in HT2, H. rewrite HT in HT2. injection HT2 as <-.
    rewrite ret_iff in H. destruct H as [-> ->]. exists T. repeat split; auto.
  - intros (T & HT & Hc & Hm & -> & ->). exists T. split; [exact HT|]. rewrite modify_bind, bind_fdiv. split; [apply vlength_nz, Hm|].
    rewrite bind_fdiv. split; [apply one_sq|]. rewrite bind_iff.
    exists (set_b_aperp_log (alpha_perp (b_damping l) T (b_Tc l)) (set_b_T_log T l)), (alpha_perp (b_damping l) T (b_Tc l)). split.
    { apply alpha_perp_iff. exists T. auto. }
    rewrite bind_iff. exists (set_b_apar_log (alpha_par (b_damping l) T (b_Tc l)) (set_b_aperp_log (alpha_perp (b_damping l) T (b_Tc l)) (set_b_T_log T l))), (alpha_par (b_damping l) T (b_Tc l)). split.
    { apply alpha_par_iff. exists T. auto. }
    rewrite ret_iff. split; [reflexivity|]. symmetry. apply V, Hm.
Qed.
Lemma llg_iff t dt m l l' v : b_calculateLLG t dt m l = (l', Ok v) <->
  exists i, b_inputs_at l t i /\ b_solvable l i m /\ v = b_rhs l i m /\ l' = b_logged (bi_T i) (bi_T i) (bi_K i) (bi_T i) l.
Proof.
  unfold b_calculateLLG. rewrite bind_iff. split.
  - intros (s1 & h & H1 & H2). apply heff_iff in H1. destruct H1 as (i & HI & Hc & Hm & -> & ->).
    apply solve_iff in H2. destruct H2 as (T & HT & HTc & Hz & -> & ->). cbn [b_temperature set_b_K_log b_Tc b_damping] in *.
    pose proof (proj1 HI) as HT'. rewrite HT in HT'. apply Ok_inj in HT'. subst T. exists i. unfold b_solvable. repeat split; auto; apply HI.
  - intros (i & HI & (HTc & Hc & Hz & Hm) & -> & ->). exists (set_b_K_log (bi_K i) l), (b_H l i m). split.
    + apply heff_iff. exists i. auto.
    + apply solve_iff. exists (bi_T i). repeat split; auto. apply HI.
Qed.

(** Record equality from its fields. *)
Lemma b_logged_fields l l' a b c d : b_static l l' -> b_mag l' = b_mag l -> b_drawn 0 l l' -> b_logs l' a b c d -> l' = b_logged a b c d l.
Proof.
  intros H1 H2 [H3 H4] (H5 & H6 & H7 & H8). unfold b_static in H1.
  destruct l', l. cbn in *. decompose [and] H1; clear H1. subst. rewrite !Nat.add_0_r. reflexivity.
Qed.
Lemma fields_b_logged l a b c d : b_static l (b_logged a b c d l) /\ b_mag (b_logged a b c d l) = b_mag l /\ b_drawn 0 l (b_logged a b c d l) /\ b_logs (b_logged a b c d l) a b c d.
Proof. unfold b_static, b_drawn, b_logs. cbn. rewrite !Nat.add_0_r. repeat split. Qed.

(** ** Thermal fields *)
Lemma zero_scale v s : vscale v (0 * s) = Zero.
Proof. vring. Qed.
Lemma nonadiabatic_iff t dt l l' v : nonadiabaticThermalField t dt l = (l', Ok v) <->
  exists T, getCurrentScalarValue (b_temperature l) t = Ok T /\ b_Tc l <> 0 /\ b_volume l <> 0 /\ b_Ms l <> 0 /\
    alpha_perp (b_damping l) T (b_Tc l) <> 0 /\ 0 <= variance_perp l T /\ v = Zero /\ l' = after_thermalA T l.
Proof.
  unfold nonadiabaticThermalField. rewrite get_bind, bind_value.
  assert (NZ : forall a, b_volume l * b_Ms l * GYRO * a ^ 2 <> 0 <-> b_volume l <> 0 /\ b_Ms l <> 0 /\ a <> 0).
  { intros a. pose proof GYRO_pos. split.
    - intros H0. repeat split; intros C; apply H0; rewrite C; ring.
    - intros (A & B & C). apply Rmult_integral_contrapositive_currified; [|apply pow_nonzero; exact C].
      apply Rmult_integral_contrapositive_currified; [|lra]. apply Rmult_integral_contrapositive_currified; assumption. }
  split.
  - intros (T & HT & H). rewrite bind_iff in H. destruct H as (s1 & ap & E1 & H). apply alpha_perp_iff in E1.
    destruct E1 as (T1 & HT1 & Hc & -> & ->). rewrite HT in HT1. apply Ok_inj in HT1. subst T1.
    rewrite bind_iff in H. destruct H as (s2 & aq & E2 & H). apply alpha_par_iff in E2.
    destruct E2 as (T2 & HT2 & _ & -> & ->). cbn [b_temperature set_b_aperp_log b_damping b_Tc] in HT2, H. rewrite HT in HT2. apply Ok_inj in HT2. subst T2.
    rewrite bind_iff in H. destruct H as (s3 & ap3 & E3 & H). apply alpha_perp_iff in E3.
    destruct E3 as (T3 & HT3 & _ & -> & ->). cbn [b_temperature set_b_aperp_log set_b_apar_log b_damping b_Tc] in HT3, H. rewrite HT in HT3. apply Ok_inj in HT3. subst T3.
    rewrite bind_fdiv in H. destruct H as [Hn H]. apply NZ in Hn. rewrite bind_value in H. destruct H as (s & Hs & H).
    apply fsqrt_iff in Hs. destruct Hs as [Hs ->]. unfold drawA in H. rewrite bind_iff in H. destruct H as (s4 & d & E4 & H).
    rewrite get_bind, modify_bind, ret_iff in E4. destruct E4 as [-> ->]. rewrite ret_iff in H. destruct H as [-> ->].
    exists T. rewrite zero_scale. unfold variance_perp. replace (alpha_perp (b_damping l) T (b_Tc l) * alpha_perp (b_damping l) T (b_Tc l)) with (alpha_perp (b_damping l) T (b_Tc l) ^ 2) by ring.
    repeat split; auto; try tauto.
  - intros (T & HT & Hc & Hv & HM & Ha & Hvar & -> & ->). exists T. split; [exact HT|].
    rewrite bind_iff. eexists _, _. split; [apply alpha_perp_iff; exists T; auto|].
    rewrite bind_iff. eexists _, _. split; [apply alpha_par_iff; exists T; auto|].
    rewrite bind_iff. eexists _, _. split; [apply alpha_perp_iff; exists T; auto|]. cbn [b_temperature set_b_aperp_log set_b_apar_log b_damping b_Tc].
    rewrite bind_fdiv. split; [apply NZ; auto|]. rewrite bind_value. eexists. split.
    { apply fsqrt_iff. split; [|reflexivity]. unfold variance_perp in Hvar. replace (alpha_perp (b_damping l) T (b_Tc l) * alpha_perp (b_damping l) T (b_Tc l)) with (alpha_perp (b_damping l) T (b_Tc l) ^ 2) in Hvar by ring. exact Hvar. }
    unfold drawA. rewrite bind_iff. eexists _, _. split; [rewrite get_bind, modify_bind, ret_iff; split; reflexivity|].
    rewrite ret_iff, zero_scale. split; reflexivity.
Qed.
Lemma adiabatic_iff t dt l l' v : adiabaticThermalField t dt l = (l', Ok v) <->
  exists T, getCurrentScalarValue (b_temperature l) t = Ok T /\ b_Tc l <> 0 /\ b_volume l <> 0 /\ b_Ms l <> 0 /\
    0 <= variance_par l T /\ v = Zero /\ l' = after_thermalB T l.
Proof.
  unfold adiabaticThermalField. rewrite get_bind, bind_value.
  assert (NZ : GYRO * b_volume l * b_Ms l <> 0 <-> b_volume l <> 0 /\ b_Ms l <> 0).
  { pose proof GYRO_pos. split.
    - intros H0. repeat split; intros C; apply H0; rewrite C; ring.
    - intros (A & B). apply Rmult_integral_contrapositive_currified; [|exact B].
      apply Rmult_integral_contrapositive_currified; [lra|assumption]. }
  split.
  - intros (T & HT & H). rewrite bind_iff in H. destruct H as (s2 & aq & E2 & H). apply alpha_par_iff in E2.
    destruct E2 as (T2 & HT2 & Hc & -> & ->). rewrite HT in HT2. apply Ok_inj in HT2. subst T2.
    rewrite bind_fdiv in H. destruct H as [Hn H]. apply NZ in Hn. rewrite bind_value in H. destruct H as (s & Hs & H).
    apply fsqrt_iff in Hs. destruct Hs as [Hs ->]. unfold drawB in H. rewrite bind_iff in H. destruct H as (s4 & d & E4 & H).
    rewrite get_bind, modify_bind, ret_iff in E4. destruct E4 as [-> ->]. rewrite ret_iff in H. destruct H as [-> ->].
    exists T. rewrite zero_scale. repeat split; auto; try tauto.
  - intros (T & HT & Hc & Hv & HM & Hvar & -> & ->). exists T. split; [exact HT|].
    rewrite bind_iff. eexists _, _. split; [apply alpha_par_iff; exists T; auto|].
    rewrite bind_fdiv. split; [apply NZ; auto|]. rewrite bind_value. eexists. split.
    { apply fsqrt_iff. split; [exact Hvar|reflexivity]. }
    unfold drawB. rewrite bind_iff. eexists _, _. split; [rewrite get_bind, modify_bind, ret_iff; split; reflexivity|].
    rewrite ret_iff, zero_scale. split; reflexivity.
Qed.
Lemma torque_iff m t na ad l l' v : b_stochasticTorque m t na ad l = (l', Ok v) <->
  exists T, getCurrentScalarValue (b_temperature l) t = Ok T /\ b_Tc l <> 0 /\ m <> Zero /\
    v = torque_spec (b_damping l) (alpha_perp (b_damping l) T (b_Tc l)) m na ad /\
    l' = set_b_aperp_log (alpha_perp (b_damping l) T (b_Tc l)) l.
Proof.
  assert (V : forall ap, m <> Zero -> vadd (vscale (c_cross m (c_cross m na)) (- (GYRO / (1 + b_damping l ^ 2)) * (1 / vlength m) ^ 2 * ap)) (vscale ad (GYRO / (1 + b_damping l ^ 2)))
     = torque_spec (b_damping l) ap m na ad).
  { intros ap Hm. rewrite (inv_length m Hm). unfold torque_spec. rewrite !c_cross_Cross. change GYRO with gamma0.
    replace (1 + b_damping l * b_damping l) with (1 + b_damping l ^ 2) by ring. unfold Rdiv.
    generalize (gamma0 * / (1 + b_damping l ^ 2)) (/ Norm2 m) (Cross m (Cross m na)). vring. }
  unfold b_stochasticTorque. rewrite get_bind, bind_fdiv, bind_fdiv, bind_iff. split.
  - intros (Hm & _ & s1 & ap & E1 & H). apply vlength_nz in Hm. apply alpha_perp_iff in E1. destruct E1 as (T & HT & Hc & -> & ->).
    rewrite ret_iff in H. destruct H as [-> ->]. exists T. repeat split; auto.
  - intros (T & HT & Hc & Hm & -> & ->). split; [apply vlength_nz, Hm|]. split; [apply one_sq|]. eexists _, _. split; [apply alpha_perp_iff; exists T; auto|].
    rewrite ret_iff. split; [reflexivity|]. symmetry. apply V, Hm.
Qed.
Lemma torque_zero alpha ap m : torque_spec alpha ap m Zero Zero = Zero.
Proof. unfold torque_spec. generalize (gamma0 / (1 + alpha * alpha)) (- (ap / Norm2 m)). vring. Qed.
