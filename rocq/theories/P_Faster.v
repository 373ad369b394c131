(** Proofs about stacks with multiplied fields and a faster clock (C108). *)
From Verif Require Import S_Faster P_Reach P_RunEx.
From Verif Require Export P_Reach S_Faster.
From Coq Require Import Lra Psatz.
Open Scope R_scope.
Open Scope st_scope.

Ltac vlin := repeat match goal with v : cvec |- _ => destruct v end; unfold Plus, Scal, Zero, Dot, Cross; cbn; apply vec_eq; ring.
Lemma scal_plus k u v : Scal k (Plus u v) = Plus (Scal k u) (Scal k v).
Proof. vlin. Qed.
Lemma scal_scal k c v : Scal k (Scal c v) = Scal (k * c) v.
Proof. vlin. Qed.
Lemma scal_zero k : Scal k Zero = Zero.
Proof. vlin. Qed.
Lemma scal_sum k : forall vs, Scal k (Sum vs) = Sum (map (Scal k) vs).
Proof. induction vs as [|v vs IH]; cbn [Sum fold_right map]; [apply scal_zero|]. rewrite scal_plus. f_equal. exact IH. Qed.
Lemma cross_scal k u v : Cross u (Scal k v) = Scal k (Cross u v).
Proof. vlin. Qed.
Section fast.
  Context (k : R) (Hk : 0 < k).
  Lemma unscale c v : Scal (c / k) (Scal k v) = Scal c v.
  Proof. rewrite scal_scal. f_equal. field. lra. Qed.
  Lemma faster_driver_back d d' : faster_driver k d d' -> faster_driver (/ k) d' d.
  Proof.
    intros H t v. specialize (H (t / / k) (/ k * v)). replace (t / / k / k) with t in H by (field; lra). replace (k * (/ k * v)) with v in H by (field; lra). symmetry. exact H.
  Qed.
  Lemma faster_axial_back d d' : faster_axial k d d' -> faster_axial (/ k) d' d.
  Proof.
    intros H t v. specialize (H (t / / k) (Scal (/ k) v)). replace (t / / k / k) with t in H by (field; lra). rewrite scal_scal in H. replace (k * / k) with 1 in H by (field; lra).
    replace (Scal 1 v) with v in H by (clear; vlin). symmetry. exact H.
  Qed.
  Lemma larger_back N N' : larger_tensor k N N' -> larger_tensor (/ k) N' N.
  Proof. intros H v. rewrite H, scal_scal. replace (/ k * k) with 1 by (field; lra). generalize (MatVec N v). intros u. clear. vlin. Qed.
  Lemma faster_back l m : faster k l m -> faster (/ k) m l.
  Proof.
    intros [T1 (T2 & T3 & T4) (T5 & T6 & T7) T8 T9 T10 T11 T12 T13 T14 T15 T16 T17 T18 T19 T20 T21 T22 [T23 T23'] T24 T25 T26].
    constructor; try (apply faster_axial_back; assumption); try (apply faster_driver_back; assumption); try tauto.
    - congruence.
    - repeat split; congruence.
    - repeat split; apply larger_back; assumption.
    - split; congruence.
    - destruct T24 as (? & ? & ? & ? & ? & ? & ? & ? & ? & ?). repeat split; congruence.
    - destruct T25 as (? & ? & ? & ? & ? & ?). repeat split; congruence.
  Qed.

  (** ** The right-hand side *)
  Definition larger (i : field_inputs) : field_inputs :=
    FI (Scal k (fi_ext i)) (Scal k (fi_oe i)) (Scal k (fi_dmi i)) (Scal k (fi_res i)) (k * fi_K i) (k * fi_Jb i) (k * fi_Jt i) (k * fi_J2b i) (k * fi_J2t i) (Scal k (fi_Db i)) (Scal k (fi_Dt i)).
  Lemma inputs_faster l m t i : faster k l m -> inputs_at l t i -> inputs_at m (t / k) (larger i).
  Proof.
    intros T (I1 & I2 & I3 & I4 & I5 & I6 & I7 & I8 & I9 & I10 & I11).
    unfold inputs_at, larger. cbn [fi_ext fi_oe fi_dmi fi_res fi_K fi_Jb fi_Jt fi_J2b fi_J2t fi_Db fi_Dt].
    repeat split; first [apply (fa_external _ _ _ T); assumption|apply (fa_Oersted _ _ _ T); assumption|apply (fa_Hdmi _ _ _ T); assumption|apply (fa_Hreserved _ _ _ T); assumption|apply (fa_IDMIBottom _ _ _ T); assumption|apply (fa_IDMITop _ _ _ T); assumption
      |apply (fa_anisotropy _ _ _ T); assumption|apply (fa_IECBottom _ _ _ T); assumption|apply (fa_IECTop _ _ _ T); assumption|apply (fa_QuadBottom _ _ _ T); assumption|apply (fa_QuadTop _ _ _ T); assumption].
  Qed.
  Lemma H_iec_faster J J2 q x c : H_iec (k * J) (k * J2) q x c = Scal k (H_iec J J2 q x c).
  Proof. unfold H_iec. rewrite scal_scal. f_equal. unfold Rdiv. ring. Qed.
  Lemma H_idmi_faster D q c : H_idmi (Scal k D) q c = Scal k (H_idmi D q c).
  Proof. unfold H_idmi. rewrite cross_scal, !scal_scal. f_equal. ring. Qed.
  Lemma H_tensor_faster N N' q x : larger_tensor k N N' -> H_tensor N' q x = Scal k (H_tensor N q x).
  Proof. intros H. unfold H_tensor. rewrite H, !scal_scal. f_equal. ring. Qed.
  Lemma H_anis_faster n K q x : H_anis n (k * K) q x = Scal k (H_anis n K q x).
  Proof. unfold H_anis. rewrite scal_scal. f_equal. unfold Rdiv. ring. Qed.
  Lemma dipole_faster l m b top : faster k l m -> dipole_total m b top = Scal k (dipole_total l b top).
  Proof.
    intros T. destruct (fa_numbers _ _ _ T) as (N1 & _). destruct (fa_tensors _ _ _ T) as (_ & B & C). unfold dipole_total. rewrite scal_plus, N1, (H_tensor_faster _ _ _ _ B), (H_tensor_faster _ _ _ _ C). reflexivity.
  Qed.
  Lemma field_faster l m i x b top : faster k l m -> H_eff m (larger i) x b top (dipole_total m b top) Zero = Scal k (H_eff l i x b top (dipole_total l b top) Zero).
  Proof.
    intros T. destruct (fa_numbers _ _ _ T) as (N1 & N2 & _). destruct (fa_tensors _ _ _ T) as (A & _). destruct (fa_vectors _ _ _ T) as (_ & V & _). unfold H_eff. rewrite scal_sum. cbn [map]. rewrite (dipole_faster _ _ _ _ T).
    unfold IEC_total, IDMI_total, larger. cbn [fi_ext fi_oe fi_dmi fi_res fi_K fi_Jb fi_Jt fi_J2b fi_J2t fi_Db fi_Dt].
    rewrite !H_iec_faster, !H_idmi_faster, H_anis_faster, N1, N2, V, (H_tensor_faster _ _ _ _ A), <- !scal_plus, scal_zero, (scal_scal (-1) k), (scal_scal k (-1)), (scal_scal (-1) k), (scal_scal k (-1)), (Rmult_comm (-1) k). reflexivity.
  Qed.
  Lemma plain_faster a x H c : LLG_plain a x (Scal c H) = Scal c (LLG_plain a x H).
  Proof. unfold LLG_plain, LL. generalize (prefactor a). intros p. vlin. Qed.
  Lemma stt_faster a q be aj x H p : LLG_stt a q be (k * aj) x (Scal k H) p = Scal k (LLG_stt a q be aj x H p).
  Proof. clear Hk. unfold LLG_stt, LL. generalize (prefactor a). intros w. vlin. Qed.
  Lemma sot_faster a d f x H p : LLG_sot a (k * d) (k * f) x (Scal k H) p = Scal k (LLG_sot a d f x H p).
  Proof. clear Hk. unfold LLG_sot, LL. generalize (prefactor a). intros w. vlin. Qed.
  Lemma polariser_faster l m b top : faster k l m -> polariser m b top = polariser l b top.
  Proof. intros T. destruct (fa_flags _ _ _ T) as (_ & _ & _ & _ & _ & F). destruct (fa_vectors _ _ _ T) as (_ & _ & V). unfold polariser. rewrite F, V. reflexivity. Qed.
  Lemma llg_faster l m t x b top H d : faster k l m -> llg_spec l t x b top H d -> llg_spec m (t / k) x b top (Scal k H) (Scal k d).
  Proof.
    intros T S. pose proof (polariser_faster l m b top T) as P. destruct (fa_numbers _ _ _ T) as (N1 & N2 & _ & N4 & N5 & N6 & N7 & N8 & N9 & N10). destruct (fa_flags _ _ _ T) as (F1 & F2 & F3 & F4 & _).
    destruct S as [A B|I A B C D E|hdl hfl A B C D E|I A B C D].
    - rewrite <- plain_faster, <- N4. apply llg_plain; congruence.
    - rewrite <- stt_faster. replace (k * (a_J I (l_Ms l) (l_thickness l) * eta (l_alternativeSTT l) (l_spinPol l) (l_slon l) (Dot x (polariser l b top))))
        with (a_J (k * I) (l_Ms l) (l_thickness l) * eta (l_alternativeSTT l) (l_spinPol l) (l_slon l) (Dot x (polariser l b top))) by (unfold a_J, Rdiv; ring).
      rewrite <- P, <- N1, <- N2, <- N4, <- N7, <- N8, <- N9, <- N10, <- F4. apply llg_stt; try congruence. apply (fa_current _ _ _ T), B.
    - rewrite <- sot_faster, <- P, <- N4. apply llg_sot_dynamic; try congruence; [apply (fa_dlDriver _ _ _ T), D|apply (fa_flDriver _ _ _ T), E].
    - rewrite <- sot_faster. replace (k * (l_dampingLikeTorque l * I)) with (l_dampingLikeTorque l * (k * I)) by ring. replace (k * (l_fieldLikeTorque l * I)) with (l_fieldLikeTorque l * (k * I)) by ring.
      rewrite <- P, <- N4, <- N5, <- N6. apply llg_sot_static; try congruence. apply (fa_current _ _ _ T), D.
  Qed.
  Lemma rhs_faster l m t x b top d : faster k l m -> rhs l t x b top d -> rhs m (t / k) x b top (Scal k d).
  Proof.
    intros T (i & I & A & B & L). exists (larger i). split; [exact (inputs_faster _ _ _ _ T I)|]. destruct (fa_numbers _ _ _ T) as (N1 & N2 & _). split; [congruence|]. split; [congruence|].
    rewrite (field_faster _ _ _ _ _ _ T). exact (llg_faster _ _ _ _ _ _ _ _ T L).
  Qed.
  Lemma noise_faster l m t w : faster k l m -> noise_spec l t w -> noise_spec m (t / k) (Scal (sqrt k) w).
  Proof.
    intros T (a & b & A & B & ->). destruct (fa_quiet _ _ _ T) as [Z Z']. exists (Scal (sqrt k) a), Zero. split; [|split; [left; auto|]].
    - destruct (fa_flags _ _ _ T) as (_ & _ & _ & _ & F & _). unfold thermal_part in *. rewrite F. destruct (l_temperatureSet l); [|subst a; apply scal_zero].
      destruct A as (s & (S1 & te & S2 & S3 & S4 & S5) & ->). exists (sqrt k * s). destruct (fa_numbers _ _ _ T) as (N1 & _ & N3 & N4 & _). destruct (fa_random _ _ _ T) as [R1 R2].
      assert (E : 2 * l_damping l * kB * (k * te) / (l_Ms l * l_cellVolume l * gamma0) = k * (2 * l_damping l * kB * te / (l_Ms l * l_cellVolume l * gamma0))) by (unfold Rdiv; ring).
      split; [unfold thermal_sd; rewrite N1, N3, N4; split; [exact S1|]; exists (k * te); split; [apply (fa_temperature _ _ _ T), S2|]; rewrite E; split; [exact S3|]; split; [apply Rmult_le_pos; [lra|exact S4]|]|].
      + rewrite S5. symmetry. apply sqrt_mult_alt. lra.
      + rewrite R1, R2, scal_scal. reflexivity.
    - destruct B as [[_ ->]|[B _]]; [|contradiction]. rewrite scal_plus, scal_zero. reflexivity.
  Qed.
  Lemma sqrt_faster dt : 0 <= dt -> 0 <= dt / k /\ sqrt (dt / k) * sqrt k = sqrt dt.
  Proof.
    intros D. assert (P : 0 <= dt / k) by (apply Rmult_le_pos; [exact D|left; apply Rinv_0_lt_compat, Hk]). split; [exact P|]. rewrite <- sqrt_mult by lra. f_equal. field. lra.
  Qed.
  Lemma noise_term dt a x w : 0 <= dt -> Scal (sqrt (dt / k)) (LLG_plain a x (Scal (sqrt k) w)) = Scal (sqrt dt) (LLG_plain a x w).
  Proof. intros D. rewrite plain_faster, scal_scal, (proj2 (sqrt_faster dt D)). reflexivity. Qed.
  Lemma noise_term_half dt a x y w : 0 <= dt -> Scal (sqrt (dt / k) / 2) (Plus (LLG_plain a x (Scal (sqrt k) w)) (LLG_plain a y (Scal (sqrt k) w))) = Scal (sqrt dt / 2) (Plus (LLG_plain a x w) (LLG_plain a y w)).
  Proof.
    intros D. rewrite !plain_faster, <- scal_plus, scal_scal. f_equal. rewrite <- (proj2 (sqrt_faster dt D)). unfold Rdiv. ring.
  Qed.

  (** ** Schemes *)
  Lemma rk4_faster (F G : R -> cvec -> cvec -> Prop) t dt m u : (forall s x d, F s x d -> G (s / k) x (Scal k d)) -> RK4_scheme F t dt m u -> RK4_scheme G (t / k) (dt / k) m u.
  Proof.
    intros H (f1 & f2 & f3 & f4 & A1 & A2 & A3 & A4 & A5). exists (Scal k f1), (Scal k f2), (Scal k f3), (Scal k f4).
    assert (E2 : t / k + dt / k / 2 = (t + dt / 2) / k) by (field; lra). assert (E4 : t / k + dt / k = (t + dt) / k) by (field; lra).
    assert (D2 : dt / k / 2 = dt / 2 / k) by (field; lra). assert (D6 : dt / k / 6 = dt / 6 / k) by (field; lra).
    rewrite E2, E4, D2, D6, !unscale. split; [apply H, A1|]. split; [apply H, A2|]. split; [apply H, A3|]. split; [apply H, A4|].
    replace (Sum [Scal k f1; Scal 2 (Scal k f2); Scal 2 (Scal k f3); Scal k f4]) with (Scal k (Sum [f1; Scal 2 f2; Scal 2 f3; f4])); [rewrite unscale; exact A5|].
    rewrite scal_sum. cbn [map]. rewrite !scal_scal, (Rmult_comm k 2). reflexivity.
  Qed.
  Lemma mag_faster l m : faster k l m -> l_mag m = l_mag l.
  Proof. intros T. apply (fa_vectors _ _ _ T). Qed.
  Lemma damping_faster l m : faster k l m -> l_damping m = l_damping l.
  Proof. intros T. apply (fa_numbers _ _ _ T). Qed.
  Lemma put_cache u l : set_l_mag u l = set_l_mag u (set_l_cache (l_cache l) l).
  Proof. destruct l. reflexivity. Qed.
  Lemma faster_put l m u c c' : faster k l m -> faster k (set_l_mag u (set_l_cache c l)) (set_l_mag u (set_l_cache c' m)).
  Proof. intros [T1 (T2 & T3 & T4) T5 T8 T9 T10 T11 T12 T13 T14 T15 T16 T17 T18 T19 T20 T21 T22 T23 T24 T25 T26]. constructor; try assumption. split; [reflexivity|]. split; assumption. Qed.
  Lemma faster_advance l m : faster k l m -> faster k (advance_noise l) (advance_noise m).
  Proof.
    intros [T1 T2 T5 T8 T9 T10 T11 T12 T13 T14 T15 T16 T17 T18 T19 T20 T21 T22 [T23 T23'] T24 T25 T26]. constructor; try assumption.
    destruct T25 as (_ & _ & _ & _ & F & _). unfold advance_noise. cbn [l_rng l_rpos set_l_bfn set_l_rpos]. rewrite F, T23'. split; [exact T23|reflexivity].
  Qed.
  Lemma faster_quiet_prepared l m : faster k l m -> prepared l = l /\ prepared m = m.
  Proof. intros T. destruct (fa_quiet _ _ _ T) as [A B]. unfold prepared. destruct (Req_EM_T (l_nScale l) 0), (Req_EM_T (l_nScale m) 0); try contradiction. auto. Qed.
  Lemma multi_faster l l' m us p t dt : faster k l m -> RK4_multi_rel us t dt p l l' -> RK4_multi_rel us (t / k) (dt / k) p m (set_l_mag (l_mag l') m).
  Proof.
    intros T (S & _). split; [|exists (l_cache m); rewrite put_cache at 1; reflexivity]. rewrite (mag_faster _ _ T).
    change (l_mag (set_l_mag (l_mag l') m)) with (l_mag l'). refine (rk4_faster _ _ _ _ _ _ _ S). intros s x d. apply rhs_faster, T.
  Qed.
  Lemma single_faster l l' m t dt : faster k l m -> RK4_single_rel t dt 0 l l' -> RK4_single_rel (t / k) (dt / k) 0 m (set_l_mag (l_mag l') m).
  Proof.
    intros T (S & _). split; [|exists (l_cache m); rewrite put_cache at 1; reflexivity]. rewrite (mag_faster _ _ T).
    change (l_mag (set_l_mag (l_mag l') m)) with (l_mag l'). refine (rk4_faster _ _ _ _ _ _ _ S). intros s x d. apply rhs_faster, T.
  Qed.
  Lemma eh_faster l l' m us p t dt : faster k l m -> EulerHeun_rel us t dt p l l' -> EulerHeun_rel us (t / k) (dt / k) p m (set_l_mag (l_mag l') (advance_noise m)).
  Proof.
    intros T (w & c & NS & (D & f & F & X) & _). exists (Scal (sqrt k) w), (l_cache (advance_noise m)). split; [exact (noise_faster _ _ _ _ T NS)|]. split; [|rewrite put_cache at 1; reflexivity].
    change (l_mag (set_l_mag (l_mag l') (advance_noise m))) with (l_mag l'). split; [apply (sqrt_faster dt D)|]. exists (Scal k f). cbv beta zeta in X |- *.
    rewrite (mag_faster _ _ T), (damping_faster _ _ T). split; [exact (rhs_faster _ _ _ _ _ _ _ T F)|]. rewrite unscale, (noise_term dt _ _ _ D), (noise_term_half dt _ _ _ _ D). exact X.
  Qed.
  Lemma heun_faster l l' m us ws ps p t dt : faster k l m -> Heun_rel us ws ps t dt p l l' -> Heun_rel us (map (Scal (sqrt k)) ws) ps (t / k) (dt / k) p m (set_l_mag (l_mag l') (advance_noise m)).
  Proof.
    intros T (w & x & c & Ew & Ep & NS & (D & f & F & X) & (g & g' & G & G' & Y) & _). exists (Scal (sqrt k) w), x, (l_cache (advance_noise m)).
    split; [exact (map_nth_error _ _ _ Ew)|]. split; [exact Ep|]. split; [exact (noise_faster _ _ _ _ T NS)|].
    change (l_mag (set_l_mag (l_mag l') (advance_noise m))) with (l_mag l'). unfold Heun_predictor, Heun_corrector. rewrite (mag_faster _ _ T), (damping_faster _ _ T).
    split; [split; [apply (sqrt_faster dt D)|]; exists (Scal k f); split; [exact (rhs_faster _ _ _ _ _ _ _ T F)|]; rewrite unscale, (noise_term dt _ _ _ D); exact X|]. split; [|rewrite put_cache at 1; reflexivity].
    exists (Scal k g), (Scal k g'). split; [exact (rhs_faster _ _ _ _ _ _ _ T G)|]. replace (t / k + dt / k) with ((t + dt) / k) by (field; lra). split; [exact (rhs_faster _ _ _ _ _ _ _ T G')|].
    rewrite (noise_term_half dt _ _ _ _ D), <- scal_plus. replace (dt / k / 2) with (dt / 2 / k) by (field; lra). rewrite unscale. exact Y.
  Qed.
End fast.
