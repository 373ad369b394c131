(** Proofs about layers that are described differently but move alike (C109). *)
From Verif Require Import S_Same P_Reach P_RunEx.
From Verif Require Export P_Reach S_Same.
From Coq Require Import Lra Psatz.
Open Scope R_scope.
Open Scope st_scope.

Lemma same_sym l m : same_motion l m -> same_motion m l.
Proof.
  intros [A B C D E]. constructor; [congruence|congruence|intros t x b top d; rewrite C; reflexivity| |].
  - destruct D as (? & ? & ? & ? & ? & ? & ?). repeat split; congruence.
  - destruct E as (? & ? & ? & ? & ? & ?). repeat split; congruence.
Qed.
Lemma keep_cache u l : set_l_mag u l = set_l_mag u (set_l_cache (l_cache l) l).
Proof. destruct l. reflexivity. Qed.
(** What the derivative at a given effective field depends on *)
Definition llg_data (l : layer) := (l_includeSTT l, l_includeSOT l, l_dynamicSOT l, l_alternativeSTT l, (l_damping l, l_Ms l, l_thickness l, l_slon l, l_spinPol l, l_kappa l, l_beta l), (l_current l, l_dlDriver l, l_flDriver l), (l_dampingLikeTorque l, l_fieldLikeTorque l)).
Lemma llg_ext l m t x b top H d : llg_data l = llg_data m -> polariser l b top = polariser m b top -> llg_spec l t x b top H d -> llg_spec m t x b top H d.
Proof.
  intros E P S. unfold llg_data in E. injection E as F1 F2 F3 F4 N1 N2 N3 N4 N5 N6 N7 D1 D2 D3 T1 T2. destruct S.
  - rewrite N1. apply llg_plain; congruence.
  - rewrite N1, N2, N3, N4, N5, N6, N7, F4, P. apply llg_stt; congruence.
  - rewrite N1, P. apply llg_sot_dynamic; congruence.
  - rewrite N1, T1, T2, P. apply llg_sot_static; congruence.
Qed.
Lemma rhs_put l u c t x b top d : rhs (set_l_mag u (set_l_cache c l)) t x b top d <-> rhs l t x b top d.
Proof. split; intros (i & I & A & B & L); exists i; (split; [exact I|split; [exact A|split; [exact B|]]]); (refine (llg_ext _ _ _ _ _ _ _ _ _ _ L); reflexivity). Qed.
Lemma rhs_noise l bf rp g t x b top d : rhs (set_l_ngen g (set_l_bfn bf (set_l_rpos rp l))) t x b top d <-> rhs l t x b top d.
Proof. split; intros (i & I & A & B & L); exists i; (split; [exact I|split; [exact A|split; [exact B|]]]); (refine (llg_ext _ _ _ _ _ _ _ _ _ _ L); reflexivity). Qed.
Lemma same_put l m u c c' : same_motion l m -> same_motion (set_l_mag u (set_l_cache c l)) (set_l_mag u (set_l_cache c' m)).
Proof. intros [A B C D E]. constructor; [exact A|reflexivity| |exact D|exact E]. intros t x b top d. rewrite !rhs_put. apply C. Qed.
Lemma noise_as l : advance_noise l = set_l_ngen (l_ngen l) (set_l_bfn (l_bfn (advance_noise l)) (set_l_rpos (l_rpos (advance_noise l)) l)).
Proof. destruct l. reflexivity. Qed.
Lemma prepared_as l : prepared l = set_l_ngen (l_ngen (prepared l)) (set_l_bfn (l_bfn (prepared l)) (set_l_rpos (l_rpos l) l)).
Proof. unfold prepared. destruct l. cbn. destruct (Req_EM_T _ 0); reflexivity. Qed.
Lemma same_advance l m : same_motion l m -> same_motion (advance_noise l) (advance_noise m).
Proof.
  intros [A B C D E]. destruct D as (D1 & D2 & D3 & D4 & D5 & D6 & D7). destruct E as (E1 & E2 & E3 & E4 & E5 & E6). constructor; [exact A|exact B| | |].
  - intros t x b top d. rewrite (noise_as l), (noise_as m), !rhs_noise. apply C.
  - unfold advance_noise. cbn. rewrite D5, D7. repeat split; assumption.
  - unfold advance_noise. cbn. rewrite E1, E6. repeat split; assumption.
Qed.
Lemma same_prepare l m : same_motion l m -> same_motion (prepared l) (prepared m).
Proof.
  intros [A B C D E]. destruct E as (E1 & E2 & E3 & E4 & E5 & E6). constructor.
  - rewrite (prepared_as l), (prepared_as m). exact A.
  - rewrite (prepared_as l), (prepared_as m). exact B.
  - intros t x b top d. rewrite (prepared_as l), (prepared_as m), !rhs_noise. apply C.
  - rewrite (prepared_as l), (prepared_as m). exact D.
  - unfold prepared. rewrite E1. destruct (Req_EM_T (l_nScale l) 0); cbn; repeat split; congruence.
Qed.
Lemma same_preparable N l m : same_motion l m -> preparable N l -> preparable N m.
Proof. intros T. destruct (sm_coloured _ _ T) as (E1 & E2 & E3 & _). unfold preparable. rewrite E1, E2, E3. tauto. Qed.
Lemma noise_same l m t w : same_motion l m -> noise_spec l t w -> noise_spec m t w.
Proof.
  intros T. destruct (sm_thermal _ _ T) as (D1 & D2 & D3 & D4 & D5 & D6 & D7). destruct (sm_coloured _ _ T) as (E1 & _ & _ & _ & _ & E6).
  unfold noise_spec, thermal_part, thermal_sd, coloured_part. rewrite D1, D2, D3, D4, D5, D6, D7, E1, E6. tauto.
Qed.

(** ** Schemes *)
Lemma rk4_same (F G : R -> cvec -> cvec -> Prop) t dt m u : (forall s x d, F s x d -> G s x d) -> RK4_scheme F t dt m u -> RK4_scheme G t dt m u.
Proof. intros H (f1 & f2 & f3 & f4 & A1 & A2 & A3 & A4 & A5). exists f1, f2, f3, f4. repeat split; auto. Qed.
Lemma multi_same l l' m us p t dt : same_motion l m -> RK4_multi_rel us t dt p l l' -> RK4_multi_rel us t dt p m (set_l_mag (l_mag l') m).
Proof.
  intros T (S & _). split; [|exists (l_cache m); rewrite keep_cache at 1; reflexivity]. rewrite (sm_mag _ _ T).
  change (l_mag (set_l_mag (l_mag l') m)) with (l_mag l'). refine (rk4_same _ _ _ _ _ _ _ S). intros s x d. apply (sm_rhs _ _ T).
Qed.
Lemma single_same l l' m t dt : same_motion l m -> RK4_single_rel t dt 0 l l' -> RK4_single_rel t dt 0 m (set_l_mag (l_mag l') m).
Proof.
  intros T (S & _). split; [|exists (l_cache m); rewrite keep_cache at 1; reflexivity]. rewrite (sm_mag _ _ T).
  change (l_mag (set_l_mag (l_mag l') m)) with (l_mag l'). refine (rk4_same _ _ _ _ _ _ _ S). intros s x d. apply (sm_rhs _ _ T).
Qed.
Lemma eh_same l l' m us p t dt : same_motion l m -> EulerHeun_rel us t dt p l l' -> EulerHeun_rel us t dt p m (set_l_mag (l_mag l') (advance_noise m)).
Proof.
  intros T (w & c & NS & (D & f & F & X) & _). exists w, (l_cache (advance_noise m)). split; [exact (noise_same _ _ _ _ T NS)|]. split; [|rewrite keep_cache at 1; reflexivity].
  change (l_mag (set_l_mag (l_mag l') (advance_noise m))) with (l_mag l'). split; [exact D|]. exists f. cbv beta zeta in X |- *.
  rewrite (sm_mag _ _ T), (proj1 (sm_thermal _ _ T)). split; [apply (sm_rhs _ _ T), F|exact X].
Qed.
Lemma heun_same l l' m us ws ps p t dt : same_motion l m -> Heun_rel us ws ps t dt p l l' -> Heun_rel us ws ps t dt p m (set_l_mag (l_mag l') (advance_noise m)).
Proof.
  intros T (w & x & c & Ew & Ep & NS & (D & f & F & X) & (g & g' & G & G' & Y) & _). exists w, x, (l_cache (advance_noise m)).
  split; [exact Ew|]. split; [exact Ep|]. split; [exact (noise_same _ _ _ _ T NS)|].
  change (l_mag (set_l_mag (l_mag l') (advance_noise m))) with (l_mag l'). unfold Heun_predictor, Heun_corrector. rewrite (sm_mag _ _ T), (proj1 (sm_thermal _ _ T)).
  split; [split; [exact D|]; exists f; split; [apply (sm_rhs _ _ T), F|exact X]|]. split; [|rewrite keep_cache at 1; reflexivity].
  exists g, g'. split; [apply (sm_rhs _ _ T), G|]. split; [apply (sm_rhs _ _ T), G'|exact Y].
Qed.

(** ** Three ways to describe the same layer *)
Lemma anis_sign n K q x : H_anis (Scal (-1) n) K q x = H_anis n K q x.
Proof. destruct n, x. unfold H_anis, Scal, Dot. cbn. apply vec_eq; ring. Qed.
Lemma other_axis l : same_motion l (set_l_anis (Scal (-1) (l_anis l)) l).
Proof.
  constructor; try (repeat split; reflexivity). intros t x b top d.
  assert (K : forall i, H_eff (set_l_anis (Scal (-1) (l_anis l)) l) i x b top (dipole_total (set_l_anis (Scal (-1) (l_anis l)) l) b top) Zero = H_eff l i x b top (dipole_total l b top) Zero).
  { intros i. unfold H_eff. cbn [l_anis l_Ms l_demag set_l_anis]. rewrite anis_sign. reflexivity. }
  split; intros (i & I & A & B & L); exists i; (split; [exact I|split; [exact A|split; [exact B|]]]); [rewrite K|rewrite K in L]; (refine (llg_ext _ _ _ _ _ _ _ _ _ _ L); reflexivity).
Qed.
Lemma eff_applied l i i' x b top dp : Plus (fi_ext i') (Plus (fi_oe i') (Plus (fi_dmi i') (fi_res i'))) = Plus (fi_ext i) (Plus (fi_oe i) (Plus (fi_dmi i) (fi_res i))) ->
  fi_K i' = fi_K i -> fi_Jb i' = fi_Jb i -> fi_Jt i' = fi_Jt i -> fi_J2b i' = fi_J2b i -> fi_J2t i' = fi_J2t i -> fi_Db i' = fi_Db i -> fi_Dt i' = fi_Dt i ->
  H_eff l i' x b top dp Zero = H_eff l i x b top dp Zero.
Proof.
  intros S E1 E2 E3 E4 E5 E6 E7. unfold H_eff, IEC_total, IDMI_total. rewrite E1, E2, E3, E4, E5, E6, E7.
  generalize (H_anis (l_anis l) (fi_K i) (l_Ms l) x) (Plus (H_iec (fi_Jb i) (fi_J2b i) (l_Ms l * l_thickness l) x b) (H_iec (fi_Jt i) (fi_J2t i) (l_Ms l * l_thickness l) x top))
    (Plus (H_idmi (fi_Db i) (l_Ms l * l_thickness l) b) (H_idmi (fi_Dt i) (l_Ms l * l_thickness l) top)) (Scal (-1) (H_tensor (l_demag l) (l_Ms l) x)) (Scal (-1) dp).
  intros a1 a2 a3 a4 a5. revert S. generalize (fi_ext i) (fi_oe i) (fi_dmi i) (fi_res i) (fi_ext i') (fi_oe i') (fi_dmi i') (fi_res i').
  intros [] [] [] [] [] [] [] [] S. destruct a1, a2, a3, a4, a5. unfold Plus, Zero, Sum in *. cbn in *. injection S as X Y Z. apply vec_eq; cbn; lra.
Qed.
Lemma fields_half l m e o d r e' o' d' r' t x b top v : l = with_fields e o d r m -> (forall h, applied l t h -> applied (with_fields e' o' d' r' m) t h) -> rhs l t x b top v -> rhs (with_fields e' o' d' r' m) t x b top v.
Proof.
  intros -> H (i & (I1 & I2 & I3 & I4 & I5) & A & B & L). destruct (H (Plus (fi_ext i) (Plus (fi_oe i) (Plus (fi_dmi i) (fi_res i))))) as (e1 & o1 & d1 & r1 & X1 & X2 & X3 & X4 & X5).
  { exists (fi_ext i), (fi_oe i), (fi_dmi i), (fi_res i). auto. }
  exists (FI e1 o1 d1 r1 (fi_K i) (fi_Jb i) (fi_Jt i) (fi_J2b i) (fi_J2t i) (fi_Db i) (fi_Dt i)). split; [repeat split; try assumption; apply I5|]. split; [exact A|]. split; [exact B|].
  assert (E : H_eff (with_fields e' o' d' r' m) (FI e1 o1 d1 r1 (fi_K i) (fi_Jb i) (fi_Jt i) (fi_J2b i) (fi_J2t i) (fi_Db i) (fi_Dt i)) x b top (dipole_total (with_fields e' o' d' r' m) b top) Zero
    = H_eff (with_fields e o d r m) i x b top (dipole_total (with_fields e o d r m) b top) Zero).
  { change (H_eff (with_fields e' o' d' r' m)) with (H_eff (with_fields e o d r m)). change (dipole_total (with_fields e' o' d' r' m)) with (dipole_total (with_fields e o d r m)). apply eff_applied; try reflexivity. cbn. symmetry. exact X5. }
  rewrite E. refine (llg_ext _ _ _ _ _ _ _ _ _ _ L); reflexivity.
Qed.
Lemma other_fields l e o d r : (forall t h, applied l t h <-> applied (with_fields e o d r l) t h) -> same_motion l (with_fields e o d r l).
Proof.
  intros H. constructor; try (repeat split; reflexivity). intros t x b top v.
  assert (E : l = with_fields (l_external l) (l_Oersted l) (l_Hdmi l) (l_Hreserved l) l) by (destruct l; reflexivity).
  split; [apply (fields_half _ _ _ _ _ _ _ _ _ _ _ _ _ _ _ E), H|].
  intros X. rewrite E. refine (fields_half (with_fields e o d r l) l e o d r _ _ _ _ t x b top v eq_refl _ X). intros h. rewrite <- E. apply H.
Qed.

Section thick.
  Context (c : R) (Hc : c <> 0).
  Lemma iec_thick J J2 M th x y : M <> 0 -> th <> 0 -> H_iec (c * J) (c * J2) (M * (c * th)) x y = H_iec J J2 (M * th) x y.
  Proof. intros A B. unfold H_iec. f_equal. field. auto. Qed.
  Lemma idmi_thick D M th y : M <> 0 -> th <> 0 -> H_idmi (Scal c D) (M * (c * th)) y = H_idmi D (M * th) y.
  Proof. intros A B. destruct D, y. unfold H_idmi, Scal, Cross. cbn. apply vec_eq; field; auto. Qed.
  Lemma aj_thick I M th : M <> 0 -> th <> 0 -> a_J (c * I) M (c * th) = a_J I M th.
  Proof. intros A B. unfold a_J. assert (e0 <> 0) by (unfold e0; lra). field. auto. Qed.
  Context (l : layer) (jt jb qt qb i : sdriver) (dt db : adriver).
  Context (H1 : times c (l_IECTop l) jt) (H2 : times c (l_IECBottom l) jb) (H3 : times c (l_QuadTop l) qt) (H4 : times c (l_QuadBottom l) qb) (H5 : times c (l_current l) i)
    (H6 : times_axial c (l_IDMITop l) dt) (H7 : times_axial c (l_IDMIBottom l) db) (HS : l_includeSTT l = true \/ l_includeSOT l = false \/ l_dynamicSOT l = true).
  Local Notation m := (with_thickness c jt jb qt qb i dt db l).
  Definition thick_in (f : field_inputs) : field_inputs := FI (fi_ext f) (fi_oe f) (fi_dmi f) (fi_res f) (fi_K f) (c * fi_Jb f) (c * fi_Jt f) (c * fi_J2b f) (c * fi_J2t f) (Scal c (fi_Db f)) (Scal c (fi_Dt f)).
  Lemma thick_inputs t f : inputs_at l t f <-> inputs_at m t (thick_in f).
  Proof.
    unfold inputs_at. cbn [thick_in with_thickness fi_ext fi_oe fi_dmi fi_res fi_K fi_Jb fi_Jt fi_J2b fi_J2t fi_Db fi_Dt].
    split; intros (I1 & I2 & I3 & I4 & I5 & I6 & I7 & I8 & I9 & I10 & I11); repeat split; first [assumption|apply H1; assumption|apply H2; assumption|apply H3; assumption|apply H4; assumption|apply H6; assumption|apply H7; assumption].
  Qed.
  Lemma thick_back f : f = thick_in (FI (fi_ext f) (fi_oe f) (fi_dmi f) (fi_res f) (fi_K f) (fi_Jb f / c) (fi_Jt f / c) (fi_J2b f / c) (fi_J2t f / c) (Scal (/ c) (fi_Db f)) (Scal (/ c) (fi_Dt f))).
  Proof.
    assert (S : forall v, v = Scal c (Scal (/ c) v)) by (intros []; unfold Scal; cbn; apply vec_eq; field; exact Hc). assert (N : forall v, v = c * (v / c)) by (intros v; field; exact Hc).
    destruct f as [a1 a2 a3 a4 a5 a6 a7 a8 a9 a10 a11]. unfold thick_in. cbn [fi_ext fi_oe fi_dmi fi_res fi_K fi_Jb fi_Jt fi_J2b fi_J2t fi_Db fi_Dt]. rewrite <- !S, <- !N. reflexivity.
  Qed.
  Lemma thick_field f x b top : l_Ms l <> 0 -> l_thickness l <> 0 -> H_eff m (thick_in f) x b top (dipole_total m b top) Zero = H_eff l f x b top (dipole_total l b top) Zero.
  Proof.
    intros A B. change (dipole_total m b top) with (dipole_total l b top). unfold H_eff, IEC_total, IDMI_total.
    change (l_Ms m) with (l_Ms l). change (l_thickness m) with (c * l_thickness l). change (l_anis m) with (l_anis l). change (l_demag m) with (l_demag l). cbn [thick_in fi_ext fi_oe fi_dmi fi_res fi_K fi_Jb fi_Jt fi_J2b fi_J2t fi_Db fi_Dt].
    rewrite !(iec_thick _ _ _ _ _ _ A B), !(idmi_thick _ _ _ _ A B). reflexivity.
  Qed.
  Lemma thick_llg t x b top H d : l_Ms l <> 0 -> l_thickness l <> 0 -> llg_spec l t x b top H d <-> llg_spec m t x b top H d.
  Proof.
    intros A B. split; intros S.
    - assert (B' : c * l_thickness l <> 0) by (apply Rmult_integral_contrapositive_currified; assumption).
      destruct S as [F G|I F G P Q W|hdl hfl F G P Q W|I F G P Q]; [exact (llg_plain m t x b top H F G)| |exact (llg_sot_dynamic m t x b top H hdl hfl F G P Q W)|exfalso; destruct HS as [E|[E|E]]; congruence].
      rewrite <- (aj_thick I _ _ A B). exact (llg_stt m t x b top H (c * I) F (proj1 (H5 t I) G) A B' W).
    - inversion S as [F G|I F G P Q W|hdl hfl F G P Q W|I F G P Q]; [exact (llg_plain l t x b top H F G)| |exact (llg_sot_dynamic l t x b top H hdl hfl F G P Q W)|exfalso; change (l_includeSTT l = false) in F; change (l_includeSOT l = true) in G; change (l_dynamicSOT l = false) in P; destruct HS as [E|[E|E]]; congruence].
      assert (N : I = c * (I / c)) by (field; exact Hc). change (l_Ms m) with (l_Ms l). change (l_thickness m) with (c * l_thickness l). rewrite N at 1. rewrite (aj_thick (I / c) _ _ A B).
      assert (G' : getCurrentScalarValue (l_current l) t = Ok (I / c)) by (apply H5; rewrite <- N; exact G). exact (llg_stt l t x b top H (I / c) F G' A B W).
  Qed.
  Lemma other_thickness : same_motion l m.
  Proof.
    constructor; try (repeat split; reflexivity). intros t x b top v. split.
    - intros (f & I & A & B & L). exists (thick_in f). split; [apply thick_inputs, I|]. split; [exact A|]. split; [change (l_thickness m) with (c * l_thickness l); apply Rmult_integral_contrapositive_currified; assumption|].
      rewrite (thick_field f x b top A B). apply thick_llg; assumption.
    - intros (f & I & A & B & L). rewrite (thick_back f) in I, L. change (l_Ms l <> 0) in A. change (c * l_thickness l <> 0) in B. assert (B' : l_thickness l <> 0) by (intros X; apply B; rewrite X; ring).
      eexists. split; [apply thick_inputs, I|]. split; [exact A|]. split; [exact B'|]. rewrite (thick_field _ x b top A B') in L. apply thick_llg; assumption.
  Qed.
End thick.
