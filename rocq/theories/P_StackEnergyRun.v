(** The energy of simulated stacks, and dipolar coupling of layers of different magnetisation. *)
From Verif Require Import P_RunProps P_LayerProps P_Step4 P_Converge P_ConvergeRun P_Metric P_Vec P_Regular P_Tame P_DW P_Precess P_StackEnergy P_Alone P_RunEx.
From Verif Require Export S_StackEnergy.
From Coq Require Import Reals Lra Lia Psatz.
Open Scope R_scope.

(** ** Steady layers have no jumps *)
Lemma still_tame T d c : (forall t, getCurrentScalarValue d t = Ok c) -> tame T d.
Proof. intros H. apply (tame_of T d (fun _ => c) 0); [exact H|]. intros t t'. rewrite Rminus_diag_eq, Rabs_R0 by reflexivity. lra. Qed.
Lemma still_tame_axial T d v : (forall t, getCurrentAxialDrivers d t = Ok v) -> tame_axial T d.
Proof.
  intros H. assert (G : forall t, getCurrentScalarValue (ax0 d) t = Ok (cx v) /\ getCurrentScalarValue (ax1 d) t = Ok (cy v) /\ getCurrentScalarValue (ax2 d) t = Ok (cz v)).
  { intros t. specialize (H t). unfold getCurrentAxialDrivers in H. destruct (getCurrentScalarValue (ax0 d) t); [|discriminate]. destruct (getCurrentScalarValue (ax1 d) t); [|discriminate].
    destruct (getCurrentScalarValue (ax2 d) t); [|discriminate]. injection H as <-. repeat split. }
  split; [|split]; eapply still_tame; intros t; apply G.
Qed.
Lemma conservative_tame T l i : conservative_layer l i -> tame_layer T l.
Proof.
  intros (ST & S1 & S2 & _). unfold steady, inputs_at in ST.
  repeat match goal with |- tame_layer _ _ => unfold tame_layer | |- _ /\ _ => split end;
    try (eapply still_tame_axial; intros t; apply (ST t)); try (eapply still_tame; intros t; apply (ST t)); congruence.
Qed.

(** ** The energy is Lipschitz *)
Lemma own_lip l i : bl 0 (fun x => own_energy l i (pt_v x)).
Proof.
  pose proof (vbl_v 0) as V. unfold own_energy.
  repeat first [apply bl_plus | apply bl_minus | apply bl_mult | apply bl_opp | apply bl_const | apply bl_dot | apply vbl_const | apply vbl_matvec | exact V].
Qed.
Lemma pair_lip l i : bl 0 (fun x => pair_energy l i (pt_v x) (pt_w x)).
Proof.
  pose proof (vbl_v 0) as V. pose proof (vbl_w 0) as W. unfold pair_energy.
  repeat first [apply bl_plus | apply bl_minus | apply bl_mult | apply bl_opp | apply bl_const | apply bl_dot | apply vbl_const | apply vbl_matvec | exact V | exact W].
Qed.
Lemma zero_small : Norm Zero <= 2.
Proof. unfold Norm, Norm2, Dot, Zero. replace (0 * 0 + 0 * 0 + 0 * 0) with 0 by ring. rewrite sqrt_0. lra. Qed.
Lemma energy_lip : forall ls, exists K, 0 <= K /\ forall vs ws d, 0 <= d -> length vs = length ws ->
  (forall p v w, nth_error vs p = Some v -> nth_error ws p = Some w -> Norm v <= 2 /\ Norm w <= 2 /\ Distance v w <= d) ->
  Rabs (stack_energy ls vs - stack_energy ls ws) <= K * d.
Proof.
  induction ls as [|[l i] ls (K & HK & IH)].
  - exists 0. split; [lra|]. intros vs ws d Hd _ _. cbn. rewrite Rminus_diag_eq, Rabs_R0 by reflexivity. lra.
  - destruct (own_lip l i) as (B1 & K1 & _ & HK1 & F1), (pair_lip l i) as (B2 & K2 & _ & HK2 & F2).
    assert (D0 : forall v w, Norm v <= 2 -> Norm w <= 2 -> dom 0 (PT 0 v Zero w)) by (intros v w A B; unfold dom; cbn; pose proof zero_small; repeat split; try assumption; lra).
    assert (DZ : Distance Zero Zero = 0) by apply Distance_refl.
    exists (K + K1 + 2 * K2). split; [lra|]. intros vs ws d Hd HL H. destruct vs as [|v vs], ws as [|w ws]; try discriminate.
    + cbn. rewrite Rminus_diag_eq, Rabs_R0 by reflexivity. apply Rmult_le_pos; lra.
    + injection HL as HL. cbn [stack_energy]. destruct (H 0%nat v w eq_refl eq_refl) as (N1 & N2 & N3).
      specialize (IH vs ws d Hd HL (fun p a b A B => H (S p) a b A B)).
      assert (O : Rabs (own_energy l i v - own_energy l i w) <= K1 * d).
      { destruct (F1 (PT 0 v Zero Zero) (D0 v Zero N1 zero_small)) as [_ G]. specialize (G _ (D0 w Zero N2 zero_small)). unfold gap in G. cbn [pt_t pt_v pt_b pt_w] in G.
        rewrite DZ, (Rminus_diag_eq 0 0 eq_refl), Rabs_R0 in G. apply Rle_trans with (1 := G). apply Rmult_le_compat_l; lra. }
      assert (PR : Rabs (match vs with [] => 0 | c :: _ => pair_energy l i v c end - match ws with [] => 0 | c :: _ => pair_energy l i w c end) <= 2 * K2 * d).
      { destruct vs as [|v1 vs], ws as [|w1 ws]; try discriminate; [rewrite Rminus_diag_eq, Rabs_R0 by reflexivity; apply Rmult_le_pos; lra|].
        destruct (H 1%nat v1 w1 eq_refl eq_refl) as (M1 & M2 & M3).
        destruct (F2 (PT 0 v Zero v1) (D0 v v1 N1 M1)) as [_ G]. specialize (G _ (D0 w w1 N2 M2)). unfold gap in G. cbn [pt_t pt_v pt_b pt_w] in G.
        rewrite DZ, (Rminus_diag_eq 0 0 eq_refl), Rabs_R0 in G. apply Rle_trans with (1 := G). replace (2 * K2 * d) with (K2 * (2 * d)) by ring. apply Rmult_le_compat_l; lra. }
      set (o1 := own_energy l i v) in *. set (o2 := own_energy l i w) in *. set (s1 := stack_energy ls vs) in *. set (s2 := stack_energy ls ws) in *.
      set (p1 := match vs with [] => 0 | c :: _ => pair_energy l i v c end) in *. set (p2 := match ws with [] => 0 | c :: _ => pair_energy l i w c end) in *.
      replace (o1 + p1 + s1 - (o2 + p2 + s2)) with ((o1 - o2) + ((p1 - p2) + (s1 - s2))) by ring.
      pose proof (Rabs_triang (o1 - o2) ((p1 - p2) + (s1 - s2))). pose proof (Rabs_triang (p1 - p2) (s1 - s2)). lra.
Qed.

(** ** Simulations *)
Lemma run_layers T dt wf e mode j j' : (forall l, In l (j_layers j) -> quiet l) -> runSimulation T dt wf e mode j = (j', Ok tt) -> length (j_layers j') = length (j_layers j).
Proof.
  intros HQ E. destruct (run_sound _ _ _ _ _ _ _ E) as (N & w & j0 & r & used & s & rows & HC & HSel & Hs & Htr & _ & _ & Ej & _).
  destruct (P_ConvergeRun.quiet_run mode N j j0 r used HQ HSel) as [-> _]. destruct (traj_static _ _ _ _ N Htr (le_n N)) as (_ & LE & _). rewrite Hs in LE. rewrite Ej. exact LE.
Qed.
Lemma energy_limit ls T j u du : 0 <= T -> conservative ls -> j_layers j = layers ls -> (forall l, In l (j_layers j) -> quiet l /\ Unit (l_mag l)) ->
  solves (layers ls) T u du -> starts (layers ls) u ->
  forall eps, 0 < eps -> exists delta, 0 < delta /\ forall dt wf e mode j', 0 < dt < delta -> runSimulation T dt wf e mode j = (j', Ok tt) ->
    Rabs (stack_energy ls (mags (j_layers j')) - stack_energy ls (snapshot u (length ls) T)) < eps.
Proof.
  intros HT HC HJ HQ HS H0 eps He. destruct (energy_lip ls) as (K & HK & LP). pose proof HS as HS'. pose proof H0 as H0'. rewrite <- HJ in HS', H0'.
  assert (FS : fine_start T (j_layers j)).
  { intros l Hl. split; [|apply HQ; exact Hl]. rewrite HJ in Hl. unfold layers in Hl. apply in_map_iff in Hl. destruct Hl as ([l0 i0] & <- & Hi). apply (conservative_tame T l0 i0). apply (proj1 HC). exact Hi. }
  assert (HU : forall p l, nth_error (layers ls) p = Some l -> Unit (u p 0)).
  { intros p l Hp. rewrite (H0 p l Hp). apply HQ. rewrite HJ. exact (nth_error_In _ _ Hp). }
  set (d := Rmin 1 (eps / (K + 1))). assert (Hd : 0 < d) by (apply Rmin_pos; [lra|apply Rdiv_lt_0_compat; lra]).
  destruct (run_limit T j u du HT FS HS' H0' d Hd) as (delta & HD & G). exists delta. split; [exact HD|]. intros dt wf e mode j' Hdt E.
  destruct (G dt wf e mode j' Hdt E) as [G1 _]. pose proof (run_layers _ _ _ _ _ _ _ (fun l Hl => proj1 (HQ l Hl)) E) as LE. rewrite HJ, layers_len in LE.
  pose proof (Rmin_l 1 (eps / (K + 1))) as D1. pose proof (Rmin_r 1 (eps / (K + 1))) as D2. fold d in D1, D2.
  apply Rle_lt_trans with (K * d).
  - apply LP; [lra|unfold mags, snapshot; rewrite !map_length, seq_length; exact LE|].
    intros p v w Hv Hw. unfold mags in Hv. rewrite nth_error_map in Hv. destruct (nth_error (j_layers j') p) as [l'|] eqn:Q; [|discriminate]. injection Hv as <-.
    assert (HP : (p < length ls)%nat) by (rewrite <- LE; apply nth_error_Some; congruence). unfold snapshot in Hw. rewrite nth_error_map_seq in Hw by exact HP. injection Hw as <-.
    specialize (G1 p l' Q). assert (UN : Norm (u p T) = 1).
    { apply Norm_unit. destruct (nth_error (layers ls) p) as [l|] eqn:Q2; [|apply nth_error_None in Q2; rewrite layers_len in Q2; lia]. exact (solution_unit _ _ _ _ HS HU p l T Q2 ltac:(lra)). }
    split; [|split]; try lra. pose proof (Distance_triangle (l_mag l') (u p T) Zero) as TR. assert (DN : forall a, Distance a Zero = Norm a).
    { intros a. unfold Distance. f_equal. rewrite Minus_def. destruct a as [a1 a2 a3]. unfold Zero. cbn [cx cy cz]. apply vec_eq; ring. } rewrite !DN in TR. lra.
  - assert (X : d * (K + 1) <= eps / (K + 1) * (K + 1)) by (apply Rmult_le_compat_r; lra). replace (eps / (K + 1) * (K + 1)) with eps in X by (field; lra). lra.
Qed.
Lemma start_energy ls u : starts (layers ls) u -> snapshot u (length ls) 0 = mags (layers ls).
Proof.
  intros H. unfold snapshot, mags. apply (nth_ext _ _ Zero Zero); [rewrite !map_length, seq_length; symmetry; apply layers_len|].
  intros p Hp. rewrite map_length, seq_length in Hp. erewrite nth_error_nth by (rewrite nth_error_map_seq by exact Hp; reflexivity).
  destruct (nth_error (layers ls) p) as [l|] eqn:Q; [|apply nth_error_None in Q; rewrite layers_len in Q; lia].
  rewrite (H p l Q). symmetry. apply nth_error_nth. rewrite nth_error_map, Q. reflexivity.
Qed.
Lemma simulated_energy ls T j u du : 0 <= T -> conservative ls -> j_layers j = layers ls -> (forall l, In l (j_layers j) -> quiet l /\ Unit (l_mag l)) ->
  solves (layers ls) T u du -> starts (layers ls) u ->
  forall eps, 0 < eps -> exists delta, 0 < delta /\ forall dt wf e mode j', 0 < dt < delta -> runSimulation T dt wf e mode j = (j', Ok tt) ->
    ((forall l i, In (l, i) ls -> 0 <= moment l /\ 0 <= l_damping l) -> stack_energy ls (mags (j_layers j')) < stack_energy ls (mags (j_layers j)) + eps) /\
    ((forall l i, In (l, i) ls -> l_damping l = 0) -> Rabs (stack_energy ls (mags (j_layers j')) - stack_energy ls (mags (j_layers j))) < eps).
Proof.
  intros HT HC HJ HQ HS H0 eps He. destruct (energy_limit ls T j u du HT HC HJ HQ HS H0 eps He) as (delta & HD & G). exists delta. split; [exact HD|].
  intros dt wf e mode j' Hdt E. specialize (G dt wf e mode j' Hdt E). rewrite HJ, <- (start_energy ls u H0). split; intros HP.
  - pose proof (energy_falls ls T u du HC HS 0 T HP ltac:(lra) ltac:(lra)). apply Rabs_def2 in G. lra.
  - pose proof (energy_kept ls T u du HC HS 0 T HP ltac:(lra) ltac:(lra)) as X. cbv beta in X. rewrite <- X. exact G.
Qed.

(** ** Dipolar coupling *)
Lemma reciprocal_agrees a b : reciprocal a b -> l_Ms a = l_Ms b ->
  (forall x y, moment a * l_Ms a * Dot x (MatVec (l_dipoleTop a) y) = moment b * l_Ms b * Dot y (MatVec (l_dipoleBottom b) x)) /\
  (forall x y, stray_energy a b x y = moment a * l_Ms a / mu0 * Dot x (MatVec (l_dipoleTop a) y)).
Proof.
  intros H E. split; intros x y; [|unfold stray_energy; rewrite E; reflexivity]. unfold moment. rewrite <- E.
  replace (l_Ms a * l_thickness a * l_Ms a * Dot x (MatVec (l_dipoleTop a) y)) with (l_Ms a * l_Ms a * (l_thickness a * Dot x (MatVec (l_dipoleTop a) y))) by ring. rewrite H. ring.
Qed.
(** A layer of magnetisation [Ma] in a field along x, under a layer of magnetisation [Mb] that points along z. *)
Definition ex_h : R := / (gamma0 * sqrt 2).
Definition ex_coupling (Ma : R) : tensor := Ten Zero Zero (CV 0 0 (ex_h * mu0 / Ma)).
Definition ex_lower (Ma : R) : layer := set_l_external (caxial (CV ex_h 0 0)) (set_l_damping 0 (set_l_dipoleTop (ex_coupling Ma) (set_l_Ms Ma (ex_spin "a")))).
Definition ex_upper (Ma Mb : R) : layer := set_l_external null_axial (set_l_mag (CV 0 0 1) (set_l_damping 0 (set_l_dipoleBottom (ex_coupling Ma) (set_l_Ms Mb (ex_spin "b"))))).
Definition ex_inputs (h : cvec) : field_inputs := FI h Zero Zero Zero 0 0 0 0 0 Zero Zero.
Definition ex_dipole_pair (Ma Mb : R) : list (layer * field_inputs) := [(ex_lower Ma, ex_inputs (CV ex_h 0 0)); (ex_upper Ma Mb, ex_inputs Zero)].
Definition ex_turn (p : nat) (t : R) : cvec := match p with O => CV (1 / 2 + / 2 * cos t) (- / sqrt 2 * sin t) (- (1 / 2) + / 2 * cos t) | S _ => CV 0 0 1 end.
Definition ex_turn' (p : nat) (t : R) : cvec := match p with O => CV (/ 2 * - sin t) (- / sqrt 2 * cos t) (/ 2 * - sin t) | S _ => Zero end.
Lemma mu0_not_zero : mu0 <> 0. Proof. unfold mu0. pose proof PI_RGT_0. lra. Qed.
Lemma sqrt2_facts : 0 < sqrt 2 /\ sqrt 2 * sqrt 2 = 2.
Proof. split; [apply sqrt_lt_R0; lra|apply sqrt_sqrt; lra]. Qed.
Lemma ex_h_pos : 0 < ex_h.
Proof. apply Rinv_0_lt_compat, Rmult_lt_0_compat; [apply gamma_pos|apply sqrt2_facts]. Qed.
Lemma lower_inputs Ma t : inputs_at (ex_lower Ma) t (ex_inputs (CV ex_h 0 0)).
Proof. repeat split. Qed.
Lemma upper_inputs Ma Mb t : inputs_at (ex_upper Ma Mb) t (ex_inputs Zero).
Proof. repeat split. Qed.
Ltac crunch := unfold Rdiv; vsimp; cbn -[Rmult Rplus Rdiv Rinv gamma0 mu0 Ropp ex_h]; apply vec_eq; cbn -[Rmult Rplus Rdiv Rinv gamma0 mu0 Ropp ex_h].
Lemma lower_rhs Ma t m b c : Ma <> 0 -> rhs (ex_lower Ma) t m b c (LLG_plain 0 m (CV ex_h 0 (- (ex_h * cz c)))).
Proof.
  intros HM. exists (ex_inputs (CV ex_h 0 0)). split; [apply lower_inputs|]. split; [exact HM|]. split; [cbn; lra|].
  replace (CV ex_h 0 (- (ex_h * cz c))) with (H_eff (ex_lower Ma) (ex_inputs (CV ex_h 0 0)) m b c (dipole_total (ex_lower Ma) b c) Zero); [apply llg_plain; reflexivity|].
  pose proof mu0_not_zero as NM. unfold H_eff, IEC_total, IDMI_total, H_anis, dipole_total, H_iec, H_idmi, H_tensor, ex_inputs, ex_lower, ex_coupling. destruct m, b, c. cbn -[Rmult Rplus Rdiv Rinv gamma0 mu0 Ropp ex_h].
  crunch; field; auto.
Qed.
Lemma upper_rhs Ma Mb t m b c : Ma <> 0 -> Mb <> 0 -> rhs (ex_upper Ma Mb) t m b c (LLG_plain 0 m (CV 0 0 (- (Mb / Ma * ex_h * cz b)))).
Proof.
  intros HM HB. exists (ex_inputs Zero). split; [apply upper_inputs|]. split; [exact HB|]. split; [cbn; lra|].
  replace (CV 0 0 (- (Mb / Ma * ex_h * cz b))) with (H_eff (ex_upper Ma Mb) (ex_inputs Zero) m b c (dipole_total (ex_upper Ma Mb) b c) Zero); [apply llg_plain; reflexivity|].
  pose proof mu0_not_zero as NM. unfold H_eff, IEC_total, IDMI_total, H_anis, dipole_total, H_iec, H_idmi, H_tensor, ex_inputs, ex_upper, ex_coupling. destruct m, b, c. cbn -[Rmult Rplus Rdiv Rinv gamma0 mu0 Ropp ex_h].
  crunch; field; auto.
Qed.
Lemma dipole_solves Ma Mb T : Ma <> 0 -> Mb <> 0 -> solves (layers (ex_dipole_pair Ma Mb)) T ex_turn ex_turn'.
Proof.
  intros HA HB p l t Hp _. destruct sqrt2_facts as [S0 S2]. pose proof gamma_pos as G. destruct p as [|[|p]]; cbn in Hp; [injection Hp as <-|injection Hp as <-|destruct p; discriminate].
  - split.
    + replace (ex_turn' 0 t) with (LLG_plain 0 (ex_turn 0 t) (CV ex_h 0 (- (ex_h * cz (above (snapshot ex_turn (length (layers (ex_dipole_pair Ma Mb))) t) 0))))); [apply lower_rhs; exact HA|].
      cbn [layers ex_dipole_pair map length snapshot seq above nth ex_turn ex_turn' cz]. unfold LLG_plain, prefactor, LL, ex_h. vsimp.
      assert (Q : / sqrt 2 = sqrt 2 / 2) by (apply (Rmult_eq_reg_l (sqrt 2)); [rewrite Rinv_r by lra; lra|lra]). rewrite Rinv_mult, Q. set (s := sqrt 2) in *. clearbody s.
      apply vec_eq; cbn [cx cy cz]; field_simplify; try lra; try (replace (s ^ 2) with 2 by (rewrite <- S2; ring)); field; lra.
    + split; [|split]; cbn [ex_turn ex_turn' cx cy cz].
      * replace (/ 2 * - sin t) with (0 + / 2 * - sin t) by ring. apply dl_plus; [apply derivable_pt_lim_const|apply dl_scal, derivable_pt_lim_cos].
      * apply dl_scal, derivable_pt_lim_sin.
      * replace (/ 2 * - sin t) with (0 + / 2 * - sin t) by ring. apply dl_plus; [apply derivable_pt_lim_const|apply dl_scal, derivable_pt_lim_cos].
  - split.
    + replace (ex_turn' 1 t) with (LLG_plain 0 (ex_turn 1 t) (CV 0 0 (- (Mb / Ma * ex_h * cz (below (snapshot ex_turn (length (layers (ex_dipole_pair Ma Mb))) t) 1))))); [apply upper_rhs; assumption|].
      cbn [ex_turn ex_turn']. unfold LLG_plain, prefactor, LL. vsimp. unfold Zero. apply vec_eq; cbn [cx cy cz]; field; try split; exact HA.
    + split; [|split]; cbn; apply derivable_pt_lim_const.
Qed.
Lemma dipole_starts Ma Mb : starts (layers (ex_dipole_pair Ma Mb)) ex_turn.
Proof.
  intros p l Hp. destruct p as [|[|p]]; cbn in Hp; [injection Hp as <-|injection Hp as <-|destruct p; discriminate]; [|reflexivity].
  cbn [ex_turn]. rewrite cos_0, sin_0. change (l_mag (ex_lower Ma)) with (CV 1 0 0). apply vec_eq; field; apply Rgt_not_eq, sqrt2_facts.
Qed.
Lemma dipole_reciprocal Ma Mb : reciprocal (ex_lower Ma) (ex_upper Ma Mb).
Proof. intros x y. destruct x, y. cbn -[Rmult Rplus ex_h mu0 Rdiv]. ring. Qed.
Lemma dipole_energy_at Ma Mb t : Ma <> 0 -> Mb <> 0 ->
  pair_in_stray_field (ex_lower Ma, ex_inputs (CV ex_h 0 0)) (ex_upper Ma Mb, ex_inputs Zero) (ex_turn 0 t) (ex_turn 1 t) = - ex_h * (Ma * ((1 + cos t) / 2) + Mb * ((1 - cos t) / 2)).
Proof.
  intros HA HB. unfold pair_in_stray_field, own_energy, stray_energy, moment. cbn -[Rmult Rplus Rdiv Rinv Ropp Rminus mu0 ex_h cos sin sqrt]. pose proof mu0_not_zero. destruct sqrt2_facts. field. repeat split; try assumption; lra.
Qed.
Lemma dipole_fine Ma Mb T : Ma <> 0 -> Mb <> 0 -> fine_start T (layers (ex_dipole_pair Ma Mb)).
Proof.
  intros HA HB l [<-|[<-|[]]]; (split; [unfold tame_layer, tame_axial; repeat split; try discriminate; apply smooth_tame; left; reflexivity|split; [split; reflexivity|]]); unfold Unit, Norm2, Dot; cbn; ring.
Qed.
Lemma stray_lip a b : bl 0 (fun x => pair_in_stray_field a b (pt_v x) (pt_w x)).
Proof.
  pose proof (vbl_v 0) as V. pose proof (vbl_w 0) as W. unfold pair_in_stray_field, own_energy, stray_energy.
  repeat first [apply bl_plus | apply bl_minus | apply bl_mult | apply bl_opp | apply bl_const | apply bl_dot | apply vbl_const | apply vbl_matvec | exact V | exact W].
Qed.
Lemma dipole_simulated Ma Mb j : Ma <> 0 -> Mb <> 0 -> j_layers j = layers (ex_dipole_pair Ma Mb) -> forall eps, 0 < eps -> exists delta, 0 < delta /\
  forall dt wf e mode j', 0 < dt < delta -> runSimulation PI dt wf e mode j = (j', Ok tt) ->
    exists x y, mags (j_layers j') = [x; y] /\
      Rabs (pair_in_stray_field (ex_lower Ma, ex_inputs (CV ex_h 0 0)) (ex_upper Ma Mb, ex_inputs Zero) x y - - (ex_h * Mb)) < eps.
Proof.
  intros HA HB HJ eps He. destruct (stray_lip (ex_lower Ma, ex_inputs (CV ex_h 0 0)) (ex_upper Ma Mb, ex_inputs Zero)) as (B & K & _ & HK & F).
  pose proof (dipole_solves Ma Mb PI HA HB) as HS. pose proof (dipole_starts Ma Mb) as H0. pose proof (dipole_fine Ma Mb PI HA HB) as HF. rewrite <- HJ in HS, H0, HF. pose proof PI_RGT_0 as P.
  set (d := Rmin 1 (eps / (2 * K + 1))). assert (Hd : 0 < d) by (apply Rmin_pos; [lra|apply Rdiv_lt_0_compat; lra]).
  destruct (run_limit PI j ex_turn ex_turn' ltac:(lra) HF HS H0 d Hd) as (delta & HD & G). exists delta. split; [exact HD|]. intros dt wf e mode j' Hdt E.
  destruct (G dt wf e mode j' Hdt E) as [G1 _]. pose proof (run_layers _ _ _ _ _ _ _ (fun l Hl => proj1 (proj2 (HF l Hl))) E) as LE. rewrite HJ in LE. cbn in LE.
  destruct (j_layers j') as [|la [|lb [|? ?]]] eqn:Q; try discriminate. exists (l_mag la), (l_mag lb). split; [reflexivity|].
  pose proof (G1 0%nat la eq_refl) as D1. pose proof (G1 1%nat lb eq_refl) as D2.
  pose proof (Rmin_l 1 (eps / (2 * K + 1))) as M1. pose proof (Rmin_r 1 (eps / (2 * K + 1))) as M2. fold d in M1, M2.
  assert (HU : forall p l, nth_error (j_layers j) p = Some l -> Unit (ex_turn p 0)) by (intros p l Hp; rewrite (H0 p l Hp); apply HF; exact (nth_error_In _ _ Hp)).
  assert (UN : forall p, (p < 2)%nat -> Norm (ex_turn p PI) = 1).
  { intros p Hp. apply Norm_unit. destruct (nth_error (j_layers j) p) as [l|] eqn:Q2; [|apply nth_error_None in Q2; rewrite HJ in Q2; cbn in Q2; lia]. exact (solution_unit _ _ _ _ HS HU p l PI Q2 ltac:(lra)). }
  assert (NB : forall v w, Distance v w < d -> Norm w = 1 -> Norm v <= 2).
  { intros v w Hvw Hw. pose proof (Distance_triangle v w Zero) as TR. assert (DN : forall a, Distance a Zero = Norm a).
    { intros a. unfold Distance. f_equal. rewrite Minus_def. destruct a as [a1 a2 a3]. unfold Zero. cbn [cx cy cz]. apply vec_eq; ring. } rewrite !DN in TR. lra. }
  assert (D0 : forall v w, Norm v <= 2 -> Norm w <= 2 -> dom 0 (PT 0 v Zero w)) by (intros v w A C; unfold dom; cbn; pose proof zero_small; repeat split; try assumption; lra).
  destruct (F _ (D0 (l_mag la) (l_mag lb) (NB _ _ D1 (UN 0%nat ltac:(lia))) (NB _ _ D2 (UN 1%nat ltac:(lia))))) as [_ X].
  specialize (X _ (D0 (ex_turn 0 PI) (ex_turn 1 PI) ltac:(rewrite UN by lia; lra) ltac:(rewrite UN by lia; lra))). cbv beta in X. unfold gap in X. cbn [pt_t pt_v pt_b pt_w] in X.
  rewrite (Distance_refl Zero), (Rminus_diag_eq 0 0 eq_refl), Rabs_R0, dipole_energy_at, cos_PI in X by assumption.
  replace (- ex_h * (Ma * ((1 + -1) / 2) + Mb * ((1 - -1) / 2))) with (- (ex_h * Mb)) in X by field.
  apply Rle_lt_trans with (1 := X). apply Rle_lt_trans with (K * (2 * d)); [apply Rmult_le_compat_l; lra|].
  assert (Y : d * (2 * K + 1) <= eps / (2 * K + 1) * (2 * K + 1)) by (apply Rmult_le_compat_r; lra). replace (eps / (2 * K + 1) * (2 * K + 1)) with eps in Y by (field; lra). lra.
Qed.

(** ** Examples *)
Lemma ex_pair_conservative M : M <> 0 -> conservative (ex_dipole_pair M M).
Proof.
  intros HM. assert (HT : symmetric null_tensor) by (intros x y; destruct x, y; cbn; ring). split.
  - intros l i [E|[E|[]]]; injection E as <- <-.
    + split; [intros t; apply lower_inputs|]. split; [reflexivity|]. split; [reflexivity|]. split; [exact HM|]. split; [cbn; lra|]. split; [reflexivity|]. split; [reflexivity|exact HT].
    + split; [intros t; apply upper_inputs|]. split; [reflexivity|]. split; [reflexivity|]. split; [exact HM|]. split; [cbn; lra|]. split; [reflexivity|]. split; [reflexivity|exact HT].
  - intros p a b A B. destruct p as [|[|p]]; cbn in A, B; [|discriminate|destruct p; discriminate]. injection A as <-. injection B as <-. split; [reflexivity|]. split; [reflexivity|].
    exact (proj1 (reciprocal_agrees (ex_lower M) (ex_upper M M) (dipole_reciprocal M M) eq_refl)).
Qed.
(** A layer with damping 1 turning into the field 1 / gamma0 along z: a spiral. *)
Definition ex_fall : layer := set_l_damping 1 (ex_spin "a").
Definition ex_falling : list (layer * field_inputs) := [(ex_fall, ex_inputs (CV 0 0 (/ gamma0)))].
Definition ex_spiral (p : nat) (t : R) : cvec := CV (cos (/ 2 * t) / cosh (/ 2 * t)) (sin (/ 2 * t) / cosh (/ 2 * t)) (sinh (/ 2 * t) / cosh (/ 2 * t)).
Definition ex_spiral' (p : nat) (t : R) : cvec :=
  let s := / 2 * t in
  CV ((- sin s * / 2 * cosh s - sinh s * / 2 * cos s) / Rsqr (cosh s)) ((cos s * / 2 * cosh s - sinh s * / 2 * sin s) / Rsqr (cosh s))
     ((cosh s * / 2 * cosh s - sinh s * / 2 * sinh s) / Rsqr (cosh s)).
Lemma cosh_not_zero x : cosh x <> 0.
Proof. unfold cosh. pose proof (exp_pos x). pose proof (exp_pos (- x)). lra. Qed.
Lemma cosh_sinh x : cosh x * cosh x - sinh x * sinh x = 1.
Proof. unfold cosh, sinh. assert (exp x * exp (- x) = 1) by (rewrite <- exp_plus, Rplus_opp_r; apply exp_0). field_simplify. nra. Qed.
Lemma dl_half (f f' : R -> R) t : (forall x, derivable_pt_lim f x (f' x)) -> derivable_pt_lim (fun s => f (/ 2 * s)) t (f' (/ 2 * t) * / 2).
Proof.
  intros H. apply (derivable_pt_lim_comp (fun s => / 2 * s) f t (/ 2) (f' (/ 2 * t))); [|apply H].
  pose proof (dl_scal (/ 2) id t 1 (derivable_pt_lim_id t)) as X. rewrite Rmult_1_r in X. exact X.
Qed.
Lemma spiral_solves T : solves (layers ex_falling) T ex_spiral ex_spiral'.
Proof.
  intros p l t Hp _. destruct p as [|p]; cbn in Hp; [injection Hp as <-|destruct p; discriminate]. split.
  - set (i := ex_inputs (CV 0 0 (/ gamma0))). set (b := below _ _). set (c := above _ _).
    assert (H : rhs ex_fall t (ex_spiral 0 t) b c (LLG_plain 1 (ex_spiral 0 t) (CV 0 0 (/ gamma0)))).
    { exists i. split; [repeat split|]. split; [cbn; lra|]. split; [cbn; lra|].
      replace (CV 0 0 (/ gamma0)) with (H_eff ex_fall i (ex_spiral 0 t) b c (dipole_total ex_fall b c) Zero); [apply llg_plain; reflexivity|].
      generalize (ex_spiral 0 t) b c. intros [] [] []. unfold H_eff, IEC_total, IDMI_total, H_anis, dipole_total, H_iec, H_idmi, H_tensor, i, ex_inputs. cbn -[Rmult Rplus Rdiv Rinv gamma0 mu0 Ropp].
      unfold Rdiv. vsimp. cbn -[Rmult Rplus Rdiv Rinv gamma0 mu0 Ropp]. apply vec_eq; cbn -[Rmult Rplus Rdiv Rinv gamma0 mu0 Ropp]; ring. }
    replace (ex_spiral' 0 t) with (LLG_plain 1 (ex_spiral 0 t) (CV 0 0 (/ gamma0))); [exact H|].
    unfold LLG_plain, prefactor, LL, ex_spiral, ex_spiral'. cbv zeta. pose proof (cosh_not_zero (/ 2 * t)) as NZ. pose proof (cosh_sinh (/ 2 * t)) as CS. pose proof (sin2_cos2 (/ 2 * t)) as SC. unfold Rsqr in *. pose proof gamma_pos as GP.
    set (C := cosh (/ 2 * t)) in *. set (S := sinh (/ 2 * t)) in *. set (co := cos (/ 2 * t)) in *. set (si := sin (/ 2 * t)) in *. clearbody C S co si.
    vsimp. apply vec_eq; cbn [cx cy cz]; [field; repeat split; try exact NZ; lra|field; repeat split; try exact NZ; lra|].
    transitivity ((si * si + co * co) / (2 * (C * C))); [field; repeat split; try exact NZ; lra|]. rewrite SC, <- CS. field. exact NZ.
  - assert (CD : derivable_pt_lim (fun s => cosh (/ 2 * s)) t (sinh (/ 2 * t) * / 2)) by (apply dl_half; apply derivable_pt_lim_cosh). pose proof (cosh_not_zero (/ 2 * t)) as NZ.
    split; [|split]; cbn [ex_spiral ex_spiral' cx cy cz].
    + exact (derivable_pt_lim_div _ _ t _ _ (dl_half cos (fun x => - sin x) t derivable_pt_lim_cos) CD NZ).
    + exact (derivable_pt_lim_div _ _ t _ _ (dl_half sin cos t derivable_pt_lim_sin) CD NZ).
    + exact (derivable_pt_lim_div _ _ t _ _ (dl_half sinh cosh t derivable_pt_lim_sinh) CD NZ).
Qed.
Lemma spiral_conservative : conservative ex_falling.
Proof.
  split; [|intros p a b A B; destruct p as [|[|p]]; discriminate]. intros l i [E|[]]. injection E as <- <-.
  split; [intros t; repeat split|]. split; [reflexivity|]. split; [reflexivity|]. split; [cbn; lra|]. split; [cbn; lra|]. split; [reflexivity|]. split; [reflexivity|]. intros x y; destruct x, y; cbn; ring.
Qed.
Lemma spiral_positive l i : In (l, i) ex_falling -> 0 < moment l /\ 0 < l_damping l.
Proof. intros [E|[]]. injection E as <- <-. unfold moment. cbn. lra. Qed.
Lemma spiral_starts : starts (layers ex_falling) ex_spiral.
Proof.
  intros p l Hp. destruct p as [|p]; cbn in Hp; [injection Hp as <-|destruct p; discriminate]. unfold ex_spiral. rewrite Rmult_0_r, cos_0, sin_0, cosh_0, sinh_0. change (l_mag ex_fall) with (CV 1 0 0). apply vec_eq; field.
Qed.
Lemma spiral_energy t : stack_energy ex_falling (snapshot ex_spiral 1 t) = - (sinh (/ 2 * t) / cosh (/ 2 * t)) / gamma0.
Proof. unfold ex_falling, stack_energy, own_energy, moment, snapshot. cbn -[Rmult Rplus Rdiv Rinv gamma0 mu0 Ropp cosh sinh cos sin Rminus]. pose proof gamma_pos. pose proof mu0_not_zero. pose proof (cosh_not_zero (/ 2 * t)). unfold Zero. field. repeat split; try assumption; lra. Qed.
Lemma dipole_runs Ma Mb e mode n : Ma <> 0 -> Mb <> 0 -> (0 < n < 4294967296)%Z ->
  exists j', runSimulation PI (PI / IZR n) (PI / IZR n) e mode (ex_plain_pair (ex_lower Ma) (ex_upper Ma Mb)) = (j', Ok tt).
Proof.
  intros HA HB Hn. pose proof PI_RGT_0 as HP. assert (P : 1 <= IZR n < 4294967296) by (split; [apply IZR_le; lia|apply IZR_lt; lia]).
  assert (D : 0 < PI / IZR n) by (apply Rdiv_lt_0_compat; lra).
  assert (EN : INR (Z.to_nat n) = IZR n) by (rewrite INR_IZR_INZ, Z2Nat.id by lia; reflexivity).
  apply (P_RunEx.run_exists _ _ _ _ _ _ (Z.to_nat n) 1); [lra|discriminate|discriminate| |lia|].
  - assert (A : PI / (PI / IZR n) = IZR n) by (field; lra). assert (B : PI / IZR n / (PI / IZR n) = 1) by (field; lra).
    repeat split; try lra; rewrite ?A, ?B; try lra; left; rewrite ?EN; cbn [INR]; lra.
  - intros l [<-|[<-|[]]]; (split; [|split; [reflexivity|discriminate]]); intros t v b top; eexists; [apply lower_rhs; exact HA|apply upper_rhs; assumption].
Qed.
