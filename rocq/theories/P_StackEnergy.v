(** The energy of a stack along solutions of its equations. *)
From Verif Require Import P_RunProps P_LayerProps P_Step4 P_Converge P_ConvergeRun P_Metric P_Regular P_DW P_Precess.
From Verif Require Export S_StackEnergy.
From Coq Require Import Reals Lra Lia Psatz.
Open Scope R_scope.

(** ** Derivatives of the parts *)
Lemma vderiv_mat f t d N : vderiv f t d -> vderiv (fun s => MatVec N (f s)) t (MatVec N d).
Proof. intros H. unfold MatVec. repeat split; cbn [cx cy cz]; apply vderiv_dot; exact H. Qed.
Lemma vderiv_dot2 f g t d e : vderiv f t d -> vderiv g t e -> derivable_pt_lim (fun s => Dot (f s) (g s)) t (Dot d (g t) + Dot (f t) e).
Proof.
  intros (X & Y & Z) (X' & Y' & Z').
  apply (deriv_ext (fun s => cx (f s) * cx (g s) + cy (f s) * cy (g s) + cz (f s) * cz (g s))); [intros s; destruct (f s), (g s); reflexivity|].
  replace (Dot d (g t) + Dot (f t) e) with ((cx d * cx (g t) + cx (f t) * cx e) + (cy d * cy (g t) + cy (f t) * cy e) + (cz d * cz (g t) + cz (f t) * cz e)).
  - apply dl_plus; [apply dl_plus|]; apply (dl_mult (fun s => _ (f s)) (fun s => _ (g s))); assumption.
  - destruct d as [d1 d2 d3], e as [e1 e2 e3], (f t) as [f1 f2 f3], (g t) as [g1 g2 g3]. unfold Dot; cbn [cx cy cz]. ring.
Qed.
Lemma Dot_Plus_l a b c : Dot (Plus a b) c = Dot a c + Dot b c.
Proof. destruct a, b, c. unfold Dot, Plus. ring. Qed.
Lemma Dot_Scal_l k a c : Dot (Scal k a) c = k * Dot a c.
Proof. destruct a, c. unfold Dot, Scal. ring. Qed.
Lemma Dot_Zero_l a : Dot Zero a = 0.
Proof. destruct a. unfold Dot, Zero. ring. Qed.
(** The force of the layer below, the one above and the rest. *)
Definition from_own (l : layer) (i : field_inputs) (m d : cvec) : R :=
  moment l * (Dot (fi_ext i) d + Dot (fi_oe i) d + Dot (fi_dmi i) d + Dot (fi_res i) d)
  + moment l / l_Ms l * fi_K i * (2 * Dot (l_anis l) m * Dot (l_anis l) d) - moment l * l_Ms l / mu0 * Dot (MatVec (l_demag l) m) d.
Definition from_below (l : layer) (i : field_inputs) (m b d : cvec) : R :=
  (fi_Jb i + 2 * fi_J2b i * Dot m b) * Dot b d - moment l * l_Ms l / mu0 * Dot (MatVec (l_dipoleBottom l) b) d.
Definition from_above (l : layer) (i : field_inputs) (m c d : cvec) : R :=
  (fi_Jt i + 2 * fi_J2t i * Dot m c) * Dot c d - moment l * l_Ms l / mu0 * Dot (MatVec (l_dipoleTop l) c) d.
Lemma mu0_nz : S_Layer.mu0 <> 0. Proof. unfold S_Layer.mu0. lra. Qed.
Lemma field_work l i m b c d : conservative_layer l i -> moment l * Dot (field_on l i m b c) d = from_own l i m d + from_below l i m b d + from_above l i m c d.
Proof.
  intros (_ & _ & _ & HM & HT & ZB & ZT & _). pose proof mu0_nz as MU. unfold field_on, H_eff, IEC_total, IDMI_total, H_anis, dipole_total, H_iec, H_idmi, H_tensor. rewrite ZB, ZT.
  cbn [Sum fold_right]. repeat (rewrite Dot_Plus_l || rewrite Dot_Scal_l || rewrite Dot_Zero_l).
  assert (CZ : forall x, Cross x Zero = Zero) by (intros []; unfold Cross, Zero; apply vec_eq; ring). rewrite !CZ, !Dot_Zero_l.
  unfold from_own, from_below, from_above, moment. field. repeat split; assumption.
Qed.
Section Parts.
Context (l : layer) (i : field_inputs) (HC : conservative_layer l i).
Lemma own_deriv f t d : vderiv f t d -> derivable_pt_lim (fun s => own_energy l i (f s)) t (- from_own l i (f t) d).
Proof.
  intros H. destruct HC as (_ & _ & _ & HM & HT & _ & _ & SY). unfold own_energy.
  assert (L : forall w, derivable_pt_lim (fun s => Dot (f s) w) t (Dot w d)) by (intros w; apply (deriv_ext (fun s => Dot w (f s))); [intros; apply Dot_comm|apply vderiv_dot; exact H]).
  assert (Q : derivable_pt_lim (fun s => Dot (l_anis l) (f s) * Dot (l_anis l) (f s)) t (Dot (l_anis l) d * Dot (l_anis l) (f t) + Dot (l_anis l) (f t) * Dot (l_anis l) d)) by (apply (dl_mult (fun s => Dot (l_anis l) (f s)) (fun s => Dot (l_anis l) (f s))); apply vderiv_dot; exact H).
  pose proof (vderiv_dot2 f (fun s => MatVec (l_demag l) (f s)) t d (MatVec (l_demag l) d) H (vderiv_mat f t d (l_demag l) H)) as B.
  replace (- from_own l i (f t) d) with (- moment l * (Dot (fi_ext i) d + Dot (fi_oe i) d + Dot (fi_dmi i) d + Dot (fi_res i) d)
    - moment l / l_Ms l * fi_K i * (Dot (l_anis l) d * Dot (l_anis l) (f t) + Dot (l_anis l) (f t) * Dot (l_anis l) d)
    + moment l * l_Ms l / mu0 / 2 * (Dot d (MatVec (l_demag l) (f t)) + Dot (f t) (MatVec (l_demag l) d))).
  - apply dl_plus; [apply dl_minus|]; apply dl_scal; [repeat apply dl_plus; apply L|exact Q|exact B].
  - unfold from_own. rewrite (SY (f t) d), (Dot_comm (MatVec (l_demag l) (f t)) d). field. split; [apply mu0_nz|exact HM].
Qed.
Lemma pair_deriv f g t d e : vderiv f t d -> vderiv g t e -> derivable_pt_lim (fun s => pair_energy l i (f s) (g s)) t
  (- from_above l i (f t) (g t) d - ((fi_Jt i + 2 * fi_J2t i * Dot (f t) (g t)) * Dot (f t) e - moment l * l_Ms l / mu0 * Dot (f t) (MatVec (l_dipoleTop l) e))).
Proof.
  intros H K. unfold pair_energy. pose proof (vderiv_dot2 f g t d e H K) as A.
  pose proof (vderiv_dot2 f (fun s => MatVec (l_dipoleTop l) (g s)) t d (MatVec (l_dipoleTop l) e) H (vderiv_mat g t e (l_dipoleTop l) K)) as B.
  pose proof (dl_mult _ _ _ _ _ A A) as Q. cbv beta in Q.
  match goal with |- derivable_pt_lim _ _ ?x => replace x with
   (- fi_Jt i * (Dot d (g t) + Dot (f t) e) - fi_J2t i * ((Dot d (g t) + Dot (f t) e) * Dot (f t) (g t) + Dot (f t) (g t) * (Dot d (g t) + Dot (f t) e))
    + moment l * l_Ms l / mu0 * (Dot d (MatVec (l_dipoleTop l) (g t)) + Dot (f t) (MatVec (l_dipoleTop l) e))) end.
  - apply dl_plus; [apply dl_minus|]; apply dl_scal; assumption.
  - unfold from_above. rewrite (Dot_comm (g t) d), (Dot_comm (MatVec (l_dipoleTop l) (g t)) d). ring.
Qed.
End Parts.

(** ** The whole stack *)
Fixpoint works (b : cvec) (ls : list (layer * field_inputs)) (ms ds : list cvec) : R :=
  match ls, ms, ds with
  | (l, i) :: ls', m :: ms', d :: ds' => moment l * Dot (field_on l i m b (hd Zero ms')) d + works m ls' ms' ds'
  | _, _, _ => 0
  end.
Definition first_below (b : cvec) (ls : list (layer * field_inputs)) (ms ds : list cvec) : R :=
  match ls, ms, ds with (l, i) :: _, m :: _, d :: _ => from_below l i m b d | _, _, _ => 0 end.
Lemma conservative_tail x ls : conservative (x :: ls) -> conservative ls.
Proof. intros [A B]. split; [intros l i H; apply A; right; exact H|]. intros p a b H H'. exact (B (S p) a b H H'). Qed.
Definition shot (u : nat -> R -> cvec) (p n : nat) (t : R) : list cvec := map (fun q => u q t) (seq p n).
Lemma energy_deriv u du t : forall ls p b, conservative ls -> (forall q, (p <= q < p + length ls)%nat -> vderiv (u q) t (du q t)) ->
  derivable_pt_lim (fun s => stack_energy ls (shot u p (length ls) s)) t
    (- works b ls (shot u p (length ls) t) (shot du p (length ls) t) + first_below b ls (shot u p (length ls) t) (shot du p (length ls) t)).
Proof.
  induction ls as [|[l i] ls IH]; intros p b HC HV.
  - cbn. replace (- 0 + 0) with 0 by ring. apply dl_const.
  - assert (CL : conservative_layer l i) by (apply HC; left; reflexivity). assert (V0 : vderiv (u p) t (du p t)) by (apply HV; cbn; lia).
    specialize (IH (S p) (u p t) (conservative_tail _ _ HC) ltac:(intros q Hq; apply HV; cbn; lia)).
    pose proof (own_deriv l i CL (u p) t (du p t) V0) as O1. cbn [length shot seq map stack_energy works first_below] in *.
    destruct ls as [|[l2 i2] ls].
    + cbn [length seq map stack_energy works first_below hd] in *. rewrite (field_work l i _ b Zero _ CL).
      replace (from_above l i (u p t) Zero (du p t)) with 0. 2: { unfold from_above. rewrite Dot_Zero_l. replace (MatVec (l_dipoleTop l) Zero) with Zero; [rewrite Dot_Zero_l; ring|]. unfold MatVec, Zero. generalize (row0 (l_dipoleTop l)) (row1 (l_dipoleTop l)) (row2 (l_dipoleTop l)). intros [] [] []. unfold Dot. apply vec_eq; ring. }
      match goal with |- derivable_pt_lim _ _ ?x => replace x with (- from_own l i (u p t) (du p t) + 0 + 0) by ring end.
      apply (deriv_ext (fun s => own_energy l i (u p s) + 0 + 0)); [reflexivity|]. apply dl_plus; [apply dl_plus; [exact O1|apply dl_const]|apply dl_const].
    + assert (V1 : vderiv (u (S p)) t (du (S p) t)) by (apply HV; cbn; lia). pose proof (pair_deriv l i (u p) (u (S p)) t (du p t) (du (S p) t) V0 V1) as P1.
      pose proof (proj2 HC 0%nat (l, i) (l2, i2) eq_refl eq_refl) as (A1 & A2 & A3). cbn [fst snd] in A1, A2, A3.
      cbn [length seq map hd works first_below] in *. change (stack_energy ((l2, i2) :: ls)) with (stack_energy ((l2, i2) :: ls)) in *.
      rewrite (field_work l i _ b _ _ CL).
      match goal with |- derivable_pt_lim _ _ ?x => replace x with
        (- from_own l i (u p t) (du p t) + (- from_above l i (u p t) (u (S p) t) (du p t) - ((fi_Jt i + 2 * fi_J2t i * Dot (u p t) (u (S p) t)) * Dot (u p t) (du (S p) t) - moment l * l_Ms l / mu0 * Dot (u p t) (MatVec (l_dipoleTop l) (du (S p) t))))
         + (- works (u p t) ((l2, i2) :: ls) (shot u (S p) (S (length ls)) t) (shot du (S p) (S (length ls)) t) + first_below (u p t) ((l2, i2) :: ls) (shot u (S p) (S (length ls)) t) (shot du (S p) (S (length ls)) t))) end.
      * apply dl_plus; [apply dl_plus; [exact O1|exact P1]|exact IH].
      * cbn [works first_below shot seq map hd]. set (W := works _ _ _ _). unfold from_below at 1.
        assert (E : moment l * l_Ms l / mu0 * Dot (u p t) (MatVec (l_dipoleTop l) (du (S p) t)) = moment l2 * l_Ms l2 / mu0 * Dot (MatVec (l_dipoleBottom l2) (u p t)) (du (S p) t)).
        { rewrite (Dot_comm (MatVec _ _)). unfold Rdiv. rewrite !(Rmult_assoc _ (/ mu0)), !(Rmult_comm (/ mu0)), <- !Rmult_assoc. rewrite (A3 (u p t) (du (S p) t)). ring. }
        rewrite E, A1, A2, (Dot_comm (u (S p) t) (u p t)). unfold from_below. ring.
Qed.

(** ** The energy balance *)
Lemma rhs_loss l i t m b c d : conservative_layer l i -> rhs l t m b c d -> moment l * Dot (field_on l i m b c) d = loss_rate l i m b c.
Proof.
  intros (ST & S1 & S2 & _) (i' & I & _ & _ & D). assert (i' = i) by (rewrite (P_Regular.ins_ok _ _ _ I), (P_Regular.ins_ok _ _ _ (ST t)); reflexivity). subst i'.
  fold (field_on l i m b c) in D. assert (E : d = LLG_plain (l_damping l) m (field_on l i m b c)) by (inversion D; congruence).
  rewrite E, plain_power. unfold loss_rate. ring.
Qed.
Lemma works_losses u du t : forall ls p b,
  (forall q l i, nth_error ls q = Some (l, i) -> let x := match q with O => b | S k => u (p + k)%nat t end in
     let c := if (S q <? length ls)%nat then u (p + S q)%nat t else Zero in
     moment l * Dot (field_on l i (u (p + q)%nat t) x c) (du (p + q)%nat t) = loss_rate l i (u (p + q)%nat t) x c) ->
  works b ls (shot u p (length ls) t) (shot du p (length ls) t) = losses b ls (shot u p (length ls) t).
Proof.
  induction ls as [|[l i] ls IH]; intros p b H; [reflexivity|]. unfold shot. cbn [length seq map works losses].
  assert (E : forall f : nat -> R -> cvec, map (fun q => f q t) (seq (S p) (length ls)) = shot f (S p) (length ls) t) by reflexivity. rewrite !E.
  rewrite (IH (S p) (u p t)).
  - f_equal. specialize (H 0%nat l i eq_refl). cbv zeta in H. cbn iota beta in H. rewrite Nat.add_0_r in H.
    replace (hd Zero (shot u (S p) (length ls) t)) with (if (1 <? length ((l, i) :: ls))%nat then u (p + 1)%nat t else Zero); [exact H|].
    destruct ls; cbn; [reflexivity|]. rewrite Nat.add_1_r. reflexivity.
  - intros q l0 i0 Hq. specialize (H (S q) l0 i0 Hq). cbv zeta in *. cbn [length] in H.
    replace (S (S q) <? S (length ls))%nat with (S q <? length ls)%nat in H by reflexivity. cbn iota beta in H.
    replace (S p + q)%nat with (p + S q)%nat by lia. replace (S p + S q)%nat with (p + S (S q))%nat by lia. replace (match q with O => u p t | S k => u (S p + k)%nat t end) with (u (p + q)%nat t).
    + exact H.
    + destruct q; [rewrite Nat.add_0_r; reflexivity|f_equal; lia].
Qed.
Lemma snapshot_below u n t p : (p < n)%nat -> below (snapshot u n t) p = match p with O => Zero | S k => u k t end.
Proof.
  intros H. destruct p as [|k]; [reflexivity|]. cbn [below]. unfold snapshot. rewrite (nth_indep _ Zero (u 0%nat t)) by (rewrite map_length, seq_length; lia).
  rewrite (map_nth (fun q => u q t) (seq 0 n) 0%nat k), seq_nth by lia. reflexivity.
Qed.
Lemma snapshot_above u n t p : above (snapshot u n t) p = if (S p <? n)%nat then u (S p) t else Zero.
Proof.
  unfold above, snapshot. destruct (Nat.ltb_spec (S p) n) as [H|H].
  - rewrite (nth_indep _ Zero (u 0%nat t)) by (rewrite map_length, seq_length; lia). rewrite (map_nth (fun q => u q t) (seq 0 n) 0%nat (S p)), seq_nth by lia. reflexivity.
  - apply nth_overflow. rewrite map_length, seq_length. lia.
Qed.
Lemma layers_nth ls p l i : nth_error ls p = Some (l, i) -> nth_error (layers ls) p = Some l.
Proof. intros H. unfold layers. rewrite nth_error_map, H. reflexivity. Qed.
Lemma layers_len ls : length (layers ls) = length ls.
Proof. apply map_length. Qed.
Lemma losses_nonneg : forall ls b ms, (forall l i, In (l, i) ls -> 0 <= moment l /\ 0 <= l_damping l) -> 0 <= losses b ls ms.
Proof.
  induction ls as [|[l i] ls IH]; intros b ms H; [cbn; lra|]. destruct ms as [|m ms]; [cbn; lra|]. cbn [losses].
  specialize (IH m ms (fun l i Hi => H l i (or_intror Hi))). destruct (H l i (or_introl eq_refl)) as [A B].
  assert (0 <= loss_rate l i m b (hd Zero ms)); [|lra]. unfold loss_rate. apply Rmult_le_pos; [|apply Norm2_nonneg]. apply Rmult_le_pos; [exact A|]. apply Rmult_le_pos; [apply Rmult_le_pos; [left; apply gamma_pos|exact B]|left; apply Rinv_0_lt_compat; nra].
Qed.
Lemma losses_undamped : forall ls b ms, (forall l i, In (l, i) ls -> l_damping l = 0) -> losses b ls ms = 0.
Proof.
  induction ls as [|[l i] ls IH]; intros b ms H; [reflexivity|]. destruct ms as [|m ms]; [reflexivity|]. cbn [losses].
  rewrite (IH m ms (fun l i Hi => H l i (or_intror Hi))). unfold loss_rate. rewrite (H l i (or_introl eq_refl)). unfold Rdiv. ring.
Qed.
Lemma losses_zero : forall ls b ms, (forall l i, In (l, i) ls -> 0 < moment l /\ 0 < l_damping l) -> losses b ls ms = 0 ->
  forall p l i m, nth_error ls p = Some (l, i) -> nth_error ms p = Some m -> Cross m (field_on l i m (match p with O => b | S k => nth k ms Zero end) (nth (S p) ms Zero)) = Zero.
Proof.
  induction ls as [|[l0 i0] ls IH]; intros b ms H Z p l i m Hp Hm; [destruct p; discriminate|]. destruct ms as [|m0 ms]; [destruct p; discriminate|]. cbn [losses] in Z.
  assert (H' : forall l i, In (l, i) ls -> 0 < moment l /\ 0 < l_damping l) by (intros; apply (H l1 i1); right; assumption). destruct (H l0 i0 (or_introl eq_refl)) as [A B].
  pose proof (losses_nonneg ls m0 ms (fun l i Hi => conj (Rlt_le _ _ (proj1 (H' l i Hi))) (Rlt_le _ _ (proj2 (H' l i Hi))))) as P.
  assert (K : 0 < moment l0 * (gamma0 * l_damping l0 / (1 + l_damping l0 * l_damping l0))).
  { apply Rmult_lt_0_compat; [exact A|]. apply Rmult_lt_0_compat; [apply Rmult_lt_0_compat; [apply gamma_pos|exact B]|apply Rinv_0_lt_compat; nra]. }
  unfold loss_rate in Z. set (v := Cross m0 (field_on l0 i0 m0 b (hd Zero ms))) in *. pose proof (Norm2_nonneg v) as NV.
  set (k := moment l0 * (gamma0 * l_damping l0 / (1 + l_damping l0 * l_damping l0))) in *. clearbody k. assert (0 <= k * Norm2 v) by (apply Rmult_le_pos; lra).
  destruct p as [|p].
  - cbn in Hp, Hm. injection Hp as <- <-. injection Hm as <-. assert (ZV : Norm2 v = 0) by nra.
    replace (nth 1 (m0 :: ms) Zero) with (hd Zero ms) by (destruct ms; reflexivity). fold v.
    apply (proj1 (Norm_zero_iff v)). unfold Norm. rewrite ZV. apply sqrt_0.
  - cbn in Hp, Hm. specialize (IH m0 ms H' ltac:(lra) p l i m Hp Hm). cbn [nth]. destruct p; exact IH.
Qed.
Section Balance.
Context (ls : list (layer * field_inputs)) (T : R) (u du : nat -> R -> cvec).
Context (HC : conservative ls) (HS : solves (layers ls) T u du).
Let E t := stack_energy ls (snapshot u (length ls) t).
Let L t := losses Zero ls (snapshot u (length ls) t).
Lemma energy_balance t : 0 <= t <= T -> derivable_pt_lim E t (- L t).
Proof.
  intros Ht. assert (VD : forall q, (0 <= q < 0 + length ls)%nat -> vderiv (u q) t (du q t)).
  { intros q Hq. destruct (nth_error ls q) as [[l i]|] eqn:Q; [|apply nth_error_None in Q; lia]. apply (HS q l t (layers_nth _ _ _ _ Q) Ht). }
  pose proof (energy_deriv u du t ls 0 Zero HC VD) as D. replace (first_below Zero ls (shot u 0 (length ls) t) (shot du 0 (length ls) t)) with 0 in D.
  2: { destruct ls as [|[l i] r]; [reflexivity|]. cbn. unfold from_below. rewrite Dot_Zero_l. replace (MatVec (l_dipoleBottom l) Zero) with Zero; [rewrite Dot_Zero_l; ring|]. unfold MatVec, Zero. generalize (row0 (l_dipoleBottom l)) (row1 (l_dipoleBottom l)) (row2 (l_dipoleBottom l)). intros [] [] []. unfold Dot. apply vec_eq; ring. }
  rewrite (works_losses u du t ls 0 Zero) in D.
  - rewrite Rplus_0_r in D. exact D.
  - intros q l i Q. cbv zeta. destruct (HS q l t (layers_nth _ _ _ _ Q) Ht) as [R1 _]. rewrite layers_len in R1. rewrite snapshot_above, snapshot_below in R1 by (apply nth_error_Some; congruence).
    apply (rhs_loss l i t); [apply (proj1 HC); exact (nth_error_In _ _ Q)|]. exact R1.
Qed.
Lemma energy_falls s t : (forall l i, In (l, i) ls -> 0 <= moment l /\ 0 <= l_damping l) -> 0 <= s <= t -> t <= T -> E t <= E s.
Proof.
  intros HP Hs Ht. destruct (Rle_lt_or_eq_dec s t (proj2 Hs)) as [P|<-]; [|lra].
  destruct (MVT_cor2 E (fun x => - L x) s t P) as (c & X & I); [intros c I; apply energy_balance; lra|].
  assert (0 <= L c) by (apply losses_nonneg; exact HP). nra.
Qed.
Lemma energy_kept s t : (forall l i, In (l, i) ls -> l_damping l = 0) -> 0 <= s <= T -> 0 <= t <= T -> E t = E s.
Proof.
  intros HP Hs Ht. assert (G : forall a b, 0 <= a -> a < b -> b <= T -> E b = E a).
  { intros a b A1 P B1. destruct (MVT_cor2 E (fun x => - L x) a b P) as (c & X & I); [intros c I; apply energy_balance; lra|].
    assert (L c = 0) by (apply losses_undamped; exact HP). nra. }
  destruct (Rtotal_order s t) as [P|[->|P]]; [apply G; lra|reflexivity|symmetry; apply G; lra].
Qed.
(** No energy lost between two instants: no torque in between. *)
Lemma energy_still s t : (forall l i, In (l, i) ls -> 0 < moment l /\ 0 < l_damping l) -> 0 <= s < t -> t <= T -> E t = E s ->
  forall x p l i, s < x < t -> nth_error ls p = Some (l, i) ->
  Cross (u p x) (field_on l i (u p x) (below (snapshot u (length ls) x) p) (above (snapshot u (length ls) x) p)) = Zero.
Proof.
  intros HP Hs Ht EQ x p l i Hx Hp. assert (HP' : forall l i, In (l, i) ls -> 0 <= moment l /\ 0 <= l_damping l) by (intros l' i' H; destruct (HP l' i' H); lra).
  assert (CE : forall y, s <= y <= t -> E y = E s).
  { intros y Hy. pose proof (energy_falls s y HP' ltac:(lra) ltac:(lra)). pose proof (energy_falls y t HP' ltac:(lra) ltac:(lra)). lra. }
  assert (LZ : L x = 0).
  { assert (D0 : derivable_pt_lim E x 0).
    { intros eps He. assert (0 < Rmin (x - s) (t - x)) by (apply Rmin_pos; lra). exists (mkposreal _ H). cbn. intros h Hh HB.
      assert (HM : Rabs h < x - s /\ Rabs h < t - x) by (split; eapply Rlt_le_trans; [exact HB|apply Rmin_l|exact HB|apply Rmin_r]). apply Rabs_def2 in HB. destruct HM as [H1 H2]. apply Rabs_def2 in H1, H2.
      rewrite (CE (x + h)), (CE x) by lra. replace ((E s - E s) / h - 0) with 0 by (field; exact Hh). rewrite Rabs_R0. exact He. }
    pose proof (uniqueness_limite _ _ _ _ D0 (energy_balance x ltac:(lra))). lra. }
  assert (Hm : nth_error (snapshot u (length ls) x) p = Some (u p x)).
  { unfold snapshot. rewrite nth_error_map. assert (p < length ls)%nat by (apply nth_error_Some; congruence). rewrite nth_error_nth' with (d := 0%nat) by (rewrite seq_length; exact H). rewrite seq_nth by exact H. reflexivity. }
  exact (losses_zero ls Zero _ HP LZ p l i (u p x) Hp Hm).
Qed.
End Balance.
