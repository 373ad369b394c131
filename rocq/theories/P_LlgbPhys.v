(** Consequences for the length of the magnetisation, damping parameters and the mean-field solver. *)
From Verif Require Export P_LlgbHist.
From Coq Require Import Lra Psatz.
Open Scope R_scope.
Open Scope st_scope.

(** ** Length *)
Lemma dot_LLB alpha ap aq m H : m <> Zero -> Dot m (LLB alpha ap aq m H) = gamma0 / (1 + alpha * alpha) * aq * Dot m H.
Proof.
  intros Hm. unfold LLB. assert (N : Norm2 m <> 0) by (intros E; apply Hm, Norm2_zero, E).
  assert (X : forall g k c, Dot m (Scal g (Sum [Scal (-1) (Cross m H); Scal k (Cross m (Cross m H)); Scal c m])) = g * c * Norm2 m).
  { intros. cbn [Sum fold_right]. unfold Norm2. destruct m, H. unfold Zero. cbn [Dot Scal Plus Cross]. ring. }
  rewrite X. generalize dependent (Norm2 m). intros n N _. field. split; [nra|exact N].
Qed.
Lemma length_rate l i m : m <> Zero -> Dot m (b_rhs l i m) = gamma0 / (1 + b_damping l * b_damping l) * alpha_par (b_damping l) (bi_T i) (b_Tc l) * Dot m (b_H l i m).
Proof. intros Hm. unfold b_rhs. apply dot_LLB, Hm. Qed.
Lemma free_field l T m : b_H l (BI T 0 Zero) m = H_long T (b_Tc l) (b_chi l) (b_me l) m.
Proof. unfold b_H. cbn [bi_K bi_h bi_T Sum fold_right]. generalize (H_long T (b_Tc l) (b_chi l) (b_me l) m) (b_anis l). vring. Qed.
Lemma free_below l T m : m <> Zero -> T <= b_Tc l -> b_chi l <> 0 ->
  Dot m (b_rhs l (BI T 0 Zero) m) = b_rate l T / 2 * (1 - Norm2 m / (b_me l * b_me l)) * Norm2 m.
Proof.
  intros Hm HT Hc. rewrite length_rate by exact Hm. rewrite free_field. cbn [bi_T]. unfold H_long, b_rate. destruct (Rle_dec T (b_Tc l)); [|lra].
  generalize (alpha_par (b_damping l) T (b_Tc l)) (gamma0 / (1 + b_damping l * b_damping l)). intros a g.
  assert (X : forall c, Dot m (Scal c m) = c * Norm2 m) by (intros; unfold Norm2; destruct m; cbn; ring). rewrite X.
  unfold Rdiv. generalize (Norm2 m) (/ (b_me l * b_me l)). intros n v. field. exact Hc.
Qed.
Lemma free_above l T m : m <> Zero -> b_Tc l < T -> b_chi l <> 0 ->
  Dot m (b_rhs l (BI T 0 Zero) m) = - b_rate l T * (1 + 3 / 5 * (b_Tc l / (T - b_Tc l)) * Norm2 m) * Norm2 m.
Proof.
  intros Hm HT Hc. rewrite length_rate by exact Hm. rewrite free_field. cbn [bi_T]. unfold H_long, b_rate. destruct (Rle_dec T (b_Tc l)); [lra|].
  generalize (alpha_par (b_damping l) T (b_Tc l)) (gamma0 / (1 + b_damping l * b_damping l)). intros a g.
  assert (X : forall c, Dot m (Scal c m) = c * Norm2 m) by (intros; unfold Norm2; destruct m; cbn; ring). rewrite X.
  generalize (Norm2 m) (b_Tc l / (T - b_Tc l)). intros nn v. unfold Rdiv. field. exact Hc.
Qed.
Lemma rate_pos l T : 0 < b_damping l -> 0 < b_chi l -> 0 < T -> 0 < b_Tc l -> 0 < b_rate l T.
Proof.
  intros Ha Hc HT HTc. unfold b_rate, alpha_par. apply Rdiv_lt_0_compat; [|exact Hc]. apply Rmult_lt_0_compat.
  - apply Rdiv_lt_0_compat; [unfold gamma0; lra|nra].
  - apply Rmult_lt_0_compat; [lra|]. apply Rdiv_lt_0_compat; assumption.
Qed.
Lemma Norm2_pos m : m <> Zero -> 0 < Norm2 m.
Proof. intros H. pose proof (Norm2_nonneg m). destruct (Req_dec (Norm2 m) 0) as [E|E]; [exfalso; apply H, Norm2_zero, E|lra]. Qed.
Lemma relax_below t dt l l' m d T : b_calculateLLG t dt m l = (l', Ok d) -> b_inputs_at l t (BI T 0 Zero) ->
  0 < b_damping l -> 0 < b_chi l -> 0 < T <= b_Tc l ->
  (Norm2 m < b_me l * b_me l <-> 0 < Dot m d) /\ (Norm2 m = b_me l * b_me l <-> Dot m d = 0) /\ (b_me l * b_me l < Norm2 m <-> Dot m d < 0).
Proof.
  intros E HI Ha Hc HT. apply llg_iff in E. destruct E as (i & HI' & (HTc & _ & Hz & Hme) & -> & _).
  rewrite (inputs_det _ _ _ _ HI' HI) in *. cbn [bi_T] in Hme. specialize (Hme (proj2 HT)).
  rewrite free_below by (auto; lra). pose proof (rate_pos l T Ha Hc (proj1 HT) ltac:(lra)) as HR. pose proof (Norm2_pos m Hz) as Hn.
  assert (Q : 0 < b_me l * b_me l) by (destruct (Rtotal_order (b_me l) 0) as [?|[?|?]]; nra). generalize dependent (b_me l * b_me l). intros q Q.
  generalize dependent (Norm2 m). intros n Hn. generalize dependent (b_rate l T). intros r HR.
  assert (D : r / 2 * (1 - n / q) * n = (r / 2 * n / q) * (q - n)) by (field; lra). rewrite D.
  assert (P : 0 < r / 2 * n / q) by (apply Rdiv_lt_0_compat; [apply Rmult_lt_0_compat; lra|exact Q]).
  generalize dependent (r / 2 * n / q). intros p _ P. repeat split; intros X; nra.
Qed.
Lemma relax_above t dt l l' m d T : b_calculateLLG t dt m l = (l', Ok d) -> b_inputs_at l t (BI T 0 Zero) ->
  0 < b_damping l -> 0 < b_chi l -> 0 < b_Tc l < T -> Dot m d < 0.
Proof.
  intros E HI Ha Hc HT. apply llg_iff in E. destruct E as (i & HI' & (HTc & _ & Hz & Hme) & -> & _).
  rewrite (inputs_det _ _ _ _ HI' HI) in *. rewrite free_above by (auto; lra). pose proof (rate_pos l T Ha Hc ltac:(lra) ltac:(lra)) as HR. pose proof (Norm2_pos m Hz) as Hn.
  assert (P : 0 < b_Tc l / (T - b_Tc l)) by (apply Rdiv_lt_0_compat; lra).
  generalize dependent (b_Tc l / (T - b_Tc l)). intros q P. assert (0 < 1 + 3 / 5 * q * Norm2 m) by nra.
  assert (0 < b_rate l T * (1 + 3 / 5 * q * Norm2 m) * Norm2 m) by (apply Rmult_lt_0_compat; [apply Rmult_lt_0_compat|]; assumption). lra.
Qed.
Lemma frozen_length t dt l l' m d i : b_calculateLLG t dt m l = (l', Ok d) -> b_inputs_at l t i -> bi_T i = 0 -> Dot m d = 0.
Proof.
  intros E HI HT. apply llg_iff in E. destruct E as (i' & HI' & (HTc & _ & Hz & Hme) & -> & _). rewrite (inputs_det _ _ _ _ HI' HI) in *.
  rewrite length_rate by exact Hz. rewrite HT. unfold alpha_par, Rdiv. ring.
Qed.

(** ** Continuous solutions relax exponentially *)
Lemma norm_rate l m d t : b_solves l m d -> derivable_pt_lim (fun t => Norm2 (m t)) t (2 * Dot (m t) (d t)).
Proof.
  intros H. destruct (H t) as (_ & A & B & C).
  assert (E : forall t, Norm2 (m t) = cx (m t) * cx (m t) + cy (m t) * cy (m t) + cz (m t) * cz (m t)) by (intros s; unfold Norm2; destruct (m s); reflexivity).
  assert (D : 2 * Dot (m t) (d t) = (cx (d t) * cx (m t) + cx (m t) * cx (d t)) + (cy (d t) * cy (m t) + cy (m t) * cy (d t)) + (cz (d t) * cz (m t) + cz (m t) * cz (d t))).
  { destruct (m t), (d t). cbn. ring. }
  rewrite D. intros eps He. pose proof (derivable_pt_lim_plus _ _ t _ _ (derivable_pt_lim_plus _ _ t _ _ (derivable_pt_lim_mult _ _ t _ _ A A) (derivable_pt_lim_mult _ _ t _ _ B B)) (derivable_pt_lim_mult _ _ t _ _ C C) eps He) as [dl Hd].
  exists dl. intros h Hh Hl. rewrite !E. exact (Hd h Hh Hl).
Qed.
Lemma const_of_derivative f : (forall t, derivable_pt_lim f t 0) -> forall t, f t = f 0.
Proof.
  intros H. assert (P : derivable f) by (intros t; exists 0; apply H).
  assert (C : constant f). { apply (null_derivative_1 f P). intros t. apply derive_pt_eq_0, H. } intros t. apply C.
Qed.
Lemma lim_ext f g x d : (forall t, f t = g t) -> derivable_pt_lim f x d -> derivable_pt_lim g x d.
Proof. intros E H eps He. destruct (H eps He) as [dl Hd]. exists dl. intros h Hh Hl. rewrite <- !E. exact (Hd h Hh Hl). Qed.
Lemma exp_scaled c x : derivable_pt_lim (fun t => exp (c * t)) x (c * exp (c * x)).
Proof.
  pose proof (derivable_pt_lim_comp (fun t => c * t) exp x c (exp (c * x))) as H. unfold comp in H.
  rewrite Rmult_comm. apply H; [|apply derivable_pt_lim_exp].
  pose proof (derivable_pt_lim_scal id c x 1 (derivable_pt_lim_id x)) as K. unfold mult_real_fct, id in K. rewrite Rmult_1_r in K. exact K.
Qed.
Lemma linear_decay w c : (forall t, derivable_pt_lim w t (c * w t)) -> forall t, w t = w 0 * exp (c * t).
Proof.
  intros H t. pose proof (const_of_derivative (fun t => w t * exp (- c * t))) as K. cbv beta in K.
  assert (L : forall s, derivable_pt_lim (fun t => w t * exp (- c * t)) s 0).
  { intros s. replace 0 with (c * w s * exp (- c * s) + w s * (- c * exp (- c * s))) by ring.
    apply (derivable_pt_lim_mult w (fun t => exp (- c * t)) s _ _ (H s) (exp_scaled (- c) s)). }
  specialize (K L t). rewrite Rmult_0_r, exp_0, Rmult_1_r in K. rewrite <- K, Rmult_assoc, <- exp_plus.
  replace (- c * t + c * t) with 0 by ring. rewrite exp_0. ring.
Qed.
Lemma solves_nonzero l m d : b_solves l m d -> forall t, m t <> Zero.
Proof. intros H t. destruct (H t) as [[l' E] _]. apply llg_iff in E. destruct E as (i & _ & HS & _). apply HS. Qed.
Lemma solves_rhs l m d T : b_solves l m d -> (forall t, b_inputs_at l t (BI T 0 Zero)) -> forall t, d t = b_rhs l (BI T 0 Zero) (m t) /\ b_solvable l (BI T 0 Zero) (m t).
Proof. intros H HI t. destruct (H t) as [[l' E] _]. apply llg_iff in E. destruct E as (i & HI' & HS & -> & _). rewrite (inputs_det _ _ _ _ HI' (HI t)) in *. auto. Qed.
Lemma relaxation_below l m d T : b_solves l m d -> (forall t, b_inputs_at l t (BI T 0 Zero)) -> T <= b_Tc l -> forall t,
  b_me l * b_me l / Norm2 (m t) - 1 = (b_me l * b_me l / Norm2 (m 0) - 1) * exp (- b_rate l T * t).
Proof.
  intros H HI HT. assert (Hn : forall t, Norm2 (m t) <> 0) by (intros t; pose proof (Norm2_pos _ (solves_nonzero _ _ _ H t)); lra).
  apply (linear_decay (fun t => b_me l * b_me l / Norm2 (m t) - 1)). intros t. destruct (solves_rhs _ _ _ _ H HI t) as [Hd (_ & Hc & Hz & Hme)]. specialize (Hme HT).
  pose proof (norm_rate _ _ _ t H) as HN. rewrite Hd, (free_below _ _ _ Hz HT Hc) in HN.
  set (q := b_me l * b_me l) in *. assert (Hq : q <> 0) by (unfold q; apply Rmult_integral_contrapositive_currified; exact Hme).
  pose proof (derivable_pt_lim_div (fct_cte q) (fun t => Norm2 (m t)) t 0 _ (derivable_pt_lim_const q t) HN (Hn t)) as D.
  pose proof (derivable_pt_lim_minus _ (fct_cte 1) t _ _ D (derivable_pt_lim_const 1 t)) as D2. unfold fct_cte, Rsqr in D2.
  match type of D2 with derivable_pt_lim _ _ ?X => replace (- b_rate l T * (q / Norm2 (m t) - 1)) with X end.
  - exact D2.
  - field. split; [apply Hn|exact Hq].
Qed.
Lemma relaxation_above l m d T : b_solves l m d -> (forall t, b_inputs_at l t (BI T 0 Zero)) -> b_Tc l < T -> forall t,
  1 / Norm2 (m t) + 3 / 5 * (b_Tc l / (T - b_Tc l)) = (1 / Norm2 (m 0) + 3 / 5 * (b_Tc l / (T - b_Tc l))) * exp (2 * b_rate l T * t).
Proof.
  intros H HI HT. assert (Hn : forall t, Norm2 (m t) <> 0) by (intros t; pose proof (Norm2_pos _ (solves_nonzero _ _ _ H t)); lra).
  apply (linear_decay (fun t => 1 / Norm2 (m t) + 3 / 5 * (b_Tc l / (T - b_Tc l)))). intros t. destruct (solves_rhs _ _ _ _ H HI t) as [Hd (_ & Hc & Hz & Hme)].
  pose proof (norm_rate _ _ _ t H) as HN. rewrite Hd, (free_above _ _ _ Hz HT Hc) in HN. set (q := 3 / 5 * (b_Tc l / (T - b_Tc l))) in *.
  pose proof (derivable_pt_lim_div (fct_cte 1) (fun t => Norm2 (m t)) t 0 _ (derivable_pt_lim_const 1 t) HN (Hn t)) as D.
  pose proof (derivable_pt_lim_plus _ (fct_cte q) t _ _ D (derivable_pt_lim_const q t)) as D2. unfold fct_cte, Rsqr in D2.
  match type of D2 with derivable_pt_lim _ _ ?X => replace (2 * b_rate l T * (1 / Norm2 (m t) + q)) with X end.
  - exact D2.
  - field. apply Hn.
Qed.

(** ** Damping *)
Lemma alpha_at_Tc alpha Tc : Tc <> 0 -> alpha_perp alpha Tc Tc = alpha_par alpha Tc Tc.
Proof. intros H. unfold alpha_perp, alpha_par. destruct (Rlt_dec Tc Tc); [lra|]. field. exact H. Qed.
Lemma alpha_order alpha T Tc : 0 <= alpha -> 0 <= T -> 0 < Tc -> 0 <= alpha_par alpha T Tc <= alpha_perp alpha T Tc.
Proof.
  intros Ha HT Hc. assert (R0 : 0 <= T / Tc) by (apply Rmult_le_pos; [exact HT|left; apply Rinv_0_lt_compat, Hc]).
  unfold alpha_par, alpha_perp. split; [nra|]. destruct (Rlt_dec T Tc) as [L|L]; [|lra].
  replace (T / (3 * Tc)) with (T / Tc / 3) by (field; lra). assert (T / Tc < 1) by (apply Rmult_lt_reg_r with Tc; [exact Hc|]; unfold Rdiv; rewrite Rmult_assoc, Rinv_l by lra; lra).
  generalize dependent (T / Tc). intros r H0 H1. nra.
Qed.
Lemma alpha_continuous alpha Tc : 0 < Tc -> forall T, continuity_pt (fun T => alpha_perp alpha T Tc) T.
Proof.
  intros Hc T.
  assert (E : forall x, alpha_perp alpha x Tc = 2 / 3 * alpha * (x / Tc) + alpha / (2 * Tc) * (Rabs (x - Tc) - (x - Tc))).
  { intros x. unfold alpha_perp. destruct (Rlt_dec x Tc).
    - rewrite Rabs_left by lra. field. lra.
    - rewrite Rabs_right by lra. field. lra. }
  assert (C : continuity_pt (fun x => 2 / 3 * alpha * (x / Tc) + alpha / (2 * Tc) * (Rabs (x - Tc) - (x - Tc))) T).
  { apply continuity_pt_plus.
    - apply derivable_continuous_pt. reg.
    - apply continuity_pt_mult; [apply continuity_pt_const; intros ? ?; reflexivity|]. apply continuity_pt_minus; [|reg].
      apply (continuity_pt_comp (fun x => x - Tc) Rabs); [reg|apply Rcontinuity_abs]. }
  intros eps He. destruct (C eps He) as (dl & Hd & HC). exists dl. split; [exact Hd|]. intros x Hx. rewrite !E. apply HC, Hx.
Qed.
Lemma exp_small r eps : 0 < r -> 0 < eps -> exists t0, 0 <= t0 /\ forall t, t0 <= t -> exp (- r * t) < eps.
Proof.
  intros Hr He. exists (Rmax 0 ((1 - ln eps) / r)). split; [apply Rmax_l|]. intros t Ht.
  assert (H : (1 - ln eps) / r <= t) by (eapply Rle_trans; [apply Rmax_r|exact Ht]).
  assert (G : 1 - ln eps <= r * t) by (apply Rmult_le_reg_l with (/ r); [apply Rinv_0_lt_compat, Hr|]; replace (/ r * (r * t)) with t by (field; lra); unfold Rdiv in H; lra).
  rewrite <- (exp_ln eps He) at 1. apply exp_increasing. lra.
Qed.
Lemma length_limit_below l m d T : b_solves l m d -> (forall t, b_inputs_at l t (BI T 0 Zero)) -> 0 < b_damping l -> 0 < b_chi l -> 0 < T <= b_Tc l ->
  forall eps, 0 < eps -> exists t0, forall t, t0 <= t -> Rabs (Norm2 (m t) - b_me l * b_me l) < eps.
Proof.
  intros HS HI Ha Hc HT eps He. pose proof (rate_pos l T Ha Hc (proj1 HT) ltac:(lra)) as HR.
  pose proof (relaxation_below l m d T HS HI (proj2 HT)) as HX. pose proof (fun t => Norm2_pos _ (solves_nonzero _ _ _ HS t)) as HN.
  assert (Q : 0 < b_me l * b_me l).
  { destruct (solves_rhs _ _ _ _ HS HI 0) as [_ (_ & _ & _ & Hm)]. specialize (Hm (proj2 HT)). destruct (Rtotal_order (b_me l) 0) as [?|[?|?]]; nra. }
  revert HX Q. generalize (b_me l * b_me l). intros q HX Q. set (n0 := Norm2 (m 0)) in *. pose proof (HN 0) as HN0. fold n0 in HN0. set (c := q / n0 - 1) in *.
  assert (C0 : 0 < 1 + Rabs c) by (pose proof (Rabs_pos c); lra).
  destruct (exp_small (b_rate l T) (eps / ((q + n0) * (1 + Rabs c))) HR) as (t0 & Ht0 & HE); [apply Rdiv_lt_0_compat; [exact He|nra]|].
  exists t0. intros t Ht. specialize (HE t Ht). specialize (HX t). specialize (HN t). revert HX HN. generalize (Norm2 (m t)). intros n HX HN.
  assert (E1 : 0 < exp (- b_rate l T * t) <= 1).
  { split; [apply exp_pos|]. rewrite <- exp_0. destruct (Req_dec t 0) as [->|E]; [rewrite Rmult_0_r; lra|]. left. apply exp_increasing. nra. }
  revert HE HX E1. generalize (exp (- b_rate l T * t)). intros E HE HX E1.
  assert (Hq : q = n * (1 + c * E)) by (rewrite <- HX; field; lra).
  assert (Hc0 : c * n0 = q - n0) by (unfold c; field; lra).
  assert (B : n <= q + n0).
  { destruct (Rle_dec n (q + n0)) as [L|L]; [exact L|]. exfalso. assert (n > q + n0) by lra.
    assert (q * n0 = n * (n0 * (1 - E) + E * q)) by (replace (n0 * (1 - E) + E * q) with (n0 * (1 + c * E)) by (replace (n0 * (1 + c * E)) with (n0 + (c * n0) * E) by ring; rewrite Hc0; ring); rewrite Hq at 1; ring).
    assert (0 <= n0 * (1 - E)) by nra. assert (0 < E * q) by nra. assert (n * (n0 * (1 - E)) >= q * (n0 * (1 - E))) by nra. assert (n * (E * q) >= n0 * (E * q)) by nra. assert (n * (E * q) > n0 * (E * q)) by nra. nra. }
  assert (D : n - q = - (n * c * E)) by (rewrite Hq; ring). rewrite D, Rabs_Ropp, !Rabs_mult, (Rabs_pos_eq n), (Rabs_pos_eq E) by lra.
  pose proof (Rabs_pos c) as AC. revert C0 HE AC. generalize (Rabs c). intros a C0 HE AC.
  apply Rle_lt_trans with ((q + n0) * (1 + a) * E).
  - apply Rmult_le_compat_r; [lra|]. apply Rle_trans with ((q + n0) * a); [apply Rmult_le_compat_r; lra|]. nra.
  - assert (P : 0 < (q + n0) * (1 + a)) by nra. apply Rmult_lt_reg_r with (/ ((q + n0) * (1 + a))); [apply Rinv_0_lt_compat, P|].
    replace ((q + n0) * (1 + a) * E * / ((q + n0) * (1 + a))) with E by (field; lra). exact HE.
Qed.
Lemma length_limit_above l m d T : b_solves l m d -> (forall t, b_inputs_at l t (BI T 0 Zero)) -> 0 < b_damping l -> 0 < b_chi l -> 0 < b_Tc l < T ->
  forall eps, 0 < eps -> exists t0, forall t, t0 <= t -> Norm2 (m t) < eps.
Proof.
  intros HS HI Ha Hc HT eps He. pose proof (rate_pos l T Ha Hc ltac:(lra) ltac:(lra)) as HR.
  pose proof (relaxation_above l m d T HS HI (proj2 HT)) as HX. pose proof (fun t => Norm2_pos _ (solves_nonzero _ _ _ HS t)) as HN.
  set (k := 3 / 5 * (b_Tc l / (T - b_Tc l))) in *. assert (K : 0 < k) by (unfold k; assert (0 < b_Tc l / (T - b_Tc l)) by (apply Rdiv_lt_0_compat; lra); lra).
  set (n0 := Norm2 (m 0)) in *. pose proof (HN 0) as HN0. fold n0 in HN0.
  destruct (exp_small (2 * b_rate l T) (eps / n0)) as (t0 & Ht0 & HE); [lra|apply Rdiv_lt_0_compat; assumption|].
  exists t0. intros t Ht. specialize (HE t Ht). specialize (HX t). specialize (HN t). revert HX HN. generalize (Norm2 (m t)). intros n HX HN.
  replace (- (2 * b_rate l T) * t) with (- (2 * b_rate l T * t)) in HE by ring. rewrite exp_Ropp in HE.
  assert (E1 : 1 <= exp (2 * b_rate l T * t)).
  { rewrite <- exp_0. destruct (Req_dec t 0) as [->|E]; [rewrite Rmult_0_r; lra|]. left. apply exp_increasing. nra. }
  revert HE HX E1. generalize (exp (2 * b_rate l T * t)). intros E HE HX E1.
  assert (L : E / n0 <= 1 / n) by (assert (k <= k * E) by nra; replace ((1 / n0 + k) * E) with (E / n0 + k * E) in HX by (field; lra); lra).
  assert (I : n * E <= n0). { apply Rmult_le_reg_r with (/ (n * n0)); [apply Rinv_0_lt_compat; nra|]. replace (n * E * / (n * n0)) with (E / n0) by (field; lra). replace (n0 * / (n * n0)) with (1 / n) by (field; lra). exact L. }
  assert (J : 1 < eps / n0 * E) by (apply Rmult_lt_reg_r with (/ E); [apply Rinv_0_lt_compat; lra|]; replace (eps / n0 * E * / E) with (eps / n0) by (field; lra); lra).
  assert (n0 < eps * E) by (apply Rmult_lt_reg_r with (/ n0); [apply Rinv_0_lt_compat; lra|]; replace (n0 * / n0) with 1 by (field; lra); replace (eps * E * / n0) with (eps / n0 * E) by (field; lra); exact J).
  nra.
Qed.
