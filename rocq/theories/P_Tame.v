(** Which drivers have no jumps. *)
From Verif Require Import P_Drivers.
From Verif Require Export P_Metric.
From Coq Require Import Reals Lra Lia Psatz.
Open Scope R_scope.

Lemma tame_of T d f K : (forall t, getCurrentScalarValue d t = Ok (f t)) -> (forall t t', Rabs (f t - f t') <= K * Rabs (t - t')) -> tame T d.
Proof.
  intros V L. exists (Rabs (f 0) + Rabs K * Rabs T), K. intros t Ht. exists (f t). split; [apply V|]. split.
  - specialize (L t 0). rewrite Rminus_0_r in L. pose proof (Rabs_triang (f 0) (f t - f 0)) as H. replace (f 0 + (f t - f 0)) with (f t) in H by ring.
    assert (K * Rabs t <= Rabs K * Rabs T).
    { apply Rle_trans with (Rabs K * Rabs t); [apply Rmult_le_compat_r; [apply Rabs_pos|apply Rle_abs]|]. apply Rmult_le_compat_l; [apply Rabs_pos|]. rewrite !Rabs_pos_eq by lra. lra. }
    lra.
  - intros t' x' _ E. rewrite V in E. injection E as <-. apply L.
Qed.
(** A differentiable function with bounded derivative. *)
Lemma lipschitz_of f df K : (forall t, derivable_pt_lim f t (df t) /\ Rabs (df t) <= K) -> forall x y, Rabs (f x - f y) <= K * Rabs (x - y).
Proof.
  intros H. assert (G : forall x y, x < y -> Rabs (f y - f x) <= K * Rabs (y - x)).
  { intros x y L. destruct (MVT_cor2 f df x y L (fun c _ => proj1 (H c))) as (c & E & _). rewrite E, Rabs_mult. apply Rmult_le_compat_r; [apply Rabs_pos|apply H]. }
  intros x y. destruct (Rtotal_order x y) as [L|[->|L]].
  - rewrite Rabs_minus_sym, (Rabs_minus_sym x). apply G, L.
  - rewrite !Rminus_diag_eq, Rabs_R0 by reflexivity. lra.
  - apply G, L.
Qed.
Lemma sin_lipschitz x y : Rabs (sin x - sin y) <= Rabs (x - y).
Proof.
  rewrite <- (Rmult_1_l (Rabs (x - y))). apply (lipschitz_of sin cos). intros t. split; [apply derivable_pt_lim_sin|].
  apply Rabs_le. apply COS_bound.
Qed.
Lemma wave_lipschitz a f ph t t' : Rabs (a * sin (2 * PI * t * f + ph) - a * sin (2 * PI * t' * f + ph)) <= (Rabs a * (2 * PI * Rabs f)) * Rabs (t - t').
Proof.
  rewrite <- Rmult_minus_distr_l, Rabs_mult, !Rmult_assoc. apply Rmult_le_compat_l; [apply Rabs_pos|].
  apply Rle_trans with (1 := sin_lipschitz _ _). replace (2 * (PI * (t * f)) + ph - (2 * (PI * (t' * f)) + ph)) with (2 * (PI * (f * (t - t')))) by ring.
  rewrite !Rabs_mult, (Rabs_pos_eq 2), (Rabs_pos_eq PI) by (pose proof PI_RGT_0; lra). lra.
Qed.
Lemma min0_lipschitz x y : Rabs (Rmin 0 x - Rmin 0 y) <= Rabs (x - y).
Proof. unfold Rmin. destruct (Rle_dec 0 x), (Rle_dec 0 y); unfold Rabs; repeat destruct Rcase_abs; lra. Qed.
Lemma smooth_tame T d : d_update d = M_Drivers.constant \/ d_update d = sine \/ d_update d = posine \/ d_update d = halfsine -> tame T d.
Proof.
  destruct d as [u c a f ph per cyc ts te edge steady]. cbn [d_update]. intros [->|[->|[->| ->]]].
  - apply (tame_of T _ (fun _ => c) 0); [reflexivity|]. intros t t'. rewrite Rminus_diag_eq, Rabs_R0 by reflexivity. lra.
  - apply (tame_of T _ (fun t => c + a * sin (2 * PI * t * f + ph)) (Rabs a * (2 * PI * Rabs f))); [reflexivity|].
    intros t t'. replace (c + a * sin (2 * PI * t * f + ph) - (c + a * sin (2 * PI * t' * f + ph))) with (a * sin (2 * PI * t * f + ph) - a * sin (2 * PI * t' * f + ph)) by ring. apply wave_lipschitz.
  - apply (tame_of T _ (fun t => c + Rabs (a * sin (2 * PI * t * f + ph))) (Rabs a * (2 * PI * Rabs f))); [reflexivity|].
    intros t t'. apply Rle_trans with (2 := wave_lipschitz a f ph t t').
    replace (c + Rabs (a * sin (2 * PI * t * f + ph)) - (c + Rabs (a * sin (2 * PI * t' * f + ph)))) with (Rabs (a * sin (2 * PI * t * f + ph)) - Rabs (a * sin (2 * PI * t' * f + ph))) by ring.
    apply Rabs_triang_inv2.
  - apply (tame_of T _ (fun t => c + Rmin 0 (a * sin (2 * PI * t * f + ph))) (Rabs a * (2 * PI * Rabs f))).
    + intros t. cbn [getCurrentScalarValue d_update d_const d_amp d_freq d_phase]. unfold Rmin. destruct (Rle_dec (a * sin (2 * PI * t * f + ph)) 0), (Rle_dec 0 (a * sin (2 * PI * t * f + ph))); f_equal; lra.
    + intros t t'. apply Rle_trans with (2 := wave_lipschitz a f ph t t').
      replace (c + Rmin 0 (a * sin (2 * PI * t * f + ph)) - (c + Rmin 0 (a * sin (2 * PI * t' * f + ph)))) with (Rmin 0 (a * sin (2 * PI * t * f + ph)) - Rmin 0 (a * sin (2 * PI * t' * f + ph))) by ring.
      apply min0_lipschitz.
Qed.
Lemma trapezoid_tame T c a ts edge steady d : 0 < edge -> 0 <= steady -> getTrapezoidDriver c a ts edge steady = Ok d -> tame T d.
Proof.
  intros He Hs E. destruct (trapezoid_driver c a ts edge steady He Hs) as (d' & E' & V). assert (d' = d) by congruence. subst d'.
  apply (tame_of T d (fun t => c + a * trapezoid_shape ts edge steady t) (Rabs a / edge)).
  - intros t. destruct (V t) as (v & -> & -> & _). reflexivity.
  - intros t t'. destruct (V t) as (v & Ev & -> & _ & L). destruct (V t') as (v' & Ev' & -> & _). apply L. exact Ev'.
Qed.
Lemma bell_slope y : Rabs y * exp (- (y * y / 2)) <= 1.
Proof.
  rewrite exp_Ropp. pose proof (exp_pos (y * y / 2)) as P.
  assert (G : Rabs y <= exp (y * y / 2)).
  { assert (1 + y * y / 2 <= exp (y * y / 2)). { destruct (Req_dec (y * y / 2) 0) as [->|N]; [rewrite exp_0; lra|]. left. apply exp_ineq1. exact N. }
    assert (Rabs y * Rabs y = y * y) by (rewrite <- Rabs_mult; apply Rabs_pos_eq; nra). nra. }
  apply Rmult_le_reg_r with (exp (y * y / 2)); [exact P|]. rewrite Rmult_assoc, Rinv_l by lra. lra.
Qed.
Lemma gauss_tame T c a t0 sigma d : sigma <> 0 -> getGaussianImpulseDriver c a t0 sigma = Ok d -> tame T d.
Proof.
  intros Hs E. destruct (gauss_driver c a t0 sigma Hs) as (d' & E' & _ & V). assert (d' = d) by congruence. subst d'.
  set (df := fun t => a * (exp (- (t - t0) ^ 2 / (2 * sigma ^ 2)) * (- (t - t0) / sigma ^ 2))).
  apply (tame_of T d (fun t => c + a * exp (- (t - t0) ^ 2 / (2 * sigma ^ 2))) (Rabs a * / Rabs sigma)).
  - intros t. destruct (V t) as (v & -> & -> & _). reflexivity.
  - apply (lipschitz_of (fun t => c + a * exp (- (t - t0) ^ 2 / (2 * sigma ^ 2))) df). intros t. split.
    + unfold df. replace (a * (exp (- (t - t0) ^ 2 / (2 * sigma ^ 2)) * (- (t - t0) / sigma ^ 2))) with (0 + a * (exp (- (t - t0) ^ 2 / (2 * sigma ^ 2)) * (- (t - t0) / sigma ^ 2))) by ring.
      apply (derivable_pt_lim_plus (fun _ => c)); [apply derivable_pt_lim_const|].
      apply (derivable_pt_lim_scal (fun t => exp (- (t - t0) ^ 2 / (2 * sigma ^ 2)))).
      apply (derivable_pt_lim_comp (fun t => - (t - t0) ^ 2 / (2 * sigma ^ 2)) exp); [|apply derivable_pt_lim_exp].
      apply derivable_pt_lim_ext with (f := fun s => (- / (2 * sigma ^ 2)) * ((s - t0) * (s - t0))); [intros s; cbn; field; lra|].
      replace (- (t - t0) / sigma ^ 2) with (- / (2 * sigma ^ 2) * (1 * (t - t0) + (t - t0) * 1)) by (field; lra).
      apply (derivable_pt_lim_scal (fun s => (s - t0) * (s - t0))).
      assert (D : derivable_pt_lim (fun s => s - t0) t 1).
      { replace 1 with (1 - 0) by ring. apply (derivable_pt_lim_minus id (fun _ => t0)); [apply derivable_pt_lim_id|apply derivable_pt_lim_const]. }
      apply (derivable_pt_lim_mult (fun s => s - t0) (fun s => s - t0)); exact D.
    + unfold df. rewrite Rabs_mult. apply Rmult_le_compat_l; [apply Rabs_pos|].
      set (y := (t - t0) / sigma). replace (- (t - t0) ^ 2 / (2 * sigma ^ 2)) with (- (y * y / 2)) by (unfold y; field; lra).
      replace (- (t - t0) / sigma ^ 2) with (- y * / sigma) by (unfold y; field; lra).
      rewrite !Rabs_mult, Rabs_Ropp, Rabs_inv, (Rabs_pos_eq (exp _)) by (left; apply exp_pos). pose proof (bell_slope y).
      assert (0 < / Rabs sigma) by (apply Rinv_0_lt_compat, Rabs_pos_lt; exact Hs). nra.
Qed.
(** A step inside the interval is a jump. *)
Lemma step_not_tame T c a ts te d : a <> 0 -> 0 < ts < T -> ts < te -> getStepDriver c a ts te = Ok d -> ~ tame T d.
Proof.
  intros Ha Hts Hte E (B & K & H). pose proof (step_driver c a ts te) as [_ SD]. destruct (SD Hte) as (d' & E' & V). assert (d' = d) by congruence. subst d'.
  assert (PA : 0 < Rabs a) by (apply Rabs_pos_lt; exact Ha).
  set (h := Rmin ts (Rabs a / (2 * (Rabs K + 1)))). pose proof (Rabs_pos K) as PK.
  assert (HQ : 0 < Rabs a / (2 * (Rabs K + 1))) by (apply Rdiv_lt_0_compat; lra).
  assert (Hh : 0 < h) by (unfold h; apply Rmin_glb_lt; lra). assert (Hh2 : h <= ts) by apply Rmin_l. assert (Hh3 : h <= Rabs a / (2 * (Rabs K + 1))) by apply Rmin_r.
  destruct (V ts) as [V1 _]. specialize (V1 ltac:(lra)). destruct (V (ts - h)) as [_ V2]. specialize (V2 ltac:(lra)).
  destruct (H ts ltac:(lra)) as (x & Ex & _ & L). assert (x = c + a) by congruence. subst x.
  specialize (L (ts - h) c ltac:(lra) V2). replace (c + a - c) with a in L by ring. replace (ts - (ts - h)) with h in L by ring. rewrite (Rabs_pos_eq h) in L by lra.
  assert (K * h <= Rabs K * h) by (apply Rmult_le_compat_r; [lra|apply Rle_abs]).
  assert ((Rabs K + 1) * h <= Rabs a / 2).
  { apply Rle_trans with ((Rabs K + 1) * (Rabs a / (2 * (Rabs K + 1)))); [apply Rmult_le_compat_l; lra|]. right. field. lra. }
  lra.
Qed.
