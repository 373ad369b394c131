(** Lemmas for the Gaussian step waveform, the constant setter and the axial copy of a driver. *)
From Verif Require Import P_Vec P_Drivers.
From Coquelicot Require Import Coquelicot.
From Coq Require Import Lra.
Open Scope R_scope.

Definition bell (u : R) : R := exp (- u ^ 2).
Lemma bell_continuous u : continuous bell u.
Proof. apply (ex_derive_continuous (V := R_NormedModule)). unfold bell. auto_derive. exact I. Qed.
Lemma bell_int a b : ex_RInt bell a b.
Proof. apply (ex_RInt_continuous (V := R_CompleteNormedModule)). intros z _. apply bell_continuous. Qed.

Lemma erf_zero : erf 0 = 0.
Proof. unfold erf. rewrite RInt_point. change (@zero R_CompleteNormedModule) with 0. ring. Qed.
Lemma erf_derive x : is_derive erf x (2 / sqrt PI * exp (- x ^ 2)).
Proof.
  unfold erf. apply (is_derive_scal (fun y => RInt bell 0 y)).
  apply (is_derive_RInt (V := R_NormedModule) bell (fun y => RInt bell 0 y) 0).
  - exists (mkposreal 1 Rlt_0_1). intros y _. apply (RInt_correct (V := R_CompleteNormedModule)). apply bell_int.
  - apply bell_continuous.
Qed.

Lemma gauss_step_wave c a t0 sigma d : mkScalarDriver gaussstep c a (-1) (-1) (-1) (-1) t0 (-1) sigma (-1) = Ok d -> sigma <> 0 ->
  exists v, (forall t, getCurrentScalarValue d t = Ok (v t)) /\ v t0 = c + a / 2 /\
    forall t, derivable_pt_lim v t (a / (sigma * sqrt (2 * PI)) * exp (- (t - t0) ^ 2 / (2 * sigma ^ 2))).
Proof.
  intros E Hs. cbn in E. injection E as <-. 
  exists (fun t => c + 1 / 2 * a * (1 + erf ((t - t0) / (sqrt 2 * sigma)))). 
  assert (S2 : sqrt 2 <> 0) by (apply Rgt_not_eq, sqrt_lt_R0; lra).
  assert (SP : sqrt PI <> 0) by (apply Rgt_not_eq, sqrt_lt_R0, PI_RGT_0).
  assert (Q2 : sqrt 2 * sqrt 2 = 2) by (apply sqrt_sqrt; lra).
  split; [|split].
  - intros t. unfold getCurrentScalarValue, gaussStep. cbn. destruct (Req_EM_T sigma 0); [contradiction|]. reflexivity.
  - replace ((t0 - t0) / (sqrt 2 * sigma)) with 0 by (field; split; assumption). rewrite erf_zero. field.
  - intros t. apply is_derive_Reals.
    evar_last.
    + apply (is_derive_plus (V := R_NormedModule) (fun _ => c) (fun t => 1 / 2 * a * (1 + erf ((t - t0) / (sqrt 2 * sigma))))).
      * apply (is_derive_const (V := R_NormedModule)).
      * apply (is_derive_scal (fun t => 1 + erf ((t - t0) / (sqrt 2 * sigma)))).
        apply (is_derive_plus (V := R_NormedModule) (fun _ => 1)); [apply (is_derive_const (V := R_NormedModule))|].
        apply (is_derive_comp (V := R_NormedModule) erf (fun t => (t - t0) / (sqrt 2 * sigma))); [apply erf_derive|].
        instantiate (1 := / (sqrt 2 * sigma)). auto_derive; [exact I|]. field. split; assumption.
    + unfold plus, zero, scal. cbn. unfold mult. cbn. rewrite sqrt_mult by (pose proof PI_RGT_0; lra).
      replace (- ((t - t0) / (sqrt 2 * sigma) * ((t - t0) / (sqrt 2 * sigma) * 1))) with (- ((t - t0) * ((t - t0) * 1)) / (2 * (sigma * (sigma * 1)))).
      2:{ rewrite <- Q2 at 1. field. split; assumption. }
      field. repeat split; assumption.
Qed.
Lemma gauss_step_sharp c a t0 d t : mkScalarDriver gaussstep c a (-1) (-1) (-1) (-1) t0 (-1) 0 (-1) = Ok d ->
  (t < t0 -> getCurrentScalarValue d t = Ok c) /\ (t0 < t -> getCurrentScalarValue d t = Ok (c + a)) /\
  (t = t0 -> getCurrentScalarValue d t = Err NonFinite).
Proof.
  intros E. cbn in E. injection E as <-. unfold getCurrentScalarValue, gaussStep. cbn.
  destruct (Req_EM_T 0 0); [|contradiction]. destruct (Req_EM_T t t0).
  - split; [|split]; intros; try lra; reflexivity.
  - destruct (Rlt_dec t0 t); (split; [|split]); intros; try lra; cbn; f_equal; lra.
Qed.
Lemma set_constant_value d v t :
  getCurrentScalarValue (setConstantValue d v) t = map_result (fun x => x - d_const d + v) (getCurrentScalarValue d t) /\
  d_const (setConstantValue d v) = v.
Proof.
  split; [|reflexivity]. unfold getCurrentScalarValue. cbn [setConstantValue d_update d_const d_amp d_freq d_phase d_period d_cycle d_tstart d_tstop d_edge d_steady].
  destruct (d_update d); cbn [map_result rbind].
  1: f_equal; ring.
  1: destruct (pulseTrain _ _ _ _); cbn; f_equal; ring.
  1-2: f_equal; ring.
  1: f_equal; ring.
  1: destruct Rle_dec; cbn; f_equal; ring.
  1: destruct (trapezoidalUpdate _ _ _ _ _); cbn; f_equal; ring.
  1: destruct (gaussImpulse _ _ _ _); cbn; f_equal; ring.
  destruct (gaussStep _ _ _ _); cbn; f_equal; ring.
Qed.
(** What an axial driver does with the objects it was built from. *)
Lemma user_is_base f g h bx by_ bz t :
  getCurrentAxialDrivers (mkAxial (DynUser f bx) (DynUser g by_) (DynUser h bz)) t =
  getCurrentAxialDrivers (mkAxial (DynScalar bx) (DynScalar by_) (DynScalar bz)) t.
Proof. reflexivity. Qed.
