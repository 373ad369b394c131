(** Proofs about drivers. *)
From Verif Require Import P_Vec.
From Verif Require Export S_Drivers.
Open Scope R_scope.

Lemma Reqb_true a b : Reqb a b = true <-> a = b.
Proof. unfold Reqb. destruct (Req_EM_T a b); split; congruence. Qed.
Lemma Reqb_false a b : Reqb a b = false <-> a <> b.
Proof. unfold Reqb. destruct (Req_EM_T a b); split; congruence. Qed.

(** ** C22 *)
Lemma constant_driver c : exists d, getConstantDriver c = Ok d /\
  forall t, getCurrentScalarValue d t = Ok c.
Proof. eexists; split; [reflexivity|]. reflexivity. Qed.

Lemma step_driver c a ts te :
  (te <= ts -> exists msg, getStepDriver c a ts te = Err (Throw msg)) /\
  (ts < te -> exists d, getStepDriver c a ts te = Ok d /\ forall t,
     (ts <= t <= te -> getCurrentScalarValue d t = Ok (c + a)) /\
     (t < ts \/ te < t -> getCurrentScalarValue d t = Ok c)).
Proof.
  unfold getStepDriver. destruct (Rle_dec te ts) as [H|H]; split; intros H2; try lra.
  - eexists; reflexivity.
  - eexists; split; [reflexivity|]. intros t. cbn. unfold stepUpdate.
    split; intros Ht; destruct (Rle_dec ts t), (Rle_dec t te); f_equal; lra.
Qed.

Lemma Rabs_le_inv a b : Rabs a <= b -> - b <= a <= b.
Proof. unfold Rabs. destruct (Rcase_abs a); lra. Qed.
Lemma sin_abs x : Rabs (sin x) <= 1.
Proof. apply Rabs_le. generalize (SIN_bound x). lra. Qed.
Lemma amp_sin_bound a x : - Rabs a <= a * sin x <= Rabs a.
Proof.
  assert (H : Rabs (a * sin x) <= Rabs a).
  { rewrite Rabs_mult. generalize (Rabs_pos a) (sin_abs x) (Rabs_pos (sin x)). nra. }
  apply Rabs_le_inv in H. exact H.
Qed.

Lemma sine_driver c a f ph :
  (f = -1 -> exists msg, getSineDriver c a f ph = Err (Throw msg)) /\
  (f <> -1 -> exists d, getSineDriver c a f ph = Ok d /\ forall t,
     exists v, getCurrentScalarValue d t = Ok v /\
       v = c + a * sin (2 * PI * f * t + ph) /\
       c - Rabs a <= v <= c + Rabs a /\
       (f <> 0 -> getCurrentScalarValue d (t + 1 / f) = Ok v)).
Proof.
  unfold getSineDriver, mkScalarDriver. cbn [update_eqb andb].
  destruct (Reqb f (-1)) eqn:E.
  - apply Reqb_true in E. split; intros H; [eexists; reflexivity|contradiction].
  - apply Reqb_false in E. split; intros H; [contradiction|].
    eexists; split; [reflexivity|]. intros t.
    eexists; split; [reflexivity|]. cbn [d_const d_amp d_freq d_phase].
    split; [f_equal; f_equal; f_equal; ring|]. split; [generalize (amp_sin_bound a (2*PI*t*f+ph)); lra|].
    intros Hf. cbn. f_equal. f_equal. f_equal.
    replace (2 * PI * (t + 1 / f) * f + ph) with ((2 * PI * t * f + ph) + 2 * PI) by (field; exact Hf).
    rewrite sin_plus, cos_2PI, sin_2PI. ring.
Qed.

Lemma posine_driver c a f ph :
  exists d, getPosSineDriver c a f ph = Ok d /\ forall t,
     exists v, getCurrentScalarValue d t = Ok v /\
       v = c + Rabs (a * sin (2 * PI * f * t + ph)) /\ c <= v <= c + Rabs a.
Proof.
  eexists; split; [reflexivity|]. intros t. eexists; split; [reflexivity|].
  cbn [d_const d_amp d_freq d_phase].
  replace (2 * PI * t * f + ph) with (2 * PI * f * t + ph) by ring.
  split; [reflexivity|]. generalize (Rabs_pos (a * sin (2 * PI * f * t + ph))).
  assert (Rabs (a * sin (2 * PI * f * t + ph)) <= Rabs a).
  { apply Rabs_le, amp_sin_bound. }
  lra.
Qed.

Lemma halfsine_driver c a f ph :
  exists d, getHalfSineDriver c a f ph = Ok d /\ forall t,
     exists v, getCurrentScalarValue d t = Ok v /\
       v = c + Rmin 0 (a * sin (2 * PI * f * t + ph)) /\ c - Rabs a <= v <= c.
Proof.
  eexists; split; [reflexivity|]. intros t. cbn -[sin PI].
  replace (2 * PI * t * f + ph) with (2 * PI * f * t + ph) by ring.
  generalize (amp_sin_bound a (2 * PI * f * t + ph)). generalize (Rabs_pos a). intros Ha Hb.
  destruct (Rle_dec (a * sin (2 * PI * f * t + ph)) 0) as [H|H]; eexists; (split; [reflexivity|]).
  - rewrite Rmin_right by exact H. lra.
  - rewrite Rmin_left by lra. lra.
Qed.

Lemma Int_part_unique x k : IZR k <= x < IZR k + 1 -> Int_part x = k.
Proof.
  intros H. unfold Int_part.
  assert (E : (k + 1)%Z = up x). { apply tech_up; rewrite plus_IZR; lra. }
  lia.
Qed.
Lemma ztrunc_nonneg x k : (0 <= k)%Z -> IZR k <= x < IZR k + 1 -> ztrunc x = k.
Proof.
  intros Hk H. unfold ztrunc. assert (0 <= IZR k) by (apply IZR_le; lia).
  destruct (Rle_dec 0 x); [|lra]. apply Int_part_unique, H.
Qed.

Lemma pulse_driver c a per cyc :
  (per = -1 \/ cyc = -1 -> exists msg, getPulseDriver c a per cyc = Err (Throw msg)) /\
  (0 < per -> cyc <> -1 -> exists d, getPulseDriver c a per cyc = Ok d /\
     (forall (k : nat) s, 0 <= s < per -> INR k < 2147483648 ->
        (s <= cyc * per -> getCurrentScalarValue d (INR k * per + s) = Ok (c + a)) /\
        (cyc * per < s -> getCurrentScalarValue d (INR k * per + s) = Ok c)) /\
     (forall t, 2147483648 * per <= t -> getCurrentScalarValue d t = Err Undefined)).
Proof.
  unfold getPulseDriver, mkScalarDriver. cbn [update_eqb andb].
  split.
  - intros H. replace (Reqb per (-1) || Reqb cyc (-1)) with true; [eexists; reflexivity|].
    symmetry; apply orb_true_iff. rewrite !Reqb_true. exact H.
  - intros Hp Hc. replace (Reqb per (-1)) with false by (symmetry; apply Reqb_false; lra).
    replace (Reqb cyc (-1)) with false by (symmetry; apply Reqb_false; lra). cbn [orb].
    eexists; split; [reflexivity|]. cbn [d_const d_amp getCurrentScalarValue d_update d_period d_cycle].
    unfold pulseTrain. split.
    + intros k s Hs Hk. rewrite fdiv_ok by lra. cbn [rbind].
      assert (Hq : IZR (Z.of_nat k) <= (INR k * per + s) / per < IZR (Z.of_nat k) + 1).
      { rewrite <- INR_IZR_INZ. replace ((INR k * per + s) / per) with (INR k + s / per) by (field; lra).
        assert (0 <= s / per) by (apply Rmult_le_pos; [lra|left; apply Rinv_0_lt_compat; lra]).
        assert (s / per < 1). { apply Rmult_lt_reg_r with per; [lra|]. unfold Rdiv. rewrite Rmult_assoc, Rinv_l by lra. lra. }
        lra. }
      unfold to_int.
      assert (H0 : 0 <= INR k) by apply pos_INR.
      destruct (Rlt_dec (-2147483649) ((INR k * per + s) / per)) as [_|N];
        [|exfalso; rewrite <- INR_IZR_INZ in Hq; lra].
      assert (Hk2 : (Z.of_nat k < 2147483648)%Z). { apply lt_IZR. rewrite <- INR_IZR_INZ. exact Hk. }
      destruct (Rlt_dec ((INR k * per + s) / per) 2147483648) as [_|N].
      2:{ exfalso. apply N. assert (IZR (Z.of_nat k) + 1 <= 2147483648).
          { replace (IZR (Z.of_nat k) + 1) with (IZR (Z.of_nat k + 1)) by (rewrite plus_IZR; lra).
            apply IZR_le; lia. } lra. }
      cbn [rbind]. rewrite (@ztrunc_nonneg _ (Z.of_nat k)) by (try lia; exact Hq).
      rewrite <- INR_IZR_INZ.
      destruct (Rle_dec (INR k * per) (INR k * per + s)); [|lra].
      split; intros Hd; destruct (Rle_dec (INR k * per + s) (INR k * per + cyc * per)); f_equal; lra.
    + intros t Ht. rewrite fdiv_ok by lra. cbn [rbind]. unfold to_int.
      assert (2147483648 <= t / per).
      { apply Rmult_le_reg_r with per; [lra|]. unfold Rdiv. rewrite Rmult_assoc, Rinv_l by lra. lra. }
      destruct (Rlt_dec (-2147483649) (t / per)); [|reflexivity].
      destruct (Rlt_dec (t / per) 2147483648); [lra|reflexivity].
Qed.

(** ** C24 *)
Lemma div_pos_sign x e : 0 < e -> (0 <= x -> 0 <= x / e) /\ (x <= 0 -> x / e <= 0) /\
   (x <= e -> x / e <= 1) /\ (e <= x -> 1 <= x / e).
Proof.
  intros He. assert (Hi := Rinv_0_lt_compat e He).
  assert (E : x / e * e = x) by (field; lra).
  repeat split; intros H; nra.
Qed.

Lemma trapezoid_value a t ts edge steady : 0 < edge -> 0 <= steady ->
  trapezoidalUpdate a t ts edge steady = Ok (a * trapezoid_shape ts edge steady t).
Proof.
  intros He Hs. unfold trapezoidalUpdate, trapezoid_shape.
  destruct (@div_pos_sign (t - ts) edge He) as (A1 & A2 & A3 & A4).
  destruct (@div_pos_sign (ts + 2 * edge + steady - t) edge He) as (B1 & B2 & B3 & B4).
  destruct (Rlt_dec t ts) as [K|K].
  { rewrite (Rmin_left ((t-ts)/edge)) by (assert ((t-ts)/edge <= 0) by (apply A2; lra);
      assert (1 <= (ts + 2 * edge + steady - t) / edge) by (apply B4; lra); lra).
    rewrite Rmin_right by (assert ((t-ts)/edge <= 0) by (apply A2; lra); lra).
    rewrite Rmax_left by (apply A2; lra). f_equal; ring. }
  destruct (Rle_dec t (ts + edge)) as [K1|K1].
  { rewrite fdiv_ok by lra. cbn [rbind].
    assert (0 <= (t-ts)/edge) by (apply A1; lra). assert ((t-ts)/edge <= 1) by (apply A3; lra).
    assert (1 <= (ts + 2 * edge + steady - t) / edge) by (apply B4; lra).
    rewrite (Rmin_left ((t-ts)/edge)) by lra. rewrite Rmin_right by lra. rewrite Rmax_right by lra.
    f_equal. field; lra. }
  assert (1 <= (t-ts)/edge) by (apply A4; lra).
  destruct (Rle_dec t (ts + edge + steady)) as [K2|K2].
  { assert (1 <= (ts + 2 * edge + steady - t) / edge) by (apply B4; lra).
    rewrite (Rmin_left 1) by (apply Rmin_glb; lra). rewrite Rmax_right by lra. f_equal; ring. }
  assert ((ts + 2 * edge + steady - t) / edge <= 1) by (apply B3; lra).
  rewrite (Rmin_right ((t-ts)/edge)) by lra.
  destruct (Rle_dec t (ts + 2 * edge + steady)) as [K3|K3].
  { rewrite fdiv_ok by lra. cbn [rbind]. 
    assert (0 <= (ts + 2 * edge + steady - t) / edge) by (apply B1; lra).
    rewrite Rmin_right by lra. rewrite Rmax_right by lra. f_equal. field; lra. }
  assert ((ts + 2 * edge + steady - t) / edge <= 0) by (apply B2; lra).
  rewrite Rmin_right by lra. rewrite Rmax_left by lra. f_equal; ring.
Qed.

Lemma shape_bounds ts edge steady t : 0 <= trapezoid_shape ts edge steady t <= 1.
Proof. unfold trapezoid_shape. split; [apply Rmax_l|]. apply Rmax_lub; [lra|apply Rmin_l]. Qed.

Lemma Rmax_lip a b c : Rabs (Rmax a b - Rmax a c) <= Rabs (b - c).
Proof. unfold Rmax. destruct (Rle_dec a b), (Rle_dec a c); unfold Rabs; repeat destruct Rcase_abs; lra. Qed.
Lemma Rmin_lip a b c : Rabs (Rmin a b - Rmin a c) <= Rabs (b - c).
Proof. unfold Rmin. destruct (Rle_dec a b), (Rle_dec a c); unfold Rabs; repeat destruct Rcase_abs; lra. Qed.
Lemma Rmin_lip2 a b c d e : Rabs (a - c) <= e -> Rabs (b - d) <= e -> Rabs (Rmin a b - Rmin c d) <= e.
Proof. unfold Rmin. destruct (Rle_dec a b), (Rle_dec c d); unfold Rabs; repeat destruct Rcase_abs; lra. Qed.

Lemma shape_lip ts edge steady t t' : 0 < edge ->
  Rabs (trapezoid_shape ts edge steady t - trapezoid_shape ts edge steady t') <= Rabs (t - t') / edge.
Proof.
  intros He. unfold trapezoid_shape.
  eapply Rle_trans; [apply Rmax_lip|]. eapply Rle_trans; [apply Rmin_lip|].
  assert (Hi := Rinv_0_lt_compat edge He).
  apply Rmin_lip2.
  - replace ((t - ts) / edge - (t' - ts) / edge) with ((t - t') * / edge) by (field; lra).
    rewrite Rabs_mult, (Rabs_right (/ edge)) by lra. unfold Rdiv; lra.
  - replace ((ts + 2 * edge + steady - t) / edge - (ts + 2 * edge + steady - t') / edge)
      with (- (t - t') * / edge) by (field; lra).
    rewrite Rabs_mult, Rabs_Ropp, (Rabs_right (/ edge)) by lra. unfold Rdiv; lra.
Qed.

Lemma trapezoid_driver c a ts edge steady : 0 < edge -> 0 <= steady ->
  exists d, getTrapezoidDriver c a ts edge steady = Ok d /\
   forall t, exists v, getCurrentScalarValue d t = Ok v /\
     v = c + a * trapezoid_shape ts edge steady t /\
     (Rmin c (c + a) <= v <= Rmax c (c + a)) /\
     (forall t' v', getCurrentScalarValue d t' = Ok v' -> Rabs (v - v') <= Rabs a / edge * Rabs (t - t')).
Proof.
  intros He Hs. eexists; split; [reflexivity|]. intros t.
  cbn [getCurrentScalarValue d_update d_const d_amp d_tstart d_edge d_steady].
  rewrite trapezoid_value by assumption. cbn [rbind].
  eexists; split; [reflexivity|]. split; [reflexivity|].
  generalize (shape_bounds ts edge steady t); intros Hb. split.
  { split; [unfold Rmin; destruct Rle_dec|unfold Rmax; destruct Rle_dec]; nra. }
  intros t' v'. rewrite trapezoid_value by assumption. cbn [rbind]. intros E; injection E as <-.
  replace (c + a * trapezoid_shape ts edge steady t - (c + a * trapezoid_shape ts edge steady t'))
    with (a * (trapezoid_shape ts edge steady t - trapezoid_shape ts edge steady t')) by ring.
  rewrite Rabs_mult. unfold Rdiv. rewrite Rmult_assoc. apply Rmult_le_compat_l; [apply Rabs_pos|].
  rewrite Rmult_comm. apply shape_lip, He.
Qed.

Lemma trapezoid_zero_edge c a ts steady : 0 <= steady ->
  exists d, getTrapezoidDriver c a ts 0 steady = Ok d /\
   getCurrentScalarValue d ts = Err NonFinite /\
   (forall t, ts < t <= ts + steady -> getCurrentScalarValue d t = Ok (c + a)) /\
   (forall t, t < ts \/ ts + steady < t -> getCurrentScalarValue d t = Ok c).
Proof.
  intros Hs. eexists; split; [reflexivity|].
  cbn [getCurrentScalarValue d_update d_const d_amp d_tstart d_edge d_steady]. unfold trapezoidalUpdate.
  assert (F : fdiv a 0 = Err NonFinite) by (unfold fdiv; destruct (Req_EM_T 0 0); [reflexivity|lra]).
  split; [|split].
  - destruct (Rlt_dec ts ts); [lra|]. destruct (Rle_dec ts (ts + 0)); [|lra]. rewrite F. reflexivity.
  - intros t Ht. destruct (Rlt_dec t ts); [lra|]. destruct (Rle_dec t (ts + 0)); [lra|].
    destruct (Rle_dec t (ts + 0 + steady)); [reflexivity|lra].
  - intros t Ht. destruct (Rlt_dec t ts); [cbn [rbind]; f_equal; lra|].
    destruct (Rle_dec t (ts + 0)); [lra|].
    destruct (Rle_dec t (ts + 0 + steady)); [lra|].
    destruct (Rle_dec t (ts + 2 * 0 + steady)); [lra|]. cbn [rbind]. f_equal; lra.
Qed.

(** ** C25 *)
Lemma gauss_driver c a t0 sigma : sigma <> 0 ->
  exists d, getGaussianImpulseDriver c a t0 sigma = Ok d /\
   getCurrentScalarValue d t0 = Ok (c + a) /\
   forall t, exists v, getCurrentScalarValue d t = Ok v /\
     v = c + a * exp (- (t - t0) ^ 2 / (2 * sigma ^ 2)) /\
     getCurrentScalarValue d (2 * t0 - t) = Ok v /\
     (t <> t0 -> 0 < a -> c < v < c + a) /\ (t <> t0 -> a < 0 -> c + a < v < c).
Proof.
  intros Hs. eexists; split; [reflexivity|].
  cbn [getCurrentScalarValue d_update d_const d_amp d_tstart d_edge]. unfold gaussImpulse.
  destruct (Req_EM_T sigma 0) as [|_]; [contradiction|]. cbn [rbind].
  split. { f_equal. replace (- (t0 - t0) ^ 2 / (2 * sigma ^ 2)) with 0 by (field; exact Hs).
    rewrite exp_0; ring. }
  intros t. eexists; split; [reflexivity|]. split; [reflexivity|].
  split. { do 4 f_equal. field. exact Hs. }
  assert (0 < exp (- (t - t0) ^ 2 / (2 * sigma ^ 2))) by apply exp_pos.
  assert (t <> t0 -> exp (- (t - t0) ^ 2 / (2 * sigma ^ 2)) < 1).
  { intros Ht. rewrite <- exp_0. apply exp_increasing.
    assert (0 < (t - t0) ^ 2) by nra. assert (0 < 2 * sigma ^ 2) by nra.
    assert (Hi := Rinv_0_lt_compat _ H1). unfold Rdiv. nra. }
  split; intros Ht Ha; specialize (H0 Ht); nra.
Qed.

Lemma gauss_step_is_impulse c a t0 sigma :
  getGaussianStepDriver c a t0 sigma = getGaussianImpulseDriver c a t0 sigma.
Proof. reflexivity. Qed.

(** ** C26 *)
Lemma mk_ok_iff u c a f ph per cyc ts te edge steady :
  (exists d, mkScalarDriver u c a f ph per cyc ts te edge steady = Ok d) <->
  (u = pulse -> per <> -1 /\ cyc <> -1) /\ (u = sine -> f <> -1).
Proof.
  unfold mkScalarDriver. destruct (update_eqb u pulse) eqn:E1; cbn [andb].
  - assert (u = pulse) by (destruct u; cbn in E1; congruence). subst u. cbn [update_eqb andb].
    destruct (Reqb per (-1) || Reqb cyc (-1)) eqn:E2.
    + apply orb_true_iff in E2. rewrite !Reqb_true in E2. split.
      * intros [d Hd]; discriminate.
      * intros [H _]. specialize (H eq_refl). tauto.
    + apply orb_false_iff in E2. rewrite !Reqb_false in E2. split.
      * intros _; split; [tauto|discriminate].
      * intros _; eexists; reflexivity.
  - destruct (update_eqb u sine) eqn:E3; cbn [andb].
    + assert (u = sine) by (destruct u; cbn in E3; congruence). subst u.
      destruct (Reqb f (-1)) eqn:E2.
      * apply Reqb_true in E2. split; [intros [d Hd]; discriminate|]. intros [_ H]. exfalso; apply H; auto.
      * apply Reqb_false in E2. split; [intros _; split; [discriminate|auto]|]. intros _; eexists; reflexivity.
    + split; [intros _|intros _; eexists; reflexivity].
      split; intros ->; cbn in *; discriminate.
Qed.
Lemma mk_fields u c a f ph per cyc ts te edge steady d :
  mkScalarDriver u c a f ph per cyc ts te edge steady = Ok d ->
  d = SD u c a f ph per cyc ts te edge steady.
Proof.
  unfold mkScalarDriver. destruct (_ && _); [discriminate|]. destruct (_ && _); [discriminate|].
  intros E; injection E as <-; reflexivity.
Qed.
Lemma constructible_iff d : constructible d <->
  (d_update d = pulse -> d_period d <> -1 /\ d_cycle d <> -1) /\ (d_update d = sine -> d_freq d <> -1).
Proof.
  split.
  - intros (u & c & a & f & ph & per & cyc & ts & te & e & s & H).
    assert (H2 := mk_fields _ _ _ _ _ _ _ _ _ _ _ _ H). subst d. cbn.
    apply (mk_ok_iff u c a f ph per cyc ts te e s). eexists; exact H.
  - intros H. destruct d as [u c a f ph per cyc ts te e s]. cbn in H.
    apply (mk_ok_iff u c a f ph per cyc ts te e s) in H. destruct H as [d Hd].
    exists u, c, a, f, ph, per, cyc, ts, te, e, s. rewrite Hd. f_equal.
    exact (mk_fields _ _ _ _ _ _ _ _ _ _ _ _ Hd).
Qed.
Lemma mk_same_kind u c a f ph per cyc ts te edge steady c' a' :
  constructible (SD u c a f ph per cyc ts te edge steady) ->
  mkScalarDriver u c' a' f ph per cyc ts te edge steady = Ok (SD u c' a' f ph per cyc ts te edge steady).
Proof.
  intros H. apply constructible_iff in H. cbn in H.
  apply (mk_ok_iff u c' a' f ph per cyc ts te edge steady) in H. destruct H as [d Hd].
  rewrite Hd. f_equal. exact (mk_fields _ _ _ _ _ _ _ _ _ _ _ _ Hd).
Qed.

Lemma pulseTrain_scale a k t per cyc :
  pulseTrain (a * k) t per cyc = map_result (fun v => k * v) (pulseTrain a t per cyc).
Proof.
  unfold pulseTrain. destruct (fdiv t per); [|reflexivity]. cbn [rbind].
  destruct (to_int a0); [|reflexivity]. cbn [rbind map_result].
  destruct Rle_dec; [destruct Rle_dec|]; f_equal; ring.
Qed.
Lemma fdiv_scale a k e : fdiv (a * k) e = map_result (fun v => k * v) (fdiv a e).
Proof. unfold fdiv. destruct Req_EM_T; [reflexivity|]. cbn. f_equal. field; assumption. Qed.
Lemma trapezoid_scale a k t ts e s :
  trapezoidalUpdate (a * k) t ts e s = map_result (fun v => k * v) (trapezoidalUpdate a t ts e s).
Proof.
  unfold trapezoidalUpdate. rewrite fdiv_scale.
  destruct Rlt_dec; [cbn; f_equal; ring|].
  destruct Rle_dec; [destruct (fdiv a e); cbn; f_equal; ring|].
  destruct Rle_dec; [cbn; f_equal; ring|].
  destruct Rle_dec; [destruct (fdiv a e); cbn; f_equal; ring|]. cbn; f_equal; ring.
Qed.
Lemma gaussImpulse_scale a k t t0 s :
  gaussImpulse (a * k) t t0 s = map_result (fun v => k * v) (gaussImpulse a t t0 s).
Proof. unfold gaussImpulse. destruct Req_EM_T; [destruct Req_EM_T|]; cbn; f_equal; ring. Qed.
Lemma gaussStep_scale a k t t0 s :
  gaussStep (a * k) t t0 s = map_result (fun v => k * v) (gaussStep a t t0 s).
Proof. unfold gaussStep. destruct Req_EM_T; [destruct Req_EM_T; [|destruct Rlt_dec]|]; cbn; f_equal; ring. Qed.

Ltac case_map := match goal with |- context [rbind (map_result _ ?r) _] => destruct r; cbn; f_equal; ring
  | |- context [rbind ?r _] => destruct r; cbn; f_equal; ring end.

Lemma Rabs_pos_scale k x : 0 <= k -> Rabs (k * x) = k * Rabs x.
Proof. intros H. rewrite Rabs_mult, (Rabs_right k) by lra. reflexivity. Qed.

Lemma imul_value d k t : (amplitude_linear (d_update d) \/ 0 <= k) ->
  getCurrentScalarValue (driver_imul d k) t = map_result (fun v => k * v) (getCurrentScalarValue d t).
Proof.
  destruct d as [u c a f ph per cyc ts te e s]. unfold driver_imul, getCurrentScalarValue.
  cbn [d_update d_const d_amp d_freq d_phase d_period d_cycle d_tstart d_tstop d_edge d_steady].
  intros Hk. destruct u; rewrite ?pulseTrain_scale, ?trapezoid_scale, ?gaussImpulse_scale, ?gaussStep_scale;
    try case_map.
  - cbn; f_equal; ring.
  - cbn; f_equal; ring.
  - cbn. unfold stepUpdate. destruct Rle_dec; [destruct Rle_dec|]; f_equal; ring.
  - destruct Hk as [[H _]|Hk]; [congruence|]. cbn [map_result]. f_equal.
    set (w := sin _). replace (a * k * w) with (k * (a * w)) by ring. rewrite Rabs_pos_scale by exact Hk. ring.
  - destruct Hk as [[_ H]|Hk]; [congruence|].
    set (w := sin _). replace (a * k * w) with (k * (a * w)) by ring.
    destruct (Rle_dec (k * (a * w)) 0), (Rle_dec (a * w) 0); cbn [map_result]; f_equal; try ring; try nra.
Qed.
Lemma mul_is_imul d k : constructible d -> driver_mul d k = Ok (driver_imul d k).
Proof. destruct d. intros H. unfold driver_mul, driver_imul. cbn in *. eapply mk_same_kind, H. Qed.

Lemma mul_value d k : constructible d -> (amplitude_linear (d_update d) \/ 0 <= k) ->
  exists d', driver_mul d k = Ok d' /\ driver_imul d k = d' /\ constructible d' /\
    forall t, getCurrentScalarValue d' t = map_result (fun v => k * v) (getCurrentScalarValue d t).
Proof.
  intros H Hk. eexists; split; [apply mul_is_imul, H|]. split; [reflexivity|]. split.
  - apply constructible_iff in H. apply constructible_iff. destruct d; exact H.
  - intros t. apply imul_value, Hk.
Qed.

Lemma mul_posine_negative : exists d k t, constructible d /\ d_update d = posine /\
  getCurrentScalarValue (driver_imul d k) t <> map_result (fun v => k * v) (getCurrentScalarValue d t).
Proof.
  exists (SD posine 0 1 0 (PI/2) 0 0 0 0 0 0), (-1), 0. split; [|split; [reflexivity|]].
  - apply constructible_iff. cbn. split; discriminate.
  - cbn -[sin PI]. replace (2 * PI * 0 * 0 + PI / 2) with (PI / 2) by ring. rewrite sin_PI2.
    intros E; injection E. unfold Rabs. repeat destruct Rcase_abs; lra.
Qed.

(** Value of [d] decomposed over its unit waveform. *)
Lemma linear_decompose d t : amplitude_linear (d_update d) -> d_update d <> constant ->
  getCurrentScalarValue d t =
  map_result (fun w => d_const d + d_amp d * w) (getCurrentScalarValue (unit_wave d) t).
Proof.
  destruct d as [u c a f ph per cyc ts te e s]. unfold unit_wave, getCurrentScalarValue.
  cbn [d_update d_const d_amp d_freq d_phase d_period d_cycle d_tstart d_tstop d_edge d_steady].
  intros [H1 H2] H3. 
  assert (E : a = 1 * a) by ring.
  destruct u; try congruence.
  - rewrite E at 1. rewrite pulseTrain_scale. case_map.
  - cbn; f_equal; ring.
  - cbn. unfold stepUpdate. destruct Rle_dec; [destruct Rle_dec|]; f_equal; ring.
  - rewrite E at 1. rewrite trapezoid_scale. case_map.
  - rewrite E at 1. rewrite gaussImpulse_scale. case_map.
  - rewrite E at 1. rewrite gaussStep_scale. case_map.
Qed.

Lemma add_value d v : constructible d ->
  exists d', driver_add d v = Ok d' /\ driver_iadd d v = d' /\
   forall t,
    (d_update d = constant ->
       getCurrentScalarValue d' t = map_result (fun x => x + v) (getCurrentScalarValue d t)) /\
    (d_update d <> constant -> amplitude_linear (d_update d) ->
       forall x w, getCurrentScalarValue d t = Ok x -> getCurrentScalarValue (unit_wave d) t = Ok w ->
       getCurrentScalarValue d' t = Ok (x + v + v * w)).
Proof.
  intros H. exists (driver_iadd d v). split.
  { destruct d. unfold driver_add, driver_iadd. cbn in *. eapply mk_same_kind, H. }
  split; [reflexivity|]. intros t. split.
  - intros E. destruct d; cbn in *. subst. reflexivity.
  - intros Hc Hl x w Hx Hw.
    assert (Hw' : unit_wave (driver_iadd d v) = unit_wave d) by reflexivity.
    rewrite linear_decompose by assumption. rewrite Hw', Hw. cbn [map_result].
    rewrite linear_decompose in Hx by assumption. rewrite Hw in Hx. cbn in Hx. injection Hx as <-.
    f_equal. unfold driver_iadd; cbn [d_const d_amp]. ring.
Qed.

(** ** C27 / C28 *)
Definition zero_forever (d : sdriver) : Prop := forall t, getCurrentScalarValue d t = Ok 0.
Lemma null_zero : zero_forever (slice DynNull).
Proof. intros t; reflexivity. Qed.

Lemma mask_spec (a b c : nat) d d' r : applyMask [a; b; c] d = (d', r) ->
  (r = Ok tt <-> (a <= 1 /\ b <= 1 /\ c <= 1)%nat) /\
  (~ (a <= 1 /\ b <= 1 /\ c <= 1)%nat -> exists msg, r = Err (Throw msg)) /\
  (a = 0%nat -> forall t, getCurrentScalarValue (ax0 d') t = Ok 0) /\ (a <> 0%nat -> ax0 d' = ax0 d) /\
  ((a <= 1)%nat -> b = 0%nat -> forall t, getCurrentScalarValue (ax1 d') t = Ok 0) /\
  (((1 < a)%nat \/ b <> 0%nat) -> ax1 d' = ax1 d) /\
  ((a <= 1)%nat -> (b <= 1)%nat -> c = 0%nat -> forall t, getCurrentScalarValue (ax2 d') t = Ok 0) /\
  (((1 < a)%nat \/ (1 < b)%nat \/ c <> 0%nat) -> ax2 d' = ax2 d).
Proof.
  unfold applyMask. cbn [length Nat.eqb applyMask_from]. unfold bind, modify, fail, ret.
  destruct a as [|[|a]], b as [|[|b]], c as [|[|c]]; cbn; intros E; injection E as <- <-; cbn;
    (split; [split; [intros; try discriminate; lia|intros; try reflexivity; lia]|]);
    (split; [intros; try lia; eexists; reflexivity|]);
    repeat split; intros; try lia; try reflexivity.
Qed.

Lemma to_unsigned_nat (n : nat) x : INR n <= x < INR n + 1 -> INR n + 1 <= 4294967296 -> to_unsigned x = Ok n.
Proof.
  intros H H2. unfold to_unsigned. assert (H0 := pos_INR n).
  destruct (Rlt_dec (-1) x); [|lra]. destruct (Rlt_dec x 4294967296); [|lra].
  rewrite (@ztrunc_nonneg x (Z.of_nat n)); [|lia|rewrite <- INR_IZR_INZ; exact H]. rewrite Nat2Z.id; reflexivity.
Qed.
Lemma maskvec_spec (a b c : nat) x y z d :
  INR a <= x < INR a + 1 -> INR b <= y < INR b + 1 -> INR c <= z < INR c + 1 ->
  INR a + 1 <= 4294967296 -> INR b + 1 <= 4294967296 -> INR c + 1 <= 4294967296 ->
  applyMaskVec (CV x y z) d = applyMask [a; b; c] d.
Proof.
  intros. unfold applyMaskVec, bind, lift. cbn [cx cy cz].
  rewrite (@to_unsigned_nat a), (@to_unsigned_nat b), (@to_unsigned_nat c) by assumption. reflexivity.
Qed.

Lemma axial_slices x y z t :
  getCurrentAxialDrivers (mkAxial x y z) t =
  rbind (getCurrentScalarValue (slice x) t) (fun a =>
  rbind (getCurrentScalarValue (slice y) t) (fun b =>
  rbind (getCurrentScalarValue (slice z) t) (fun c => Ok (CV a b c)))).
Proof. reflexivity. Qed.

Lemma axial_plain x y z t vx vy vz :
  (forall f b, x <> DynUser f b) -> (forall f b, y <> DynUser f b) -> (forall f b, z <> DynUser f b) ->
  dyn_value x t = Ok vx -> dyn_value y t = Ok vy -> dyn_value z t = Ok vz ->
  getCurrentAxialDrivers (mkAxial x y z) t = Ok (CV vx vy vz).
Proof.
  intros Hx Hy Hz Ex Ey Ez. rewrite axial_slices.
  assert (S : forall d v, (forall f b, d <> DynUser f b) -> dyn_value d t = Ok v ->
              getCurrentScalarValue (slice d) t = Ok v).
  { intros [d| |f b] v Hd E; [exact E|exact E|exfalso; exact (Hd f b eq_refl)]. }
  rewrite (S x vx), (S y vy), (S z vz) by assumption. reflexivity.
Qed.

Lemma user_override_ignored f g base y z t :
  getCurrentAxialDrivers (mkAxial (DynUser f base) y z) t = getCurrentAxialDrivers (mkAxial (DynUser g base) y z) t.
Proof. reflexivity. Qed.
Lemma user_default_is_zero f y z t v :
  getCurrentAxialDrivers (mkAxial (DynUser f default_driver) y z) t = Ok v -> cx v = 0.
Proof.
  rewrite axial_slices. cbn [slice]. change (getCurrentScalarValue default_driver t) with (Ok 0).
  cbn [rbind]. destruct (getCurrentScalarValue (slice y) t); [|discriminate]. cbn [rbind].
  destruct (getCurrentScalarValue (slice z) t); [|discriminate]. cbn. intros E; injection E as <-. reflexivity.
Qed.

Lemma uniaxial d t v : getCurrentScalarValue d t = Ok v ->
  getCurrentAxialDrivers (getUniAxialDriver d xaxis) t = Ok (CV v 0 0) /\
  getCurrentAxialDrivers (getUniAxialDriver d yaxis) t = Ok (CV 0 v 0) /\
  getCurrentAxialDrivers (getUniAxialDriver d zaxis) t = Ok (CV 0 0 v) /\
  getCurrentAxialDrivers (getUniAxialDriver d all_axes) t = Ok (CV v v v) /\
  getCurrentAxialDrivers (getUniAxialDriver d none_axis) t = Ok (CV 0 0 0).
Proof.
  intros E. unfold getUniAxialDriver. rewrite !axial_slices. cbn [slice].
  change (getCurrentScalarValue default_driver t) with (Ok 0). rewrite E. cbn [rbind]. auto.
Qed.
Lemma axial_const v : exists d, axial_of_vec v = Ok d /\
  (forall t, getCurrentAxialDrivers d t = Ok v) /\ getConstantValues d = v.
Proof. destruct v. eexists; split; [reflexivity|]. split; reflexivity. Qed.
Lemma axial_list l : (forall x y z, l = [x; y; z] -> axial_of_list l = Ok (AX x y z)) /\
  (length l <> 3%nat -> exists msg, axial_of_list l = Err (Throw msg)).
Proof.
  split; [intros x y z ->; reflexivity|]. intros H.
  destruct l as [|a [|b [|c [|]]]]; cbn in *; try (eexists; reflexivity). lia.
Qed.
Lemma unit_axis_spec d : let u := getUnitAxis d in let c := getConstantValues d in
  (cx c = cx u * Rabs (cx c) /\ (cx u = 1 \/ cx u = -1 \/ cx u = 0)) /\
  (cy c = cy u * Rabs (cy c) /\ (cy u = 1 \/ cy u = -1 \/ cy u = 0)) /\
  (cz c = cz u * Rabs (cz c) /\ (cz u = 1 \/ cz u = -1 \/ cz u = 0)).
Proof.
  assert (H : forall x, x = unit_component x * Rabs x /\
     (unit_component x = 1 \/ unit_component x = -1 \/ unit_component x = 0)).
  { intros x. unfold unit_component. destruct (Req_EM_T x 0) as [->|H]; [split; [ring|auto]|].
    assert (Rabs x <> 0) by (apply Rabs_no_R0, H).
    split; [field; assumption|]. unfold Rabs in *. destruct (Rcase_abs x); [right; left|left]; field; lra. }
  cbn. auto.
Qed.

(** ** Extras *)
Lemma phase_shift_value d p t c a f ph : getSineDriver c a f ph = Ok d ->
  getCurrentScalarValue (phaseShift d p) t = Ok (c + a * sin (2 * PI * f * t + ph + p)).
Proof.
  intros H. apply mk_fields in H. subst d. cbn -[sin PI]. do 4 f_equal. ring.
Qed.
Lemma phase_shift_whole d p t k : d_update d = sine \/ d_update d = posine \/ d_update d = halfsine ->
  p = 2 * INR k * PI ->
  getCurrentScalarValue (phaseShift d p) t = getCurrentScalarValue d t.
Proof.
  intros H ->. destruct d as [u c a f ph per cyc ts te e s]. unfold phaseShift, getCurrentScalarValue.
  cbn [d_update d_const d_amp d_freq d_phase d_period d_cycle d_tstart d_tstop d_edge d_steady] in *.
  replace (2 * PI * t * f + (ph + 2 * INR k * PI)) with ((2 * PI * t * f + ph) + 2 * INR k * PI) by ring.
  rewrite sin_period. destruct H as [->|[->| ->]]; reflexivity.
Qed.

Lemma user_override_example :
  dyn_value (DynUser (fun _ => Ok 5) default_driver) 1 = Ok 5 /\
  getCurrentAxialDrivers (mkAxial (DynUser (fun _ => Ok 5) default_driver) DynNull DynNull) 1 = Ok (CV 0 0 0).
Proof. split; reflexivity. Qed.
Lemma mask_example :
  exists x y z, getConstantDriver 1 = Ok x /\ getConstantDriver 2 = Ok y /\ getConstantDriver 3 = Ok z /\
  getCurrentAxialDrivers (fst (applyMask [1; 0; 1]%nat (AX x y z))) 7 = Ok (CV 1 0 3).
Proof. do 3 eexists. repeat split; reflexivity. Qed.
Lemma sine_add_example : exists d d', getSineDriver 1 2 3 0 = Ok d /\ driver_add d 1 = Ok d' /\
   getCurrentScalarValue d' (1 / 12) = Ok 5 /\ getCurrentScalarValue d (1 / 12) = Ok 3.
Proof.
  assert (E : forall x c a, x = PI / 2 -> c + a * sin x = c + a) by (intros; subst; rewrite sin_PI2; ring).
  eexists; eexists; split; [|split].
  - unfold getSineDriver, mkScalarDriver. cbn [update_eqb andb].
    replace (Reqb 3 (-1)) with false by (symmetry; apply Reqb_false; lra). reflexivity.
  - unfold driver_add, mkScalarDriver. cbn [update_eqb andb d_update d_freq].
    replace (Reqb 3 (-1)) with false by (symmetry; apply Reqb_false; lra). reflexivity.
  - cbn [getCurrentScalarValue d_update d_const d_amp d_freq d_phase].
    split; f_equal; rewrite E by field; lra.
Qed.
