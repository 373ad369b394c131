(** Properties C77 (line shapes), C78 (analytic drivers), C79 (detrending). *)
From Verif Require Import P_Detrend.
Open Scope R_scope.
Open Scope st_scope.

(** C77: the symmetric line, its peak and its half width. *)
Theorem c77_symmetric : forall H dH Hr Vs v, symmetric_lorentz H dH Hr Vs = Ok v <-> (dH <> 0 \/ H <> Hr) /\ v * ((H - Hr) ^ 2 + dH ^ 2) = Vs * dH ^ 2.
Proof. exact sym_iff. Qed.
Example c77_symmetric_ex : symmetric_lorentz 3 1 2 4 = Ok 2.
Proof. apply c77_symmetric. split; [left; lra|lra]. Qed.
Theorem c77_antisymmetric : forall H dH Hr Vas v, antisymmetric_lorentz H dH Hr Vas = Ok v <-> (dH <> 0 \/ H <> Hr) /\ v * ((H - Hr) ^ 2 + dH ^ 2) = Vas * dH * (H - Hr).
Proof. exact anti_iff. Qed.
Example c77_antisymmetric_ex : antisymmetric_lorentz 1 1 2 4 = Ok (-2).
Proof. apply c77_antisymmetric. split; [left; lra|lra]. Qed.
Theorem c77_mixed : forall H dH Hr Va Vas v, mixed_lorentz H dH Hr Va Vas = Ok v <->
  (dH <> 0 \/ H <> Hr) /\ v * ((H - Hr) ^ 2 + dH ^ 2) = Va * dH ^ 2 + Vas * dH * (H - Hr).
Proof. exact mixed_iff. Qed.
Example c77_mixed_ex : mixed_lorentz 3 1 2 4 2 = Ok 3.
Proof. apply c77_mixed. split; [left; lra|lra]. Qed.
Theorem c77_peak : forall H dH Hr Vs v, dH <> 0 -> 0 < Vs -> symmetric_lorentz H dH Hr Vs = Ok v -> 0 < v <= Vs /\ (v = Vs <-> H = Hr).
Proof. exact sym_peak. Qed.
Theorem c77_half_width : forall H dH Hr Vs v, dH <> 0 -> Vs <> 0 -> symmetric_lorentz H dH Hr Vs = Ok v -> (v = Vs / 2 <-> Rabs (H - Hr) = Rabs dH).
Proof. exact sym_half. Qed.
Theorem c77_dispersion_bound : forall H dH Hr Vas v, dH <> 0 -> antisymmetric_lorentz H dH Hr Vas = Ok v -> Rabs v <= Rabs Vas / 2 /\
  (Vas <> 0 -> (Rabs v = Rabs Vas / 2 <-> Rabs (H - Hr) = Rabs dH)) /\ (Vas <> 0 -> (v = 0 <-> H = Hr)).
Proof. exact anti_bound. Qed.
(** C77: parity about the resonance field. *)
Theorem c77_even : forall x dH Hr Vs, symmetric_lorentz (Hr + x) dH Hr Vs = symmetric_lorentz (Hr - x) dH Hr Vs.
Proof. exact sym_even. Qed.
Theorem c77_odd : forall x dH Hr Vas v, antisymmetric_lorentz (Hr + x) dH Hr Vas = Ok v -> antisymmetric_lorentz (Hr - x) dH Hr Vas = Ok (- v).
Proof. exact anti_odd. Qed.
Theorem c77_circle : forall H dH Hr V s a, symmetric_lorentz H dH Hr V = Ok s -> antisymmetric_lorentz H dH Hr V = Ok a -> s ^ 2 + a ^ 2 = V * s.
Proof. exact circle. Qed.
Example c77_circle_ex : symmetric_lorentz 3 1 2 4 = Ok 2 /\ antisymmetric_lorentz 3 1 2 4 = Ok 2.
Proof. split; [apply c77_symmetric|apply c77_antisymmetric]; (split; [left; lra|lra]). Qed.
(** C77: a fit is unique up to the common sign of the width and the antisymmetric amplitude. *)
Theorem c77_identifiable : forall dH Hr Va Vas dH' Hr' Va' Vas', dH <> 0 -> dH' <> 0 -> Va <> 0 \/ Vas <> 0 ->
  ((forall H, mixed_lorentz H dH Hr Va Vas = mixed_lorentz H dH' Hr' Va' Vas') <->
   Hr' = Hr /\ Va' = Va /\ (dH' = dH /\ Vas' = Vas \/ dH' = - dH /\ Vas' = - Vas)).
Proof. exact identify. Qed.
Example c77_identifiable_ex : forall H, mixed_lorentz H 1 2 3 4 = mixed_lorentz H (-1) 2 3 (-4).
Proof. apply c77_identifiable; [lra|lra|lra|]. split; [reflexivity|]. split; [reflexivity|]. right. lra. Qed.
(** C77: the angular model. *)
Theorem c77_meinert : forall phi V1 V2 po off, meinert_model phi V1 V2 po off =
  (V1 * (2 * cos ((phi - po) * (PI / 180)) ^ 2 - 1) - V2) * cos ((phi - po) * (PI / 180)) + off.
Proof. exact meinert_cos. Qed.
Theorem c77_meinert_symmetry : forall phi x V1 V2 po off, meinert_model (po + x) V1 V2 po off = meinert_model (po - x) V1 V2 po off /\
  meinert_model (phi + 180) V1 V2 po off - off = - (meinert_model phi V1 V2 po off - off) /\ meinert_model (phi + 360) V1 V2 po off = meinert_model phi V1 V2 po off.
Proof. intros. split; [apply meinert_even|]. split; [apply meinert_half|apply meinert_period]. Qed.
Theorem c77_meinert_identifiable : forall V1 V2 off V1' V2' off' po, (forall phi, meinert_model phi V1 V2 po off = meinert_model phi V1' V2' po off') -> V1' = V1 /\ V2' = V2 /\ off' = off.
Proof. exact meinert_identify. Qed.

(** C78: the analytic drivers. *)
Theorem c78_constant : forall t amp, constant_driver_py t amp = amp.
Proof. reflexivity. Qed.
Theorem c78_sine : forall t amp w ph, sine_driver_py t amp w ph = amp * sin (w * t + ph) /\ (w <> 0 -> sine_driver_py (t + 2 * PI / w) amp w ph = sine_driver_py t amp w ph).
Proof. intros. split; [reflexivity|apply sine_period]. Qed.
Theorem c78_decay : forall t amp tau v, decay_driver t amp tau = Ok v <-> tau <> 0 /\ v = amp * exp (- t / tau).
Proof. exact decay_iff. Qed.
Theorem c78_decay_time : forall t amp tau v w, decay_driver t amp tau = Ok v -> decay_driver (t + tau) amp tau = Ok w -> w * exp 1 = v.
Proof. exact decay_step. Qed.
Example c78_decay_time_ex : exists v w, decay_driver 0 3 2 = Ok v /\ decay_driver (0 + 2) 3 2 = Ok w.
Proof. exists (3 * exp (- 0 / 2)), (3 * exp (- (0 + 2) / 2)). split; apply c78_decay; split; try lra; reflexivity. Qed.
Theorem c78_gaussian : forall t amp s v, gaussian_driver t amp s = Ok v <-> s <> 0 /\ v = amp * exp (- (t / s) ^ 2).
Proof. exact gaussian_iff. Qed.
Theorem c78_gaussian_peak : forall t amp s v, 0 < amp -> gaussian_driver t amp s = Ok v -> 0 < v <= amp /\ (v = amp <-> t = 0).
Proof. exact gaussian_peak. Qed.
Example c78_gaussian_ex : gaussian_driver 0 3 2 = Ok 3.
Proof. apply c78_gaussian. split; [lra|]. replace (- (0 / 2) ^ 2) with 0 by field. rewrite exp_0. ring. Qed.
(** C78: the frequency is not in hertz, sigma is not a standard deviation. *)
Theorem c78_hertz_refuted : ~ (forall t amp f ph, f <> 0 -> sine_driver_py (t + 1 / f) amp f ph = sine_driver_py t amp f ph).
Proof.
  intros H. specialize (H 0 1 1 0 ltac:(lra)). unfold sine_driver_py in H. replace (1 * (0 + 1 / 1) + 0) with 1 in H by field. replace (1 * 0 + 0) with 0 in H by ring.
  rewrite sin_0 in H. assert (0 < sin 1) by (apply sin_gt_0; [lra|]; assert (X := PI_4); assert (Y := PI2_1); lra). lra.
Qed.
Theorem c78_deviation_refuted : ~ (forall amp s v, gaussian_driver s amp s = Ok v -> v = amp * exp (- (1 / 2))).
Proof.
  intros H. assert (E : gaussian_driver 1 1 1 = Ok (1 * exp (- (1 / 1) ^ 2))) by (apply c78_gaussian; split; [lra|reflexivity]).
  assert (X := H _ _ _ E). apply Rmult_eq_reg_l in X; [|lra]. apply exp_inv in X. lra.
Qed.

(** C79: detrending along axis 0 takes the median from each column, along axis 1 from each row. *)
Theorem c79_columns : forall arr r c out, sized arr r c -> (0 < r)%nat ->
  detrend_axis arr 0 = Ok out <-> sized out r c /\ forall j, (j < c)%nat -> exists m, median (column arr j) m /\ forall i, (i < r)%nat -> entry out i j = entry arr i j - m.
Proof. exact detrend0. Qed.
Theorem c79_rows : forall arr r c ax out, ax = 1%Z \/ ax = (-1)%Z -> sized arr r c -> (0 < r)%nat -> (0 < c)%nat ->
  detrend_axis arr ax = Ok out <-> sized out r c /\ forall i, (i < r)%nat -> exists m, median (nth i arr []) m /\ forall j, (j < c)%nat -> entry out i j = entry arr i j - m.
Proof. exact detrend1. Qed.
Theorem c79_total : forall arr r c, sized arr r c -> (0 < r)%nat -> (0 < c)%nat -> exists a b, detrend_axis arr 0 = Ok a /\ detrend_axis arr 1 = Ok b.
Proof. intros arr r c H P PC. destruct (detrend0_total H P) as (a & E). destruct (detrend1_total (or_introl eq_refl) H P PC) as (b & E'). exists a, b. split; assumption. Qed.
(** C79: the medians of the result are zero, a second call changes nothing, offsets do not matter. *)
Theorem c79_zero_medians : forall arr r c a b, sized arr r c -> (0 < r)%nat -> (0 < c)%nat -> detrend_axis arr 0 = Ok a -> detrend_axis arr 1 = Ok b ->
  (forall j, (j < c)%nat -> median (column a j) 0) /\ (forall i, (i < r)%nat -> median (nth i b []) 0).
Proof. intros arr r c a b H P PC E E'. split; [intros j; apply (zero_columns H P E)|intros i; apply (zero_rows (or_introl eq_refl) H PC E')]. Qed.
Theorem c79_idempotent : forall arr r c a b, sized arr r c -> (0 < r)%nat -> (0 < c)%nat -> detrend_axis arr 0 = Ok a -> detrend_axis arr 1 = Ok b ->
  detrend_axis a 0 = Ok a /\ detrend_axis b 1 = Ok b.
Proof. intros arr r c a b H P PC E E'. split; [apply (detrend0_again H P E)|apply (detrend1_again (or_introl eq_refl) H P PC E')]. Qed.
Theorem c79_offsets : forall arr brr r c k l, sized arr r c -> sized brr r c -> (0 < r)%nat -> (0 < c)%nat ->
  ((forall i j, (i < r)%nat -> (j < c)%nat -> entry brr i j = entry arr i j + k j) -> detrend_axis brr 0 = detrend_axis arr 0) /\
  ((forall i j, (i < r)%nat -> (j < c)%nat -> entry brr i j = entry arr i j + l i) -> detrend_axis brr 1 = detrend_axis arr 1).
Proof. intros arr brr r c k l H H' P PC. split; intros Q; [apply (detrend0_offsets k H H' P Q)|apply (detrend1_offsets l (or_introl eq_refl) H H' P PC Q)]. Qed.
Example c79_columns_ex : sized ex_square 2 2 /\ detrend_axis ex_square 0 = Ok [[-1; -1]; [1; 1]].
Proof. split; [exact ex_square_sized|exact ex_square_0]. Qed.
(** C79: the other axis numbers. *)
Theorem c79_other_axis : forall arr ax out, ~ In ax [0; 1; -1; -2]%Z -> detrend_axis arr ax <> Ok out.
Proof. exact detrend_bad_axis. Qed.
Theorem c79_axis_minus_two : forall arr r c out, sized arr r c -> (1 < r)%nat -> (1 < c)%nat -> detrend_axis arr (-2) = Ok out <->
  r = c /\ sized out r c /\ forall i, (i < r)%nat -> exists m, median (column arr i) m /\ forall j, (j < c)%nat -> entry out i j = entry arr i j - m.
Proof. exact detrend_minus_two. Qed.
Theorem c79_negative_axis_refuted : ~ (forall arr r c, sized arr r c -> detrend_axis arr (-2) = detrend_axis arr 0).
Proof. intros H. specialize (H _ _ _ ex_square_sized). rewrite ex_square_0, ex_square_minus in H. injection H as H _. lra. Qed.
Print Assumptions c77_symmetric.
Print Assumptions c77_antisymmetric.
Print Assumptions c77_mixed.
Print Assumptions c77_peak.
Print Assumptions c77_half_width.
Print Assumptions c77_dispersion_bound.
Print Assumptions c77_even.
Print Assumptions c77_odd.
Print Assumptions c77_circle.
Print Assumptions c77_identifiable.
Print Assumptions c77_meinert.
Print Assumptions c77_meinert_symmetry.
Print Assumptions c77_meinert_identifiable.
Print Assumptions c78_constant.
Print Assumptions c78_sine.
Print Assumptions c78_decay.
Print Assumptions c78_decay_time.
Print Assumptions c78_gaussian.
Print Assumptions c78_gaussian_peak.
Print Assumptions c78_hertz_refuted.
Print Assumptions c78_deviation_refuted.
Print Assumptions c79_columns.
Print Assumptions c79_rows.
Print Assumptions c79_total.
Print Assumptions c79_zero_medians.
Print Assumptions c79_idempotent.
Print Assumptions c79_offsets.
Print Assumptions c79_other_axis.
Print Assumptions c79_axis_minus_two.
Print Assumptions c79_negative_axis_refuted.
