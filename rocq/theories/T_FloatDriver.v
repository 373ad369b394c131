(** C83: pulse and step drivers in binary64 arithmetic. *)
From Verif Require Import P_FloatDriver.
Open Scope R_scope.

(** The exact outcome for finite arguments without overflow. *)
Theorem c83_exact (a t p c v : b64) : is_finite t = true -> is_finite p = true -> is_finite c = true -> B2R p <> 0 ->
  let N := whole_steps (B2R t) (B2R p) in
  let start := nearest_double (IZR N * B2R p) in let stop := nearest_double (start + nearest_double (B2R c * B2R p)) in
  Rabs (nearest_double (B2R c * B2R p)) < bpow radix2 1024 -> Rabs start < bpow radix2 1024 -> Rabs stop < bpow radix2 1024 ->
  pulse64 a t p c = Ok v <-> (- 2 ^ 31 <= N < 2 ^ 31)%Z /\ ((start <= B2R t <= stop /\ v = a) \/ (~ (start <= B2R t <= stop) /\ v = b64_zero)).
Proof. exact (pulse_iff a t p c v). Qed.
(** Beyond the range of int the cast is undefined. *)
Theorem c83_far (a t p c : b64) : is_finite t = true -> is_finite p = true -> B2R p <> 0 -> ~ (- 2 ^ 31 <= whole_steps (B2R t) (B2R p) < 2 ^ 31)%Z -> pulse64 a t p c = Err Undefined.
Proof. exact (pulse_far a t p c). Qed.
(** Away from the edges the pulse is the ideal one. *)
Theorem c83_off_edges (k a t p c : b64) : is_finite k = true -> is_finite a = true -> is_finite t = true -> is_finite p = true -> is_finite c = true -> Rabs (nearest_double (B2R k + B2R a)) < bpow radix2 1024 ->
  bpow radix2 (-1022) <= B2R p <= bpow radix2 1022 -> 0 <= B2R t <= bpow radix2 1022 -> 0 <= B2R c <= 1 -> B2R t / B2R p < 2147483648 -> off_edges (B2R t) (B2R p) (B2R c) ->
  exists v, pulse_value64 k a t p c = Ok v /\ (phase_of (B2R t) (B2R p) < B2R c -> represents v (nearest_double (B2R k + B2R a))) /\ (B2R c < phase_of (B2R t) (B2R p) -> represents v (B2R k)).
Proof. exact (pulse_value k a t p c). Qed.
Theorem c83_agrees (a t p c : b64) : is_finite a = true -> is_finite t = true -> is_finite p = true -> is_finite c = true -> bpow radix2 (-1022) <= B2R p <= bpow radix2 1022 -> 0 <= B2R t <= bpow radix2 1022 -> 0 <= B2R c <= 1 ->
  B2R t / B2R p < 2147483648 -> off_edges (B2R t) (B2R p) (B2R c) ->
  exists v w, pulse64 a t p c = Ok v /\ M_Drivers.pulseTrain (B2R a) (B2R t) (B2R p) (B2R c) = Ok w /\ represents v w.
Proof. exact (pulse_agrees a t p c). Qed.
(** The step driver only compares, so it is the exact one. *)
Theorem c83_step (a t t0 t1 : b64) : is_finite a = true -> is_finite t = true -> is_finite t0 = true -> is_finite t1 = true -> represents (step64 a t t0 t1) (M_Drivers.stepUpdate (B2R a) (B2R t) (B2R t0) (B2R t1)).
Proof. exact (step_agrees a t t0 t1). Qed.
Theorem c83_step_value (k a t t0 t1 : b64) : is_finite k = true -> is_finite a = true -> is_finite t = true -> is_finite t0 = true -> is_finite t1 = true -> Rabs (nearest_double (B2R k + B2R a)) < bpow radix2 1024 ->
  (B2R t0 <= B2R t <= B2R t1 -> represents (step_value64 k a t t0 t1) (nearest_double (B2R k + B2R a))) /\ (~ (B2R t0 <= B2R t <= B2R t1) -> represents (step_value64 k a t t0 t1) (B2R k)).
Proof.
  intros FK FA F F0 F1 NO. destruct (step_iff a t t0 t1 F F0 F1) as [I O]. unfold step_value64. split; intros H; [rewrite (I H); apply plus_value; assumption|rewrite (O H); apply plus_zero, FK].
Qed.
(** With duty cycle 1 the pulse train should be constant; on the grid of a run with step 1e-13 and period 1e-9 it drops to zero in iteration 30000. *)
Theorem c83_full_duty_refuted : ~ forall (a t p : b64), is_finite a = true -> is_finite t = true -> is_finite p = true -> 0 < B2R p -> 0 <= B2R t -> B2R t / B2R p < 2147483648 -> pulse64 a t p (b64_of_Z 1) = Ok a.
Proof.
  intros H. set (t := b64_mult (b64_of_Z 30000) (literal 1 13)) in *. assert (F : is_finite t = true) by (vm_compute; reflexivity).
  destruct (literal_value 1 9 ltac:(lia) ltac:(lia)) as [FP VP]. destruct (of_Z_value 1 ltac:(lia)) as [FA VA].
  assert (PP : 0 < B2R (literal 1 9)). { assert (B : Bltb b64_zero (literal 1 9) = true) by (vm_compute; reflexivity). rewrite (Bltb_correct 53 1024 b64_zero (literal 1 9) eq_refl FP) in B. destruct (Rlt_bool_spec (B2R b64_zero) (B2R (literal 1 9))) as [L|L]; [exact L|discriminate]. }
  assert (PT : 0 <= B2R t). { assert (B : Bleb b64_zero t = true) by (vm_compute; reflexivity). rewrite (Bleb_correct 53 1024 b64_zero t eq_refl F) in B. destruct (Rle_bool_spec (B2R b64_zero) (B2R t)) as [L|L]; [exact L|discriminate]. }
  assert (Q : B2R t / B2R (literal 1 9) < 2147483648).
  { destruct (mult_value (b64_of_Z 4) (literal 1 9)) as [F4 V4]; [vm_compute; reflexivity|exact FP| |].
    - rewrite (proj2 (of_Z_value 4 ltac:(lia))). apply Rle_lt_trans with (IZR 4); [|apply Rlt_trans with (bpow radix2 3); [change (bpow radix2 3) with 8; lra|apply bpow_lt; lia]].
      assert (L1 : B2R (literal 1 9) <= 1). { assert (B : Bleb (literal 1 9) (b64_of_Z 1) = true) by (vm_compute; reflexivity). rewrite (Bleb_correct 53 1024 _ _ FP FA) in B. destruct (Rle_bool_spec (B2R (literal 1 9)) (B2R (b64_of_Z 1))) as [L|L]; [rewrite VA in L; exact L|discriminate]. }
      rewrite Rabs_pos_eq by (rewrite <- rnd_0; apply rnd_le; lra). rewrite <- (rnd_Z 4) at 2 by lia. apply rnd_le. lra.
    - assert (B : Bleb t (b64_mult (b64_of_Z 4) (literal 1 9)) = true) by (vm_compute; reflexivity). rewrite (Bleb_correct 53 1024 _ _ F F4) in B. destruct (Rle_bool_spec (B2R t) (B2R (b64_mult (b64_of_Z 4) (literal 1 9)))) as [L|L]; [|discriminate].
      rewrite V4, (proj2 (of_Z_value 4 ltac:(lia))) in L. assert (E := abs_error (B2R (literal 1 9)) (IZR 4 * B2R (literal 1 9))). assert (N : bpow radix2 (-1022) <= B2R (literal 1 9)).
      { rewrite VP, <- (rnd_id (bpow radix2 (-1022))); [|replace (bpow radix2 (-1022)) with (IZR 1 * bpow radix2 (-1022)) by ring; apply format_scaled; lia]. apply rnd_le. apply (Rle_trans _ _ _ normal_13). unfold Rdiv. rewrite !Rmult_1_l. apply Rinv_le_contravar; [apply IZR_lt|apply IZR_le]; lia. }
      specialize (E N). rewrite (Rabs_pos_eq (IZR 4 * B2R (literal 1 9))) in E by lra. apply Rabs_le_inv in E. rewrite u53_val in E. apply (Rmult_lt_reg_r (B2R (literal 1 9))); [exact PP|]. replace (B2R t / B2R (literal 1 9) * B2R (literal 1 9)) with (B2R t) by (field; lra). lra. }
  specialize (H (b64_of_Z 1) t (literal 1 9) FA F FP PP PT Q). assert (C : ok_with (fun v => Beqb v b64_zero) (pulse64 (b64_of_Z 1) t (literal 1 9) (b64_of_Z 1)) = true) by (vm_compute; reflexivity).
  rewrite H in C. vm_compute in C. discriminate.
Qed.
(** The rising edge of decimal periods: at 3e-9 with period 1e-9 and duty 0.5 the pulse is off. *)
Theorem c83_rising_edge_refuted : ~ forall n d (a c : b64), bpow radix2 (-1022) <= d -> (0 < n < 2 ^ 31)%Z -> 0 < B2R c -> forall t p : b64, represents t (nearest_double (IZR n * d)) -> represents p (nearest_double d) -> pulse64 a t p c = Ok a.
Proof.
  intros H. specialize (H 3%Z (1 / IZR (10 ^ 9)) (b64_of_Z 1) (literal 5 1)). assert (FC := literal_value 5 1 ltac:(lia) ltac:(lia)).
  assert (PC : 0 < B2R (literal 5 1)). { assert (B : Bltb b64_zero (literal 5 1) = true) by (vm_compute; reflexivity). rewrite (Bltb_correct 53 1024 b64_zero (literal 5 1) eq_refl (proj1 FC)) in B. destruct (Rlt_bool_spec (B2R b64_zero) (B2R (literal 5 1))) as [L|L]; [exact L|discriminate]. }
  assert (N : bpow radix2 (-1022) <= 1 / IZR (10 ^ 9)). { apply (Rle_trans _ _ _ normal_13). unfold Rdiv. rewrite !Rmult_1_l. apply Rinv_le_contravar; [apply IZR_lt|apply IZR_le]; lia. }
  specialize (H N ltac:(lia) PC (literal 3 9) (literal 1 9)). assert (V := literal_value 3 9 ltac:(lia) ltac:(lia)). replace (IZR 3 / IZR (10 ^ 9)) with (IZR 3 * (1 / IZR (10 ^ 9))) in V by (unfold Rdiv; ring).
  specialize (H V (literal_value 1 9 ltac:(lia) ltac:(lia))). assert (C : ok_with (fun v => Beqb v b64_zero) (pulse64 (b64_of_Z 1) (literal 3 9) (literal 1 9) (literal 5 1)) = true) by (vm_compute; reflexivity).
  rewrite H in C. vm_compute in C. discriminate.
Qed.

(** Examples. *)
Example c83_off_example : off_edges (1 / 4) 1 (1 / 2) /\ phase_of (1 / 4) 1 < 1 / 2.
Proof.
  assert (Z : Zfloor (1 / 4 / 1) = 0%Z) by (apply Zfloor_imp; cbn; lra). unfold off_edges, phase_of, edge_slack. rewrite Z, pow50, u53_val. split; [|lra]. split; [lra|]. rewrite Rabs_left by lra. lra.
Qed.
Example c83_off_doubles : is_finite (literal 25 2) = true /\ B2R (literal 25 2) = 1 / 4 /\ B2R (b64_of_Z 1) = 1 /\ B2R (literal 5 1) = 1 / 2.
Proof.
  split; [vm_compute; reflexivity|]. rewrite (proj2 (literal_value 25 2 ltac:(lia) ltac:(lia))), (proj2 (literal_value 5 1 ltac:(lia) ltac:(lia))), (proj2 (of_Z_value 1 ltac:(lia))). repeat split.
  - rewrite rnd_id; [cbn; lra|]. replace (25 / IZR (10 ^ 2)) with (IZR 1 * bpow radix2 (-2)) by (cbn; lra). apply format_scaled; lia.
  - rewrite rnd_id; [cbn; lra|]. replace (5 / IZR (10 ^ 1)) with (IZR 1 * bpow radix2 (-1)) by (cbn; lra). apply format_scaled; lia.
Qed.
Example c83_on_example : ok_with (fun v => Beqb v (b64_of_Z 7)) (pulse64 (b64_of_Z 7) (literal 25 2) (b64_of_Z 1) (literal 5 1)) = true /\ ok_with (fun v => Beqb v b64_zero) (pulse64 (b64_of_Z 7) (literal 75 2) (b64_of_Z 1) (literal 5 1)) = true.
Proof. split; vm_compute; reflexivity. Qed.
Example c83_far_example : cast_int (b64_of_Z (2 ^ 31)) = Err Undefined /\ cast_int (b64_of_Z (2 ^ 31 - 1)) = Ok (2 ^ 31 - 1)%Z /\ cast_int (b64_of_Z (- 2 ^ 31)) = Ok (- 2 ^ 31)%Z.
Proof. split; [|split]; vm_compute; reflexivity. Qed.
Example c83_step_example : Beqb (step64 (b64_of_Z 7) (b64_of_Z 2) (b64_of_Z 1) (b64_of_Z 2)) (b64_of_Z 7) = true /\ Beqb (step64 (b64_of_Z 7) (b64_of_Z 3) (b64_of_Z 1) (b64_of_Z 2)) b64_zero = true.
Proof. split; vm_compute; reflexivity. Qed.
Print Assumptions c83_exact.
Print Assumptions c83_far.
Print Assumptions c83_off_edges.
Print Assumptions c83_agrees.
Print Assumptions c83_step.
Print Assumptions c83_step_value.
Print Assumptions c83_full_duty_refuted.
Print Assumptions c83_rising_edge_refuted.
