(** C84: counts rounded up from binary64 quotients: Oersted blocks, numpy.arange and the noise plot's time axis. *)
From Verif Require Import P_FloatCount.
Open Scope R_scope.

(** The block counts of a Structure for finite arguments. *)
Theorem c84_counts (X Y Z dx dy dz : b64) n : is_finite X = true -> is_finite Y = true -> is_finite Z = true -> is_finite dx = true -> is_finite dy = true -> is_finite dz = true ->
  block_counts X Y Z dx dy dz = Ok n <->
  B2R dx <> 0 /\ B2R dy <> 0 /\ B2R dz <> 0 /\
  Rabs (nearest_double (B2R X / B2R dx)) < bpow radix2 1024 /\ Rabs (nearest_double (B2R Y / B2R dy)) < bpow radix2 1024 /\ Rabs (nearest_double (B2R Z / B2R dz)) < bpow radix2 1024 /\
  n = (steps_up (B2R X) (B2R dx), steps_up (B2R Y) (B2R dy), Z.max (steps_up (B2R Z) (B2R dz)) 1).
Proof. exact (counts_iff X Y Z dx dy dz n). Qed.
(** The count is the exact ceiling or, when the quotient rounds down to an integer, one less. *)
Theorem c84_bounds T dt : 0 <= T / dt < bpow radix2 52 -> (Zceil (T / dt) - 1 <= steps_up T dt <= Zceil (T / dt))%Z /\ (steps_up T dt = Zceil (T / dt) - 1 -> nearest_double (T / dt) = IZR (Zceil (T / dt) - 1))%Z.
Proof. exact (up_bounds T dt). Qed.
Theorem c84_exact n T dt : dt <> 0 -> T = IZR n * dt -> (Z.abs n <= 2 ^ 53)%Z -> steps_up T dt = n.
Proof. exact (up_exact n T dt). Qed.
(** Decimal arguments: n cells of size d give n or n + 1 blocks. *)
Theorem c84_decimal n d : bpow radix2 (-1022) <= d -> (0 < n < 2 ^ 50)%Z -> steps_up (nearest_double (IZR n * d)) (nearest_double d) = n \/ steps_up (nearest_double (IZR n * d)) (nearest_double d) = (n + 1)%Z.
Proof. exact (up_decimal n d). Qed.
Lemma small_normal m e : (0 < m)%Z -> (0 <= e <= 13)%Z -> bpow radix2 (-1022) <= IZR m / IZR (10 ^ e).
Proof.
  intros M E. apply (Rle_trans _ _ _ normal_13). assert (A : 0 < IZR (10 ^ e)) by (apply IZR_lt; lia). assert (B : IZR (10 ^ e) <= IZR (10 ^ 13)) by (apply IZR_le, Z.pow_le_mono_r; lia). assert (C : 1 <= IZR m) by (apply (IZR_le 1); lia).
  unfold Rdiv. apply Rmult_le_compat; [lra|left; apply Rinv_0_lt_compat; lra|exact C|]. apply Rinv_le_contravar; assumption.
Qed.
(** 285 nm cut into cells of 5 nm gives 58 blocks. *)
Theorem c84_decimal_refuted : ~ forall n d (T dt : b64), bpow radix2 (-1022) <= d -> (0 < n < 2 ^ 50)%Z -> represents T (nearest_double (IZR n * d)) -> represents dt (nearest_double d) -> block_counts T T b64_zero dt dt dt = Ok (n, n, 1%Z).
Proof.
  intros H. specialize (H 57%Z (IZR 5 / IZR (10 ^ 9)) (literal 285 9) (literal 5 9) (small_normal 5 9 ltac:(lia) ltac:(lia)) ltac:(lia)). assert (V := literal_value 285 9 ltac:(lia) ltac:(lia)).
  replace (IZR 285 / IZR (10 ^ 9)) with (IZR 57 * (IZR 5 / IZR (10 ^ 9))) in V by (unfold Rdiv; change (IZR 285) with (IZR (57 * 5)); rewrite mult_IZR; ring). specialize (H V (literal_value 5 9 ltac:(lia) ltac:(lia))).
  assert (C : ok_with (fun v => Z.eqb (fst (fst v)) 58) (block_counts (literal 285 9) (literal 285 9) b64_zero (literal 5 9) (literal 5 9) (literal 5 9)) = true) by (vm_compute; reflexivity).
  rewrite H in C. vm_compute in C. discriminate.
Qed.
(** numpy.arange for finite arguments. *)
Theorem c84_arange (a b s : b64) l : is_finite a = true -> is_finite b = true -> is_finite s = true -> Rabs (nearest_double (B2R b - B2R a)) < bpow radix2 1024 ->
  let span := nearest_double (B2R b - B2R a) in
  arange a b s = Ok l <-> B2R s <> 0 /\ Rabs (nearest_double (span / B2R s)) < bpow radix2 1024 /\ (range_count span (B2R s) < 2 ^ 63)%Z /\ l = map (arange_element a s) (seq 0 (Z.to_nat (range_count span (B2R s)))).
Proof. exact (arange_iff a b s l). Qed.
Theorem c84_element_value (a s : b64) i : is_finite a = true -> is_finite s = true -> (2 <= Z.of_nat i <= 2 ^ 53)%Z ->
  let first := nearest_double (B2R a + B2R s) in let delta := nearest_double (first - B2R a) in let term := nearest_double (IZR (Z.of_nat i) * delta) in
  Rabs first < bpow radix2 1024 -> Rabs delta < bpow radix2 1024 -> Rabs term < bpow radix2 1024 -> Rabs (nearest_double (B2R a + term)) < bpow radix2 1024 ->
  represents (arange_element a s 0) (B2R a) /\ represents (arange_element a s 1) first /\ represents (arange_element a s i) (nearest_double (B2R a + term)).
Proof. exact (element_value a s i). Qed.
Theorem c84_element (s : b64) i : is_finite s = true -> (Z.of_nat i <= 2 ^ 53)%Z -> Rabs (nearest_double (IZR (Z.of_nat i) * B2R s)) < bpow radix2 1024 -> represents (arange_element b64_zero s i) (nearest_double (IZR (Z.of_nat i) * B2R s)).
Proof. exact (element_zero s i). Qed.
(** The time axis of plot_noise_data: k points are requested, k or k + 1 are made, and the plot is drawn exactly when there are k. *)
Theorem c84_axis_length k dt : bpow radix2 (-1022) <= dt -> (0 < k < 2 ^ 50)%Z -> steps_up (nearest_double (IZR k * dt)) dt = k \/ steps_up (nearest_double (IZR k * dt)) dt = (k + 1)%Z.
Proof. exact (fun D K => up_product k dt D K). Qed.
Theorem c84_axis k (dt : b64) l : is_finite dt = true -> bpow radix2 (-1022) <= B2R dt -> (0 < k < 2 ^ 50)%Z -> Rabs (nearest_double (IZR k * B2R dt)) < bpow radix2 1024 ->
  noise_time_axis k dt = Ok l <-> steps_up (nearest_double (IZR k * B2R dt)) (B2R dt) = k /\ l = map (arange_element b64_zero dt) (seq 0 (Z.to_nat k)).
Proof. exact (axis_iff k dt l). Qed.
(** Step counts k with an exactly representable product always work. *)
Theorem c84_axis_exact k (dt : b64) : is_finite dt = true -> bpow radix2 (-1022) <= B2R dt -> (0 < k < 2 ^ 50)%Z -> Rabs (nearest_double (IZR k * B2R dt)) < bpow radix2 1024 -> nearest_double (IZR k * B2R dt) = IZR k * B2R dt ->
  exists l, noise_time_axis k dt = Ok l /\ length l = Z.to_nat k /\ forall i, (i < Z.to_nat k)%nat -> represents (nth i l b64_zero) (nearest_double (IZR (Z.of_nat i) * B2R dt)).
Proof.
  intros F N K NO X. assert (D := off_pos _ N). eexists. split; [apply (axis_iff k dt _ F N K NO); split; [|reflexivity]|].
  - apply up_exact; [lra|exact X|lia].
  - rewrite map_length, seq_length. split; [reflexivity|]. intros i I. rewrite nth_map_seq by exact I. apply element_zero; [exact F|lia|]. apply (mult_small k); [exact D|lia|lia|exact NO].
Qed.
(** Three steps of 0.1 give four points, and the plot raises. *)
Theorem c84_axis_refuted : ~ forall k (dt : b64), is_finite dt = true -> bpow radix2 (-1022) <= B2R dt -> (0 < k < 2 ^ 50)%Z -> Rabs (nearest_double (IZR k * B2R dt)) < bpow radix2 1024 -> exists l, noise_time_axis k dt = Ok l.
Proof.
  intros H. destruct (literal_value 1 1 ltac:(lia) ltac:(lia)) as [F V]. specialize (H 3%Z (literal 1 1) F).
  assert (L : bpow radix2 (-1022) <= B2R (literal 1 1)). { rewrite V, <- (rnd_id (bpow radix2 (-1022))); [|replace (bpow radix2 (-1022)) with (IZR 1 * bpow radix2 (-1022)) by ring; apply format_scaled; lia]. apply rnd_le, (small_normal 1 1); lia. }
  assert (U : B2R (literal 1 1) <= 1). { rewrite V. apply Rle_trans with (rnd (IZR 1)); [apply rnd_le; change (IZR (10 ^ 1)) with 10; lra|right; apply rnd_Z; lia]. }
  assert (P := off_pos _ L). destruct H as [l E]; [exact L|lia| |].
  - rewrite Rabs_pos_eq by (rewrite <- rnd_0; apply rnd_le; lra). apply Rle_lt_trans with (rnd (IZR 3)); [apply rnd_le; lra|]. rewrite rnd_Z by lia. apply Rlt_trans with (bpow radix2 3); [change (bpow radix2 3) with 8; lra|apply bpow_lt; lia].
  - assert (C : ok_with (fun _ => true) (noise_time_axis 3 (literal 1 1)) = false) by (vm_compute; reflexivity). rewrite E in C. discriminate.
Qed.
(** The last element of an arange can reach the excluded end. *)
Theorem c84_end_refuted : ~ forall (b s : b64) l, is_finite b = true -> is_finite s = true -> arange b64_zero b s = Ok l -> forall x, In x l -> Bltb x b = true.
Proof.
  intros H. assert (C : ok_with (fun l => negb (forallb (fun x => Bltb x (b64_mult (b64_of_Z 3) (literal 1 1))) l)) (arange b64_zero (b64_mult (b64_of_Z 3) (literal 1 1)) (literal 1 1)) = true) by (vm_compute; reflexivity).
  apply ok_with_inv in C. destruct C as (l & E & N). assert (A : forallb (fun x => Bltb x (b64_mult (b64_of_Z 3) (literal 1 1))) l = true); [|rewrite A in N; discriminate].
  apply forallb_forall. apply (H _ (literal 1 1) l); [vm_compute; reflexivity|vm_compute; reflexivity|exact E].
Qed.
(** A reservoir run: none, or N rows at the doubles nearest to i dt; undefined when N does not fit an int. *)
Theorem c84_reservoir (T dt : b64) l : is_finite T = true -> B2R dt <> 0 ->
  reservoir_times T dt = Ok l <-> (- 2 ^ 31 <= whole_steps (B2R T) (B2R dt) < 2 ^ 31)%Z /\ l = map (fun i => b64_mult (b64_of_Z (Z.of_nat i)) dt) (seq 0 (Z.to_nat (whole_steps (B2R T) (B2R dt)))).
Proof. exact (reservoir_iff T dt l). Qed.
Theorem c84_reservoir_rows (T dt : b64) : is_finite T = true -> is_finite dt = true -> 0 < B2R dt -> (- 2 ^ 31 <= whole_steps (B2R T) (B2R dt) < 2 ^ 31)%Z ->
  exists l, reservoir_times T dt = Ok l /\ Z.of_nat (length l) = Z.max 0 (whole_steps (B2R T) (B2R dt)) /\
    forall i d, (i < length l)%nat -> represents (nth i l d) (nearest_double (IZR (Z.of_nat i) * B2R dt)) /\ 0 <= nearest_double (IZR (Z.of_nat i) * B2R dt) <= B2R T.
Proof. exact (reservoir_rows T dt). Qed.

(** Examples. *)
Example c84_block_example : ok_with (fun v => (Z.eqb (fst (fst v)) 57 && Z.eqb (snd (fst v)) 20 && Z.eqb (snd v) 1)%bool) (block_counts (literal 284 9) (literal 100 9) b64_zero (literal 5 9) (literal 5 9) (literal 1 9)) = true.
Proof. vm_compute. reflexivity. Qed.
Example c84_block_zero : ok_with (fun _ => true) (block_counts (literal 284 9) (literal 100 9) b64_zero (literal 5 9) b64_zero (literal 1 9)) = false.
Proof. vm_compute. reflexivity. Qed.
Example c84_axis_example : ok_with (fun l => (Nat.eqb (length l) 4 && Beqb (nth 3 l b64_zero) (b64_of_Z 6))%bool) (noise_time_axis 4 (b64_of_Z 2)) = true.
Proof. vm_compute. reflexivity. Qed.
Example c84_exact_hypotheses : is_finite (b64_of_Z 2) = true /\ bpow radix2 (-1022) <= B2R (b64_of_Z 2) /\ nearest_double (IZR 4 * B2R (b64_of_Z 2)) = IZR 4 * B2R (b64_of_Z 2).
Proof.
  destruct (of_Z_value 2 ltac:(lia)) as [F V]. split; [exact F|]. rewrite V. split; [apply Rle_trans with (bpow radix2 1); [apply bpow_le; lia|change (bpow radix2 1) with 2; lra]|]. rewrite <- mult_IZR. apply rnd_Z. lia.
Qed.
(** A range whose quotient underflows still has one element; a backward range has none. *)
Example c84_underflow_example : ok_with (fun n => Z.eqb n 1) (arange_length b64_zero (b64_div (b64_of_Z 1) (b64_of_Z (2 ^ 1000))) (b64_of_Z (2 ^ 900))) = true.
Proof. vm_compute. reflexivity. Qed.
Example c84_backward_example : ok_with (fun n => Z.eqb n 0) (arange_length b64_zero (b64_of_Z (-3)) (b64_of_Z 1)) = true /\ ok_with (fun n => Z.eqb n 3) (arange_length b64_zero (b64_of_Z (-3)) (b64_of_Z (-1))) = true.
Proof. split; vm_compute; reflexivity. Qed.
Example c84_reservoir_example : ok_with (fun l => (Nat.eqb (length l) 2 && Beqb (nth 1 l b64_zero) (literal 1 13))%bool) (reservoir_times (literal 3 13) (literal 1 13)) = true /\ ok_with (fun l => Nat.eqb (length l) 0) (reservoir_times (b64_of_Z (-5)) (b64_of_Z 1)) = true.
Proof. split; vm_compute; reflexivity. Qed.
Example c84_element_example : ok_with (fun l => (Nat.eqb (length l) 3 && Beqb (nth 2 l b64_zero) (b64_of_Z 9))%bool) (arange (b64_of_Z 5) (b64_of_Z 10) (b64_of_Z 2)) = true.
Proof. vm_compute. reflexivity. Qed.
Print Assumptions c84_counts.
Print Assumptions c84_bounds.
Print Assumptions c84_exact.
Print Assumptions c84_decimal.
Print Assumptions c84_decimal_refuted.
Print Assumptions c84_arange.
Print Assumptions c84_element.
Print Assumptions c84_axis_length.
Print Assumptions c84_axis.
Print Assumptions c84_axis_exact.
Print Assumptions c84_axis_refuted.
Print Assumptions c84_end_refuted.
Print Assumptions c84_reservoir.
Print Assumptions c84_reservoir_rows.
Print Assumptions c84_element_value.
