(** C82: the time grid of a run in binary64 arithmetic. *)
From Verif Require Import P_GridClock.
Open Scope R_scope.

(** Which arguments return, the number of rows, the time and the log flag of every row. *)
Theorem c82_junction (T dt W : b64) rows : is_finite dt = true -> junction_grid T dt W = Ok rows <->
  is_finite T = true /\ is_finite W = true /\ B2R dt <> 0 /\ B2R dt <= B2R W /\ (0 <= whole_steps (B2R T) (B2R dt) < 2 ^ 32)%Z /\ (0 <= whole_steps (B2R W) (B2R dt) < 2 ^ 32)%Z /\
  (whole_steps (B2R T) (B2R dt) = 0 \/ whole_steps (B2R W) (B2R dt) <> 0)%Z /\
  rows = map (fun k => (b64_mult (b64_of_Z (Z.of_nat k)) dt, Z.eqb (Z.of_nat k mod whole_steps (B2R W) (B2R dt)) 0)) (seq 0 (Z.to_nat (whole_steps (B2R T) (B2R dt)))).
Proof. exact (junction_iff T dt W rows). Qed.
Theorem c82_stack (T dt W : b64) rows : is_finite dt = true -> stack_grid T dt W = Ok rows <->
  is_finite T = true /\ is_finite W = true /\ B2R dt <> 0 /\ B2R dt <= B2R W /\ (- 2 ^ 31 <= whole_steps (B2R T) (B2R dt) < 2 ^ 31)%Z /\ (- 2 ^ 31 <= whole_steps (B2R W) (B2R dt) < 2 ^ 31)%Z /\
  (whole_steps (B2R T) (B2R dt) = 0 \/ whole_steps (B2R W) (B2R dt) <> 0)%Z /\
  rows = map (fun k => (b64_mult (b64_of_Z (Z.of_nat k)) dt, Z.eqb (Z.of_nat k mod (whole_steps (B2R W) (B2R dt) mod 2 ^ 32)) 0)) (seq 0 (Z.to_nat (whole_steps (B2R T) (B2R dt) mod 2 ^ 32))).
Proof. exact (stack_iff T dt W rows). Qed.
Theorem c82_agree (T dt W : b64) rows : is_finite dt = true -> (0 <= whole_steps (B2R T) (B2R dt) < 2 ^ 31)%Z -> (0 <= whole_steps (B2R W) (B2R dt) < 2 ^ 31)%Z -> stack_grid T dt W = Ok rows <-> junction_grid T dt W = Ok rows.
Proof. exact (grids_agree T dt W rows). Qed.
Theorem c82_refused (T dt W : b64) : is_finite dt = true -> is_finite W = true -> B2R W < B2R dt ->
  junction_grid T dt W = Err (Throw "The time step cannot be larger than write frequency!") /\ (forall t0, llgb_grid t0 T dt W = Err (Throw "The time step cannot be larger than write frequency!")).
Proof. exact (refused T dt W). Qed.

(** The rows of a run with a positive step: each time is the double nearest to k·dt, inside [0, T]. *)
Theorem c82_rows (T dt W : b64) rows : is_finite dt = true -> 0 < B2R dt -> junction_grid T dt W = Ok rows ->
  Z.of_nat (length rows) = whole_steps (B2R T) (B2R dt) /\ (1 <= whole_steps (B2R W) (B2R dt))%Z /\
  forall k d, (k < length rows)%nat -> represents (fst (nth k rows d)) (nearest_double (IZR (Z.of_nat k) * B2R dt)) /\ 0 <= nearest_double (IZR (Z.of_nat k) * B2R dt) <= B2R T /\
    (snd (nth k rows d) = true <-> (whole_steps (B2R W) (B2R dt) | Z.of_nat k)%Z).
Proof. exact (rows_facts T dt W rows). Qed.
Theorem c82_logged (T dt W : b64) rows : is_finite dt = true -> 0 < B2R dt -> junction_grid T dt W = Ok rows ->
  let w := Z.to_nat (whole_steps (B2R W) (B2R dt)) in
  length (logged rows) = ((length rows + w - 1) / w)%nat /\
  forall j d, (j < length (logged rows))%nat -> (j * w < length rows)%nat /\ represents (nth j (logged rows) d) (nearest_double (IZR (Z.of_nat (j * w)) * B2R dt)).
Proof. exact (logged_facts T dt W rows). Qed.
Theorem c82_write_safe (dt W : b64) : 0 < B2R dt -> B2R dt <= B2R W -> (1 <= whole_steps (B2R W) (B2R dt))%Z.
Proof. exact (safe_modulus dt W). Qed.
Theorem c82_times_close dt k : bpow radix2 (-1022) <= dt -> (0 <= k)%Z -> Rabs (nearest_double (IZR k * dt) - IZR k * dt) <= bpow radix2 (-53) * (IZR k * dt).
Proof. exact (times_close dt k). Qed.
Theorem c82_times_increase dt i j : bpow radix2 (-1022) <= dt -> (0 <= i < j)%Z -> (j < 2 ^ 50)%Z -> nearest_double (IZR i * dt) < nearest_double (IZR j * dt).
Proof. exact (times_increase dt i j). Qed.

(** The number of steps against the exact quotient. *)
Theorem c82_steps_bounds (T dt : R) : 0 <= T / dt < bpow radix2 52 -> (Zfloor (T / dt) <= whole_steps T dt <= Zfloor (T / dt) + 1)%Z /\
  (whole_steps T dt = Zfloor (T / dt) + 1 -> nearest_double (T / dt) = IZR (Zfloor (T / dt) + 1))%Z.
Proof. exact (floor_bounds (T / dt)). Qed.
Theorem c82_steps_exact n (T dt : R) : dt <> 0 -> T = IZR n * dt -> (Z.abs n <= 2 ^ 53)%Z -> whole_steps T dt = n.
Proof. exact (whole_exact n T dt). Qed.
Theorem c82_steps_decimal n d : bpow radix2 (-1022) <= d -> (0 < n < 2 ^ 50)%Z ->
  whole_steps (nearest_double (IZR n * d)) (nearest_double d) = n \/ whole_steps (nearest_double (IZR n * d)) (nearest_double d) = (n - 1)%Z.
Proof. exact (literal_steps n d). Qed.
Theorem c82_steps_decimal_refuted : ~ forall n d, bpow radix2 (-1022) <= d -> (0 < n < 2 ^ 50)%Z -> whole_steps (nearest_double (IZR n * d)) (nearest_double d) = n.
Proof.
  intros H. specialize (H 3%Z (1 / IZR (10 ^ 13)) normal_13 ltac:(lia)).
  assert (E : whole_steps (nearest_double (IZR 3 / IZR (10 ^ 13))) (nearest_double (IZR 1 / IZR (10 ^ 13))) = 2%Z) by (apply literal_steps_value; [lia|lia|lia|lia|vm_compute; reflexivity]).
  replace (IZR 3 * (1 / IZR (10 ^ 13))) with (IZR 3 / IZR (10 ^ 13)) in H by (unfold Rdiv; ring). rewrite E in H. discriminate.
Qed.
(** A literal m·10^-e is the nearest double. *)
Theorem c82_literal m e : (Z.abs m <= 2 ^ 53)%Z -> (0 <= e <= 15)%Z -> represents (literal m e) (nearest_double (IZR m / IZR (10 ^ e))).
Proof. exact (literal_value m e). Qed.
(** The default arguments (step 1e-13, write frequency 1e-11): one row in 99 is logged, not one in 100. *)
Theorem c82_default_write (T : b64) rows : junction_grid T (literal 1 13) (literal 1 11) = Ok rows -> forall k d, (k < length rows)%nat -> snd (nth k rows d) = true <-> (99 | Z.of_nat k)%Z.
Proof.
  intros E. assert (F : is_finite (literal 1 13) = true) by (apply (literal_value 1 13); lia). assert (D : 0 < B2R (literal 1 13)).
  { exact dt_pos. }
  destruct (rows_facts _ _ _ rows F D E) as (L & _ & V).
  assert (W : whole_steps (B2R (literal 1 11)) (B2R (literal 1 13)) = 99%Z).
  { rewrite (proj2 (literal_value 1 11 ltac:(lia) ltac:(lia))), (proj2 (literal_value 1 13 ltac:(lia) ltac:(lia))). apply literal_steps_value; [lia|lia|lia|lia|vm_compute; reflexivity]. }
  rewrite W in V. intros k d K. apply V. exact K.
Qed.
Theorem c82_default_write_refuted : ~ forall (T : b64) rows, junction_grid T (literal 1 13) (literal 1 11) = Ok rows -> forall k d, (k < length rows)%nat -> snd (nth k rows d) = true <-> (100 | Z.of_nat k)%Z.
Proof.
  intros H. specialize (H (literal 301 13)). assert (C : ok_with (fun r => Nat.ltb 99 (length r)) (junction_grid (literal 301 13) (literal 1 13) (literal 1 11)) = true) by (vm_compute; reflexivity).
  apply ok_with_inv in C. destruct C as (r & E & C). apply Nat.ltb_lt in C. assert (L : (99 < length r)%nat) by exact C.
  assert (A := c82_default_write _ _ E 99%nat (literal 0 0, true) L). rewrite (H r E 99%nat (literal 0 0, true) L) in A. destruct (proj2 A) as [q Q]; [exists 1%Z; reflexivity|]. lia.
Qed.

(** The LLGB clock: additions accumulate the rounding. *)
Theorem c82_llgb (t0 T dt W : b64) rows : is_finite dt = true -> llgb_grid t0 T dt W = Ok rows <->
  is_finite T = true /\ is_finite W = true /\ B2R dt <> 0 /\ B2R dt <= B2R W /\ (- 2 ^ 31 <= whole_steps (B2R T) (B2R dt) < 2 ^ 31)%Z /\ (- 2 ^ 31 <= whole_steps (B2R W) (B2R dt) < 2 ^ 31)%Z /\
  (whole_steps (B2R T) (B2R dt) = 0 \/ whole_steps (B2R W) (B2R dt) <> 0)%Z /\
  rows = map (fun k => (Nat.iter (S k) (fun t => b64_plus t dt) t0, Z.eqb (Z.of_nat k mod (whole_steps (B2R W) (B2R dt) mod 2 ^ 32)) 0)) (seq 0 (Z.to_nat (whole_steps (B2R T) (B2R dt) mod 2 ^ 32))).
Proof.
  intros F. rewrite (llgb_iff t0 T dt W rows F). assert (E : forall w n, map (clock_row dt t0 w) (seq 0 n) = map (fun k => (Nat.iter (S k) (fun t => b64_plus t dt) t0, Z.eqb (Z.of_nat k mod w) 0)) (seq 0 n)); [|rewrite E; reflexivity].
  intros w n. apply map_ext. intros k. unfold clock_row. f_equal. generalize (S k). clear. induction n as [|n IH]; [reflexivity|]. cbn [ticks]. rewrite IH. reflexivity.
Qed.
Theorem c82_llgb_clock (t0 T dt W : b64) rows : is_finite t0 = true -> is_finite dt = true -> 0 <= B2R t0 -> 0 < B2R dt -> (0 <= whole_steps (B2R T) (B2R dt))%Z ->
  B2R t0 + IZR (whole_steps (B2R T) (B2R dt)) * B2R dt <= bpow radix2 1022 -> llgb_grid t0 T dt W = Ok rows ->
  Z.of_nat (length rows) = whole_steps (B2R T) (B2R dt) /\ (1 <= whole_steps (B2R W) (B2R dt))%Z /\
  forall k d, (k < length rows)%nat -> let t := B2R t0 + INR (S k) * B2R dt in
    is_finite (fst (nth k rows d)) = true /\ Rabs (B2R (fst (nth k rows d)) - t) <= INR (S k) * bpow radix2 (-52) * t /\
    (snd (nth k rows d) = true <-> (whole_steps (B2R W) (B2R dt) | Z.of_nat k)%Z).
Proof. exact (clock_facts t0 T dt W rows). Qed.
Theorem c82_llgb_increase (t0 T dt W : b64) rows : is_finite t0 = true -> is_finite dt = true -> 0 <= B2R t0 -> 0 < B2R dt -> (0 <= whole_steps (B2R T) (B2R dt))%Z ->
  B2R t0 + IZR (whole_steps (B2R T) (B2R dt)) * B2R dt <= bpow radix2 1022 -> B2R t0 <= bpow radix2 50 * B2R dt -> llgb_grid t0 T dt W = Ok rows ->
  forall k d, (S k < length rows)%nat -> B2R t0 < B2R (fst (nth k rows d)) < B2R (fst (nth (S k) rows d)).
Proof. exact (clock_facts_increase t0 T dt W rows). Qed.
Theorem c82_llgb_drift_refuted : ~ forall (T dt W : b64) rows, is_finite dt = true -> 0 < B2R dt -> llgb_grid (b64_of_Z 0) T dt W = Ok rows ->
  forall k d, (k < length rows)%nat -> represents (fst (nth k rows d)) (nearest_double (IZR (Z.of_nat (S k)) * B2R dt)).
Proof.
  intros H. assert (F : is_finite (literal 1 13) = true) by (apply (literal_value 1 13); lia). assert (D : 0 < B2R (literal 1 13)).
  { exact dt_pos. }
  specialize (H (literal 71 14) (literal 1 13) (literal 1 13)).
  assert (C : ok_with (fun r => (Nat.eqb (length r) 7 && is_finite (b64_mult (b64_of_Z 6) (literal 1 13)) && negb (Beqb (fst (nth 5 r (b64_of_Z 0, true))) (b64_mult (b64_of_Z 6) (literal 1 13))))%bool) (llgb_grid (b64_of_Z 0) (literal 71 14) (literal 1 13) (literal 1 13)) = true) by (vm_compute; reflexivity).
  assert (CJ : ok_with (fun r => Nat.eqb (length r) 7) (junction_grid (literal 71 14) (literal 1 13) (literal 1 13)) = true) by (vm_compute; reflexivity).
  apply ok_with_inv in C. destruct C as (r & EL & C). apply ok_with_inv in CJ. destruct CJ as (s & ES & CJ). apply Bool.andb_true_iff in C. destruct C as [C C3]. apply Bool.andb_true_iff in C. destruct C as [C1 C2]. apply Nat.eqb_eq in C1, CJ. apply Bool.negb_true_iff in C3.
  destruct (H r F D EL 5%nat (b64_of_Z 0, true) ltac:(lia)) as [F1 V]. destruct (rows_facts _ _ _ s F D ES) as (_ & _ & RV). destruct (RV 6%nat (b64_of_Z 0, true) ltac:(lia)) as ([F2 V2] & _).
  assert (N6 : fst (nth 6 s (b64_of_Z 0, true)) = b64_mult (b64_of_Z 6) (literal 1 13)).
  { apply junction_iff in ES; [|exact F]. destruct ES as (_ & _ & _ & _ & _ & _ & _ & ES). rewrite ES in CJ |- *. rewrite map_length, seq_length in CJ. rewrite nth_map_seq by lia. reflexivity. }
  rewrite N6 in V2. apply (b64_neq _ _ F1 C2 C3). rewrite V, V2. reflexivity.
Qed.

(** Examples: each hypothesis is met by a short run in steps of 0.1 ps. *)
Example c82_run_example : ok_with (fun rows => (Nat.eqb (length rows) 25 && Nat.eqb (length (logged rows)) 13)%bool) (junction_grid (literal 255 14) (literal 1 13) (literal 3 13)) = true.
Proof. vm_compute. reflexivity. Qed.
Example c82_stack_example : ok_with (fun rows => Nat.eqb (length rows) 25) (stack_grid (literal 255 14) (literal 1 13) (literal 3 13)) = true.
Proof. vm_compute. reflexivity. Qed.
Example c82_llgb_example : ok_with (fun rows => Nat.eqb (length rows) 25) (llgb_grid (b64_of_Z 0) (literal 255 14) (literal 1 13) (literal 3 13)) = true.
Proof. vm_compute. reflexivity. Qed.
Example c82_negative_stack_example : to_int_uint (b64_of_Z (-1)) = Ok 4294967295%Z.
Proof. vm_compute. reflexivity. Qed.
Example c82_refused_example : junction_grid (literal 1 9) (literal 2 13) (literal 1 13) = Err (Throw "The time step cannot be larger than write frequency!").
Proof. vm_compute. reflexivity. Qed.
Example c82_steps_example : whole_steps (nearest_double (IZR 3 / IZR (10 ^ 8))) (nearest_double (IZR 1 / IZR (10 ^ 13))) = 299999%Z.
Proof. apply literal_steps_value; [lia|lia|lia|lia|vm_compute; reflexivity]. Qed.
Example c82_exact_example : whole_steps 3 (1 / 4) = 12%Z.
Proof. apply whole_exact; [lra|lra|lia]. Qed.
Example c82_clock_example : B2R (b64_of_Z 0) + IZR (whole_steps (B2R (literal 255 14)) (B2R (literal 1 13))) * B2R (literal 1 13) <= bpow radix2 1022 /\ B2R (b64_of_Z 0) <= bpow radix2 50 * B2R (literal 1 13).
Proof.
  assert (P := dt_pos). assert (Z0 : B2R (b64_of_Z 0) = 0) by (vm_compute; reflexivity). rewrite Z0. split; [|assert (0 < bpow radix2 50) by apply bpow_gt_0; nra].
  assert (W : whole_steps (B2R (literal 255 14)) (B2R (literal 1 13)) = 25%Z).
  { rewrite (proj2 (literal_value 255 14 ltac:(lia) ltac:(lia))), (proj2 (literal_value 1 13 ltac:(lia) ltac:(lia))). apply literal_steps_value; [lia|lia|lia|lia|vm_compute; reflexivity]. }
  rewrite W. assert (L : B2R (literal 1 13) <= 1).
  { rewrite (proj2 (literal_value 1 13 ltac:(lia) ltac:(lia))). apply Rle_trans with (rnd (IZR 1)); [|rewrite rnd_Z by lia; lra]. apply rnd_le. apply (Rmult_le_reg_r (IZR (10 ^ 13))); [apply IZR_lt; lia|]. unfold Rdiv.
    rewrite Rmult_assoc, Rinv_l by (apply IZR_neq; lia). rewrite !Rmult_1_l. apply IZR_le. lia. }
  apply Rle_trans with (IZR (2 ^ 53)); [lra|]. rewrite pow53. apply bpow_le. lia.
Qed.
Print Assumptions c82_junction.
Print Assumptions c82_stack.
Print Assumptions c82_agree.
Print Assumptions c82_refused.
Print Assumptions c82_rows.
Print Assumptions c82_logged.
Print Assumptions c82_write_safe.
Print Assumptions c82_times_close.
Print Assumptions c82_times_increase.
Print Assumptions c82_steps_bounds.
Print Assumptions c82_steps_exact.
Print Assumptions c82_steps_decimal.
Print Assumptions c82_steps_decimal_refuted.
Print Assumptions c82_literal.
Print Assumptions c82_default_write.
Print Assumptions c82_default_write_refuted.
Print Assumptions c82_llgb.
Print Assumptions c82_llgb_clock.
Print Assumptions c82_llgb_increase.
Print Assumptions c82_llgb_drift_refuted.
