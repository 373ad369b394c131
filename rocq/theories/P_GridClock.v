(** The accumulated clock of the LLGB junction, decimal literals and concrete runs. *)
From Verif Require Export P_GridRun.
From Flocq Require Import Relative Plus_error.
Open Scope R_scope.
Open Scope st_scope.

(** ** The accumulated clock *)
Fixpoint ticks (dt t0 : b64) (k : nat) : b64 := match k with O => t0 | S k => b64_plus (ticks dt t0 k) dt end.
Fixpoint clock (dt t0 : R) (k : nat) : R := match k with O => t0 | S k => rnd (clock dt t0 k + dt) end.
Definition clock_row (dt t0 : b64) (w : Z) (k : nat) : b64 * bool := (ticks dt t0 (S k), Z.eqb (Z.of_nat k mod w) 0).
Lemma clock_loop_iff dt t0 w n : forall i rows, clock_loop dt w n (Z.of_nat i) (ticks dt t0 i) = Ok rows <-> (n = 0%nat \/ w <> 0%Z) /\ rows = map (clock_row dt t0 w) (seq i n).
Proof.
  induction n as [|n IH]; intros i rows; cbn [clock_loop seq map].
  - split; [intros E; split; [left; reflexivity|congruence]|intros [_ ->]; reflexivity].
  - destruct (Z.eqb_spec w 0) as [W|W].
    + split; [discriminate|]. intros [[X|X] _]; [discriminate|contradiction].
    + rewrite rbind_ok. replace (Z.of_nat i + 1)%Z with (Z.of_nat (S i)) by lia. change (b64_plus (ticks dt t0 i) dt) with (ticks dt t0 (S i)). setoid_rewrite IH. split.
      * intros (rest & [_ ->] & E). split; [right; exact W|]. injection E as <-. reflexivity.
      * intros [_ ->]. eexists. split; [split; [right; exact W|reflexivity]|]. reflexivity.
Qed.
Lemma llgb_iff t0 T dt W rows : is_finite dt = true -> llgb_grid t0 T dt W = Ok rows <->
  is_finite T = true /\ is_finite W = true /\ B2R dt <> 0 /\ B2R dt <= B2R W /\ (- 2 ^ 31 <= whole_steps (B2R T) (B2R dt) < 2 ^ 31)%Z /\ (- 2 ^ 31 <= whole_steps (B2R W) (B2R dt) < 2 ^ 31)%Z /\
  (whole_steps (B2R T) (B2R dt) = 0 \/ whole_steps (B2R W) (B2R dt) <> 0)%Z /\
  rows = map (clock_row dt t0 (whole_steps (B2R W) (B2R dt) mod 2 ^ 32)) (seq 0 (Z.to_nat (whole_steps (B2R T) (B2R dt) mod 2 ^ 32))).
Proof.
  intros FD. assert (NI : forall s, dt <> B754_infinity s) by (intros s ->; discriminate).
  assert (MZ : forall z, (- 2 ^ 31 <= z < 2 ^ 31)%Z -> (z mod 2 ^ 32 = 0)%Z <-> z = 0%Z).
  { intros z B. split; [|intros ->; reflexivity]. intros M. apply Z.mod_divide in M; [|lia]. destruct M as [q M]. lia. }
  unfold llgb_grid. rewrite rbind_ok. setoid_rewrite rbind_ok. setoid_rewrite rbind_ok. split.
  - intros (g & G & N & HN & w & HW & L). destruct (cast_inputs T dt N (or_intror HN)) as [FT [NZ|[s X]]]; [|destruct (NI s X)]. destruct (cast_inputs W dt w (or_intror HW)) as [FW _].
    apply guard_ok in G; [|exact FD|exact FW]. apply int_iff in HN; [|exact FT|exact NZ]. apply int_iff in HW; [|exact FW|exact NZ]. destruct HN as [BN ->], HW as [BW ->]. apply (clock_loop_iff dt t0 _ _ 0) in L. destruct L as [L ->].
    do 6 (split; [assumption|]). split; [|reflexivity]. rewrite <- (MZ _ BN), <- (MZ _ BW). destruct L as [L|L]; [left|right; exact L].
    assert (B := Z.mod_pos_bound (whole_steps (B2R T) (B2R dt)) (2 ^ 32) ltac:(lia)). lia.
  - intros (FT & FW & NZ & G & BN & BW & ND & ->). exists tt. split; [apply guard_ok; assumption|]. eexists. split; [apply int_iff; [exact FT|exact NZ|split; [exact BN|reflexivity]]|].
    eexists. split; [apply int_iff; [exact FW|exact NZ|split; [exact BW|reflexivity]]|]. apply (clock_loop_iff dt t0 _ _ 0). split; [|reflexivity]. rewrite (MZ _ BW). destruct ND as [ND|ND]; [left; rewrite ND; reflexivity|right; exact ND].
Qed.
Lemma plus_error x y : format x -> format y -> exists e, Rabs e <= u53 /\ rnd (x + y) = (x + y) * (1 + e).
Proof.
  intros X Y. destruct (FLT_plus_error_N_ex radix2 (-1074) 53 (fun x => negb (Z.even x)) x y X Y) as (e & E1 & E2). exists e. split; [|exact E2]. apply (Rle_trans _ _ _ E1).
  assert (U : u_ro radix2 53 = u53). { unfold u_ro, u53. replace (/ 2) with (bpow radix2 (-1)) by reflexivity. rewrite <- bpow_plus. reflexivity. }
  rewrite U. assert (P : 0 < u53) by apply bpow_gt_0. apply (Rmult_le_reg_r (1 + u53)); [lra|]. unfold Rdiv. rewrite Rmult_assoc, Rinv_l by lra. nra.
Qed.
Lemma clock_format dt t0 k : format t0 -> format (clock dt t0 k).
Proof. intros H. destruct k; [exact H|apply rnd_format]. Qed.
Lemma u53_val : u53 = / 9007199254740992.
Proof. rewrite u53_eq. reflexivity. Qed.
Lemma growth k : INR k <= 4503599627370496 -> (1 + u53) ^ k <= 1 + 2 * INR k * u53.
Proof.
  rewrite u53_val. induction k as [|k IH]; intros H; [cbn; lra|]. rewrite S_INR in *. assert (K := pos_INR k). specialize (IH ltac:(lra)). cbn [pow]. nra.
Qed.
Lemma clock_error dt t0 k : format dt -> format t0 -> 0 <= dt -> 0 <= t0 -> Rabs (clock dt t0 k - (t0 + INR k * dt)) <= ((1 + u53) ^ k - 1) * (t0 + INR k * dt).
Proof.
  intros FD FT D T. assert (U : 0 < u53) by apply bpow_gt_0. induction k as [|k IH]; [cbn; rewrite Rmult_0_l, Rplus_0_r, Rminus_diag_eq, Rabs_R0 by reflexivity; lra|].
  cbn [clock]. rewrite S_INR. destruct (plus_error (clock dt t0 k) dt (clock_format dt t0 k FT) FD) as (e & E & ->). assert (K := pos_INR k). set (S := t0 + INR k * dt) in *. assert (S0 : 0 <= S) by (unfold S; nra).
  replace (t0 + (INR k + 1) * dt) with (S + dt) by (unfold S; ring). set (c := clock dt t0 k) in *. replace ((c + dt) * (1 + e) - (S + dt)) with ((c - S) * (1 + e) + e * (S + dt)) by ring.
  assert (G : 1 <= (1 + u53) ^ k) by (apply pow_R1_Rle; lra). assert (A1 : Rabs (1 + e) <= 1 + u53) by (apply Rabs_le_inv in E; apply Rabs_le; assert (u53 < 1) by (rewrite u53_val; lra); lra).
  apply Rle_trans with (Rabs ((c - S) * (1 + e)) + Rabs (e * (S + dt))); [apply Rabs_triang|]. rewrite !Rabs_mult, (Rabs_pos_eq (S + dt)) by lra.
  apply Rle_trans with (((1 + u53) ^ k - 1) * S * (1 + u53) + u53 * (S + dt)).
  - apply Rplus_le_compat; [apply Rmult_le_compat; try apply Rabs_pos; assumption|apply Rmult_le_compat_r; [lra|exact E]].
  - cbn [pow]. set (g := (1 + u53) ^ k) in *. assert (X : 0 <= (g - 1) * (1 + u53) * dt) by (apply Rmult_le_pos; [apply Rmult_le_pos; lra|exact D]). nra.
Qed.
Lemma clock_close dt t0 k : format dt -> format t0 -> 0 <= dt -> 0 <= t0 -> INR k <= 4503599627370496 ->
  Rabs (clock dt t0 k - (t0 + INR k * dt)) <= INR k * bpow radix2 (-52) * (t0 + INR k * dt).
Proof.
  intros FD FT D T K. apply (Rle_trans _ _ _ (clock_error dt t0 k FD FT D T)). assert (K0 := pos_INR k). assert (G := growth k K). apply Rmult_le_compat_r; [nra|].
  replace (bpow radix2 (-52)) with (2 * u53) by (unfold u53; change 2 with (bpow radix2 1); rewrite <- bpow_plus; reflexivity). lra.
Qed.
Lemma clock_nonneg dt t0 k : 0 <= dt -> 0 <= t0 -> 0 <= clock dt t0 k.
Proof. intros D T. induction k as [|k IH]; [exact T|]. cbn. rewrite <- rnd_0. apply rnd_le. lra. Qed.
Lemma clock_upper dt t0 k : format dt -> format t0 -> 0 <= dt -> 0 <= t0 -> INR k <= 4503599627370496 -> clock dt t0 k <= 2 * (t0 + INR k * dt).
Proof.
  intros FD FT D T K. assert (C := clock_close dt t0 k FD FT D T K). assert (K0 := pos_INR k). assert (S0 : 0 <= t0 + INR k * dt) by nra. apply Rabs_le_inv in C.
  assert (B : INR k * bpow radix2 (-52) <= 1). { replace (bpow radix2 (-52)) with (2 * u53) by (unfold u53; change 2 with (bpow radix2 1); rewrite <- bpow_plus; reflexivity). rewrite u53_val. lra. } nra.
Qed.
Lemma ticks_value (dt t0 : b64) k : is_finite dt = true -> is_finite t0 = true -> 0 <= B2R dt -> 0 <= B2R t0 -> INR k <= 4503599627370496 -> B2R t0 + INR k * B2R dt <= bpow radix2 1022 ->
  represents (ticks dt t0 k) (clock (B2R dt) (B2R t0) k).
Proof.
  intros FD FT D T. induction k as [|k IH]; intros K B; [split; [exact FT|reflexivity]|]. rewrite S_INR in K, B. destruct (IH ltac:(lra) ltac:(nra)) as [F V]. cbn [ticks clock]. rewrite <- V. apply plus_value; [exact F|exact FD|].
  rewrite V. change (rnd (clock (B2R dt) (B2R t0) k + B2R dt)) with (clock (B2R dt) (B2R t0) (S k)). rewrite Rabs_pos_eq by (apply clock_nonneg; assumption).
  apply Rle_lt_trans with (2 * (B2R t0 + INR (S k) * B2R dt)); [apply clock_upper; try apply format_B2R; try assumption; rewrite S_INR; lra|].
  apply Rle_lt_trans with (2 * bpow radix2 1022); [rewrite S_INR; lra|]. change 2 with (bpow radix2 1) at 1. rewrite <- bpow_plus. apply bpow_lt. lia.
Qed.
Lemma clock_increase dt t0 k : format dt -> format t0 -> 0 < dt -> 0 <= t0 -> t0 <= bpow radix2 50 * dt -> INR k <= 1125899906842624 -> clock dt t0 k < clock dt t0 (S k).
Proof.
  intros FD FT D T TB K. assert (C := clock_upper dt t0 k FD FT ltac:(lra) T ltac:(lra)). assert (C0 := clock_nonneg dt t0 k ltac:(lra) T). cbn [clock].
  destruct (plus_error (clock dt t0 k) dt (clock_format dt t0 k FT) FD) as (e & E & ->). apply Rabs_le_inv in E. rewrite u53_val in E.
  assert (B50 : bpow radix2 50 = 1125899906842624) by reflexivity. rewrite B50 in TB. set (c := clock dt t0 k) in *. assert (K0 := pos_INR k).
  assert (CB : c <= 4503599627370496 * dt) by nra. nra.
Qed.
(** ** Literals *)
Lemma literal_value m e : (Z.abs m <= 2 ^ 53)%Z -> (0 <= e <= 15)%Z -> represents (literal m e) (rnd (IZR m / IZR (10 ^ e))).
Proof.
  intros M E. assert (T1 : (1 <= 10 ^ e)%Z) by (assert (0 < 10 ^ e)%Z by (apply Z.pow_pos_nonneg; lia); lia). assert (T2 : (10 ^ e <= 2 ^ 53)%Z) by (apply Z.le_trans with (10 ^ 15)%Z; [apply Z.pow_le_mono_r; lia|vm_compute; discriminate]).
  destruct (of_Z_value m M) as [F1 V1]. destruct (of_Z_value (10 ^ e)%Z ltac:(lia)) as [F2 V2]. assert (D1 : 1 <= IZR (10 ^ e)) by (apply (IZR_le 1), T1).
  assert (DF := fun Z B => proj1 (div_finite (b64_of_Z m) (b64_of_Z (10 ^ e)) F1 Z) B). rewrite V1, V2 in DF. unfold literal. apply DF; [lra|].
  assert (Q : Rabs (IZR m / IZR (10 ^ e)) <= IZR (2 ^ 53)).
  { unfold Rdiv. rewrite Rabs_mult, <- abs_IZR, (Rabs_pos_eq (/ _)) by (left; apply Rinv_0_lt_compat; lra). apply Rle_trans with (IZR (Z.abs m) * 1); [|rewrite Rmult_1_r; apply IZR_le, M].
    apply Rmult_le_compat_l; [apply (IZR_le 0); lia|]. rewrite <- Rinv_1. apply Rinv_le_contravar; lra. }
  apply Rle_lt_trans with (IZR (2 ^ 53)).
  - apply Rabs_le_inv in Q. apply Rabs_le. split; [rewrite <- opp_IZR, <- (rnd_Z (- 2 ^ 53)) by lia|rewrite <- (rnd_Z (2 ^ 53)) by lia]; apply rnd_le; rewrite ?opp_IZR; apply Q.
  - rewrite pow53. apply bpow_lt. lia.
Qed.
Lemma literal_steps_value m e m' e' N : (0 < m <= 2 ^ 53)%Z -> (0 < m' <= 2 ^ 53)%Z -> (0 <= e <= 15)%Z -> (0 <= e' <= 15)%Z -> to_uint (b64_div (literal m e) (literal m' e')) = Ok N ->
  whole_steps (rnd (IZR m / IZR (10 ^ e))) (rnd (IZR m' / IZR (10 ^ e'))) = N.
Proof.
  intros M M' E E' H. destruct (literal_value m e ltac:(lia) E) as [F1 V1]. destruct (literal_value m' e' ltac:(lia) E') as [F2 V2].
  destruct (cast_inputs _ _ _ (or_introl H)) as [_ [NZ|[s X]]]; [|rewrite X in F2; discriminate]. apply uint_iff in H; [|exact F1|exact NZ]. rewrite V1, V2 in H. symmetry. apply H.
Qed.
Lemma normal_13 : bpow radix2 (-1022) <= 1 / IZR (10 ^ 13).
Proof.
  apply Rle_trans with (bpow radix2 (-44)); [apply bpow_le; lia|]. change (bpow radix2 (-44)) with (/ IZR (2 ^ 44)). unfold Rdiv. rewrite Rmult_1_l. apply Rinv_le_contravar; [apply IZR_lt; reflexivity|apply IZR_le; vm_compute; discriminate].
Qed.
Lemma refused (T dt W : b64) : is_finite dt = true -> is_finite W = true -> B2R W < B2R dt ->
  junction_grid T dt W = Err (Throw "The time step cannot be larger than write frequency!") /\ (forall t0, llgb_grid t0 T dt W = Err (Throw "The time step cannot be larger than write frequency!")).
Proof.
  intros FD FW L. assert (G : step_guard dt W = Err (Throw "The time step cannot be larger than write frequency!")).
  { unfold step_guard. rewrite (Bltb_correct 53 1024 W dt FW FD). destruct (Rlt_bool_spec (B2R W) (B2R dt)); [reflexivity|lra]. }
  split; [|intros t0]; unfold junction_grid, llgb_grid; rewrite G; reflexivity.
Qed.
Lemma clock_facts (t0 T dt W : b64) rows : is_finite t0 = true -> is_finite dt = true -> 0 <= B2R t0 -> 0 < B2R dt -> (0 <= whole_steps (B2R T) (B2R dt))%Z ->
  B2R t0 + IZR (whole_steps (B2R T) (B2R dt)) * B2R dt <= bpow radix2 1022 -> llgb_grid t0 T dt W = Ok rows ->
  Z.of_nat (length rows) = whole_steps (B2R T) (B2R dt) /\ (1 <= whole_steps (B2R W) (B2R dt))%Z /\
  forall k d, (k < length rows)%nat -> let t := B2R t0 + INR (S k) * B2R dt in
    is_finite (fst (nth k rows d)) = true /\ Rabs (B2R (fst (nth k rows d)) - t) <= INR (S k) * bpow radix2 (-52) * t /\
    (snd (nth k rows d) = true <-> (whole_steps (B2R W) (B2R dt) | Z.of_nat k)%Z).
Proof.
  intros FT0 FD T0 D N0 NB E. apply llgb_iff in E; [|exact FD]. destruct E as (FT & FW & NZ & G & BN & BW & _ & ->). assert (W1 := safe_modulus dt W D G). rewrite map_length, seq_length, !Z.mod_small by lia.
  split; [lia|]. split; [exact W1|]. intros k d K t. rewrite nth_map_seq by exact K. cbn [clock_row fst snd].
  assert (KN : INR (S k) <= IZR (whole_steps (B2R T) (B2R dt))) by (rewrite INR_IZR_INZ; apply IZR_le; lia). assert (KB : INR (S k) <= 4503599627370496) by (rewrite INR_IZR_INZ; apply IZR_le; lia).
  destruct (ticks_value dt t0 (S k) FD FT0 ltac:(lra) T0 KB ltac:(nra)) as [F V]. split; [exact F|]. split.
  - rewrite V. apply clock_close; try apply format_B2R; try assumption; lra.
  - rewrite Z.eqb_eq. apply Z.mod_divide. lia.
Qed.
Lemma clock_facts_increase (t0 T dt W : b64) rows : is_finite t0 = true -> is_finite dt = true -> 0 <= B2R t0 -> 0 < B2R dt -> (0 <= whole_steps (B2R T) (B2R dt))%Z ->
  B2R t0 + IZR (whole_steps (B2R T) (B2R dt)) * B2R dt <= bpow radix2 1022 -> B2R t0 <= bpow radix2 50 * B2R dt -> llgb_grid t0 T dt W = Ok rows ->
  forall k d, (S k < length rows)%nat -> B2R t0 < B2R (fst (nth k rows d)) < B2R (fst (nth (S k) rows d)).
Proof.
  intros FT0 FD T0 D N0 NB TB E. apply llgb_iff in E; [|exact FD]. destruct E as (FT & FW & NZ & G & BN & BW & _ & ->). rewrite map_length, seq_length. intros k d. rewrite Z.mod_small by lia. intros K.
  rewrite !nth_map_seq by lia. cbn [clock_row fst]. set (N := whole_steps (B2R T) (B2R dt)) in *.
  assert (V : forall i, (i <= S (S k))%nat -> B2R (ticks dt t0 i) = clock (B2R dt) (B2R t0) i /\ INR i <= 1125899906842624).
  { intros i I. assert (IN : INR i <= IZR N) by (rewrite INR_IZR_INZ; apply IZR_le; lia). assert (IB : INR i <= 1125899906842624) by (rewrite INR_IZR_INZ; apply IZR_le; lia). split; [|exact IB].
    apply ticks_value; try assumption; try lra. nra. }
  assert (U : forall i, (i <= S k)%nat -> clock (B2R dt) (B2R t0) i < clock (B2R dt) (B2R t0) (S i)) by (intros i I; apply clock_increase; try apply format_B2R; try assumption; apply V; lia).
  rewrite (proj1 (V (S k) ltac:(lia))), (proj1 (V (S (S k)) ltac:(lia))). split; [|apply U; lia].
  assert (A : forall i, (i <= k)%nat -> B2R t0 < clock (B2R dt) (B2R t0) (S i)). { induction i as [|i IH]; intros I; [apply (U 0%nat); lia|]. apply Rlt_trans with (1 := IH ltac:(lia)), U. lia. }
  apply A. lia.
Qed.
Lemma b64_neq (x y : b64) : is_finite x = true -> is_finite y = true -> Beqb x y = false -> B2R x <> B2R y.
Proof. intros F G E. rewrite (Beqb_correct 53 1024 x y F G) in E. destruct (Req_bool_spec (B2R x) (B2R y)); [discriminate|assumption]. Qed.
Lemma dt_pos : 0 < B2R (literal 1 13).
Proof.
  rewrite (proj2 (literal_value 1 13 ltac:(lia) ltac:(lia))). apply rnd_pos; [apply Rlt_le_trans with (2 := normal_13), bpow_gt_0|]. apply Rle_trans with (2 := normal_13), bpow_le. lia.
Qed.
(** A check that a result is a value with a property. *)
Definition ok_with {A} (p : A -> bool) (r : result A) : bool := match r with Ok a => p a | Err _ => false end.
Lemma ok_with_inv {A} (p : A -> bool) r : ok_with p r = true -> exists a, r = Ok a /\ p a = true.
Proof. destruct r; intros H; [eauto|discriminate]. Qed.

