(** Counts rounded up. *)
From Verif Require Export S_FloatCount P_FloatDriver.
From Flocq Require Import Relative.
Open Scope R_scope.
Open Scope st_scope.

Lemma up_value (x : b64) : Btrunc (Bnearbyint mode_UP x) = Zceil (B2R x).
Proof.
  rewrite trunc_value. destruct (Bnearbyint_correct 53 1024 _ mode_UP x) as [V _]. rewrite V. unfold round, F2R, scaled_mantissa, cexp, FIX_exp. cbn [Fnum Fexp bpow Z.opp round_mode]. rewrite !Rmult_1_r. apply Ztrunc_IZR.
Qed.
Lemma zero_test (x : b64) : is_finite x = true -> Beqb x b64_zero = true <-> B2R x = 0.
Proof. intros F. rewrite (Beqb_correct 53 1024 x b64_zero F eq_refl). change (B2R b64_zero) with 0. destruct (Req_bool_spec (B2R x) 0); intuition discriminate. Qed.
Lemma ceil_iff (x y : b64) n : is_finite x = true -> is_finite y = true -> rbind (py_div64 x y) to_ceil = Ok n <-> B2R y <> 0 /\ Rabs (rnd (B2R x / B2R y)) < bpow radix2 1024 /\ n = steps_up (B2R x) (B2R y).
Proof.
  intros FX FY. unfold py_div64. assert (Z := zero_test y FY). destruct (Beqb y b64_zero).
  - split; [discriminate|]. intros (NZ & _). exfalso. apply NZ, Z. reflexivity.
  - assert (NZ : B2R y <> 0) by (intros X; apply Z in X; discriminate). cbn [rbind]. destruct (div_finite x y FX NZ) as [D1 D2]. unfold to_ceil. split.
    + intros E. destruct (is_finite (b64_div x y)) eqn:F; [|discriminate]. destruct (Rlt_le_dec (Rabs (rnd (B2R x / B2R y))) (bpow radix2 1024)) as [L|G]; [|exfalso; specialize (D2 G); congruence].
      destruct (D1 L) as [_ V]. split; [exact NZ|]. split; [exact L|]. injection E as <-. rewrite up_value, V. reflexivity.
    + intros (_ & L & ->). destruct (D1 L) as [F V]. rewrite F, up_value, V. reflexivity.
Qed.
Lemma rbind_rbind {A B C} (r : result A) (f : A -> result B) (g : B -> result C) : rbind r (fun a => rbind (f a) g) = rbind (rbind r f) g.
Proof. destruct r; reflexivity. Qed.
Lemma counts_iff (X Y Z dx dy dz : b64) n : is_finite X = true -> is_finite Y = true -> is_finite Z = true -> is_finite dx = true -> is_finite dy = true -> is_finite dz = true ->
  block_counts X Y Z dx dy dz = Ok n <->
  B2R dx <> 0 /\ B2R dy <> 0 /\ B2R dz <> 0 /\
  Rabs (rnd (B2R X / B2R dx)) < bpow radix2 1024 /\ Rabs (rnd (B2R Y / B2R dy)) < bpow radix2 1024 /\ Rabs (rnd (B2R Z / B2R dz)) < bpow radix2 1024 /\
  n = (steps_up (B2R X) (B2R dx), steps_up (B2R Y) (B2R dy), Z.max (steps_up (B2R Z) (B2R dz)) 1).
Proof.
  intros FX FY FZ F1 F2 F3. unfold block_counts. rewrite rbind_rbind. split.
  - intros E. apply rbind_ok in E. destruct E as (x & E1 & E). apply ceil_iff in E1; [|assumption|assumption]. destruct E1 as (A1 & A2 & ->).
    rewrite rbind_rbind in E. apply rbind_ok in E. destruct E as (y & E1 & E). apply ceil_iff in E1; [|assumption|assumption]. destruct E1 as (B1 & B2 & ->).
    rewrite rbind_rbind in E. apply rbind_ok in E. destruct E as (z & E1 & E). apply ceil_iff in E1; [|assumption|assumption]. destruct E1 as (C1 & C2 & ->). injection E as <-. repeat split; assumption.
  - intros (A1 & B1 & C1 & A2 & B2 & C2 & ->). apply rbind_ok. eexists. split; [apply ceil_iff; repeat split; assumption|].
    rewrite rbind_rbind. apply rbind_ok. eexists. split; [apply ceil_iff; repeat split; assumption|]. rewrite rbind_rbind. apply rbind_ok. eexists. split; [apply ceil_iff; repeat split; assumption|]. reflexivity.
Qed.
(** ** The rounded count against the exact quotient *)
Lemma up_bounds T dt : 0 <= T / dt < bpow radix2 52 -> (Zceil (T / dt) - 1 <= steps_up T dt <= Zceil (T / dt))%Z /\ (steps_up T dt = Zceil (T / dt) - 1 -> rnd (T / dt) = IZR (Zceil (T / dt) - 1))%Z.
Proof.
  set (q := T / dt). intros [P L]. unfold steps_up. fold q. assert (C1 := Zceil_ub q). assert (C2 : IZR (Zceil q) < q + 1) by apply Zceil_lb.
  assert (B : (0 <= Zceil q <= 2 ^ 52)%Z). { split; [apply le_IZR; apply Rle_trans with q; assumption|]. apply Zceil_glb. rewrite (pow2 52) by lia. lra. }
  destruct (Z.eq_dec (Zceil q) 0) as [E|E].
  { assert (Q : q = 0) by (rewrite E in C1; cbn in C1; lra). rewrite Q, rnd_0. rewrite Zceil_IZR. split; [lia|]. intros; lia. }
  assert (U : rnd q <= IZR (Zceil q)) by (rewrite <- (rnd_Z (Zceil q)) by lia; apply rnd_le, C1). assert (D : IZR (Zceil q - 1) <= rnd q) by (rewrite <- (rnd_Z (Zceil q - 1)) by lia; apply rnd_le; rewrite minus_IZR; lra).
  assert (K1 : (Zceil (rnd q) <= Zceil q)%Z) by (apply Zceil_glb, U). assert (K2 : (Zceil q - 1 <= Zceil (rnd q))%Z) by (apply le_IZR; apply Rle_trans with (1 := D), Zceil_ub).
  split; [lia|]. intros X. apply Rle_antisym; [|exact D]. rewrite <- X. apply Zceil_ub.
Qed.
Lemma up_exact n T dt : dt <> 0 -> T = IZR n * dt -> (Z.abs n <= 2 ^ 53)%Z -> steps_up T dt = n.
Proof. intros NZ -> H. unfold steps_up. replace (IZR n * dt / dt) with (IZR n) by (field; exact NZ). rewrite rnd_Z by exact H. apply Zceil_IZR. Qed.
Lemma up_near q n : (0 < n < 2 ^ 50)%Z -> Rabs (q - IZR n) <= 4 * u53 * IZR n -> (Zceil (rnd q) = n \/ Zceil (rnd q) = n + 1)%Z.
Proof.
  intros N E. rewrite u53_val in E. apply Rabs_le_inv in E. assert (N0 : 1 <= IZR n) by (apply (IZR_le 1); lia). assert (N1 : IZR n <= 1125899906842624) by (apply IZR_le; lia).
  assert (H1 : IZR n - / 2 <= q <= IZR n + / 2) by lra.
  assert (G : forall m, (0 <= m <= 2 ^ 50)%Z -> rnd (IZR m + / 2) = IZR m + / 2).
  { intros m M. apply rnd_id. replace (IZR m + / 2) with (IZR (2 * m + 1) * bpow radix2 (-1)) by (rewrite plus_IZR, mult_IZR; change (bpow radix2 (-1)) with (/ 2); field). apply format_scaled; lia. }
  assert (U : rnd q <= IZR n + / 2) by (rewrite <- (G n) by lia; apply rnd_le; lra). assert (D : IZR (n - 1) + / 2 <= rnd q) by (rewrite <- (G (n - 1)%Z) by lia; apply rnd_le; rewrite minus_IZR; lra).
  rewrite minus_IZR in D. assert (K1 : (Zceil (rnd q) <= n + 1)%Z) by (apply Zceil_glb; rewrite plus_IZR; lra). assert (K2 : (n - 1 < Zceil (rnd q))%Z) by (apply lt_IZR; rewrite minus_IZR; apply Rlt_le_trans with (rnd q); [lra|apply Zceil_ub]). lia.
Qed.
(** Decimal sizes: n blocks of a decimal size give n or n + 1 blocks. *)
Lemma up_decimal n d : bpow radix2 (-1022) <= d -> (0 < n < 2 ^ 50)%Z -> steps_up (rnd (IZR n * d)) (rnd d) = n \/ steps_up (rnd (IZR n * d)) (rnd d) = (n + 1)%Z.
Proof.
  intros D N. assert (D0 : 0 < d) by (apply Rlt_le_trans with (2 := D), bpow_gt_0). assert (N1 : 1 <= IZR n) by (apply (IZR_le 1); lia). apply up_near; [exact N|].
  assert (E1 := rnd_close d D). assert (E2 := rnd_close (IZR n * d) ltac:(nra)). rewrite u53_val in *. apply Rabs_le_inv in E1, E2. set (a := rnd (IZR n * d)) in *. set (b := rnd d) in *.
  assert (B0 : 0 < b) by lra. assert (ND : 0 < IZR n * d) by nra. assert (NB1 : IZR n * (d - / 9007199254740992 * d) <= IZR n * b) by (apply Rmult_le_compat_l; lra). assert (NB2 : IZR n * b <= IZR n * (d + / 9007199254740992 * d)) by (apply Rmult_le_compat_l; lra).
  replace (a / b - IZR n) with ((a - IZR n * b) / b) by (field; lra). unfold Rdiv. rewrite Rabs_mult, (Rabs_pos_eq (/ b)) by (left; apply Rinv_0_lt_compat, B0). apply (Rmult_le_reg_r b); [exact B0|]. rewrite Rmult_assoc, Rinv_l, Rmult_1_r by lra.
  apply Rabs_le. split; lra.
Qed.
(** A product instead of a decimal: the end of [arange(0, k * dt, dt)]. *)
Lemma up_product n d : bpow radix2 (-1022) <= d -> (0 < n < 2 ^ 50)%Z -> steps_up (rnd (IZR n * d)) d = n \/ steps_up (rnd (IZR n * d)) d = (n + 1)%Z.
Proof.
  intros D N. assert (D0 : 0 < d) by (apply Rlt_le_trans with (2 := D), bpow_gt_0). assert (N1 : 1 <= IZR n) by (apply (IZR_le 1); lia). apply up_near; [exact N|].
  assert (E2 := rnd_close (IZR n * d) ltac:(nra)). rewrite u53_val in *. apply Rabs_le_inv in E2. set (a := rnd (IZR n * d)) in *. assert (ND : 0 < IZR n * d) by nra.
  replace (a / d - IZR n) with ((a - IZR n * d) / d) by (field; lra). unfold Rdiv. rewrite Rabs_mult, (Rabs_pos_eq (/ d)) by (left; apply Rinv_0_lt_compat, D0). apply (Rmult_le_reg_r d); [exact D0|]. rewrite Rmult_assoc, Rinv_l, Rmult_1_r by lra.
  apply Rabs_le. split; lra.
Qed.
(** ** arange *)
Lemma minus_value (x y : b64) : is_finite x = true -> is_finite y = true -> Rabs (rnd (B2R x - B2R y)) < bpow radix2 1024 -> represents (b64_minus x y) (rnd (B2R x - B2R y)).
Proof.
  intros FX FY H. assert (C := Bminus_correct 53 1024 _ _ mode_NE x y FX FY). change (round radix2 (SpecFloat.fexp 53 1024) (round_mode mode_NE) (B2R x - B2R y)) with (rnd (B2R x - B2R y)) in C.
  rewrite Rlt_bool_true in C by exact H. destruct C as (C1 & C2 & _). split; [exact C2|exact C1].
Qed.
Lemma sign_value (x : b64) : is_finite x = true -> B2R x <> 0 -> Bsign x = Rlt_bool (B2R x) 0.
Proof.
  destruct x as [s|s| |s m e H]; intros F NZ; try discriminate; [destruct NZ; reflexivity|]. cbn [Bsign B2R]. destruct s; cbn [SpecFloat.cond_Zopp cond_Zopp].
  - symmetry. apply Rlt_bool_true. apply F2R_lt_0. reflexivity.
  - symmetry. apply Rlt_bool_false. apply F2R_ge_0. cbn. lia.
Qed.
Lemma div_sign (x y : b64) : is_finite x = true -> is_finite y = true -> B2R y <> 0 -> B2R x <> 0 -> Rabs (rnd (B2R x / B2R y)) < bpow radix2 1024 -> Bsign (b64_div x y) = false <-> 0 < B2R x / B2R y.
Proof.
  intros FX FY NZ XZ H. assert (C := Bdiv_correct 53 1024 _ _ mode_NE x y NZ). change (round radix2 (SpecFloat.fexp 53 1024) (round_mode mode_NE) (B2R x / B2R y)) with (rnd (B2R x / B2R y)) in C.
  rewrite Rlt_bool_true in C by exact H. destruct C as (_ & C2 & C3). assert (NN : is_nan (Bdiv mode_NE x y) = false) by (rewrite FX in C2; destruct (Bdiv mode_NE x y); cbn in C2 |- *; congruence).
  unfold b64_div. rewrite (C3 NN), (sign_value x FX XZ), (sign_value y FY NZ).
  destruct (Rlt_bool_spec (B2R x) 0) as [X|X], (Rlt_bool_spec (B2R y) 0) as [Y|Y]; cbn [xorb]; (split; [intros E|intros P]); try discriminate; try reflexivity.
  - assert (I : / B2R y < 0) by (apply Rinv_lt_0_compat, Y). unfold Rdiv. nra.
  - exfalso. assert (B2R x * / B2R y < 0); [|unfold Rdiv in P; lra]. assert (0 < / B2R y) by (apply Rinv_0_lt_compat; lra). nra.
  - exfalso. assert (B2R x * / B2R y < 0); [|unfold Rdiv in P; lra]. assert (/ B2R y < 0) by (apply Rinv_lt_0_compat, Y). assert (0 < B2R x) by lra. nra.
  - apply Rmult_lt_0_compat; [lra|apply Rinv_0_lt_compat; lra].
Qed.
Lemma arange_length_iff (a b s : b64) n : is_finite a = true -> is_finite b = true -> is_finite s = true -> Rabs (rnd (B2R b - B2R a)) < bpow radix2 1024 ->
  let span := rnd (B2R b - B2R a) in
  arange_length a b s = Ok n <-> B2R s <> 0 /\ Rabs (rnd (span / B2R s)) < bpow radix2 1024 /\ (n < 2 ^ 63)%Z /\ n = range_count span (B2R s).
Proof.
  intros FA FB FS NO span. unfold arange_length. destruct (minus_value b a FB FA NO) as [FN VN]. fold span in VN. set (next := b64_minus b a) in *.
  unfold py_div64. assert (Z := zero_test s FS). destruct (Beqb s b64_zero).
  { split; [discriminate|]. intros (NZ & _). exfalso. apply NZ, Z. reflexivity. }
  assert (NZ : B2R s <> 0) by (intros X; apply Z in X; discriminate). cbn [rbind]. destruct (div_finite next s FN NZ) as [D1 D2]. rewrite VN in D1, D2.
  destruct (Rlt_le_dec (Rabs (rnd (span / B2R s))) (bpow radix2 1024)) as [L|G].
  - destruct (D1 L) as [FQ VQ]. set (q := b64_div next s) in *. assert (ZQ := zero_test q FQ). assert (ZN := zero_test next FN). rewrite VN in ZN. rewrite VQ in ZQ.
    assert (SG : span <> 0 -> Bsign q = false <-> 0 < span / B2R s) by (intros X; rewrite <- VN; apply div_sign; try rewrite VN; assumption).
    assert (MAIN : ((if (Beqb q b64_zero && negb (Beqb next b64_zero))%bool then (if Bsign q then 0%Z else 1%Z) else Z.max (steps_up span (B2R s)) 0) = range_count span (B2R s))).
    { unfold range_count. destruct (Beqb q b64_zero) eqn:EQ; cbn [andb].
      - assert (Q0 : rnd (span / B2R s) = 0) by (apply ZQ; reflexivity). assert (ST : steps_up span (B2R s) = 0%Z) by (unfold steps_up; rewrite Q0; apply (Zceil_IZR 0)). rewrite ST. destruct (Beqb next b64_zero) eqn:EN; cbn [negb].
        + assert (S0 : span = 0) by (apply ZN; reflexivity). rewrite S0. unfold Rdiv. rewrite Rmult_0_l. destruct (Rlt_dec 0 0); [lra|reflexivity].
        + assert (S0 : span <> 0) by (intros X; apply ZN in X; discriminate). specialize (SG S0). destruct (Bsign q), (Rlt_dec 0 (span / B2R s)) as [P|P]; try reflexivity; exfalso; [apply SG in P; discriminate|apply P, SG; reflexivity].
      - assert (Q0 : rnd (span / B2R s) <> 0) by (intros X; apply ZQ in X; discriminate). destruct (Rlt_dec 0 (span / B2R s)) as [P|P].
        + assert (R : 0 < rnd (span / B2R s)) by (assert (rnd 0 <= rnd (span / B2R s)) by (apply rnd_le; lra); rewrite rnd_0 in *; lra). assert (1 <= steps_up span (B2R s))%Z; [|lia]. unfold steps_up. assert (0 < Zceil (rnd (span / B2R s)))%Z; [|lia]. apply lt_IZR. apply Rlt_le_trans with (1 := R), Zceil_ub.
        + assert (R : rnd (span / B2R s) <= 0) by (rewrite <- rnd_0; apply rnd_le; lra). assert (steps_up span (B2R s) <= 0)%Z; [|lia]. unfold steps_up. apply Zceil_glb, R. }
    assert (CE : (if is_finite q then c <-- to_ceil q ;; (if Z.ltb c (2 ^ 63) then Ok (Z.max c 0) else Err (Throw "Maximum allowed size exceeded")) else Err (Throw "Maximum allowed size exceeded")) = if Z.ltb (steps_up span (B2R s)) (2 ^ 63) then Ok (Z.max (steps_up span (B2R s)) 0) else Err (Throw "Maximum allowed size exceeded")).
    { unfold to_ceil. rewrite FQ. cbn [rbind]. rewrite up_value, VQ. reflexivity. }
    rewrite CE. destruct (Beqb q b64_zero && negb (Beqb next b64_zero))%bool.
    + rewrite <- MAIN. split; [intros E; injection E as <-; repeat split; try assumption; destruct (Bsign q); lia|intros (_ & _ & _ & ->); reflexivity].
    + rewrite <- MAIN. destruct (Z.ltb_spec (steps_up span (B2R s)) (2 ^ 63)) as [B|B]; (split; [intros E|intros (_ & _ & B' & ->)]).
      * injection E as <-. repeat split; try assumption. lia.
      * reflexivity.
      * discriminate.
      * exfalso. lia.
  - split; [|intros (_ & L & _); exfalso; lra]. assert (F := D2 G). assert (NQ : Beqb (b64_div next s) b64_zero = false) by (destruct (b64_div next s) as [?|[]| |]; try discriminate; reflexivity).
    rewrite NQ, F. cbn [andb]. intros E. exfalso. congruence.
Qed.
Lemma arange_iff (a b s : b64) l : is_finite a = true -> is_finite b = true -> is_finite s = true -> Rabs (rnd (B2R b - B2R a)) < bpow radix2 1024 ->
  let span := rnd (B2R b - B2R a) in
  arange a b s = Ok l <-> B2R s <> 0 /\ Rabs (rnd (span / B2R s)) < bpow radix2 1024 /\ (range_count span (B2R s) < 2 ^ 63)%Z /\ l = map (arange_element a s) (seq 0 (Z.to_nat (range_count span (B2R s)))).
Proof.
  intros FA FB FS NO span. unfold arange. rewrite rbind_ok. setoid_rewrite (arange_length_iff a b s _ FA FB FS NO). fold span. split.
  - intros (n & (A & B & C & ->) & E). injection E as <-. repeat split; assumption.
  - intros (A & B & C & ->). eexists. split; [repeat split; eassumption|reflexivity].
Qed.
(** From zero: element i is the double nearest to i times the step. *)
Lemma element_zero (s : b64) i : is_finite s = true -> (Z.of_nat i <= 2 ^ 53)%Z -> Rabs (rnd (IZR (Z.of_nat i) * B2R s)) < bpow radix2 1024 -> represents (arange_element b64_zero s i) (rnd (IZR (Z.of_nat i) * B2R s)).
Proof.
  intros F B NO. assert (P : represents (b64_plus b64_zero s) (B2R s)).
  { assert (V : rnd (B2R b64_zero + B2R s) = B2R s) by (change (B2R b64_zero) with 0; rewrite Rplus_0_l; apply rnd_id, format_B2R). rewrite <- V. apply plus_value; [reflexivity|exact F|]. rewrite V. apply (abs_B2R_lt_emax 53 1024). }
  destruct i as [|[|i]].
  - cbn [arange_element]. rewrite Rmult_0_l, rnd_0. exact zero_value.
  - cbn [arange_element]. change (IZR (Z.of_nat 1)) with 1. rewrite Rmult_1_l, rnd_id by apply format_B2R. exact P.
  - cbn [arange_element]. destruct P as [FP VP]. destruct (minus_value _ b64_zero FP eq_refl) as [FM VM].
    { rewrite VP. change (B2R b64_zero) with 0. rewrite Rminus_0_r, rnd_id by apply format_B2R. apply (abs_B2R_lt_emax 53 1024). }
    rewrite VP in VM. change (B2R b64_zero) with 0 in VM. rewrite Rminus_0_r, rnd_id in VM by apply format_B2R. destruct (of_Z_value (Z.of_nat (S (S i)))) as [FZ VZ]; [lia|].
    destruct (mult_value _ _ FZ FM) as [FT VT]; [rewrite VZ, VM; exact NO|]. rewrite VZ, VM in VT. destruct (plus_value b64_zero _ eq_refl FT) as [FR VR].
    { rewrite VT. change (B2R b64_zero) with 0. rewrite Rplus_0_l, (rnd_id (rnd _)) by apply rnd_format. exact NO. }
    split; [exact FR|]. rewrite VR, VT. change (B2R b64_zero) with 0. rewrite Rplus_0_l. apply rnd_id, rnd_format.
Qed.
Lemma element_value (a s : b64) i : is_finite a = true -> is_finite s = true -> (2 <= Z.of_nat i <= 2 ^ 53)%Z ->
  let first := rnd (B2R a + B2R s) in let delta := rnd (first - B2R a) in let term := rnd (IZR (Z.of_nat i) * delta) in
  Rabs first < bpow radix2 1024 -> Rabs delta < bpow radix2 1024 -> Rabs term < bpow radix2 1024 -> Rabs (rnd (B2R a + term)) < bpow radix2 1024 ->
  represents (arange_element a s 0) (B2R a) /\ represents (arange_element a s 1) first /\ represents (arange_element a s i) (rnd (B2R a + term)).
Proof.
  intros FA FS I first delta term N1 N2 N3 N4. destruct (plus_value a s FA FS N1) as [F1 V1]. fold first in V1. destruct i as [|[|i]]; [lia|lia|]. cbn [arange_element]. split; [split; [exact FA|reflexivity]|]. split; [split; assumption|].
  destruct (minus_value _ a F1 FA) as [F2 V2]; [rewrite V1; exact N2|]. rewrite V1 in V2. fold delta in V2. destruct (of_Z_value (Z.of_nat (S (S i)))) as [FZ VZ]; [lia|].
  destruct (mult_value _ _ FZ F2) as [F3 V3]; [rewrite VZ, V2; exact N3|]. rewrite VZ, V2 in V3. fold term in V3. destruct (plus_value a _ FA F3) as [F4 V4]; [rewrite V3; exact N4|]. rewrite V3 in V4. split; assumption.
Qed.
Lemma mult_small k d : 0 < d -> (0 <= k)%Z -> forall i, (0 <= i <= k)%Z -> Rabs (rnd (IZR k * d)) < bpow radix2 1024 -> Rabs (rnd (IZR i * d)) < bpow radix2 1024.
Proof.
  intros D K i I H. assert (I0 : 0 <= IZR i) by (apply (IZR_le 0), I). assert (IK : IZR i <= IZR k) by (apply IZR_le, I). rewrite Rabs_pos_eq in H |- * by (rewrite <- rnd_0; apply rnd_le; nra). apply Rle_lt_trans with (2 := H), rnd_le. nra.
Qed.
Lemma axis_iff k (dt : b64) l : is_finite dt = true -> bpow radix2 (-1022) <= B2R dt -> (0 < k < 2 ^ 50)%Z -> Rabs (rnd (IZR k * B2R dt)) < bpow radix2 1024 ->
  noise_time_axis k dt = Ok l <-> steps_up (rnd (IZR k * B2R dt)) (B2R dt) = k /\ l = map (arange_element b64_zero dt) (seq 0 (Z.to_nat k)).
Proof.
  intros F N K NO. assert (D := off_pos _ N). unfold noise_time_axis. destruct (of_Z_value k) as [FZ VZ]; [lia|]. destruct (mult_value _ _ FZ F) as [FM VM]; [rewrite VZ; exact NO|]. rewrite VZ in VM. set (stop := b64_mult (b64_of_Z k) dt) in *.
  assert (SP : rnd (B2R stop - B2R b64_zero) = rnd (IZR k * B2R dt)) by (change (B2R b64_zero) with 0; rewrite Rminus_0_r, VM; apply rnd_id, rnd_format).
  assert (A := fun l => arange_iff b64_zero stop dt l eq_refl FM F). rewrite SP in A. specialize (fun l => A l NO). cbv zeta in A. set (T := rnd (IZR k * B2R dt)) in *.
  assert (K1 : 1 <= IZR k) by (apply (IZR_le 1); lia). assert (TP : 0 < T).
  { unfold T. assert (P := proj1 (Rabs_le_inv _ _ (rnd_close (IZR k * B2R dt) ltac:(nra)))). rewrite u53_val in P. assert (0 < IZR k * B2R dt) by nra. lra. }
  assert (SU := up_product k (B2R dt) N K). fold T in SU. assert (RC : range_count T (B2R dt) = steps_up T (B2R dt)).
  { unfold range_count. destruct (Rlt_dec 0 (T / B2R dt)) as [P|P]; [lia|]. exfalso. apply P. apply Rmult_lt_0_compat; [exact TP|apply Rinv_0_lt_compat, D]. }
  assert (NOQ : Rabs (rnd (T / B2R dt)) < bpow radix2 1024).
  { assert (Q0 : 0 <= T / B2R dt) by (apply Rmult_le_pos; [lra|left; apply Rinv_0_lt_compat, D]). assert (R0 : 0 <= rnd (T / B2R dt)) by (rewrite <- rnd_0; apply rnd_le, Q0). rewrite Rabs_pos_eq by exact R0.
    apply Rle_lt_trans with (IZR (steps_up T (B2R dt))); [apply Zceil_ub|]. apply Rle_lt_trans with (IZR (2 ^ 53)); [apply IZR_le; lia|]. rewrite pow53. apply bpow_lt. lia. }
  rewrite rbind_ok. setoid_rewrite A. rewrite RC. split.
  - intros (x & (_ & _ & _ & ->) & E). rewrite map_length, seq_length in E. destruct (Z.eqb_spec (Z.of_nat (Z.to_nat (steps_up T (B2R dt)))) k) as [Q|Q]; [|discriminate]. injection E as <-. assert (Q' : steps_up T (B2R dt) = k) by lia. split; [exact Q'|]. rewrite Q'. reflexivity.
  - intros [Q ->]. eexists. split; [repeat split; [lra|exact NOQ|lia]|]. rewrite map_length, seq_length, Q. destruct (Z.eqb_spec (Z.of_nat (Z.to_nat k)) k); [reflexivity|lia].
Qed.
Lemma reservoir_iff (T dt : b64) l : is_finite T = true -> B2R dt <> 0 ->
  reservoir_times T dt = Ok l <-> (- 2 ^ 31 <= whole_steps (B2R T) (B2R dt) < 2 ^ 31)%Z /\ l = map (fun i => b64_mult (b64_of_Z (Z.of_nat i)) dt) (seq 0 (Z.to_nat (whole_steps (B2R T) (B2R dt)))).
Proof.
  intros F NZ. unfold reservoir_times. rewrite rbind_ok. setoid_rewrite (cast_int_iff T dt _ F NZ). split.
  - intros (n & [-> B] & E). injection E as <-. split; [exact B|reflexivity].
  - intros [B ->]. eexists. split; [split; [reflexivity|exact B]|reflexivity].
Qed.
Lemma reservoir_rows (T dt : b64) : is_finite T = true -> is_finite dt = true -> 0 < B2R dt -> (- 2 ^ 31 <= whole_steps (B2R T) (B2R dt) < 2 ^ 31)%Z ->
  exists l, reservoir_times T dt = Ok l /\ Z.of_nat (length l) = Z.max 0 (whole_steps (B2R T) (B2R dt)) /\
    forall i d, (i < length l)%nat -> represents (nth i l d) (rnd (IZR (Z.of_nat i) * B2R dt)) /\ 0 <= rnd (IZR (Z.of_nat i) * B2R dt) <= B2R T.
Proof.
  intros F FD D B. eexists. split; [apply reservoir_iff; [exact F|lra|split; [exact B|reflexivity]]|]. rewrite map_length, seq_length. split; [lia|]. intros i d I. rewrite nth_map_seq by exact I. apply row_time; try assumption; lia.
Qed.
