(** Drivers in binary64 arithmetic. *)
From Verif Require Import P_Drivers.
From Verif Require Export S_FloatDriver P_GridClock.
From Flocq Require Import Relative Plus_error.
Open Scope R_scope.
Open Scope st_scope.

Lemma abs_error p x : bpow radix2 (-1022) <= p -> Rabs (rnd x - x) <= u53 * (Rabs x + p).
Proof.
  intros P. destruct (error_N_FLT radix2 (-1074) 53 ltac:(lia) (fun x => negb (Z.even x)) x) as (e & n & E & N & _ & R). change (rnd x = x * (1 + e) + n) in R. rewrite R.
  replace (x * (1 + e) + n - x) with (x * e + n) by ring. apply (Rle_trans _ _ _ (Rabs_triang _ _)). rewrite Rabs_mult. unfold u_ro in E.
  assert (U : / 2 * bpow radix2 (- (53) + 1) = u53). { unfold u53. replace (/ 2) with (bpow radix2 (-1)) by reflexivity. rewrite <- bpow_plus. reflexivity. }
  assert (N' : Rabs n <= u53 * p). { apply (Rle_trans _ _ _ N). replace (/ 2) with (bpow radix2 (-1)) by reflexivity. rewrite <- bpow_plus. apply Rle_trans with (u53 * bpow radix2 (-1022)); [unfold u53; rewrite <- bpow_plus; apply bpow_le; lia|]. apply Rmult_le_compat_l; [apply bpow_ge_0|exact P]. }
  rewrite U in E. assert (A := Rabs_pos x). rewrite Rmult_plus_distr_l. apply Rplus_le_compat; [|exact N']. rewrite Rmult_comm. apply Rmult_le_compat_r; assumption.
Qed.
Lemma cast_int_iff x y N : is_finite x = true -> B2R y <> 0 -> cast_int (b64_div x y) = Ok N <-> N = whole_steps (B2R x) (B2R y) /\ (- 2 ^ 31 <= N < 2 ^ 31)%Z.
Proof.
  intros F NZ. unfold cast_int. destruct (div_trunc x y F NZ) as [[[A B] C]|[A C]]; rewrite A.
  - rewrite C. destruct (Z.leb_spec (- 2 ^ 31) (whole_steps (B2R x) (B2R y))), (Z.ltb_spec (whole_steps (B2R x) (B2R y)) (2 ^ 31)); cbn [andb]; (split; [intros E; first [discriminate|injection E as <-; split; [reflexivity|lia]]|intros [-> L]; first [reflexivity|lia]]).
  - split; [discriminate|]. intros [-> L]. lia.
Qed.
Lemma between_ok (a b c : b64) : is_finite a = true -> is_finite b = true -> is_finite c = true -> (Bleb a b && Bleb b c)%bool = true <-> B2R a <= B2R b <= B2R c.
Proof.
  intros FA FB FC. rewrite (Bleb_correct 53 1024 a b FA FB), (Bleb_correct 53 1024 b c FB FC). rewrite Bool.andb_true_iff.
  destruct (Rle_bool_spec (B2R a) (B2R b)), (Rle_bool_spec (B2R b) (B2R c)); intuition (first [discriminate|lra]).
Qed.
(** The exact outcome: which instants are inside the pulse. *)
Lemma pulse_iff (a t p c v : b64) : is_finite t = true -> is_finite p = true -> is_finite c = true -> B2R p <> 0 ->
  let N := whole_steps (B2R t) (B2R p) in
  Rabs (rnd (B2R c * B2R p)) < bpow radix2 1024 -> Rabs (rnd (IZR N * B2R p)) < bpow radix2 1024 -> Rabs (rnd (rnd (IZR N * B2R p) + rnd (B2R c * B2R p))) < bpow radix2 1024 ->
  pulse64 a t p c = Ok v <-> (- 2 ^ 31 <= N < 2 ^ 31)%Z /\
    ((rnd (IZR N * B2R p) <= B2R t <= rnd (rnd (IZR N * B2R p) + rnd (B2R c * B2R p)) /\ v = a) \/
     (~ (rnd (IZR N * B2R p) <= B2R t <= rnd (rnd (IZR N * B2R p) + rnd (B2R c * B2R p))) /\ v = b64_zero)).
Proof.
  intros FT FP FC NZ N O1 O2 O3. unfold pulse64. rewrite rbind_ok. setoid_rewrite (cast_int_iff t p _ FT NZ).
  assert (M : (- 2 ^ 31 <= N < 2 ^ 31)%Z -> (Bleb (b64_mult (b64_of_Z N) p) t && Bleb t (b64_plus (b64_mult (b64_of_Z N) p) (b64_mult c p)))%bool = true <-> rnd (IZR N * B2R p) <= B2R t <= rnd (rnd (IZR N * B2R p) + rnd (B2R c * B2R p))).
  { intros B. destruct (of_Z_value N) as [FZ VZ]; [lia|]. destruct (mult_value (b64_of_Z N) p FZ FP) as [F1 V1]; [rewrite VZ; exact O2|]. destruct (mult_value c p FC FP O1) as [F2 V2].
    destruct (plus_value _ _ F1 F2) as [F3 V3]; [rewrite V1, V2, VZ; exact O3|]. rewrite (between_ok _ _ _ F1 FT F3), V3, V1, V2, VZ. reflexivity. }
  split.
  - intros (n & [-> B] & E). fold N in B, E |- *. split; [exact B|]. specialize (M B). destruct (Bleb (b64_mult (b64_of_Z N) p) t && Bleb t (b64_plus (b64_mult (b64_of_Z N) p) (b64_mult c p)))%bool; injection E as <-.
    + left. split; [apply M; reflexivity|reflexivity].
    + right. split; [rewrite <- M; discriminate|reflexivity].
  - intros [B C]. exists N. split; [split; [reflexivity|exact B]|]. specialize (M B). f_equal. destruct (Bleb (b64_mult (b64_of_Z N) p) t && Bleb t (b64_plus (b64_mult (b64_of_Z N) p) (b64_mult c p)))%bool.
    + destruct C as [[_ C]|[C _]]; [symmetry; exact C|]. exfalso. apply C, M. reflexivity.
    + destruct C as [[C _]|[_ C]]; [apply M in C; discriminate|symmetry; exact C].
Qed.
Section OFF.
Context (t p c : R) (P0 : bpow radix2 (-1022) <= p) (P1 : p <= bpow radix2 1022) (T0 : 0 <= t) (T1 : t <= bpow radix2 1022) (C01 : 0 <= c <= 1) (Q : t / p < 2147483648).
Let q := t / p.
Let N := Zfloor q.
Lemma off_pos : 0 < p.
Proof. apply Rlt_le_trans with (2 := P0), bpow_gt_0. Qed.
Lemma off_q : 0 <= q.
Proof. unfold q. assert (P := off_pos). apply Rmult_le_pos; [exact T0|left; apply Rinv_0_lt_compat, P]. Qed.
Lemma off_t : t = q * p.
Proof. unfold q. assert (P := off_pos). field. lra. Qed.
Lemma off_N : IZR N <= q < IZR N + 1 /\ (0 <= N < 2 ^ 31)%Z.
Proof.
  split; [split; [apply Zfloor_lb|apply Zfloor_ub]|]. split; [apply Zfloor_lub, off_q|]. apply lt_IZR. apply Rle_lt_trans with q; [apply Zfloor_lb|exact Q].
Qed.
Lemma off_steps : edge_slack t p < phase_of t p < 1 - edge_slack t p -> whole_steps t p = N.
Proof.
  unfold edge_slack, phase_of. fold q. fold N. intros [L U]. destruct off_N as [[N1 N2] [N3 N4]]. assert (Q0 := off_q). unfold whole_steps. fold q.
  assert (E := abs_error 1 q ltac:(apply (bpow_le radix2 (-1022) 0); lia)). rewrite (Rabs_pos_eq q) in E by exact Q0. assert (S : u53 * (q + 1) <= bpow radix2 (-50) * (q + 1)) by (apply Rmult_le_compat_r; [lra|apply bpow_le; lia]).
  apply Rabs_le_inv in E. assert (N0 : 0 <= IZR N) by (apply (IZR_le 0), N3). rewrite Ztrunc_floor by lra. apply Zfloor_imp. rewrite plus_IZR. lra.
Qed.
Lemma pow50 : bpow radix2 (-50) = 8 * u53.
Proof. unfold u53. change 8 with (bpow radix2 3). rewrite <- bpow_plus. reflexivity. Qed.
(** All rounding errors together stay below the slack. *)
Lemma off_errors : let nT := rnd (IZR N * p) in let dT := rnd (c * p) in
  Rabs (nT - IZR N * p) <= bpow radix2 (-50) * (q + 1) * p /\ Rabs (rnd (nT + dT) - (IZR N + c) * p) <= bpow radix2 (-50) * (q + 1) * p.
Proof.
  intros nT dT. assert (P := off_pos). destruct off_N as [[N1 N2] [N3 N4]]. assert (Z0 : 0 <= IZR N) by (apply (IZR_le 0), N3). assert (NP : 0 <= IZR N * p) by nra. assert (CP : 0 <= c * p) by nra.
  assert (E1 := abs_error p (IZR N * p) P0). assert (E2 := abs_error p (c * p) P0). assert (E3 := abs_error p (nT + dT) P0). fold nT in E1. fold dT in E2. rewrite (Rabs_pos_eq (IZR N * p)) in E1 by exact NP. rewrite (Rabs_pos_eq (c * p)) in E2 by exact CP.
  assert (NT : 0 <= nT) by (unfold nT; rewrite <- rnd_0; apply rnd_le, NP). assert (DT : 0 <= dT) by (unfold dT; rewrite <- rnd_0; apply rnd_le, CP). rewrite (Rabs_pos_eq (nT + dT)) in E3 by lra.
  apply Rabs_le_inv in E1, E2, E3. rewrite pow50, u53_val in *. assert (QP : IZR N * p <= q * p) by nra. assert (CQ : c * p <= p) by nra.
  split; apply Rabs_le; split; lra.
Qed.
Lemma off_overflow : Rabs (rnd (c * p)) < bpow radix2 1024 /\ Rabs (rnd (IZR N * p)) < bpow radix2 1024 /\ Rabs (rnd (rnd (IZR N * p) + rnd (c * p))) < bpow radix2 1024.
Proof.
  assert (P := off_pos). destruct off_N as [[N1 N2] [N3 N4]]. assert (Z0 : 0 <= IZR N) by (apply (IZR_le 0), N3). assert (NP : 0 <= IZR N * p <= bpow radix2 1022). { split; [nra|]. rewrite off_t in T1. nra. }
  assert (CP : 0 <= c * p <= bpow radix2 1022) by nra. assert (F : format (bpow radix2 1022)). { replace (bpow radix2 1022) with (IZR 1 * bpow radix2 1022) by ring. apply format_scaled; lia. }
  assert (F' : format (bpow radix2 1023)). { replace (bpow radix2 1023) with (IZR 1 * bpow radix2 1023) by ring. apply format_scaled; lia. }
  assert (A : forall x, 0 <= x <= bpow radix2 1022 -> 0 <= rnd x <= bpow radix2 1022). { intros x [X0 X1]. split; [rewrite <- rnd_0; apply rnd_le, X0|rewrite <- (rnd_id _ F); apply rnd_le, X1]. }
  assert (B : bpow radix2 1022 < bpow radix2 1024) by (apply bpow_lt; lia). assert (B' : bpow radix2 1023 < bpow radix2 1024) by (apply bpow_lt; lia).
  assert (S : 2 * bpow radix2 1022 = bpow radix2 1023) by (change 2 with (bpow radix2 1); rewrite <- bpow_plus; reflexivity).
  assert (X := A _ NP). assert (Y := A _ CP). split; [rewrite Rabs_pos_eq; lra|]. split; [rewrite Rabs_pos_eq; lra|].
  assert (W : 0 <= rnd (rnd (IZR N * p) + rnd (c * p)) <= bpow radix2 1023). { split; [rewrite <- rnd_0; apply rnd_le; lra|]. rewrite <- (rnd_id _ F'). apply rnd_le. lra. }
  rewrite Rabs_pos_eq; lra.
Qed.
Lemma off_test : off_edges t p c -> rnd (IZR N * p) <= t <= rnd (rnd (IZR N * p) + rnd (c * p)) <-> phase_of t p < c.
Proof.
  intros [[L U] A]. destruct off_errors as [E1 E2]. unfold edge_slack, phase_of in *. fold q in L, U, A |- *. fold N in L, U, A, E1, E2 |- *. assert (P := off_pos). assert (T := off_t). set (s := bpow radix2 (-50) * (q + 1)) in *.
  apply Rabs_le_inv in E1, E2. rewrite T. assert (Z1 : s * p < (q - IZR N) * p) by (apply Rmult_lt_compat_r; assumption). split.
  - intros [_ B]. destruct (Rlt_le_dec (q - IZR N) c) as [X|X]; [exact X|exfalso]. rewrite Rabs_pos_eq in A by lra. assert (Z2 : s * p < (q - IZR N - c) * p) by (apply Rmult_lt_compat_r; assumption). lra.
  - intros X. rewrite Rabs_left in A by lra. assert (Z2 : s * p < - (q - IZR N - c) * p) by (apply Rmult_lt_compat_r; assumption). split; lra.
Qed.
End OFF.
Lemma pulse_off (a t p c : b64) : is_finite t = true -> is_finite p = true -> is_finite c = true -> bpow radix2 (-1022) <= B2R p <= bpow radix2 1022 -> 0 <= B2R t <= bpow radix2 1022 -> 0 <= B2R c <= 1 ->
  B2R t / B2R p < 2147483648 -> off_edges (B2R t) (B2R p) (B2R c) ->
  (phase_of (B2R t) (B2R p) < B2R c -> pulse64 a t p c = Ok a) /\ (B2R c < phase_of (B2R t) (B2R p) -> pulse64 a t p c = Ok b64_zero).
Proof.
  intros FT FP FC [P0 P1] [T0 T1] C Q O. assert (PP := off_pos _ P0). assert (W := off_steps _ _ P0 T0 Q (proj1 O)). destruct (off_overflow _ _ _ P0 P1 T0 T1 C Q) as (O1 & O2 & O3). rewrite <- W in O2, O3.
  assert (TE := off_test _ _ _ P0 T0 C Q O). rewrite <- W in TE. assert (I := fun v => pulse_iff a t p c v FT FP FC ltac:(lra) O1 O2 O3). cbv zeta in I.
  destruct (off_N _ _ P0 T0 Q) as [_ NB]. split; intros H; apply I; (split; [rewrite W; lia|]).
  - left. split; [apply TE, H|reflexivity].
  - right. split; [rewrite TE; lra|reflexivity].
Qed.
Lemma step_iff (a t t0 t1 : b64) : is_finite t = true -> is_finite t0 = true -> is_finite t1 = true ->
  (B2R t0 <= B2R t <= B2R t1 -> step64 a t t0 t1 = a) /\ (~ (B2R t0 <= B2R t <= B2R t1) -> step64 a t t0 t1 = b64_zero).
Proof.
  intros F F0 F1. unfold step64. assert (B := between_ok t0 t t1 F0 F F1). destruct (Bleb t0 t && Bleb t t1)%bool; split; intros H; try reflexivity; exfalso.
  - apply H, B. reflexivity.
  - apply B in H. discriminate.
Qed.
(** ** Agreement with the drivers over the reals *)
Lemma real_pulse a t p c : 0 < p -> 0 <= t -> t / p < 2147483648 -> M_Drivers.pulseTrain a t p c = Ok (if Rle_dec (phase_of t p) c then a else 0).
Proof.
  intros P T Q. unfold M_Drivers.pulseTrain, fdiv. destruct (Req_EM_T p 0); [lra|]. cbn [rbind]. unfold to_int. assert (Q0 : 0 <= t / p) by (apply Rmult_le_pos; [exact T|left; apply Rinv_0_lt_compat, P]).
  destruct (Rlt_dec (-2147483649) (t / p)); [|lra]. destruct (Rlt_dec (t / p) 2147483648); [|lra]. cbn [rbind].
  assert (F : IZR (Zfloor (t / p)) <= t / p < IZR (Zfloor (t / p)) + 1) by (split; [apply Zfloor_lb|apply Zfloor_ub]). rewrite (ztrunc_nonneg _ (Zfloor (t / p))); [|apply Zfloor_lub; exact Q0|exact F].
  assert (E : t = t / p * p) by (field; lra). unfold phase_of. set (q := t / p) in *. f_equal. assert (A : IZR (Zfloor q) * p <= q * p) by (apply Rmult_le_compat_r; lra).
  destruct (Rle_dec (IZR (Zfloor q) * p) t) as [L|L]; [|exfalso; apply L; rewrite E; exact A].
  destruct (Rle_dec t (IZR (Zfloor q) * p + c * p)) as [M|M], (Rle_dec (q - IZR (Zfloor q)) c) as [K|K]; try reflexivity; exfalso.
  - apply K. rewrite E in M. apply (Rmult_le_reg_r p); [exact P|]. lra.
  - apply M. rewrite E. apply (Rmult_le_compat_r p) in K; [|lra]. lra.
Qed.
Lemma zero_value : represents b64_zero 0.
Proof. split; reflexivity. Qed.
Lemma pulse_agrees (a t p c : b64) : is_finite a = true -> is_finite t = true -> is_finite p = true -> is_finite c = true -> bpow radix2 (-1022) <= B2R p <= bpow radix2 1022 -> 0 <= B2R t <= bpow radix2 1022 -> 0 <= B2R c <= 1 ->
  B2R t / B2R p < 2147483648 -> off_edges (B2R t) (B2R p) (B2R c) ->
  exists v w, pulse64 a t p c = Ok v /\ M_Drivers.pulseTrain (B2R a) (B2R t) (B2R p) (B2R c) = Ok w /\ represents v w.
Proof.
  intros FA FT FP FC PB TB CB Q O. destruct (pulse_off a t p c FT FP FC PB TB CB Q O) as [ON OFF]. assert (P := off_pos _ (proj1 PB)). rewrite (real_pulse _ _ _ _ P (proj1 TB) Q).
  destruct O as [_ O]. assert (SL : 0 <= edge_slack (B2R t) (B2R p)). { unfold edge_slack. apply Rmult_le_pos; [apply bpow_ge_0|]. assert (0 <= B2R t / B2R p) by (apply off_q; [exact (proj1 PB)|apply TB]). lra. }
  destruct (Rle_dec (phase_of (B2R t) (B2R p)) (B2R c)) as [L|L].
  - exists a, (B2R a). split; [|split; [reflexivity|split; [exact FA|reflexivity]]]. apply ON. destruct (Req_dec (phase_of (B2R t) (B2R p)) (B2R c)) as [E|E]; [|lra]. rewrite E, Rminus_diag_eq, Rabs_R0 in O by reflexivity. lra.
  - exists b64_zero, 0. split; [apply OFF; lra|]. split; [reflexivity|exact zero_value].
Qed.
Lemma step_agrees (a t t0 t1 : b64) : is_finite a = true -> is_finite t = true -> is_finite t0 = true -> is_finite t1 = true -> represents (step64 a t t0 t1) (M_Drivers.stepUpdate (B2R a) (B2R t) (B2R t0) (B2R t1)).
Proof.
  intros FA F F0 F1. destruct (step_iff a t t0 t1 F F0 F1) as [I O]. unfold M_Drivers.stepUpdate. destruct (Rle_dec (B2R t0) (B2R t)) as [L|L]; [destruct (Rle_dec (B2R t) (B2R t1)) as [M|M]|].
  - rewrite I by lra. split; [exact FA|reflexivity].
  - rewrite O by lra. exact zero_value.
  - rewrite O by lra. exact zero_value.
Qed.
Lemma pulse_far (a t p c : b64) : is_finite t = true -> is_finite p = true -> B2R p <> 0 -> ~ (- 2 ^ 31 <= whole_steps (B2R t) (B2R p) < 2 ^ 31)%Z -> pulse64 a t p c = Err Undefined.
Proof.
  intros FT FP NZ B. unfold pulse64. destruct (cast_int (b64_div t p)) as [n|e] eqn:E.
  - exfalso. apply cast_int_iff in E; [|exact FT|exact NZ]. destruct E as [-> E]. exact (B E).
  - unfold cast_int in E. destruct (is_finite (b64_div t p)); [destruct (_ && _)%bool in E|]; injection E as <- || discriminate; reflexivity.
Qed.
Lemma plus_zero (k : b64) : is_finite k = true -> represents (b64_plus k b64_zero) (B2R k).
Proof.
  intros F. assert (V : rnd (B2R k + B2R b64_zero) = B2R k) by (cbn [B2R b64_zero]; rewrite Rplus_0_r; apply rnd_id, format_B2R). rewrite <- V. apply plus_value; [exact F|reflexivity|]. rewrite V. apply (abs_B2R_lt_emax 53 1024).
Qed.
Lemma pulse_value (k a t p c : b64) : is_finite k = true -> is_finite a = true -> is_finite t = true -> is_finite p = true -> is_finite c = true -> Rabs (rnd (B2R k + B2R a)) < bpow radix2 1024 ->
  bpow radix2 (-1022) <= B2R p <= bpow radix2 1022 -> 0 <= B2R t <= bpow radix2 1022 -> 0 <= B2R c <= 1 -> B2R t / B2R p < 2147483648 -> off_edges (B2R t) (B2R p) (B2R c) ->
  exists v, pulse_value64 k a t p c = Ok v /\ (phase_of (B2R t) (B2R p) < B2R c -> represents v (rnd (B2R k + B2R a))) /\ (B2R c < phase_of (B2R t) (B2R p) -> represents v (B2R k)).
Proof.
  intros FK FA FT FP FC NO PB TB CB Q O. destruct (pulse_off a t p c FT FP FC PB TB CB Q O) as [ON OFF]. unfold pulse_value64. destruct (Rlt_le_dec (phase_of (B2R t) (B2R p)) (B2R c)) as [L|L].
  - rewrite (ON L). eexists. split; [reflexivity|]. split; [intros _; apply plus_value; assumption|lra].
  - destruct (Rle_lt_or_eq_dec _ _ L) as [G|E]; [rewrite (OFF G)|exfalso; destruct O as [[O1 _] O2]; rewrite <- E, Rminus_diag_eq, Rabs_R0 in O2 by reflexivity; assert (SL : 0 <= edge_slack (B2R t) (B2R p)); [unfold edge_slack; apply Rmult_le_pos; [apply bpow_ge_0|]; assert (0 <= B2R t / B2R p) by (apply off_q; [exact (proj1 PB)|apply TB]); lra|lra]].
    eexists. split; [reflexivity|]. split; [lra|]. intros _. apply plus_zero, FK.
Qed.
