(** The mixed spectrum, and what the spectra and the diode voltage mean for oscillating signals. *)
From Verif Require Export P_Compute.
From Coq Require Import Psatz.
Open Scope R_scope.
Open Scope st_scope.

Lemma mix_add_iff : forall ms xs r, mix_add ms xs = Ok r <-> (length ms <= length xs)%nat /\ length r = length ms /\ forall k, (k < length ms)%nat -> nth k r 0 = nth k ms 0 + nth k xs 0.
Proof.
  induction ms as [|m ms IH]; intros xs r; cbn [mix_add].
  - split; [intros E; injection E as <-; split; [cbn; lia|]; split; [reflexivity|cbn; intros; lia]|]. intros (_ & L & _). destruct r; [reflexivity|discriminate].
  - destruct xs as [|x xs]; [split; [discriminate|intros (L & _); cbn in L; lia]|]. unfold rbind. split.
    + destruct (mix_add ms xs) as [q|e] eqn:E; [|discriminate]. intros X. injection X as <-. apply IH in E. destruct E as (A & B & C). cbn [length]. split; [lia|]. split; [lia|]. intros [|k] Hk; cbn [nth]; [reflexivity|apply C; lia].
    + intros (A & B & C). destruct r as [|y r]; [discriminate|]. cbn [length] in A, B. rewrite (proj2 (IH xs r)).
      * f_equal. f_equal. symmetry. apply (C 0%nat). cbn. lia.
      * split; [lia|]. split; [lia|]. intros k Hk. apply (C (S k)). cbn. lia.
Qed.
Lemma mix_tags_iff g : forall tags ms r, mix_tags g tags ms = Ok r <->
  (forall tag, In tag tags -> exists xs, log_get tag g = Some xs /\ (length ms <= length xs)%nat) /\ length r = length ms /\
  forall k, (k < length ms)%nat -> nth k r 0 = nth k ms 0 + Sigma (map (fun tag => nth k (col tag g) 0) tags).
Proof.
  induction tags as [|tag tags IH]; intros ms r; cbn [mix_tags].
  - split.
    + intros E. injection E as <-. split; [intros t []|]. split; [reflexivity|]. intros k _. unfold Sigma. cbn. ring.
    + intros (_ & L & H). f_equal. apply (list_eq_nth 0); [symmetry; exact L|]. intros k Hk. rewrite H by lia. unfold Sigma. cbn. ring.
  - destruct (log_get tag g) as [xs|] eqn:E; [|split; [discriminate|intros (A & _); destruct (A tag (or_introl eq_refl)) as (ys & X & _); congruence]].
    assert (EC : col tag g = xs) by (unfold col; rewrite E; reflexivity). unfold rbind. split.
    + destruct (mix_add ms xs) as [q|e] eqn:EQ; [|discriminate]. intros H. apply mix_add_iff in EQ. destruct EQ as (Q1 & Q2 & Q3). apply IH in H. destruct H as (A & B & C). split; [|split].
      * intros u [<-|Hu]; [exists xs; auto|]. destruct (A u Hu) as (ys & Y1 & Y2). exists ys. split; [exact Y1|lia].
      * congruence.
      * intros k Hk. rewrite C by lia. rewrite Q3 by exact Hk. cbn [map]. rewrite Sigma_cons, EC. ring.
    + intros (A & B & C). destruct (A tag (or_introl eq_refl)) as (ys & Y1 & Y2). rewrite E in Y1. injection Y1 as <-.
      set (q := map (fun k => nth k ms 0 + nth k xs 0) (seq 0 (length ms))).
      assert (Lq : length q = length ms) by (unfold q; rewrite map_length, seq_length; reflexivity).
      assert (Nq : forall k, (k < length ms)%nat -> nth k q 0 = nth k ms 0 + nth k xs 0) by (intros k Hk; apply (nth_map_seq (fun k => nth k ms 0 + nth k xs 0)); exact Hk).
      rewrite (proj2 (mix_add_iff ms xs q)) by auto. apply IH. rewrite Lq. split; [intros u Hu; apply A; right; exact Hu|]. split; [exact B|]. intros k Hk. rewrite C, Nq by exact Hk. cbn [map]. rewrite Sigma_cons, EC. ring.
Qed.
Lemma half_pos n : half_bins n <> 0%nat <-> (3 <= n)%nat.
Proof. destruct n as [|n]; [cbn; split; [congruence|lia]|]. pose proof (half_cases (S n) ltac:(lia)). lia. Qed.
Lemma nth_repeat_0 n k : nth k (repeat 0 n) 0 = 0.
Proof. revert k. induction n; intros [|k]; cbn; auto. Qed.
Lemma mixed_bins n xs : (3 <= n)%nat -> length xs = n -> bins_loop (INR n / 2) (fft_r2c xs) 1 ((length xs + 1) / 2 - 1) = Ok (map (bin_value (INR n / 2) xs) (seq 1 (half_bins n))).
Proof.
  intros Hn L. rewrite L. rewrite out_bins by lia. replace (half_bins n + 1 - 1)%nat with (half_bins n) by lia. pose proof (half_cases n ltac:(lia)). apply bins_value.
  - assert (0 < INR n) by (apply lt_0_INR; lia). lra.
  - lia.
  - rewrite L. assert (half_bins n <= n / 2)%nat by (apply Nat.div_le_lower_bound; lia). lia.
Qed.
Lemma first_bin xs : (0 < length xs)%nat -> fst (nth 0 (fft_r2c xs) (0, 0)) = Sigma xs.
Proof. intros H. rewrite <- dft_zero. assert (E : nth 0 (fft_r2c xs) (0, 0) = (dft_re xs 0, dft_im xs 0)) by (apply nth_error_nth, fft_bin; [exact H|apply Nat.le_0_l]). rewrite E. reflexivity. Qed.
Lemma mixed_sound tags dt g g' r : spectralFFTMixed tags dt g = (g', Ok r) -> g' = g /\ mixed_result g tags dt r.
Proof.
  unfold spectralFFTMixed. intros H. apply bind_iff in H. destruct H as (g1 & time & HT & H). cbv zeta in H. rewrite maxIt_half in H.
  destruct (Nat.eqb_spec (half_bins (length time)) 0) as [E|E]; [discriminate|]. apply half_pos in E.
  assert (HT' : g1 = g /\ log_get "time" g = Some time).
  { unfold log_at in HT. destruct (log_get "time" g) as [c|] eqn:EG; [injection HT as <- <-; auto|]. exfalso. injection HT as _ <-. cbn in E. lia. }
  destruct HT' as [-> HT']. apply bind_value in H. destruct H as (fs & HF & H). rewrite get_bind in H. apply bind_value in H. destruct H as (mx & HM & H).
  apply mix_tags_iff in HM. rewrite repeat_length in HM. destruct HM as (M1 & M2 & M3). rewrite mixed_bins in H by (rewrite ?M2; auto).
  apply bind_value in H. destruct H as (bins & HB & H). injection HB as <-. apply ret_iff in H. destruct H as [-> ->]. split; [reflexivity|].
  rewrite <- maxIt_half in HF. apply axis_iff in HF. rewrite first_bin by lia.
  exists time, fs, mx. do 2 eexists. split; [exact HT'|]. split; [exact E|]. cbv zeta. split; [exact M2|]. split; [exact M1|]. split; [intros k Hk; rewrite M3 by exact Hk; rewrite nth_repeat_0; ring|].
  split; [exact HF|]. split; [apply (spectrum_values (length time) (half_bins (length time)) mx); lia|].
  split; [rewrite put_other by discriminate; reflexivity|]. split; [apply put_same|]. intros key K1 K2. rewrite put_other by exact K2. cbn [log_get]. destruct (String.eqb_spec "frequencies" key); [congruence|reflexivity].
Qed.
Lemma mixed_complete tags dt g time : log_get "time" g = Some time -> (3 <= length time)%nat -> dt <> 0 ->
  (forall tag, In tag tags -> exists xs, log_get tag g = Some xs /\ (length time <= length xs)%nat) -> exists r, spectralFFTMixed tags dt g = (g, Ok r).
Proof.
  intros HT HN Hd HX. set (n := length time) in *.
  set (mx := map (fun k => Sigma (map (fun tag => nth k (col tag g) 0) tags)) (seq 0 n)).
  assert (Lm : length mx = n) by (unfold mx; rewrite map_length, seq_length; reflexivity).
  eexists. unfold spectralFFTMixed. apply bind_iff. exists g, time. split; [unfold log_at; rewrite HT; reflexivity|]. cbv zeta. fold n.
  destruct (Nat.eqb_spec (maxIt n) 0) as [E|E]; [rewrite maxIt_half in E; apply half_pos in HN; contradiction|].
  apply bind_value. exists (map (fun i => INR i / (dt * INR n)) (seq 0 (half_bins n))). split.
  - apply axis_iff. split; [rewrite map_length, seq_length; reflexivity|]. intros i f Hf. rewrite nth_error_map in Hf. destruct (nth_error (seq 0 (half_bins n)) i) as [k|] eqn:Ek; [|discriminate].
    assert (Hi : (i < half_bins n)%nat) by (rewrite <- (seq_length (half_bins n) 0); apply nth_error_Some; congruence).
    rewrite nth_error_seq0 in Ek by exact Hi. injection Ek as <-. cbn in Hf. injection Hf as <-. split; [|reflexivity]. apply Rmult_integral_contrapositive_currified; [exact Hd|apply not_0_INR; lia].
  - rewrite get_bind. apply bind_value. exists mx. split.
    + apply mix_tags_iff. rewrite repeat_length. split; [exact HX|]. split; [exact Lm|]. intros k Hk. rewrite nth_repeat_0. unfold mx. rewrite (nth_map_seq (fun k => Sigma (map (fun tag => nth k (col tag g) 0) tags))) by exact Hk. ring.
    + apply bind_value. eexists. split; [apply mixed_bins; [exact HN|exact Lm]|]. apply ret_iff. split; reflexivity.
Qed.

(** ** Lengths *)
Lemma spectral_lengths tags m dt g g' r tag time : spectralFFT tags m dt g = (g', Ok r) -> In tag tags -> log_get "time" g = Some time ->
  exists fs amps phases p, log_get "frequencies" r = Some fs /\ log_get (tag ++ "_amplitude") r = Some amps /\ log_get (tag ++ "_phase") r = Some phases /\
    first_at m time p /\ length phases = length amps /\
    (length (col tag g) = length time -> length amps = Nat.max 1 (length fs)) /\ (length fs = half_bins (length time - p)).
Proof.
  intros H Hin HT. apply spectral_sound in H. destruct H as (_ & tm & p & fs & HT' & F & _ & H). cbv zeta in H. destruct H as (HF & GF & HA & _). rewrite HT in HT'. injection HT' as <-.
  destruct (HA tag Hin) as (xs & amps & phases & HX & Hp & GA & GP & (L1 & L2 & _)). exists fs, amps, phases, p. split; [exact GF|]. split; [exact GA|]. split; [exact GP|]. split; [exact F|]. split; [congruence|].
  destruct HF as [LF _]. split; [|exact LF]. intros EC. unfold col in EC. rewrite HX in EC. rewrite L1, LF, EC. reflexivity.
Qed.
Lemma mixed_lengths tags dt g g' r : spectralFFTMixed tags dt g = (g', Ok r) ->
  exists fs amps, log_get "frequencies" r = Some fs /\ log_get "mixed_amplitude" r = Some amps /\ length amps = S (length fs).
Proof.
  intros H. apply mixed_sound in H. destruct H as (_ & time & fs & mx & amps & phases & _ & _ & H). cbv zeta in H. destruct H as (_ & _ & _ & [LF _] & (LA & _) & GF & GA & _).
  exists fs, amps. split; [exact GF|]. split; [exact GA|]. rewrite LA, LF. reflexivity.
Qed.

(** ** Oscillations *)
Lemma wave_sum n j phi : (0 < j < n)%nat -> Rsum (fun t => cos (2 * PI * INR j * INR t / INR n + phi)) n = 0.
Proof.
  intros [J1 J2]. set (x := 2 * PI * INR j / INR n). assert (Hn : 0 < INR n) by (apply lt_0_INR; lia). assert (Hj : 0 < INR j) by (apply lt_0_INR; lia). assert (Hjn : INR j < INR n) by (apply lt_INR; lia). pose proof PI_RGT_0 as HP.
  assert (T : forall m, 2 * sin (x / 2) * Rsum (fun t => cos (INR t * x + phi)) m = sin (INR m * x - x / 2 + phi) - sin (- (x / 2) + phi)).
  { induction m as [|m IH]; [cbn; replace (0 * x - x / 2 + phi) with (- (x / 2) + phi) by ring; ring|]. cbn [Rsum]. rewrite Rmult_plus_distr_l, IH, S_INR.
    replace ((INR m + 1) * x - x / 2 + phi) with ((INR m * x + phi) + x / 2) by field. replace (INR m * x - x / 2 + phi) with ((INR m * x + phi) - x / 2) by ring. rewrite (sin_plus (INR m * x + phi)), (sin_minus (INR m * x + phi)). ring. }
  specialize (T n). assert (N1 : INR n * x = 0 + 2 * INR j * PI) by (unfold x; field; lra). rewrite N1 in T.
  replace (0 + 2 * INR j * PI - x / 2 + phi) with ((- (x / 2) + phi) + 2 * INR j * PI) in T by ring. rewrite sin_period in T. unfold Rminus in T. rewrite Rplus_opp_r in T.
  assert (S1 : 0 < sin (x / 2)). { apply sin_gt_0; unfold x; [apply Rmult_lt_reg_r with (2 * INR n); [nra|]; field_simplify; nra|]. apply Rmult_lt_reg_r with (INR n); [exact Hn|]. replace (2 * PI * INR j / INR n / 2 * INR n) with (PI * INR j) by (field; lra). nra. }
  apply Rmult_integral in T. destruct T as [T|T]; [nra|]. rewrite <- T. apply Rsum_ext. intros t _. f_equal. unfold x. field. lra.
Qed.
Lemma wave_const n phi : Rsum (fun _ => cos phi) n = INR n * cos phi.
Proof. induction n as [|n IH]; [cbn; ring|]. cbn [Rsum]. rewrite IH, S_INR. ring. Qed.
(** Products of two waves with fewer than n/2 periods each. *)
Lemma wave_product n q k phi : (0 < q)%nat -> (2 * q < n)%nat -> (0 < k)%nat -> (2 * k < n)%nat -> forall psi,
  Rsum (fun t => cos (2 * PI * INR q * INR t / INR n + phi) * cos (2 * PI * INR k * INR t / INR n + psi)) n =
  if Nat.eqb q k then INR n / 2 * cos (phi - psi) else 0.
Proof.
  intros Q1 Q2 K1 K2 psi. assert (Hn : INR n <> 0) by (apply not_0_INR; lia).
  transitivity (/ 2 * Rsum (fun t => cos (2 * PI * INR (q + k) * INR t / INR n + (phi + psi))) n + / 2 * Rsum (fun t => cos (2 * PI * (INR q - INR k) * INR t / INR n + (phi - psi))) n).
  - rewrite <- !Rsum_scal, <- Rsum_plus. apply Rsum_ext. intros t _. rewrite plus_INR.
    set (a := 2 * PI * INR q * INR t / INR n + phi). set (b := 2 * PI * INR k * INR t / INR n + psi).
    replace (2 * PI * (INR q + INR k) * INR t / INR n + (phi + psi)) with (a + b) by (unfold a, b; field; exact Hn).
    replace (2 * PI * (INR q - INR k) * INR t / INR n + (phi - psi)) with (a - b) by (unfold a, b; field; exact Hn).
    rewrite cos_plus, cos_minus. field.
  - rewrite wave_sum by lia. destruct (Nat.eqb_spec q k) as [->|D].
    + rewrite (Rsum_ext _ (fun _ => cos (phi - psi))); [rewrite wave_const; field|]. intros t _. f_equal. field. exact Hn.
    + destruct (Nat.lt_total q k) as [L|[L|L]]; [|contradiction|].
      * rewrite (Rsum_ext _ (fun t => cos (2 * PI * INR (k - q) * INR t / INR n + (psi - phi)))); [rewrite wave_sum by lia; ring|].
        intros t _. rewrite minus_INR by lia. rewrite <- (cos_neg (2 * PI * (INR q - INR k) * INR t / INR n + (phi - psi))). f_equal. field. exact Hn.
      * rewrite (Rsum_ext _ (fun t => cos (2 * PI * INR (q - k) * INR t / INR n + (phi - psi)))); [rewrite wave_sum by lia; ring|].
        intros t _. rewrite minus_INR by lia. reflexivity.
Qed.
Lemma dft_wave n q a phi xs k : oscillation n q a phi xs -> (0 < q)%nat -> (2 * q < n)%nat -> (0 < k)%nat -> (2 * k < n)%nat ->
  dft_re xs k = (if Nat.eqb q k then INR n / 2 * a * cos phi else 0) /\ dft_im xs k = (if Nat.eqb q k then INR n / 2 * a * sin phi else 0).
Proof.
  intros [L H] Q1 Q2 K1 K2. unfold dft_re, dft_im. rewrite L. split.
  - rewrite (Rsum_ext _ (fun t => a * (cos (2 * PI * INR q * INR t / INR n + phi) * cos (2 * PI * INR k * INR t / INR n + 0)))).
    + rewrite Rsum_scal, wave_product by assumption. rewrite Rminus_0_r. destruct (Nat.eqb q k); ring.
    + intros t Ht. rewrite H by exact Ht. rewrite Rplus_0_r. ring.
  - rewrite (Rsum_ext _ (fun t => a * (cos (2 * PI * INR q * INR t / INR n + phi) * cos (2 * PI * INR k * INR t / INR n + - (PI / 2))))).
    + rewrite Rsum_scal, wave_product by assumption. replace (phi - - (PI / 2)) with (PI / 2 + phi) by ring. replace (cos (PI / 2 + phi)) with (- sin phi) by (symmetry; rewrite Rplus_comm, cos_plus, cos_PI2, sin_PI2; ring). destruct (Nat.eqb q k); lra.
    + intros t Ht. rewrite H by exact Ht. replace (cos (2 * PI * INR k * INR t / INR n + - (PI / 2))) with (sin (2 * PI * INR k * INR t / INR n)); [ring|].
      symmetry. rewrite cos_plus, cos_neg, sin_neg, cos_PI2, sin_PI2. ring.
Qed.
(** The spectrum of an oscillation: one line of its amplitude and phase, everything else zero. *)
Lemma spectrum_wave n m q a phi xs amps phases : oscillation n q a phi xs -> (0 < q)%nat -> (2 * q < n)%nat -> spectrum n m xs amps phases -> (m <= half_bins n + 1)%nat ->
  forall i x, nth_error amps i = Some x -> x = if Nat.eqb i q then Rabs a else 0.
Proof.
  intros HO Q1 Q2 (L1 & L2 & S0 & P0 & SI) Hm i x Hx. assert (Hn : 0 < INR n) by (apply lt_0_INR; lia).
  assert (Li : (i < m)%nat) by (rewrite <- L1; apply nth_error_Some; congruence). pose proof (half_cases n ltac:(lia)) as HC.
  destruct i as [|i].
  - rewrite S0 in Hx. injection Hx as <-. destruct (Nat.eqb_spec 0 q) as [E|_]; [lia|]. destruct HO as [L H]. unfold Sigma. rewrite L.
    rewrite (Rsum_ext _ (fun t => a * cos (2 * PI * INR q * INR t / INR n + phi))) by exact H. rewrite Rsum_scal, wave_sum by lia. ring.
  - destruct (nth_error phases (S i)) as [f|] eqn:Ef; [|apply nth_error_None in Ef; lia]. destruct (SI (S i) x f ltac:(lia) Hx Ef) as [-> _].
    destruct (dft_wave n q a phi xs (S i) HO Q1 Q2 ltac:(lia) ltac:(lia)) as [-> ->]. rewrite (Nat.eqb_sym (S i) q). destruct (Nat.eqb q (S i)).
    + replace (INR n / 2 * a * cos phi * (INR n / 2 * a * cos phi) + INR n / 2 * a * sin phi * (INR n / 2 * a * sin phi)) with (Rsqr (INR n / 2 * a) * (Rsqr (sin phi) + Rsqr (cos phi))) by (unfold Rsqr; ring).
      rewrite sin2_cos2, Rmult_1_r, sqrt_Rsqr_abs, Rabs_mult, (Rabs_pos_eq (INR n / 2)) by lra. field. lra.
    + replace (0 * 0 + 0 * 0) with 0 by ring. rewrite sqrt_0. field. lra.
Qed.
Lemma phase_wave n m q a phi xs amps phases f : oscillation n q a phi xs -> (0 < q)%nat -> (2 * q < n)%nat -> spectrum n m xs amps phases -> (q < m)%nat -> 0 < a -> - PI < phi <= PI ->
  nth_error phases q = Some f -> f = phi.
Proof.
  intros HO Q1 Q2 (L1 & L2 & S0 & P0 & SI) Hm Ha HP Hf. assert (Hn : 0 < INR n) by (apply lt_0_INR; lia).
  destruct (nth_error amps q) as [x|] eqn:Ex; [|apply nth_error_None in Ex; lia]. destruct (SI q x f Q1 Ex Hf) as [_ HA].
  destruct (dft_wave n q a phi xs q HO Q1 Q2 Q1 Q2) as [E1 E2]. rewrite Nat.eqb_refl in E1, E2. rewrite E1, E2 in HA.
  apply (principal_unique _ _ _ _ HA). right. exists (INR n / 2 * a). split; [apply Rmult_lt_0_compat; lra|]. auto.
Qed.
(** ** Diode voltage *)
Lemma diode_order g tag f power minTime g' r : calculateVoltageSpinDiode tag f power minTime g = (g', Ok r) ->
  exists V mx mn, r = [("Vmix", V); ("RMax", mx); ("RMin", mn); ("Rpp", mx - mn)]%string /\ mn <= mx.
Proof.
  intros H. apply diode_sound in H. destruct H as (_ & time & res & p & mx & mn & I & _ & _ & _ & H). cbv zeta in H. destruct H as (_ & _ & MX & MN & _ & _ & _ & ->).
  do 3 eexists. split; [reflexivity|]. destruct MX as [M1 _], MN as [_ M2]. apply M2, M1.
Qed.
Lemma rectified g tag f power minTime g' r dt R0 A psi p n q : calculateVoltageSpinDiode tag f power minTime g = (g', Ok r) ->
  rectifying g tag f minTime dt R0 A psi p n q -> (0 < q)%nat -> (2 * q < n)%nat ->
  exists V mx mn, r = [("Vmix", V); ("RMax", mx); ("RMin", mn); ("Rpp", mx - mn)]%string /\ V = sqrt (power / R0) * (A / 2 * cos psi).
Proof.
  intros H (time & res & HT & HR & F & LT & LR & HS & HF) Q1 Q2. apply diode_sound in H. destruct H as (_ & tm & rs & p' & mx & mn & I & HT' & HR' & F' & H). cbv zeta in H.
  rewrite HT in HT'. injection HT' as <-. rewrite HR in HR'. injection HR' as <-. assert (p' = p) by (apply threshold_iff in F; apply threshold_iff in F'; congruence). subst p'.
  replace (length time - p)%nat with n in H by lia. destruct H as (_ & _ & MX & MN & HM & HI & HQ & ->). do 3 eexists. split; [reflexivity|].
  assert (Hn : INR n <> 0) by (apply not_0_INR; lia). set (t0 := nth p time 0) in *.
  assert (W : forall k, 2 * PI * f * (t0 + INR k * dt) = 2 * PI * INR q * INR k / INR n + 2 * PI * f * t0).
  { intros k. rewrite <- HF. field. exact Hn. }
  assert (M : Sigma (skipn p res) = INR n * R0).
  { rewrite (Sigma_nth _ n (fun k => R0 + A * cos (2 * PI * INR q * INR k / INR n + (2 * PI * f * t0 + psi - PI / 2)))); [|rewrite skipn_length; lia|].
    - rewrite Rsum_plus, Rsum_scal, wave_sum by lia. clear. induction n as [|n IH]; [cbn; ring|]. cbn [Rsum]. rewrite S_INR. lra.
    - intros k Hk. rewrite nth_skipn. destruct (HS k Hk) as [E1 E2]. rewrite E2, E1, W. f_equal. f_equal. rewrite <- (cos_neg (2 * PI * INR q * INR k / INR n + (2 * PI * f * t0 + psi - PI / 2))), <- cos_shift. f_equal. ring. }
  rewrite M in HQ. replace (INR n * R0 / INR n) with R0 in HQ by (field; exact Hn). rewrite <- HQ. rewrite sqrt_square by exact HI. f_equal.
  rewrite (Rsum_ext _ (fun k => R0 * cos (2 * PI * INR q * INR k / INR n + (2 * PI * f * t0 - PI / 2)) + A * (cos (2 * PI * INR q * INR k / INR n + (2 * PI * f * t0 + psi - PI / 2)) * cos (2 * PI * INR q * INR k / INR n + (2 * PI * f * t0 - PI / 2))))).
  - rewrite Rsum_plus, !Rsum_scal, wave_sum by lia. rewrite wave_product by lia. rewrite Nat.eqb_refl. replace (2 * PI * f * t0 + psi - PI / 2 - (2 * PI * f * t0 - PI / 2)) with psi by ring. field. exact Hn.
  - intros k Hk. destruct (HS k Hk) as [E1 E2]. rewrite E2, E1, W. set (y := 2 * PI * INR q * INR k / INR n).
    assert (C : forall z, cos (z - PI / 2) = sin z) by (intros z; rewrite cos_minus, cos_PI2, sin_PI2; ring).
    replace (y + (2 * PI * f * t0 - PI / 2)) with ((y + 2 * PI * f * t0) - PI / 2) by ring. replace (y + (2 * PI * f * t0 + psi - PI / 2)) with ((y + 2 * PI * f * t0 + psi) - PI / 2) by ring. rewrite !C. ring.
Qed.

(** ** Refusals *)
Lemma diode_empty tag f power m : calculateVoltageSpinDiode tag f power m [] = ([], Err (Throw "Empty log! Cannot proceed without running a simulation!")).
Proof. reflexivity. Qed.
Lemma diode_unknown tag f power m g : g <> [] -> log_get tag g = None -> calculateVoltageSpinDiode tag f power m g = (g, Err (Throw ("Tag was not found in the junction log: " ++ tag))).
Proof. intros H E. unfold calculateVoltageSpinDiode. rewrite get_bind. destruct g as [|e g0]; [contradiction|]. rewrite E. reflexivity. Qed.
Lemma spectral_late tags m dt g time t : log_get "time" g = Some time -> nth_error time (length time - 1) = Some t -> t <= m ->
  spectralFFT tags m dt g = (g, Err (Throw "The minTime parameter is larger than the simulation time!")).
Proof. intros E1 E2 H. unfold spectralFFT, log_at, bind. rewrite E1, E2. destruct (Rle_dec t m); [reflexivity|contradiction]. Qed.
Lemma spectral_unknown tags m dt g g' r tag : spectralFFT tags m dt g = (g', Ok r) -> In tag tags -> log_get tag g <> None.
Proof.
  intros H Hin E. apply spectral_sound in H. destruct H as (_ & tm & p & fs & _ & _ & _ & H). cbv zeta in H. destruct H as (_ & _ & HA & _). destruct (HA tag Hin) as (xs & _ & _ & HX & _). congruence.
Qed.
Lemma tags_unknown g n p tag post : log_get tag g = None -> forall pre acc, (forall u, In u pre -> exists c, tag_columns g n p u = Ok c) ->
  fft_tags g n p (pre ++ tag :: post) acc = Err (Throw ("FFT id tag was not found in the junction log: " ++ tag)).
Proof.
  intros E. induction pre as [|u pre IH]; intros acc H; [cbn [fft_tags app]; rewrite E; reflexivity|].
  cbn [app]. rewrite tags_step. destruct (H u (or_introl eq_refl)) as [c ->]. apply IH. intros w Hw. apply H. right. exact Hw.
Qed.
Lemma mixed_unknown tags dt g g' r tag : spectralFFTMixed tags dt g = (g', Ok r) -> In tag tags -> log_get tag g <> None.
Proof.
  intros H Hin E. apply mixed_sound in H. destruct H as (_ & time & fs & mx & amps & phases & _ & _ & H). cbv zeta in H. destruct H as (_ & H & _). destruct (H tag Hin) as (xs & X & _). congruence.
Qed.
Lemma mixed_short tags dt g time : log_get "time" g = Some time -> (length time < 3)%nat -> spectralFFTMixed tags dt g = (g, Err Undefined).
Proof.
  intros E H. unfold spectralFFTMixed, log_at, bind. rewrite E. cbv zeta. rewrite maxIt_half. destruct (Nat.eqb_spec (half_bins (length time)) 0) as [_|X]; [reflexivity|]. apply half_pos in X. lia.
Qed.
(** Every result of a spectrum is determined by the log: same keys, same columns. *)
Lemma list_ext {A} : forall xs ys : list A, (forall i, nth_error xs i = nth_error ys i) -> xs = ys.
Proof. induction xs as [|x xs IH]; intros [|y ys] H; [reflexivity|specialize (H 0%nat); discriminate|specialize (H 0%nat); discriminate|]. pose proof (H 0%nat) as E. cbn in E. injection E as <-. f_equal. apply IH. intros i. exact (H (S i)). Qed.
Lemma axis_det dt n m fs gs : frequency_axis dt n m fs -> frequency_axis dt n m gs -> fs = gs.
Proof.
  intros [L A] [M B]. apply list_ext. intros i. destruct (nth_error fs i) as [x|] eqn:E; [|symmetry; apply nth_error_None; apply nth_error_None in E; lia].
  destruct (nth_error gs i) as [y|] eqn:F; [|apply nth_error_None in F; assert (i < length fs)%nat by (apply nth_error_Some; congruence); lia].
  destruct (A i x E) as [_ ->], (B i y F) as [_ ->]. reflexivity.
Qed.
Lemma spectrum_det n m xs a f b g : spectrum n m xs a f -> spectrum n m xs b g -> a = b /\ f = g.
Proof.
  intros (A1 & A2 & A3 & A4 & A5) (B1 & B2 & B3 & B4 & B5).
  assert (K : forall i, nth_error a i = nth_error b i /\ nth_error f i = nth_error g i).
  { intros [|i]; [split; congruence|]. destruct (Nat.lt_ge_cases (S i) m) as [L|L].
    - destruct (nth_error a (S i)) as [x|] eqn:E1; [|apply nth_error_None in E1; lia]. destruct (nth_error b (S i)) as [y|] eqn:E2; [|apply nth_error_None in E2; lia].
      destruct (nth_error f (S i)) as [u|] eqn:E3; [|apply nth_error_None in E3; lia]. destruct (nth_error g (S i)) as [v|] eqn:E4; [|apply nth_error_None in E4; lia].
      destruct (A5 (S i) x u ltac:(lia) E1 E3) as [-> X], (B5 (S i) y v ltac:(lia) E2 E4) as [-> Y]. split; [reflexivity|]. f_equal. apply (principal_unique _ _ _ _ X Y).
    - repeat rewrite (proj2 (nth_error_None _ _)) by lia. auto. }
  split; apply list_ext; intros i; apply K.
Qed.
Lemma key_dec tags key : (exists tag, In tag tags /\ (key = tag ++ "_amplitude" \/ key = tag ++ "_phase"))%string \/ (forall tag, In tag tags -> key <> tag ++ "_amplitude" /\ key <> tag ++ "_phase")%string.
Proof.
  induction tags as [|t tags IH]; [right; intros tag []|]. destruct IH as [(u & H1 & H2)|N]; [left; exists u; split; [right; exact H1|exact H2]|].
  destruct (string_dec key (t ++ "_amplitude")) as [E|D1]; [left; exists t; split; [left; reflexivity|auto]|]. destruct (string_dec key (t ++ "_phase")) as [E|D2]; [left; exists t; split; [left; reflexivity|auto]|].
  right. intros u [<-|Hu]; auto.
Qed.
Lemma spectral_det g tags m dt r s : spectral_result g tags m dt r -> spectral_result g tags m dt s -> forall key, log_get key r = log_get key s.
Proof.
  intros (time & p & fs & T1 & F1 & _ & H1) (time' & p' & fs' & T2 & F2 & _ & H2) key. cbv zeta in *. rewrite T1 in T2. injection T2 as <-.
  assert (p' = p) by (apply threshold_iff in F1; apply threshold_iff in F2; congruence). subst p'. destruct H1 as (X1 & X2 & X3 & X4), H2 as (Y1 & Y2 & Y3 & Y4).
  destruct (string_dec key "frequencies") as [->|D]; [rewrite X2, Y2, (axis_det _ _ _ _ _ X1 Y1); reflexivity|].
  destruct (key_dec tags key) as [(tag & Hin & K)|N]; [|rewrite X4, Y4 by assumption; reflexivity].
  destruct (X3 tag Hin) as (xs & a & f & A1 & A2 & A3 & A4 & A5), (Y3 tag Hin) as (xs' & b & h & B1 & B2 & B3 & B4 & B5). rewrite A1 in B1. injection B1 as <-.
  destruct (spectrum_det _ _ _ _ _ _ _ A5 B5) as [-> ->]. destruct K as [-> | ->]; congruence.
Qed.

(** ** Example *)
Definition ex_wave : list R := map (fun t => 2 * cos (2 * PI * INR 1 * INR t / INR 5 + PI / 3)) (seq 0 5).
Definition ex_log : log_t := [("time", [0; 1; 2; 3; 4; 5]); ("R_1", 7 :: ex_wave)]%string.
Lemma ex_first : first_at 1 [0; 1; 2; 3; 4; 5] 1.
Proof. split; [cbn; lia|]. split; [intros [|k] t H E; [cbn in E; injection E as <-; lra|lia]|]. intros t E. cbn in E. injection E as <-. lra. Qed.
Lemma ex_spectrum : exists r, spectralFFT ["R_1"%string] 1 1 ex_log = (ex_log, Ok r).
Proof.
  apply (spectral_complete _ _ _ _ [0; 1; 2; 3; 4; 5] 1 5); [reflexivity|apply ex_first|reflexivity|lra|left; lra|].
  intros tag [<-|[]]. eexists. split; [reflexivity|]. cbn. lia.
Qed.
Lemma ex_osc : oscillation 5 1 2 (PI / 3) (skipn 1 (col "R_1" ex_log)).
Proof. split; [reflexivity|]. intros t Ht. change (skipn 1 (col "R_1" ex_log)) with ex_wave. unfold ex_wave. apply (nth_map_seq (fun t => 2 * cos (2 * PI * INR 1 * INR t / INR 5 + PI / 3))). exact Ht. Qed.
Lemma ex_mixed : exists r, spectralFFTMixed ["R_1"; "time"]%string 1 ex_log = (ex_log, Ok r).
Proof.
  apply (mixed_complete _ _ _ [0; 1; 2; 3; 4; 5]); [reflexivity|cbn; lia|lra|].
  intros tag [<-|[<-|[]]]; eexists; (split; [reflexivity|]); cbn; lia.
Qed.
Lemma diode_total g tag f power m time res p : log_get "time" g = Some time -> log_get tag g = Some res -> first_at m time p -> (p < length time)%nat -> (length time <= length res)%nat ->
  0 < Sigma (skipn p res) -> 0 <= power -> exists r, calculateVoltageSpinDiode tag f power m g = (g, Ok r).
Proof.
  intros T HR F P L HS HP. assert (Hn : 0 < INR (length time - p)) by (apply lt_0_INR; lia).
  destruct (skipn p res) as [|x xs] eqn:E; [apply (f_equal (@length R)) in E; rewrite skipn_length in E; cbn in E; lia|].
  eexists. apply diode_complete. exists time, res, p, (max_element x xs), (min_element x xs), (sqrt (power / (Sigma (x :: xs) / INR (length time - p)))). cbv zeta. rewrite E.
  split; [exact T|]. split; [exact HR|]. split; [exact F|]. split; [lia|]. split; [exact L|]. split; [apply max_attained|]. split; [apply min_attained|].
  assert (0 < Sigma (x :: xs) / INR (length time - p)) by (apply Rdiv_lt_0_compat; assumption). split; [lra|]. split; [apply sqrt_pos|]. split; [|reflexivity].
  apply sqrt_sqrt. unfold Rdiv at 1. apply Rmult_le_pos; [exact HP|]. left. apply Rinv_0_lt_compat. assumption.
Qed.
Definition ex_times : list R := map (fun k => 0 + INR k * 1) (seq 0 5).
Definition ex_res : list R := map (fun k => 10 + 1 * sin (2 * PI * (1 / 5) * (0 + INR k * 1) + 0)) (seq 0 5).
Definition ex_diode_log : log_t := [("time", ex_times); ("R", ex_res)]%string.
Lemma ex_rectifying : rectifying ex_diode_log "R" (1 / 5) 0 1 10 1 0 0 5 1.
Proof.
  exists ex_times, ex_res. split; [reflexivity|]. split; [reflexivity|]. split; [split; [cbn; lia|split; [intros; lia|intros t E; cbn in E; injection E as <-; lra]]|]. split; [reflexivity|]. split; [reflexivity|].
  assert (N : forall k, (k < 5)%nat -> nth k ex_times 0 = 0 + INR k * 1) by (intros k Hk; apply (nth_map_seq (fun k => 0 + INR k * 1)); exact Hk).
  split; [|cbn; lra]. intros k Hk. cbn [Nat.add]. rewrite (N k Hk), (N 0%nat ltac:(lia)). split; [cbn [INR]; ring|]. apply (nth_map_seq (fun k => 10 + 1 * sin (2 * PI * (1 / 5) * (0 + INR k * 1) + 0))). exact Hk.
Qed.
Lemma ex_diode : exists r, calculateVoltageSpinDiode "R" (1 / 5) 10 0 ex_diode_log = (ex_diode_log, Ok r).
Proof.
  apply (diode_total _ _ _ _ _ ex_times ex_res 0); [reflexivity|reflexivity|split; [cbn; lia|split; [intros; lia|intros t E; cbn in E; injection E as <-; lra]]|cbn; lia|cbn; lia| |lra].
  change (skipn 0 ex_res) with ex_res. unfold Sigma. change (length ex_res) with 5%nat. apply Rlt_le_trans with (Rsum (fun _ => 9) 5); [cbn; lra|]. apply Rsum_le. intros k Hk.
  unfold ex_res. rewrite (nth_map_seq (fun k => 10 + 1 * sin (2 * PI * (1 / 5) * (0 + INR k * 1) + 0))) by exact Hk. pose proof (SIN_bound (2 * PI * (1 / 5) * (0 + INR k * 1) + 0)). lra.
Qed.
