(** C53, C65: spectra and spin-diode voltage of a log. *)
From Verif Require Import P_Spectrum.
From Coq Require Import Psatz.
Open Scope R_scope.

(** ** C53 *)
(** spectralFFT never changes a log that has a time column, and returns exactly the frequencies and, per
    tag, the one-sided spectrum of the samples from the first one at or after [minTime]. *)
Theorem c53_spectrum : forall tags minTime dt g g' r, spectralFFT tags minTime dt g = (g', Ok r) ->
  g' = g /\ spectral_result g tags minTime dt r.
Proof. exact spectral_sound. Qed.
Theorem c53_spectrum_exists : forall tags minTime dt g time p t, log_get "time" g = Some time -> first_at minTime time p ->
  nth_error time (length time - 1) = Some t -> minTime < t -> (dt <> 0 \/ (length time <= p + 2)%nat) ->
  (forall tag, In tag tags -> exists xs, log_get tag g = Some xs /\ (p < length xs)%nat) ->
  exists r, spectralFFT tags minTime dt g = (g, Ok r).
Proof. exact spectral_complete. Qed.
(** Two results described by the specification agree on every key. *)
Theorem c53_spectrum_unique : forall g tags minTime dt r s, spectral_result g tags minTime dt r ->
  spectral_result g tags minTime dt s -> forall key, log_get key r = log_get key s.
Proof. exact spectral_det. Qed.
Example c53_spectrum_ex : exists r, spectralFFT ["R_1"%string] 1 1 ex_log = (ex_log, Ok r) /\ spectral_result ex_log ["R_1"%string] 1 1 r.
Proof. destruct ex_spectrum as [r H]. exists r. split; [exact H|]. exact (proj2 (spectral_sound _ _ _ _ _ _ H)). Qed.
(** Equally many frequencies, amplitudes and phases for columns as long as the time column, when at least
    three samples are used. *)
Theorem c53_lengths : forall tags minTime dt g g' r tag time p, spectralFFT tags minTime dt g = (g', Ok r) ->
  In tag tags -> log_get "time" g = Some time -> first_at minTime time p -> length (col tag g) = length time ->
  (3 <= length time - p)%nat ->
  exists fs amps phases, log_get "frequencies" r = Some fs /\ log_get (tag ++ "_amplitude") r = Some amps /\
    log_get (tag ++ "_phase") r = Some phases /\ length amps = length fs /\ length phases = length fs /\
    length fs = ((length time - p - 1) / 2)%nat.
Proof.
  intros tags m dt g g' r tag time p H Hin HT F HC HN. destruct (spectral_lengths _ _ _ _ _ _ _ _ H Hin HT) as (fs & amps & phases & p' & G1 & G2 & G3 & F' & L1 & L2 & L3).
  assert (p' = p) by (apply threshold_iff in F; apply threshold_iff in F'; congruence). subst p'. specialize (L2 HC). apply half_pos in HN.
  exists fs, amps, phases. repeat (split; [assumption|]). rewrite L3 in *. repeat split; lia.
Qed.
Example c53_lengths_ex : exists r fs amps, spectralFFT ["R_1"%string] 1 1 ex_log = (ex_log, Ok r) /\
  log_get "frequencies" r = Some fs /\ log_get "R_1_amplitude" r = Some amps /\ length fs = 2%nat /\ length amps = 2%nat.
Proof.
  destruct ex_spectrum as [r H]. destruct (c53_lengths _ _ _ _ _ _ "R_1" [0; 1; 2; 3; 4; 5] 1 H ltac:(left; reflexivity) eq_refl ex_first eq_refl ltac:(cbn; lia)) as (fs & amps & ph & G1 & G2 & _ & L1 & _ & L2).
  exists r, fs, amps. split; [exact H|]. split; [exact G1|]. split; [exact G2|]. split; [exact L2|]. rewrite L1. exact L2.
Qed.
(** With one or two samples there is an amplitude but no frequency. *)
Theorem c53_short_refuted : exists g r amps, spectralFFT ["R"%string] 1 1 g = (g, Ok r) /\
  log_get "frequencies" r = Some [] /\ log_get "R_amplitude" r = Some amps /\ length amps = 1%nat.
Proof.
  set (g := [("time", [0; 1; 2]); ("R", [5; 6; 7])]%string).
  assert (F : first_at 1 [0; 1; 2] 1). { split; [cbn; lia|]. split; [intros [|k] t H E; [cbn in E; injection E as <-; lra|lia]|]. intros t E. cbn in E. injection E as <-. lra. }
  destruct (spectral_complete ["R"%string] 1 1 g [0; 1; 2] 1 2 eq_refl F eq_refl ltac:(lra) ltac:(left; lra)) as [r H].
  { intros tag [<-|[]]. eexists. split; [reflexivity|]. cbn. lia. }
  destruct (spectral_lengths _ _ _ _ _ _ "R" [0; 1; 2] H ltac:(left; reflexivity) eq_refl) as (fs & amps & ph & p & G1 & G2 & _ & F' & _ & L2 & L3).
  assert (p = 1%nat) by (apply threshold_iff in F; apply threshold_iff in F'; congruence). subst p. cbn in L3. destruct fs; [|discriminate].
  exists g, r, amps. split; [exact H|]. split; [exact G1|]. split; [exact G2|]. rewrite (L2 eq_refl). reflexivity.
Qed.
(** spectralFFTMixed always returns one amplitude more than frequencies. *)
Theorem c53_mixed_lengths : forall tags dt g g' r, spectralFFTMixed tags dt g = (g', Ok r) ->
  exists fs amps, log_get "frequencies" r = Some fs /\ log_get "mixed_amplitude" r = Some amps /\ length amps = S (length fs).
Proof. exact mixed_lengths. Qed.
Theorem c53_mixed : forall tags dt g g' r, spectralFFTMixed tags dt g = (g', Ok r) -> g' = g /\ mixed_result g tags dt r.
Proof. exact mixed_sound. Qed.
Theorem c53_mixed_exists : forall tags dt g time, log_get "time" g = Some time -> (3 <= length time)%nat -> dt <> 0 ->
  (forall tag, In tag tags -> exists xs, log_get tag g = Some xs /\ (length time <= length xs)%nat) ->
  exists r, spectralFFTMixed tags dt g = (g, Ok r).
Proof. exact mixed_complete. Qed.
Example c53_mixed_ex : exists r, spectralFFTMixed ["R_1"; "time"]%string 1 ex_log = (ex_log, Ok r) /\ mixed_result ex_log ["R_1"; "time"]%string 1 r.
Proof. destruct ex_mixed as [r H]. exists r. split; [exact H|]. exact (proj2 (mixed_sound _ _ _ _ _ H)). Qed.
(** Fewer than three samples: spectralFFTMixed writes outside its frequency vector. *)
Theorem c53_mixed_short : forall tags dt g time, log_get "time" g = Some time -> (length time < 3)%nat ->
  spectralFFTMixed tags dt g = (g, Err Undefined).
Proof. exact mixed_short. Qed.
Example c53_mixed_short_ex : spectralFFTMixed ["R"%string] 1 [("time", [1; 2]); ("R", [5; 6])]%string = ([("time", [1; 2]); ("R", [5; 6])]%string, Err Undefined).
Proof. apply (mixed_short _ _ _ [1; 2]); [reflexivity|cbn; lia]. Qed.
(** Refusals. *)
Theorem c53_late : forall tags minTime dt g time t, log_get "time" g = Some time -> nth_error time (length time - 1) = Some t ->
  t <= minTime -> spectralFFT tags minTime dt g = (g, Err (Throw "The minTime parameter is larger than the simulation time!")).
Proof. exact spectral_late. Qed.
Example c53_late_ex : spectralFFT ["R_1"%string] 5 1 ex_log = (ex_log, Err (Throw "The minTime parameter is larger than the simulation time!")).
Proof. apply (spectral_late _ _ _ _ [0; 1; 2; 3; 4; 5] 5); [reflexivity|reflexivity|lra]. Qed.
Theorem c53_unknown : forall tags minTime dt g g' r tag, spectralFFT tags minTime dt g = (g', Ok r) -> In tag tags -> log_get tag g <> None.
Proof. exact spectral_unknown. Qed.
Theorem c53_mixed_unknown : forall tags dt g g' r tag, spectralFFTMixed tags dt g = (g', Ok r) -> In tag tags -> log_get tag g <> None.
Proof. exact mixed_unknown. Qed.

(** ** C65 *)
(** An oscillation with q whole periods in the samples used shows as one line at bin q with its amplitude;
    all other bins are zero. *)
Theorem c65_line : forall tags minTime dt g g' r tag time p n q a phi, spectralFFT tags minTime dt g = (g', Ok r) -> In tag tags ->
  log_get "time" g = Some time -> first_at minTime time p -> n = (length time - p)%nat ->
  oscillation n q a phi (skipn p (col tag g)) -> (0 < q)%nat -> (2 * q < n)%nat ->
  exists amps, log_get (tag ++ "_amplitude") r = Some amps /\
    forall i x, nth_error amps i = Some x -> x = if Nat.eqb i q then Rabs a else 0.
Proof.
  intros tags m dt g g' r tag time p n q a phi H Hin HT F -> HO Q1 Q2. apply spectral_sound in H. destruct H as (_ & tm & p' & fs & HT' & F' & _ & H). cbv zeta in H. rewrite HT in HT'. injection HT' as <-.
  assert (p' = p) by (apply threshold_iff in F; apply threshold_iff in F'; congruence). subst p'. destruct H as (_ & _ & HA & _). destruct (HA tag Hin) as (xs & amps & phases & HX & Hp & GA & GP & HS).
  assert (EC : col tag g = xs) by (unfold col; rewrite HX; reflexivity). rewrite EC in HO. exists amps. split; [exact GA|].
  apply (spectrum_wave _ _ q a phi _ _ _ HO Q1 Q2 HS). destruct HO as [L _]. rewrite skipn_length in L. rewrite L. lia.
Qed.
(** The phase of the line is the phase of the oscillation. *)
Theorem c65_phase : forall tags minTime dt g g' r tag time p n q a phi, spectralFFT tags minTime dt g = (g', Ok r) -> In tag tags ->
  log_get "time" g = Some time -> first_at minTime time p -> n = (length time - p)%nat ->
  oscillation n q a phi (skipn p (col tag g)) -> (0 < q < (n - 1) / 2)%nat -> 0 < a -> - PI < phi <= PI ->
  exists phases, log_get (tag ++ "_phase") r = Some phases /\ nth_error phases q = Some phi.
Proof.
  intros tags m dt g g' r tag time p n q a phi H Hin HT F -> HO [Q1 Q2] Ha HP. apply spectral_sound in H. destruct H as (_ & tm & p' & fs & HT' & F' & _ & H). cbv zeta in H. rewrite HT in HT'. injection HT' as <-.
  assert (p' = p) by (apply threshold_iff in F; apply threshold_iff in F'; congruence). subst p'. destruct H as (_ & _ & HA & _). destruct (HA tag Hin) as (xs & amps & phases & HX & Hp & GA & GP & HS).
  assert (EC : col tag g = xs) by (unfold col; rewrite HX; reflexivity). rewrite EC in HO. exists phases. split; [exact GP|].
  assert (L : (length xs - p = length time - p)%nat) by (destruct HO as [L _]; rewrite skipn_length in L; exact L). rewrite L in HS. fold (half_bins (length time - p)) in Q2.
  assert (HC : (2 * q < length time - p)%nat) by (pose proof (half_cases (length time - p) ltac:(lia)); lia).
  destruct (nth_error phases q) as [f|] eqn:E; [f_equal; apply (phase_wave _ _ q a phi _ _ _ f HO Q1 HC HS); [lia|exact Ha|exact HP|exact E]|].
  apply nth_error_None in E. destruct HS as (_ & L2 & _). lia.
Qed.
Example c65_line_ex : exists r amps phases, spectralFFT ["R_1"%string] 1 1 ex_log = (ex_log, Ok r) /\
  log_get "R_1_amplitude" r = Some amps /\ nth_error amps 1 = Some 2 /\ log_get "R_1_phase" r = Some phases /\ nth_error phases 1 = Some (PI / 3).
Proof.
  destruct ex_spectrum as [r H]. pose proof PI_RGT_0.
  destruct (c65_line _ _ _ _ _ _ "R_1" _ 1 5 1 2 (PI / 3) H ltac:(left; reflexivity) eq_refl ex_first eq_refl ex_osc ltac:(lia) ltac:(lia)) as (amps & G1 & HA).
  destruct (c65_phase _ _ _ _ _ _ "R_1" _ 1 5 1 2 (PI / 3) H ltac:(left; reflexivity) eq_refl ex_first eq_refl ex_osc ltac:(cbn; lia) ltac:(lra) ltac:(lra)) as (ph & G2 & HP).
  exists r, amps, ph. split; [exact H|]. split; [exact G1|]. split; [|auto].
  destruct (c53_lengths _ _ _ _ _ _ "R_1" _ 1 H ltac:(left; reflexivity) eq_refl ex_first eq_refl ltac:(cbn; lia)) as (fs & am & ph' & _ & G3 & _ & L1 & _ & L2).
  change ("R_1" ++ "_amplitude")%string with "R_1_amplitude"%string in *. rewrite G1 in G3. injection G3 as <-. cbn in L2. destruct (nth_error amps 1) as [x|] eqn:E; [|apply nth_error_None in E; lia].
  rewrite (HA 1%nat x E). cbn. rewrite Rabs_pos_eq by lra. reflexivity.
Qed.
(** The highest bin below half the sample rate is computed by the transform but not returned: an
    oscillation there leaves every returned amplitude zero. *)
Theorem c65_top_bin_missing : forall tags minTime dt g g' r tag time p n a phi, spectralFFT tags minTime dt g = (g', Ok r) -> In tag tags ->
  log_get "time" g = Some time -> first_at minTime time p -> n = (length time - p)%nat -> (3 <= n)%nat ->
  oscillation n ((n - 1) / 2) a phi (skipn p (col tag g)) ->
  exists amps, log_get (tag ++ "_amplitude") r = Some amps /\ forall i x, nth_error amps i = Some x -> x = 0.
Proof.
  intros tags m dt g g' r tag time p n a phi H Hin HT F En HN HO. fold (half_bins n) in HO. pose proof (proj2 (half_pos n) HN) as Q1. pose proof (half_cases n ltac:(lia)) as HC.
  destruct (c65_line _ _ _ _ _ _ _ _ _ _ _ _ _ H Hin HT F En HO ltac:(lia) ltac:(lia)) as (amps & G & HA). exists amps. split; [exact G|]. intros i x E. rewrite (HA i x E).
  destruct (Nat.eqb_spec i (half_bins n)) as [D|_]; [|reflexivity]. exfalso.
  destruct (spectral_lengths _ _ _ _ _ _ _ _ H Hin HT) as (fs & am & ph & p' & _ & G2 & _ & F' & _ & L2 & L3). rewrite G in G2. injection G2 as <-.
  assert (p' = p) by (apply threshold_iff in F; apply threshold_iff in F'; congruence). subst p'.
  assert (LC : length (col tag g) = length time). { destruct HO as [L _]. rewrite skipn_length in L. lia. }
  specialize (L2 LC). assert (i < length amps)%nat by (apply nth_error_Some; congruence). rewrite <- En in L3. lia.
Qed.
Example c65_top_bin_ex : exists r amps, spectralFFT ["R"%string] 0 1 [("time", [0; 1; 2]); ("R", map (fun t => 3 * cos (2 * PI * INR 1 * INR t / INR 3 + 0)) (seq 0 3))]%string = ([("time", [0; 1; 2]); ("R", map (fun t => 3 * cos (2 * PI * INR 1 * INR t / INR 3 + 0)) (seq 0 3))]%string, Ok r) /\
  log_get "R_amplitude" r = Some amps /\ (forall i x, nth_error amps i = Some x -> x = 0) /\ amps <> [].
Proof.
  set (w := map (fun t => 3 * cos (2 * PI * INR 1 * INR t / INR 3 + 0)) (seq 0 3)).
  assert (F : first_at 0 [0; 1; 2] 0). { split; [cbn; lia|]. split; [intros; lia|]. intros t E. cbn in E. injection E as <-. lra. }
  destruct (spectral_complete ["R"%string] 0 1 [("time", [0; 1; 2]); ("R", w)]%string [0; 1; 2] 0 2 eq_refl F eq_refl ltac:(lra) ltac:(left; lra)) as [r H].
  { intros tag [<-|[]]. exists w. split; [reflexivity|]. cbn. lia. }
  assert (HO : oscillation 3 1 3 0 w) by (split; [reflexivity|intros t Ht; apply (nth_map_seq (fun t => 3 * cos (2 * PI * INR 1 * INR t / INR 3 + 0))); exact Ht]).
  destruct (c65_top_bin_missing _ _ _ _ _ _ "R" [0; 1; 2] 0 3 3 0 H ltac:(left; reflexivity) eq_refl F eq_refl ltac:(lia) HO) as (amps & G & HA).
  exists r, amps. split; [exact H|]. split; [exact G|]. split; [exact HA|].
  destruct (spectral_lengths _ _ _ _ _ _ "R" [0; 1; 2] H ltac:(left; reflexivity) eq_refl) as (fs & am & ph & p' & _ & G2 & _ & _ & _ & L2 & _). specialize (L2 eq_refl).
  change ("R" ++ "_amplitude")%string with "R_amplitude"%string in *. rewrite G in G2. injection G2 as <-. destruct amps; [cbn [length] in L2; lia|discriminate].
Qed.
(** Spin-diode result. *)
Theorem c65_diode : forall tag f power minTime g g' r, calculateVoltageSpinDiode tag f power minTime g = (g', Ok r) <->
  g' = g /\ diode_result g tag f power minTime r.
Proof. intros. split; [apply diode_sound|]. intros [-> H]. apply diode_complete, H. Qed.
(** A resistance R0 + A sin(2 pi f t + psi) over whole periods gives the rectified voltage
    sqrt(power / R0) A cos(psi) / 2, independent of R0's contribution at the drive frequency. *)
Theorem c65_rectified : forall g tag f power minTime g' r dt R0 A psi p n q, calculateVoltageSpinDiode tag f power minTime g = (g', Ok r) ->
  rectifying g tag f minTime dt R0 A psi p n q -> (0 < q)%nat -> (2 * q < n)%nat ->
  exists V mx mn, r = [("Vmix", V); ("RMax", mx); ("RMin", mn); ("Rpp", mx - mn)]%string /\ V = sqrt (power / R0) * (A / 2 * cos psi).
Proof. exact rectified. Qed.
Theorem c65_peak_to_peak : forall tag f power minTime g g' r, calculateVoltageSpinDiode tag f power minTime g = (g', Ok r) ->
  exists V mx mn, r = [("Vmix", V); ("RMax", mx); ("RMin", mn); ("Rpp", mx - mn)]%string /\ mn <= mx.
Proof. intros tag f power m g g' r. apply diode_order. Qed.
Theorem c65_diode_exists : forall g tag f power minTime time res p, log_get "time" g = Some time -> log_get tag g = Some res ->
  first_at minTime time p -> (p < length time)%nat -> (length time <= length res)%nat -> 0 < Sigma (skipn p res) -> 0 <= power ->
  exists r, calculateVoltageSpinDiode tag f power minTime g = (g, Ok r).
Proof. exact diode_total. Qed.
Example c65_rectified_ex : exists r V, calculateVoltageSpinDiode "R" (1 / 5) 10 0 ex_diode_log = (ex_diode_log, Ok r) /\ In ("Vmix"%string, V) r /\ V = 1 / 2.
Proof.
  destruct ex_diode as [r H]. destruct (rectified _ _ _ _ _ _ _ _ _ _ _ _ _ _ H ex_rectifying ltac:(lia) ltac:(lia)) as (V & mx & mn & E & HV).
  exists r, V. split; [exact H|]. split; [rewrite E; left; reflexivity|]. rewrite HV, cos_0. replace (10 / 10) with 1 by field. rewrite sqrt_1. field.
Qed.
Theorem c65_diode_empty : forall tag f power minTime, calculateVoltageSpinDiode tag f power minTime [] =
  ([], Err (Throw "Empty log! Cannot proceed without running a simulation!")).
Proof. exact diode_empty. Qed.
Theorem c65_diode_unknown : forall tag f power minTime g, g <> [] -> log_get tag g = None ->
  calculateVoltageSpinDiode tag f power minTime g = (g, Err (Throw ("Tag was not found in the junction log: " ++ tag))).
Proof. exact diode_unknown. Qed.
Example c65_diode_unknown_ex : calculateVoltageSpinDiode "S" 1 1 0 ex_log = (ex_log, Err (Throw "Tag was not found in the junction log: S")).
Proof. apply (diode_unknown "S"); [discriminate|reflexivity]. Qed.

Print Assumptions c53_spectrum.
Print Assumptions c53_spectrum_exists.
Print Assumptions c53_spectrum_unique.
Print Assumptions c53_lengths.
Print Assumptions c53_short_refuted.
Print Assumptions c53_mixed_lengths.
Print Assumptions c53_mixed.
Print Assumptions c53_mixed_exists.
Print Assumptions c53_mixed_short.
Print Assumptions c53_late.
Print Assumptions c53_unknown.
Print Assumptions c53_mixed_unknown.
Print Assumptions c65_line.
Print Assumptions c65_phase.
Print Assumptions c65_top_bin_missing.
Print Assumptions c65_diode.
Print Assumptions c65_rectified.
Print Assumptions c65_peak_to_peak.
Print Assumptions c65_diode_exists.
Print Assumptions c65_diode_empty.
Print Assumptions c65_diode_unknown.
