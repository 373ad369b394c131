(** C73-C75: the pulse procedure, the diode procedure, the filters. *)
From Verif Require Import P_ProcMore.
From Coq Require Import List Lra Lia.
Open Scope R_scope.

(** ** C73 *)
(** The pulse procedure succeeds exactly when every step does, and then returns exactly these numbers. *)
Theorem c73_pimm : forall A rnd (a : pimm_args A) j pos st' o, named j -> ~ In "all"%string (ids j) ->
  PIMM_procedure rnd a (j, pos) = (st', Ok o) <->
  pa_wait a <= pa_simulation a /\ 0 < pa_int_step a * pa_duration a /\ length (pa_params a) = layerNo j /\
  exists rows, pimm_fields rnd a (along_axis (pa_direction a) (field_pulse (pa_excitation a) (pa_int_step a * pa_duration a))) (pa_Hvecs a) (j, pos) st' rows /\
    pimm_output a (ids j) rows o.
Proof. intros A rnd a j pos st' o. apply pimm_iff. Qed.
(** The fields the layers see during a measurement. *)
Theorem c73_static_field : forall H t, getCurrentAxialDrivers (steady H) t = Ok H.
Proof. exact steady_value. Qed.
Theorem c73_pulse_field : forall a amp stop t, getCurrentAxialDrivers (along_axis a (field_pulse amp stop)) t =
  Ok (on_axis a (if Rle_dec 0 t then if Rle_dec t stop then amp else 0 else 0)).
Proof. exact pulse_value. Qed.
(** Weights add up to one, and with positive moments no reported average is longer than one. *)
Theorem c73_weights : forall ls, total_moment ls <> 0 -> fold_right Rplus 0 (map (weight ls) ls) = 1.
Proof. exact weights_one. Qed.
Theorem c73_average_bound : forall A rnd (a : pimm_args A) j pos st' o, named j -> ~ In "all"%string (ids j) ->
  (forall l, In l (j_layers j) -> 0 < l_thickness l * l_Ms l) -> PIMM_procedure rnd a (j, pos) = (st', Ok o) ->
  forall m, In m (po_m_avg o) -> Norm m <= 1.
Proof.
  intros A rnd a j pos st' o NM NA POS E m Hm. apply pimm_iff in E; [|exact NM|exact NA]. destruct E as (_ & _ & _ & rows & F & O). destruct O as (_ & _ & _ & EM & _). rewrite EM in Hm.
  apply in_map_iff in Hm. destruct Hm as (row & <- & Hr). pose proof (@fields_average _ _ _ _ _ (j, pos) _ _ NM POS F) as X. rewrite Forall_forall in X. exact (X row Hr).
Qed.
(** One frequency axis for all fields; every spectrum has as many entries. *)
Theorem c73_frequency_axis : forall A rnd (a : pimm_args A) oe Hs st final rows, pa_static a = false -> pimm_fields rnd a oe Hs st final rows ->
  forall i k row y f row' y' f', nth_error rows i = Some row -> nth_error rows k = Some row' -> pr_spectrum row = Some (y, f) -> pr_spectrum row' = Some (y', f') ->
    f' = f /\ length y = length f.
Proof.
  intros A rnd a oe Hs st final rows NS F i k row y f row' y' f' Hi Hk E E'. split; [exact (fields_axis NS F i k Hi Hk E E')|exact (fields_lengths NS F _ (nth_error_In _ _ Hi) E)].
Qed.
Theorem c73_bins : forall n dt fmax k, In k (bins n dt fmax) <-> (k < n / 2)%nat /\ INR k / (INR n * dt) <= fmax.
Proof. exact bins_iff. Qed.
(** What the log, the external and the Oersted drivers were before does not matter. *)
Theorem c73_history : forall A rnd (a : pimm_args A) j k pos st' o, named j -> ~ In "all"%string (ids j) -> same_sample j k -> pa_Hvecs a <> [] ->
  PIMM_procedure rnd a (j, pos) = (st', Ok o) -> PIMM_procedure rnd a (k, pos) = (st', Ok o).
Proof. intros A. exact history. Qed.
(** Two calls in a row give what one call gives. *)
Theorem c73_split : forall A rnd (a : pimm_args A) h1 h2 j pos st' o, named j -> ~ In "all"%string (ids j) -> pa_Hvecs a = (h1 ++ h2)%list ->
  PIMM_procedure rnd a (j, pos) = (st', Ok o) ->
  exists mid o1 o2, PIMM_procedure rnd (with_fields h1 a) (j, pos) = (mid, Ok o1) /\ PIMM_procedure rnd (with_fields h2 a) mid = (st', Ok o2) /\ joined o1 o2 o.
Proof. intros A. exact split_fields. Qed.
Theorem c73_join : forall A rnd (a : pimm_args A) h1 h2 j pos mid st' o1 o2, named j -> ~ In "all"%string (ids j) -> pa_Hvecs a = (h1 ++ h2)%list ->
  PIMM_procedure rnd (with_fields h1 a) (j, pos) = (mid, Ok o1) -> PIMM_procedure rnd (with_fields h2 a) mid = (st', Ok o2) ->
  exists o, PIMM_procedure rnd a (j, pos) = (st', Ok o) /\ joined o1 o2 o.
Proof. intros A. exact join_fields. Qed.
(** wait_time equal to the duration passes the check but leaves nothing to transform. *)
Theorem c73_wait_whole_run : forall A rnd (a : pimm_args A) j pos st' o, named j -> ~ In "all"%string (ids j) -> pa_static a = false -> pa_Hvecs a <> [] ->
  pa_wait a = pa_simulation a -> 0 < pa_int_step a -> PIMM_procedure rnd a (j, pos) <> (st', Ok o).
Proof.
  intros A rnd a j pos st' o NM NA NS NE W D E. apply pimm_iff in E; [|exact NM|exact NA]. destruct E as (_ & _ & _ & rows & F & _). destruct (pa_Hvecs a) as [|H Hs] eqn:EH; [congruence|]. exact (wait_too_long NS W D F).
Qed.
(** The default parameters (length 0) cannot be used with the default resistance function. *)
Theorem c73_zero_length : forall rnd (a : pimm_args (list R)) j pos st' o p0, named j -> ~ In "all"%string (ids j) -> pa_Hvecs a <> [] ->
  pa_fn a = calculate_resistance_series3 -> In p0 (pa_params a) -> rp_l p0 = 0 -> PIMM_procedure rnd a (j, pos) <> (st', Ok o).
Proof.
  intros rnd a j pos st' o p0 NM NA NE EF Hp Z E. apply pimm_iff in E; [|exact NM|exact NA]. destruct E as (_ & _ & _ & rows & F & _). destruct (pa_Hvecs a) as [|H Hs] eqn:EH; [congruence|]. exact (zero_length_fails _ EF Hp Z F).
Qed.
(** take_last_n = 0 takes everything. *)
Theorem c73_last_zero : forall B (xs ys : list B), tail_samples 0 xs ys <-> ys = xs.
Proof. intros B. exact tail_zero. Qed.
(** Not the resistance of the magnetisations: the weights enter twice. *)
Theorem c73_resistance_of_magnetisations_refuted : ~ (forall rnd (a : pimm_args (list R)) j pos j2 pos2 o rx ry, named j -> ~ In "all"%string (ids j) ->
  (exists H, pa_Hvecs a = [H]) -> pa_last_n a = 1%Z -> PIMM_procedure rnd a (j, pos) = ((j2, pos2), Ok o) ->
  pa_fn a (strips_of (pa_params a)) 1%nat (map (fun m => [m]) (mags (j_layers j2))) = Ok (rx, ry) -> po_Ry o = [ry]).
Proof.
  intros C. destruct (ex_pimm_runs (fun _ => 0)) as (j2 & o & E & _ & EY & _ & _ & EF).
  specialize (C (fun _ => 0) ex_pimm ex_sample 0%nat j2 0%nat o [20] [1] (proj1 ex_sample_named) (proj2 ex_sample_named) (ex_intro _ _ eq_refl) eq_refl E EF).
  rewrite EY in C. injection C. lra.
Qed.
Example c73_example : forall rnd, exists j2 o, PIMM_procedure rnd ex_pimm (ex_sample, 0%nat) = ((j2, 0%nat), Ok o) /\
  po_Rx o = [[20]] /\ po_Ry o = [[1 / 2]] /\ po_m_avg o = [CV 0 0 0].
Proof. intros rnd. destruct (ex_pimm_runs rnd) as (j2 & o & E & X & Y & Z & _). exists j2, o. auto. Qed.
Example c73_example_hypotheses : named ex_sample /\ ~ In "all"%string (ids ex_sample) /\ (forall l, In l (j_layers ex_sample) -> 0 < l_thickness l * l_Ms l) /\
  same_sample ex_sample (set_j_log [("time"%string, [1])] 1 (set_j_layers (map (fun l => set_l_Oersted (steady (CV 1 2 3)) (set_l_external (steady (CV 4 5 6)) l)) (j_layers ex_sample)) ex_sample)).
Proof.
  split; [apply ex_sample_named|]. split; [apply ex_sample_named|]. split; [intros l Hl; pose proof (proj1 (proj2 half_moment l Hl)) as X; unfold moment in X; lra|].
  eexists. split; [reflexivity|]. split; [apply map_length|]. intros p l l' E F. rewrite nth_error_map, E in F. injection F as <-. do 2 eexists. reflexivity.
Qed.

(** ** C74 *)
Theorem c74_vsd : forall design rnd a st st' out, sampled_fn (va_fn a) -> named (fst st) -> ~ In "all"%string (ids (fst st)) ->
  VSD_procedure design rnd a st = (st', Ok out) <->
  (va_Rtype a = "Rz"%string -> (layerNo (fst st) <= 2)%nat) /\ length (given a) = layerNo (fst st) /\ vsd_lines design rnd a (given a) (va_Hvecs a) st st' out.
Proof. exact vsd_iff. Qed.
Theorem c74_series_sampled : sampled_fn calculate_resistance_series3.
Proof. exact series_sampled. Qed.
Theorem c74_sine_field : forall a amp f t, getCurrentAxialDrivers (along_axis a (field_sine amp f)) t = Ok (on_axis a (amp * sin (2 * PI * f * t))).
Proof. exact sine_value. Qed.
(** One row per field, one entry per frequency. *)
Theorem c74_shape : forall design rnd a st st' out, sampled_fn (va_fn a) -> named (fst st) -> ~ In "all"%string (ids (fst st)) ->
  VSD_procedure design rnd a st = (st', Ok out) -> length out = length (va_Hvecs a) /\ Forall (fun v => length v = length (va_frequencies a)) out.
Proof. intros design rnd a st st' out SF NM NA E. apply vsd_iff in E; [|exact SF|exact NM|exact NA]. destruct E as (_ & _ & L). exact (lines_shape _ _ _ _ _ _ _ _ L). Qed.
(** Requests that never succeed: no parameters, Rz for anything but a classic bilayer, an unknown type, frequency -1, steps of 50 ns and more. *)
Theorem c74_requirements : forall design rnd a st st' out, sampled_fn (va_fn a) -> named (fst st) -> ~ In "all"%string (ids (fst st)) ->
  va_Hvecs a <> [] -> va_frequencies a <> [] -> VSD_procedure design rnd a st = (st', Ok out) ->
  va_params a <> None /\
  (va_Rtype a = "Rz"%string -> layerNo (fst st) = 2%nat /\ j_mode (fst st) = MR_CLASSIC) /\
  (va_Rtype a = "Rx"%string \/ va_Rtype a = "Ry"%string \/ va_Rtype a = "Rz"%string) /\
  ~ In (-1) (va_frequencies a) /\ 0 < va_int_step a < / (2 * 10 ^ 7).
Proof.
  intros design rnd a st st' out SF NM NA NH NF E. apply vsd_iff in E; [|exact SF|exact NM|exact NA]. destruct E as (_ & LP & L). split; [|split; [|split; [|split]]].
  - intros X. unfold given in LP. rewrite X in LP. destruct (lines_first _ _ _ _ _ _ _ _ L NH NF) as (H & f & st1 & v & _ & _ & (j1 & N & s & r & _ & PF & _)).
    destruct PF as [NE _]. unfold layerNo in LP. destruct (j_layers (fst st)); [congruence|discriminate].
  - exact (lines_Rz _ _ _ _ _ _ _ _ L NH NF).
  - exact (lines_type _ _ _ _ _ _ _ _ L NH NF).
  - intros X. exact (lines_frequency _ _ _ _ _ _ _ _ _ L NH X eq_refl).
  - exact (lines_step _ _ _ _ _ _ _ _ L NH NF).
Qed.
Example c74_example : forall rnd, exists st', VSD_procedure pass_all rnd (ex_vsd "Rz") (ex_sample, 0%nat) =
  (st', Ok [[Rsum (fun k => - sin (2 * PI * 10 ^ 6 * (INR k * ex_dt)) * 200) 10 / 10]]).
Proof. exact ex_vsd_runs. Qed.

(** ** C75 *)
(** lfilter solves the difference equation with zero history, and nothing else does. *)
Theorem c75_filter : forall b a x y, lfilter b a x = Ok y <-> a <> [] /\ coef a 0 <> 0 /\ filtered b a x y.
Proof. exact lfilter_iff. Qed.
Theorem c75_superposition : forall b a x1 x2 y1 y2 c1 c2, length x1 = length x2 -> filtered b a x1 y1 -> filtered b a x2 y2 ->
  filtered b a (map (fun p => c1 * fst p + c2 * snd p) (combine x1 x2)) (map (fun p => c1 * fst p + c2 * snd p) (combine y1 y2)).
Proof. exact filtered_linear. Qed.
Theorem c75_lowpass : forall design data cutoff fs order y, butter_lowpass_filter design data cutoff fs order = Ok y <->
  fs <> 0 /\ valid_edge (2 * cutoff / fs) /\ exists b a, design order [2 * cutoff / fs] = (b, a) /\ a <> [] /\ coef a 0 <> 0 /\ filtered b a data y.
Proof. exact lowpass_iff. Qed.
Theorem c75_bandpass : forall design data p fs order y, butter_bandpass_filter design data p fs order = Ok y <->
  exists lo hi, ((p = PassFloat 0 /\ fs <> 0 /\ lo = 18 / 100 / fs /\ hi = 2 / 10 / fs) \/ (exists rest, p = PassTuple (lo :: hi :: rest))) /\
    valid_edge lo /\ valid_edge hi /\ exists b a, design order [lo; hi] = (b, a) /\ a <> [] /\ coef a 0 <> 0 /\ filtered b a data y.
Proof. exact bandpass_iff. Qed.
(** A positive pass frequency never gives a filtered signal. *)
Theorem c75_bandpass_frequency_refuted : ~ (exists design data f fs order y, 0 < f /\ butter_bandpass_filter design data (PassFloat f) fs order = Ok y).
Proof. intros (design & data & f & fs & order & y & P & E). apply bandpass_iff in E. destruct E as (lo & hi & [(X & _)|(r & X)] & _); [injection X as X; lra|discriminate]. Qed.
(** A band in hertz does not work: the two numbers of a tuple are not divided by the Nyquist frequency. *)
Theorem c75_bandpass_hertz_refuted : forall design data lo hi rest fs order y, 1 <= lo \/ 1 <= hi -> butter_bandpass_filter design data (PassTuple (lo :: hi :: rest)) fs order <> Ok y.
Proof. intros design data lo hi rest fs order y H E. apply bandpass_iff in E. destruct E as (lo' & hi' & [(X & _)|(r & X)] & [_ A] & [_ B] & _); [discriminate|]. injection X as <- <- _. lra. Qed.
Theorem c75_rectified : forall design r i dt v, length i = length r -> compute_sd design r i dt = Ok v <-> rectified_mean design r i dt v.
Proof. exact sd_iff. Qed.
Theorem c75_rectified_linear : forall design r1 r2 i dt v1 v2 c1 c2, length i = length r1 -> length i = length r2 ->
  compute_sd design r1 i dt = Ok v1 -> compute_sd design r2 i dt = Ok v2 ->
  compute_sd design (map (fun p => c1 * fst p + c2 * snd p) (combine r1 r2)) i dt = Ok (c1 * v1 + c2 * v2).
Proof.
  intros design r1 r2 i dt v1 v2 c1 c2 L1 L2 E1 E2. apply sd_iff in E1; [|exact L1]. apply sd_iff in E2; [|exact L2]. apply sd_iff; [rewrite map_length, combine_length; lia|]. apply rectified_linear; [congruence|exact E1|exact E2].
Qed.
Theorem c75_rectified_step : forall design r i dt v, length i = length r -> compute_sd design r i dt = Ok v -> 0 < dt < / (2 * 10 ^ 7).
Proof. intros design r i dt v L E. apply sd_iff in E; [|exact L]. exact (rectified_step _ _ _ _ _ E). Qed.
(** A first-order filter by hand, and its use. *)
Example c75_example_filter : lfilter [1; 1] [2; -1] [4; 0; 2] = Ok [2; 3; 5 / 2].
Proof.
  unfold lfilter. destruct (Req_EM_T 2 0); [lra|]. cbn -[Rmult Rplus Rdiv Rminus]. f_equal.
  assert (A : (1 * 4 + 0 - 0) / 2 = 2) by field. rewrite A. assert (B : (1 * 0 + (1 * 4 + 0) - (-1 * 2 + 0)) / 2 = 3) by field. rewrite B. repeat f_equal. field.
Qed.
Example c75_example_sd : compute_sd pass_all [1; 3] [2; 4] (/ 10 ^ 8) = Ok (-7).
Proof.
  apply sd_iff; [reflexivity|]. assert (W : 2 * (10 * 10 ^ 6) * / 10 ^ 8 = 2 / 10) by field.
  split; [apply Rinv_neq_0_compat; lra|]. split; [rewrite W; unfold valid_edge; lra|]. split; [discriminate|]. split; [reflexivity|].
  eexists. exists [1], [1]. split; [reflexivity|]. split; [discriminate|]. split; [unfold coef; cbn; lra|]. split; [apply pass_all_filtered|]. unfold Sigma. cbn. lra.
Qed.
Example c75_example_bandpass : butter_bandpass_filter pass_all [1; 2] (PassTuple [1 / 10; 2 / 10]) 1000 4 = Ok [1; 2].
Proof.
  apply bandpass_iff. exists (1 / 10), (2 / 10). split; [right; exists []; reflexivity|]. unfold valid_edge. split; [lra|]. split; [lra|]. exists [1], [1]. split; [reflexivity|]. split; [discriminate|]. split; [unfold coef; cbn; lra|apply pass_all_filtered].
Qed.
Print Assumptions c73_pimm.
Print Assumptions c73_static_field.
Print Assumptions c73_pulse_field.
Print Assumptions c73_weights.
Print Assumptions c73_average_bound.
Print Assumptions c73_frequency_axis.
Print Assumptions c73_bins.
Print Assumptions c73_history.
Print Assumptions c73_split.
Print Assumptions c73_join.
Print Assumptions c73_wait_whole_run.
Print Assumptions c73_zero_length.
Print Assumptions c73_last_zero.
Print Assumptions c73_resistance_of_magnetisations_refuted.
Print Assumptions c74_vsd.
Print Assumptions c74_series_sampled.
Print Assumptions c74_sine_field.
Print Assumptions c74_shape.
Print Assumptions c74_requirements.
Print Assumptions c75_filter.
Print Assumptions c75_superposition.
Print Assumptions c75_lowpass.
Print Assumptions c75_bandpass.
Print Assumptions c75_bandpass_frequency_refuted.
Print Assumptions c75_bandpass_hertz_refuted.
Print Assumptions c75_rectified.
Print Assumptions c75_rectified_linear.
Print Assumptions c75_rectified_step.
