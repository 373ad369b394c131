(** Property C92: the simulations behind the front end. *)
From Verif Require Import T_Procedures P_PrepareVsd P_PimmProps P_VsdProps P_Fit S_Prepare.
From Coq Require Import Psatz.
Open Scope R_scope.
Open Scope st_scope.

(** A form with three layers and two different couplings. *)
Definition c92_stack : stack_form :=
  StackForm 3 (fun i => INR i + 1) (fun i => INR i + 2) (fun _ => 1 / 100) (fun i => 100 * INR i) (fun i => 45 * INR i) (fun _ => 45) (fun _ => 30) (fun _ => 20) (fun i => INR i * 50 - 20).
Definition c92_scan : scan_form := ScanForm "z" (-100) 100 3 1 (6 * 10 ^ 9).
Example c92_stack_ok : stack_moment c92_stack = 20 /\ J_above c92_stack 0 = -20 / 1000000 /\ J_below c92_stack 2 = 30 / 1000000 /\ J_above c92_stack 2 = 0.
Proof. unfold stack_moment, J_above, J_below. cbn. repeat split; lra. Qed.

(** ** The junction built from the form *)
(** C92.  The stack is built exactly as described: every layer with its own constants in SI units, magnetised along its easy axis,
    and coupled to the next one by its own coupling. *)
Theorem c92_stack_built : forall rng nsrc s j ps, prepare_simulation rng nsrc s = Ok (j, ps) <-> stack_of rng nsrc s j ps.
Proof. exact prepare_iff. Qed.
(** It is always built for at least one layer, and never for none. *)
Theorem c92_built_iff : forall rng nsrc s, (exists out, prepare_simulation rng nsrc s = Ok out) <-> (0 < sf_N s)%nat.
Proof.
  intros rng nsrc s. split.
  - intros [[j ps] E]. apply prepare_iff in E. apply stack_of_up in E. apply E.
  - intros HN. destruct (prepare_run rng nsrc s HN) as (ls & j & E & _). eauto.
Qed.
Example c92_builds : exists j ps, prepare_simulation (fun _ _ => 0) (fun _ _ _ => Zero) c92_stack = Ok (j, ps) /\ layerNo j = 3%nat /\ length ps = 3%nat.
Proof.
  destruct (proj2 (c92_built_iff (fun _ _ => 0) (fun _ _ _ => Zero) c92_stack) ltac:(cbn; lia)) as [[j ps] E]. exists j, ps. split; [exact E|].
  apply prepare_iff in E. apply stack_of_up in E. destruct E as ((_ & L & _) & _ & -> & _). split; [exact L|reflexivity].
Qed.
(** At every field of a scan, whatever came before, layer p moves in: the field of the scan, the Oersted field, its anisotropy along its
    own axis, the demagnetising field of a film and the couplings to its two neighbours, and in nothing else. *)
Theorem c92_motion : forall rnd a oe rng nsrc s j ps Hs pos j' pos' rows H d k j1 p l t v b top Hoe m,
  prepare_simulation rng nsrc s = Ok (j, ps) -> @pimm_fields (list R) rnd a oe Hs (j, pos) (j', pos') rows ->
  prepared_for rnd H oe d k j' j1 -> nth_error (j_layers j1) p = Some l -> getCurrentAxialDrivers oe t = Ok Hoe ->
  rhs l t v b top m <-> sf_Ms s p <> 0 /\ sf_thickness s p <> 0 /\ m = stack_rate s p H Hoe v b top.
Proof. intros. eapply fields_rate; eauto. apply prepare_iff. eassumption. Qed.

(** ** The pulse experiment *)
(** What is shown is the result of the pulse procedure on that stack, with the pulse lasting three steps, the spectrum taken from
    4 ns on, and the fields in A/m. *)
Theorem c92_pimm : forall rng nsrc rnd s c Hoeaxis Hoe fmax Hscan freqs spec mag,
  simulate_pimm rng nsrc rnd s c Hoeaxis Hoe fmax = Ok (Hscan, freqs, spec, mag) <-> pulse_run rng nsrc rnd s c Hoeaxis Hoe fmax Hscan freqs spec mag.
Proof. exact pimm_sim_iff. Qed.
(** The settings for which it answers. *)
Theorem c92_pimm_answers : forall rng nsrc rnd s c Hoeaxis Hoe fmax, small_noise rnd ->
  (exists out, simulate_pimm rng nsrc rnd s c Hoeaxis Hoe fmax = Ok out) <->
  (0 < sf_N s)%nat /\ In (cf_axis c) ["x"; "y"; "z"; "xy"; "xz"; "yz"]%string /\ In Hoeaxis ["x"; "y"; "z"]%string /\ (0 <= cf_Hsteps c)%Z /\ 4 <= cf_time c /\ 0 < cf_step c /\
  ((0 < cf_Hsteps c)%Z -> stack_moment s <> 0 /\ (forall p, (p < sf_N s)%nat -> sf_Ms s p <> 0 /\ sf_thickness s p <> 0 /\ sf_length s p <> 0) /\
     exists n, step_counts (cf_time c / 1000000000) (cf_step c) (cf_step c) n 1 /\ 4 / 1000000000 <= INR (n - 1) * cf_step c).
Proof. exact pimm_answers. Qed.
Example c92_pimm_runs : exists out, simulate_pimm (fun _ _ => 0) (fun _ _ _ => Zero) (fun _ => 1) c92_stack c92_scan "x" 1 30 = Ok out.
Proof.
  apply c92_pimm_answers; [intros k; rewrite Rabs_R1; lra|]. split; [cbn; lia|]. split; [cbn; tauto|]. split; [cbn; tauto|]. split; [cbn; lia|]. split; [cbn; lra|]. split; [cbn; lra|].
  intros _. split; [rewrite (proj1 c92_stack_ok); lra|]. split.
  - intros p _. cbn [sf_Ms sf_thickness sf_length c92_stack]. pose proof (pos_INR p). repeat split; lra.
  - exists 6%nat. cbn [cf_time cf_step c92_scan]. replace (6 * 10 ^ 9 / 1000000000) with 6 by lra. unfold step_counts, IntegerPart. cbn [INR Nat.sub]. repeat split; try lra; left; lra.
Qed.
(** The form accepts times from 1 ns on, but up to 4 ns there is never an answer. *)
Theorem c92_short_time : forall rng nsrc rnd s c Hoeaxis Hoe fmax out, (0 < cf_Hsteps c)%Z -> cf_time c <= 4 -> simulate_pimm rng nsrc rnd s c Hoeaxis Hoe fmax <> Ok out.
Proof.
  intros rng nsrc rnd s c Hoeaxis Hoe fmax [[[h f] sp] mg] HP HT E. apply pimm_sim_iff in E. destruct E as (Hs & j & ps & a & st' & rows & o & SC & _ & _ & A & B & F & _).
  destruct (scanned_length _ _ _ SC) as [L _]. destruct Hs as [|H Hs]; [cbn in L; lia|]. revert F; apply wait_too_long; [reflexivity| |exact B].
  cbn [pa_wait pa_simulation pulse_settings]. replace (cf_time c) with 4 by lra. reflexivity.
Qed.
(** One spectrum, one field and one magnetisation for every step of the scan. *)
Theorem c92_pimm_shape : forall rng nsrc rnd s c Hoeaxis Hoe fmax Hscan freqs spec mag, simulate_pimm rng nsrc rnd s c Hoeaxis Hoe fmax = Ok (Hscan, freqs, spec, mag) ->
  length Hscan = Z.to_nat (cf_Hsteps c) /\ length spec = length Hscan /\ length mag = length Hscan.
Proof.
  intros rng nsrc rnd s c Hoeaxis Hoe fmax Hscan freqs spec mag E. apply pimm_sim_iff in E. destruct E as (Hs & j & ps & a & st' & rows & o & SC & _ & _ & _ & _ & F & O & _ & -> & ->).
  destruct (scanned_length _ _ _ SC) as [L1 L2]. destruct O as (_ & _ & _ & EM & _ & ES & _). destruct (ES eq_refl) as [LS _]. rewrite EM, map_length, LS.
  assert (LR : length rows = length Hs). { clear -F. induction F; cbn; congruence. } lia.
Qed.
(** The magnetisation shown lies in the unit ball for layers with positive constants. *)
Theorem c92_magnetisation : forall rng nsrc rnd s c Hoeaxis Hoe fmax Hscan freqs spec mag m, simulate_pimm rng nsrc rnd s c Hoeaxis Hoe fmax = Ok (Hscan, freqs, spec, mag) ->
  (forall p, (p < sf_N s)%nat -> 0 < sf_Ms s p * sf_thickness s p) -> In m mag -> Norm m <= 1.
Proof.
  intros rng nsrc rnd s c Hoeaxis Hoe fmax Hscan freqs spec mag m E POS Hm. apply pimm_sim_iff in E. destruct E as (Hs & j & ps & a & st' & rows & o & SC & ST & _ & _ & _ & F & O & _ & _ & ->).
  apply stack_of_up in ST. destruct ST as (UP & _). destruct (stacked_named _ _ UP) as [NM _]. destruct O as (_ & _ & _ & EM & _). rewrite EM in Hm. apply in_map_iff in Hm. destruct Hm as (row & <- & Hr).
  assert (P : forall l, In l (j_layers (fst (j, 0%nat))) -> 0 < moment l).
  { cbn [fst]. intros l Hl. apply In_nth_error in Hl. destruct Hl as [p Hp]. destruct UP as (_ & L & C). assert (Hlt : (p < sf_N s)%nat) by (rewrite <- L; apply nth_error_Some; congruence).
    destruct (C p l Hp) as [(_ & _ & M1 & M2 & _) _]. unfold moment. rewrite M1, M2. specialize (POS p Hlt). lra. }
  pose proof (@fields_average _ _ _ _ _ (j, 0%nat) _ _ NM P F) as X. rewrite Forall_forall in X. exact (X row Hr).
Qed.
(** ** The diode experiment *)
(** What is shown is the result of the diode procedure on that stack, less the median of every frequency over the fields. *)
Theorem c92_vsd : forall rng nsrc rnd design s c fmin fmax fstep Hoex kind Hoe Hscan fs spec, 0 < fstep -> (0 < cf_Hsteps c)%Z ->
  simulate_vsd rng nsrc rnd design s c fmin fmax fstep Hoex kind Hoe = Ok (Hscan, fs, spec) <-> diode_run rng nsrc rnd design s c fmin fmax fstep Hoex kind Hoe Hscan fs spec.
Proof. exact vsd_sim_iff. Qed.
(** The frequencies: from the smallest in steps, short of the largest. *)
Theorem c92_frequencies : forall a b d fs, 0 < d -> np_arange a b d = Ok fs <-> up_to a b d fs.
Proof. exact arange_iff. Qed.
Example c92_frequencies_ex : np_arange 1 3 (1 / 2) = Ok [1 + INR 0 * (1 / 2); 1 + INR 1 * (1 / 2); 1 + INR 2 * (1 / 2); 1 + INR 3 * (1 / 2)].
Proof.
  apply c92_frequencies; [lra|]. split; [|cbn; lra]. intros i f E. do 4 (destruct i as [|i]; [injection E as <-; split; [reflexivity|cbn; lra]|]). destruct i; discriminate.
Qed.
(** What a diode experiment with a field and a frequency needs; the z component of the resistance is never available. *)
Theorem c92_vsd_requirements : forall rng nsrc rnd design s c fmin fmax fstep Hoex kind Hoe Hscan fs spec, 0 < fstep -> (0 < cf_Hsteps c)%Z -> fmin < fmax ->
  simulate_vsd rng nsrc rnd design s c fmin fmax fstep Hoex kind Hoe = Ok (Hscan, fs, spec) ->
  (kind = "Rx"%string \/ kind = "Ry"%string) /\ 0 < cf_step c < / (2 * 10 ^ 7) /\ sized spec (Z.to_nat (cf_Hsteps c)) (length fs) /\ fs <> [] /\ length Hscan = Z.to_nat (cf_Hsteps c).
Proof.
  intros rng nsrc rnd design s c fmin fmax fstep Hoex kind Hoe Hscan fs spec HF HP HL E. apply vsd_sim_iff in E; [|exact HF|exact HP].
  destruct E as (Hs & j & ps & a & st' & raw & SC & ST & U & _ & A & L & D & _). destruct (scanned_length _ _ _ SC) as [L1 L2].
  assert (NF : fs <> []). { intros ->. destruct U as [_ X]. cbn in X. lra. }
  assert (NH : Hs <> []). { intros ->. cbn in L1. lia. }
  apply stack_of_up in ST. destruct ST as (UP & _ & EPS & _). destruct (stacked_named _ _ UP) as [NM NA].
  assert (EV : VSD_procedure design rnd (diode_settings c Hs fs ps a Hoe kind) (j, 0%nat) = (st', Ok raw)).
  { apply vsd_iff; [exact series_sampled|exact NM|exact NA|]. cbn [va_Rtype va_Hvecs given va_params diode_settings fst]. destruct UP as (_ & UN & _).
    split; [intros K; rewrite UN; exact (A K)|]. split; [rewrite EPS, map_length, seq_length; symmetry; exact UN|exact L]. }
  pose proof (T_Procedures.c74_requirements design rnd (diode_settings c Hs fs ps a Hoe kind) (j, 0%nat) st' raw series_sampled NM NA NH NF EV) as (_ & RZ & RT & _ & B).
  cbn [va_Rtype va_int_step diode_settings fst] in *. split; [|auto]. destruct RT as [X|[X|X]]; [auto|auto|]. destruct (RZ X) as [_ Y]. destruct UP as (Z & _). congruence.
Qed.
(** The settings for which it answers. *)
Theorem c92_vsd_answers : forall rng nsrc rnd design s c fmin fmax fstep Hoex kind Hoe, small_noise rnd -> good_design design -> 0 < fstep -> fmin < fmax -> (0 < cf_Hsteps c)%Z ->
  (exists out, simulate_vsd rng nsrc rnd design s c fmin fmax fstep Hoex kind Hoe = Ok out) <->
  (0 < sf_N s)%nat /\ In (cf_axis c) ["x"; "y"; "z"; "xy"; "xz"; "yz"]%string /\ In Hoex ["x"; "y"; "z"]%string /\ (kind = "Rx"%string \/ kind = "Ry"%string) /\
  (forall p, (p < sf_N s)%nat -> sf_Ms s p <> 0 /\ sf_thickness s p <> 0 /\ sf_length s p <> 0) /\ 0 < cf_step c < / 20000000 /\
  (exists n, (0 < n)%nat /\ step_counts (cf_time c / 1000000000) (cf_step c) (cf_step c) n 1) /\
  (forall k, fmin + INR k * fstep < fmax -> (fmin + INR k * fstep) * 1000000000 <> -1).
Proof. exact vsd_answers. Qed.
Example c92_vsd_runs : exists out, simulate_vsd (fun _ _ => 0) (fun _ _ _ => Zero) (fun _ => 1) pass_all c92_stack (ScanForm "xz" (-100) 100 5 (/ 100000000) 50) 1 3 (1 / 2) "y" "Ry" 20 = Ok out.
Proof.
  apply c92_vsd_answers; [intros k; rewrite Rabs_R1; lra| |lra|lra|cbn; lia|].
  { intros wn b a E. injection E as <- <-. split; [discriminate|unfold coef; cbn; lra]. }
  split; [cbn; lia|]. split; [cbn; tauto|]. split; [cbn; tauto|]. split; [right; reflexivity|]. split.
  { intros p _. cbn [sf_Ms sf_thickness sf_length c92_stack]. pose proof (pos_INR p). repeat split; lra. }
  cbn [cf_time cf_step]. split; [lra|]. split.
  - exists 5%nat. split; [lia|]. unfold step_counts, IntegerPart. replace (50 / 1000000000 / / 100000000) with 5 by field. replace (/ 100000000 / / 100000000) with 1 by field. cbn [INR]. repeat split; try lra; left; lra.
  - intros k _. pose proof (pos_INR k). lra.
Qed.
Print Assumptions c92_stack_built.
Print Assumptions c92_built_iff.
Print Assumptions c92_motion.
Print Assumptions c92_pimm.
Print Assumptions c92_pimm_answers.
Print Assumptions c92_short_time.
Print Assumptions c92_pimm_shape.
Print Assumptions c92_magnetisation.
Print Assumptions c92_vsd.
Print Assumptions c92_frequencies.
Print Assumptions c92_vsd_requirements.
Print Assumptions c92_vsd_answers.
