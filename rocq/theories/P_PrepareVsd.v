(** When the diode experiment of the front end answers. *)
From Verif Require Import P_Detrend P_Fit P_Resist P_Vsd P_PimmProps.
From Verif Require Export P_PrepareRun.
From Verif Require Import S_Prepare.
From Coq Require Import Psatz.
Open Scope R_scope.
Open Scope st_scope.

Section Diode.
Context (design : coefficients) (rnd : nat -> R) (s : stack_form) (c : scan_form) (Hs0 : list cvec) (fs0 : list R) (a : axis) (Hoe : R) (kind : string).
Local Notation V := (diode_settings c Hs0 fs0 (map (strip s) (seq 0 (sf_N s))) a Hoe kind).
Local Notation ps := (map (strip s) (seq 0 (sf_N s))).
Lemma sine_ok amp f t : exists v, getCurrentAxialDrivers (along_axis a (field_sine amp f)) t = Ok v.
Proof. rewrite sine_value. eauto. Qed.
Lemma entry_exists n H f j pos : small_noise rnd -> good_design design -> (0 < sf_N s)%nat -> (forall p, (p < sf_N s)%nat -> sf_Ms s p <> 0 /\ sf_thickness s p <> 0 /\ sf_length s p <> 0) ->
  kind = "Rx"%string \/ kind = "Ry"%string -> 0 < cf_step c < / 20000000 -> step_counts (cf_time c / 1000000000) (cf_step c) (cf_step c) n 1 -> (0 < n)%nat -> f <> -1 -> stacked_up s j ->
  exists j2 pos2 v, vsd_entry design rnd V ps H f (j, pos) (j2, pos2) v /\ stacked_up s j2.
Proof.
  intros SN GD HN HM HK HD HC Hn Hf UP. set (oe := along_axis a (field_sine Hoe f)).
  destruct (prepared_exists rnd s H oe pos j SN UP HN) as [j1 P]. pose proof (prepared_up _ _ _ _ _ _ _ _ UP P) as RD.
  assert (HM2 : forall p, (p < sf_N s)%nat -> sf_Ms s p <> 0 /\ sf_thickness s p <> 0) by (intros p Hp; destruct (HM p Hp) as (A & B & _); auto).
  destruct (experiment_exists s H oe (cf_time c / 1000000000) (cf_step c) j1 n RD HN (sine_ok Hoe f) HM2 ltac:(lra) HC) as (j2 & st & EX).
  pose proof (experiment_up _ _ _ _ _ _ _ _ _ RD EX Hn) as UP2.
  destruct (series_ok s n (map (samples st n) (seq 0 (sf_N s)))) as [[rx ry] ER]; [rewrite map_length, seq_length; reflexivity|intros p Hp; apply (HM p Hp)|].
  destruct (series_sampled _ _ _ _ _ ER) as [LX LY].
  assert (RR : exists r, length r = n /\ vsd_resistance V ps j n st r).
  { destruct HK as [K|K]; [exists rx|exists ry]; (split; [assumption|]); right; exists rx, ry; cbn [va_fn va_Rtype diode_settings];
      (split; [replace (layerNo j) with (sf_N s) by (symmetry; apply UP); exact ER|]); rewrite K; auto. }
  destruct RR as (r & LR & VR). set (i := map (fun k => sin (2 * PI * f * (INR k * cf_step c))) (seq 0 n)).
  destruct (design 3%nat [2 * (10 * 10 ^ 6) * cf_step c]) as [b w] eqn:ED. destruct (GD _ _ _ ED) as [G1 G2].
  assert (LF : exists y, lfilter b w (map (fun p => - snd p * fst p) (combine r i)) = Ok y).
  { unfold lfilter. destruct w as [|w0 w]; [congruence|]. unfold coef in G2. cbn [nth] in G2. destruct (Req_EM_T w0 0); [contradiction|eauto]. }
  destruct LF as [y LF]. apply lfilter_iff in LF. destruct LF as (_ & _ & LF).
  exists j2, (pos + drawn (/ 1000000) (layerNo j))%nat, (Sigma y / INR (length y)). split; [|exact UP2].
  exists j1, n, st, r. cbn [fst snd va_direction va_excitation va_disturbance va_simulation va_int_step diode_settings].
  split; [exact Hf|]. split; [exact P|]. split; [exact EX|]. split; [exact Hn|]. split; [reflexivity|]. split; [exact VR|].
  split; [lra|]. split; [unfold valid_edge; assert (/ 20000000 * 20000000 = 1) by (field; lra); lra|]. split; [intros ->; cbn in LR; lia|]. split; [rewrite map_length, seq_length; lia|].
  exists y, b, w. auto.
Qed.
Lemma line_exists n H : small_noise rnd -> good_design design -> (0 < sf_N s)%nat -> (forall p, (p < sf_N s)%nat -> sf_Ms s p <> 0 /\ sf_thickness s p <> 0 /\ sf_length s p <> 0) ->
  kind = "Rx"%string \/ kind = "Ry"%string -> 0 < cf_step c < / 20000000 -> step_counts (cf_time c / 1000000000) (cf_step c) (cf_step c) n 1 -> (0 < n)%nat ->
  forall fs, ~ In (-1) fs -> forall j pos, stacked_up s j -> exists j2 pos2 vs, vsd_line design rnd V ps H fs (j, pos) (j2, pos2) vs /\ stacked_up s j2.
Proof.
  intros SN GD HN HM HK HD HC Hn fs. induction fs as [|f fs IH]; intros NF j pos UP; [exists j, pos, []; split; [constructor|exact UP]|].
  destruct (entry_exists n H f j pos SN GD HN HM HK HD HC Hn) as (j1 & p1 & v & E & UP1); [intros X; apply NF; left; exact X|exact UP|].
  destruct (IH (fun X => NF (or_intror X)) j1 p1 UP1) as (j2 & p2 & vs & L & UP2). exists j2, p2, (v :: vs). split; [econstructor; eassumption|exact UP2].
Qed.
Lemma lines_exist n : small_noise rnd -> good_design design -> (0 < sf_N s)%nat -> (forall p, (p < sf_N s)%nat -> sf_Ms s p <> 0 /\ sf_thickness s p <> 0 /\ sf_length s p <> 0) ->
  kind = "Rx"%string \/ kind = "Ry"%string -> 0 < cf_step c < / 20000000 -> step_counts (cf_time c / 1000000000) (cf_step c) (cf_step c) n 1 -> (0 < n)%nat -> ~ In (-1) fs0 ->
  forall Hs j pos, stacked_up s j -> exists j2 pos2 vs, vsd_lines design rnd V ps Hs (j, pos) (j2, pos2) vs.
Proof.
  intros SN GD HN HM HK HD HC Hn NF Hs. induction Hs as [|H Hs IH]; intros j pos UP; [exists j, pos, []; constructor|].
  destruct (line_exists n H SN GD HN HM HK HD HC Hn fs0 NF j pos UP) as (j1 & p1 & v & L & UP1). destruct (IH j1 p1 UP1) as (j2 & p2 & vs & LS). exists j2, p2, (v :: vs). econstructor; [exact L|exact LS].
Qed.
Lemma entry_needs H f j pos st' v : (0 < sf_N s)%nat -> stacked_up s j -> vsd_entry design rnd V ps H f (j, pos) st' v ->
  (kind = "Rx"%string \/ kind = "Ry"%string) /\ (forall p, (p < sf_N s)%nat -> sf_Ms s p <> 0 /\ sf_thickness s p <> 0 /\ sf_length s p <> 0) /\
  0 < cf_step c < / 20000000 /\ exists n, (0 < n)%nat /\ step_counts (cf_time c / 1000000000) (cf_step c) (cf_step c) n 1.
Proof.
  intros HN UP (j1 & n & st & r & Hf & P & EX & Hn & _ & VR & RM). cbn [fst snd va_direction va_excitation va_disturbance va_simulation va_int_step diode_settings] in *.
  pose proof (prepared_up _ _ _ _ _ _ _ _ UP P) as RD.
  assert (SR : exists rx ry, calculate_resistance_series3 (strips_of ps) n (map (samples st n) (seq 0 (layerNo j))) = Ok (rx, ry) /\ (kind = "Rx"%string \/ kind = "Ry"%string)).
  { destruct VR as [(_ & _ & X & _)|(rx & ry & E & K)]; [destruct UP as (Y & _); congruence|]. exists rx, ry. split; [exact E|]. cbn [va_Rtype diode_settings] in K. tauto. }
  destruct SR as (rx & ry & ER & K). split; [exact K|]. split.
  - intros p Hp. destruct (experiment_needs s H _ _ _ _ _ _ _ RD (sine_ok Hoe f) EX Hn p Hp) as [A B]. split; [exact A|]. split; [exact B|]. intros Z.
    revert ER. apply (series_zero_length ps n _ (strip s p)); [apply in_map, in_seq; lia|]. cbn [rp_l strip]. rewrite Z. lra.
  - destruct RM as (_ & [W1 W2] & _). split; [|exists n; split; [exact Hn|apply EX]]. assert (/ 20000000 * 20000000 = 1) by (field; lra). lra.
Qed.
End Diode.
Lemma vsd_answers rng nsrc rnd design s c fmin fmax fstep Hoex kind Hoe : small_noise rnd -> good_design design -> 0 < fstep -> fmin < fmax -> (0 < cf_Hsteps c)%Z ->
  (exists out, simulate_vsd rng nsrc rnd design s c fmin fmax fstep Hoex kind Hoe = Ok out) <->
  (0 < sf_N s)%nat /\ In (cf_axis c) ["x"; "y"; "z"; "xy"; "xz"; "yz"]%string /\ In Hoex ["x"; "y"; "z"]%string /\ (kind = "Rx"%string \/ kind = "Ry"%string) /\
  (forall p, (p < sf_N s)%nat -> sf_Ms s p <> 0 /\ sf_thickness s p <> 0 /\ sf_length s p <> 0) /\ 0 < cf_step c < / 20000000 /\
  (exists n, (0 < n)%nat /\ step_counts (cf_time c / 1000000000) (cf_step c) (cf_step c) n 1) /\
  (forall k, fmin + INR k * fstep < fmax -> (fmin + INR k * fstep) * 1000000000 <> -1).
Proof.
  intros SN GD HF HL HP. split.
  - intros [[[Hscan fs] spec] E]. apply vsd_sim_iff in E; [|exact HF|exact HP]. destruct E as (Hs & j & ps & a & st' & raw & SC & ST & U & EX & A & L & _).
    destruct (scanned_length _ _ _ SC) as [L1 _]. apply stack_of_up in ST. destruct ST as (UP & _ & -> & HN).
    destruct (proj1 (scanned_iff c) (ex_intro _ Hscan (ex_intro _ Hs SC))) as [S1 _].
    assert (NF : fs <> []). { intros ->. destruct U as [_ X]. cbn in X. lra. }
    assert (NH : Hs <> []). { intros ->. cbn in L1. lia. }
    destruct (lines_first _ _ _ _ _ _ _ _ L NH NF) as (H & f & st1 & v & _ & _ & EN). destruct (entry_needs _ _ _ _ _ _ _ _ _ _ _ _ _ _ _ HN UP EN) as (K & M & D & N).
    split; [exact HN|]. split; [exact S1|]. split; [apply axis_iff; eauto|]. split; [exact K|]. split; [exact M|]. split; [exact D|]. split; [exact N|].
    intros k Hk. apply (lines_frequency _ _ _ _ _ _ _ _ _ L NH). cbn [va_frequencies diode_settings]. destruct U as [U1 U2].
    destruct (nth_error fs k) as [g|] eqn:Eg; [destruct (U1 k g Eg) as [Q _]; apply nth_error_In in Eg; replace ((fmin + INR k * fstep) * 1000000000) with g by (rewrite Q; ring); exact Eg|].
    exfalso. apply nth_error_None in Eg. apply le_INR in Eg. assert (INR (length fs) * fstep <= INR k * fstep) by (apply Rmult_le_compat_r; lra). lra.
  - intros (HN & S1 & S3 & K & M & D & (n & Hn & HC) & FF). destruct (proj2 (scanned_iff c) (conj S1 (Z.lt_le_incl _ _ HP))) as (Hscan & Hs & SC). apply axis_iff in S3. destruct S3 as [a EX].
    destruct (prepare_run rng nsrc s HN) as (ls & j & EP & _). apply prepare_iff in EP. destruct (stack_of_up _ _ _ _ _ EP) as (UP & _ & _ & _).
    assert (HF' : 0 < fstep * 1000000000) by lra.
    assert (EF : exists fs, np_arange (fmin * 1000000000) (fmax * 1000000000) (fstep * 1000000000) = Ok fs).
    { unfold np_arange, py_div. destruct (Req_EM_T (fstep * 1000000000) 0); [lra|]. cbn [rbind]. eauto. }
    destruct EF as [fs EF]. apply arange_iff in EF; [|exact HF'].
    assert (NF : ~ In (-1) fs).
    { intros X. apply In_nth_error in X. destruct X as [k X]. destruct EF as [U _]. destruct (U k _ X) as [Q Q']. apply (FF k); lra. }
    destruct (lines_exist design rnd s c Hs fs a Hoe kind n SN GD HN M K D HC Hn NF Hs j 0%nat UP) as (j2 & p2 & raw & L).
    assert (Z : sized raw (Z.to_nat (cf_Hsteps c)) (length fs)).
    { destruct (lines_shape _ _ _ _ _ _ _ _ L) as [L1 L2]. destruct (scanned_length _ _ _ SC) as [L3 _]. split; [congruence|]. intros v. rewrite Forall_forall in L2. apply L2. }
    destruct (detrend0_total Z ltac:(lia)) as [spec ED]. apply (detrend0 spec Z) in ED; [|lia].
    exists (Hscan, fs, spec). apply vsd_sim_iff; [exact HF|exact HP|]. exists Hs, j, (map (strip s) (seq 0 (sf_N s))), a, (j2, p2), raw.
    split; [exact SC|]. split; [exact EP|]. split; [exact EF|]. split; [exact EX|]. split; [destruct K as [->| ->]; discriminate|]. split; [exact L|exact ED].
Qed.
