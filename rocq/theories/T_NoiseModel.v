(** C80: the domain noise model; C81: the autocorrelation. *)
From Verif Require Import P_NoiseModel P_NoiseModelMore P_Auto.
Open Scope R_scope.
Open Scope st_scope.

(** ** C80 *)
Theorem c80_exact a w o : noise_model a w = Ok o <-> noise_result a w o.
Proof. exact (P_NoiseModel.noise_iff a w o). Qed.
Example c80_exact_ex : exists o, noise_result (two_domains (1/2) 0 true 1) two_draws o /\ no_m o = [[1/2 + 1]].
Proof. destruct (two_model (1/2)) as (o & E & M); [lra|]. exists o. split; [apply P_NoiseModel.noise_iff, E|exact M]. Qed.
Theorem c80_total a w vs fs n : areas a w vs -> periods a w vs fs -> whole_part (na_steps a) (Z.of_nat n) -> noise_allowed a w fs n ->
  exists o, noise_model a w = Ok o /\ no_volumes o = vs /\ no_freqs o = fs /\ length (no_m o) = n.
Proof. exact (noise_total a w vs fs n). Qed.
Example c80_total_ex : areas (two_domains 1 0 true (INR 3)) two_draws [1; 1] /\ periods (two_domains 1 0 true (INR 3)) two_draws [1; 1] [1; 5]%Z /\
  whole_part (na_steps (two_domains 1 0 true (INR 3))) (Z.of_nat 3) /\ noise_allowed (two_domains 1 0 true (INR 3)) two_draws [1; 5]%Z 3.
Proof.
  split; [apply two_areas|]. split; [apply two_periods|]. split; [apply two_whole|]. split; [intros [_ X]; cbn in X; lra|]. split; [right; left; reflexivity|left; cbn; lra].
Qed.
Theorem c80_shape a w o : noise_model a w = Ok o -> whole_part (na_steps a) (Z.of_nat (length (no_m o))) /\ sized (no_m o) (length (no_m o)) (na_dims a) /\
  length (no_volumes o) = na_N a /\ length (no_freqs o) = na_N a /\ length (no_counts o) = na_N a.
Proof. exact (noise_shape a w o). Qed.
(** Between renewals the signal performs a walk with the disturbances as increments ... *)
Theorem c80_walk a w o x d t j : noise_model a w = Ok o -> (d < na_dims a)%nat -> (t + j < length (no_m o))%nat ->
  (forall s, (t < s <= t + j)%nat -> disturbance_of a w s (x s) /\ forall k, (k < na_N a)%nat -> ~ renewed a w (no_freqs o) s k) ->
  entry (no_m o) (t + j) d = entry (no_m o) t d + Rsum (fun s => x (t + 1 + s)%nat) j.
Proof. exact (noise_drift a w o x d t j). Qed.
(** ... starting from zero ... *)
Theorem c80_walk_start a w o x d t : noise_model a w = Ok o -> (d < na_dims a)%nat -> (t < length (no_m o))%nat ->
  (forall s, (s <= t)%nat -> disturbance_of a w s (x s) /\ forall k, (k < na_N a)%nat -> ~ renewed a w (no_freqs o) s k) ->
  entry (no_m o) t d = Rsum x (S t).
Proof. exact (noise_head a w o x d t). Qed.
(** ... and every renewal resets it to the area weighted sum of the domains. *)
Theorem c80_renewal a w o vv x d t : noise_model a w = Ok o -> no_vectors o = Some vv -> (d < na_dims a)%nat -> (t < length (no_m o))%nat -> disturbance_of a w t x ->
  (exists k, (k < na_N a)%nat /\ renewed a w (no_freqs o) t k) ->
  entry (no_m o) t d = Rsum (fun k => nth k (no_volumes o) 0 * entry (nth t vv []) k d) (na_N a) + x.
Proof. exact (noise_renewal a w o vv x d t). Qed.
Theorem c80_counts a w o k : noise_model a w = Ok o -> (k < na_N a)%nat -> (0 <= nth k (no_counts o) 0 <= Z.of_nat (length (no_m o)))%Z.
Proof. exact (noise_counts a w o k). Qed.
Theorem c80_counts_full a w o k : noise_model a w = Ok o -> (k < na_N a)%nat -> (forall t, (t < length (no_m o))%nat -> renewed a w (no_freqs o) t k) ->
  nth k (no_counts o) 0%Z = Z.of_nat (length (no_m o)).
Proof. exact (frozen_count a w o k). Qed.
Theorem c80_always_renewed a w fs t k : (nth k fs 0 + nd_disturbance w t k = 0 \/ nth k fs 0 + nd_disturbance w t k = 1)%Z -> renewed a w fs t k.
Proof. exact (always_fires a w fs t k). Qed.
Theorem c80_unit_area a w o : noise_model a w = Ok o -> na_volumes a = "uniform"%string -> na_N a <> 0%nat -> Rsum (fun k => nth k (no_volumes o) 0) (na_N a) = 1.
Proof. exact (unit_area a w o). Qed.
Theorem c80_areas_ascend a w o i j : noise_model a w = Ok o -> (i <= j < na_N a)%nat -> nth i (no_volumes o) 0 <= nth j (no_volumes o) 0.
Proof. exact (areas_sorted a w o i j). Qed.
Theorem c80_periods_ascend a w o i j : noise_model a w = Ok o -> na_freqs a = "functional"%string -> 0 <= na_frequency_scale a -> (forall k, (k < na_N a)%nat -> 0 < nth k (no_volumes o) 0) ->
  (i <= j < na_N a)%nat -> (1 <= nth i (no_freqs o) 0 <= nth j (no_freqs o) 0)%Z.
Proof. exact (periods_ascend a w o i j). Qed.
(** Calls that never return a signal. *)
Theorem c80_both_refused a w o : na_oscillations a = true -> 0 < na_background a -> noise_model a w <> Ok o.
Proof. exact (both_refused a w o). Qed.
Theorem c80_neither_refused a w o : na_oscillations a = false -> na_background a <= 0 -> 1 <= na_steps a -> noise_model a w <> Ok o.
Proof. exact (silent_refused a w o). Qed.
Theorem c80_unknown_refused a w o : na_volumes a <> "pareto"%string /\ na_volumes a <> "uniform"%string \/ na_freqs a <> "functional"%string /\ na_freqs a <> "uniform"%string -> noise_model a w <> Ok o.
Proof. exact (unknown_refused a w o). Qed.
Theorem c80_negative_refused a w o : na_steps a <= -1 -> noise_model a w <> Ok o.
Proof. exact (negative_refused a w o). Qed.
Example c80_refused_ex : na_oscillations (two_domains 1 1 true 5) = true /\ 0 < na_background (two_domains 1 1 true 5) /\
  na_oscillations (two_domains 1 0 false 5) = false /\ na_background (two_domains 1 0 false 5) <= 0 /\ 1 <= na_steps (two_domains 1 0 false 5).
Proof. cbn. repeat split; lra. Qed.
(** Finding: switching every source of noise off does not give a zero signal. *)
Theorem c80_silence_refuted : ~ forall a w o t d, noise_model a w = Ok o -> na_thermal a = 0 -> na_background a = 0 -> na_amplitude a = 0 -> entry (no_m o) t d = 0.
Proof. exact silent_signal_refuted. Qed.

(** ** C81 *)
Theorem c81_exact x dT lag ac : autocorrelation x dT = Ok (lag, ac) <->
  x <> [] /\ (length x = 1%nat \/ circular x 0 <> 0) /\ length lag = (length x / 2)%nat /\ length ac = (length x / 2)%nat /\
  forall k, (k < length x / 2)%nat -> nth k lag 0 = INR k * dT /\ nth k ac 0 * circular x 0 = circular x k.
Proof. exact (auto_iff x dT lag ac). Qed.
Example c81_exact_ex : autocorrelation [1; 0; 0; 0] 1 = Ok ([0; 1], [1; - (1 / 3)]).
Proof. exact pulse_auto. Qed.
Theorem c81_energy x : circular x 0 = 0 <-> forall t, (t < length x)%nat -> nth t x 0 = average x.
Proof. rewrite energy_zero. unfold deviation. split; intros H t T; specialize (H t T); lra. Qed.
Theorem c81_zero_lag x dT lag ac : (1 < length x)%nat -> autocorrelation x dT = Ok (lag, ac) -> nth 0 ac 0 = 1.
Proof. exact (auto_zero x dT lag ac). Qed.
Theorem c81_bounded x dT lag ac k : autocorrelation x dT = Ok (lag, ac) -> (k < length x / 2)%nat -> -1 <= nth k ac 0 <= 1.
Proof. exact (auto_bound x dT lag ac k). Qed.
Theorem c81_affine x dT c d r : c <> 0 -> autocorrelation x dT = Ok r -> autocorrelation (map (fun v => c * v + d) x) dT = Ok r.
Proof. exact (auto_affine x dT c d r). Qed.
Theorem c81_period x dT lag ac q : autocorrelation x dT = Ok (lag, ac) -> (q < length x / 2)%nat ->
  (forall t, (t < length x)%nat -> nth ((t + q) mod length x) x 0 = nth t x 0) -> nth q ac 0 = 1.
Proof. exact (auto_period x dT lag ac q). Qed.
Theorem c81_constant x c dT r : (1 < length x)%nat -> (forall t, (t < length x)%nat -> nth t x 0 = c) -> autocorrelation x dT <> Ok r.
Proof. exact (auto_constant x c dT r). Qed.
Example c81_period_ex : exists lag ac, autocorrelation [1; 0; 1; 0; 1; 0] 2 = Ok (lag, ac) /\ nth 2 ac 0 = 1.
Proof.
  assert (A : average [1; 0; 1; 0; 1; 0] = 1 / 2) by (unfold average; cbn; field).
  assert (C : forall k, circular [1; 0; 1; 0; 1; 0] k = Rsum (fun t => deviation [1; 0; 1; 0; 1; 0] t * deviation [1; 0; 1; 0; 1; 0] ((t + k) mod 6)) 6) by reflexivity.
  assert (C0 : circular [1; 0; 1; 0; 1; 0] 0 = 3 / 2) by (rewrite C; cbn; unfold deviation; rewrite A; cbn; lra).
  assert (C1 : circular [1; 0; 1; 0; 1; 0] 1 = - (3 / 2)) by (rewrite C; cbn; unfold deviation; rewrite A; cbn; lra).
  assert (C2 : circular [1; 0; 1; 0; 1; 0] 2 = 3 / 2) by (rewrite C; cbn; unfold deviation; rewrite A; cbn; lra).
  assert (E : autocorrelation [1; 0; 1; 0; 1; 0] 2 = Ok ([0; 2; 4], [1; -1; 1])).
  { apply auto_iff. split; [discriminate|]. split; [right; lra|]. split; [reflexivity|]. split; [reflexivity|]. intros [|[|[|k]]] K; [| | |cbn in K; lia]; rewrite ?C0, ?C1, ?C2; cbn; split; lra. }
  exists [0; 2; 4], [1; -1; 1]. split; [exact E|]. apply (c81_period _ _ _ _ 2 E); [cbn; lia|]. intros [|[|[|[|[|[|t]]]]]] T; cbn in T; try lia; reflexivity.
Qed.
(** Finding: the result is the circular correlation, not the correlation of the finite record. *)
Theorem c81_linear_refuted : ~ forall x dT lag ac k, autocorrelation x dT = Ok (lag, ac) -> (k < length x / 2)%nat ->
  nth k ac 0 * Rsum (fun t => deviation x t ^ 2) (length x) = Rsum (fun t => deviation x t * deviation x (t + k)) (length x - k).
Proof.
  intros H. specialize (H _ _ _ _ 1%nat pulse_auto ltac:(cbn; lia)). cbn in H. unfold deviation in H. rewrite pulse_average in H. cbn in H. lra.
Qed.

Print Assumptions c80_exact.
Print Assumptions c80_total.
Print Assumptions c80_shape.
Print Assumptions c80_walk.
Print Assumptions c80_walk_start.
Print Assumptions c80_renewal.
Print Assumptions c80_counts.
Print Assumptions c80_counts_full.
Print Assumptions c80_always_renewed.
Print Assumptions c80_unit_area.
Print Assumptions c80_areas_ascend.
Print Assumptions c80_periods_ascend.
Print Assumptions c80_both_refused.
Print Assumptions c80_neither_refused.
Print Assumptions c80_unknown_refused.
Print Assumptions c80_negative_refused.
Print Assumptions c80_silence_refuted.
Print Assumptions c81_exact.
Print Assumptions c81_energy.
Print Assumptions c81_zero_lag.
Print Assumptions c81_bounded.
Print Assumptions c81_affine.
Print Assumptions c81_period.
Print Assumptions c81_constant.
Print Assumptions c81_linear_refuted.
