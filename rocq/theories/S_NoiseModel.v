(** Declarative vocabulary for the domain noise model and the autocorrelation. *)
From Verif Require Export M_NoiseModel S_Shapes S_Compute.
Open Scope R_scope.

(** [z] is [x] without its fractional part. *)
Definition whole_part (x : R) (z : Z) : Prop := 0 <= x /\ IZR z <= x < IZR z + 1 \/ x < 0 /\ IZR z - 1 < x <= IZR z.
(** A period [q] fires at time [i] when it divides it; a vanishing period always fires. *)
Definition fires (i q : Z) : Prop := q = 0%Z \/ (q | i)%Z.
(** Domain [k] is renewed in step [t]. *)
Definition renewed (a : noise_args) (w : noise_draws) (freqs : list Z) (t k : nat) : Prop :=
  fires (na_offset a + Z.of_nat t) (nth k freqs 0%Z + nd_disturbance w t k).
(** [r] domains with a smaller index than [k] satisfy [P]. *)
Inductive count_below (P : nat -> Prop) : nat -> nat -> Prop :=
| cb_zero : count_below P 0 0
| cb_in k r : P k -> count_below P k r -> count_below P (S k) (S r)
| cb_out k r : ~ P k -> count_below P k r -> count_below P (S k) r.

(** The domain areas: the draws (normalised to a total of one) in ascending order. *)
Definition areas (a : noise_args) (w : noise_draws) (vs : list R) : Prop :=
  StronglySorted Rle vs /\
  (na_volumes a = "pareto"%string /\ Permutation (map (nd_volume w) (seq 0 (na_N a))) vs \/
   na_volumes a = "uniform"%string /\ (na_N a <> 0%nat -> Rsum (nd_volume w) (na_N a) <> 0) /\
   Permutation (map (fun k => nd_volume w k / Rsum (nd_volume w) (na_N a)) (seq 0 (na_N a))) vs).
(** The renewal periods: drawn, or one more than the whole part of scale over area, in reversed order. *)
Definition periods (a : noise_args) (w : noise_draws) (vs : list R) (fs : list Z) : Prop :=
  na_freqs a = "functional"%string /\ length fs = length vs /\
    (forall k, (k < length vs)%nat -> nth (length vs - 1 - k) vs 0 <> 0 /\ whole_part (na_frequency_scale a / nth (length vs - 1 - k) vs 0) (nth k fs 0%Z - 1)) \/
  na_freqs a = "uniform"%string /\ length fs = na_N a /\ forall k, (k < na_N a)%nat -> nth k fs 0%Z = nd_freq w k.
(** What is added in every step. *)
Definition disturbance_of (a : noise_args) (w : noise_draws) (t : nat) (x : R) : Prop :=
  na_oscillations a = true /\ x = Rsum (fun p => na_amplitude a * sin (2 * PI * nd_fosc w p * IZR (na_offset a + Z.of_nat t) * na_time_scale a +
                                    Rmax 0 (na_phase_std a) * nd_phase w p)) (na_background_scale a * na_N a) \/
  na_oscillations a = false /\ x = na_background a * Rsum (nd_background w t) (na_dims a).
(** [V t k d]: component [d] of domain [k] before step [t]; [M t d]: the signal before step [t]. *)
Definition domain_history (a : noise_args) (w : noise_draws) (vs : list R) (fs : list Z) (n : nat) (V : nat -> nat -> nat -> R) (M : nat -> nat -> R) : Prop :=
  (forall k d, (k < na_N a)%nat -> (d < na_dims a)%nat -> V 0%nat k d = nd_start w k d) /\
  (forall d, (d < na_dims a)%nat -> M 0%nat d = 0) /\
  forall t d, (t < n)%nat -> (d < na_dims a)%nat ->
    (forall k, (k < na_N a)%nat ->
       (forall r, renewed a w fs t k -> count_below (renewed a w fs t) k r -> V (S t) k d = na_thermal a * nd_normal w t r d) /\
       (~ renewed a w fs t k -> V (S t) k d = V t k d)) /\
    forall x, disturbance_of a w t x ->
      ((exists k, (k < na_N a)%nat /\ renewed a w fs t k) -> M (S t) d = Rsum (fun k => nth k vs 0 * V (S t) k d) (na_N a) + x) /\
      ((forall k, (k < na_N a)%nat -> ~ renewed a w fs t k) -> M (S t) d = M t d + x).
(** The calls that return. *)
Definition noise_allowed (a : noise_args) (w : noise_draws) (fs : list Z) (n : nat) : Prop :=
  ~ (na_oscillations a = true /\ 0 < na_background a) /\
  (n = 0%nat \/ na_oscillations a = true \/ 0 < na_background a) /\
  (0 <= na_thermal a \/ forall t k, (t < n)%nat -> (k < na_N a)%nat -> ~ renewed a w fs t k).
Definition noise_result (a : noise_args) (w : noise_draws) (o : noise_out) : Prop :=
  exists n V M, whole_part (na_steps a) (Z.of_nat n) /\
    areas a w (no_volumes o) /\ periods a w (no_volumes o) (no_freqs o) /\ noise_allowed a w (no_freqs o) n /\
    domain_history a w (no_volumes o) (no_freqs o) n V M /\
    no_m o = map (fun t => map (M (S t)) (seq 0 (na_dims a))) (seq 0 n) /\
    no_time_scale o = na_time_scale a /\
    length (no_counts o) = na_N a /\
    (forall k, (k < na_N a)%nat -> exists c, nth k (no_counts o) 0%Z = Z.of_nat c /\ count_below (fun t => renewed a w (no_freqs o) t k) n c) /\
    no_vectors o = if na_save a then Some (map (fun t => map (fun k => map (V (S t) k) (seq 0 (na_dims a))) (seq 0 (na_N a))) (seq 0 n)) else None.

(** Circular correlation of a signal with itself. *)
Definition average (x : list R) : R := Rsum (fun t => nth t x 0) (length x) / INR (length x).
Definition deviation (x : list R) (t : nat) : R := nth t x 0 - average x.
Definition circular (x : list R) (k : nat) : R :=
  Rsum (fun t => deviation x t * deviation x ((t + k) mod length x)) (length x).
