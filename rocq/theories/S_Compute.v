(** Specification vocabulary for the log analysis functions. *)
From Verif Require Export S_Math S_Run S_Noise M_Compute.
Open Scope R_scope.

(** [p] is the first index whose time is at least [minTime] (the length if there is none). *)
Definition first_at (minTime : R) (ts : list R) (p : nat) : Prop :=
  (p <= length ts)%nat /\ (forall k t, (k < p)%nat -> nth_error ts k = Some t -> t < minTime) /\
  (forall t, nth_error ts p = Some t -> minTime <= t).
(** Sum over a list. *)
Definition Sigma (xs : list R) : R := Rsum (fun k => nth k xs 0) (length xs).
Definition attained_max (xs : list R) (m : R) : Prop := In m xs /\ forall x, In x xs -> x <= m.
Definition attained_min (xs : list R) (m : R) : Prop := In m xs /\ forall x, In x xs -> m <= x.

(** ** Discrete Fourier transform *)
Definition dft_re (xs : list R) (k : nat) : R :=
  Rsum (fun t => nth t xs 0 * cos (2 * PI * INR k * INR t / INR (length xs))) (length xs).
Definition dft_im (xs : list R) (k : nat) : R :=
  - Rsum (fun t => nth t xs 0 * sin (2 * PI * INR k * INR t / INR (length xs))) (length xs).
(** Bin i of a spectrum normalised by half the cut size [n]: amplitude and phase. *)
Definition bin_of (n : nat) (xs : list R) (i : nat) (amp phase : R) : Prop :=
  amp = sqrt (dft_re xs i * dft_re xs i + dft_im xs i * dft_im xs i) / (INR n / 2) /\
  principal_angle (dft_re xs i) (dft_im xs i) phase.
(** One-sided spectrum with [m] bins: bin 0 is the plain sum. *)
Definition spectrum (n m : nat) (xs amps phases : list R) : Prop :=
  length amps = m /\ length phases = m /\
  nth_error amps 0 = Some (Sigma xs) /\ nth_error phases 0 = Some 0 /\
  forall i a f, (0 < i)%nat -> nth_error amps i = Some a -> nth_error phases i = Some f -> bin_of n xs i a f.
(** Frequencies 0, 1/(n dt), 2/(n dt), ... of n samples. *)
Definition frequency_axis (dt : R) (n m : nat) (fs : list R) : Prop :=
  length fs = m /\ forall i f, nth_error fs i = Some f -> dt * INR n <> 0 /\ f = INR i / (dt * INR n).
(** Number of frequencies for a cut of n samples. *)
Definition half_bins (n : nat) : nat := ((n - 1) / 2)%nat.

(** Result of [spectralFFT]: [p] is the first sample used, [n] the number of samples of the time column
    from there on.  The columns may be longer than the time column. *)
Definition spectral_result (g : log_t) (tags : list string) (minTime dt : R) (r : log_t) : Prop :=
  exists time p fs, log_get "time" g = Some time /\ first_at minTime time p /\
    (exists t, nth_error time (length time - 1) = Some t /\ minTime < t) /\
    let n := (length time - p)%nat in
    frequency_axis dt n (half_bins n) fs /\ log_get "frequencies" r = Some fs /\
    (forall tag, In tag tags -> exists xs amps phases, log_get tag g = Some xs /\ (p < length xs)%nat /\
       log_get (tag ++ "_amplitude") r = Some amps /\ log_get (tag ++ "_phase") r = Some phases /\
       spectrum n (Nat.max 1 (half_bins (length xs - p))) (skipn p xs) amps phases) /\
    (forall key, key <> "frequencies"%string -> (forall tag, In tag tags -> key <> (tag ++ "_amplitude")%string /\ key <> (tag ++ "_phase")%string) -> log_get key r = None).
(** Result of [spectralFFTMixed]. *)
Definition mixed_result (g : log_t) (tags : list string) (dt : R) (r : log_t) : Prop :=
  exists time fs mixed amps phases, log_get "time" g = Some time /\ (3 <= length time)%nat /\
    let n := length time in
    length mixed = n /\
    (forall tag, In tag tags -> exists xs, log_get tag g = Some xs /\ (n <= length xs)%nat) /\
    (forall k, (k < n)%nat -> nth k mixed 0 = Sigma (map (fun tag => nth k (col tag g) 0) tags)) /\
    frequency_axis dt n (half_bins n) fs /\ spectrum n (S (half_bins n)) mixed amps phases /\
    log_get "frequencies" r = Some fs /\ log_get "mixed_amplitude" r = Some amps /\
    forall key, key <> "frequencies"%string -> key <> "mixed_amplitude"%string -> log_get key r = None.
(** A sampled oscillation with q whole periods in n samples. *)
Definition oscillation (n q : nat) (a phi : R) (xs : list R) : Prop :=
  length xs = n /\ forall t, (t < n)%nat -> nth t xs 0 = a * cos (2 * PI * INR q * INR t / INR n + phi).

(** ** Spin diode *)
Definition diode_result (g : log_t) (tag : string) (f power minTime : R) (r : list (string * R)) : Prop :=
  exists time res p mx mn I, log_get "time" g = Some time /\ log_get tag g = Some res /\ first_at minTime time p /\
    let n := (length time - p)%nat in
    (0 < n)%nat /\ (length time <= length res)%nat /\
    attained_max (skipn p res) mx /\ attained_min (skipn p res) mn /\
    let mean := Sigma (skipn p res) / INR n in
    mean <> 0 /\ 0 <= I /\ I * I = power / mean /\
    r = [("Vmix", I * (Rsum (fun k => nth (p + k) res 0 * sin (2 * PI * f * nth (p + k) time 0)) n / INR n));
         ("RMax", mx); ("RMin", mn); ("Rpp", mx - mn)]%string.
(** A resistance oscillating at the drive frequency, sampled over q whole periods from index p on. *)
Definition rectifying (g : log_t) (tag : string) (f minTime dt R0 A psi : R) (p n q : nat) : Prop :=
  exists time res, log_get "time" g = Some time /\ log_get tag g = Some res /\ first_at minTime time p /\ length time = (p + n)%nat /\ length res = length time /\
    (forall k, (k < n)%nat -> nth (p + k) time 0 = nth p time 0 + INR k * dt /\
       nth (p + k) res 0 = R0 + A * sin (2 * PI * f * nth (p + k) time 0 + psi)) /\ f * (INR n * dt) = INR q.
