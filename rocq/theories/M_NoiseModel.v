(** Model of cmtj/models/noise.py: noise_model and autocorrelation.
    The draws of the numpy generator are arbitrary functions grouped by the call they come from; normal
    draws are standard ones scaled by the standard deviation.  The parameters of the volume and frequency
    distributions only shape these functions.  Printing and the progress bar are left out. *)
From Verif Require Export M_Shapes M_Noise.
Open Scope R_scope.
Open Scope st_scope.

Record noise_args := NArgs {
  na_N : nat; na_steps : R; na_thermal : R; na_background : R; na_amplitude : R; na_oscillations : bool;
  na_volumes : string; na_freqs : string; na_frequency_scale : R; na_time_scale : R; na_phase_std : R;
  na_dims : nat; na_offset : Z; na_save : bool; na_background_scale : nat }.
Record noise_draws := NDraws {
  nd_volume : nat -> R;                 (* rng.gamma or rng.random, per domain *)
  nd_freq : nat -> Z;                   (* rng.integers, per domain *)
  nd_fosc : nat -> R; nd_phase : nat -> R; (* per background domain *)
  nd_start : nat -> nat -> R;           (* rng.random((N, dims)) *)
  nd_background : nat -> nat -> R;      (* per step and dimension *)
  nd_disturbance : nat -> nat -> Z;     (* per step and domain *)
  nd_normal : nat -> nat -> nat -> R    (* per step, row of the masked block and dimension *) }.
Record noise_out := NOut {
  no_m : list (list R); no_volumes : list R; no_freqs : list Z; no_time_scale : R; no_counts : list Z; no_vectors : option (list (list (list R))) }.

(** models/noise.py:81-90 *)
Definition noise_volumes (a : noise_args) (w : noise_draws) : result (list R) :=
  let draws := map (nd_volume w) (seq 0 (na_N a)) in
  if String.eqb (na_volumes a) "pareto" then Ok (sort_R draws)
  else if String.eqb (na_volumes a) "uniform" then v <-- mapM (fun x => fdiv x (sum_list draws)) draws ;; Ok (sort_R v)
  else Err (Throw "UnboundLocalError: volumes").
(** models/noise.py:92-95 *)
Definition noise_freqs (a : noise_args) (w : noise_draws) (volumes : list R) : result (list Z) :=
  if String.eqb (na_freqs a) "functional" then
    q <-- mapM (fun v => fdiv (na_frequency_scale a) v) volumes ;; Ok (map (fun z => (z + 1)%Z) (rev (map ztrunc q)))
  else if String.eqb (na_freqs a) "uniform" then Ok (map (nd_freq w) (seq 0 (na_N a)))
  else Err (Throw "UnboundLocalError: freqs").
(** models/noise.py:97-101, 109-110  summed over the background domains (line 125). *)
Definition noise_phase (a : noise_args) (w : noise_draws) (p : nat) : R :=
  if Rlt_dec 0 (na_phase_std a) then nd_phase w p * na_phase_std a else 0.
Definition oscillations (a : noise_args) (w : noise_draws) (t : nat) (i : Z) : R :=
  sum_list (map (fun p => na_amplitude a * sin (2 * PI * nd_fosc w p * IZR i * na_time_scale a + noise_phase a w p)) (seq 0 (na_background_scale a * na_N a))).
(** models/noise.py:112-113 *)
Definition background_noise (a : noise_args) (w : noise_draws) (t : nat) (i : Z) : R :=
  sum_list (map (fun d => na_background a * nd_background w t d) (seq 0 (na_dims a))).
(** numpy's [i % q == 0] on integers: the remainder by zero is zero. *)
Definition np_divides (i q : Z) : bool := if Z.eqb q 0 then true else Z.eqb (Z.modulo i q) 0.
(** [values[mask] = block] *)
Fixpoint assign {A} (mask : list bool) (block : nat -> A) (row : nat) (values : list A) : list A :=
  match mask, values with
  | b :: mask', v :: rest => if b then block row :: assign mask' block (S row) rest else v :: assign mask' block row rest
  | _, _ => values
  end.
Record noise_state := NState { ns_vectors : list (list R); ns_m : list (list R); ns_counts : list Z; ns_saved : list (list (list R)) }.
(** np.sum(volumes * vector_values, axis=0) *)
Definition weighted_sum (dims : nat) (volumes : list R) (vectors : list (list R)) : list R :=
  map (fun d => sum_list (map (fun p => fst p * nth d (snd p) 0) (combine volumes vectors))) (seq 0 dims).
(** models/noise.py:124-138  one step; [osc_fn] may be unbound. *)
Definition noise_step (a : noise_args) (w : noise_draws) (volumes : list R) (freqs : list Z) (osc_fn : option (nat -> Z -> R))
  (t : nat) (s : noise_state) : result noise_state :=
  let i := (na_offset a + Z.of_nat t)%Z in
  match osc_fn with
  | None => Err (Throw "UnboundLocalError: osc_fn")
  | Some osc =>
      let osc_vals := osc t i in
      let mask := map (fun p => np_divides i (fst p + snd p)) (combine freqs (map (nd_disturbance w t) (seq 0 (na_N a)))) in
      let counts := map (fun p : bool * Z => if fst p then (snd p + 1)%Z else snd p) (combine mask (ns_counts s)) in
      if existsb (fun b => b) mask then
        if Rlt_dec (na_thermal a) 0 then Err (Throw "scale < 0")
        else
          let vectors := assign mask (fun r => map (fun d => na_thermal a * nd_normal w t r d) (seq 0 (na_dims a))) 0 (ns_vectors s) in
          let row := map (fun p => fst p + (snd p + osc_vals)) (combine (nth t (ns_m s) []) (weighted_sum (na_dims a) volumes vectors)) in
          Ok (NState vectors (set_nth t row (ns_m s)) counts (if na_save a then (ns_saved s ++ [vectors])%list else ns_saved s))
      else
        let previous := if Nat.eqb t 0 then nth (length (ns_m s) - 1) (ns_m s) [] else nth (t - 1) (ns_m s) [] in
        Ok (NState (ns_vectors s) (set_nth t (map (fun x => osc_vals + x) previous) (ns_m s)) counts
             (if na_save a then (ns_saved s ++ [ns_vectors s])%list else ns_saved s))
  end.
Fixpoint noise_loop (step : nat -> noise_state -> result noise_state) (t n : nat) (s : noise_state) : result noise_state :=
  match n with
  | O => Ok s
  | S n' => s' <-- step t s ;; noise_loop step (S t) n' s'
  end.
(** models/noise.py:9-144 *)
Definition noise_model (a : noise_args) (w : noise_draws) : result noise_out :=
  volumes <-- noise_volumes a w ;;
  let steps := ztrunc (na_steps a) in
  freqs <-- noise_freqs a w volumes ;;
  let vectors := map (fun k => map (nd_start w k) (seq 0 (na_dims a))) (seq 0 (na_N a)) in
  if Z.ltb steps 0 then Err (Throw "negative dimensions are not allowed")
  else
    let m_values := repeat (repeat 0 (na_dims a)) (Z.to_nat steps) in
    let positive := if Rlt_dec 0 (na_background a) then true else false in
    if (na_oscillations a && positive)%bool then Err (Throw "Cannot have both oscillations and background thermal noise enabled.")
    else
      let osc_fn := if na_oscillations a then Some (oscillations a w) else if positive then Some (background_noise a w) else None in
      s <-- noise_loop (noise_step a w volumes freqs osc_fn) 0 (Z.to_nat steps) (NState vectors m_values (repeat 0%Z (na_N a)) []) ;;
      Ok (NOut (ns_m s) volumes freqs (na_time_scale a) (ns_counts s) (if na_save a then Some (ns_saved s) else None)).

(** models/noise.py:147-165  np.fft.fft and np.fft.ifft are the discrete Fourier sums; an empty signal is rejected. *)
Definition np_ifft (xs : list (R * R)) : list (R * R) :=
  map (fun z => (fst z / INR (length xs), snd z / INR (length xs))) (transform true xs).
Definition autocorrelation (x : list R) (dT : R) : result (list R * list R) :=
  mean <-- np_mean x ;;
  let xp := map (fun v => v - mean) x in
  let f := transform false (map (fun v => (v, 0)) xp) in
  let p := map (fun z => (sqrt (fst z * fst z + snd z * snd z)) ^ 2) f in
  let pi := np_ifft (map (fun v => (v, 0)) p) in
  autocorr <-- mapM (fun z => fdiv (fst z) (sum_list (map (fun v => v ^ 2) xp))) (firstn (length x / 2) pi) ;;
  Ok (map (fun k => INR k * dT) (seq 0 (length autocorr)), autocorr).
