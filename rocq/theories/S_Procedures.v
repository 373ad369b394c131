(** Specification vocabulary for the measurement procedures and filters. *)
From Verif Require Export S_Resist S_Compute M_Procedures.
From Coq Require Import List.
Set Implicit Arguments.
Open Scope R_scope.

(** ** Drivers *)
(** A field that does not change in time. *)
Definition steady_scalar (v : R) : sdriver := SD constant v 0 (-1) 0 (-1) (-1) (-1) (-1) (-1) (-1).
Definition steady (H : cvec) : adriver := AX (steady_scalar (cx H)) (steady_scalar (cy H)) (steady_scalar (cz H)).
(** A driver on one axis, nothing on the others.  Every axis that is not y or z means x. *)
Definition along_axis (a : axis) (d : sdriver) : adriver :=
  match a with
  | zaxis => AX (steady_scalar 0) (steady_scalar 0) d
  | yaxis => AX (steady_scalar 0) d (steady_scalar 0)
  | _ => AX d (steady_scalar 0) (steady_scalar 0)
  end.
Definition on_axis (a : axis) (x : R) : cvec := match a with zaxis => CV 0 0 x | yaxis => CV 0 x 0 | _ => CV x 0 0 end.
Definition field_pulse (amp stop : R) : sdriver := SD step 0 amp (-1) (-1) (-1) (-1) 0 stop (-1) (-1).
Definition field_sine (amp f : R) : sdriver := SD sine 0 amp f 0 (-1) (-1) (-1) (-1) (-1) (-1).

(** ** Set-up *)
(** Magnetisation of layer number p after the disturbance of size [d], [pos] numbers having been drawn before. *)
Definition kicked (rnd : nat -> R) (d : R) (pos p : nat) (m m' : cvec) : Prop :=
  (d = 0 -> m' = m) /\
  (d <> 0 -> 0 < d /\
     let v := Plus m (Scal d (CV (rnd (pos + 3 * p)%nat) (rnd (pos + 3 * p + 1)%nat) (rnd (pos + 3 * p + 2)%nat))) in
     v <> Zero /\ m' = Scal (/ Norm v) v).
Definition prepared_for (rnd : nat -> R) (H : cvec) (oe : adriver) (d : R) (pos : nat) (j j1 : junction) : Prop :=
  j_layers j <> [] /\
  exists ls, j1 = set_j_log [] 0 (set_j_layers ls j) /\ length ls = length (j_layers j) /\
    forall p l l1, nth_error (j_layers j) p = Some l -> nth_error ls p = Some l1 ->
      exists m, kicked rnd d pos p (l_mag l) m /\ l1 = set_l_mag m (set_l_Oersted oe (set_l_external (steady H) l)).
Definition drawn (d : R) (n : nat) : nat := if Req_EM_T d 0 then 0%nat else (3 * n)%nat.

(** ** Running *)
(** A run of the set-up junction: N steps through the states [s]. *)
Definition experiment (T dt : R) (j1 j2 : junction) (N : nat) (s : nat -> junction) : Prop :=
  runSimulation T dt dt false RK4 j1 = (j2, Ok tt) /\ step_counts T dt dt N 1 /\
  exists r used, selects RK4 N j1 (s 0%nat) r used /\ trajectory r dt s N /\ j_layers j2 = j_layers (s N).
(** Magnetisation of layer p after step k (the k-th logged sample), and all N samples. *)
Definition sample_of (s : nat -> junction) (p k : nat) : cvec := nth p (mags (j_layers (s (S k)))) Zero.
Definition samples (s : nat -> junction) (N p : nat) : list cvec := map (sample_of s p) (seq 0 N).
(** The sample numbers at or after [wait]. *)
Definition late (wait dt : R) (N : nat) : list nat := filter (fun k => if Rle_dec wait (INR k * dt) then true else false) (seq 0 N).

(** ** Weights *)
Definition moment (l : layer) : R := l_thickness l * l_Ms l.
Definition total_moment (ls : list layer) : R := fold_right (fun l a => moment l + a) 0 ls.
Definition weight (ls : list layer) (l : layer) : R := moment l / total_moment ls.

(** ** Spectrum: magnitudes and frequencies of the bins below half the sample count whose frequency does not exceed the limit *)
Definition magnitude (xs : list R) (k : nat) : R := sqrt (dft_re xs k * dft_re xs k + dft_im xs k * dft_im xs k).
Definition bin_frequency (n : nat) (dt : R) (k : nat) : R := INR k / (INR n * dt).
Definition bins (n : nat) (dt fmax : R) : list nat :=
  filter (fun k => if Rle_dec (bin_frequency n dt k) fmax then true else false) (seq 0 (n / 2)).
Definition cut_spectrum (xs : list R) (dt fmax : R) (yf freqs : list R) : Prop :=
  xs <> [] /\ dt <> 0 /\ yf = map (magnitude xs) (bins (length xs) dt fmax) /\ freqs = map (bin_frequency (length xs) dt) (bins (length xs) dt fmax).

(** ** One field of the pulse procedure *)
(** The component that is analysed. *)
Definition along_part (a : axis) (m : cvec) : R := match a with zaxis => cz m | yaxis => cy m | _ => cx m end.
(** The last n samples; for n = 0 all, for n < 0 all but the first -n. *)
Definition tail_samples {B} (n : Z) (xs ys : list B) : Prop :=
  exists hd, xs = (hd ++ ys)%list /\
    ((0 < n)%Z -> (length ys = Nat.min (Z.to_nat n) (length xs))) /\
    ((n <= 0)%Z -> (length hd = Nat.min (Z.to_nat (- n)) (length xs))).
(** The signal of one layer (weighted component at the late samples). *)
Definition layer_signal (ls : list layer) (a : axis) (wait dt : R) (N : nat) (s : nat -> junction) (p : nat) (l : layer) : list R :=
  map (fun k => weight ls l * along_part a (sample_of s p k)) (late wait dt N).
Definition whole_signal (ls : list layer) (a : axis) (wait dt : R) (N : nat) (s : nat -> junction) : list R :=
  map (fun k => fold_right Rplus 0 (mapi (fun p l => weight ls l * along_part a (sample_of s p k)) 0 ls)) (late wait dt N).
Definition pimm_result {A} (a : pimm_args A) (ls : list layer) (H : cvec) (N : nat) (s : nat -> junction) (row : pimm_row A) : Prop :=
  (0 < N)%nat /\ total_moment ls <> 0 /\
  pr_H row = H /\
  (* resistances: of the WEIGHTED magnetisations of the last samples *)
  (exists ms, Forall2 (tail_samples (pa_last_n a)) (mapi (fun p l => map (Scal (weight ls l)) (samples s N p)) 0 ls) ms /\
     pa_fn a (strips_of (pa_params a)) (length (hd [] ms)) ms = Ok (pr_Rx row, pr_Ry row)) /\
  pr_m_avg row = Sum (mapi (fun p l => Scal (weight ls l) (sample_of s p (N - 1))) 0 ls) /\
  (pa_static a = true -> pr_spectrum row = None) /\
  (pa_static a = false -> exists yf freqs, pr_spectrum row = Some (yf, freqs) /\
     cut_spectrum (whole_signal ls (pa_direction a) (pa_wait a) (pa_int_step a) N s) (pa_int_step a) (pa_max_frequency a) yf freqs) /\
  (pa_full a = true /\ pa_static a = false -> exists ys,
     pr_full row = Some (mapi (fun p l => map (Scal (weight ls l)) (samples s N p)) 0 ls, ys) /\
     length ys = length ls /\
     forall p l y, nth_error ls p = Some l -> nth_error ys p = Some y ->
       exists freqs, cut_spectrum (layer_signal ls (pa_direction a) (pa_wait a) (pa_int_step a) N s p l) (pa_int_step a) (pa_max_frequency a) y freqs) /\
  (pa_full a = false \/ pa_static a = true -> pr_full row = None).
(** All fields, one after the other; the junction is carried along. *)
Inductive pimm_fields {A} (rnd : nat -> R) (a : pimm_args A) (oe : adriver) : list cvec -> lab -> lab -> list (pimm_row A) -> Prop :=
  | pimm_end j pos : pimm_fields rnd a oe [] (j, pos) (j, pos) []
  | pimm_next H Hs j pos j1 j2 N s row rows final :
      prepared_for rnd H oe (pa_disturbance a) pos j j1 ->
      experiment (pa_simulation a) (pa_int_step a) j1 j2 N s ->
      pimm_result a (j_layers j) H N s row ->
      pimm_fields rnd a oe Hs (j2, pos + drawn (pa_disturbance a) (layerNo j))%nat final rows ->
      pimm_fields rnd a oe (H :: Hs) (j, pos) final (row :: rows).
(** The collected output. *)
Definition pimm_output {A} (a : pimm_args A) (ids : list string) (rows : list (pimm_row A)) (o : pimm_out A) : Prop :=
  po_H o = map (@pr_H A) rows /\ po_Rx o = map (@pr_Rx A) rows /\ po_Ry o = map (@pr_Ry A) rows /\ po_m_avg o = map (@pr_m_avg A) rows /\
  (pa_static a = true -> po_spectrum o = [] /\ po_freqs o = None) /\
  (pa_static a = false -> length (po_spectrum o) = length rows /\
     (forall i row y, nth_error rows i = Some row -> nth_error (po_spectrum o) i = Some y -> exists f, pr_spectrum row = Some (y, f)) /\
     (rows = [] -> po_freqs o = None) /\
     (forall row, nth_error rows (length rows - 1) = Some row -> exists y f, pr_spectrum row = Some (y, f) /\ po_freqs o = Some f)) /\
  (pa_full a && negb (pa_static a) = false -> po_m_traj o = []) /\
  (pa_full a && negb (pa_static a) = true -> length (po_m_traj o) = length rows /\
     forall i row t, nth_error rows i = Some row -> nth_error (po_m_traj o) i = Some t -> exists ys, pr_full row = Some (t, ys)) /\
  (pa_full a = false -> po_layers o = []) /\
  (pa_full a = true -> map fst (po_layers o) = ids /\
     forall p id ys, nth_error (po_layers o) p = Some (id, ys) ->
       (pa_static a = true -> ys = []) /\
       (pa_static a = false -> length ys = length rows /\
          forall i row y, nth_error rows i = Some row -> nth_error ys i = Some y ->
            exists t all, pr_full row = Some (t, all) /\ nth_error all p = Some y)).

(** ** Filters and the rectified_mean voltage *)
(** y is the output of the recursive filter b/a on x. *)
Definition coef (cs : list R) (i : nat) : R := nth i cs 0.
Definition filtered (b a x y : list R) : Prop :=
  length y = length x /\
  forall n, (n < length x)%nat ->
    Rsum (fun i => coef a i * nth (n - i) y 0) (Nat.min (S n) (length a)) = Rsum (fun i => coef b i * nth (n - i) x 0) (Nat.min (S n) (length b)).
Definition valid_edge (w : R) : Prop := 0 < w < 1.
(** The mean of the low-pass filtered product of -current and resistance. *)
Definition rectified_mean (design : coefficients) (r i : list R) (dt v : R) : Prop :=
  let wn := 2 * (10 * 10 ^ 6) * dt in
  dt <> 0 /\ valid_edge wn /\ r <> [] /\ length i = length r /\
  exists y b a, design 3%nat [wn] = (b, a) /\ a <> [] /\ coef a 0 <> 0 /\
    filtered b a (map (fun p => - snd p * fst p) (combine r i)) y /\
    v = Sigma y / INR (length y).

(** ** One entry of the diode procedure *)
Definition vsd_resistance (a : vsd_args) (params : list resparams) (j : junction) (N : nat) (s : nat -> junction) (r : list R) : Prop :=
  let n := layerNo j in
  (va_Rtype a = "Rz"%string /\ n = 2%nat /\ j_mode j = MR_CLASSIC /\
     r = map (fun k => GMR (j_Rp j) (j_Rap j) (Dot (sample_of s 0 k) (sample_of s 1 k))) (seq 0 N)) \/
  (exists rx ry, va_fn a (strips_of params) N (map (samples s N) (seq 0 n)) = Ok (rx, ry) /\
     ((va_Rtype a = "Rx"%string /\ r = rx) \/ (va_Rtype a = "Ry"%string /\ r = ry))).
Definition vsd_entry (design : coefficients) (rnd : nat -> R) (a : vsd_args) (params : list resparams) (H : cvec) (f : R) (st st' : lab) (v : R) : Prop :=
  exists j1 N s r, f <> -1 /\
    prepared_for rnd H (along_axis (va_direction a) (field_sine (va_excitation a) f)) (va_disturbance a) (snd st) (fst st) j1 /\
    experiment (va_simulation a) (va_int_step a) j1 (fst st') N s /\ (0 < N)%nat /\
    snd st' = (snd st + drawn (va_disturbance a) (layerNo (fst st)))%nat /\
    vsd_resistance a params (fst st) N s r /\
    rectified_mean design r (map (fun k => sin (2 * PI * f * (INR k * va_int_step a))) (seq 0 N)) (va_int_step a) v.
(** The frequencies of one field, then all fields. *)
Inductive vsd_line (design : coefficients) (rnd : nat -> R) (a : vsd_args) (params : list resparams) (H : cvec) : list R -> lab -> lab -> list R -> Prop :=
  | line_end st : vsd_line design rnd a params H [] st st []
  | line_next f fs st st1 st2 v vs : vsd_entry design rnd a params H f st st1 v -> vsd_line design rnd a params H fs st1 st2 vs ->
      vsd_line design rnd a params H (f :: fs) st st2 (v :: vs).
Inductive vsd_lines (design : coefficients) (rnd : nat -> R) (a : vsd_args) (params : list resparams) : list cvec -> lab -> lab -> list (list R) -> Prop :=
  | lines_end st : vsd_lines design rnd a params [] st st []
  | lines_next H Hs st st1 st2 v vs : vsd_line design rnd a params H (va_frequencies a) st st1 v -> vsd_lines design rnd a params Hs st1 st2 vs ->
      vsd_lines design rnd a params (H :: Hs) st st2 (v :: vs).
(** A resistance function that returns one value per sample. *)
Definition sampled_fn (fn : resistance_function (list R)) : Prop :=
  forall p T ms rx ry, fn p T ms = Ok (rx, ry) -> length rx = T /\ length ry = T.

(** ** Comparing calls *)
(** Two junctions that differ only in log, external field and Oersted field. *)
Definition same_sample (j k : junction) : Prop :=
  exists ls, k = set_j_log (j_log k) (j_logLength k) (set_j_layers ls j) /\ length ls = length (j_layers j) /\
    forall p l l', nth_error (j_layers j) p = Some l -> nth_error ls p = Some l' -> exists ext oe, l' = set_l_Oersted oe (set_l_external ext l).
Definition with_fields {A} (hs : list cvec) (a : pimm_args A) : pimm_args A :=
  PIMM hs (pa_int_step a) (pa_params a) (pa_direction a) (pa_excitation a) (pa_duration a) (pa_simulation a) (pa_wait a) (pa_max_frequency a)
    (pa_fn a) (pa_disturbance a) (pa_last_n a) (pa_full a) (pa_static a).
(** Two outputs put one after the other (frequencies from the last one that has them). *)
Definition joined {A} (o1 o2 o : pimm_out A) : Prop :=
  po_H o = (po_H o1 ++ po_H o2)%list /\ po_Rx o = (po_Rx o1 ++ po_Rx o2)%list /\ po_Ry o = (po_Ry o1 ++ po_Ry o2)%list /\ po_m_avg o = (po_m_avg o1 ++ po_m_avg o2)%list /\
  po_spectrum o = (po_spectrum o1 ++ po_spectrum o2)%list /\ po_m_traj o = (po_m_traj o1 ++ po_m_traj o2)%list /\
  po_freqs o = match po_freqs o2 with Some f => Some f | None => po_freqs o1 end.
(** The resistance parameters of the diode procedure; none given means an empty list. *)
Definition given (a : vsd_args) : list resparams := match va_params a with None => [] | Some ps => ps end.
