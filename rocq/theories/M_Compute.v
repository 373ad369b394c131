(** Model of the log analysis functions (core/compute.hpp). *)
From Verif Require Export M_Math M_Junction M_Noise.
Open Scope R_scope.
Open Scope st_scope.

(** [log[key]] on the log passed by reference: a missing column is created empty. *)
Definition log_at (key : string) : ST log_t (list R) :=
  fun g => match log_get key g with
           | Some c => (g, Ok c)
           | None => ((g ++ [(key, [])])%list, Ok [])
           end.
(** [result[key] = v] *)
Fixpoint log_put (key : string) (v : list R) (g : log_t) : log_t :=
  match g with
  | [] => [(key, v)]
  | (k, c) :: rest => if String.eqb k key then (k, v) :: rest else (k, c) :: log_put key v rest
  end.
(** [std::find_if] with [value >= minTime], as an index. *)
Fixpoint threshold (minTime : R) (ts : list R) : nat :=
  match ts with
  | [] => 0
  | t :: rest => if Rle_dec minTime t then 0 else S (threshold minTime rest)
  end.
(** [*std::max_element], [*std::min_element] of a range starting with [x]. *)
Definition max_element (x : R) (xs : list R) : R := fold_left (fun m y => if Rlt_dec m y then y else m) xs x.
Definition min_element (x : R) (xs : list R) : R := fold_left (fun m y => if Rlt_dec y m then y else m) xs x.
(** core/compute.hpp:73-75  [current] starts at index [i] of the cut. *)
Fixpoint vsd_voltage (resistance : list R) (thresIdx i : nat) (current : list R) : result (list R) :=
  match current with
  | [] => Ok []
  | c :: rest =>
      match nth_error resistance (thresIdx + i) with
      | None => Err Undefined
      | Some r => vs <-- vsd_voltage resistance thresIdx (S i) rest ;; Ok (r * c :: vs)
      end
  end.
(** core/compute.hpp:33-83 *)
Definition calculateVoltageSpinDiode (resTag : string) (frequency power minTime : R)
  : ST log_t (list (string * R)) :=
  g <- get ;;
  match g with
  | [] => fail (Throw "Empty log! Cannot proceed without running a simulation!")
  | _ =>
      match log_get resTag g with
      | None => fail (Throw ("Tag was not found in the junction log: " ++ resTag))
      | Some resistance =>
          let omega := 2 * PI * frequency in
          time <- log_at "time" ;;
          let thresIdx := threshold minTime time in
          let cutSize := (length time - thresIdx)%nat in
          match skipn thresIdx resistance with
          | [] => fail Undefined
          | r0 :: rs =>
              let RppMax := max_element r0 rs in
              let RppMin := min_element r0 rs in
              avgR <- lift (fdiv (fold_left Rplus (r0 :: rs) 0) (INR cutSize)) ;;
              q <- lift (fdiv power avgR) ;;
              Iampl <- lift (fsqrt q) ;;
              let current := map (fun t => Iampl * sin (omega * t)) (skipn thresIdx time) in
              voltage <- lift (vsd_voltage resistance thresIdx 0 current) ;;
              Vmix <- lift (fdiv (fold_left Rplus voltage 0) (INR (length voltage))) ;;
              ret [("Vmix", Vmix); ("RMax", RppMax); ("RMin", RppMin); ("Rpp", RppMax - RppMin)]%string
          end
      end
  end.

(** core/compute.hpp:112-114 (and 171-174)  [n] entries, the next one being number [i]. *)
Fixpoint frequency_loop (normalizer : R) (i n : nat) : result (list R) :=
  match n with
  | O => Ok []
  | S n' => f <-- fdiv (INR (i - 1)) normalizer ;; fs <-- frequency_loop normalizer (S i) n' ;; Ok (f :: fs)
  end.
(** core/compute.hpp:110, 169 *)
Definition maxIt (cutSize : nat) : nat :=
  if Nat.eqb (cutSize mod 2) 0 then ((cutSize - 1) / 2)%nat else (cutSize / 2)%nat.
(** [fftw_plan_dft_r2c_1d] + [fftw_execute]: the first n/2 + 1 values of the discrete Fourier transform;
    the rest of the output array keeps its initial zeros. *)
Definition fft_r2c (xs : list R) : list cplx :=
  let n := length xs in
  (firstn (n / 2 + 1) (transform false (map (fun x => (x, 0)) xs)) ++ repeat (0, 0) (n - (n / 2 + 1)))%list.
(** core/compute.hpp:145-151, 202-207  bins [i .. i+n-1]. *)
Fixpoint bins_loop (norm : R) (out : list cplx) (i n : nat) : result (list (R * R)) :=
  match n with
  | O => Ok []
  | S n' =>
      match nth_error out i with
      | None => Err Undefined
      | Some tandem =>
          real <-- fdiv (fst tandem) norm ;;
          img <-- fdiv (snd tandem) norm ;;
          rest <-- bins_loop norm out (S i) n' ;;
          Ok ((sqrt (real ^ 2 + img ^ 2), atan2 img real) :: rest)
      end
  end.
(** core/compute.hpp:119-155  [outBins - 1 - 1] bins follow the first. *)
Fixpoint fft_tags (g : log_t) (cutSize thresIdx : nat) (tags : list string) (acc : log_t) : result log_t :=
  match tags with
  | [] => Ok acc
  | tag :: rest =>
      match log_get tag g with
      | None => Err (Throw ("FFT id tag was not found in the junction log: " ++ tag))
      | Some xs =>
          if Nat.ltb (length xs) thresIdx then Err Undefined
          else
            let cutMag := skipn thresIdx xs in
            if Nat.eqb (length cutMag) 0 then Err (Throw "Plan creation for fftw failed, cannot proceed")
            else
              let out := fft_r2c cutMag in
              let outBins := ((length cutMag + 1) / 2)%nat in
              bins <-- bins_loop (INR cutSize / 2) out 1 (outBins - 1 - 1) ;;
              let amplitudes := fst (nth 0 out (0, 0)) :: map fst bins in
              let phases := 0 :: map snd bins in
              fft_tags g cutSize thresIdx rest
                (log_put (tag ++ "_phase") phases (log_put (tag ++ "_amplitude") amplitudes acc))
      end
  end.
(** core/compute.hpp:92-157  The test for an empty log (100) comes after [log["time"]] has created a
    column and never succeeds. *)
Definition spectralFFT (fftIds : list string) (minTime timeStep : R) : ST log_t log_t :=
  time <- log_at "time" ;;
  match nth_error time (length time - 1) with
  | None => fail Undefined
  | Some tlast =>
      if Rle_dec tlast minTime then fail (Throw "The minTime parameter is larger than the simulation time!")
      else
        let thresIdx := threshold minTime time in
        let cutSize := (length time - thresIdx)%nat in
        let normalizer := timeStep * INR cutSize in
        frequencySteps <- lift (frequency_loop normalizer 1 (maxIt cutSize)) ;;
        g <- get ;;
        lift (fft_tags g cutSize thresIdx fftIds [("frequencies"%string, frequencySteps)])
  end.

(** core/compute.hpp:180-189  [mixedSignal[i] += log[tag][i]] *)
Fixpoint mix_add (mixed xs : list R) : result (list R) :=
  match mixed with
  | [] => Ok []
  | m :: rest =>
      match xs with
      | [] => Err Undefined
      | x :: xs' => r <-- mix_add rest xs' ;; Ok (m + x :: r)
      end
  end.
Fixpoint mix_tags (g : log_t) (tags : list string) (mixed : list R) : result (list R) :=
  match tags with
  | [] => Ok mixed
  | tag :: rest =>
      match log_get tag g with
      | None => Err (Throw ("FFT id tag was not found in the junction log: " ++ tag))
      | Some xs => m <-- mix_add mixed xs ;; mix_tags g rest m
      end
  end.
(** core/compute.hpp:159-213  [frequencySteps[0] = 0] (171) writes outside an empty vector. *)
Definition spectralFFTMixed (tagsToMix : list string) (timeStep : R) : ST log_t log_t :=
  time <- log_at "time" ;;
  let cutSize := length time in
  let normalizer := timeStep * INR cutSize in
  if Nat.eqb (maxIt cutSize) 0 then fail Undefined
  else
    frequencySteps <- lift (frequency_loop normalizer 1 (maxIt cutSize)) ;;
    g <- get ;;
    mixedSignal <- lift (mix_tags g tagsToMix (repeat 0 (length time))) ;;
    let out := fft_r2c mixedSignal in
    let outBins := ((length mixedSignal + 1) / 2)%nat in
    bins <- lift (bins_loop (INR cutSize / 2) out 1 (outBins - 1)) ;;
    ret (log_put "mixed_amplitude" (fst (nth 0 out (0, 0)) :: map fst bins)
                 [("frequencies"%string, frequencySteps)]).
