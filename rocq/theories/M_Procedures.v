(** Model of cmtj/utils/procedures.py, of compute_sd (cmtj/utils/resistance.py:11-22) and of
    cmtj/utils/filters.py over the reals. *)
From Verif Require Export M_Junction M_Resist M_Noise.
From Coq Require Import List.
Set Implicit Arguments.
Open Scope R_scope.
Open Scope st_scope.

(** ** cmtj/utils/filters.py *)
(** scipy.signal.lfilter(b, a, data): y[n] = (sum b[i] x[n-i] - sum_(i>0) a[i] y[n-i]) / a[0], samples before the
    first one being 0.  [xs], [ys] are the past inputs and outputs, newest first. *)
Fixpoint conv (cs past : list R) : R :=
  match cs, past with
  | c :: cs', x :: past' => c * x + conv cs' past'
  | _, _ => 0
  end.
Fixpoint lfilter_go (b : list R) (a0 : R) (arest : list R) (xs ys data : list R) : list R :=
  match data with
  | [] => []
  | x :: rest =>
      let y := (conv b (x :: xs) - conv arest ys) / a0 in
      y :: lfilter_go b a0 arest (x :: xs) (y :: ys) rest
  end.
Definition lfilter (b a data : list R) : result (list R) :=
  match a with
  | [] => Err (Throw "The first dimension of a must not be empty")
  | a0 :: arest => if Req_EM_T a0 0 then Err (Throw "LTI systems must have a[0] nonzero") else Ok (lfilter_go b a0 arest [] [] data)
  end.
(** scipy.signal.butter(order, wn, btype, analog=False): the coefficients are an oracle, the critical
    frequencies have to lie strictly between 0 and 1. *)
Definition coefficients : Type := nat -> list R -> list R * list R.
Definition butter (design : coefficients) (order : nat) (wn : list R) : result (list R * list R) :=
  if forallb (fun w => if Rlt_dec 0 w then if Rlt_dec w 1 then true else false else false) wn then Ok (design order wn)
  else Err (Throw "Digital filter critical frequencies must be 0 < Wn < fs/2").
(** filters.py:32-43 *)
Definition butter_lowpass_filter (design : coefficients) (data : list R) (cutoff fs : R) (order : nat) : result (list R) :=
  let nyq := 1 / 2 * fs in
  normal_cutoff <-- py_div cutoff nyq ;;
  ba <-- butter design order [normal_cutoff] ;;
  lfilter (fst ba) (snd ba) data.
(** The argument [pass_freq] of the band pass: a float, a tuple, or anything else (an int, a list, ...). *)
Inductive pass_freq := PassFloat (f : R) | PassTuple (fs : list R) | PassOther.
(** filters.py:6-30  [b] is unbound on the branches that do not call [butter]; for the float 0 the critical
    frequencies are 0.09/nyq and 0.1/nyq. *)
Definition butter_bandpass_filter (design : coefficients) (data : list R) (p : pass_freq) (fs : R) (order : nat) : result (list R) :=
  let nyq := 1 / 2 * fs in
  ba <-- match p with
         | PassFloat f =>
             if Req_EM_T f 0 then
               let f := 1 / 10 in
               lo <-- py_div (9 / 10 * f) nyq ;;
               hi <-- py_div f nyq ;;
               butter design order [lo; hi]
             else Err (Throw "local variable 'b' referenced before assignment")
         | PassTuple fs =>
             lo <-- at_ fs 0 ;;
             hi <-- at_ fs 1 ;;
             butter design order [lo; hi]
         | PassOther => Err (Throw "local variable 'b' referenced before assignment")
         end ;;
  lfilter (fst ba) (snd ba) data.

(** ** Parameters *)
(** procedures.py:15-25 *)
Record resparams := RP { rp_Rxx0 : R; rp_Rxy0 : R; rp_Rahe : R; rp_Rsmr : R; rp_Ramr : R; rp_w : R; rp_l : R }.
Definition default_resparams : resparams := RP 0 0 0 0 0 0 0.
(** procedures.py:160-169, 307-316  the arguments of the resistance function *)
Definition strips_of (ps : list resparams) : strips :=
  Strips (map rp_Rxx0 ps) (map rp_Rxy0 ps) (map rp_Ramr ps) (map rp_Rahe ps) (map rp_Rsmr ps) (map rp_l ps) (map rp_w ps).
(** The resistance function: material, number of samples, samples per layer. *)
Definition resistance_function (A : Type) : Type := strips -> nat -> list (list cvec) -> result (A * A).

(** ** Reading the log *)
Definition dict_at (key : string) (g : log_t) : result (list R) :=
  match log_get key g with Some c => Ok c | None => Err (Throw "KeyError") end.
Fixpoint zip3 (xs ys zs : list R) : result (list cvec) :=
  match xs, ys, zs with
  | [], [], [] => Ok []
  | x :: xs, y :: ys, z :: zs => r <-- zip3 xs ys zs ;; Ok (CV x y z :: r)
  | _, _, _ => Err (Throw "setting an array element with a sequence")
  end.
(** The three logged components of one layer. *)
Definition layer_traj (g : log_t) (id : string) : result (list cvec) :=
  x <-- dict_at (id ++ "_mx")%string g ;;
  y <-- dict_at (id ++ "_my")%string g ;;
  z <-- dict_at (id ++ "_mz")%string g ;;
  zip3 x y z.
Fixpoint mapM {A B} (f : A -> result B) (xs : list A) : result (list B) :=
  match xs with
  | [] => Ok []
  | x :: rest => y <-- f x ;; ys <-- mapM f rest ;; Ok (y :: ys)
  end.
(** np.asarray of the rows: all have to be equally long, and there has to be one (the result is indexed by layer). *)
Definition stacked {A} (rows : list (list A)) : result (list (list A)) :=
  match rows with
  | [] => Err (Throw "too many indices for array")
  | r :: rest => if forallb (fun q => Nat.eqb (length q) (length r)) rest then Ok rows else Err (Throw "setting an array element with a sequence")
  end.
(** xs[-n:] *)
Definition slice_last {A} (n : Z) (xs : list A) : list A :=
  if (0 <? n)%Z then skipn (length xs - Z.to_nat n) xs else skipn (Z.to_nat (- n)) xs.

(** ** Spectrum *)
Definition cabs (z : cplx) : R := sqrt (fst z * fst z + snd z * snd z).
(** procedures.py:28-39  (the two results are columns of shape (bins, 1) there) *)
Definition compute_spectrum_strip (input_m : list R) (int_step max_frequency : R) : result (list R * list R) :=
  match input_m with
  | [] => Err (Throw "invalid number of data points (0) specified")
  | _ =>
      let n := length input_m in
      let yf := map cabs (transform false (map (fun x => (x, 0)) input_m)) in
      val <-- py_div 1 (INR n * int_step) ;;
      let freqs := map (fun k => INR k * val) (seq 0 (n / 2)) in
      let yf := firstn (n / 2) yf in
      let kept := filter (fun fy => if Rle_dec (fst fy) max_frequency then true else false) (combine freqs yf) in
      Ok (map snd kept, map fst kept)
  end.

(** ** Setting the junction up for one field *)
(** A junction and the number of normal numbers drawn so far from numpy's generator. *)
Definition lab : Type := (junction * nat)%type.
Definition on_junction {A} (f : ST junction A) : ST lab A :=
  fun s => match f (fst s) with (j, r) => ((j, snd s), r) end.
(** procedures.py:131-140, 270-279  [rnd k] is the k-th standard normal number *)
Fixpoint disturb (rnd : nat -> R) (d : R) (layer_ids : list string) : ST lab unit :=
  match layer_ids with
  | [] => ret tt
  | id :: rest =>
      s <- get ;;
      old <- lift (getLayerMagnetisation (fst s) id) ;;
      (if Rlt_dec d 0 then fail (Throw "scale < 0")
       else
         let p := snd s in
         modify (fun s => (fst s, snd s + 3)%nat) ;;;
         on_junction (setLayerMagnetisation id
           (vnormalize (CV (cx old + d * rnd p) (cy old + d * rnd (p + 1)%nat) (cz old + d * rnd (p + 2)%nat))))) ;;;
      disturb rnd d rest
  end.
(** procedures.py:121-141, 260-280  [oe] is the Oersted driver *)
Definition measure (rnd : nat -> R) (H : cvec) (oe : adriver) (d : R) (layer_ids : list string) (T dt : R) : ST lab unit :=
  on_junction clearLog ;;;
  x <- lift (getConstantDriver (cx H)) ;;
  y <- lift (getConstantDriver (cy H)) ;;
  z <- lift (getConstantDriver (cz H)) ;;
  on_junction (setLayerExternalFieldDriver "all" (mkAxial (DynScalar x) (DynScalar y) (DynScalar z))) ;;;
  on_junction (setLayerOerstedFieldDriver "all" oe) ;;;
  (if Req_EM_T d 0 then ret tt else disturb rnd d layer_ids) ;;;
  on_junction (runSimulation T dt dt false RK4).
(** procedures.py:91-111, 241-258 *)
Definition oe_driver (direction : axis) (d : sdriver) : adriver :=
  match direction with
  | zaxis => mkAxial DynNull DynNull (DynScalar d)
  | yaxis => mkAxial DynNull (DynScalar d) DynNull
  | _ => mkAxial (DynScalar d) DynNull DynNull
  end.

(** ** PIMM_procedure *)
Record pimm_args (A : Type) := PIMM {
  pa_Hvecs : list cvec; pa_int_step : R; pa_params : list resparams; pa_direction : axis;
  pa_excitation : R; pa_duration : R; pa_simulation : R; pa_wait : R; pa_max_frequency : R;
  pa_fn : resistance_function A; pa_disturbance : R; pa_last_n : Z; pa_full : bool; pa_static : bool }.
(** What one field appends to the outputs. *)
Record pimm_row (A : Type) := PRow {
  pr_H : cvec; pr_Rx : A; pr_Ry : A; pr_m_avg : cvec;
  pr_spectrum : option (list R * list R);                       (* yf, freqs *)
  pr_full : option (list (list cvec) * list (list R)) }.        (* m_traj, per-layer spectra *)
(** The outputs: spectrum, freqs and the dictionary.  [po_layers] holds the entries keyed by layer id (only with
    full_output).  Arrays are not squeezed; a layer called like one of the other keys is not modelled. *)
Record pimm_out (A : Type) := POut {
  po_spectrum : list (list R); po_freqs : option (list R);
  po_H : list cvec; po_Rx : list A; po_Ry : list A; po_m_avg : list cvec;
  po_m_traj : list (list (list cvec)); po_layers : list (string * list (list R)) }.
Definition component (direction : axis) : string := match direction with zaxis => "z" | yaxis => "y" | _ => "x" end.
(** procedures.py:142-158, 171-179  weighting by thickness and magnetisation *)
Definition scaled (l : layer) (factor x : R) : result R := fdiv (x * l_thickness l * l_Ms l) factor.
Definition scaled_vec (l : layer) (factor : R) (m : cvec) : result cvec :=
  x <-- scaled l factor (cx m) ;; y <-- scaled l factor (cy m) ;; z <-- scaled l factor (cz m) ;; Ok (CV x y z).
(** selection by index: the positions of the true entries *)
Definition select {A} (keep : list bool) (xs : list A) : list A := map snd (filter fst (combine keep xs)).
Definition vec_sum (vs : list cvec) : cvec := fold_right vadd vnull vs.
Definition last_of (ms : list cvec) : cvec := nth (length ms - 1) ms vnull.
Definition flatten_opt {A} (xs : list (option A)) : list A := flat_map (fun o => match o with Some a => [a] | None => [] end) xs.

Section PIMM.
Context {A : Type}.
(** procedures.py:142-194  [factor] is normalising_factor *)
Definition pimm_read (a : pimm_args A) (factor : R) (H : cvec) (j : junction) : result (pimm_row A) :=
  let g := j_log j in
  time <-- dict_at "time" g ;;
  let keep := map (fun t => if Rle_dec (pa_wait a) t then true else false) time in
  rows <-- mapM (fun l => ms <-- layer_traj g (l_id l) ;; mapM (scaled_vec l factor) ms) (j_layers j) ;;
  m_traj <-- stacked rows ;;
  let m := map (slice_last (pa_last_n a)) m_traj in
  R <-- pa_fn a (strips_of (pa_params a)) (length (hd [] m)) m ;;
  mixed <-- (if pa_static a then Ok []
             else mapM (fun l => c <-- dict_at (l_id l ++ "_m" ++ component (pa_direction a))%string g ;; mapM (scaled l factor) (select keep c)) (j_layers j)) ;;
  spec <-- (if pa_static a then Ok None
            else s <-- compute_spectrum_strip (map sum_list (columns 0 (length (hd [] mixed)) mixed)) (pa_int_step a) (pa_max_frequency a) ;; Ok (Some s)) ;;
  full <-- (if pa_full a && negb (pa_static a) then
              ys <-- mapM (fun x => s <-- compute_spectrum_strip x (pa_int_step a) (pa_max_frequency a) ;; Ok (fst s)) mixed ;;
              Ok (Some (m_traj, ys))
            else Ok None) ;;
  Ok (PRow H (fst R) (snd R) (vec_sum (map last_of m_traj)) spec full).
(** procedures.py:120-194 *)
Fixpoint pimm_loop (rnd : nat -> R) (a : pimm_args A) (oe : adriver) (layer_ids : list string) (factor : R) (Hs : list cvec)
  : ST lab (list (pimm_row A)) :=
  match Hs with
  | [] => ret []
  | H :: rest =>
      measure rnd H oe (pa_disturbance a) layer_ids (pa_simulation a) (pa_int_step a) ;;;
      s <- get ;;
      row <- lift (pimm_read a factor H (fst s)) ;;
      rows <- pimm_loop rnd a oe layer_ids factor rest ;;
      ret (row :: rows)
  end.
(** procedures.py:195-199 *)
Definition pimm_collect (a : pimm_args A) (layer_ids : list string) (rows : list (pimm_row A)) : pimm_out A :=
  let specs := flatten_opt (map (@pr_spectrum A) rows) in
  let fulls := flatten_opt (map (@pr_full A) rows) in
  POut (map fst specs) (match rev specs with [] => None | s :: _ => Some (snd s) end)
    (map (@pr_H A) rows) (map (@pr_Rx A) rows) (map (@pr_Ry A) rows) (map (@pr_m_avg A) rows)
    (map fst fulls)
    (if pa_full a then map (fun p => (snd p, map (fun f => nth (fst p) (snd f) []) fulls)) (combine (seq 0 (length layer_ids)) layer_ids) else []).
(** procedures.py:42-199  the progress bar is not modelled *)
Definition PIMM_procedure (rnd : nat -> R) (a : pimm_args A) : ST lab (pimm_out A) :=
  if Rlt_dec (pa_simulation a) (pa_wait a) then fail (Throw "wait_time must be smaller than simulation_duration!")
  else
    d <- lift (getStepDriver 0 (pa_excitation a) 0 (pa_int_step a * pa_duration a)) ;;
    let oe := oe_driver (pa_direction a) d in
    s <- get ;;
    let layer_ids := getLayerIds (fst s) in
    if negb (Nat.eqb (length layer_ids) (length (pa_params a))) then
      fail (Throw "The number of layers in the junction must match the number of resistance parameters!")
    else
      let factor := sum_list (map (fun l => l_thickness l * l_Ms l) (j_layers (fst s))) in
      rows <- pimm_loop rnd a oe layer_ids factor (pa_Hvecs a) ;;
      ret (pimm_collect a layer_ids rows).
End PIMM.

(** ** compute_sd, VSD_procedure *)
(** numpy elementwise product: equal lengths (a length of 1 would be broadcast) *)
Definition elementwise (f : R -> R -> R) (xs ys : list R) : result (list R) :=
  match xs, ys with
  | [x], _ => Ok (map (f x) ys)
  | _, [y] => Ok (map (fun x => f x y) xs)
  | _, _ => if Nat.eqb (length xs) (length ys) then Ok (map (fun p => f (fst p) (snd p)) (combine xs ys))
            else Err (Throw "operands could not be broadcast together")
  end.
Definition np_mean (xs : list R) : result R := fdiv (sum_list xs) (INR (length xs)).
(** resistance.py:11-22 *)
Definition compute_sd (design : coefficients) (dynamic_r dynamic_i : list R) (integration_step : R) : result R :=
  SD <-- elementwise Rmult (map Ropp dynamic_i) dynamic_r ;;
  fs <-- py_div 1 integration_step ;;
  SD_dc <-- butter_lowpass_filter design SD (10 * 10 ^ 6) fs 3 ;;
  np_mean SD_dc.

Record vsd_args := VSD {
  va_Hvecs : list cvec; va_frequencies : list R; va_int_step : R; va_params : option (list resparams); va_direction : axis;
  va_excitation : R; va_simulation : R; va_disturbance : R; va_Rtype : string; va_fn : resistance_function (list R) }.
(** procedures.py:281-325 *)
Definition vsd_read (design : coefficients) (a : vsd_args) (params : list resparams) (layer_ids : list string) (frequency : R) (j : junction) : result R :=
  let g := j_log j in
  rows <-- mapM (layer_traj g) layer_ids ;;
  m_traj <-- stacked rows ;;
  r <-- (if String.eqb (va_Rtype a) "Rz" then
           match layer_ids with
           | _ :: _ :: _ :: _ => Err (Throw "Rz can only be used for 2 layer junctions. One layer can be fictisious.")
           | [i0; i1] => dict_at ("R_" ++ i0 ++ "_" ++ i1)%string g
           | [_] => dict_at "Resistance" g
           | [] => Err (Throw "Resistance definition ambiguous!")
           end
         else
           xy <-- va_fn a (strips_of params) (length (hd [] m_traj)) m_traj ;;
           if String.eqb (va_Rtype a) "Rx" then Ok (fst xy)
           else if String.eqb (va_Rtype a) "Ry" then Ok (snd xy)
           else Err (Throw "Rtype must be either Rx or Ry or Rz")) ;;
  time <-- dict_at "time" g ;;
  compute_sd design r (map (fun t => sin (2 * PI * frequency * t)) time) (va_int_step a).
(** procedures.py:240-325 *)
Definition simulate_VSD (design : coefficients) (rnd : nat -> R) (a : vsd_args) (params : list resparams) (layer_ids : list string) (H : cvec) (frequency : R) : ST lab R :=
  d <- lift (getSineDriver 0 (va_excitation a) frequency 0) ;;
  measure rnd H (oe_driver (va_direction a) d) (va_disturbance a) layer_ids (va_simulation a) (va_int_step a) ;;;
  s <- get ;;
  lift (vsd_read design a params layer_ids frequency (fst s)).
Fixpoint for_each {S B C} (f : B -> ST S C) (xs : list B) : ST S (list C) :=
  match xs with
  | [] => ret []
  | x :: rest => y <- f x ;; ys <- for_each f rest ;; ret (y :: ys)
  end.
(** procedures.py:202-238, 327-331 *)
Definition VSD_procedure (design : coefficients) (rnd : nat -> R) (a : vsd_args) : ST lab (list (list R)) :=
  let params := match va_params a with None => [] | Some ps => ps end in
  s <- get ;;
  let layer_ids := getLayerIds (fst s) in
  if String.eqb (va_Rtype a) "Rz" && Nat.ltb 2 (length layer_ids) then
    fail (Throw "Rz can only be used for 2 layer junctions. Use Rx or Ry instead.")
  else if negb (Nat.eqb (length params) (length layer_ids)) then
    fail (Throw "The number of layers in the junction must match the number of resistance parameters!")
  else for_each (fun H => for_each (simulate_VSD design rnd a params layer_ids H) (va_frequencies a)) (va_Hvecs a).
