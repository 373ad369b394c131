(** Model of core/drivers.hpp. *)
From Verif Require Export M_Vec.
Require Coquelicot.RInt Coquelicot.Hierarchy.
Open Scope R_scope.

(** std::erf, defined by its integral (Coquelicot's Riemann integral). *)
Definition erf (x : R) : R :=
  2 / sqrt PI *
  Coquelicot.RInt.RInt (V := Coquelicot.Hierarchy.R_CompleteNormedModule)
    (fun u => exp (- u ^ 2)) 0 x.

(** core/drivers.hpp:17-27  enum UpdateType. *)
Inductive update_type :=
  constant | pulse | sine | step | posine | halfsine | trapezoid | gaussimpulse | gaussstep.

(** core/drivers.hpp:29-67  fields of Driver and ScalarDriver. *)
Record sdriver := SD {
  d_update : update_type; d_const : R; d_amp : R; d_freq : R; d_phase : R; d_period : R;
  d_cycle : R; d_tstart : R; d_tstop : R; d_edge : R; d_steady : R }.

(** core/drivers.hpp:60  phaseShift. *)
Definition phaseShift (d : sdriver) (p : R) : sdriver :=
  SD (d_update d) (d_const d) (d_amp d) (d_freq d) (d_phase d + p) (d_period d) (d_cycle d)
     (d_tstart d) (d_tstop d) (d_edge d) (d_steady d).

(** core/drivers.hpp:58  setConstantValue. *)
Definition setConstantValue (d : sdriver) (v : R) : sdriver :=
  SD (d_update d) v (d_amp d) (d_freq d) (d_phase d) (d_period d) (d_cycle d)
     (d_tstart d) (d_tstop d) (d_edge d) (d_steady d).

(** core/drivers.hpp:70-76 *)
Definition stepUpdate (amplitude time timeStart timeStop : R) : R :=
  if Rle_dec timeStart time then (if Rle_dec time timeStop then amplitude else 0) else 0.

(** core/drivers.hpp:77-86  [n] is a signed int. *)
Definition pulseTrain (amplitude time period cycle : R) : result R :=
  (q <-- fdiv time period ;;
   n <-- to_int q ;;
   let dT := cycle * period in
   let nT := IZR n * period in
   Ok (if Rle_dec nT time then (if Rle_dec time (nT + dT) then amplitude else 0) else 0))%st.

(** core/drivers.hpp:88-107  the quotients amplitude/edgeTime are only formed on the edges. *)
Definition trapezoidalUpdate (amplitude time timeStart edgeTime steadyTime : R) : result R :=
  if Rlt_dec time timeStart then Ok 0
  else if Rle_dec time (timeStart + edgeTime) then
    (s <-- fdiv amplitude edgeTime ;; Ok (s * (time - timeStart)))%st
  else if Rle_dec time (timeStart + edgeTime + steadyTime) then Ok amplitude
  else if Rle_dec time (timeStart + 2 * edgeTime + steadyTime) then
    (s <-- fdiv amplitude edgeTime ;;
     Ok (amplitude - s * (time - (timeStart + edgeTime + steadyTime))))%st
  else Ok 0.

Definition update_eqb (a b : update_type) : bool :=
  match a, b with
  | constant, constant | pulse, pulse | sine, sine | step, step | posine, posine
  | halfsine, halfsine | trapezoid, trapezoid | gaussimpulse, gaussimpulse
  | gaussstep, gaussstep => true
  | _, _ => false
  end.

Definition Reqb (a b : R) : bool := if Req_EM_T a b then true else false.

(** core/drivers.hpp:110-125  constructor with its two checks. *)
Definition mkScalarDriver (u : update_type)
    (c a f ph per cyc ts te edge steady : R) : result sdriver :=
  if update_eqb u pulse && (Reqb per (-1) || Reqb cyc (-1)) then
    Err (Throw "Selected pulse train driver type but either period or cycle were not set")
  else if update_eqb u sine && Reqb f (-1) then
    Err (Throw "Selected sine driver type but frequency was not set")
  else Ok (SD u c a f ph per cyc ts te edge steady).

(** core/drivers.hpp:110-113, 332  the default constructor (also what a sliced NullDriver is). *)
Definition default_driver : sdriver := SD constant 0 0 (-1) 0 (-1) (-1) (-1) (-1) (-1) (-1).

(** core/drivers.hpp:132-134 *)
Definition getConstantDriver (c : R) : result sdriver :=
  mkScalarDriver constant c 0 (-1) 0 (-1) (-1) (-1) (-1) (-1) (-1).
(** core/drivers.hpp:144-147 *)
Definition getPulseDriver (c a per cyc : R) : result sdriver :=
  mkScalarDriver pulse c a (-1) (-1) per cyc (-1) (-1) (-1) (-1).
(** core/drivers.hpp:158-161 *)
Definition getSineDriver (c a f ph : R) : result sdriver :=
  mkScalarDriver sine c a f ph (-1) (-1) (-1) (-1) (-1) (-1).
(** core/drivers.hpp:172-175 *)
Definition getPosSineDriver (c a f ph : R) : result sdriver :=
  mkScalarDriver posine c a f ph (-1) (-1) (-1) (-1) (-1) (-1).
(** core/drivers.hpp:177-180 *)
Definition getHalfSineDriver (c a f ph : R) : result sdriver :=
  mkScalarDriver halfsine c a f ph (-1) (-1) (-1) (-1) (-1) (-1).
(** core/drivers.hpp:189-196 *)
Definition getStepDriver (c a ts te : R) : result sdriver :=
  if Rle_dec te ts then Err (Throw "Start time cannot be later than stop time!")
  else mkScalarDriver step c a (-1) (-1) (-1) (-1) ts te (-1) (-1).
(** core/drivers.hpp:207-212 *)
Definition getTrapezoidDriver (c a ts edge steady : R) : result sdriver :=
  mkScalarDriver trapezoid c a (-1) (-1) (-1) (-1) ts (-1) edge steady.
(** core/drivers.hpp:223-227 *)
Definition getGaussianImpulseDriver (c a t0 sigma : R) : result sdriver :=
  mkScalarDriver gaussimpulse c a (-1) (-1) (-1) (-1) t0 (-1) sigma (-1).
(** core/drivers.hpp:238-242  (the source passes gaussimpulse here as well). *)
Definition getGaussianStepDriver (c a t0 sigma : R) : result sdriver :=
  mkScalarDriver gaussimpulse c a (-1) (-1) (-1) (-1) t0 (-1) sigma (-1).

(** core/drivers.hpp:268-269  amplitude*exp(-(t-t0)^2/(2 sigma^2)) with IEEE limits for sigma = 0:
    -x/0 = -inf and exp(-inf) = 0 away from t0, 0/0 = NaN at t0. *)
Definition gaussImpulse (amplitude time t0 sigma : R) : result R :=
  if Req_EM_T sigma 0 then
    (if Req_EM_T time t0 then Err NonFinite else Ok (amplitude * 0))
  else Ok (amplitude * exp (- (time - t0) ^ 2 / (2 * sigma ^ 2))).

(** core/drivers.hpp:272-274, with erf(+-inf) = +-1 for sigma = 0. *)
Definition gaussStep (amplitude time t0 sigma : R) : result R :=
  if Req_EM_T sigma 0 then
    (if Req_EM_T time t0 then Err NonFinite
     else if Rlt_dec t0 time then Ok (1 / 2 * amplitude * (1 + 1))
     else Ok (1 / 2 * amplitude * (1 + -1)))
  else Ok (1 / 2 * amplitude * (1 + erf ((time - t0) / (sqrt 2 * sigma)))).

(** core/drivers.hpp:244-278 *)
Definition getCurrentScalarValue (d : sdriver) (time : R) : result R :=
  let c := d_const d in
  let a := d_amp d in
  match d_update d with
  | constant => Ok c
  | pulse => (v <-- pulseTrain a time (d_period d) (d_cycle d) ;; Ok (c + v))%st
  | sine => Ok (c + a * sin (2 * PI * time * d_freq d + d_phase d))
  | posine => Ok (c + Rabs (a * sin (2 * PI * time * d_freq d + d_phase d)))
  | halfsine =>
      let tamp := a * sin (2 * PI * time * d_freq d + d_phase d) in
      if Rle_dec tamp 0 then Ok (c + tamp) else Ok c
  | step => Ok (c + stepUpdate a time (d_tstart d) (d_tstop d))
  | trapezoid =>
      (v <-- trapezoidalUpdate a time (d_tstart d) (d_edge d) (d_steady d) ;; Ok (c + v))%st
  | gaussimpulse => (v <-- gaussImpulse a time (d_tstart d) (d_edge d) ;; Ok (c + v))%st
  | gaussstep => (v <-- gaussStep a time (d_tstart d) (d_edge d) ;; Ok (c + v))%st
  end.

(** core/drivers.hpp:286-298  operator* re-runs the constructor (and its checks). *)
Definition driver_mul (d : sdriver) (v : R) : result sdriver :=
  mkScalarDriver (d_update d) (d_const d * v) (d_amp d * v) (d_freq d) (d_phase d)
    (d_period d) (d_cycle d) (d_tstart d) (d_tstop d) (d_edge d) (d_steady d).
(** core/drivers.hpp:301-305  operator*= updates in place, without checks. *)
Definition driver_imul (d : sdriver) (v : R) : sdriver :=
  SD (d_update d) (d_const d * v) (d_amp d * v) (d_freq d) (d_phase d)
    (d_period d) (d_cycle d) (d_tstart d) (d_tstop d) (d_edge d) (d_steady d).
(** core/drivers.hpp:308-321 *)
Definition driver_add (d : sdriver) (v : R) : result sdriver :=
  mkScalarDriver (d_update d) (d_const d + v) (d_amp d + v) (d_freq d) (d_phase d)
    (d_period d) (d_cycle d) (d_tstart d) (d_tstop d) (d_edge d) (d_steady d).
(** core/drivers.hpp:322-326 *)
Definition driver_iadd (d : sdriver) (v : R) : sdriver :=
  SD (d_update d) (d_const d + v) (d_amp d + v) (d_freq d) (d_phase d)
    (d_period d) (d_cycle d) (d_tstart d) (d_tstop d) (d_edge d) (d_steady d).

(** A driver object as the caller holds it, with its dynamic type: a plain ScalarDriver, a
    NullDriver (core/drivers.hpp:329-333) or a user subclass overriding the value function
    (docs/api/drivers.md); the latter two contain a base-class sub-object. *)
Inductive dyn_driver :=
  | DynScalar (d : sdriver)
  | DynNull
  | DynUser (f : R -> result R) (base : sdriver).

Definition dyn_value (d : dyn_driver) (time : R) : result R :=
  match d with
  | DynScalar d => getCurrentScalarValue d time
  | DynNull => Ok 0
  | DynUser f _ => f time
  end.

(** Copying into a [ScalarDriver<T>] by value keeps only the base-class sub-object. *)
Definition slice (d : dyn_driver) : sdriver :=
  match d with
  | DynScalar d => d
  | DynNull => default_driver
  | DynUser _ base => base
  end.

(** core/drivers.hpp:335-337  AxialDriver: [std::vector<ScalarDriver<T>> drivers] with 3 entries. *)
Record adriver := AX { ax0 : sdriver; ax1 : sdriver; ax2 : sdriver }.

(** core/drivers.hpp:362-364 *)
Definition null_axial : adriver := AX (slice DynNull) (slice DynNull) (slice DynNull).
(** core/drivers.hpp:366-368  arguments are taken by value: sliced. *)
Definition mkAxial (x y z : dyn_driver) : adriver := AX (slice x) (slice y) (slice z).
(** core/drivers.hpp:340-342, 370-378 *)
Definition axial_of_vec (v : cvec) : result adriver :=
  (x <-- getConstantDriver (cx v) ;; y <-- getConstantDriver (cy v) ;;
   z <-- getConstantDriver (cz v) ;; Ok (AX x y z))%st.
(** core/drivers.hpp:380-385 *)
Definition axial_of_list (l : list sdriver) : result adriver :=
  match l with
  | [x; y; z] => Ok (AX x y z)
  | _ => Err (Throw "The axial driver can only have 3 axes!")
  end.
(** core/drivers.hpp:387-401 *)
Definition getUniAxialDriver (d : sdriver) (a : axis) : adriver :=
  let i := DynScalar d in
  match a with
  | xaxis => mkAxial i DynNull DynNull
  | yaxis => mkAxial DynNull i DynNull
  | zaxis => mkAxial DynNull DynNull i
  | all_axes => mkAxial i i i
  | none_axis => mkAxial DynNull DynNull DynNull
  end.
(** core/drivers.hpp:402-406 *)
Definition getCurrentAxialDrivers (d : adriver) (time : R) : result cvec :=
  (x <-- getCurrentScalarValue (ax0 d) time ;;
   y <-- getCurrentScalarValue (ax1 d) time ;;
   z <-- getCurrentScalarValue (ax2 d) time ;; Ok (CV x y z))%st.

Definition set_ax (i : nat) (s : sdriver) (d : adriver) : adriver :=
  match i with
  | O => AX s (ax1 d) (ax2 d)
  | 1%nat => AX (ax0 d) s (ax2 d)
  | _ => AX (ax0 d) (ax1 d) s
  end.

(** core/drivers.hpp:344-354  the loop over i; a mask entry other than 0/1 throws after the
    earlier axes have been overwritten. *)
Fixpoint applyMask_from (i : nat) (mask : list nat) : ST adriver unit :=
  match mask with
  | [] => ret tt
  | m :: rest =>
      (if Nat.eqb m 0 then
        bind (modify (set_ax i (slice DynNull))) (fun _ => applyMask_from (S i) rest)
      else if Nat.eqb m 1 then applyMask_from (S i) rest
      else fail (Throw "Invalid mask value, mask must be binary!"))
  end.
(** The assertion [mask.size() == 3] aborts (or is compiled out and reads out of bounds). *)
Definition applyMask (mask : list nat) : ST adriver unit :=
  if Nat.eqb (length mask) 3 then applyMask_from 0 mask else fail Undefined.
(** core/drivers.hpp:356-360  each component is cast to unsigned int. *)
Definition applyMaskVec (mask : cvec) : ST adriver unit :=
  (a <- lift (to_unsigned (cx mask)) ;; b <- lift (to_unsigned (cy mask)) ;;
   c <- lift (to_unsigned (cz mask)) ;; applyMask [a; b; c])%st.

(** core/drivers.hpp:408-412 *)
Definition getConstantValues (d : adriver) : cvec :=
  CV (d_const (ax0 d)) (d_const (ax1 d)) (d_const (ax2 d)).

(** core/drivers.hpp:420-433 *)
Definition unit_component (c : R) : R :=
  if Req_EM_T c 0 then 0 else c / Rabs c.
Definition getUnitAxis (d : adriver) : cvec :=
  CV (unit_component (d_const (ax0 d))) (unit_component (d_const (ax1 d)))
     (unit_component (d_const (ax2 d))).
