(** Binary64 versions of the drivers that compare times: pulse train and step.
    The amplitude and the constant part are doubles; only finite arguments are characterised. *)
From Verif Require Export M_Grid.
From Flocq Require Import Core.Core IEEE754.BinarySingleNaN.
Open Scope st_scope.

(** [static_cast<int>(x)]: undefined unless the truncated value fits. *)
Definition cast_int (x : b64) : result Z :=
  if is_finite x then
    let z := Btrunc x in
    if (Z.leb (- 2 ^ 31) z && Z.ltb z (2 ^ 31))%bool then Ok z else Err Undefined
  else Err Undefined.
Definition b64_zero : b64 := B754_zero false.
(** core/drivers.hpp:77-86 *)
Definition pulse64 (amplitude time period cycle : b64) : result b64 :=
  n <-- cast_int (b64_div time period) ;;
  let dT := b64_mult cycle period in
  let nT := b64_mult (b64_of_Z n) period in
  Ok (if (Bleb nT time && Bleb time (b64_plus nT dT))%bool then amplitude else b64_zero).
(** core/drivers.hpp:70-76 *)
Definition step64 (amplitude time timeStart timeStop : b64) : b64 :=
  if (Bleb timeStart time && Bleb time timeStop)%bool then amplitude else b64_zero.
(** The values of the two drivers: core/drivers.hpp:244-264 *)
Definition pulse_value64 (constantValue amplitude time period cycle : b64) : result b64 :=
  v <-- pulse64 amplitude time period cycle ;; Ok (b64_plus constantValue v).
Definition step_value64 (constantValue amplitude time timeStart timeStop : b64) : b64 :=
  b64_plus constantValue (step64 amplitude time timeStart timeStop).
