(** Binary64 versions of counts computed by rounding a quotient up: the block counts of the Oersted structure and numpy's arange. *)
From Verif Require Export M_FloatDriver.
From Flocq Require Import Core.Core IEEE754.BinarySingleNaN.
Open Scope st_scope.

(** [math.ceil(x)]: infinite and undefined values raise. *)
Definition to_ceil (x : b64) : result Z :=
  if is_finite x then Ok (Btrunc (Bnearbyint mode_UP x)) else Err (Throw "cannot convert float to integer").
(** Python's [a / b] on floats *)
Definition py_div64 (a b : b64) : result b64 :=
  if Beqb b b64_zero then Err (Throw "float division by zero") else Ok (b64_div a b).
(** models/oersted.py:77-79 *)
Definition block_counts (maxX maxY maxZ dx dy dz : b64) : result (Z * Z * Z) :=
  qx <-- py_div64 maxX dx ;; X <-- to_ceil qx ;;
  qy <-- py_div64 maxY dy ;; Y <-- to_ceil qy ;;
  qz <-- py_div64 maxZ dz ;; Zs <-- to_ceil qz ;;
  Ok (X, Y, Z.max Zs 1).
Definition b64_minus : b64 -> b64 -> b64 := Bminus mode_NE.
(** The number of elements of numpy.arange(start, stop, step) on doubles: the quotient rounded up, except that a quotient which
    underflows to a positive zero counts one; too large or undefined quotients raise. *)
Definition arange_length (start stop step : b64) : result Z :=
  let next := b64_minus stop start in
  q <-- py_div64 next step ;;
  if (Beqb q b64_zero && negb (Beqb next b64_zero))%bool then Ok (if Bsign q then 0%Z else 1%Z)
  else
    if is_finite q then
      c <-- to_ceil q ;; (if Z.ltb c (2 ^ 63) then Ok (Z.max c 0) else Err (Throw "Maximum allowed size exceeded"))
    else Err (Throw "Maximum allowed size exceeded").
(** numpy computes the first two elements and continues with their difference. *)
Definition arange_element (start step : b64) (i : nat) : b64 :=
  match i with
  | O => start
  | S O => b64_plus start step
  | _ => b64_plus start (b64_mult (b64_of_Z (Z.of_nat i)) (b64_minus (b64_plus start step) start))
  end.
Definition arange (start stop step : b64) : result (list b64) :=
  n <-- arange_length start stop step ;; Ok (map (arange_element start step) (seq 0 (Z.to_nat n))).
(** models/noise.py:216-217: the time axis of plot_noise_data; matplotlib rejects an axis of another length. *)
Definition noise_time_axis (k : Z) (time_scale : b64) : result (list b64) :=
  x <-- arange b64_zero (b64_mult (b64_of_Z k) time_scale) time_scale ;;
  if Z.eqb (Z.of_nat (length x)) k then Ok x else Err (Throw "x and y must have same first dimension").
(** core/reservoir.hpp:477-486: the number of iterations is cast to int and kept as a double, so a negative one means none; every row is logged. *)
Definition reservoir_times (totalTime timeStep : b64) : result (list b64) :=
  n <-- cast_int (b64_div totalTime timeStep) ;;
  Ok (map (fun i => b64_mult (b64_of_Z (Z.of_nat i)) timeStep) (seq 0 (Z.to_nat n))).
