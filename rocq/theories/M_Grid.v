(** The time grid of a run in binary64 arithmetic: the step counts and the times that the loops of
    runSimulation of a junction, a stack, a reservoir and an LLGB junction go through.  Only the grid is kept; the physics of a step (modelled over the reals elsewhere) does not influence it.
    Floats are IEEE binary64 numbers of the Flocq library, rounding to nearest even. *)
From Verif Require Export Base.
From Flocq Require Import Core.Core IEEE754.BinarySingleNaN.
Open Scope st_scope.

Definition b64 : Type := binary_float 53 1024.
#[export] Instance prec_53 : Prec_gt_0 53.
Proof. reflexivity. Qed.
#[export] Instance prec_emax : Prec_lt_emax 53 1024.
Proof. reflexivity. Qed.
Definition b64_div : b64 -> b64 -> b64 := Bdiv mode_NE.
Definition b64_plus : b64 -> b64 -> b64 := Bplus mode_NE.
Definition b64_mult : b64 -> b64 -> b64 := Bmult mode_NE.
(** Conversion of an integer (exact up to 2^53). *)
Definition b64_of_Z (z : Z) : b64 := binary_normalize 53 1024 prec_53 prec_emax mode_NE z 0 false.

(** [static_cast<unsigned int>(x)]: undefined unless the truncated value fits. *)
Definition to_uint (x : b64) : result Z :=
  if is_finite x then
    let z := Btrunc x in
    if (Z.leb 0 z && Z.ltb z (2 ^ 32))%bool then Ok z else Err Undefined
  else Err Undefined.
(** [unsigned int n = (int)x]: undefined unless the truncated value fits an int, then reduced modulo 2^32. *)
Definition to_int_uint (x : b64) : result Z :=
  if is_finite x then
    let z := Btrunc x in
    if (Z.leb (- 2 ^ 31) z && Z.ltb z (2 ^ 31))%bool then Ok (z mod 2 ^ 32)%Z else Err Undefined
  else Err Undefined.

(** The loop: [n] iterations from counter [i]; the time of an iteration and whether its row is logged. *)
Fixpoint grid_loop (timeStep : b64) (writeEvery : Z) (n : nat) (i : Z) : result (list (b64 * bool)) :=
  match n with
  | O => Ok []
  | S n' =>
      let t := b64_mult (b64_of_Z i) timeStep in
      if Z.eqb writeEvery 0 then Err Undefined
      else rest <-- grid_loop timeStep writeEvery n' (i + 1) ;; Ok ((t, Z.eqb (i mod writeEvery) 0) :: rest)
  end.
Definition step_guard (timeStep writeFrequency : b64) : result unit :=
  if Bltb writeFrequency timeStep then Err (Throw "The time step cannot be larger than write frequency!") else Ok tt.
(** core/junction.hpp:1641-1661 *)
Definition junction_grid (totalTime timeStep writeFrequency : b64) : result (list (b64 * bool)) :=
  _ <-- step_guard timeStep writeFrequency ;;
  totalIterations <-- to_uint (b64_div totalTime timeStep) ;;
  writeEvery <-- to_uint (b64_div writeFrequency timeStep) ;;
  grid_loop timeStep writeEvery (Z.to_nat totalIterations) 0.
(** core/stack.hpp:214-222, 249-290 and core/reservoir.hpp:189-228: the casts come before the guard. *)
Definition stack_grid (totalTime timeStep writeFrequency : b64) : result (list (b64 * bool)) :=
  writeEvery <-- to_int_uint (b64_div writeFrequency timeStep) ;;
  totalIterations <-- to_int_uint (b64_div totalTime timeStep) ;;
  _ <-- step_guard timeStep writeFrequency ;;
  grid_loop timeStep writeEvery (Z.to_nat totalIterations) 0.
(** core/llgb.hpp:546-553: the clock [this->time] is advanced by addition and never reset. *)
Fixpoint clock_loop (timeStep : b64) (writeEvery : Z) (n : nat) (i : Z) (time : b64) : result (list (b64 * bool)) :=
  match n with
  | O => Ok []
  | S n' =>
      let time := b64_plus time timeStep in
      if Z.eqb writeEvery 0 then Err Undefined
      else rest <-- clock_loop timeStep writeEvery n' (i + 1) time ;; Ok ((time, Z.eqb (i mod writeEvery) 0) :: rest)
  end.
(** core/llgb.hpp:533-553 *)
Definition llgb_grid (time totalTime timeStep writeFrequency : b64) : result (list (b64 * bool)) :=
  _ <-- step_guard timeStep writeFrequency ;;
  totalIterations <-- to_int_uint (b64_div totalTime timeStep) ;;
  writeEvery <-- to_int_uint (b64_div writeFrequency timeStep) ;;
  clock_loop timeStep writeEvery (Z.to_nat totalIterations) 0 time.
(** The times of the logged rows. *)
Definition logged (rows : list (b64 * bool)) : list b64 := map fst (filter snd rows).
(** A decimal literal m / 10^e with m and 10^e below 2^53: the rounded quotient of two exact integers is the nearest double. *)
Definition literal (m : Z) (e : Z) : b64 := b64_div (b64_of_Z m) (b64_of_Z (10 ^ e)).
