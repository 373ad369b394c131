(** Model of core/cvector.hpp and of the vector helpers of core/junction.hpp. *)
From Verif Require Export Base.
Open Scope R_scope.

(** core/cvector.hpp:16  the three components. *)
Record cvec := CV { cx : R; cy : R; cz : R }.

(** core/cvector.hpp:11  enum Axis. *)
Inductive axis := xaxis | yaxis | zaxis | all_axes | none_axis.

(** core/cvector.hpp:17-21  default constructor. *)
Definition vnull : cvec := CV 0 0 0.

(** core/cvector.hpp:23-31  constructor from a list, throws unless it has length 3. *)
Definition vec_of_list (l : list R) : result cvec :=
  match l with
  | [a; b; c] => Ok (CV a b c)
  | _ => Err (Throw "Failed to create vector -- passed list was not of len 3!")
  end.

(** core/cvector.hpp:66-76 *)
Definition vadd (a b : cvec) : cvec := CV (cx a + cx b) (cy a + cy b) (cz a + cz b).
(** core/cvector.hpp:78-81  vector + scalar. *)
Definition vadds (a : cvec) (s : R) : cvec := CV (cx a + s) (cy a + s) (cz a + s).
(** core/cvector.hpp:83-92 *)
Definition vsub (a b : cvec) : cvec := CV (cx a - cx b) (cy a - cy b) (cz a - cz b).
(** core/cvector.hpp:124-136 (the friend operator has the factors swapped; equal over R). *)
Definition vscale (a : cvec) (s : R) : cvec := CV (cx a * s) (cy a * s) (cz a * s).
(** core/cvector.hpp:145-159  throws on division by zero. *)
Definition vdiv (a : cvec) (s : R) : result cvec :=
  if Req_EM_T s 0 then Err (Throw "Failed to divide vector by zero!")
  else Ok (CV (cx a / s) (cy a / s) (cz a / s)).
(** core/cvector.hpp:161-177  every index other than 0 and 1 reads z. *)
Definition vget (a : cvec) (i : Z) : R :=
  if Z.eqb i 0 then cx a else if Z.eqb i 1 then cy a else cz a.
(** core/cvector.hpp:179-183 *)
Definition vlength (a : cvec) : R := sqrt (cx a ^ 2 + cy a ^ 2 + cz a ^ 2).
(** core/cvector.hpp:185-192 *)
Definition vnormalize (a : cvec) : cvec :=
  let mag := vlength a in
  if Req_EM_T mag 0 then a else CV (cx a / mag) (cy a / mag) (cz a / mag).
(** core/cvector.hpp:197 *)
Definition vtolist (a : cvec) : list R := [cx a; cy a; cz a].
(** core/cvector.hpp:100-110 *)
Definition veqb (a b : cvec) : bool :=
  (if Req_EM_T (cx a) (cx b) then true else false) &&
  (if Req_EM_T (cy a) (cy b) then true else false) &&
  (if Req_EM_T (cz a) (cz b) then true else false).

(** core/junction.hpp:73-79 *)
Definition c_cross (a b : cvec) : cvec :=
  CV (vget a 1 * vget b 2 - vget a 2 * vget b 1)
     (vget a 2 * vget b 0 - vget a 0 * vget b 2)
     (vget a 0 * vget b 1 - vget a 1 * vget b 0).
(** core/junction.hpp:81-83 *)
Definition c_dot (a b : cvec) : R :=
  vget a 0 * vget b 0 + vget a 1 * vget b 1 + vget a 2 * vget b 2.

(** core/junction.hpp:32-37  constants.  [HBAR] is the macro 6.62607015e-34 / (2. * M_PI). *)
Definition MAGNETIC_PERMEABILITY : R := 1257 / 10 ^ 9.
Definition GYRO : R := 220880.
Definition HBAR : R := (662607015 / 10 ^ 42) / (2 * PI).
Definition ELECTRON_CHARGE : R := 160217662 / 10 ^ 27.
Definition BOLTZMANN_CONST : R := 1380649 / 10 ^ 29.

(** 3x3 tensor given by its rows (std::vector/array of three CVector).
    Simplification: vectors of another length (undefined behaviour in C++) are not representable. *)
Record tensor := Ten { row0 : cvec; row1 : cvec; row2 : cvec }.
Definition null_tensor : tensor := Ten vnull vnull vnull.

(** core/junction.hpp:53-71 (both overloads). *)
Definition calculate_tensor_interaction (m : cvec) (t : tensor) (Ms : R) : cvec :=
  let res := CV
    (vget (row0 t) 0 * vget m 0 + vget (row0 t) 1 * vget m 1 + vget (row0 t) 2 * vget m 2)
    (vget (row1 t) 0 * vget m 0 + vget (row1 t) 1 * vget m 1 + vget (row1 t) 2 * vget m 2)
    (vget (row2 t) 0 * vget m 0 + vget (row2 t) 1 * vget m 1 + vget (row2 t) 2 * vget m 2) in
  vscale res (Ms / MAGNETIC_PERMEABILITY).

(** core/junction.hpp:85-109  class EnergyDriver.  The anisotropy energy divides by the two
    lengths; zero lengths leave the reals. *)
Definition calculateZeemanEnergy (mag Hext : cvec) (cellVolume Ms : R) : R :=
  - MAGNETIC_PERMEABILITY * Ms * c_dot mag Hext * cellVolume.
Definition calculateAnisotropyEnergy (mag anis : cvec) (K cellVolume : R) : result R :=
  (rbind (fdiv (c_dot mag anis) (vlength anis * vlength mag)) (fun q =>
   let sinSq := 1 - q ^ 2 in Ok (K * sinSq * cellVolume))).
Definition calculateIECEnergy (mag other : cvec) (J cellSurface : R) : R :=
  - c_dot mag other * J * cellSurface.
Definition calculateDemagEnergy (mag Hdemag : cvec) (Ms cellVolume : R) : R :=
  - (1 / 2) * MAGNETIC_PERMEABILITY * Ms * c_dot mag Hdemag * cellVolume.
