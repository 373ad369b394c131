(** Model of cmtj/models/ensemble.py (line shapes), cmtj/models/drivers.py and Filters.detrend_axis
    of cmtj/utils/filters.py.  Scalars are reals; numpy evaluates the shapes elementwise on arrays. *)
From Verif Require Export M_Procedures M_Geom.
Open Scope R_scope.
Open Scope st_scope.

(** models/ensemble.py:4-15 *)
Definition meinert_model (phi V1 V2 phase_offset offset : R) : R :=
  let deg_rad := deg2rad (phi - phase_offset) in
  (V1 * cos (2 * deg_rad) - V2) * cos deg_rad + offset.
(** models/ensemble.py:18-26 *)
Definition symmetric_lorentz (H dH Hr Vs : R) : result R :=
  let dH2 := dH ^ 2 in
  fdiv (Vs * dH2) ((H - Hr) ^ 2 + dH2).
(** models/ensemble.py:29-38 *)
Definition antisymmetric_lorentz (H dH Hr Vas : R) : result R :=
  let dH2 := dH ^ 2 in
  let dHr := H - Hr in
  fdiv (Vas * dH * dHr) (dHr ^ 2 + dH2).
(** models/ensemble.py:41-50 *)
Definition mixed_lorentz (H dH Hr Va Vas : R) : result R :=
  s <-- symmetric_lorentz H dH Hr Va ;; a <-- antisymmetric_lorentz H dH Hr Vas ;; Ok (s + a).

(** models/drivers.py:6-7 *)
Definition constant_driver_py (t amp : R) : R := amp.
(** models/drivers.py:10-12 *)
Definition sine_driver_py (t amp freq phase : R) : R := amp * sin (freq * t + phase).
(** models/drivers.py:15-17 *)
Definition decay_driver (t amp tau : R) : result R := q <-- py_div (- t) tau ;; Ok (amp * exp q).
(** models/drivers.py:20-22 *)
Definition gaussian_driver (t amp sigma : R) : result R := q <-- py_div (- t ^ 2) (sigma ^ 2) ;; Ok (amp * exp q).

(** np.sort *)
Fixpoint insert_R (x : R) (l : list R) : list R :=
  match l with
  | [] => [x]
  | y :: rest => if Rle_dec x y then x :: l else y :: insert_R x rest
  end.
Definition sort_R (l : list R) : list R := fold_right insert_R [] l.
(** np.median of one line: the middle entry, or the mean of the two middle entries; an empty line gives NaN. *)
Definition np_median (xs : list R) : result R :=
  let s := sort_R xs in
  let n := length xs in
  match n with
  | O => Err NonFinite
  | _ => if Nat.even n then Ok ((nth (n / 2 - 1) s 0 + nth (n / 2) s 0) / 2) else Ok (nth (n / 2) s 0)
  end.
(** arr.T of a two-dimensional array given by its rows (an array without rows has no columns). *)
Definition transposed (arr : list (list R)) : list (list R) := columns 0 (length (hd [] arr)) arr.
(** utils/filters.py:46-52  two-dimensional arrays; negative axes count from the end. *)
Definition detrend_axis (arr : list (list R)) (axis : Z) : result (list (list R)) :=
  medians <-- (if Z.eqb axis 0 || Z.eqb axis (-2) then mapM np_median (transposed arr)
               else if Z.eqb axis 1 || Z.eqb axis (-1) then mapM np_median arr
               else Err (Throw "AxisError"))%bool ;;
  if Z.eqb axis 0 then mapM (fun row => elementwise Rminus row medians) arr
  else rows <-- mapM (fun row => elementwise Rminus row medians) (transposed arr) ;; Ok (transposed rows).
