(** Model of the Python vector helpers (cmtj/utils/general.py, cmtj/utils/linear.py) over the reals. *)
From Verif Require Export M_Math M_Vec.
Open Scope R_scope.
Open Scope st_scope.

(** [math.acos] *)
Definition py_acos (x : R) : result R :=
  if Rle_dec (-1) x then (if Rle_dec x 1 then Ok (acos x) else Err (Throw "math domain error")) else Err (Throw "math domain error").
(** [math.log] *)
Definition py_log (x : R) : result R := if Rlt_dec 0 x then Ok (ln x) else Err (Throw "math domain error").

(** [math.sqrt] *)
Definition py_sqrt (x : R) : result R := if Rlt_dec x 0 then Err (Throw "math domain error") else Ok (sqrt x).

(** ** cmtj/utils/general.py *)
(** general.py:9-22 *)
Record vectorObj := VO { vo_theta : R; vo_phi : R; vo_mag : R }.
(** general.py:59-66 *)
Definition from_spherical (theta phi mag : R) : cvec :=
  CV (mag * sin theta * cos phi) (mag * sin theta * sin phi) (mag * cos theta).
(** general.py:55-57 *)
Definition get_cartesian (v : vectorObj) : cvec := from_spherical (vo_theta v) (vo_phi v) (vo_mag v).
(** general.py:68-76 *)
Definition from_cartesian (x y z : R) : result vectorObj :=
  let mag := sqrt (x ^ 2 + y ^ 2 + z ^ 2) in
  if Req_EM_T mag 0 then Ok (VO 0 0 0)
  else
    q <-- fdiv z mag ;;
    theta <-- py_acos q ;;
    let phi := atan2 y x in
    Ok (VO theta phi mag).
(** general.py:78-86 *)
Definition from_cvector (c : cvec) : result vectorObj :=
  let mag := vlength c in
  if Req_EM_T mag 0 then Ok (VO 0 0 0)
  else
    q <-- fdiv (cz c) mag ;;
    theta <-- py_acos q ;;
    let phi := atan2 (cy c) (cx c) in
    Ok (VO theta phi mag).
(** general.py:88-90 *)
Definition to_cvector (v : vectorObj) : cvec := get_cartesian v.
(** general.py:24-26 *)
Definition vo_add (a b : vectorObj) : result vectorObj := from_cvector (vadd (to_cvector a) (to_cvector b)).
(** general.py:46-53 *)
Definition vo_componentwise (a b : vectorObj) : result vectorObj :=
  let c := get_cartesian a in
  let d := get_cartesian b in
  from_cartesian (cx c * cx d) (cy c * cy d) (cz c * cz d).
(** general.py:28-36  [__mul__] and [__rmul__]: the right operand is a vector or a number. *)
Inductive vo_operand := ByVector (v : vectorObj) | ByScalar (k : R).
Definition vo_mul (a : vectorObj) (b : vo_operand) : result vectorObj :=
  match b with
  | ByVector v => vo_componentwise a v
  | ByScalar k => from_cvector (vscale (to_cvector a) k)
  end.
(** general.py:43-44 *)
Definition vo_eq (a b : vectorObj) : bool :=
  if Req_EM_T (vo_theta a) (vo_theta b) then
    if Req_EM_T (vo_phi a) (vo_phi b) then
      if Req_EM_T (vo_mag a) (vo_mag b) then true else false
    else false
  else false.
(** general.py:93-106  [u1], [u2] are the two uniform draws. *)
Definition box_muller_random (mean std u1 u2 : R) : result (R * R) :=
  l <-- py_log u1 ;;
  s <-- py_sqrt (-2 * l) ;;
  let mag := std * s in
  let z0 := mag * cos (2 * PI * u2) + mean in
  let z1 := mag * sin (2 * PI * u2) + mean in
  Ok (z0, z1).

(** ** cmtj/utils/linear.py *)
Definition deg2rad (x : R) : R := x * (PI / 180).
Definition rad2deg (x : R) : R := x * (180 / PI).
(** linear.py:8-18 *)
Definition trig_compute (theta phi : R) : R * R * R * R :=
  (sin (deg2rad theta), cos (deg2rad theta), sin (deg2rad phi), cos (deg2rad phi)).
(** linear.py:20-33 *)
Definition angle2vector (theta phi amplitude : R) : cvec :=
  let '(st, ct, sp, cp) := trig_compute theta phi in
  CV (st * cp * amplitude) (st * sp * amplitude) (ct * amplitude).
(** linear.py:35-47 *)
Definition vector2angle (x y z : R) : R * R * R :=
  let r := sqrt (x ^ 2 + y ^ 2 + z ^ 2) in
  let theta := rad2deg (atan2 (sqrt (x ^ 2 + y ^ 2)) z) in
  let phi := rad2deg (atan2 y x) in
  (theta, phi, r).
(** linear.py:49-56 *)
Definition cvector2angle (v : cvec) : R * R * R := vector2angle (cx v) (cy v) (cz v).
(** [np.linspace(start, stop, endpoint=True, num=steps)] *)
Definition linspace (start stop : R) (steps : Z) : result (list R) :=
  if (steps <? 0)%Z then Err (Throw "Number of samples must be non-negative.")
  else
    let n := Z.to_nat steps in
    Ok (map (fun i => if Nat.leb n 1 then start else start + INR i * ((stop - start) / INR (n - 1))) (seq 0 n)).
(** linear.py:58-88 *)
Definition amplitude_scan (start stop : R) (steps : Z) (theta phi : R) (back : bool) : result (list R * list cvec) :=
  Hspan <-- linspace start stop steps ;;
  let '(st, ct, sp, cp) := trig_compute theta phi in
  let forward := map (fun h => CV (st * cp * h) (st * sp * h) (ct * h)) Hspan in
  if back then Ok ((removelast Hspan ++ rev Hspan)%list, (removelast forward ++ rev forward)%list)
  else Ok (Hspan, forward).
(** linear.py:90-107 *)
Definition theta_scan (start stop : R) (steps : Z) (amplitude phi : R) : result (list R * list cvec) :=
  theta_span <-- linspace start stop steps ;;
  Ok (theta_span,
      map (fun theta => let '(st, ct, sp, cp) := trig_compute theta phi in
                        CV (st * cp * amplitude) (st * sp * amplitude) (ct * amplitude)) theta_span).
(** linear.py:109-126 *)
Definition phi_scan (start stop : R) (steps : Z) (amplitude theta : R) : result (list R * list cvec) :=
  phi_span <-- linspace start stop steps ;;
  Ok (phi_span,
      map (fun phi => let '(st, ct, sp, cp) := trig_compute theta phi in
                      CV (st * cp * amplitude) (st * sp * amplitude) (ct * amplitude)) phi_span).
