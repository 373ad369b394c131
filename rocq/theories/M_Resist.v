(** Model of cmtj/utils/resistance.py over the reals. *)
From Verif Require Export M_Sym M_Vec.
From Coq Require Import String.
Open Scope R_scope.
Open Scope st_scope.

(** Python list indexing with a non-negative index. *)
Definition at_ {A} (l : list A) (i : nat) : result A :=
  match nth_error l i with Some a => Ok a | None => Err (Throw "list index out of range") end.
(** numpy row indexing *)
Definition row_ {A} (l : list A) (i : nat) : result A :=
  match nth_error l i with Some a => Ok a | None => Err (Throw "index is out of bounds for axis 0") end.
(** Division of Python floats. *)
Definition py_div (a b : R) : result R := if Req_EM_T b 0 then Err (Throw "float division by zero") else Ok (a / b).

(** The material arguments Rx0, Ry0, AMR, AHE, SMR, l, w. *)
Record strips := Strips { sp_Rx0 : list R; sp_Ry0 : list R; sp_AMR : list R; sp_AHE : list R; sp_SMR : list R; sp_l : list R; sp_w : list R }.
(** resistance.py:51-58  the values used in iteration i, in order of use. *)
Definition res_row {M} (p : strips) (ms : list M) (i : nat) : result (R * R * R * R * R * R * M) :=
  w <-- at_ (sp_w p) i ;;
  l <-- at_ (sp_l p) i ;;
  w_l <-- py_div w l ;;
  rx0 <-- at_ (sp_Rx0 p) i ;;
  amr <-- at_ (sp_AMR p) i ;;
  m <-- row_ ms i ;;
  smr <-- at_ (sp_SMR p) i ;;
  ry0 <-- at_ (sp_Ry0 p) i ;;
  ahe <-- at_ (sp_AHE p) i ;;
  Ok (rx0, ry0, amr, ahe, smr, w_l, m).
Definition res_x (rx0 amr smr : R) (m : cvec) : R := rx0 + (amr * cx m ^ 2 + smr * cy m ^ 2).
Definition res_y (ry0 amr ahe smr w_l : R) (m : cvec) : R := ry0 + 1 / 2 * ahe * cz m + w_l * (smr - amr) * cx m * cy m.
Fixpoint res_rows {A M} (f : R * R * R * R * R * R * M -> A) (p : strips) (ms : list M) (n i : nat) : result (list A) :=
  match n with
  | O => Ok []
  | S n => r <-- res_row p ms i ;; rs <-- res_rows f p ms n (S i) ;; Ok (f r :: rs)
  end.
(** resistance.py:25-59, [m.ndim == 2]: one magnetisation per layer. *)
Definition compute_resistance (p : strips) (m : list cvec) : result (list R * list R) :=
  rs <-- res_rows (fun '(rx0, ry0, amr, ahe, smr, w_l, m) => (res_x rx0 amr smr m, res_y ry0 amr ahe smr w_l m)) p m (List.length (sp_Rx0 p)) 0 ;;
  Ok (map fst rs, map snd rs).
(** resistance.py:25-59, [m.ndim == 3]: T magnetisations per layer. *)
Definition compute_resistance3 (p : strips) (m : list (list cvec)) : result (list (list R) * list (list R)) :=
  rs <-- res_rows (fun '(rx0, ry0, amr, ahe, smr, w_l, ms) => (map (res_x rx0 amr smr) ms, map (res_y ry0 amr ahe smr w_l) ms)) p m (List.length (sp_Rx0 p)) 0 ;;
  Ok (map fst rs, map snd rs).

(** numpy floats: dividing by (positive) zero gives infinity, infinity absorbs sums, its inverse is 0. *)
Inductive npnum := Fin (r : R) | Infinite.
Definition np_inv (x : npnum) : npnum := match x with Fin r => if Req_EM_T r 0 then Infinite else Fin (1 / r) | Infinite => Fin 0 end.
Definition np_add (x y : npnum) : npnum := match x, y with Fin a, Fin b => Fin (a + b) | _, _ => Infinite end.
Definition np_sum (l : list npnum) : npnum := fold_right np_add (Fin 0) l.
Definition sum_list (l : list R) : R := fold_right Rplus 0 l.
Definition par_sum (l : list R) : npnum := np_inv (np_sum (map (fun s => np_inv (Fin s)) l)).
(** [axis=0] of an array with T columns *)
Definition columns {A} (d : A) (T : nat) (rows : list (list A)) : list (list A) := map (fun t => map (fun r => nth t r d) rows) (seq 0 T).

(** resistance.py:92-122 *)
Definition calculate_resistance_parallel (p : strips) (m : list cvec) : result (npnum * npnum) :=
  s <-- compute_resistance p m ;; Ok (par_sum (fst s), par_sum (snd s)).
(** resistance.py:125-155 *)
Definition calculate_resistance_series (p : strips) (m : list cvec) : result (R * R) :=
  s <-- compute_resistance p m ;; Ok (sum_list (fst s), sum_list (snd s)).
(** The same with T samples per layer. *)
Definition calculate_resistance_parallel3 (p : strips) (T : nat) (m : list (list cvec)) : result (list npnum * list npnum) :=
  s <-- compute_resistance3 p m ;; Ok (map par_sum (columns 0 T (fst s)), map par_sum (columns 0 T (snd s))).
Definition calculate_resistance_series3 (p : strips) (T : nat) (m : list (list cvec)) : result (list R * list R) :=
  s <-- compute_resistance3 p m ;; Ok (map sum_list (columns 0 T (fst s)), map sum_list (columns 0 T (snd s))).

(** resistance.py:62-68 *)
Definition compute_gmr (Rp Rap : R) (m1 m2 : cvec) : R :=
  Rp + 1 / 2 * (Rap - Rp) * (1 - (cx m1 * cx m2 + cy m1 * cy m2 + cz m1 * cz m2)).
(** resistance.py:71-89  one sample *)
Definition calculate_magnetoresistance (Rp Rap : R) (m : list cvec) : result R :=
  match m with
  | [m0; m1] => Ok (Rp + 1 / 2 * (Rap - Rp) * (cx m0 * cx m1 + cy m0 * cy m1 + cz m0 * cz m1))
  | _ => Err (Throw "The magnetoresistance can only be computed for 2 layers")
  end.
(** resistance.py:158-188 *)
Definition angular_calculate_resistance_gmr (Rp Rap theta_1 phi_1 theta_2 phi_2 : R) : R :=
  let m1 := CV (cos theta_1 * cos phi_1) (cos theta_1 * sin phi_1) (sin theta_1) in
  let m2 := CV (cos theta_2 * cos phi_2) (cos theta_2 * sin phi_2) (sin theta_2) in
  compute_gmr Rp Rap m1 m2.

(** resistance.py:191-226 *)
Definition lin_m1 : svec :=
  SV (EMul (ESin (ESym (Theta 1))) (ECos (ESym (Phi 1)))) (EMul (ESin (ESym (Theta 1))) (ESin (ESym (Phi 1)))) (ECos (ESym (Theta 1))).
Definition lin_m2 : svec :=
  SV (EMul (ESin (ESym (Theta 2))) (ECos (ESym (Phi 2)))) (EMul (ENeg (ESin (ESym (Theta 2)))) (ESin (ESym (Phi 2)))) (ECos (ESym (Theta 2))).
Definition calculate_linearised_resistance (GMR : R) (AMR SMR : list R) : result (sexpr * sexpr * sexpr) :=
  let GMR_resistance := EDiv (EMul (ENum GMR) (ESub (ENum 1) (sdot lin_m1 lin_m2))) (ENum 2) in
  a0 <-- at_ AMR 0 ;;
  s0 <-- at_ SMR 0 ;;
  let Rxx1 := EAdd (EMul (ENum a0) (ESq (sx lin_m1))) (EMul (ENum s0) (ESq (sy lin_m1))) in
  a1 <-- at_ AMR 1 ;;
  s1 <-- at_ SMR 1 ;;
  let Rxx2 := EAdd (EMul (ENum a1) (ESq (sx lin_m2))) (EMul (ENum s1) (ESq (sy lin_m2))) in
  Ok (Rxx1, Rxx2, GMR_resistance).
(** [np.finfo("float64").resolution] *)
Definition EPS : R := / 10 ^ 15.
(** Python [any] of a list of numbers *)
Definition py_any (l : list R) : bool := existsb (fun x => if Req_EM_T x 0 then false else true) l.
(** [a, b = l[:2]; c, d = l[2:]] *)
Definition unpack4 (l : list R) : result (R * R * R * R) :=
  match l with
  | [a; b; c; d] => Ok (a, b, c, d)
  | _ :: _ :: _ :: _ :: _ :: _ => Err (Throw "too many values to unpack (expected 2)")
  | _ => Err (Throw "not enough values to unpack (expected 2)")
  end.
Definition angles4 (t1 p1 t2 p2 : R) : symbol -> R :=
  fun s => match s with Theta 1 => t1 | Phi 1 => p1 | Theta 2 => t2 | Phi 2 => p2 | _ => 0 end.
Definition linearise (e : sexpr) (dt1 dp1 dt2 dp2 : R) : sexpr :=
  EAdd (EAdd (EAdd (EMul (diff e (Theta 1)) (ENum dt1)) (EMul (diff e (Phi 1)) (ENum dp1))) (EMul (diff e (Theta 2)) (ENum dt2))) (EMul (diff e (Phi 2)) (ENum dp2)).
(** resistance.py:229-275 *)
Definition calculate_linearised_resistance_parallel (GMR : R) (AMR SMR stationary_angles linearised_angles : list R) : result (R * R) :=
  q <-- unpack4 stationary_angles ;; let '(t01, p01, t02, p02) := q in
  q <-- unpack4 linearised_angles ;; let '(dt1, dp1, dt2, dp2) := q in
  q <-- calculate_linearised_resistance GMR AMR SMR ;; let '(Rxx1, Rxx2, GMR_resistance) := q in
  let Rparallel :=
    if orb (py_any AMR) (py_any SMR) then EAdd GMR_resistance (EDiv (EMul Rxx1 Rxx2) (EAdd (EAdd Rxx1 Rxx2) (ENum EPS))) else GMR_resistance in
  dR <-- evalf (angles4 t01 p01 t02 p02) (linearise Rparallel dt1 dp1 dt2 dp2) ;;
  R0 <-- evalf (angles4 t01 p01 t02 p02) Rparallel ;;
  Ok (dR, R0).
(** resistance.py:278-322 *)
Definition calculate_linearised_resistance_series (GMR : R) (AMR SMR stationary_angles linearised_angles : list R) : result (R * R) :=
  q <-- unpack4 stationary_angles ;; let '(t01, p01, t02, p02) := q in
  q <-- unpack4 linearised_angles ;; let '(dt1, dp1, dt2, dp2) := q in
  q <-- calculate_linearised_resistance GMR AMR SMR ;; let '(Rxx1, Rxx2, GMR_resistance) := q in
  let Rseries := EAdd (EAdd GMR_resistance Rxx1) Rxx2 in
  dR <-- evalf (angles4 t01 p01 t02 p02) (linearise Rseries dt1 dp1 dt2 dp2) ;;
  R0 <-- evalf (angles4 t01 p01 t02 p02) Rseries ;;
  Ok (dR, R0).
