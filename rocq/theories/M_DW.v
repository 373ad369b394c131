(** Model of cmtj/models/domain_dynamics.py over the reals. *)
From Verif Require Export M_Geom M_Resist.
From Coq Require Import String.
Open Scope R_scope.
Open Scope st_scope.

(** cmtj/utils/__init__.py:18-29 *)
Definition dw_mu0 : R := 12566 / 10 ^ 10.
Definition dw_echarge : R := - (1602 / 10 ^ 22).
Definition dw_hbar : R := 66260 / 10 ^ 38 / (2 * PI).
Definition dw_me : R := 9109 / 10 ^ 34.
Definition gyro : R := 2211 * 10 ^ 2.
Definition dw_bohr : R := dw_echarge * dw_hbar / (2 * dw_me).
(** [math.sqrt] *)
Definition math_sqrt (x : R) : result R := if Rlt_dec x 0 then Err (Throw "math domain error") else Ok (sqrt x).

(** ** One wall *)
(** domain_dynamics.py:24-28 *)
Inductive relaxation := NO_RELAX | STATIC | DYNAMIC.
(** domain_dynamics.py:146-167 *)
Record wall_args := WallArgs {
  wa_H : vectorObj; wa_alpha : R; wa_Ms : R; wa_thickness : R; wa_SHE : R; wa_D : R; wa_Ku : R; wa_Kp : R; wa_A : R; wa_beta : R; wa_p : R;
  wa_V0_pin : R; wa_V0_edge : R; wa_pinning : R; wa_Lx : R; wa_Ly : R; wa_Lz : R; wa_Q : R; wa_Hr : R; wa_moving : string; wa_relax : relaxation }.
(** The attributes set by the constructor; [w_Hk] may stay unset, [w_je] is the current driver. *)
Record wall := Wall { w_args : wall_args; w_bj : R; w_Hshe : R; w_h : cvec; w_dw0 : R; w_Hk : option R; w_je : R -> R }.
(** domain_dynamics.py:184-189 *)
Definition get_unrelaxed_domain_width (a : wall_args) (effective : bool) : result R :=
  let Keff := if effective then wa_Ku a - (1 / 2 * dw_mu0) * wa_Ms a ^ 2 else wa_Ku a in
  q <-- py_div (wa_A a) Keff ;; math_sqrt q.
(** domain_dynamics.py:201-207 *)
Definition get_perpendicular_anisotropy_field (a : wall_args) : result R := py_div (2 * wa_Ku a) (dw_mu0 * wa_Ms a).
Definition get_inplane_anisotropy_field (a : wall_args) : result R := py_div (2 * wa_Kp a) (dw_mu0 * wa_Ms a).
(** domain_dynamics.py:170-182 *)
Definition newWall (a : wall_args) : result wall :=
  bj <-- py_div (dw_bohr * wa_p a) (dw_echarge * wa_Ms a) ;;
  Hshe <-- py_div (dw_hbar * wa_SHE a) (2 * wa_Ms a * dw_mu0 * dw_echarge * wa_thickness a) ;;
  dw0 <-- get_unrelaxed_domain_width a false ;;
  Hk <-- (if String.eqb (wa_moving a) "perpendicular" then k <-- get_perpendicular_anisotropy_field a ;; Ok (Some k)
          else if String.eqb (wa_moving a) "inplane" then k <-- get_inplane_anisotropy_field a ;; Ok (Some k) else Ok None) ;;
  Ok (Wall a bj Hshe (get_cartesian (wa_H a)) dw0 Hk (fun _ => 0)).
(** domain_dynamics.py:191-195 *)
Definition set_current_function (je : R -> R) (w : wall) : wall := Wall (w_args w) (w_bj w) (w_Hshe w) (w_h w) (w_dw0 w) (w_Hk w) je.
(** domain_dynamics.py:197-199  The width is a numpy float. *)
Definition get_Hdmi (a : wall_args) (domain_width : R) : result R := fdiv (wa_D a) (dw_mu0 * wa_Ms a * domain_width).

(** ** Compiled helpers; numba raises on division by zero *)
(** domain_dynamics.py:31-36 *)
Definition get_pinning_field (X Ms pinning Ly Lz V0_pin : R) : result R :=
  arg <-- py_div (X * PI) pinning ;;
  let dVdx := 2 * PI * V0_pin * sin arg * cos arg in
  let denom := 2 * dw_mu0 * Ms * Lz * Ly in
  q <-- py_div 1 denom ;; Ok (- q * dVdx).
(** domain_dynamics.py:39-44 *)
Definition get_edge_field (X Lx V0_edge : R) : result R :=
  let c := Lx / 2 in
  arg <-- py_div (X - Lx / 2) c ;;
  e <-- py_div (sinh arg * cosh arg ^ 5) c ;;
  Ok (- 6 * V0_edge * e).
(** domain_dynamics.py:47-52 *)
Definition get_field_contribution (X phi hx hy hz alpha dw Ms V0_pin pinning Ly Lz : R) : result (R * R) :=
  p <-- get_pinning_field X Ms pinning Ly Lz V0_pin ;;
  Ok (alpha * gyro * dw * (hz + p) + gyro * dw * (PI / 2) * (- hy * cos phi + hx * sin phi),
      gyro * (hz + p) + alpha * gyro * (PI / 2) * (hy * cos phi - hx * sin phi)).
(** domain_dynamics.py:55-66 *)
Definition compute_gamma_a (phi Q dw hk hx hy hdmi bj IECterm : R) : result R :=
  let fact_gamma := - (1 / 2) * hk * sin (2 * phi) - PI / 2 * hy * cos phi + PI / 2 * hx * sin phi + Q * (PI / 2) * hdmi * sin phi + IECterm in
  fact_stt <-- py_div bj dw ;;
  Ok (gyro * fact_gamma + fact_stt).
(** domain_dynamics.py:69-76 *)
Definition compute_gamma_b (X phi Q dw hshe hz hr beta bj Ms Lx Ly Lz V0_pin V0_edge pinning : R) : result R :=
  hp <-- get_pinning_field X Ms pinning Ly Lz V0_pin ;;
  he <-- get_edge_field X Lx V0_edge ;;
  let fact_gamma := Q * (he + hz + hp + PI / 2 * hshe * cos phi) - beta * (PI / 2) * hr * cos phi in
  fact_stt <-- py_div (beta * bj) dw ;;
  Ok (gyro * fact_gamma + fact_stt).
(** domain_dynamics.py:79-116  The arguments taken from the layer are passed as the layer; [bj], [hshe] carry the current. *)
Definition compute_dynamics (a : wall_args) (h : cvec) (X phi delta hk hdmi hshe bj IECterm : R) : result (R * R * R) :=
  gamma_a <-- compute_gamma_a phi (wa_Q a) delta hk (cx h) (cy h) hdmi bj IECterm ;;
  gamma_b <-- compute_gamma_b X phi (wa_Q a) delta hshe (cz h) (wa_Hr a) (wa_beta a) bj (wa_Ms a) (wa_Lx a) (wa_Ly a) (wa_Lz a) (wa_V0_pin a) (wa_V0_edge a) (wa_pinning a) ;;
  let dXdt := delta * (gamma_a + wa_alpha a * gamma_b) in
  let dPhidt := - wa_alpha a * gamma_a + gamma_b in
  pref <-- py_div gyro (wa_alpha a * dw_mu0 * wa_Ms a * wa_thickness a) ;;
  q <-- py_div (wa_A a) delta ;;
  let dDeltadt := pref * (q - delta * (wa_Ku a + wa_Kp a * sin phi ^ 2)) in
  Ok (dXdt, dPhidt, dDeltadt).

(** ** One or two walls *)
(** domain_dynamics.py:210-218  [vector_size] keeps its default 3. *)
Record walls := Walls { ws_layers : list wall; ws_J : R }.
Definition newWalls (layers : list wall) (J : R) : result walls :=
  if Nat.ltb 2 (List.length layers) then Err (Throw "Wall dynamics supported up to 2 layers") else Ok (Walls layers J).
(** numpy indexing with a possibly negative index *)
Definition np_at {A} (l : list A) (z : Z) : result A :=
  if (z <? 0)%Z then if (z + Z.of_nat (List.length l) <? 0)%Z then Err (Throw "index is out of bounds for axis 0") else row_ l (Z.to_nat (z + Z.of_nat (List.length l)))
  else row_ l (Z.to_nat z).
Definition is_dynamic_width (r : relaxation) : bool := match r with DYNAMIC => true | _ => false end.
Definition is_static_width (r : relaxation) : bool := match r with STATIC => true | _ => false end.
(** domain_dynamics.py:230-275  one layer of [multilayer_dw_llg] *)
Definition wall_llg (n : nat) (J t : R) (vec : list R) (i : nat) (w : wall) : result (R * R * R) :=
  let a := w_args w in
  let je := w_je w t in
  let reduced_alpha := 1 + wa_alpha a ^ 2 in
  lx <-- row_ vec (3 * i) ;;
  lphi <-- row_ vec (3 * i + 1) ;;
  ldw <-- row_ vec (3 * i + 2) ;;
  Jterm <-- (if Nat.eqb n 1 then Ok 0
             else q <-- py_div (2 * J) (wa_Ms a * dw_mu0 * wa_thickness a) ;;
                  other <-- np_at vec (3 * (Z.of_nat i - 1) + 1) ;;
                  Ok (q * sin (lphi - other))) ;;
  hdmi <-- get_Hdmi a ldw ;;
  hk <-- match w_Hk w with Some k => Ok k | None => Err (Throw "'DomainWallDynamics' object has no attribute 'Hk'") end ;;
  d <-- compute_dynamics a (w_h w) lx lphi ldw hk hdmi (w_Hshe w * je) (w_bj w * je) Jterm ;;
  let '(dX, dPhi, dDelta) := d in
  Ok (dX / reduced_alpha, dPhi / reduced_alpha, if is_dynamic_width (wa_relax a) then dDelta else 0).
Fixpoint walls_llg (n : nat) (J t : R) (vec : list R) (i : nat) (ws : list wall) : result (list R) :=
  match ws with
  | [] => Ok []
  | w :: ws =>
      d <-- wall_llg n J t vec i w ;;
      rest <-- walls_llg n J t vec (S i) ws ;;
      let '(dX, dPhi, dDelta) := d in
      Ok (dX :: dPhi :: dDelta :: rest)
  end.
(** domain_dynamics.py:220-276 *)
Definition multilayer_dw_llg (ws : walls) (t : R) (vec : list R) : result (list R) :=
  walls_llg (List.length (ws_layers ws)) (ws_J ws) t vec 0 (ws_layers ws).

(** ** Runs *)
(** What the integrator shows after one [step]: its status, time and state. *)
Inductive rk_status := Running | Finished | Failed.
Record rk_step := RK { rk_status_of : rk_status; rk_t : R; rk_y : list R }.
(** The entries appended for one layer: dw, v, x, phi, je. *)
Record wall_row := WallRow { r_dw : R; r_v : R; r_x : R; r_phi : R; r_je : R }.
(** domain_dynamics.py:303-320 *)
Definition wall_report (t0 : R) (y0 : list R) (t : R) (y : list R) (i : nat) (w : wall) : result wall_row :=
  let a := w_args w in
  x <-- row_ y (3 * i) ;;
  phi <-- row_ y (3 * i + 1) ;;
  dw <-- row_ y (3 * i + 2) ;;
  dw <-- (if is_static_width (wa_relax a) then
            ratio <-- py_div (wa_Kp a) (wa_Ku a) ;;
            s <-- math_sqrt (1 + ratio * sin phi ^ 2) ;;
            py_div (w_dw0 w) s
          else Ok dw) ;;
  old <-- row_ y0 (2 * i) ;;
  vel <-- fdiv (x - old) (Rabs (t - t0)) ;;
  Ok (WallRow dw vel x phi (w_je w t)).
Fixpoint walls_report (t0 : R) (y0 : list R) (t : R) (y : list R) (i : nat) (ws : list wall) : result (list wall_row) :=
  match ws with
  | [] => Ok []
  | w :: ws => r <-- wall_report t0 y0 t y i w ;; rest <-- walls_report t0 y0 t y (S i) ws ;; Ok (r :: rest)
  end.
(** domain_dynamics.py:293-324  [trace] are the results of the successive integrator steps from (t0, y0); the columns of
    the returned dictionary are kept as rows.  A trace without an end is an endless loop. *)
Fixpoint run_loop (ws : list wall) (t0 : R) (y0 : list R) (trace : list rk_step) : result (list (R * list wall_row)) :=
  match trace with
  | [] => Err Undefined
  | s :: trace =>
      match rk_status_of s with
      | Failed => Ok []
      | st =>
          r <-- walls_report t0 y0 (rk_t s) (rk_y s) 0 ws ;;
          match st with
          | Finished => Ok [(rk_t s, r)]
          | _ => rest <-- run_loop ws (rk_t s) (rk_y s) trace ;; Ok ((rk_t s, r) :: rest)
          end
      end
  end.
Definition run_walls (ws : walls) (y0 : list R) (trace : list rk_step) : result (list (R * list wall_row)) := run_loop (ws_layers ws) 0 y0 trace.
