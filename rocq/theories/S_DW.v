(** What the domain wall model should compute. *)
From Verif Require Export S_Geom M_DW.
Open Scope R_scope.

(** ** Energy of one wall per moment *)
(** Anisotropy, applied field and DMI as a function of the wall angle. *)
Definition angle_energy (w : wall) (hk delta phi : R) : R :=
  let a := w_args w in
  hk / 4 * cos (2 * phi) - PI / 2 * (cx (w_h w) * cos phi + cy (w_h w) * sin phi) - wa_Q a * (PI / 2) * (wa_D a / (dw_mu0 * wa_Ms a * delta)) * cos phi.
(** Work against the applied field, the edges and the pinning sites when the wall moves by X. *)
Definition place_energy (w : wall) (X : R) : R :=
  let a := w_args w in let c := wa_Lx a / 2 in
  cz (w_h w) * X - wa_V0_edge a * cosh ((X - c) / c) ^ 6
  - wa_V0_pin a * wa_pinning a / (2 * dw_mu0 * wa_Ms a * wa_Ly a * wa_Lz a) * sin (PI * X / wa_pinning a) ^ 2.
Definition wall_energy (w : wall) (hk delta X phi : R) : R := angle_energy w hk delta phi - wa_Q (w_args w) * place_energy w X / delta.
(** Strength of the coupling of two walls at the first of them. *)
Definition coupling_field (J : R) (w : wall) : R := 2 * J / (dw_mu0 * wa_Ms (w_args w) * wa_thickness (w_args w)).

(** ** Equations of motion *)
(** Rates of a wall of width delta at (X, phi) with a neighbour at angle other (if any), current density je:
    ephi and eX are the slopes of its energy. *)
Definition wall_equations (J : R) (other : option R) (w : wall) (je hk X phi delta vX vphi : R) : Prop :=
  let a := w_args w in
  exists ephi eX,
    derivable_pt_lim (fun p => wall_energy w hk delta X p - match other with None => 0 | Some o => coupling_field J w * cos (p - o) end) phi ephi /\
    derivable_pt_lim (fun x => wall_energy w hk delta x phi) X eX /\
    vX / delta - wa_alpha a * vphi = gyro * ephi + w_bj w * je / delta /\
    vphi + wa_alpha a * (vX / delta) = - gyro * delta * eX + gyro * (PI / 2) * (wa_Q a * (w_Hshe w * je) - wa_beta a * wa_Hr a) * cos phi + wa_beta a * (w_bj w * je) / delta.
Definition usable (w : wall) (delta : R) : Prop :=
  let a := w_args w in
  w_Hk w <> None /\ delta <> 0 /\ wa_alpha a <> 0 /\ wa_Ms a <> 0 /\ wa_thickness a <> 0 /\ wa_pinning a <> 0 /\ wa_Lx a <> 0 /\ wa_Ly a <> 0 /\ wa_Lz a <> 0.
(** The angle of the other wall, if there are two; state vectors hold X, phi, delta of each. *)
Definition neighbour (n i : nat) (vec : list R) : option R :=
  if Nat.eqb n 1 then None else Some (match i with O => nth (length vec - 2) vec 0 | S k => nth (3 * k + 1) vec 0 end).
(** Relaxation of the width: down the slope of A / delta + delta K(phi). *)
Definition width_equation (a : wall_args) (phi delta v : R) : Prop :=
  exists s, derivable_pt_lim (fun d => wa_A a / d + d * (wa_Ku a + wa_Kp a * (sin phi * sin phi))) delta s /\ wa_alpha a * dw_mu0 * wa_Ms a * wa_thickness a * v = - gyro * delta * s.
(** Rates [out] of all walls in the state [vec] at time t. *)
Definition walls_move (ws : walls) (t : R) (vec out : list R) : Prop :=
  let n := length (ws_layers ws) in
  length out = (3 * n)%nat /\
  forall i w, nth_error (ws_layers ws) i = Some w ->
    let X := nth (3 * i) vec 0 in let phi := nth (3 * i + 1) vec 0 in let delta := nth (3 * i + 2) vec 0 in
    (3 * i + 2 < length vec)%nat /\ usable w delta /\
    exists hk, w_Hk w = Some hk /\ wall_equations (ws_J ws) (neighbour n i vec) w (w_je w t) hk X phi delta (nth (3 * i) out 0) (nth (3 * i + 1) out 0) /\
    match wa_relax (w_args w) with DYNAMIC => width_equation (w_args w) phi delta (nth (3 * i + 2) out 0) | _ => nth (3 * i + 2) out 0 = 0 end.
(** Moment of a wall per area, and the power it loses to damping. *)
Definition weight (w : wall) : R := dw_mu0 * wa_Ms (w_args w) * wa_thickness (w_args w).
Definition loss (w : wall) (delta vX vphi : R) : R := weight w * (wa_alpha (w_args w) / gyro * (vphi * vphi + vX / delta * (vX / delta))).
(** Energy of two coupled walls of fixed widths. *)
Definition pair_energy (J : R) (w1 w2 : wall) (k1 k2 d1 d2 X1 p1 X2 p2 : R) : R :=
  weight w1 * wall_energy w1 k1 d1 X1 p1 + weight w2 * wall_energy w2 k2 d2 X2 p2 - 2 * J * cos (p1 - p2).
(** Width of least energy at the angle phi. *)
Definition relaxed_width (a : wall_args) (phi : R) : R := sqrt (wa_A a / (wa_Ku a + wa_Kp a * (sin phi * sin phi))).

(** ** Runs *)
(** The states the integrator passes through: accepted steps, whether it stops by itself. *)
Fixpoint accepted (trace : list rk_step) (done : list (R * list R)) : Prop :=
  match trace with
  | [] => False
  | s :: trace =>
      match rk_status_of s with
      | Failed => done = []
      | Finished => done = [(rk_t s, rk_y s)]
      | Running => exists rest, done = (rk_t s, rk_y s) :: rest /\ accepted trace rest
      end
  end.
Definition before (y0 : list R) (done : list (R * list R)) (k : nat) : R * list R := match k with O => (0, y0) | S j => nth j done (0, []) end.
(** The entries reported for wall i after step k. *)
Definition reported (y0 : list R) (done : list (R * list R)) (k i : nat) (w : wall) (r : wall_row) : Prop :=
  let '(t0, old) := before y0 done k in
  let '(t, y) := nth k done (0, []) in
  (3 * i + 2 < length y)%nat /\ (2 * i < length old)%nat /\ t <> t0 /\
  r_x r = nth (3 * i) y 0 /\ r_phi r = nth (3 * i + 1) y 0 /\ r_je r = w_je w t /\
  r_v r = (nth (3 * i) y 0 - nth (2 * i) old 0) / Rabs (t - t0) /\
  match wa_relax (w_args w) with
  | STATIC => let q := 1 + wa_Kp (w_args w) / wa_Ku (w_args w) * (sin (r_phi r) * sin (r_phi r)) in wa_Ku (w_args w) <> 0 /\ 0 < q /\ r_dw r = w_dw0 w / sqrt q
  | _ => r_dw r = nth (3 * i + 2) y 0
  end.
(** ** Construction *)
Definition anisotropy_field (a : wall_args) : option R :=
  if String.eqb (wa_moving a) "perpendicular" then Some (2 * wa_Ku a / (dw_mu0 * wa_Ms a))
  else if String.eqb (wa_moving a) "inplane" then Some (2 * wa_Kp a / (dw_mu0 * wa_Ms a)) else None.
