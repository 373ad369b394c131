(** What the Smit-Beljers solver should compute. *)
From Verif Require Export S_Sym S_Geom S_Resist M_SB.
Open Scope R_scope.

(** f 0 + ... + f (n - 1) *)
Fixpoint Sigma (n : nat) (f : nat -> R) : R := match n with O => 0 | S k => Sigma k f + f k end.

(** ** Energy *)
(** Direction of the moment of a layer when the symbols have the values rho. *)
Definition direction (l : layerSB) (rho : symbol -> R) : cvec := point (rho (Theta (sb_id l))) (rho (Phi (sb_id l))) 1.
Definition dmi_field (l : layerSB) : cvec := match sb_Hdmi l with Some v => get_cartesian v | None => Zero end.
Definition square (x : R) : R := x * x.
(** Energy density of one layer with moment along m in the field h. *)
Definition film_energy (l : layerSB) (h m : cvec) : R :=
  - mu0 * sb_Ms l * Dot m h - mu0 * sb_Ms l * Dot m (dmi_field l) - sb_Ks l * square (Dot m ez)
  - vo_mag (sb_Kv l) * square (Dot m (point (PI / 2) (vo_phi (sb_Kv l)) 1))
  + mu0 * square (sb_Ms l) / 2 * Dot (CV (square (cx m)) (square (cy m)) (square (cz m))) (get_cartesian (sb_Ndemag l)).
(** Interaction per area of two neighbours. *)
Definition coupling (j1 j2 : R) (d : cvec) (a b : cvec) : R := - j1 * Dot a b - j2 * square (Dot a b) - Dot d (Cross a b).
Definition dipole_energy (t : tensor) (la lb : layerSB) (a b : cvec) : R :=
  mu0 * sb_Ms la * sb_Ms lb / 2 * (sb_thickness la * Dot a (MatVec t b) + sb_thickness lb * Dot b (MatVec t a)).
Definition system_energy (s : solver) (h : cvec) (rho : symbol -> R) : R :=
  let m i := direction (the_layer s i) rho in
  Sigma (length (sv_layers s)) (fun i => sb_thickness (the_layer s i) * film_energy (the_layer s i) h (m i)) +
  Sigma (length (sv_layers s) - 1) (fun i =>
    coupling (nth i (sv_J1 s) 0) (nth i (sv_J2 s) 0) (nth i (sv_ilD s) Zero) (m i) (m (S i)) +
    match sv_dipole s with None => 0 | Some ds => dipole_energy (nth i ds null_tensor) (the_layer s i) (the_layer s (S i)) (m i) (m (S i)) end).
(** Value of a field given by expressions. *)
Definition field_at (rho : symbol -> R) (h : svec) : cvec := CV (eval rho (sx h)) (eval rho (sy h)) (eval rho (sz h)).

(** ** Hessian *)
(** Coordinates theta_0, phi_0, theta_1, phi_1, ... *)
Definition coordinate (th ph : nat -> symbol) (k : nat) : symbol := if Nat.even k then th (Nat.div2 k) else ph (Nat.div2 k).
(** h is the 2N x 2N matrix of second derivatives of f plus the antisymmetric imaginary corrections z. *)
Definition smit_beljers (N : nat) (th ph : nat -> symbol) (z : nat -> (symbol -> R) -> R) (f : (symbol -> R) -> R) (h : smatrix) : Prop :=
  forall r c rho, (r < 2 * N)%nat -> (c < 2 * N)%nat ->
    partial2 f rho (coordinate th ph r) (coordinate th ph c) (eval rho (fst (h r c))) /\
    (forall i, r = (2 * i + 1)%nat -> c = (2 * i)%nat -> eval rho (snd (h r c)) = z i rho) /\
    (forall i, r = (2 * i)%nat -> c = (2 * i + 1)%nat -> eval rho (snd (h r c)) = - z i rho) /\
    ((forall i, ~ (r = 2 * i + 1 /\ c = 2 * i)%nat /\ ~ (r = 2 * i /\ c = 2 * i + 1)%nat) -> eval rho (snd (h r c)) = 0).

(** ** Gradient descent *)
(** Exponential moving average, oldest first. *)
Definition ema (b : R) (xs : list R) : R := Sigma (length xs) (fun k => (1 - b) * b ^ (length xs - 1 - k) * nth k xs 0).
Fixpoint highest (n : nat) (f : nat -> R) : R := match n with O => 0 | S k => Rmax (highest k f) (f k) end.
Definition component (c : nat) (gs : list (list R)) : list R := map (fun g => nth c g 0) gs.
(** From x to y after the gradients gs, oldest first. *)
Definition adam_next (p : descent_params) (gs : list (list R)) (x y : list R) : Prop :=
  length y = length x /\
  forall c, (c < length x)%nat ->
    let n := length gs in
    let mean := ema (dp_b1 p) (component c gs) / (1 - dp_b1 p ^ n) in
    let var := ema (dp_b2 p) (map square (component c gs)) / (1 - dp_b2 p ^ n) in
    dp_b1 p ^ n <> 1 /\ dp_b2 p ^ n <> 1 /\ 0 <= var /\ nth c y 0 = nth c x 0 - dp_rate p * mean / (sqrt var + / 10 ^ 12).
Definition amsgrad_next (p : descent_params) (gs : list (list R)) (x y : list R) : Prop :=
  length y = length x /\
  forall c, (c < length x)%nat ->
    let mean := ema (dp_b1 p) (component c gs) in
    let var := highest (length gs) (fun k => ema (dp_b2 p) (map square (component c (firstn (S k) gs)))) in
    nth c y 0 = nth c x 0 - dp_rate p * mean / (sqrt var + / 10 ^ 12).
Definition distance (x y : list R) : R := sqrt (Sigma (length x) (fun c => square (nth c x 0 - nth c y 0))).
(** The positions xs are visited from start, gs are the gradients there, the descent ends in r. *)
Definition descends (next : list (list R) -> list R -> list R -> Prop) (grad : list R -> result (list R)) (tol : R) (max_steps : nat)
    (start : list R) (xs gs : list (list R)) (r : list R) : Prop :=
  length gs = length xs /\ (0 < length xs <= S max_steps)%nat /\ nth 0 xs [] = start /\ nth (length xs - 1) xs [] = r /\
  (forall k, (k < length xs)%nat -> grad (nth k xs []) = Ok (nth k gs []) /\ length (nth k gs []) = length start) /\
  (forall k, (S k < length xs)%nat -> next (firstn (S k) gs) (nth k xs []) (nth (S k) xs []) /\ tol <= distance (nth k xs []) (nth (S k) xs [])) /\
  exists y, next gs r y /\ (length xs = S max_steps \/ distance r y < tol).

Definition hermitian (n : nat) (h : smatrix) : Prop := forall r c rho, (r < n)%nat -> (c < n)%nat ->
  eval rho (fst (h r c)) = eval rho (fst (h c r)) /\ eval rho (snd (h r c)) = - eval rho (snd (h c r)).
(** Complex determinant of a 2 x 2 matrix. *)
Definition det2 (h : smatrix) (rho : symbol -> R) : R * R :=
  let e r c := (eval rho (fst (h r c)), eval rho (snd (h r c))) in
  let p := times (e 0 0)%nat (e 1 1)%nat in let q := times (e 0 1)%nat (e 1 0)%nat in (fst p - fst q, snd p - snd q).
Definition with_thickness (t : R) (l : layerSB) : layerSB := LayerSB (sb_id l) t (sb_Kv l) (sb_Ks l) (sb_Ms l) (sb_Hdmi l) (sb_Ndemag l) (sb_dyn l).
Definition one_layer (l : layerSB) (H : vectorObj) : solver := Solver [l] [] [] (Some H) [] None.

(** ** Positions *)
Definition distinct (s : solver) : Prop := NoDup (map sb_id (sv_layers s)).
Definition angle (s : solver) (k : nat) : symbol := coordinate (fun i => Theta (sb_id (the_layer s i))) (fun i => Phi (sb_id (the_layer s i))) k.
Definition placed (s : solver) (pos : list R) (rho : symbol -> R) : Prop :=
  forall k, (k < 2 * length (sv_layers s))%nat -> rho (angle s k) = nth k pos 0.

(** ** Equation of motion *)
Definition e_theta (t p : R) : cvec := CV (cos t * cos p) (cos t * sin p) (- sin t).
Definition e_phi (p : R) : cvec := CV (- sin p) (cos p) 0.
(** sin theta away from zero *)
Definition soft_sin (t : R) : R := sin t + / 10 ^ 15.
(** Rates of theta and phi in the Landau-Lifshitz-Gilbert equation with the field of the energy with slopes ut, up,
    a field hoe along e_phi, and the torques driven by v. *)
Definition moves (l : layerSB) (d : dynamics) (t p ut up hoe v : R) (rate : R * R) : Prop :=
  let sn := soft_sin t in
  let et := e_theta t p in
  let ep := e_phi p in
  let h := Plus (Scal (- ut / sb_Ms l) et) (Scal (hoe - up / (sn * sb_Ms l)) ep) in
  let T := Scal (- gamma_rad) (Cross (point t p 1) h) in
  Scal (1 + square (dy_alpha d)) (Plus (Scal (fst rate) et) (Scal (sn * snd rate) ep)) =
  Plus (Plus T (Scal (dy_alpha d) (Cross (point t p 1) T)))
       (Scal (gamma_rad / sb_Ms l) (Plus (Scal (sin t * (- dy_torque_par d * v - dy_alpha d * dy_torque_perp d * v)) et)
                                         (Scal (sn * (- dy_torque_perp d * v + dy_alpha d * dy_torque_par d * v)) ep))).
(** The layers do not touch a pole. *)
Definition regular (s : solver) (rho : symbol -> R) : Prop :=
  forall i, (i < length (sv_layers s))%nat -> soft_sin (rho (Theta (sb_id (the_layer s i)))) <> 0 /\ sb_Ms (the_layer s i) <> 0 /\ sb_thickness (the_layer s i) <> 0.
(** F k is the rate of the k-th angle of the coupled layers. *)
Definition motion (s : solver) (h : (symbol -> R) -> cvec) (osc : bool) (F : nat -> (symbol -> R) -> R) : Prop :=
  forall i, (i < length (sv_layers s))%nat -> exists d ut up, sb_dyn (the_layer s i) = Some d /\
    (forall rho, partial (fun r => system_energy s (h r) r) rho (angle s (2 * i)) (ut rho) /\ partial (fun r => system_energy s (h r) r) rho (angle s (2 * i + 1)) (up rho)) /\
    forall rho, regular s rho ->
      moves (the_layer s i) d (rho (angle s (2 * i))) (rho (angle s (2 * i + 1))) (ut rho / sb_thickness (the_layer s i)) (up rho / sb_thickness (the_layer s i))
            (if osc then rho Hoe else 0) (if osc then rho Vp else 1) (F (2 * i)%nat rho, F (2 * i + 1)%nat rho).
Definition steady (h : svec) : Prop := forall rho, defined rho (sx h) /\ defined rho (sy h) /\ defined rho (sz h).
(** y are complex amplitudes of the angles driven at omega by a unit of var; k scales the left side. *)
Definition responds (k : nat -> R) (s : solver) (F : nat -> (symbol -> R) -> R) (rho : symbol -> R) (var : symbol) (omega : R) (y : nat -> R * R) : Prop :=
  let n := (2 * length (sv_layers s))%nat in
  forall r, (r < n)%nat -> exists J v, (forall c, (c < n)%nat -> partial (F r) rho (angle s c) (J c)) /\ partial (F r) rho var v /\
    k r * (- omega * snd (y r) - Sigma n (fun c => J c * fst (y c))) = v /\
    k r * (omega * fst (y r) - Sigma n (fun c => J c * snd (y c))) = 0.
Definition damping (s : solver) (i : nat) : R := match sb_dyn (the_layer s i) with Some d => dy_alpha d | None => 0 end.

(** B is a right inverse of M. *)
Definition inverse (n : nat) (M B : cmatrix) : Prop :=
  forall r c, (r < n)%nat -> (c < n)%nat -> csum n (fun k => times (M r k) (B k c)) = if Nat.eqb r c then (1, 0) else (0, 0).
Definition field_symbols : svec := SV (ESym Hx) (ESym Hy) (ESym Hz).
Definition drive (frequency : option R) (rho : symbol -> R) : R := match frequency with None => rho Omega | Some f => 2 * PI * f end.

(** ** Field scan *)
Definition start_of (start : list R) (outs : list (list R * list R * vectorObj)) (k : nat) : list R :=
  match k with O => start | S j => fst (fst (nth j outs ([], [], VO 0 0 0))) end.
Definition scanned (descend : solver -> list R -> result (list R)) (roots : list R -> vectorObj -> result (list R)) (s : solver) (fields : list vectorObj)
    (start : list R) (outs : list (list R * list R * vectorObj)) (s' : solver) : Prop :=
  length outs = length fields /\
  (forall k H, nth_error fields k = Some H -> exists eq r, nth_error outs k = Some (eq, r, H) /\ descend (set_H H s) (start_of start outs k) = Ok eq /\ roots eq H = Ok r) /\
  s' = match fields with [] => s | _ => set_H (last fields (VO 0 0 0)) s end.
