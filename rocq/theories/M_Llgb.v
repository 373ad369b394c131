(** Model of the Landau-Lifshitz-Bloch layers and junctions (core/llgb.hpp). *)
From Verif Require Export M_Stack.
Open Scope R_scope.
Open Scope st_scope.

(** ** Mean field helpers *)

(** core/llgb.hpp:7-9 *)
Definition langevin (x : R) : result R :=
  a <-- fdiv 1 (tanh x) ;; b <-- fdiv 1 x ;; Ok (a - b).
(** core/llgb.hpp:11-13 *)
Definition langevinDerivative (x : R) : result R :=
  a <-- fdiv (-1) (sinh x * sinh x) ;; b <-- fdiv 1 (x * x) ;; Ok (a + b).
(** core/llgb.hpp:35-43  at most [n] further iterations; [e] is the last error. *)
Fixpoint mfa_loop (n : nat) (beta J0 relax tol est e : R) : result (R * R) :=
  match n with
  | O => Ok (est, e)
  | S n' =>
      xNext <-- langevin (beta * J0 * est) ;;
      let e := Rabs (xNext - est) in
      if Rlt_dec e tol then Ok (xNext, e)
      else mfa_loop n' beta J0 relax tol (relax * xNext + (1 - relax) * est) e
  end.
(** core/llgb.hpp:15-44  [abs] (37) is read as the floating-point absolute value. *)
Definition MFAWeissCurie (est temp J0 relax tol : R) (maxIter : nat) : result (R * R) :=
  beta <-- fdiv 1 (BOLTZMANN_CONST * temp) ;; mfa_loop maxIter beta J0 relax tol est 0.

(** ** Layers *)

(** core/llgb.hpp:47-73.  [b_rngA]/[b_posA] and [b_rngB]/[b_posB] are the two Gaussian generators. *)
Record blayer := BL {
  b_id : string;
  b_mag : cvec;
  b_anis : cvec;
  b_Ms : R;
  b_thickness : R;
  b_surface : R;
  b_volume : R;
  b_demag : tensor;
  b_damping : R;
  b_Tc : R;
  b_chi : R;
  b_me : R;
  b_aperp_log : R;
  b_apar_log : R;
  b_K_log : R;
  b_T_log : R;
  b_temperature : sdriver;
  b_anisotropy : sdriver;
  b_external : adriver;
  b_rngA : nat -> R;
  b_posA : nat;
  b_rngB : nat -> R;
  b_posB : nat }.
(** Functional field updates. *)
Definition set_b_mag (v : cvec) (l : blayer) : blayer :=
  BL (b_id l) v (b_anis l) (b_Ms l) (b_thickness l) (b_surface l) (b_volume l) (b_demag l) (b_damping l) (b_Tc l) (b_chi l) (b_me l) (b_aperp_log l) (b_apar_log l) (b_K_log l) (b_T_log l) (b_temperature l) (b_anisotropy l) (b_external l) (b_rngA l) (b_posA l) (b_rngB l) (b_posB l).
Definition set_b_chi (v : R) (l : blayer) : blayer :=
  BL (b_id l) (b_mag l) (b_anis l) (b_Ms l) (b_thickness l) (b_surface l) (b_volume l) (b_demag l) (b_damping l) (b_Tc l) v (b_me l) (b_aperp_log l) (b_apar_log l) (b_K_log l) (b_T_log l) (b_temperature l) (b_anisotropy l) (b_external l) (b_rngA l) (b_posA l) (b_rngB l) (b_posB l).
Definition set_b_me (v : R) (l : blayer) : blayer :=
  BL (b_id l) (b_mag l) (b_anis l) (b_Ms l) (b_thickness l) (b_surface l) (b_volume l) (b_demag l) (b_damping l) (b_Tc l) (b_chi l) v (b_aperp_log l) (b_apar_log l) (b_K_log l) (b_T_log l) (b_temperature l) (b_anisotropy l) (b_external l) (b_rngA l) (b_posA l) (b_rngB l) (b_posB l).
Definition set_b_aperp_log (v : R) (l : blayer) : blayer :=
  BL (b_id l) (b_mag l) (b_anis l) (b_Ms l) (b_thickness l) (b_surface l) (b_volume l) (b_demag l) (b_damping l) (b_Tc l) (b_chi l) (b_me l) v (b_apar_log l) (b_K_log l) (b_T_log l) (b_temperature l) (b_anisotropy l) (b_external l) (b_rngA l) (b_posA l) (b_rngB l) (b_posB l).
Definition set_b_apar_log (v : R) (l : blayer) : blayer :=
  BL (b_id l) (b_mag l) (b_anis l) (b_Ms l) (b_thickness l) (b_surface l) (b_volume l) (b_demag l) (b_damping l) (b_Tc l) (b_chi l) (b_me l) (b_aperp_log l) v (b_K_log l) (b_T_log l) (b_temperature l) (b_anisotropy l) (b_external l) (b_rngA l) (b_posA l) (b_rngB l) (b_posB l).
Definition set_b_K_log (v : R) (l : blayer) : blayer :=
  BL (b_id l) (b_mag l) (b_anis l) (b_Ms l) (b_thickness l) (b_surface l) (b_volume l) (b_demag l) (b_damping l) (b_Tc l) (b_chi l) (b_me l) (b_aperp_log l) (b_apar_log l) v (b_T_log l) (b_temperature l) (b_anisotropy l) (b_external l) (b_rngA l) (b_posA l) (b_rngB l) (b_posB l).
Definition set_b_T_log (v : R) (l : blayer) : blayer :=
  BL (b_id l) (b_mag l) (b_anis l) (b_Ms l) (b_thickness l) (b_surface l) (b_volume l) (b_demag l) (b_damping l) (b_Tc l) (b_chi l) (b_me l) (b_aperp_log l) (b_apar_log l) (b_K_log l) v (b_temperature l) (b_anisotropy l) (b_external l) (b_rngA l) (b_posA l) (b_rngB l) (b_posB l).
Definition set_b_temperature (v : sdriver) (l : blayer) : blayer :=
  BL (b_id l) (b_mag l) (b_anis l) (b_Ms l) (b_thickness l) (b_surface l) (b_volume l) (b_demag l) (b_damping l) (b_Tc l) (b_chi l) (b_me l) (b_aperp_log l) (b_apar_log l) (b_K_log l) (b_T_log l) v (b_anisotropy l) (b_external l) (b_rngA l) (b_posA l) (b_rngB l) (b_posB l).
Definition set_b_anisotropy (v : sdriver) (l : blayer) : blayer :=
  BL (b_id l) (b_mag l) (b_anis l) (b_Ms l) (b_thickness l) (b_surface l) (b_volume l) (b_demag l) (b_damping l) (b_Tc l) (b_chi l) (b_me l) (b_aperp_log l) (b_apar_log l) (b_K_log l) (b_T_log l) (b_temperature l) v (b_external l) (b_rngA l) (b_posA l) (b_rngB l) (b_posB l).
Definition set_b_external (v : adriver) (l : blayer) : blayer :=
  BL (b_id l) (b_mag l) (b_anis l) (b_Ms l) (b_thickness l) (b_surface l) (b_volume l) (b_demag l) (b_damping l) (b_Tc l) (b_chi l) (b_me l) (b_aperp_log l) (b_apar_log l) (b_K_log l) (b_T_log l) (b_temperature l) (b_anisotropy l) v (b_rngA l) (b_posA l) (b_rngB l) (b_posB l).
Definition set_b_posA (v : nat) (l : blayer) : blayer :=
  BL (b_id l) (b_mag l) (b_anis l) (b_Ms l) (b_thickness l) (b_surface l) (b_volume l) (b_demag l) (b_damping l) (b_Tc l) (b_chi l) (b_me l) (b_aperp_log l) (b_apar_log l) (b_K_log l) (b_T_log l) (b_temperature l) (b_anisotropy l) (b_external l) (b_rngA l) v (b_rngB l) (b_posB l).
Definition set_b_posB (v : nat) (l : blayer) : blayer :=
  BL (b_id l) (b_mag l) (b_anis l) (b_Ms l) (b_thickness l) (b_surface l) (b_volume l) (b_demag l) (b_damping l) (b_Tc l) (b_chi l) (b_me l) (b_aperp_log l) (b_apar_log l) (b_K_log l) (b_T_log l) (b_temperature l) (b_anisotropy l) (b_external l) (b_rngA l) (b_posA l) (b_rngB l) v.

(** core/llgb.hpp:86-104.  The two alpha logs are left uninitialised by the constructor (0 here);
    every step writes them before anything reads them. *)
Definition LLGBLayer (rngA rngB : nat -> R) (id : string) (mag anis : cvec)
    (Ms thickness surface : R) (demag : tensor) (damping Tc susceptibility me : R) : result blayer :=
  let volume := surface * thickness in
  if Req_EM_T volume 0 then Err (Throw "The volume of the LLGB layer cannot be 0!")
  else if Req_EM_T (vlength mag) 0 then Err (Throw "Initial magnetisation was set to a zero vector!")
  else if Req_EM_T (vlength anis) 0 then Err (Throw "Anisotropy was set to a zero vector!")
  else Ok (BL id mag anis Ms thickness surface volume demag damping Tc susceptibility me
              0 0 0 0 default_driver default_driver null_axial rngA 0 rngB 0).

(** core/llgb.hpp:106-110 *)
Definition getAlphaParallel (time : R) : ST blayer R :=
  l <- get ;;
  temp <- lift (getCurrentScalarValue (b_temperature l) time) ;;
  r <- lift (fdiv temp (b_Tc l)) ;;
  let v := b_damping l * r * (2 / 3) in
  modify (set_b_apar_log v) ;;; ret v.
(** core/llgb.hpp:112-121 *)
Definition getAlphaPerpendicular (time : R) : ST blayer R :=
  l <- get ;;
  temp <- lift (getCurrentScalarValue (b_temperature l) time) ;;
  ratio <- lift (fdiv temp (b_Tc l)) ;;
  let v := if Rle_dec (b_Tc l) temp then b_damping l * ratio * (2 / 3)
           else b_damping l * (1 - ratio * (1 / 3)) in
  modify (set_b_aperp_log v) ;;; ret v.
(** core/llgb.hpp:123-138  ([ratio_T_adj], 132, is never used). *)
Definition getLongitudinal (time : R) (m : cvec) : ST blayer cvec :=
  l <- get ;;
  temp <- lift (getCurrentScalarValue (b_temperature l) time) ;;
  ratio_susc <- lift (fdiv 1 (2 * b_chi l)) ;;
  let m2 := vlength m ^ 2 in
  if Rle_dec temp (b_Tc l) then
    ratio_m <- lift (fdiv m2 (b_me l ^ 2)) ;;
    ret (vscale m (ratio_susc * (1 - ratio_m)))
  else
    q <- lift (fdiv (b_Tc l) (temp - b_Tc l)) ;;
    let ration_T_alt := 1 + 3 / 5 * q * m2 in
    s <- lift (fdiv 1 (b_chi l)) ;;
    ret (vscale m (- s * ration_T_alt)).
(** core/llgb.hpp:140-143  (not called by anything). *)
Definition getAnisotropyField (time : R) (m : cvec) : ST blayer cvec :=
  l <- get ;;
  k <- lift (getCurrentScalarValue (b_anisotropy l) time) ;;
  q <- lift (fdiv (-1) k) ;;
  ret (vscale (CV (cx m) (cy m) 0) q).
(** core/llgb.hpp:145-149 *)
Definition b_calculateAnisotropy (stepMag : cvec) (time : R) : ST blayer cvec :=
  l <- get ;;
  k <- lift (getCurrentScalarValue (b_anisotropy l) time) ;;
  modify (set_b_K_log k) ;;;
  ret (vscale (b_anis l) (k * c_dot (b_anis l) stepMag)).
(** core/llgb.hpp:151-159 *)
Definition b_calculateHeff (time : R) (m : cvec) : ST blayer cvec :=
  anisotropy <- b_calculateAnisotropy m time ;;
  l <- get ;;
  hext <- lift (getCurrentAxialDrivers (b_external l) time) ;;
  longField <- getLongitudinal time m ;;
  ret (vadd (vadd anisotropy hext) longField).
(** core/llgb.hpp:167-179 *)
Definition b_solveLLG (time timeStep : R) (m heff : cvec) : ST blayer cvec :=
  l <- get ;;
  temp <- lift (getCurrentScalarValue (b_temperature l) time) ;;
  modify (set_b_T_log temp) ;;;
  let mxh := c_cross m heff in
  let mxmxh := c_cross m mxh in
  let llbTerm := vscale m (c_dot m heff) in
  inv <- lift (fdiv 1 (vlength m)) ;;
  let inv_mlen := inv ^ 2 in
  gamma_p <- lift (fdiv GYRO (1 + b_damping l ^ 2)) ;;
  aperp <- getAlphaPerpendicular time ;;
  apar <- getAlphaParallel time ;;
  let dmdt := vadd (vsub (vscale mxh (-1)) (vscale (vscale mxmxh aperp) inv_mlen))
                   (vscale (vscale llbTerm apar) inv_mlen) in
  ret (vscale dmdt gamma_p).
(** core/llgb.hpp:161-165 *)
Definition b_calculateLLG (time timeStep : R) (m : cvec) : ST blayer cvec :=
  heff <- b_calculateHeff time m ;; b_solveLLG time timeStep m heff.

(** [CVector<T>(distribution)]: three draws, x first. *)
Definition drawA : ST blayer cvec :=
  l <- get ;;
  let p := b_posA l in
  modify (set_b_posA (p + 3)%nat) ;;;
  ret (CV (b_rngA l p) (b_rngA l (p + 1)%nat) (b_rngA l (p + 2)%nat)).
Definition drawB : ST blayer cvec :=
  l <- get ;;
  let p := b_posB l in
  modify (set_b_posB (p + 3)%nat) ;;;
  ret (CV (b_rngB l p) (b_rngB l (p + 1)%nat) (b_rngB l (p + 2)%nat)).
(** core/llgb.hpp:181-189 *)
Definition nonadiabaticThermalField (time timestep : R) : ST blayer cvec :=
  l <- get ;;
  temp <- lift (getCurrentScalarValue (b_temperature l) time) ;;
  aperp <- getAlphaPerpendicular time ;;
  apar <- getAlphaParallel time ;;
  aperp' <- getAlphaPerpendicular time ;;
  varianceDev <- lift (fdiv (2 * BOLTZMANN_CONST * temp * (aperp - apar))
                            (b_volume l * b_Ms l * GYRO * aperp' ^ 2)) ;;
  s <- lift (fsqrt varianceDev) ;;
  v <- drawA ;;
  ret (vscale v (0 * s)).
(** core/llgb.hpp:191-198 *)
Definition adiabaticThermalField (time timestep : R) : ST blayer cvec :=
  l <- get ;;
  temp <- lift (getCurrentScalarValue (b_temperature l) time) ;;
  apar <- getAlphaParallel time ;;
  varianceDev <- lift (fdiv (2 * BOLTZMANN_CONST * temp * apar) (GYRO * b_volume l * b_Ms l)) ;;
  s <- lift (fsqrt varianceDev) ;;
  v <- drawB ;;
  ret (vscale v (0 * s)).
(** core/llgb.hpp:200-218 *)
Definition b_stochasticTorque (m : cvec) (time : R) (nonAdiabatic adiabatic : cvec) : ST blayer cvec :=
  l <- get ;;
  inv <- lift (fdiv 1 (vlength m)) ;;
  let inv_mlen := inv ^ 2 in
  gamma_p <- lift (fdiv GYRO (1 + b_damping l ^ 2)) ;;
  let nonAdiabaticTerm := c_cross m (c_cross m nonAdiabatic) in
  aperp <- getAlphaPerpendicular time ;;
  ret (vadd (vscale nonAdiabaticTerm (- gamma_p * inv_mlen * aperp)) (vscale adiabatic gamma_p)).
(** core/llgb.hpp:220-238  (not called by anything). *)
Definition stochasticTorqueOld (m : cvec) (time : R) (nonAdiabatic adiabatic : cvec) : ST blayer cvec :=
  l <- get ;;
  inv <- lift (fdiv 1 (vlength m)) ;;
  let inv_mlen := inv ^ 2 in
  gamma_p <- lift (fdiv GYRO (1 + b_damping l ^ 2)) ;;
  let nonAdiabaticTerm := c_cross m (c_cross m nonAdiabatic) in
  let adiabaticTerm := vscale m (c_dot m adiabatic) in
  apar <- getAlphaParallel time ;;
  aperp <- getAlphaPerpendicular time ;;
  ret (vscale (vsub (vscale adiabaticTerm apar) (vscale nonAdiabaticTerm aperp)) (gamma_p * inv_mlen)).

(** ** Junctions *)

(** core/llgb.hpp:261-274 *)
Record bjunction := BJ { bj_layers : list blayer; bj_log : log_t; bj_logLength : nat; bj_time : R }.
Definition set_bj_layers ls (j : bjunction) := BJ ls (bj_log j) (bj_logLength j) (bj_time j).
Definition set_bj_log g n (j : bjunction) := BJ (bj_layers j) g n (bj_time j).
Definition set_bj_time t (j : bjunction) := BJ (bj_layers j) (bj_log j) (bj_logLength j) t.
Definition LLGBJunction (ls : list blayer) : bjunction := BJ ls [] 0 0.

(** core/llgb.hpp:279-306, 320-348: the five setters share the loop; none of the members throws. *)
Fixpoint b_setter_loop (layerID : string) (f : blayer -> blayer) (ls : list blayer) : list blayer * bool :=
  match ls with
  | [] => ([], false)
  | l :: rest =>
      let r := b_setter_loop layerID f rest in
      if String.eqb (b_id l) layerID || String.eqb layerID "all" then (f l :: fst r, true)
      else (l :: fst r, snd r)
  end.
Definition b_layerSetter (layerID : string) (f : blayer -> blayer) : ST bjunction unit :=
  fun j =>
    match b_setter_loop layerID f (bj_layers j) with
    | (ls, true) => (set_bj_layers ls j, Ok tt)
    | (ls, false) => (set_bj_layers ls j, Err (Throw "Failed to find a layer with a given id"))
    end.
(** core/llgb.hpp:242-258, 307-348 *)
Definition b_setLayerTemperatureDriver id d := b_layerSetter id (set_b_temperature d).
Definition b_setLayerExternalFieldDriver id d := b_layerSetter id (set_b_external d).
Definition b_setLayerAnisotropyDriver id d := b_layerSetter id (set_b_anisotropy d).
Definition b_setLayerEquilibriumMagnetisation id v := b_layerSetter id (set_b_me v).
Definition b_setLayerSusceptibility id v := b_layerSetter id (set_b_chi v).

(** A loop running one computation per layer and collecting what it returns. *)
Fixpoint b_each {A B} (f : A -> ST blayer B) (xs : list A) (ls : list blayer) : list blayer * result (list B) :=
  match ls, xs with
  | l :: rest, x :: xs' =>
      match f x l with
      | (l', Err e) => (l' :: rest, Err e)
      | (l', Ok y) =>
          match b_each f xs' rest with
          | (rest', Err e) => (l' :: rest', Err e)
          | (rest', Ok ys) => (l' :: rest', Ok (y :: ys))
          end
      end
  | _, _ => (ls, Ok [])
  end.
(** What the first loop of the Heun step keeps per layer (core/llgb.hpp:367-371). *)
Record b_stage := BS { bs_fn : cvec; bs_gn : cvec; bs_nonAd : cvec; bs_ad : cvec; bs_mNext : cvec }.
(** core/llgb.hpp:379-391 *)
Definition b_heun_first (t timeStep : R) (_ : unit) : ST blayer b_stage :=
  l <- get ;;
  fn <- b_calculateLLG t timeStep (b_mag l) ;;
  nonAd <- nonadiabaticThermalField t timeStep ;;
  ad <- adiabaticThermalField t timeStep ;;
  gn <- b_stochasticTorque (b_mag l) t nonAd ad ;;
  s <- lift (fsqrt timeStep) ;;
  ret (BS fn gn nonAd ad (vadd (vadd (b_mag l) (vscale fn timeStep)) (vscale gn s))).
(** core/llgb.hpp:393-403 *)
Definition b_heun_second (t timeStep : R) (h : b_stage) : ST blayer unit :=
  l <- get ;;
  f2 <- b_calculateLLG (t + timeStep) timeStep (bs_mNext h) ;;
  g2 <- b_stochasticTorque (bs_mNext h) (t + timeStep) (bs_nonAd h) (bs_ad h) ;;
  s <- lift (fsqrt timeStep) ;;
  modify (set_b_mag (vadd (vadd (b_mag l) (vscale (vadd (bs_fn h) f2) (1 / 2 * timeStep)))
                          (vscale (vscale (vadd (bs_gn h) g2) (1 / 2)) s))).
(** core/llgb.hpp:350-404 *)
Definition b_heunSolverStep (t timeStep : R) : ST bjunction unit :=
  fun j =>
    match b_each (b_heun_first t timeStep) (map (fun _ => tt) (bj_layers j)) (bj_layers j) with
    | (ls, Err e) => (set_bj_layers ls j, Err e)
    | (ls, Ok hs) =>
        match b_each (b_heun_second t timeStep) hs ls with
        | (ls', Err e) => (set_bj_layers ls' j, Err e)
        | (ls', Ok _) => (set_bj_layers ls' j, Ok tt)
        end
    end.
(** core/llgb.hpp:417-440 *)
Definition b_eulerHeun_first (t timeStep : R) (_ : unit) : ST blayer cvec :=
  l <- get ;;
  nonAd <- nonadiabaticThermalField t timeStep ;;
  ad <- adiabaticThermalField t timeStep ;;
  fn <- b_calculateLLG t timeStep (b_mag l) ;;
  gn <- b_stochasticTorque (b_mag l) t nonAd ad ;;
  s <- lift (fsqrt timeStep) ;;
  let mNext := vadd (b_mag l) (vscale gn s) in
  gn' <- b_stochasticTorque mNext (t + timeStep) nonAd ad ;;
  ret (vadd (vadd (b_mag l) (vscale fn timeStep)) (vscale (vscale (vadd gn gn') (1 / 2)) s)).
(** core/llgb.hpp:442-445 *)
Definition b_eulerHeun_second (m : cvec) : ST blayer unit := modify (set_b_mag m).
(** core/llgb.hpp:405-446 *)
Definition b_eulerHeunSolverStep (t timeStep : R) : ST bjunction unit :=
  fun j =>
    match b_each (b_eulerHeun_first t timeStep) (map (fun _ => tt) (bj_layers j)) (bj_layers j) with
    | (ls, Err e) => (set_bj_layers ls j, Err e)
    | (ls, Ok ms) =>
        match b_each b_eulerHeun_second ms ls with
        | (ls', Err e) => (set_bj_layers ls' j, Err e)
        | (ls', Ok _) => (set_bj_layers ls' j, Ok tt)
        end
    end.

(** core/llgb.hpp:448-458 *)
Definition b_getSolver (mode : solver_mode) : result (R -> R -> ST bjunction unit) :=
  match mode with
  | HEUN => Ok b_heunSolverStep
  | EULER_HEUN => Ok b_eulerHeunSolverStep
  | _ => Err (Throw "The solver mode is not supported!")
  end.

(** core/llgb.hpp:468-485 *)
Definition b_log_layer (g : log_t) (l : blayer) : log_t :=
  let k s := (b_id l ++ "_" ++ s)%string in
  let g := push_vec (k "m"%string) (b_mag l) g in
  let g := log_push (k "alpha_parallel"%string) (b_apar_log l) g in
  let g := log_push (k "alpha_perpendicular"%string) (b_aperp_log l) g in
  let g := log_push (k "K"%string) (b_K_log l) g in
  let g := log_push (k "T"%string) (b_T_log l) g in
  let g := log_push (k "me"%string) (b_me l) g in
  log_push (k "Xpar"%string) (b_chi l) g.
Definition b_logLayerParams (t timeStep : R) : ST bjunction unit :=
  fun j => (set_bj_log (log_push "time" t (fold_left b_log_layer (bj_layers j) (bj_log j)))
                       (S (bj_logLength j)) j, Ok tt).
(** core/llgb.hpp:487-505 *)
Definition b_saveLogs (j : bjunction) (filename : string) : result (list string * list (list R)) :=
  if String.eqb filename "" then Err (Throw "The filename may not be empty!")
  else rows <-- save_rows (bj_logLength j) 0 (bj_log j) ;; Ok (map fst (bj_log j), rows).
(** core/llgb.hpp:510-514 *)
Definition b_clearLog : ST bjunction unit := fun j => (BJ (bj_layers j) [] 0 0, Ok tt).

(** core/llgb.hpp:546-553  [n] iterations from counter [i]; [i % 0] is undefined. *)
Fixpoint b_sim_loop (runner : R -> R -> ST bjunction unit) (timeStep : R) (writeEvery n i : nat)
  : ST bjunction unit :=
  match n with
  | O => ret tt
  | S n' =>
      modify (fun j => set_bj_time (bj_time j + timeStep) j) ;;;
      j <- get ;;
      runner (bj_time j) timeStep ;;;
      (if Nat.eqb writeEvery 0 then fail Undefined
       else if Nat.eqb (i mod writeEvery) 0 then b_logLayerParams (bj_time j) timeStep
       else ret tt) ;;;
      b_sim_loop runner timeStep writeEvery n' (S i)
  end.
(** core/llgb.hpp:531-564  (timing printouts omitted). *)
Definition b_runSimulation (totalTime timeStep writeFrequency : R) (mode : solver_mode)
  : ST bjunction unit :=
  if Rlt_dec writeFrequency timeStep then
    fail (Throw "The time step cannot be larger than write frequency!")
  else
    q1 <- lift (fdiv totalTime timeStep) ;;
    totalIterations <- lift (int_as_unsigned q1) ;;
    q2 <- lift (fdiv writeFrequency timeStep) ;;
    writeEvery <- lift (int_as_unsigned q2) ;;
    runner <- lift (b_getSolver mode) ;;
    b_sim_loop runner timeStep writeEvery totalIterations 0.
