(** Model of the Smit-Beljers solver (cmtj/models/general_sb.py): symbolic energy, hessian, gradient
    descent, single-layer resonance, spherical LLG equation, field scan.  Caching (lru_cache) only avoids
    recomputation and is not represented.  numpy.linalg and sympy.solve are arguments. *)
From Verif Require Export M_Sym M_Geom M_Resist.
From Coq Require Import String.
Open Scope R_scope.
Open Scope st_scope.

(** cmtj/utils/__init__.py:20-27 *)
Definition mu0 : R := 12566 / 10 ^ 10.
Definition gamma : R := 28024 * 10 ^ 6.
Definition gamma_rad : R := 176 * 10 ^ 9.

(** ** Layers *)
(** general_sb.py:264-268 *)
Record dynamics := Dynamics { dy_alpha : R; dy_torque_par : R; dy_torque_perp : R }.
(** general_sb.py:152-170; [sb_dyn] is set for a LayerDynamic. *)
Record layerSB := LayerSB {
  sb_id : nat; sb_thickness : R; sb_Kv : vectorObj; sb_Ks : R; sb_Ms : R;
  sb_Hdmi : option vectorObj; sb_Ndemag : vectorObj; sb_dyn : option dynamics }.
(** general_sb.py:172-189 *)
Definition newLayerSB (i : nat) (thickness : R) (Kv : vectorObj) (Ks Ms : R) (Hdmi : option vectorObj) (Ndemag : vectorObj) (dyn : option dynamics) : result layerSB :=
  if Nat.ltb 9 i then Err (Throw "Only up to 10 layers supported.")
  else Ok (LayerSB i thickness Kv Ks Ms Hdmi Ndemag dyn).
Definition cart (v : cvec) : svec := SV (ENum (cx v)) (ENum (cy v)) (ENum (cz v)).
Definition sb_theta (l : layerSB) : symbol := Theta (sb_id l).
Definition sb_phi (l : layerSB) : symbol := Phi (sb_id l).
Definition sb_m (l : layerSB) : svec :=
  SV (EMul (ESin (ESym (sb_theta l))) (ECos (ESym (sb_phi l)))) (EMul (ESin (ESym (sb_theta l))) (ESin (ESym (sb_phi l)))) (ECos (ESym (sb_theta l))).
Definition sb_hdmi (l : layerSB) : svec :=
  match sb_Hdmi l with None => SV (ENum 0) (ENum 0) (ENum 0) | Some v => cart (get_cartesian v) end.
(** general_sb.py:229-245 *)
Definition no_interaction_symbolic_energy (l : layerSB) (H : svec) : sexpr :=
  let m := sb_m l in
  let alpha := SV (ENum (cos (vo_phi (sb_Kv l)))) (ENum (sin (vo_phi (sb_Kv l)))) (ENum 0) in
  let field_energy := EMul (ENum (- mu0 * sb_Ms l)) (sdot m H) in
  let hdmi_energy := EMul (ENum (- mu0 * sb_Ms l)) (sdot m (sb_hdmi l)) in
  let surface_anisotropy := EMul (ENum (- sb_Ks l)) (ESq (sz m)) in
  let volume_anisotropy := EMul (ENum (- vo_mag (sb_Kv l))) (ESq (sdot m alpha)) in
  let m_2 := SV (ESq (sx m)) (ESq (sy m)) (ESq (sz m)) in
  let demagnetisation_energy := EMul (ENum (1 / 2 * mu0 * (sb_Ms l) ^ 2)) (sdot m_2 (cart (get_cartesian (sb_Ndemag l)))) in
  EAdd (EAdd (EAdd (EAdd field_energy surface_anisotropy) volume_anisotropy) hdmi_energy) demagnetisation_energy.
(** general_sb.py:200-227 *)
Definition iec_energy (l : layerSB) (J1 J2 : R) (other : option layerSB) : sexpr :=
  match other with
  | None => ENum 0
  | Some o => let mdot := sdot (sb_m l) (sb_m o) in ESub (EMul (ENum (- J1)) mdot) (EMul (ENum J2) (ESq mdot))
  end.
Definition total_symbolic_layer_energy (l : layerSB) (H : svec) (J1top J1bottom J2top J2bottom : R) (top_layer down_layer : option layerSB) : sexpr :=
  let eng_non_interaction := EMul (no_interaction_symbolic_energy l H) (ENum (sb_thickness l)) in
  EAdd (EAdd eng_non_interaction (iec_energy l J1top J2top top_layer)) (iec_energy l J1bottom J2bottom down_layer).
(** general_sb.py:247-249 *)
Definition sb_correction (l : layerSB) : sexpr :=
  EMul (EMul (EMul (EDiv (ESym Omega) (ENum gamma)) (ENum (sb_Ms l))) (ESin (ESym (sb_theta l)))) (ENum (sb_thickness l)).

(** ** Solver *)
Record solver := Solver {
  sv_layers : list layerSB; sv_J1 : list R; sv_J2 : list R; sv_H : option vectorObj;
  sv_ilD : list cvec; sv_dipole : option (list tensor) }.
Definition set_H (H : vectorObj) (s : solver) : solver := Solver (sv_layers s) (sv_J1 s) (sv_J2 s) (Some H) (sv_ilD s) (sv_dipole s).
(** general_sb.py:343-366  A dipole tensor is three VectorObj, its rows. *)
Definition tensor_of (d : vectorObj * vectorObj * vectorObj) : tensor :=
  let '(a, b, c) := d in Ten (get_cartesian a) (get_cartesian b) (get_cartesian c).
Definition newSolver (layers : list layerSB) (J1 J2 : list R) (H : option vectorObj) (ilD : option (list vectorObj))
    (Ndipole : option (list (vectorObj * vectorObj * vectorObj))) : result solver :=
  let n := List.length layers in
  if negb (Nat.eqb n (List.length J1 + 1)) then Err (Throw "Number of layers must be 1 more than J1.")
  else if negb (Nat.eqb n (List.length J2 + 1)) then Err (Throw "Number of layers must be 1 more than J2.")
  else
    let il := match ilD with None => repeat (VO 0 0 0) (n - 1) | Some d => d end in
    if negb (Nat.eqb n (List.length il + 1)) then Err (Throw "Number of layers must be 1 more than ilD.")
    else
      _ <-- match Ndipole with
            | Some d => if negb (Nat.eqb n (List.length d + 1)) then Err (Throw "Number of layers must be 1 more than number of tensors.") else Ok tt
            | None => Ok tt
            end ;;
      if forallb (fun l => Nat.ltb (sb_id l) n) layers && forallb (fun i => existsb (fun l => Nat.eqb (sb_id l) i) layers) (seq 0 n)
      then Ok (Solver layers J1 J2 H (map get_cartesian il) (option_map (map tensor_of) Ndipole))
      else Err (Throw "Layer ids must be 0, 1, 2, ... and unique.").

(** general_sb.py:368-382  The layers above and below and the constants to them. *)
Definition get_layer_references (s : solver) (i : nat) (constants : list R) : result (option layerSB * option layerSB * R * R) :=
  let n := List.length (sv_layers s) in
  if Nat.eqb n 1 then Ok (None, None, 0, 0)
  else if Nat.eqb i 0 then
    l <-- at_ (sv_layers s) (i + 1) ;; c <-- at_ constants 0 ;; Ok (None, Some l, 0, c)
  else if Nat.eqb i (n - 1) then
    l <-- at_ (sv_layers s) (i - 1) ;; c <-- at_ constants (List.length constants - 1) ;; Ok (Some l, None, c, 0)
  else
    u <-- at_ (sv_layers s) (i - 1) ;; d <-- at_ (sv_layers s) (i + 1) ;;
    a <-- at_ constants (i - 1) ;; b <-- at_ constants i ;; Ok (Some u, Some d, a, b).

(** general_sb.py:417-448  one pair of neighbours; the lists have one entry per pair by construction. *)
Definition mat_sym (t : tensor) (v : svec) : svec := SV (sdot (cart (row0 t)) v) (sdot (cart (row1 t)) v) (sdot (cart (row2 t)) v).
Definition pair_energy (s : solver) (energy : sexpr) (i : nat) : sexpr :=
  let d := LayerSB 0 0 (VO 0 0 0) 0 0 None (VO 0 0 0) None in
  let la := nth i (sv_layers s) d in
  let lb := nth (i + 1) (sv_layers s) d in
  let l1m := sb_m la in
  let l2m := sb_m lb in
  let ldot := sdot l1m l2m in
  let energy := ESub energy (EMul (ENum (nth i (sv_J1 s) 0)) ldot) in
  let energy := ESub energy (EMul (ENum (nth i (sv_J2 s) 0)) (ESq ldot)) in
  let lcross := scross l1m l2m in
  let energy := ESub energy (sdot (cart (nth i (sv_ilD s) vnull)) lcross) in
  match sv_dipole s with
  | None => energy
  | Some ds =>
      let mat := nth i ds null_tensor in
      let energy := EAdd energy (EMul (ENum (mu0 / 2 * sb_Ms la * sb_Ms lb * sb_thickness la)) (sdot l1m (mat_sym mat l2m))) in
      EAdd energy (EMul (ENum (mu0 / 2 * sb_Ms la * sb_Ms lb * sb_thickness lb)) (sdot l2m (mat_sym mat l1m)))
  end.
(** general_sb.py:399-449  [volumetric] is not used. *)
Definition create_energy (s : solver) (H : option svec) (volumetric : bool) : result sexpr :=
  h <-- match H with
        | Some h => Ok h
        | None => match sv_H s with Some v => Ok (cart (get_cartesian v)) | None => Err (Throw "'NoneType' object has no attribute 'get_cartesian'") end
        end ;;
  let energy := fold_left (fun e l => EAdd e (EMul (no_interaction_symbolic_energy l h) (ENum (sb_thickness l)))) (sv_layers s) (ENum 0) in
  Ok (fold_left (pair_energy s) (seq 0 (List.length (sv_layers s) - 1)) energy).

(** ** Hessian *)
(** Entries: real and imaginary part. *)
Definition smatrix := nat -> nat -> sexpr * sexpr.
Definition put (r c : nat) (e : sexpr * sexpr) (h : smatrix) : smatrix := fun i j => if Nat.eqb i r && Nat.eqb j c then e else h i j.
Definition real (e : sexpr) : sexpr * sexpr := (e, ENum 0).
(** general_sb.py:66-108 and 453-484: the loops of both functions, with the correction [z i]. *)
Definition hessian_pair (th ph : nat -> symbol) (z : nat -> sexpr) (E : sexpr) (i j : nat) (h : smatrix) : smatrix :=
  let expr := diff (diff E (th i)) (th j) in
  let h := put (2 * i) (2 * j) (real expr) h in
  let h := put (2 * j) (2 * i) (real expr) h in
  let expr := diff (diff E (ph i)) (ph j) in
  let h := put (2 * i + 1) (2 * j + 1) (real expr) h in
  let h := put (2 * j + 1) (2 * i + 1) (real expr) h in
  let expr := diff (diff E (th i)) (ph j) in
  if Nat.eqb i j then
    let h := put (2 * i + 1) (2 * j) (expr, z i) h in
    put (2 * i) (2 * j + 1) (expr, ENeg (z i)) h
  else
    let h := put (2 * i) (2 * j + 1) (real expr) h in
    let h := put (2 * j + 1) (2 * i) (real expr) h in
    let expr := diff (diff E (ph i)) (th j) in
    let h := put (2 * i + 1) (2 * j) (real expr) h in
    put (2 * j) (2 * i + 1) (real expr) h.
Definition hessian_loop (th ph : nat -> symbol) (z : nat -> sexpr) (E : sexpr) (N : nat) : smatrix :=
  fold_left (fun h i => fold_left (fun h j => hessian_pair th ph z E i j h) (seq i (N - i)) h) (seq 0 N) (fun _ _ => real (ENum 0)).
(** general_sb.py:57-108 *)
Definition get_hessian_from_energy_expr (N : nat) (E : sexpr) : smatrix :=
  hessian_loop Theta Phi (fun i => EMul (EMul (EMul (ESym Omega) (ESym (SymMs i))) (ESin (ESym (Theta i)))) (ESym (SymT i))) E N.
(** general_sb.py:451-485  up to the determinant *)
Definition the_layer (s : solver) (i : nat) : layerSB := nth i (sv_layers s) (LayerSB 0 0 (VO 0 0 0) 0 0 None (VO 0 0 0) None).
Definition energy_hessian (s : solver) : result smatrix :=
  energy <-- create_energy s None false ;;
  Ok (hessian_loop (fun i => sb_theta (the_layer s i)) (fun i => sb_phi (the_layer s i)) (fun i => sb_correction (the_layer s i)) energy (List.length (sv_layers s))).

(** ** Values at a position *)
Definition assign (sy : symbol) (x : R) (rho : symbol -> R) : symbol -> R := fun u => if symbol_eq_dec u sy then x else rho u.
(** general_sb.py:726-733; symbols outside the dictionary do not occur (0). *)
Fixpoint get_subs (ls : list layerSB) (pos : list R) (rho : symbol -> R) : result (symbol -> R) :=
  match ls with
  | [] => Ok rho
  | l :: ls =>
      match pos with
      | t :: p :: pos => get_subs ls pos (assign (sb_phi l) p (assign (sb_theta l) t rho))
      | _ => Err (Throw "list index out of range")
      end
  end.
Definition nothing : symbol -> R := fun _ => 0.
(** general_sb.py:490-499  the lambdified gradient *)
Definition gradient_exprs (s : solver) (E : sexpr) : list sexpr :=
  flat_map (fun l => [diff E (sb_theta l); diff E (sb_phi l)]) (sv_layers s).
Definition gradfn (s : solver) (pos : list R) : result (list R) :=
  energy <-- create_energy s None false ;;
  if negb (Nat.eqb (List.length pos) (2 * List.length (sv_layers s))) then Err (Throw "wrong number of positional arguments")
  else
    rho <-- get_subs (sv_layers s) pos nothing ;;
    Ok (map (eval rho) (gradient_exprs s energy)).

(** ** Gradient descent *)
Definition map2 {A B C} (f : A -> B -> C) (a : list A) (b : list B) : list C := map (fun p => f (fst p) (snd p)) (combine a b).
(** general_sb.py:30-36 *)
Definition fast_norm (x : list R) : R := sqrt (fold_left (fun a y => a + y ^ 2) x 0).
Fixpoint all_ok {A} (l : list (result A)) : result (list A) :=
  match l with [] => Ok [] | r :: l => a <-- r ;; rest <-- all_ok l ;; Ok (a :: rest) end.
Record descent_params := DP { dp_tol : R; dp_rate : R; dp_b1 : R; dp_b2 : R }.
(** [np.sqrt] *)
Definition np_sqrt (x : R) : result R := if Rlt_dec x 0 then Err NonFinite else Ok (sqrt x).
Definition grad_eps : R := / 10 ^ 12.
(** general_sb.py:532-536  one coordinate *)
Definition adam_shift (p : descent_params) (step : nat) (m v : R) : result R :=
  m_hat <-- fdiv m (1 - dp_b1 p ^ step) ;;
  v_hat <-- fdiv v (1 - dp_b2 p ^ step) ;;
  s <-- np_sqrt v_hat ;;
  fdiv (dp_rate p * m_hat) (s + grad_eps).
Definition moments (b : R) (m g : list R) : list R := map2 (fun x y => b * x + (1 - b) * y) m g.
(** general_sb.py:523-544; [more] iterations may still move on. *)
Fixpoint adam_loop (grad : list R -> result (list R)) (p : descent_params) (more step : nat) (pos m v : list R) : result (list R) :=
  g <-- grad pos ;;
  if negb (Nat.eqb (List.length g) (List.length pos)) then Err (Throw "operands could not be broadcast together")
  else
    let m := moments (dp_b1 p) m g in
    let v := moments (dp_b2 p) v (map (fun x => x ^ 2) g) in
    d <-- all_ok (map2 (adam_shift p step) m v) ;;
    let new := map2 Rminus pos d in
    match more with
    | O => Ok pos
    | S more => if Rlt_dec (fast_norm (map2 Rminus pos new)) (dp_tol p) then Ok pos else adam_loop grad p more (S step) new m v
    end.
Definition perturbed (perturbation : R) (noise init : list R) : list R := if Req_EM_T perturbation 0 then init else map2 Rplus init noise.
(** general_sb.py:501-544  [noise] are the draws of perturb_position. *)
Definition adam_gradient_descent (grad : list R -> result (list R)) (p : descent_params) (max_steps : Z) (perturbation : R) (noise init : list R) : result (list R) :=
  let start := perturbed perturbation noise init in
  adam_loop grad p (Z.to_nat max_steps) 1 start (map (fun _ => 0) start) (map (fun _ => 0) start).
(** general_sb.py:546-586 *)
Definition ams_shift (p : descent_params) (m v_hat : R) : result R :=
  s <-- np_sqrt v_hat ;; fdiv (dp_rate p * m) (s + grad_eps).
Fixpoint ams_loop (grad : list R -> result (list R)) (p : descent_params) (more : nat) (pos m v v_hat : list R) : result (list R) :=
  g <-- grad pos ;;
  if negb (Nat.eqb (List.length g) (List.length pos)) then Err (Throw "operands could not be broadcast together")
  else
    let m := moments (dp_b1 p) m g in
    let v := moments (dp_b2 p) v (map (fun x => x ^ 2) g) in
    let v_hat := map2 Rmax v_hat v in
    d <-- all_ok (map2 (ams_shift p) m v_hat) ;;
    let new := map2 Rminus pos d in
    match more with
    | O => Ok pos
    | S more => if Rlt_dec (fast_norm (map2 Rminus pos new)) (dp_tol p) then Ok pos else ams_loop grad p more new m v v_hat
    end.
Definition amsgrad_gradient_descent (grad : list R -> result (list R)) (p : descent_params) (max_steps : Z) (perturbation : R) (noise init : list R) : result (list R) :=
  let start := perturbed perturbation noise init in
  ams_loop grad p (Z.to_nat max_steps) start (map (fun _ => 0) start) (map (fun _ => 0) start) (map (fun _ => 0) start).

(** ** Resonance of one layer, general_sb.py:588-605 *)
Definition vareps : R := / 10 ^ 18.
Definition single_layer_resonance (s : solver) (layer_indx : nat) (eq_position : list R) : result R :=
  layer <-- at_ (sv_layers s) layer_indx ;;
  theta_eq <-- at_ eq_position (2 * layer_indx) ;;
  energy <-- create_energy s None true ;;
  rho <-- get_subs (sv_layers s) eq_position nothing ;;
  let d2Edtheta2 := eval rho (diff (diff energy (sb_theta layer)) (sb_theta layer)) in
  let d2Edphi2 := eval rho (diff (diff energy (sb_phi layer)) (sb_phi layer)) in
  let d2Edthetaphi := eval rho (diff (diff energy (sb_theta layer)) (sb_phi layer)) in
  fmr <-- fdiv (d2Edtheta2 * d2Edphi2 - d2Edthetaphi ^ 2) ((sin (theta_eq + vareps) * sb_Ms layer) ^ 2) ;;
  r <-- np_sqrt fmr ;;
  Ok (r * gamma_rad / (2 * PI)).

(** general_sb.py:607-671  [dyn] is dynamic_layer_solve, [num] num_solve. *)
Inductive solution (D : Type) := Frequencies (eq fs : list R) | Modes (eq : list R) (d : D).
Arguments Frequencies {D} eq fs.
Arguments Modes {D} eq d.
Definition solve {D} (dyn : solver -> list R -> result D) (num : solver -> list R -> result (list R)) (s : solver)
    (p : descent_params) (max_steps : Z) (perturbation : R) (noise init : list R) (force_single_layer force_sb : bool) : result (solution D) :=
  _ <-- match sv_H s with None => Err (Throw "H must be set before solving the system numerically.") | Some _ => Ok tt end ;;
  if negb (Nat.eqb (List.length init) (2 * List.length (sv_layers s))) then Err (Throw "Incorrect initial position size.")
  else
    eq <-- adam_gradient_descent (gradfn s) p max_steps perturbation noise init ;;
    first <-- at_ (sv_layers s) 0 ;;
    if negb force_sb && (match sb_dyn first with Some _ => true | None => false end) then
      d <-- dyn s eq ;; Ok (Modes eq d)
    else
      let N := List.length (sv_layers s) in
      if Nat.eqb N 1 then f <-- single_layer_resonance s 0 eq ;; Ok (Frequencies eq [f / 10 ^ 9])
      else if force_single_layer then
        fs <-- all_ok (map (fun i => f <-- single_layer_resonance s i eq ;; Ok (f / 10 ^ 9)) (seq 0 N)) ;; Ok (Frequencies eq fs)
      else fs <-- num s eq ;; Ok (Frequencies eq fs).

(** ** Spherical LLG equation *)
(** general_sb.py:301-312 *)
Definition torque (l : layerSB) (d : dynamics) (osc : bool) : sexpr * sexpr :=
  let V := if osc then ESym Vp else ENum 1 in
  let torque_ex_par := EMul (ENum (dy_torque_par d)) V in
  let torque_ex_perp := EMul (ENum (dy_torque_perp d)) V in
  (EMul (ESin (ESym (sb_theta l))) (ESub (ENeg torque_ex_par) (EMul (ENum (dy_alpha d)) torque_ex_perp)),
   EAdd (ENeg torque_ex_perp) (EMul (ENum (dy_alpha d)) torque_ex_par)).
(** general_sb.py:278-299 *)
Definition rhs_spherical_llg (l : layerSB) (d : dynamics) (U : sexpr) (osc : bool) : sexpr * sexpr :=
  let prefac := gamma_rad / (1 + dy_alpha d ^ 2) in
  let inv_sin := EInv (EAdd (ESin (ESym (sb_theta l))) (ENum EPS)) in
  let dUdtheta := diff U (sb_theta l) in
  let dUdphi := diff U (sb_phi l) in
  let H := if osc then ESym Hoe else ENum 0 in
  let dtheta := EAdd (ESub (ENeg (EMul inv_sin dUdphi)) (EMul (ENum (dy_alpha d)) dUdtheta)) (EMul (ENum (sb_Ms l)) H) in
  let dphi := EAdd (ESub (EMul inv_sin dUdtheta) (EMul (EMul (ENum (dy_alpha d)) dUdphi) (ESq inv_sin)))
                   (EMul (EMul (ENum (dy_alpha d * sb_Ms l)) H) inv_sin) in
  let t := torque l d osc in
  (EDiv (EMul (ENum prefac) (EAdd dtheta (fst t))) (ENum (sb_Ms l)), EDiv (EMul (ENum prefac) (EAdd dphi (snd t))) (ENum (sb_Ms l))).
Definition layer_rhs (U : sexpr) (osc : bool) (l : layerSB) : result (sexpr * sexpr) :=
  match sb_dyn l with
  | Some d => Ok (rhs_spherical_llg l d (EDiv U (ENum (sb_thickness l))) osc)
  | None => Err (Throw "'LayerSB' object has no attribute 'rhs_spherical_llg'")
  end.
(** general_sb.py:384-397  rows are the equations theta_0, phi_0, theta_1, ..., columns the same symbols. *)
Definition llg_symbols (s : solver) : list symbol := flat_map (fun l => [sb_theta l; sb_phi l]) (sv_layers s).
Definition compose_llg_jacobian (s : solver) (H : svec) : result (list (list sexpr) * list symbol) :=
  U <-- create_energy s (Some H) false ;;
  fns <-- all_ok (map (layer_rhs U false) (sv_layers s)) ;;
  Ok (map (fun f => map (diff f) (llg_symbols s)) (flat_map (fun f => [fst f; snd f]) fns), llg_symbols s).
(** general_sb.py:865-884  [omega] is the symbol or twice pi times the frequency. *)
Definition A_entry (rhs : sexpr) (sy : symbol) (af : R) : sexpr := EMul (ENeg (diff rhs sy)) (ENum af).
Definition A_pair (s : solver) (rhs : nat -> sexpr * sexpr) (af : nat -> R) (omega : sexpr) (i : nat) (h : smatrix) (j : nat) : smatrix :=
  let lj := the_layer s j in
  let h := put (2 * i) (2 * j) (real (A_entry (fst (rhs i)) (sb_theta lj) (af i))) h in
  let h := put (2 * i + 1) (2 * j + 1) (real (A_entry (snd (rhs i)) (sb_phi lj) (af i))) h in
  let h := put (2 * i) (2 * j + 1) (real (A_entry (fst (rhs i)) (sb_phi lj) (af i))) h in
  let h := put (2 * i + 1) (2 * j) (real (A_entry (snd (rhs i)) (sb_theta lj) (af i))) h in
  if Nat.eqb i j then
    let h := put (2 * i) (2 * j) (fst (h (2 * i)%nat (2 * j)%nat), EAdd (snd (h (2 * i)%nat (2 * j)%nat)) (EMul (ENum (af i)) omega)) h in
    put (2 * i + 1) (2 * j + 1) (fst (h (2 * i + 1)%nat (2 * j + 1)%nat), EAdd (snd (h (2 * i + 1)%nat (2 * j + 1)%nat)) (EMul (ENum (af i)) omega)) h
  else h.
Definition compute_A_and_V (s : solver) (Vdc : symbol) (H : svec) (frequency : option R) : result (smatrix * list sexpr) :=
  U <-- create_energy s (Some H) false ;;
  let omega := match frequency with None => ESym Omega | Some f => ENum (2 * PI * f) end in
  rhs <-- all_ok (map (layer_rhs U true) (sv_layers s)) ;;
  let n := List.length (sv_layers s) in
  let af := fun i => match sb_dyn (the_layer s i) with Some d => 1 + dy_alpha d ^ 2 | None => 0 end in
  let r := fun i => nth i rhs (ENum 0, ENum 0) in
  let A := fold_left (fun h i => fold_left (A_pair s r af omega i) (seq 0 n) h) (seq 0 n) (fun _ _ => real (ENum 0)) in
  Ok (A, flat_map (fun f => [diff (fst f) Vdc; diff (snd f) Vdc]) rhs).

(** ** Linearised response, general_sb.py:805-862 and 886-938 *)
(** [inv] is numpy.linalg.inv of a square matrix of complex numbers. *)
Definition cmatrix := nat -> nat -> R * R.
Definition times (a b : R * R) : R * R := (fst a * fst b - snd a * snd b, fst a * snd b + snd a * fst b).
Fixpoint csum (n : nat) (f : nat -> R * R) : R * R :=
  match n with O => (0, 0) | S k => (fst (csum k f) + fst (f k), snd (csum k f) + snd (f k)) end.
Definition is_dynamic (l : layerSB) : bool := match sb_dyn l with Some _ => true | None => false end.
Definition excitation_subs (var : symbol) (value frequency : R) (H : cvec) : symbol -> R :=
  assign var value (assign Hz (cz H) (assign Hy (cy H) (assign Hx (cx H) (assign Omega (2 * PI * frequency) (assign Vp 0 (assign Hoe 0 nothing)))))).
Definition linearised_N_spin_diode (inv : nat -> cmatrix -> result cmatrix) (s : solver) (H : vectorObj) (frequency : R) (var : symbol) (value : R)
    (zero_pos : list R) (phase_shift : R) (cache_var : string) : result (list R) :=
  if negb (forallb is_dynamic (sv_layers s)) then Err (Throw "Linearised N-spin diode only works with LayerDynamic.")
  else
    let f := if String.eqb cache_var "H" then Some frequency else None in
    let h := if String.eqb cache_var "H" then SV (ESym Hx) (ESym Hy) (ESym Hz)
             else if String.eqb cache_var "f" then cart (get_cartesian H) else SV (ESym Hx) (ESym Hy) (ESym Hz) in
    AV <-- compute_A_and_V s var h f ;;
    let '(A, V) := AV in
    match f with
    | None => Err (Throw "unsupported operand type(s) for *: 'Mul' and 'NoneType'")
    | Some f =>
        rho <-- get_subs (sv_layers s) zero_pos (excitation_subs var value f (get_cartesian H)) ;;
        let n := (2 * List.length (sv_layers s))%nat in
        if forallb (fun r => forallb (fun c => finite rho (fst (A r c)) && finite rho (snd (A r c))) (seq 0 n)) (seq 0 n) && forallb (finite rho) V then
          B <-- inv n (fun r c => (eval rho (fst (A r c)), eval rho (snd (A r c)))) ;;
          Ok (map (fun r => fst (times (csum n (fun c => times (B r c) (eval rho (nth c V (ENum 0)), 0))) (cos phase_shift, sin phase_shift))) (seq 0 n))
        else Err NonFinite
    end.

(** ** Field scan, general_sb.py:745-803 *)
(** Fields are objects in a heap, [Hrange] refers to them.  [descend] is the gradient descent in a field from a
    position, [roots] the analytical roots at an equilibrium. *)
Fixpoint scan_loop (descend : solver -> list R -> result (list R)) (roots : list R -> vectorObj -> result (list R))
    (heap : list vectorObj) (Hrange : list nat) (s : solver) (pos : list R) : result (solver * list (list R * list R * vectorObj)) :=
  match Hrange with
  | [] => Ok (s, [])
  | h :: Hrange =>
      Hvalue <-- at_ heap h ;;
      let s := set_H Hvalue s in
      eq <-- descend s pos ;;
      r <-- roots eq Hvalue ;;
      rest <-- scan_loop descend roots heap Hrange s eq ;;
      Ok (fst rest, (eq, r, Hvalue) :: snd rest)
  end.
Definition analytical_field_scan (descend : solver -> list R -> result (list R)) (roots : list R -> vectorObj -> result (list R))
    (heap : list vectorObj) (Hrange : list nat) (init_position : option (list R)) (s : solver)
    : result (list vectorObj * solver * list (list R * list R * vectorObj)) :=
  match init_position with
  | Some p => r <-- scan_loop descend roots heap Hrange s p ;; Ok (heap, fst r, snd r)
  | None =>
      h0 <-- at_ Hrange 0 ;;
      start <-- at_ heap h0 ;;
      let heap := set_nth h0 (VO (vo_theta start) (vo_phi start) 1) heap in
      let p := flat_map (fun _ => [vo_theta start; vo_phi start]) (sv_layers s) in
      r <-- scan_loop descend roots heap Hrange s p ;; Ok (heap, fst r, snd r)
  end.
