(** Model of class Junction (core/junction.hpp:889-1673). *)
From Verif Require Export M_Layer.
Open Scope R_scope.
Open Scope st_scope.

(** core/junction.hpp:901  [std::unordered_map<std::string, std::vector<T>>]: an association list;
    [log_push] is [log[key].emplace_back(v)] (operator[] creates an empty column on first use). *)
Definition log_t := list (string * list R).
Fixpoint log_push (key : string) (v : R) (g : log_t) : log_t :=
  match g with
  | [] => [(key, [v])]
  | (k, col) :: rest =>
      if String.eqb k key then (k, col ++ [v]) :: rest else (k, col) :: log_push key v rest
  end.
Fixpoint log_get (key : string) (g : log_t) : option (list R) :=
  match g with
  | [] => None
  | (k, col) :: rest => if String.eqb k key then Some col else log_get key rest
  end.

(** core/junction.hpp:894 *)
Inductive MRmode := MR_NONE | MR_CLASSIC | MR_STRIP.

(** core/junction.hpp:896-905.  [layerNo] is always [layers.size()] after construction and is not
    stored separately. *)
Record junction := JN {
  j_mode : MRmode; j_layers : list layer; j_Rp : R; j_Rap : R;
  j_Rx0 : list R; j_Ry0 : list R; j_AMR_X : list R; j_AMR_Y : list R;
  j_SMR_X : list R; j_SMR_Y : list R; j_AHE : list R;
  j_log : log_t; j_logLength : nat; j_Rtag : string }.

Definition set_j_layers (ls : list layer) (j : junction) : junction :=
  JN (j_mode j) ls (j_Rp j) (j_Rap j) (j_Rx0 j) (j_Ry0 j) (j_AMR_X j) (j_AMR_Y j) (j_SMR_X j)
     (j_SMR_Y j) (j_AHE j) (j_log j) (j_logLength j) (j_Rtag j).
Definition set_j_log (g : log_t) (n : nat) (j : junction) : junction :=
  JN (j_mode j) (j_layers j) (j_Rp j) (j_Rap j) (j_Rx0 j) (j_Ry0 j) (j_AMR_X j) (j_AMR_Y j)
     (j_SMR_X j) (j_SMR_Y j) (j_AHE j) g n (j_Rtag j).
Definition layerNo (j : junction) : nat := length (j_layers j).

(** core/junction.hpp:914-921 *)
Definition Junction_plain (ls : list layer) : result junction :=
  match ls with
  | [] => Err (Throw "Passed a zero length Layer vector!")
  | _ => Ok (JN MR_NONE ls 0 0 [] [] [] [] [] [] [] [] 0 "R")
  end.
(** core/junction.hpp:922-942 *)
Definition Junction_classic (ls : list layer) (Rp Rap : R) : result junction :=
  match ls with
  | [] => Err (Throw "Passed a zero length Layer vector!")
  | [l] => if Req_EM_T (vlength (l_reference l)) 0
           then Err (Throw "MTJ with a single layer must have a pinning (referenceLayer) set!")
           else Ok (JN MR_CLASSIC ls Rp Rap [] [] [] [] [] [] [] [] 0 "R")
  | [l0; l1] => Ok (JN MR_CLASSIC ls Rp Rap [] [] [] [] [] [] [] [] 0
                      ("R_" ++ l_id l0 ++ "_" ++ l_id l1))
  | _ => Err (Throw "This constructor supports only bilayers!")
  end.
(** core/junction.hpp:958-985 *)
Definition Junction_strip (ls : list layer) (Rx0 Ry0 AMR_X AMR_Y SMR_X SMR_Y AHE : list R)
  : result junction :=
  let n := length ls in
  if Nat.eqb n 0 then Err (Throw "Passed a zero length Layer vector!")
  else if negb (Nat.eqb n (length Rx0)) || negb (Nat.eqb n (length Ry0)) ||
          negb (Nat.eqb n (length AMR_X)) || negb (Nat.eqb n (length AMR_Y)) ||
          negb (Nat.eqb n (length AHE)) || negb (Nat.eqb n (length SMR_X)) ||
          negb (Nat.eqb n (length SMR_Y)) then
    Err (Throw "Layers and Rx0, Ry, AMR, AMR and SMR must be of the same size!")
  else Ok (JN MR_STRIP ls 0 0 Rx0 Ry0 AMR_X AMR_Y SMR_X SMR_Y AHE [] 0 "R").

(** core/junction.hpp:991-997 *)
Definition getLayerIds (j : junction) : list string := map l_id (j_layers j).
(** core/junction.hpp:1002-1005 *)
Definition clearLog : ST junction unit := modify (set_j_log [] 0).

(** ** Setters by id *)

(** core/junction.hpp:1013-1041, 1224-1236: the loop over the layers; a throwing member function
    aborts the loop with the earlier layers already changed. *)
Fixpoint setter_loop (layerID : string) (f : ST layer unit) (ls : list layer)
  : list layer * result bool :=
  match ls with
  | [] => ([], Ok false)
  | l :: rest =>
      if String.eqb (l_id l) layerID || String.eqb layerID "all" then
        match f l with
        | (l', Err e) => (l' :: rest, Err e)
        | (l', Ok _) =>
            match setter_loop layerID f rest with
            | (rest', Err e) => (l' :: rest', Err e)
            | (rest', Ok _) => (l' :: rest', Ok true)
            end
        end
      else
        match setter_loop layerID f rest with
        | (rest', r) => (l :: rest', r)
        end
  end.
Definition layerSetter (layerID : string) (f : ST layer unit) : ST junction unit :=
  fun j =>
    match setter_loop layerID f (j_layers j) with
    | (ls, Err e) => (set_j_layers ls j, Err e)
    | (ls, Ok true) => (set_j_layers ls j, Ok tt)
    | (ls, Ok false) => (set_j_layers ls j, Err (Throw "Failed to find a layer with a given id"))
    end.

(** core/junction.hpp:1115-1156, 1224-1236 *)
Definition setLayerTemperatureDriver id d := layerSetter id (setTemperatureDriver d).
Definition setLayerNonStochasticLangevinDriver id d :=
  layerSetter id (setNonStochasticLangevinDriver d).
Definition setLayerAnisotropyDriver id d := layerSetter id (setAnisotropyDriver d).
Definition setLayerExternalFieldDriver id d := layerSetter id (setExternalFieldDriver d).
Definition setLayerOerstedFieldDriver id d := layerSetter id (setOerstedFieldDriver d).
Definition setLayerCurrentDriver id d := layerSetter id (setCurrentDriver d).
Definition setLayerDampingLikeTorqueDriver id d := layerSetter id (setDampingLikeTorqueDriver d).
Definition setLayerFieldLikeTorqueDriver id d := layerSetter id (setFieldLikeTorqueDriver d).
Definition setLayerReservedInteractionField id d := layerSetter id (setReservedInteractionField d).
Definition setLayerHdmiDriver id d := layerSetter id (setHdmiDriver d).
Definition setLayerMagnetisation id m := layerSetter id (setMagnetisation m).

(** core/junction.hpp:1050-1113  first adjacent pair carrying the two ids in either order. *)
Fixpoint coupling_loop (b t : string) (fTop fBottom : ST layer unit) (ls : list layer)
  : list layer * result bool :=
  match ls with
  | l0 :: ((l1 :: rest) as tail) =>
      if (String.eqb (l_id l0) b && String.eqb (l_id l1) t) ||
         (String.eqb (l_id l0) t && String.eqb (l_id l1) b) then
        match fTop l0 with
        | (l0', Err e) => (l0' :: tail, Err e)
        | (l0', Ok _) =>
            match fBottom l1 with
            | (l1', Err e) => (l0' :: l1' :: rest, Err e)
            | (l1', Ok _) => (l0' :: l1' :: rest, Ok true)
            end
        end
      else match coupling_loop b t fTop fBottom tail with
           | (tail', r) => (l0 :: tail', r)
           end
  | _ => (ls, Ok false)
  end.
Definition setCouplingDriver (b t : string) (fTop fBottom : ST layer unit) : ST junction unit :=
  fun j =>
    match coupling_loop b t fTop fBottom (j_layers j) with
    | (ls, Err e) => (set_j_layers ls j, Err e)
    | (ls, Ok true) => (set_j_layers ls j, Ok tt)
    | (ls, Ok false) =>
        (set_j_layers ls j, Err (Throw "Failed to match the layer order or find layer ids"))
    end.
(** core/junction.hpp:1188-1222 *)
Definition setIDMIDriver b t d := setCouplingDriver b t (setIDMIDriverTop d) (setIDMIDriverBottom d).
Definition setQuadIECDriver b t d :=
  setCouplingDriver b t (setQuadIECDriverTop d) (setQuadIECDriverBottom d).
Definition setIECDriver b t d := setCouplingDriver b t (setIECDriverTop d) (setIECDriverBottom d).

(** core/junction.hpp:1266-1275  first layer with the id. *)
Fixpoint find_layer (id : string) (ls : list layer) : option layer :=
  match ls with
  | [] => None
  | l :: rest => if String.eqb (l_id l) id then Some l else find_layer id rest
  end.
Definition getLayer (j : junction) (id : string) : result layer :=
  match find_layer id (j_layers j) with
  | Some l => Ok l
  | None => Err (Throw "Failed to find a layer with a given id")
  end.
(** core/junction.hpp:1238-1244 *)
Definition getLayerMagnetisation (j : junction) (id : string) : result cvec :=
  l <-- getLayer j id ;; Ok (l_mag l).
Definition getLayerReferenceType (j : junction) (id : string) : result reference :=
  l <-- getLayer j id ;; Ok (l_refType l).

(** [getLayer(id).f()]: a member call on the reference returned by getLayer. *)
Fixpoint on_first (id : string) (f : ST layer unit) (ls : list layer)
  : list layer * result unit :=
  match ls with
  | [] => ([], Err (Throw "Failed to find a layer with a given id"))
  | l :: rest =>
      if String.eqb (l_id l) id then
        match f l with (l', r) => (l' :: rest, r) end
      else match on_first id f rest with (rest', r) => (l :: rest', r) end
  end.
(** [for (auto &l : layers) l.f()] *)
Fixpoint on_every (f : ST layer unit) (ls : list layer) : list layer * result unit :=
  match ls with
  | [] => ([], Ok tt)
  | l :: rest =>
      match f l with
      | (l', Err e) => (l' :: rest, Err e)
      | (l', Ok _) => match on_every f rest with (rest', r) => (l' :: rest', r) end
      end
  end.
(** core/junction.hpp:1158-1177, 1246-1264: "all" or the first layer with the id. *)
Definition allOrFirst (id : string) (f : ST layer unit) : ST junction unit :=
  fun j =>
    match (if String.eqb id "all" then on_every f (j_layers j) else on_first id f (j_layers j)) with
    | (ls, r) => (set_j_layers ls j, r)
    end.
Definition setLayerAlternativeSTT id b := allOrFirst id (setAlternativeSTT b).
Definition setLayerOneFNoise id sources bias scale := allOrFirst id (setOneFNoise sources bias scale).
Definition setLayerReferenceLayer id r := allOrFirst id (setReferenceLayerVec r).
Definition setLayerReferenceType id r := allOrFirst id (setReferenceLayerType r).

(** ** Magnetoresistance *)

(** core/junction.hpp:1554-1556 *)
Definition calculateMagnetoresistance (j : junction) (cosTheta : R) : R :=
  j_Rp j + (((j_Rap j - j_Rp j) / 2) * (1 - cosTheta)).

(** core/junction.hpp:1524-1546.  Zero resistances (an IEEE infinity in the accumulator) are
    [NonFinite]; the lists have the length of [layers] by construction (973-982), a shorter list is
    an out-of-bounds read. *)
Fixpoint strip_acc (ls : list layer) (Rx0 Ry0 AMR_X SMR_X AMR_Y SMR_Y AHE : list R)
    (Rx_acc Ry_acc : R) : result (R * R) :=
  match ls, Rx0, Ry0, AMR_X, SMR_X, AMR_Y, SMR_Y, AHE with
  | [], _, _, _, _, _, _, _ => Ok (Rx_acc, Ry_acc)
  | l :: ls', rx0 :: Rx0', ry0 :: Ry0', amrx :: AMR_X', smrx :: SMR_X', amry :: AMR_Y',
    smry :: SMR_Y', ahe :: AHE' =>
      let m := l_mag l in
      let Rx := rx0 + amrx * (cx m * cx m) + smrx * (cy m * cy m) in
      let Ry := ry0 + 1 / 2 * ahe * cz m + (amry + smry) * cx m * cy m in
      ix <-- fdiv 1 Rx ;;
      iy <-- fdiv 1 Ry ;;
      strip_acc ls' Rx0' Ry0' AMR_X' SMR_X' AMR_Y' SMR_Y' AHE' (Rx_acc + ix) (Ry_acc + iy)
  | _, _, _, _, _, _, _, _ => Err Undefined
  end.
Definition stripMagnetoResistance (j : junction) : result (list R) :=
  a <-- strip_acc (j_layers j) (j_Rx0 j) (j_Ry0 j) (j_AMR_X j) (j_SMR_X j) (j_AMR_Y j)
          (j_SMR_Y j) (j_AHE j) 0 0 ;;
  rx <-- fdiv 1 (fst a) ;;
  ry <-- fdiv 1 (snd a) ;;
  Ok [rx; ry; 0].

(** core/junction.hpp:1558-1578 *)
Definition getMagnetoresistance (j : junction) : result (list R) :=
  match j_mode j, j_layers j with
  | MR_CLASSIC, [l0; l1] => Ok [calculateMagnetoresistance j (c_dot (l_mag l0) (l_mag l1))]
  | MR_CLASSIC, [l0] => Ok [calculateMagnetoresistance j (c_dot (l_mag l0) (l_reference l0))]
  | MR_STRIP, _ => stripMagnetoResistance j
  | _, _ => Err (Throw "Magnetisation calculation is not supported for this structure!")
  end.

(** ** Logging *)

Definition push_vec (key : string) (v : cvec) (g : log_t) : log_t :=
  log_push (key ++ "z") (cz v) (log_push (key ++ "y") (cy v) (log_push (key ++ "x") (cx v) g)).

(** core/junction.hpp:1289-1316  the optional part.  The component loop (1298-1313) interleaves the
    columns; pushes to different keys commute except for the order of first creation, which an
    unordered_map does not observe. *)
Definition log_energies (l : layer) (g : log_t) : log_t :=
  let c := l_cache l in
  let id := l_id l in
  let g := log_push (id ++ "_K") (c_K_log c) g in
  let g := log_push (id ++ "_Jbottom") (c_Jbottom_log c) g in
  let g := log_push (id ++ "_Jtop") (c_Jtop_log c) g in
  let g := log_push (id ++ "_I") (c_I_log c) g in
  let g := push_vec (id ++ "_Hext") (c_Hext c) g in
  let g := push_vec (id ++ "_Hiec") (c_HIEC c) g in
  let g := push_vec (id ++ "_Hanis") (c_HAnis c) g in
  let g := push_vec (id ++ "_Hdemag") (c_Hdemag c) g in
  let g := push_vec (id ++ "_Hth") (c_Hfluctuation c) g in
  let g := if l_includeSOT l then
             push_vec (id ++ "_Hdl") (c_Hdl_v c) (push_vec (id ++ "_Hfl") (c_Hfl_v c) g)
           else g in
  if l_includeSTT l || l_includeSOT l then log_push (id ++ "_I") (c_I_log c) g else g.

(** core/junction.hpp:1286-1321 *)
Definition log_layer (calculateEnergies : bool) (g : log_t) (l : layer) : log_t :=
  let g := if calculateEnergies then log_energies l g else g in
  push_vec (l_id l ++ "_m") (l_mag l) g.

(** core/junction.hpp:1322-1336 *)
Definition log_resistance (j : junction) (g : log_t) : result log_t :=
  match j_mode j, j_layers j with
  | MR_CLASSIC, [l0] =>
      Ok (log_push "R" (calculateMagnetoresistance j (c_dot (l_mag l0) (l_reference l0))) g)
  | MR_CLASSIC, l0 :: l1 :: _ =>
      Ok (log_push (j_Rtag j) (calculateMagnetoresistance j (c_dot (l_mag l0) (l_mag l1))) g)
  | MR_STRIP, _ =>
      r <-- stripMagnetoResistance j ;;
      match r with
      | [rx; ry; rz] => Ok (log_push "Rz" rz (log_push "Ry" ry (log_push "Rx" rx g)))
      | _ => Err Undefined
      end
  | _, _ => Ok g
  end.

(** core/junction.hpp:1285-1339 *)
Definition logLayerParams (t timeStep : R) (calculateEnergies : bool) : ST junction unit :=
  fun j =>
    let g := fold_left (log_layer calculateEnergies) (j_layers j) (j_log j) in
    match log_resistance j g with
    | Err e => (set_j_log g (j_logLength j) j, Err e)
    | Ok g => (set_j_log (log_push "time" t g) (S (j_logLength j)) j, Ok tt)
    end.

(** core/junction.hpp:1341-1359  [column[i]] of every column for every i < logLength; reading past
    the end of a column is undefined.  The result is the table written to the file. *)
Fixpoint save_row (i : nat) (g : log_t) : result (list R) :=
  match g with
  | [] => Ok []
  | (_, col) :: rest =>
      match nth_error col i with
      | None => Err Undefined
      | Some v => r <-- save_row i rest ;; Ok (v :: r)
      end
  end.
Fixpoint save_rows (n i : nat) (g : log_t) : result (list (list R)) :=
  match n with
  | O => Ok []
  | S n' => r <-- save_row i g ;; rs <-- save_rows n' (S i) g ;; Ok (r :: rs)
  end.
Definition saveLogs (j : junction) (filename : string) : result (list string * list (list R)) :=
  if String.eqb filename "" then Err (Throw "The filename may not be empty!")
  else rows <-- save_rows (j_logLength j) 0 (j_log j) ;; Ok (map fst (j_log j), rows).

(** ** Solvers *)

(** core/junction.hpp:1374-1377 *)
Definition runSingleLayerSolver (t timeStep : R) : ST junction unit :=
  fun j =>
    match j_layers j with
    | [] => (j, Err Undefined)
    | l :: rest =>
        match rk4_step t timeStep vnull vnull l with
        | (l', r) => (set_j_layers (l' :: rest) j, r)
        end
    end.

(** core/junction.hpp:1395-1397  the loop over the layers with the copies made before it:
    [copies] is [magCopies] from index i on. *)
Fixpoint multi_loop (f : cvec -> cvec -> ST layer unit) (copies : list cvec) (ls : list layer)
  : list layer * result unit :=
  match ls, copies with
  | [], _ => ([], Ok tt)
  | l :: rest, b :: ((_ :: top :: _) as copies') =>
      match f b top l with
      | (l', Err e) => (l' :: rest, Err e)
      | (l', Ok _) => match multi_loop f copies' rest with (rest', r) => (l' :: rest', r) end
      end
  | _, _ => (ls, Err Undefined)
  end.
(** core/junction.hpp:1387-1398 *)
Definition magCopies (ls : list layer) : list cvec := vnull :: map l_mag ls ++ [vnull].
Definition runMultiLayerSolver (t timeStep : R) : ST junction unit :=
  fun j =>
    match multi_loop (rk4_step t timeStep) (magCopies (j_layers j)) (j_layers j) with
    | (ls, r) => (set_j_layers ls j, r)
    end.

(** sqrt of a double: NaN for negative arguments. *)
Definition fsqrt (x : R) : result R := if Rlt_dec x 0 then Err NonFinite else Ok (sqrt x).

(** core/junction.hpp:1415-1417, 1481-1482  thermal plus coloured noise. *)
Definition drawNoise (t timeStep : R) : ST layer cvec :=
  a <- getStochasticLangevinVector t timeStep ;;
  b <- getOneFVector ;;
  ret (vadd a b).

(** core/junction.hpp:1412-1438  body of the first loop for one layer, returns mPrime[i]. *)
Definition eulerHeun_layer (t timeStep : R) (bottom top : cvec) : ST layer cvec :=
  dW <- drawNoise t timeStep ;;
  l <- get ;;
  let m := l_mag l in
  fnApprox <- calculateLLGWithFieldTorque t m bottom top timeStep ;;
  gnApprox <- lift (stochasticTorque l m dW) ;;
  s <- lift (fsqrt timeStep) ;;
  let mNext := vadd m (vscale gnApprox s) in
  gnPrime <- lift (stochasticTorque l mNext dW) ;;
  ret (vadd (vadd m (vscale fnApprox timeStep))
            (vscale (vscale (vadd gnApprox gnPrime) (1 / 2)) s)).

(** The loop over i; [bottom] is the live magnetisation of layer i-1, the top neighbour is the
    live magnetisation of layer i+1 (1418-1421). *)
Fixpoint eulerHeun_pass (t timeStep : R) (bottom : cvec) (ls : list layer)
  : list layer * result (list cvec) :=
  match ls with
  | [] => ([], Ok [])
  | l :: rest =>
      let top := match rest with [] => vnull | r :: _ => l_mag r end in
      match eulerHeun_layer t timeStep bottom top l with
      | (l', Err e) => (l' :: rest, Err e)
      | (l', Ok mp) =>
          match eulerHeun_pass t timeStep (l_mag l') rest with
          | (rest', Err e) => (l' :: rest', Err e)
          | (rest', Ok mps) => (l' :: rest', Ok (mp :: mps))
          end
      end
  end.
(** core/junction.hpp:1440-1443 *)
Fixpoint assign_mags (ls : list layer) (ms : list cvec) : list layer :=
  match ls, ms with
  | l :: ls', m :: ms' => set_l_mag (vnormalize m) l :: assign_mags ls' ms'
  | _, _ => ls
  end.
(** core/junction.hpp:1400-1444 *)
Definition eulerHeunSolverStep (t timeStep : R) : ST junction unit :=
  fun j =>
    match eulerHeun_pass t timeStep vnull (j_layers j) with
    | (ls, Err e) => (set_j_layers ls j, Err e)
    | (ls, Ok mps) => (set_j_layers (assign_mags ls mps) j, Ok tt)
    end.

(** Values kept per layer between the two Heun passes (1460-1463). *)
Record heun_stage := HS { h_fn : cvec; h_gn : cvec; h_dW : cvec; h_mNext : cvec }.

(** core/junction.hpp:1471-1487 *)
Definition heun_layer1 (t timeStep : R) (bottom top : cvec) : ST layer heun_stage :=
  l0 <- get ;;
  fn <- calculateLLGWithFieldTorque t (l_mag l0) bottom top timeStep ;;
  dW <- drawNoise t timeStep ;;
  l <- get ;;
  gn <- lift (stochasticTorque l (l_mag l) dW) ;;
  s <- lift (fsqrt timeStep) ;;
  ret (HS fn gn dW (vadd (vadd (l_mag l) (vscale fn timeStep)) (vscale gn s))).
Fixpoint heun_pass1 (t timeStep : R) (bottom : cvec) (ls : list layer)
  : list layer * result (list heun_stage) :=
  match ls with
  | [] => ([], Ok [])
  | l :: rest =>
      let top := match rest with [] => vnull | r :: _ => l_mag r end in
      match heun_layer1 t timeStep bottom top l with
      | (l', Err e) => (l' :: rest, Err e)
      | (l', Ok h) =>
          match heun_pass1 t timeStep (l_mag l') rest with
          | (rest', Err e) => (l' :: rest', Err e)
          | (rest', Ok hs) => (l' :: rest', Ok (h :: hs))
          end
      end
  end.
(** core/junction.hpp:1489-1503  neighbours are the predictors mNext[i-1], mNext[i+1]. *)
Definition heun_layer2 (t timeStep : R) (h : heun_stage) (bottom top : cvec) : ST layer unit :=
  f2 <- calculateLLGWithFieldTorque (t + timeStep) (h_mNext h) bottom top timeStep ;;
  l <- get ;;
  g2 <- lift (stochasticTorque l (h_mNext h) (h_dW h)) ;;
  s <- lift (fsqrt timeStep) ;;
  let m := vadd (vadd (l_mag l) (vscale (vadd (h_fn h) f2) (1 / 2 * timeStep)))
                (vscale (vscale (vadd (h_gn h) g2) (1 / 2)) s) in
  modify (set_l_mag m) ;;;
  modify (fun l => set_l_mag (vnormalize (l_mag l)) l).
Fixpoint heun_pass2 (t timeStep : R) (bottom : cvec) (hs : list heun_stage) (ls : list layer)
  : list layer * result unit :=
  match ls, hs with
  | [], _ => ([], Ok tt)
  | l :: rest, h :: hs' =>
      let top := match hs' with [] => vnull | r :: _ => h_mNext r end in
      match heun_layer2 t timeStep h bottom top l with
      | (l', Err e) => (l' :: rest, Err e)
      | (l', Ok _) =>
          match heun_pass2 t timeStep (h_mNext h) hs' rest with (rest', r) => (l' :: rest', r) end
      end
  | _ :: _, [] => (ls, Err Undefined)
  end.
(** core/junction.hpp:1446-1504 *)
Definition heunSolverStep (t timeStep : R) : ST junction unit :=
  fun j =>
    match heun_pass1 t timeStep vnull (j_layers j) with
    | (ls, Err e) => (set_j_layers ls j, Err e)
    | (ls, Ok hs) =>
        match heun_pass2 t timeStep vnull hs ls with
        | (ls', r) => (set_j_layers ls' j, r)
        end
    end.

(** ** Solver selection and the main loop *)

(** The runner member-function pointers that getSolver can return (1610-1616). *)
Inductive runner := RunSingle | RunMulti | RunHeun | RunEulerHeun.

Definition is_stochastic_mode (m : solver_mode) : bool :=
  match m with HEUN | EULER_HEUN => true | _ => false end.

(** core/junction.hpp:1583-1606 *)
Fixpoint getSolver_loop (localMode : solver_mode) (totalIterations : nat) (ls : list layer)
  : list layer * result solver_mode :=
  match ls with
  | [] => ([], Ok localMode)
  | l :: rest =>
      let mode1 := if l_temperatureSet l then
                     (if is_stochastic_mode localMode then localMode else EULER_HEUN)
                   else localMode in
      if Req_EM_T (l_nScale l) 0 then
        match getSolver_loop mode1 totalIterations rest with (rest', r) => (l :: rest', r) end
      else
        let mode2 := if is_stochastic_mode mode1 then mode1 else EULER_HEUN in
        match createBufferedAlphaNoise totalIterations l with
        | (l', Err e) => (l' :: rest, Err e)
        | (l', Ok _) =>
            match getSolver_loop mode2 totalIterations rest with (rest', r) => (l' :: rest', r) end
        end
  end.
(** core/junction.hpp:1607-1618 *)
Definition pick_runner (n : nat) (m : solver_mode) : runner :=
  match m with
  | HEUN => RunHeun
  | EULER_HEUN => RunEulerHeun
  | _ => if Nat.eqb n 1 then RunSingle else RunMulti
  end.
Definition getSolver (mode : solver_mode) (totalIterations : nat)
  : ST junction (runner * solver_mode) :=
  fun j =>
    match getSolver_loop mode totalIterations (j_layers j) with
    | (ls, Err e) => (set_j_layers ls j, Err e)
    | (ls, Ok m) => (set_j_layers ls j, Ok (pick_runner (length ls) m, m))
    end.

Definition run_runner (r : runner) (t timeStep : R) : ST junction unit :=
  match r with
  | RunSingle => runSingleLayerSolver t timeStep
  | RunMulti => runMultiLayerSolver t timeStep
  | RunHeun => heunSolverStep t timeStep
  | RunEulerHeun => eulerHeunSolverStep t timeStep
  end.

(** core/junction.hpp:1654-1661  [n] iterations starting at counter [i]; [i % 0] is undefined. *)
Fixpoint sim_loop (r : runner) (timeStep : R) (writeEvery : nat) (energies : bool)
    (n i : nat) : ST junction unit :=
  match n with
  | O => ret tt
  | S n' =>
      let t := INR i * timeStep in
      run_runner r t timeStep ;;;
      (if Nat.eqb writeEvery 0 then fail Undefined
       else if Nat.eqb (i mod writeEvery) 0 then logLayerParams t timeStep energies
       else ret tt) ;;;
      sim_loop r timeStep writeEvery energies n' (S i)
  end.

(** core/junction.hpp:1636-1672 (timing printouts omitted). *)
Definition runSimulation (totalTime timeStep writeFrequency : R) (energies : bool)
    (mode : solver_mode) : ST junction unit :=
  if Rlt_dec writeFrequency timeStep then
    fail (Throw "The time step cannot be larger than write frequency!")
  else
    q1 <- lift (fdiv totalTime timeStep) ;;
    totalIterations <- lift (to_unsigned q1) ;;
    q2 <- lift (fdiv writeFrequency timeStep) ;;
    writeEvery <- lift (to_unsigned q2) ;;
    rm <- getSolver mode totalIterations ;;
    sim_loop (fst rm) timeStep writeEvery energies totalIterations 0.
