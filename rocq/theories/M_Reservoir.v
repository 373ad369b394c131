(** Model of core/reservoir.hpp: dipole fields, class GroupInteraction and class Reservoir. *)
From Verif Require Export M_Stack.
Open Scope R_scope.
Open Scope st_scope.

(** core/reservoir.hpp:51-60, 325-337  the common tensor formula for a distance vector. *)
Definition dipole_tensor (rij : cvec) : result tensor :=
  let r_mag := vlength rij ^ 2 in
  mult <-- fdiv 3 (4 * PI * vlength rij ^ 5) ;;
  Ok (Ten (vscale (CV (cx rij ^ 2 - r_mag / 3) (cx rij * cy rij) (cx rij * cz rij)) mult)
          (vscale (CV (cx rij * cy rij) (cy rij ^ 2 - r_mag / 3) (cy rij * cz rij)) mult)
          (vscale (CV (cx rij * cz rij) (cy rij * cz rij) (cz rij ^ 2 - r_mag / 3)) mult)).
(** core/reservoir.hpp:41-61 *)
Definition getDipoleTensorFromRelPositions (r1 r2 : cvec) : result tensor :=
  let rij := vsub r1 r2 in
  if Rlt_dec (vlength rij) (1 / 10 ^ 10)
  then Err (Throw "Points are too close for stable dipole calculation")
  else dipole_tensor rij.
(** core/reservoir.hpp:63-66 *)
Definition interactionFunction := cvec -> cvec -> layer -> layer -> result cvec.
(** core/reservoir.hpp:68-73 *)
Definition nullDipoleInteraction : interactionFunction := fun _ _ _ _ => Ok vnull.
(** core/reservoir.hpp:84-102 *)
Definition computeDipoleInteraction : interactionFunction := fun r1 r2 layer1 layer2 =>
  let rij := vsub r1 r2 in
  if Rlt_dec (vlength rij) (1 / 10 ^ 10)
  then Err (Throw "Points are too close for stable dipole calculation")
  else
    let r3 := vlength rij ^ 3 in
    let r5 := vlength rij ^ 5 in
    let m1 := l_mag layer2 in
    let V := l_thickness layer2 * l_cellSurface layer2 in
    let prefactor := l_Ms layer2 / MAGNETIC_PERMEABILITY * V in
    a <-- vdiv (vscale rij (3 * c_dot m1 rij)) r5 ;;
    b <-- vdiv m1 r3 ;;
    Ok (vscale (vsub a b) prefactor).
(** core/reservoir.hpp:113-125 *)
Definition computeDipoleInteractionNoumra : interactionFunction := fun r1 r2 layer1 layer2 =>
  t <-- getDipoleTensorFromRelPositions r1 r2 ;;
  let V := l_thickness layer2 * l_cellSurface layer2 in
  Ok (calculate_tensor_interaction (l_mag layer2) t (l_Ms layer2 * V)).

(** ** class GroupInteraction *)
(** core/reservoir.hpp:127-132.  [noElements] is the length of [junctionList]. *)
Record group := GRP { g_top : string; g_coords : list cvec; g_js : list junction; g_fn : interactionFunction }.
Definition set_g_js (js : list junction) (g : group) : group := GRP (g_top g) (g_coords g) js (g_fn g).
Definition set_g_fn (f : interactionFunction) (g : group) : group := GRP (g_top g) (g_coords g) (g_js g) f.
(** core/reservoir.hpp:174-181 *)
Fixpoint has_duplicate (cs : list cvec) : bool :=
  match cs with
  | [] => false
  | c :: rest => existsb (veqb c) rest || has_duplicate rest
  end.
(** core/reservoir.hpp:158-182 *)
Definition mkGroup (coords : list cvec) (js : list junction) (topId : string) : result group :=
  if negb (Nat.eqb (length coords) (length js))
  then Err (Throw "Coordinate matrix and junction list must have the same size!")
  else if Nat.eqb (length coords) 0 || Nat.eqb (length js) 0
  then Err (Throw "Coordinate matrix and junction list cannot be empty!")
  else if has_duplicate coords
  then Err (Throw "Coordinate vectors must be unique!")
  else Ok (GRP topId coords js computeDipoleInteraction).
(** core/reservoir.hpp:184-186 *)
Definition setInteractionFunction (f : interactionFunction) : ST group unit := modify (set_g_fn f).
(** An index into a vector; past the end is undefined. *)
Definition at_index {A} (xs : list A) (i : nat) : result A :=
  match nth_error xs i with Some x => Ok x | None => Err Undefined end.
(** core/reservoir.hpp:141-149  the sum over the other elements, [n] iterations from index [j]. *)
Fixpoint sum_extra (g : group) (i n j : nat) (acc : cvec) : result cvec :=
  match n with
  | O => Ok acc
  | S n' =>
      if Nat.eqb i j then sum_extra g i n' (S j) acc
      else
        ri <-- at_index (g_coords g) i ;;
        rj <-- at_index (g_coords g) j ;;
        ji <-- at_index (g_js g) i ;;
        li <-- getLayer ji (g_top g) ;;
        jj <-- at_index (g_js g) j ;;
        lj <-- getLayer jj (g_top g) ;;
        h <-- g_fn g ri rj li lj ;;
        sum_extra g i n' (S j) (vadd acc h)
  end.
(** core/reservoir.hpp:140-152  the loop setting the reserved field, [n] iterations from element [i]. *)
Fixpoint set_extra (n i : nat) : ST group unit :=
  match n with
  | O => ret tt
  | S n' =>
      g <- get ;;
      h <- lift (sum_extra g i (length (g_js g)) 0 vnull) ;;
      d <- lift (axial_of_vec h) ;;
      (fun g => match on_member i (setLayerReservedInteractionField (g_top g) d) (g_js g) with
                | (js, r) => (set_g_js js g, r)
                end) ;;;
      set_extra n' (S i)
  end.
(** [for (...) junctionList[i].f()] *)
Definition group_each (f : ST junction unit) : ST group unit :=
  fun g => match on_junctions f (g_js g) with (js, r) => (set_g_js js g, r) end.
(** core/reservoir.hpp:134-156 *)
Definition stepFunctionalSolver (time timeStep : R) (r : runner) : ST group unit :=
  g <- get ;;
  set_extra (length (g_js g)) 0 ;;;
  group_each (run_runner r time timeStep).
(** core/reservoir.hpp:218-227  [n] iterations from counter [i]. *)
Fixpoint group_sim (r : runner) (timeStep : R) (writeEvery n i : nat) : ST group unit :=
  match n with
  | O => ret tt
  | S n' =>
      let t := INR i * timeStep in
      stepFunctionalSolver t timeStep r ;;;
      (if Nat.eqb writeEvery 0 then fail Undefined
       else if Nat.eqb (i mod writeEvery) 0 then group_each (logLayerParams t timeStep false)
       else ret tt) ;;;
      group_sim r timeStep writeEvery n' (S i)
  end.
(** core/reservoir.hpp:188-228 *)
Definition group_runSimulation (totalTime timeStep writeFrequency : R) : ST group unit :=
  q2 <- lift (fdiv writeFrequency timeStep) ;;
  writeEvery <- lift (int_as_unsigned q2) ;;
  q1 <- lift (fdiv totalTime timeStep) ;;
  totalIterations <- lift (int_as_unsigned q1) ;;
  if Rlt_dec writeFrequency timeStep then
    fail (Throw "The time step cannot be larger than write frequency!")
  else
    rms <- (fun g => match pick_solvers totalIterations (g_js g) with
                     | (js, x) => (set_g_js js g, x)
                     end) ;;
    if negb (all_equal (map snd rms)) then fail (Throw "Junctions have different solver modes!")
    else group_sim (last (map fst rms) RunMulti) timeStep writeEvery totalIterations 0.
(** core/reservoir.hpp:230-234 *)
Definition group_clearLogs : ST group unit := group_each clearLog.
(** core/reservoir.hpp:236-242 *)
Definition group_getLog (g : group) (id : nat) : result log_t :=
  match nth_error (g_js g) id with
  | Some j => Ok (j_log j)
  | None => Err (Throw "Asking for id of a non-existing junction!")
  end.

(** ** class Reservoir *)
(** core/reservoir.hpp:251-263, 353-354 *)
Record reservoir := RSV {
  r_log : log_t; r_coords : list (list cvec); r_frozen : list cvec; r_Ms : list R; r_vol : list R;
  r_tensors : list (list tensor); r_layers : list (list layer); r_rows : nat; r_cols : nat }.
Definition set_r_log (g : log_t) (r : reservoir) : reservoir :=
  RSV g (r_coords r) (r_frozen r) (r_Ms r) (r_vol r) (r_tensors r) (r_layers r) (r_rows r) (r_cols r).
Definition set_r_frozen (f : list cvec) (r : reservoir) : reservoir :=
  RSV (r_log r) (r_coords r) f (r_Ms r) (r_vol r) (r_tensors r) (r_layers r) (r_rows r) (r_cols r).
Definition set_r_layers (ls : list (list layer)) (r : reservoir) : reservoir :=
  RSV (r_log r) (r_coords r) (r_frozen r) (r_Ms r) (r_vol r) (r_tensors r) ls (r_rows r) (r_cols r).
Definition noElements (r : reservoir) : nat := r_rows r * r_cols r.
(** core/reservoir.hpp:317-321 *)
Definition getMatrixCoordinates (cols i : nat) : result (nat * nat) :=
  if Nat.eqb cols 0 then Err Undefined else Ok (i / cols, i mod cols)%nat.
Definition at_index2 {A} (m : list (list A)) (p : nat * nat) : result A :=
  row <-- at_index m (fst p) ;; at_index row (snd p).
(** core/reservoir.hpp:323-338  here the distance is taken from the second to the first point and is
    not checked. *)
Definition reservoir_tensor (r1 r2 : cvec) : result tensor := dipole_tensor (vsub r2 r1).
(** The index pairs visited by the [prev_permutation] loop: the 0/1 words with two ones in falling
    lexicographic order.  With fewer than two elements the pair is read uninitialised. *)
Definition pairs (n : nat) : list (nat * nat) :=
  flat_map (fun a => map (fun b => (a, b)) (seq (S a) (n - S a))) (seq 0 n).
(** [m[i].push_back(x)] *)
Definition push_at {A} (i : nat) (x : A) (m : list (list A)) : list (list A) :=
  match nth_error m i with
  | Some row => set_nth i (row ++ [x])%list m
  | None => m
  end.
Fixpoint fill_tensors (cols : nat) (coords : list (list cvec)) (ps : list (nat * nat))
    (acc : list (list tensor)) : result (list (list tensor)) :=
  match ps with
  | [] => Ok acc
  | (a, b) :: rest =>
      ca <-- getMatrixCoordinates cols a ;;
      cb <-- getMatrixCoordinates cols b ;;
      ra <-- at_index2 coords ca ;;
      rb <-- at_index2 coords cb ;;
      t1 <-- reservoir_tensor ra rb ;;
      t2 <-- reservoir_tensor rb ra ;;
      fill_tensors cols coords rest (push_at b t2 (push_at a t1 acc))
  end.
(** core/reservoir.hpp:265-315 *)
Definition computeReservoirDipoleMatrix (n cols : nat) (coords : list (list cvec))
  : result (list (list tensor)) :=
  if Nat.ltb n 2 then Err Undefined
  else fill_tensors cols coords (pairs n) (repeat [] n).
(** core/reservoir.hpp:366-374  row by row *)
Fixpoint collect {A} (f : layer -> A) (ls : list (list layer)) (cols n i : nat) : result (list A) :=
  match n with
  | O => Ok []
  | S n' =>
      c <-- getMatrixCoordinates cols i ;;
      l <-- at_index2 ls c ;;
      rest <-- collect f ls cols n' (S i) ;;
      Ok (f l :: rest)
  end.
(** core/reservoir.hpp:356-377  reading the first row of an empty matrix is undefined. *)
Definition mkReservoir (coords : list (list cvec)) (ls : list (list layer)) : result reservoir :=
  match coords with
  | [] => Err Undefined
  | row :: _ =>
      let rows := length coords in
      let cols := length row in
      let n := (rows * cols)%nat in
      vol <-- collect (fun l => l_thickness l * l_cellSurface l) ls cols n 0 ;;
      Ms <-- collect l_Ms ls cols n 0 ;;
      ts <-- computeReservoirDipoleMatrix n cols coords ;;
      Ok (RSV [] coords (repeat vnull n) Ms vol ts ls rows cols)
  end.
(** core/reservoir.hpp:340-350  [k] iterations from index [i]. *)
Fixpoint sum_dipoles (r : reservoir) (ts : list tensor) (i : nat) (acc : cvec) : result cvec :=
  match ts with
  | [] => Ok acc
  | t :: rest =>
      m <-- at_index (r_frozen r) i ;;
      ms <-- at_index (r_Ms r) i ;;
      sum_dipoles r rest (S i) (vadd acc (calculate_tensor_interaction m t ms))
  end.
Definition reservoir_dipole (r : reservoir) (i : nat) (volumeNormaliser : R) : result cvec :=
  ts <-- at_index (r_tensors r) i ;;
  h <-- sum_dipoles r ts 0 vnull ;;
  Ok (vscale h volumeNormaliser).
(** core/reservoir.hpp:379-387 *)
Definition collectFrozenMMatrix : ST reservoir (list cvec) :=
  r <- get ;;
  ms <- lift (collect l_mag (r_layers r) (r_cols r) (noElements r) 0) ;;
  modify (set_r_frozen ms) ;;;
  ret ms.
(** Writing through [layerMatrix[i0][i1]]. *)
Definition set2 (p : nat * nat) (l : layer) (m : list (list layer)) : list (list layer) :=
  match nth_error m (fst p) with
  | Some row => set_nth (fst p) (set_nth (snd p) l row) m
  | None => m
  end.
(** A member call on the layer of element [i]. *)
Definition on_layer {A} (i : nat) (f : ST layer A) : ST reservoir A := fun r =>
  match (p <-- getMatrixCoordinates (r_cols r) i ;; l <-- at_index2 (r_layers r) p ;; Ok (p, l)) with
  | Err e => (r, Err e)
  | Ok (p, l) => match f l with (l', x) => (set_r_layers (set2 p l' (r_layers r)) r, x) end
  end.
(** core/reservoir.hpp:393-404 *)
Fixpoint step_layers_from (time timeStep : R) (n i : nat) : ST reservoir unit :=
  match n with
  | O => ret tt
  | S n' =>
      r <- get ;;
      v <- lift (at_index (r_vol r) i) ;;
      d <- lift (reservoir_dipole r i v) ;;
      on_layer i (rk4_stepDipoleInjection time timeStep vnull vnull d) ;;;
      step_layers_from time timeStep n' (S i)
  end.
(** core/reservoir.hpp:389-405 *)
Definition runSolver (time timeStep : R) : ST reservoir unit :=
  collectFrozenMMatrix ;;;
  r <- get ;;
  step_layers_from time timeStep (noElements r) 0.
(** core/reservoir.hpp:407-423 *)
Definition cell_key (p : nat * nat) (axis : string) : string :=
  ("m_" ++ to_string (fst p) ++ "_" ++ to_string (snd p) ++ axis)%string.
Fixpoint log_cells (cols n i : nat) (ls : list (list layer)) (g : log_t) : result log_t :=
  match n with
  | O => Ok g
  | S n' =>
      p <-- getMatrixCoordinates cols i ;;
      l <-- at_index2 ls p ;;
      log_cells cols n' (S i) ls
        (log_push (cell_key p "_z") (cz (l_mag l))
          (log_push (cell_key p "_y") (cy (l_mag l))
            (log_push (cell_key p "_x") (cx (l_mag l)) g)))
  end.
Definition logReservoirkData (t : R) : ST reservoir unit :=
  r <- get ;;
  g <- lift (log_cells (r_cols r) (noElements r) 0 (r_layers r) (log_push "time" t (r_log r))) ;;
  modify (set_r_log g).
(** core/reservoir.hpp:425-430, 447-452 *)
Definition reservoir_getLayer (r : reservoir) (i : nat) : result layer :=
  p <-- getMatrixCoordinates (r_cols r) i ;; at_index2 (r_layers r) p.
Definition reservoir_getMagnetisation (r : reservoir) (i : nat) : result cvec :=
  l <-- reservoir_getLayer r i ;; Ok (l_mag l).
(** core/reservoir.hpp:432-438 *)
Definition setAllExternalField (d : adriver) : ST reservoir unit :=
  modify (fun r => set_r_layers (map (map (set_l_external d)) (r_layers r)) r).
(** core/reservoir.hpp:440-449 *)
Definition reservoir_setLayerExternalField (i : nat) (d : adriver) : ST reservoir unit :=
  on_layer i (setExternalFieldDriver d).
Definition reservoir_setLayerAnisotropy (i : nat) (d : sdriver) : ST reservoir unit :=
  on_layer i (setAnisotropyDriver d).
(** core/reservoir.hpp:477 *)
Definition reservoir_clearLogs : ST reservoir unit := modify (set_r_log []).
(** core/reservoir.hpp:482-486 *)
Fixpoint reservoir_sim (timeStep : R) (n i : nat) : ST reservoir unit :=
  match n with
  | O => ret tt
  | S n' =>
      let t := INR i * timeStep in
      runSolver t timeStep ;;;
      logReservoirkData t ;;;
      reservoir_sim timeStep n' (S i)
  end.
(** core/reservoir.hpp:479-487  the count is a double, so a negative one gives no iterations. *)
Definition reservoir_runSimulation (totalTime timeStep : R) : ST reservoir unit :=
  q <- lift (fdiv totalTime timeStep) ;;
  z <- lift (to_int q) ;;
  reservoir_sim timeStep (Z.to_nat z) 0.
(** core/reservoir.hpp:456-475  as for stacks. *)
Definition reservoir_saveLogs (fileSave : string) : ST reservoir (option (list string * list (list R))) :=
  r <- get ;;
  if String.eqb fileSave "" then ret None
  else match log_get "time" (r_log r) with
       | None => modify (set_r_log (r_log r ++ [("time"%string, [])])%list) ;;; ret (Some (map fst (r_log r), []))
       | Some times => rows <- lift (save_rows (length times) 0 (r_log r)) ;;
                       ret (Some (map fst (r_log r), rows))
       end.
