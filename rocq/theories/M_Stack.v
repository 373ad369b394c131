(** Model of class Stack and its two subclasses (core/stack.hpp). *)
From Verif Require Export M_Junction.
From Coq Require Export DecimalString DecimalNat.
Open Scope R_scope.
Open Scope st_scope.

(** [std::to_string] of an unsigned index. *)
Definition to_string (n : nat) : string := NilZero.string_of_uint (Nat.to_uint n).

(** SeriesStack / ParallelStack: the two overriders of the virtual functions. *)
Inductive stack_kind := Series | Parallel.
(** core/stack.hpp:19-30, 46.  [stackSize] is the length of [junctionList]. *)
Record stack := STK {
  s_kind : stack_kind; s_current : sdriver; s_currentSet : bool; s_log : log_t;
  s_top : string; s_bottom : string; s_coupling : list R; s_delayed : bool; s_phase : R;
  s_js : list junction }.
Definition set_s_js (js : list junction) (s : stack) : stack :=
  STK (s_kind s) (s_current s) (s_currentSet s) (s_log s) (s_top s) (s_bottom s) (s_coupling s)
      (s_delayed s) (s_phase s) js.
Definition set_s_log (g : log_t) (s : stack) : stack :=
  STK (s_kind s) (s_current s) (s_currentSet s) g (s_top s) (s_bottom s) (s_coupling s)
      (s_delayed s) (s_phase s) (s_js s).
Definition set_s_current (d : sdriver) (b : bool) (s : stack) : stack :=
  STK (s_kind s) d b (s_log s) (s_top s) (s_bottom s) (s_coupling s) (s_delayed s) (s_phase s) (s_js s).
Definition set_s_coupling (c : list R) (s : stack) : stack :=
  STK (s_kind s) (s_current s) (s_currentSet s) (s_log s) (s_top s) (s_bottom s) c
      (s_delayed s) (s_phase s) (s_js s).
Definition set_s_delayed (b : bool) (s : stack) : stack :=
  STK (s_kind s) (s_current s) (s_currentSet s) (s_log s) (s_top s) (s_bottom s) (s_coupling s)
      b (s_phase s) (s_js s).

(** core/stack.hpp:46-63, 334-339, 362-367 *)
Definition is_classic (j : junction) : bool := match j_mode j with MR_CLASSIC => true | _ => false end.
Definition mkStack (k : stack_kind) (js : list junction) (topId bottomId : string) (phase : R)
  : result stack :=
  if Nat.ltb (length js) 2 then Err (Throw "Stack must have at least 2 junctions!")
  else if existsb (fun j => negb (is_classic j)) js
  then Err (Throw "Junction has a non-classic magnetoresitance mode!")
  else Ok (STK k default_driver false [] topId bottomId [0] true phase js).

(** core/stack.hpp:65-73 *)
Definition getCoupling (s : stack) (order : nat) : result R :=
  match s_coupling s with
  | [] => Err (Throw "Coupling strength is not set!")
  | [c] => Ok c
  | cs => match nth_error cs order with Some c => Ok c | None => Err Undefined end
  end.
(** core/stack.hpp:202-212 *)
Fixpoint two_layer_members (js : list junction) : result bool :=
  match js with
  | [] => Ok true
  | j :: rest =>
      if Nat.leb 3 (layerNo j) then Err (Throw "At least one junction has more than 2 layers!")
      else if negb (Nat.eqb (layerNo j) 2) then Ok false
      else two_layer_members rest
  end.
Definition isTwoLayerMemberStack (s : stack) : result bool := two_layer_members (s_js s).
(** core/stack.hpp:75-81; [&&] evaluates the second operand only when [delay] is false. *)
Definition setDelayed (delay : bool) : ST stack unit :=
  s <- get ;;
  if delay then modify (set_s_delayed true)
  else two <- lift (isTwoLayerMemberStack s) ;;
       if two then modify (set_s_delayed false)
       else fail (Throw "Non delayed coupling is only supported for 2 layer stacks!").

(** A member call on [junctionList[id]]; an index past the end is undefined. *)
Fixpoint on_member {A} (id : nat) (f : ST junction A) (js : list junction) : list junction * result A :=
  match js, id with
  | [], _ => ([], Err Undefined)
  | j :: rest, O => match f j with (j', r) => (j' :: rest, r) end
  | j :: rest, S i => match on_member i f rest with (rest', r) => (j :: rest', r) end
  end.
Definition member_call {A} (id : nat) (f : ST junction A) : ST stack A :=
  fun s => match on_member id f (s_js s) with (js, r) => (set_s_js js s, r) end.
(** core/stack.hpp:83-86 *)
Definition stack_setMagnetisation (id : nat) (layerId : string) (m : cvec) : ST stack unit :=
  member_call id (setLayerMagnetisation layerId m).
(** core/stack.hpp:88-91 *)
Definition stack_getMagnetisation (s : stack) (id : nat) (layerId : string) : result cvec :=
  match nth_error (s_js s) id with
  | Some j => getLayerMagnetisation j layerId
  | None => Err Undefined
  end.
(** core/stack.hpp:93-95  [.at] throws std::out_of_range. *)
Definition getJunction (s : stack) (id : nat) : result junction :=
  match nth_error (s_js s) id with
  | Some j => Ok j
  | None => Err (Throw "vector::_M_range_check")
  end.
(** core/stack.hpp:97-101 *)
Definition setJunctionAnisotropyDriver (id : nat) (layerId : string) (k : sdriver) : ST stack unit :=
  member_call id (setLayerAnisotropyDriver layerId k).

(** [for (auto &j : junctionList) j.f()] *)
Fixpoint on_junctions (f : ST junction unit) (js : list junction) : list junction * result unit :=
  match js with
  | [] => ([], Ok tt)
  | j :: rest =>
      match f j with
      | (j', Err e) => (j' :: rest, Err e)
      | (j', Ok _) => match on_junctions f rest with (rest', r) => (j' :: rest', r) end
      end
  end.
Definition broadcast (f : ST junction unit) : ST stack unit :=
  fun s => match on_junctions f (s_js s) with (js, r) => (set_s_js js s, r) end.
(** core/stack.hpp:103-107 *)
Definition stack_setOerstedFieldDriver (d : adriver) : ST stack unit :=
  broadcast (setLayerOerstedFieldDriver "all" d).
(** core/stack.hpp:109-113 *)
Definition stack_setExternalFieldDriver (d : adriver) : ST stack unit :=
  broadcast (setLayerExternalFieldDriver "all" d).
(** core/stack.hpp:115-121  NullDriver is copied into a ScalarDriver member: sliced. *)
Definition resetCoupledCurrentDriver : ST stack unit :=
  s <- get ;;
  modify (set_s_current (slice DynNull) (s_currentSet s)) ;;;
  broadcast (setLayerCurrentDriver "all" (slice DynNull)) ;;;
  modify (set_s_current (slice DynNull) false).
(** core/stack.hpp:123-129 *)
Definition setCoupledCurrentDriver (d : sdriver) : ST stack unit :=
  s <- get ;;
  modify (set_s_current d (s_currentSet s)) ;;;
  broadcast (setLayerCurrentDriver "all" d) ;;;
  modify (set_s_current d true).

(** core/stack.hpp:131-150  the header is written from the log before [stackLog["time"]] may create
    the column; an empty name writes nothing. *)
Definition stack_saveLogs (fileSave : string) : ST stack (option (list string * list (list R))) :=
  s <- get ;;
  if String.eqb fileSave "" then ret None
  else match log_get "time" (s_log s) with
       | None => modify (set_s_log (s_log s ++ [("time"%string, [])])%list) ;;; ret (Some (map fst (s_log s), []))
       | Some times => rows <- lift (save_rows (length times) 0 (s_log s)) ;;
                       ret (Some (map fst (s_log s), rows))
       end.
(** core/stack.hpp:152-162 *)
Definition setCouplingStrength1 (c : R) : ST stack unit := modify (set_s_coupling [c]).
Definition setCouplingStrengthN (cs : list R) : ST stack unit :=
  s <- get ;;
  if Nat.eqb (length cs) (length (s_js s) - 1) then modify (set_s_coupling cs)
  else fail (Throw "Coupling strength vector must have size of stack size - 1!").

(** core/stack.hpp:164-170 *)
Fixpoint log_currents (j : nat) (currents : list R) (g : log_t) : log_t :=
  match currents with
  | [] => g
  | c :: rest => log_currents (S j) rest (log_push ("I_" ++ to_string j) c g)
  end.
Definition logStackData (t resistance : R) (timeCurrents : list R) : ST stack unit :=
  modify (fun s => set_s_log (log_push "time" t
    (log_currents 0 timeCurrents (log_push "Resistance" resistance (s_log s)))) s).
(** core/stack.hpp:172-177 *)
Definition clearLogs : ST stack unit := broadcast clearLog ;;; modify (set_s_log []).
(** core/stack.hpp:182-187 *)
Definition getJunctionLog (s : stack) (id : nat) : result log_t :=
  match nth_error (s_js s) id with
  | Some j => Ok (j_log j)
  | None => Err (Throw "Asking for id of a non-existing junction!")
  end.

(** core/stack.hpp:189-200 *)
Fixpoint same_polarisation (topId : string) (probe : cvec) (js : list junction) : result unit :=
  match js with
  | [] => Ok tt
  | j :: rest =>
      l <-- getLayer j topId ;;
      if veqb probe (l_reference l) then same_polarisation topId probe rest
      else Err (Throw "Polarisation vectors are not equal in stack")
  end.
Definition getPolarisationVector (s : stack) : result cvec :=
  match s_js s with
  | [] => Err Undefined
  | j :: rest =>
      l <-- getLayer j (s_top s) ;;
      _ <-- same_polarisation (s_top s) (l_reference l) rest ;;
      if Req_EM_T (vlength (l_reference l)) 0 then Err (Throw "Polarisation is not set!")
      else Ok (l_reference l)
  end.

(** core/stack.hpp:316-320, 343-348  resistances of zero put an infinity into the sum. *)
Fixpoint sum_inverses (rs : list R) (acc : R) : result R :=
  match rs with
  | [] => Ok acc
  | r :: rest => i <-- fdiv 1 r ;; sum_inverses rest (acc + i)
  end.
Definition calculateStackResistance (k : stack_kind) (rs : list R) : result R :=
  match k with
  | Series => Ok (fold_left Rplus rs 0)
  | Parallel => i <-- sum_inverses rs 0 ;; fdiv 1 i
  end.
(** core/stack.hpp:322-328, 350-356 *)
Definition getEffectiveCouplingStrength (s : stack) (order : nat) (m1 m2 p : cvec) : result R :=
  let m1Comp := c_dot m1 p in
  let m2Comp := c_dot m2 p in
  c <-- getCoupling s order ;;
  Ok (match s_kind s with
      | Series => c * (m1Comp + m2Comp)
      | Parallel => c * (m1Comp - m2Comp)
      end).
(** core/stack.hpp:330-332, 358-360 *)
Definition getPhaseOffset (s : stack) (order : nat) : R :=
  match s_kind s with Series => s_phase s * INR order | Parallel => s_phase s end.

(** core/stack.hpp:251-258  the magnetisations and polarisers stashed before a step. *)
Fixpoint freeze (s : stack) (two : bool) (js : list junction) : result (list (cvec * cvec)) :=
  match js with
  | [] => Ok []
  | j :: rest =>
      m <-- getLayerMagnetisation j (s_top s) ;;
      p <-- (if two then getLayerMagnetisation j (s_bottom s) else getPolarisationVector s) ;;
      fs <-- freeze s two rest ;;
      Ok ((m, p) :: fs)
  end.
(** core/stack.hpp:273-288  the coupling between junction [order] (already advanced: [prev]) and the
    next one ([cur], not yet advanced). *)
Definition couplingTerm (s : stack) (order : nat) (prev cur : junction) (fprev fcur : cvec * cvec)
  : result R :=
  if s_delayed s then getEffectiveCouplingStrength s order (fst fprev) (fst fcur) (snd fprev)
  else m1 <-- getLayerMagnetisation prev (s_top s) ;;
       m2 <-- getLayerMagnetisation cur (s_top s) ;;
       p <-- getLayerMagnetisation prev (s_bottom s) ;;
       getEffectiveCouplingStrength s order m1 m2 p.
(** core/stack.hpp:293-294 *)
Definition localDriver (s : stack) (order : nat) (eff : R) : result sdriver :=
  d <-- driver_mul (s_current s) eff ;;
  Ok (phaseShift d (getPhaseOffset s order)).
(** core/stack.hpp:296-302 *)
Definition member_step (r : runner) (t timeStep : R) (d : sdriver) : ST junction (R * R) :=
  setLayerCurrentDriver "all" d ;;;
  run_runner r t timeStep ;;;
  j <- get ;;
  res <- lift (getMagnetoresistance j) ;;
  r0 <- lift (match res with x :: _ => Ok x | [] => Err Undefined end) ;;
  c <- lift (getCurrentScalarValue d t) ;;
  ret (r0, c).
(** core/stack.hpp:259-303  the loop over the junctions; returns resistances and currents. *)
Fixpoint stack_loop (s : stack) (r : runner) (t timeStep : R) (order : nat) (eff : R)
    (prev : option (junction * (cvec * cvec))) (frozen : list (cvec * cvec)) (js : list junction)
  : list junction * result (list (R * R)) :=
  match js, frozen with
  | [], _ => ([], Ok [])
  | j :: rest, f :: frozen' =>
      match (match prev with
             | None => Ok eff
             | Some (pj, pf) => c <-- couplingTerm s (order - 1) pj j pf f ;; Ok (eff * (1 + c))
             end) with
      | Err e => (js, Err e)
      | Ok eff' =>
          match localDriver s order eff' with
          | Err e => (js, Err e)
          | Ok d =>
              match member_step r t timeStep d j with
              | (j', Err e) => (j' :: rest, Err e)
              | (j', Ok rc) =>
                  match stack_loop s r t timeStep (S order) eff' (Some (j', f)) frozen' rest with
                  | (rest', Err e) => (j' :: rest', Err e)
                  | (rest', Ok rcs) => (j' :: rest', Ok (rc :: rcs))
                  end
              end
          end
      end
  | _ :: _, [] => (js, Err Undefined)
  end.
Definition advance_members (r : runner) (two : bool) (t timeStep : R) : ST stack (list (R * R)) :=
  fun s =>
    match freeze s two (s_js s) with
    | Err e => (s, Err e)
    | Ok frozen =>
        match stack_loop s r t timeStep 0 1 None frozen (s_js s) with
        | (js, x) => (set_s_js js s, x)
        end
    end.
(** core/stack.hpp:304-309 *)
Definition log_members (t timeStep : R) (rcs : list (R * R)) : ST stack unit :=
  s <- get ;;
  magRes <- lift (calculateStackResistance (s_kind s) (map fst rcs)) ;;
  logStackData t magRes (map snd rcs) ;;;
  broadcast (logLayerParams t timeStep false).
(** core/stack.hpp:247-310  [n] iterations from counter [i]. *)
Fixpoint stack_sim (r : runner) (two : bool) (timeStep : R) (writeEvery : nat) (n i : nat)
  : ST stack unit :=
  match n with
  | O => ret tt
  | S n' =>
      let t := INR i * timeStep in
      rcs <- advance_members r two t timeStep ;;
      (if Nat.eqb writeEvery 0 then fail Undefined
       else if Nat.eqb (i mod writeEvery) 0 then log_members t timeStep rcs
       else ret tt) ;;;
      stack_sim r two timeStep writeEvery n' (S i)
  end.

(** [(int) x] assigned to an unsigned int: negative values wrap modulo 2^32. *)
Definition int_as_unsigned (x : R) : result nat :=
  z <-- to_int x ;; Ok (Z.to_nat (z mod 4294967296)).
(** core/stack.hpp:226-234  every junction picks its solver; the last runner stays. *)
Fixpoint pick_solvers (totalIterations : nat) (js : list junction)
  : list junction * result (list (runner * solver_mode)) :=
  match js with
  | [] => ([], Ok [])
  | j :: rest =>
      match getSolver RK4 totalIterations j with
      | (j', Err e) => (j' :: rest, Err e)
      | (j', Ok rm) =>
          match pick_solvers totalIterations rest with
          | (rest', Err e) => (j' :: rest', Err e)
          | (rest', Ok rms) => (j' :: rest', Ok (rm :: rms))
          end
      end
  end.
Definition mode_eqb (a b : solver_mode) : bool :=
  match a, b with
  | EULER_HEUN, EULER_HEUN | RK4, RK4 | DORMAND_PRICE, DORMAND_PRICE | HEUN, HEUN => true
  | _, _ => false
  end.
(** [std::equal(begin + 1, end, begin)] *)
Fixpoint all_equal (ms : list solver_mode) : bool :=
  match ms with
  | a :: ((b :: _) as rest) => mode_eqb b a && all_equal rest
  | _ => true
  end.
(** core/stack.hpp:214-311  the counts are computed before the write frequency is checked. *)
Definition stack_runSimulation (totalTime timeStep writeFrequency : R) : ST stack unit :=
  q2 <- lift (fdiv writeFrequency timeStep) ;;
  writeEvery <- lift (int_as_unsigned q2) ;;
  q1 <- lift (fdiv totalTime timeStep) ;;
  totalIterations <- lift (int_as_unsigned q1) ;;
  if Rlt_dec writeFrequency timeStep then
    fail (Throw "The time step cannot be larger than write frequency!")
  else
    rms <- (fun s => match pick_solvers totalIterations (s_js s) with
                     | (js, x) => (set_s_js js s, x)
                     end) ;;
    if negb (all_equal (map snd rms)) then fail (Throw "Junctions have different solver modes!")
    else
      s <- get ;;
      two <- lift (isTwoLayerMemberStack s) ;;
      stack_sim (last (map fst rms) RunMulti) two timeStep writeEvery totalIterations 0.
