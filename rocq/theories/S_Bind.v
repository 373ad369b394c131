(** What a call through the Python interface means, and what the stubs promise about it. *)
From Verif Require Export M_Bind.

(** Values the annotation of a parameter admits: int for float, as type checkers have it; "int" parameters are
    C++ unsigned, so they are read as 0..2^32-1. *)
Fixpoint Typed (t : ty) (v : val) {struct t} : Prop :=
  match t, v with
  | TDouble, (VFloat _ | VInt _ | VBool _) => True
  | TUInt, VInt z => (0 <= z < 2 ^ 32)%Z
  | TBool, VBool _ => True
  | TString, VStr _ => True
  | TFun, VFun _ => True
  | TObj c, VObj d _ => c = d
  | TVector t', VList vs => Forall (Typed t') vs
  | _, _ => False
  end.

(** [Given sig pos kw i v]: the call with positional arguments [pos] and keyword arguments [kw] passes [v] for parameter [i] of the signature. *)
Definition Given (sig : doc_sig) (pos : list val) (kw : kwargs) (i : nat) (v : val) : Prop :=
  nth_error pos i = Some v \/
  ((length pos <= i)%nat /\ exists k t n, nth_error sig i = Some (k, t, n) /\ In (k, v) kw).
(** The call is one the signature permits. *)
Definition Permitted (sig : doc_sig) (pos : list val) (kw : kwargs) : Prop :=
  (length pos <= length sig)%nat /\ NoDup (map fst kw) /\
  (forall k v, In (k, v) kw -> exists i t n, (length pos <= i)%nat /\ nth_error sig i = Some (k, t, n)) /\
  (forall i k t, nth_error sig i = Some (k, t, Required) -> exists v, Given sig pos kw i v) /\
  (forall i v k t n, Given sig pos kw i v -> nth_error sig i = Some (k, t, n) -> Typed t v).
(** 0 and 0.0 are the same default. *)
Definition SameValue (a b : val) : Prop := a = b \/ exists z, a = VInt z /\ b = VFloat (IZR z).
(** The call reaches the documented function with each value passed arriving at the parameter it was passed for, and
    with the documented default where none was passed. *)
Definition Honoured (target : string) (sig : doc_sig) (pos : list val) (kw : kwargs) (out : outcome) : Prop :=
  exists args, out = Called target args /\ length args = length sig /\
    (forall i v, Given sig pos kw i v -> nth_error args i = Some v) /\
    (forall i k t d, nth_error sig i = Some (k, t, Default d) -> (forall v, ~ Given sig pos kw i v) ->
       exists d', nth_error args i = Some d' /\ SameValue d d').
(** Every call the stub permits does what the stub says; the same for calls without keywords; no keyword is taken. *)
Definition Faithful (name : string) : Prop := forall target sig pos kw,
  In (target, sig) (documented name) -> Permitted sig pos kw -> Honoured target sig pos kw (call name pos kw).
Definition ByPosition (name : string) : Prop := forall target sig pos,
  In (target, sig) (documented name) -> Permitted sig pos [] -> Honoured target sig pos [] (call name pos []).
Definition NoKeywords (name : string) : Prop := forall pos kw, kw <> [] -> call name pos kw = TypeError.

(** The call of [name] serves the signature: all calls it permits do what it says. *)
Definition Serves (name target : string) (sig : doc_sig) : Prop := forall pos kw,
  Permitted sig pos kw -> Honoured target sig pos kw (call name pos kw).

(** Which Python value loads as which C++ parameter, without ([c = false]) and with conversion. *)
Inductive Loads (c : bool) : ty -> val -> Prop :=
| L_float r : Loads c TDouble (VFloat r)
| L_int_float z : c = true -> Loads c TDouble (VInt z)
| L_bool_float b : c = true -> Loads c TDouble (VBool b)
| L_uint z : (0 <= z < 2 ^ 32)%Z -> Loads c TUInt (VInt z)
| L_bool_uint b : Loads c TUInt (VBool b)
| L_bool b : Loads c TBool (VBool b)
| L_int_bool z : c = true -> Loads c TBool (VInt z)
| L_float_bool r : c = true -> Loads c TBool (VFloat r)
| L_none_bool : c = true -> Loads c TBool VNone
| L_str s : Loads c TString (VStr s)
| L_fun i : Loads c TFun (VFun i)
| L_none_fun : c = true -> Loads c TFun VNone
| L_obj k i : Loads c (TObj k) (VObj k i)
| L_list t vs : (forall v, In v vs -> Loads c t v) -> Loads c (TVector t) (VList vs)
| L_vector i : Loads c (TVector TDouble) (VObj KVector i).

(** [Takes convert o pos kw args]: overload [o] accepts the call and receives [args]. *)
Definition Takes (convert : bool) (o : ov) (pos : list val) (kw : kwargs) (args : list val) : Prop :=
  length args = length (params o) /\ (length pos <= length (params o))%nat /\
  (forall k v, In (k, v) kw -> exists i p, (length pos <= i)%nat /\ nth_error (params o) i = Some p /\ p_kw p = Some k) /\
  (forall i v, nth_error pos i = Some v -> nth_error args i = Some v) /\
  (forall i p, (length pos <= i)%nat -> nth_error (params o) i = Some p -> exists v, nth_error args i = Some v /\
     ((exists k, p_kw p = Some k /\ In (k, v) kw) \/ (p_def p = Some v /\ forall k w, p_kw p = Some k -> ~ In (k, w) kw))) /\
  (forall i p v, nth_error (params o) i = Some p -> nth_error args i = Some v -> Loads convert (p_ty p) v).
Definition Refuses (convert : bool) (os : list ov) (pos : list val) (kw : kwargs) : Prop :=
  forall o args, In o os -> ~ Takes convert o pos kw args.
(** The first overload in the order of the bindings that takes the call. *)
Definition First (convert : bool) (os : list ov) (pos : list val) (kw : kwargs) (target : string) (args : list val) : Prop :=
  exists before o after, os = before ++ o :: after /\ Refuses convert before pos kw /\ Takes convert o pos kw args /\ target = o_target o.

(** Sorting of the documented functions. *)
Definition faithful_names : list string :=
  [ "sineDriver"; "gaussianImpulseDriver"; "gaussianStepDriver"; "posSineDriver"; "pulseDriver"; "stepDriver"; "trapezoidDriver";
    "ScalarDriver.getCurrentScalarValue"; "ScalarDriver.getConstantDriver"; "ScalarDriver.getPulseDriver"; "ScalarDriver.getStepDriver"; "ScalarDriver.getTrapezoidDriver";
    "ScalarDriver.getGaussianImpulseDriver"; "ScalarDriver.getGaussianStepDriver"; "ScalarDriver.getPosSineDriver";
    "Junction.getLayer"; "Layer.createSTTLayer"; "Layer.getId";
    "ParallelStack.runSimulation"; "ParallelStack.setCoupledCurrentDriver"; "ParallelStack.setCouplingStrength"; "ParallelStack.setExternalFieldDriver"; "ParallelStack.getMagnetisation"; "ParallelStack.getJunction";
    "SeriesStack.runSimulation"; "SeriesStack.setCoupledCurrentDriver"; "SeriesStack.setCouplingStrength"; "SeriesStack.setExternalFieldDriver"; "SeriesStack.getMagnetisation"; "SeriesStack.getJunction";
    "GroupInteraction"; "Reservoir"; "reservoir.computeDipoleInteraction"; "reservoir.computeDipoleInteractionNoumra"; "reservoir.nullDipoleInteraction";
    "BufferedAlphaNoise"; "VectorAlphaNoise"; "LLGBJunction"; "LLGBJunction.runSimulation"; "LLGBLayer"; "llgb.MFAWeissCurie" ]%string.
Definition positional_names : list string :=
  [ "c_dot"; "AxialDriver"; "AxialDriver.applyMask"; "CVector"; "Junction.getLayerMagnetisation"; "Junction.setIECDriver"; "Junction.setQuadIECDriver";
    "Junction.setLayerTemperatureDriver"; "Junction.setLayerAnisotropyDriver"; "Junction.setLayerCurrentDriver"; "Junction.setLayerExternalFieldDriver";
    "Junction.setLayerMagnetisation"; "Junction.setLayerOerstedFieldDriver"; "Junction.setLayerDampingLikeTorqueDriver"; "Junction.setLayerFieldLikeTorqueDriver"; "Junction.setLayerOneFNoise";
    "Layer.setAnisotropyDriver"; "Layer.setTemperatureDriver"; "Layer.setExternalFieldDriver"; "Layer.setMagnetisation"; "Layer.setOerstedFieldDriver"; "Layer.setDampingLikeTorqueDriver";
    "Layer.setFieldLikeTorqueDriver"; "Layer.setReferenceLayer"; "Layer.setTopDipoleTensor"; "Layer.setBottomDipoleTensor"; "Layer.setAlternativeSTT"; "Layer.setKappa";
    "ParallelStack.getLog"; "SeriesStack.getLog"; "GroupInteraction.setInteractionFunction";
    "Reservoir.getLayer"; "Reservoir.getMagnetisation"; "Reservoir.runSimulation"; "Reservoir.saveLogs"; "Reservoir.setAllExternalField"; "Reservoir.setLayerAnisotropy"; "Reservoir.setLayerExternalField";
    "LLGBJunction.saveLogs"; "LLGBJunction.setLayerExternalFieldDriver"; "LLGBJunction.setLayerTemperatureDriver";
    "LLGBLayer.setAnisotropyDriver"; "LLGBLayer.setExternalFieldDriver"; "LLGBLayer.setTemperatureDriver"; "llgb.langevin"; "llgb.langevinDerivative" ]%string.
(** Functions whose stub promises something the binding does not do. *)
Definition departing_names : list string :=
  [ "constantDriver"; "AxialDriver.getCurrentAxialDrivers"; "ScalarDriver.getSineDriver"; "Junction"; "Junction.runSimulation"; "Layer"; "Layer.createSOTLayer";
    "ParallelStack"; "ParallelStack.setMagnetisation"; "SeriesStack"; "SeriesStack.setMagnetisation"; "GroupInteraction.getLog"; "GroupInteraction.runSimulation" ]%string.

Local Open Scope string_scope.
(** Arguments of the documented types, by position. *)
Definition DocTyped (sig : doc_sig) (pos : list val) : Prop := Forall2 (fun '(_, t, _) v => Typed t v) sig pos.
(** The stubs of Layer (cmtj/__init__.pyi) and of Junction.runSimulation. *)
Definition layer_documented : doc_sig := (doc_layer ++ [op "temperature" D; op "damping" D])%list.
Definition run_documented : doc_sig := (doc_run ++ [op "persist" B; op "log" B; op "calculateEnergies" B])%list.
(** Functions and keywords of their stubs that no overload knows. *)
Definition strange : list (string * string) :=
  [("constantDriver", "constant"); ("AxialDriver.getCurrentAxialDrivers", "arg0"); ("SeriesStack", "topId"); ("ParallelStack", "topId");
   ("SeriesStack.setMagnetisation", "junctionId"); ("ParallelStack.setMagnetisation", "junctionId"); ("Layer", "temperature"); ("Junction.runSimulation", "persist")].
(** Signatures that the departing and some undocumented functions do serve, with the defaults the stubs leave out. *)
Definition real_signatures : list (string * string * doc_sig) :=
  let stack c := [(c, c, [rq "junctionList" (TVector Ju); df "topId_a" St (VStr "free"); df "bottomId" St (VStr "bottom"); df "phaseOffset" D (VInt 0)]);
                  (c ++ ".setMagnetisation", "Stack::setMagnetisation", [rq "junction" U; rq "layerId" St; rq "mag" V]);
                  (c ++ ".setDelayed", "Stack::setDelayed", [rq "delayed" B]);
                  (c ++ ".setJunctionAnisotropyDriver", "Stack::setJunctionAnisotropyDriver", [rq "junctionId" U; rq "layerId" St; rq "k" SDr])] in
  ([("constantDriver", "ScalarDriver::getConstantDriver", [rq "value" D]);
    ("AxialDriver.getCurrentAxialDrivers", "AxialDriver::getCurrentAxialDrivers", [rq "time" D]);
    ("ScalarDriver.getSineDriver", "ScalarDriver::getSineDriver", doc4 "frequency" "phase");
    ("Layer", "Layer", doc_layer ++ [df "damping" D (fl 0.011)]);
    ("Layer.createSOTLayer", "Layer::LayerSOT", doc_layer ++ [df "damping" D (fl 0.011); df "fieldLikeTorque" D (VInt 0); df "dampingLikeTorque" D (VInt 0)]);
    ("Junction.runSimulation", "Junction::runSimulation", [rq "totalTime" D; df "timeStep" D (fl 1e-13); df "writeFrequency" D (fl 1e-11); df "log" B (VBool false); df "calculateEnergies" B (VBool false); df "solverMode" (TObj KSolverMode) mode_RK4]);
    ("LLGBJunction.runSimulation", "LLGBJunction::runSimulation", [rq "totalTime" D; df "timeStep" D (fl 1e-13); df "writeFrequency" D (fl 1e-11); df "log" B (VBool false); df "solverMode" (TObj KSolverMode) mode_HEUN]);
    ("SeriesStack.runSimulation", "Stack::runSimulation", [rq "totalTime" D; df "timeStep" D (fl 1e-13); df "writeFrequency" D (fl 1e-11)]);
    ("ParallelStack.runSimulation", "Stack::runSimulation", [rq "totalTime" D; df "timeStep" D (fl 1e-13); df "writeFrequency" D (fl 1e-11)]);
    ("GroupInteraction.runSimulation", "GroupInteraction::runSimulation", [rq "totalTime" D; df "timeStep" D (fl 1e-13); df "writeFrequency" D (fl 1e-11)]);
    ("llgb.MFAWeissCurie", "LLGB::MFAWeissCurie", [rq "me" D; rq "T" D; rq "J0" D; df "relax" D (fl 0.2); df "tolerance" D (fl 1e-6); df "maxIter" U (VInt 1000)]);
    ("Junction.saveLog", "Junction::saveLogs", [rq "filename" St])] ++ stack "SeriesStack" ++ stack "ParallelStack")%list.
(** Python keywords that are not the name of the C++ parameter: function, keyword, C++ name. *)
Definition renamed : list (string * string * string) :=
  let stack c := [(c, "junctionList", "jL"); (c, "topId_a", "topId"); (c ++ ".setMagnetisation", "junction", "junctionId"); (c ++ ".getMagnetisation", "junction", "junctionId");
    (c ++ ".setCoupledCurrentDriver", "driver", "cDriver"); (c ++ ".setExternalFieldDriver", "driver", "fDriver"); (c ++ ".setDelayed", "delayed", "delay")]%string in
  ([("constantDriver", "value", "constantValue"); ("llgb.MFAWeissCurie", "me", "est"); ("llgb.MFAWeissCurie", "T", "temp"); ("llgb.MFAWeissCurie", "tolerance", "tol");
   ("Junction", "layers", "layersToSet"); ("Junction.runSimulation", "solverMode", "mode"); ("Junction.getLayer", "layerId", "layerID");
   ("LLGBLayer", "cellSurface", "surface"); ("LLGBJunction.runSimulation", "solverMode", "mode")]%string ++ stack "SeriesStack"%string ++ stack "ParallelStack"%string)%list.
(** Functions bound but absent from the stubs. *)
Definition undocumented_names : list string :=
  [ "Layer.setHdmiDriver"; "Layer.setAlphaNoise"; "Layer.setOneFNoise"; "Junction.saveLog"; "Junction.setLayerHdmiDriver"; "Junction.setIDMIDriver";
    "Junction.setLayerNonStochasticLangevinDriver"; "Junction.setLayerReferenceType"; "Junction.setLayerReferenceLayer"; "Junction.setLayerAlternativeSTT";
    "SeriesStack.setDelayed"; "SeriesStack.setJunctionAnisotropyDriver"; "ParallelStack.setDelayed"; "ParallelStack.setJunctionAnisotropyDriver" ]%string.

(** Iterating over an object without __iter__ asks for items 0, 1, 2, ... and ends at the first IndexError. *)
Definition IterationEnds {A} (get : Z -> item A) : Prop := exists n : nat, get (Z.of_nat n) = IndexErr.
