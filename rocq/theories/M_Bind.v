(** Model of the Python interface: python/cmtj.cpp (what is bound, with which keywords and defaults), the
    dispatcher of pybind11 as far as these bindings use it, and the signatures documented in the stubs
    cmtj/__init__.pyi and cmtj/{stack,reservoir,noise,llgb}/__init__.pyi.
    Objects are opaque (class and identity; a NullDriver is a ScalarDriver).  Not modelled: numpy scalars, classes
    with __float__ or __index__ (so neither enumeration members used as numbers), integers too large for a double,
    tuples and other sequences instead of lists, and py::implicitly_convertible<list, CVector> (cmtj.cpp:122-123),
    which calls CVector with the list as only argument, a call no overload accepts, and so converts nothing.
    Methods are modelled without self. *)
From Verif Require Export Base.
From Coq Require Import Reals ZArith List String.
Import ListNotations.
Local Open Scope string_scope.

Inductive cls := KVector | KScalarDriver | KAxialDriver | KLayer | KJunction | KLLGBLayer | KAxis | KReference | KSolverMode.
(** Python values; [VObj] is an instance of a bound class. *)
Inductive val := VNone | VBool (b : bool) | VInt (z : Z) | VFloat (r : R) | VStr (s : string) | VFun (i : nat)
  | VObj (c : cls) (i : nat) | VList (vs : list val).
(** Types of C++ parameters. *)
Inductive ty := TDouble | TUInt | TBool | TString | TFun | TObj (c : cls) | TVector (t : ty).
Definition cls_eqb (a b : cls) : bool :=
  match a, b with
  | KVector, KVector | KScalarDriver, KScalarDriver | KAxialDriver, KAxialDriver | KLayer, KLayer | KJunction, KJunction
  | KLLGBLayer, KLLGBLayer | KAxis, KAxis | KReference, KReference | KSolverMode, KSolverMode => true
  | _, _ => false
  end.
(** pybind11 type casters: what loads as which parameter, without and with conversion.  A vector of numbers
    also loads from a CVector, which has __len__ and __getitem__ and so passes for a sequence. *)
Fixpoint load (convert : bool) (t : ty) (v : val) {struct t} : bool :=
  match t, v with
  | TDouble, VFloat _ => true
  | TDouble, (VInt _ | VBool _) => convert
  | TUInt, VInt z => ((0 <=? z) && (z <? 4294967296))%Z
  | TUInt, VBool _ => true
  | TBool, VBool _ => true
  | TBool, (VInt _ | VFloat _ | VNone) => convert
  | TString, VStr _ => true
  | TFun, VFun _ => true
  | TFun, VNone => convert
  | TObj c, VObj d _ => cls_eqb c d
  | TVector t', VList vs => forallb (load convert t') vs
  | TVector t', VObj KVector _ => match t' with TDouble => true | _ => false end
  | _, _ => false
  end.

(** One bound C++ function: its name, its parameters (names and types of the header) and the keywords with
    defaults given in cmtj.cpp; no keywords at all for bindings without py::arg. *)
Record ov := Ov { o_target : string; o_sig : list (string * ty); o_kws : list (string * option val) }.
Record param := Pm { p_kw : option string; p_ty : ty; p_def : option val }.
Definition params (o : ov) : list param :=
  match o_kws o with
  | [] => map (fun '(_, t) => Pm None t None) (o_sig o)
  | ks => map (fun '((k, d), (_, t)) => Pm (Some k) t d) (combine ks (o_sig o))
  end.

Definition kwargs := list (string * val).
Fixpoint kw_get (k : string) (kw : kwargs) : option val :=
  match kw with [] => None | (k', v) :: r => if String.eqb k k' then Some v else kw_get k r end.
(** pybind11.h, cpp_function::dispatcher: positional arguments first (a keyword for one of them rejects the
    overload), then keywords, then defaults; left-over arguments of either kind reject it. *)
Fixpoint fill (ps : list param) (pos : list val) (kw : kwargs) : option (list val) :=
  match ps, pos with
  | [], [] => Some []
  | [], _ :: _ => None
  | p :: ps', v :: pos' =>
      match p_kw p with
      | Some k => match kw_get k kw with Some _ => None | None => option_map (cons v) (fill ps' pos' kw) end
      | None => option_map (cons v) (fill ps' pos' kw)
      end
  | p :: ps', [] =>
      let given := match p_kw p with Some k => kw_get k kw | None => None end in
      match given, p_def p with
      | Some v, _ => option_map (cons v) (fill ps' [] kw)
      | None, Some v => option_map (cons v) (fill ps' [] kw)
      | None, None => None
      end
  end.
Definition known (ps : list param) (k : string) : bool :=
  existsb (fun p => match p_kw p with Some k' => String.eqb k k' | None => false end) ps.
Definition bind_call (ps : list param) (pos : list val) (kw : kwargs) : option (list val) :=
  match fill ps pos kw with
  | Some vs => if forallb (fun '(k, _) => known ps k) kw then Some vs else None
  | None => None
  end.
Fixpoint load_all (convert : bool) (ps : list param) (vs : list val) : bool :=
  match ps, vs with
  | [], [] => true
  | p :: ps', v :: vs' => load convert (p_ty p) v && load_all convert ps' vs'
  | _, _ => false
  end.
Inductive outcome := Called (target : string) (args : list val) | TypeError.
Fixpoint attempt (convert : bool) (os : list ov) (pos : list val) (kw : kwargs) : outcome :=
  match os with
  | [] => TypeError
  | o :: os' =>
      match bind_call (params o) pos kw with
      | Some vs => if load_all convert (params o) vs then Called (o_target o) vs else attempt convert os' pos kw
      | None => attempt convert os' pos kw
      end
  end.
(** Overloaded functions are first tried without conversions. *)
Definition dispatch (os : list ov) (pos : list val) (kw : kwargs) : outcome :=
  match os with
  | _ :: _ :: _ => match attempt false os pos kw with TypeError => attempt true os pos kw | c => c end
  | _ => attempt true os pos kw
  end.

(** ** python/cmtj.cpp *)
Definition D := TDouble. Definition U := TUInt. Definition St := TString. Definition B := TBool.
Definition V := TObj KVector. Definition SDr := TObj KScalarDriver. Definition ADr := TObj KAxialDriver.
Definition La := TObj KLayer. Definition Ju := TObj KJunction.
Definition req (k : string) : string * option val := (k, None).
Definition dfl (k : string) (v : val) : string * option val := (k, Some v).
Definition fl (r : R) : val := VFloat r.
(** Members of the enumerations used as defaults. *)
Definition axis_all : val := VObj KAxis 3.
Definition mode_RK4 : val := VObj KSolverMode 1.
Definition mode_HEUN : val := VObj KSolverMode 3.

Definition sig4 (a b : string) : list (string * ty) := [("constantValue", D); ("amplitude", D); (a, D); (b, D)].
Definition kws4 (a b : string) : list (string * option val) := [req "constantValue"; req "amplitude"; req a; req b].
Definition trapezoid_sig : list (string * ty) := [("constantValue", D); ("amplitude", D); ("timeStart", D); ("edgeTime", D); ("steadyTime", D)].
Definition trapezoid_kws : list (string * option val) := [req "constantValue"; req "amplitude"; req "timeStart"; req "edgeTime"; req "steadyTime"].
Definition layer_sig : list (string * ty) :=
  [("id", St); ("mag", V); ("anis", V); ("Ms", D); ("thickness", D); ("cellSurface", D); ("demagTensor", TVector V); ("damping", D)].
Definition layer_kws (damping : string * option val) : list (string * option val) :=
  [req "id"; req "mag"; req "anis"; req "Ms"; req "thickness"; req "cellSurface"; req "demagTensor"; damping].
Definition dipole_sig : list (string * ty) := [("r1", V); ("r2", V); ("layer1", La); ("layer2", La)].
Definition dipole_kws : list (string * option val) := [req "r1"; req "r2"; req "layer1"; req "layer2"].
Definition run_kws : list (string * option val) := [req "totalTime"; dfl "timeStep" (fl 1e-13); dfl "writeFrequency" (fl 1e-11)].
Definition run_sig : list (string * ty) := [("totalTime", D); ("timeStep", D); ("writeFrequency", D)].

(** cmtj.cpp:40-97, 150-176: the driver functions and the static methods of the same signature. *)
Definition drivers (constant_kw : string) (names : list string) : list (string * list ov) :=
  match names with
  | [c; p; s; q; st; tr; gi; gs] =>
    [ (c, [Ov "ScalarDriver::getConstantDriver" [("constantValue", D)] [req constant_kw]]);
      (p, [Ov "ScalarDriver::getPulseDriver" (sig4 "period" "cycle") (kws4 "period" "cycle")]);
      (s, [Ov "ScalarDriver::getSineDriver" (sig4 "frequency" "phase") (kws4 "frequency" "phase")]);
      (q, [Ov "ScalarDriver::getPosSineDriver" (sig4 "frequency" "phase") (kws4 "frequency" "phase")]);
      (st, [Ov "ScalarDriver::getStepDriver" (sig4 "timeStart" "timeStop") (kws4 "timeStart" "timeStop")]);
      (tr, [Ov "ScalarDriver::getTrapezoidDriver" trapezoid_sig trapezoid_kws]);
      (gi, [Ov "ScalarDriver::getGaussianImpulseDriver" (sig4 "t0" "sigma") (kws4 "t0" "sigma")]);
      (gs, [Ov "ScalarDriver::getGaussianStepDriver" (sig4 "t0" "sigma") (kws4 "t0" "sigma")]) ]
  | _ => []
  end.
Definition function_bindings : list (string * list ov) :=
  drivers "value" ["constantDriver"; "pulseDriver"; "sineDriver"; "posSineDriver"; "stepDriver"; "trapezoidDriver"; "gaussianImpulseDriver"; "gaussianStepDriver"] ++
  [ ("c_dot", [Ov "c_dot" [("a", V); ("b", V)] []]);
    ("reservoir.nullDipoleInteraction", [Ov "nullDipoleInteraction" dipole_sig dipole_kws]);
    ("reservoir.computeDipoleInteraction", [Ov "computeDipoleInteraction" dipole_sig dipole_kws]);
    ("reservoir.computeDipoleInteractionNoumra", [Ov "computeDipoleInteractionNoumra" dipole_sig dipole_kws]);
    ("llgb.MFAWeissCurie", [Ov "LLGB::MFAWeissCurie" [("est", D); ("temp", D); ("J0", D); ("relax", D); ("tol", D); ("maxIter", U)]
       [req "me"; req "T"; req "J0"; dfl "relax" (fl 0.2); dfl "tolerance" (fl 1e-6); dfl "maxIter" (VInt 1000)]]);
    ("llgb.langevin", [Ov "LLGB::langevin" [("x", D)] []]);
    ("llgb.langevinDerivative", [Ov "LLGB::langevinDerivative" [("x", D)] []]) ].
(** cmtj.cpp:150-197 *)
Definition driver_bindings : list (string * list ov) :=
  drivers "constantValue" ["ScalarDriver.getConstantDriver"; "ScalarDriver.getPulseDriver"; "ScalarDriver.getSineDriver"; "ScalarDriver.getPosSineDriver";
    "ScalarDriver.getStepDriver"; "ScalarDriver.getTrapezoidDriver"; "ScalarDriver.getGaussianImpulseDriver"; "ScalarDriver.getGaussianStepDriver"] ++
  [ ("ScalarDriver.getCurrentScalarValue", [Ov "ScalarDriver::getCurrentScalarValue" [("time", D)] [req "time"]]);
    ("AxialDriver", [Ov "AxialDriver(drivers)" [("x", SDr); ("y", SDr); ("z", SDr)] []; Ov "AxialDriver(vector)" [("axialDrivers", TVector SDr)] [];
                     Ov "AxialDriver(numbers)" [("x", D); ("y", D); ("z", D)] []; Ov "AxialDriver(CVector)" [("xyz", V)] []]);
    ("AxialDriver.getCurrentAxialDrivers", [Ov "AxialDriver::getCurrentAxialDrivers" [("time", D)] [req "time"]]);
    ("AxialDriver.applyMask", [Ov "AxialDriver::applyMask(CVector)" [("mask", V)] []; Ov "AxialDriver::applyMask(vector)" [("mask", TVector U)] []]);
    ("CVector", [Ov "CVector" [("x", D); ("y", D); ("z", D)] []]) ].
(** cmtj.cpp:187: a static function bound with .def, so that calling it on an instance passes the instance first. *)
Definition getVectorAxialDriver_binding : list ov := [Ov "AxialDriver::getVectorAxialDriver" [("x", D); ("y", D); ("z", D)] []].
(** cmtj.cpp:200-245 *)
Definition layer_bindings : list (string * list ov) :=
  let one t n := [Ov ("Layer::" ++ n) [("driver", t)] []] in
  [ ("Layer", [Ov "Layer" layer_sig (layer_kws (dfl "damping" (fl 0.011)))]);
    ("Layer.createSOTLayer", [Ov "Layer::LayerSOT" (layer_sig ++ [("fieldLikeTorque", D); ("dampingLikeTorque", D)])
       (layer_kws (dfl "damping" (fl 0.011)) ++ [dfl "fieldLikeTorque" (fl 0); dfl "dampingLikeTorque" (fl 0)])]);
    ("Layer.createSTTLayer", [Ov "Layer::LayerSTT" (layer_sig ++ [("SlonczewskiSpacerLayerParameter", D); ("beta", D); ("spinPolarisation", D)])
       (layer_kws (dfl "damping" (fl 0.011)) ++ [dfl "SlonczewskiSpacerLayerParameter" (fl 1); dfl "beta" (fl 0); dfl "spinPolarisation" (fl 0)])]);
    ("Layer.setMagnetisation", [Ov "Layer::setMagnetisation" [("mag", V)] []]);
    ("Layer.setAnisotropyDriver", one SDr "setAnisotropyDriver"); ("Layer.setExternalFieldDriver", one ADr "setExternalFieldDriver");
    ("Layer.setOerstedFieldDriver", one ADr "setOerstedFieldDriver"); ("Layer.setHdmiDriver", one ADr "setHdmiDriver");
    ("Layer.setReferenceLayer", [Ov "Layer::setReferenceLayer(CVector)" [("reference", V)] []; Ov "Layer::setReferenceLayer(Reference)" [("reference", TObj KReference)] []]);
    ("Layer.setFieldLikeTorqueDriver", one SDr "setFieldLikeTorqueDriver"); ("Layer.setDampingLikeTorqueDriver", one SDr "setDampingLikeTorqueDriver");
    ("Layer.setTemperatureDriver", one SDr "setTemperatureDriver");
    ("Layer.setTopDipoleTensor", [Ov "Layer::setTopDipoleTensor" [("dipoleTensor", TVector V)] []]);
    ("Layer.setBottomDipoleTensor", [Ov "Layer::setBottomDipoleTensor" [("dipoleTensor", TVector V)] []]);
    ("Layer.setKappa", [Ov "Layer::setKappa" [("kappa", D)] []]); ("Layer.setAlternativeSTT", [Ov "Layer::setAlternativeSTT" [("alternativeSTT", B)] []]);
    ("Layer.setAlphaNoise", [Ov "Layer::setAlphaNoise" [("alpha", D); ("std", D); ("scale", D); ("axis", TObj KAxis)] []]);
    ("Layer.setOneFNoise", [Ov "Layer::setOneFNoise" [("sources", U); ("bias", D); ("scale", D)] []]);
    ("Layer.getId", [Ov "Layer::getId" [] []]) ].
(** cmtj.cpp:247-305 *)
Definition junction_bindings : list (string * list ov) :=
  let two t n := [Ov ("Junction::" ++ n) [("layerID", St); ("driver", t)] []] in
  [ ("Junction", [Ov "Junction(layers)" [("layersToSet", TVector La)] [req "layers"];
      Ov "Junction(layers, Rp, Rap)" [("layersToSet", TVector La); ("Rp", D); ("Rap", D)] [req "layers"; dfl "Rp" (VInt 100); dfl "Rap" (VInt 200)];
      Ov "Junction(strip)" [("layersToSet", TVector La); ("Rx0", TVector D); ("Ry0", TVector D); ("AMR_X", TVector D); ("AMR_Y", TVector D); ("SMR_X", TVector D); ("SMR_Y", TVector D); ("AHE", TVector D)]
        [req "layers"; req "Rx0"; req "Ry0"; req "AMR_X"; req "AMR_Y"; req "SMR_X"; req "SMR_Y"; req "AHE"]]);
    ("Junction.saveLog", [Ov "Junction::saveLogs" [("filename", St)] [req "filename"]]);
    ("Junction.runSimulation", [Ov "Junction::runSimulation" (run_sig ++ [("log", B); ("calculateEnergies", B); ("mode", TObj KSolverMode)])
       (run_kws ++ [dfl "log" (VBool false); dfl "calculateEnergies" (VBool false); dfl "solverMode" mode_RK4])]);
    ("Junction.setLayerOerstedFieldDriver", two ADr "setLayerOerstedFieldDriver"); ("Junction.setLayerExternalFieldDriver", two ADr "setLayerExternalFieldDriver");
    ("Junction.setLayerCurrentDriver", two SDr "setLayerCurrentDriver"); ("Junction.setLayerAnisotropyDriver", two SDr "setLayerAnisotropyDriver");
    ("Junction.setLayerMagnetisation", [Ov "Junction::setLayerMagnetisation" [("layerID", St); ("mag", V)] []]); ("Junction.setLayerHdmiDriver", two ADr "setLayerHdmiDriver");
    ("Junction.setIECDriver", [Ov "Junction::setIECDriver" [("bottomLayer", St); ("topLayer", St); ("driver", SDr)] []]);
    ("Junction.setQuadIECDriver", [Ov "Junction::setQuadIECDriver" [("bottomLayer", St); ("topLayer", St); ("driver", SDr)] []]);
    ("Junction.setIDMIDriver", [Ov "Junction::setIDMIDriver" [("bottomLayer", St); ("topLayer", St); ("driver", ADr)] []]);
    ("Junction.setLayerTemperatureDriver", two SDr "setLayerTemperatureDriver"); ("Junction.setLayerNonStochasticLangevinDriver", two SDr "setLayerNonStochasticLangevinDriver");
    ("Junction.setLayerOneFNoise", [Ov "Junction::setLayerOneFNoise" [("layerID", St); ("sources", U); ("bias", D); ("scale", D)] []]);
    ("Junction.setLayerFieldLikeTorqueDriver", two SDr "setLayerFieldLikeTorqueDriver"); ("Junction.setLayerDampingLikeTorqueDriver", two SDr "setLayerDampingLikeTorqueDriver");
    ("Junction.setLayerReferenceType", [Ov "Junction::setLayerReferenceType" [("layerID", St); ("referenceType", TObj KReference)] []]);
    ("Junction.setLayerReferenceLayer", [Ov "Junction::setLayerReferenceLayer" [("layerID", St); ("referenceLayer", V)] []]);
    ("Junction.setLayerAlternativeSTT", [Ov "Junction::setLayerAlternativeSTT" [("layerID", St); ("alternative", B)] []]);
    ("Junction.getLayerMagnetisation", [Ov "Junction::getLayerMagnetisation" [("layerID", St)] []]);
    ("Junction.getLayer", [Ov "Junction::getLayer" [("layerID", St)] [req "layerId"]]) ].
(** cmtj.cpp:307-376, for SeriesStack and for ParallelStack *)
Definition stack_bindings (c : string) : list (string * list ov) :=
  [ (c, [Ov c [("jL", TVector Ju); ("topId", St); ("bottomId", St); ("phaseOffset", D)] [req "junctionList"; dfl "topId_a" (VStr "free"); dfl "bottomId" (VStr "bottom"); dfl "phaseOffset" (fl 0)]]);
    (c ++ ".runSimulation", [Ov "Stack::runSimulation" run_sig run_kws]);
    (c ++ ".setMagnetisation", [Ov "Stack::setMagnetisation" [("junctionId", U); ("layerId", St); ("mag", V)] [req "junction"; req "layerId"; req "mag"]]);
    (c ++ ".getMagnetisation", [Ov "Stack::getMagnetisation" [("junctionId", U); ("layerId", St)] [req "junction"; req "layerId"]]);
    (c ++ ".setCoupledCurrentDriver", [Ov "Stack::setCoupledCurrentDriver" [("cDriver", SDr)] [req "driver"]]);
    (c ++ ".setExternalFieldDriver", [Ov "Stack::setExternalFieldDriver" [("fDriver", ADr)] [req "driver"]]);
    (c ++ ".setCouplingStrength", [Ov "Stack::setCouplingStrength(number)" [("coupling", D)] [req "coupling"]; Ov "Stack::setCouplingStrength(vector)" [("coupling", TVector D)] [req "coupling"]]);
    (c ++ ".setDelayed", [Ov "Stack::setDelayed" [("delay", B)] [req "delayed"]]);
    (c ++ ".getJunction", [Ov "Stack::getJunction" [("junctionId", U)] [req "junctionId"]]);
    (c ++ ".setJunctionAnisotropyDriver", [Ov "Stack::setJunctionAnisotropyDriver" [("junctionId", U); ("layerId", St); ("k", SDr)] [req "junctionId"; req "layerId"; req "k"]]);
    (c ++ ".getLog", [Ov "Stack::getLog(id)" [("id", U)] []; Ov "Stack::getLog()" [] []]) ].
(** cmtj.cpp:385-407 *)
Definition reservoir_bindings : list (string * list ov) :=
  [ ("GroupInteraction", [Ov "GroupInteraction" [("coordinateMatrix", TVector V); ("junctionList", TVector Ju); ("topId", St)] [req "coordinateMatrix"; req "junctionList"; dfl "topId" (VStr "free")]]);
    ("GroupInteraction.setInteractionFunction", [Ov "GroupInteraction::setInteractionFunction" [("interactionFunc", TFun)] []]);
    ("GroupInteraction.runSimulation", [Ov "GroupInteraction::runSimulation" run_sig run_kws]);
    ("GroupInteraction.getLog", [Ov "GroupInteraction::getLog(id)" [("id", U)] []; Ov "GroupInteraction::getLog(id)" [("id", U)] []]);
    ("Reservoir", [Ov "Reservoir" [("coordinateMatrix", TVector (TVector V)); ("layerMatrix", TVector (TVector La))] [req "coordinateMatrix"; req "layerMatrix"]]);
    ("Reservoir.runSimulation", [Ov "Reservoir::runSimulation" [("totalTime", D); ("timeStep", D)] []]);
    ("Reservoir.saveLogs", [Ov "Reservoir::saveLogs" [("fileSave", St)] []]);
    ("Reservoir.getLayer", [Ov "Reservoir::getLayer" [("index", U)] []]);
    ("Reservoir.setAllExternalField", [Ov "Reservoir::setAllExternalField" [("hdriver", ADr)] []]);
    ("Reservoir.setLayerAnisotropy", [Ov "Reservoir::setLayerAnisotropy" [("index", U); ("anisotropyDriver", SDr)] []]);
    ("Reservoir.setLayerExternalField", [Ov "Reservoir::setLayerExternalField" [("index", U); ("hDriver", ADr)] []]);
    ("Reservoir.getMagnetisation", [Ov "Reservoir::getMagnetisation" [("index", U)] []]) ].
(** cmtj.cpp:411-456 *)
Definition llgb_bindings : list (string * list ov) :=
  [ ("BufferedAlphaNoise", [Ov "BufferedAlphaNoise" [("bufferSize", U); ("alpha", D); ("std", D); ("scale", D)] [req "bufferSize"; req "alpha"; req "std"; req "scale"]]);
    ("VectorAlphaNoise", [Ov "VectorAlphaNoise" [("bufferSize", U); ("alpha", D); ("std", D); ("scale", D); ("axis", TObj KAxis)] [req "bufferSize"; req "alpha"; req "std"; req "scale"; dfl "axis" axis_all]]);
    ("LLGBLayer", [Ov "LLGBLayer" (firstn 5 layer_sig ++ [("surface", D); ("demagTensor", TVector V); ("damping", D); ("Tc", D); ("susceptibility", D); ("me", D)])
       (layer_kws (req "damping") ++ [req "Tc"; req "susceptibility"; req "me"])]);
    ("LLGBLayer.setTemperatureDriver", [Ov "LLGBLayer::setTemperatureDriver" [("driver", SDr)] []]);
    ("LLGBLayer.setExternalFieldDriver", [Ov "LLGBLayer::setExternalFieldDriver" [("driver", ADr)] []]);
    ("LLGBLayer.setAnisotropyDriver", [Ov "LLGBLayer::setAnisotropyDriver" [("driver", SDr)] []]);
    ("LLGBJunction", [Ov "LLGBJunction" [("layers", TVector (TObj KLLGBLayer))] [req "layers"]]);
    ("LLGBJunction.runSimulation", [Ov "LLGBJunction::runSimulation" (run_sig ++ [("log", B); ("mode", TObj KSolverMode)]) (run_kws ++ [dfl "log" (VBool false); dfl "solverMode" mode_HEUN])]);
    ("LLGBJunction.setLayerTemperatureDriver", [Ov "LLGBJunction::setLayerTemperatureDriver" [("layerID", St); ("driver", SDr)] []]);
    ("LLGBJunction.setLayerExternalFieldDriver", [Ov "LLGBJunction::setLayerExternalFieldDriver" [("layerID", St); ("driver", ADr)] []]);
    ("LLGBJunction.saveLogs", [Ov "LLGBJunction::saveLogs" [("filename", St)] []]) ].
Definition bindings : list (string * list ov) :=
  function_bindings ++ driver_bindings ++ layer_bindings ++ junction_bindings ++
  stack_bindings "SeriesStack" ++ stack_bindings "ParallelStack" ++ reservoir_bindings ++ llgb_bindings.
Fixpoint bound (name : string) (l : list (string * list ov)) : list ov :=
  match l with [] => [] | (n, os) :: r => if String.eqb name n then os else bound name r end.
(** A call of the Python function [name]; an unknown name raises too. *)
Definition call (name : string) (pos : list val) (kw : kwargs) : outcome := dispatch (bound name bindings) pos kw.

(** ** core/cvector.hpp:161-177 behind __getitem__ (cmtj.cpp:115-116): the key is a C++ int *)
Inductive item (A : Type) := Item (a : A) | IndexErr | TypeErr.
Arguments Item {A} a. Arguments IndexErr {A}. Arguments TypeErr {A}.
Definition getitem {A} (v : A * A * A) (i : Z) : item A :=
  let '(x, y, z) := v in
  if ((-2147483648 <=? i) && (i <? 2147483648))%Z
  then Item (if (i =? 0)%Z then x else if (i =? 1)%Z then y else z) else TypeErr.

(** ** Names that the enumerations export to the module, in order (cmtj.cpp:125-147); a later one replaces an
    earlier one of the same name. *)
Definition exports : list (string * val) :=
  [("xaxis", VObj KAxis 0); ("yaxis", VObj KAxis 1); ("zaxis", VObj KAxis 2); ("all", VObj KAxis 3); ("none", VObj KAxis 4);
   ("none", VObj KReference 0); ("fixed", VObj KReference 1); ("top", VObj KReference 2); ("bottom", VObj KReference 3);
   ("RK4", VObj KSolverMode 1); ("Heun", VObj KSolverMode 3); ("EulerHeun", VObj KSolverMode 0); ("DormandPrice", VObj KSolverMode 2)].
Definition module_attr (name : string) : option val :=
  fold_left (fun found '(n, v) => if String.eqb n name then Some v else found) exports None.

(** ** The stubs.  A documented signature: the C++ function it describes, and per parameter its name, type and
    whether it has to be given; [SomeDefault] is the default "..." of a stub. *)
Inductive need := Required | Default (v : val) | SomeDefault.
Definition doc_sig := list (string * ty * need).
Definition rq (n : string) (t : ty) : string * ty * need := (n, t, Required).
Definition op (n : string) (t : ty) : string * ty * need := (n, t, SomeDefault).
Definition df (n : string) (t : ty) (v : val) : string * ty * need := (n, t, Default v).
Definition doc4 (a b : string) : doc_sig := [rq "constantValue" D; rq "amplitude" D; rq a D; rq b D].
Definition doc_trapezoid : doc_sig := [rq "constantValue" D; rq "amplitude" D; rq "timeStart" D; rq "edgeTime" D; rq "steadyTime" D].
Definition doc_layer : doc_sig := [rq "id" St; rq "mag" V; rq "anis" V; rq "Ms" D; rq "thickness" D; rq "cellSurface" D; rq "demagTensor" (TVector V)].
Definition doc_dipole : doc_sig := [rq "r1" V; rq "r2" V; rq "layer1" La; rq "layer2" La].
Definition doc_run : doc_sig := [rq "totalTime" D; op "timeStep" D; op "writeFrequency" D].
(** cmtj/__init__.pyi *)
Definition doc_functions : list (string * list (string * doc_sig)) :=
  [ ("c_dot", [("c_dot", [rq "arg0" V; rq "arg1" V])]);
    ("constantDriver", [("ScalarDriver::getConstantDriver", [rq "constant" D])]);
    ("sineDriver", [("ScalarDriver::getSineDriver", doc4 "frequency" "phase")]);
    ("gaussianImpulseDriver", [("ScalarDriver::getGaussianImpulseDriver", doc4 "t0" "sigma")]);
    ("gaussianStepDriver", [("ScalarDriver::getGaussianStepDriver", doc4 "t0" "sigma")]);
    ("posSineDriver", [("ScalarDriver::getPosSineDriver", doc4 "frequency" "phase")]);
    ("pulseDriver", [("ScalarDriver::getPulseDriver", doc4 "period" "cycle")]);
    ("stepDriver", [("ScalarDriver::getStepDriver", doc4 "timeStart" "timeStop")]);
    ("trapezoidDriver", [("ScalarDriver::getTrapezoidDriver", doc_trapezoid)]) ].
Definition doc_drivers : list (string * list (string * doc_sig)) :=
  [ ("AxialDriver", [("AxialDriver(drivers)", [rq "x" SDr; rq "y" SDr; rq "z" SDr]); ("AxialDriver(vector)", [rq "axialDrivers" (TVector SDr)]);
                     ("AxialDriver(numbers)", [rq "x" D; rq "y" D; rq "z" D]); ("AxialDriver(CVector)", [rq "xyz" V])]);
    ("AxialDriver.applyMask", [("AxialDriver::applyMask(CVector)", [rq "mask" V]); ("AxialDriver::applyMask(vector)", [rq "mask" (TVector U)])]);
    ("AxialDriver.getCurrentAxialDrivers", [("AxialDriver::getCurrentAxialDrivers", [rq "arg0" D])]);
    ("CVector", [("CVector", [rq "x" D; rq "y" D; rq "z" D])]);
    ("ScalarDriver.getCurrentScalarValue", [("ScalarDriver::getCurrentScalarValue", [rq "time" D])]);
    ("ScalarDriver.getConstantDriver", [("ScalarDriver::getConstantDriver", [rq "constantValue" D])]);
    ("ScalarDriver.getPulseDriver", [("ScalarDriver::getPulseDriver", doc4 "period" "cycle")]);
    ("ScalarDriver.getSineDriver", [("ScalarDriver::getSineDriver", [rq "constantValue" D; rq "amplitude" SDr; rq "frequency" D; rq "phase" D])]);
    ("ScalarDriver.getStepDriver", [("ScalarDriver::getStepDriver", doc4 "timeStart" "timeStop")]);
    ("ScalarDriver.getTrapezoidDriver", [("ScalarDriver::getTrapezoidDriver", doc_trapezoid)]);
    ("ScalarDriver.getGaussianImpulseDriver", [("ScalarDriver::getGaussianImpulseDriver", doc4 "t0" "sigma")]);
    ("ScalarDriver.getGaussianStepDriver", [("ScalarDriver::getGaussianStepDriver", doc4 "t0" "sigma")]);
    ("ScalarDriver.getPosSineDriver", [("ScalarDriver::getPosSineDriver", doc4 "frequency" "phase")]) ].
Definition doc_junction : list (string * list (string * doc_sig)) :=
  let two t n := [("Junction::" ++ n, [rq "layerId" St; rq "driver" t])] in
  let pair n := [("Junction::" ++ n, [rq "bottomLayer" St; rq "topLayer" St; rq "driver" SDr])] in
  [ ("Junction", [("Junction(layers)", [rq "layers" (TVector La)]); ("Junction(layers, Rp, Rap)", [rq "layers" (TVector La); op "Rp" D; op "Rap" D]);
      ("Junction(strip)", [rq "layers" (TVector La); rq "Rx0" (TVector D); rq "Ry0" (TVector D); rq "AMR_X" (TVector D); rq "AMR_Y" (TVector D); rq "SMR_X" (TVector D); rq "SMR_Y" (TVector D); rq "AHE" (TVector D)])]);
    ("Junction.getLayerMagnetisation", [("Junction::getLayerMagnetisation", [rq "layerId" St])]);
    ("Junction.runSimulation", [("Junction::runSimulation", (doc_run ++ [op "persist" B; op "log" B; op "calculateEnergies" B])%list)]);
    ("Junction.setIECDriver", pair "setIECDriver"); ("Junction.setQuadIECDriver", pair "setQuadIECDriver");
    ("Junction.setLayerTemperatureDriver", two SDr "setLayerTemperatureDriver"); ("Junction.setLayerAnisotropyDriver", two SDr "setLayerAnisotropyDriver");
    ("Junction.setLayerCurrentDriver", two SDr "setLayerCurrentDriver"); ("Junction.setLayerExternalFieldDriver", two ADr "setLayerExternalFieldDriver");
    ("Junction.setLayerMagnetisation", [("Junction::setLayerMagnetisation", [rq "layerId" St; rq "mag" V])]);
    ("Junction.setLayerOerstedFieldDriver", two ADr "setLayerOerstedFieldDriver");
    ("Junction.setLayerDampingLikeTorqueDriver", two SDr "setLayerDampingLikeTorqueDriver"); ("Junction.setLayerFieldLikeTorqueDriver", two SDr "setLayerFieldLikeTorqueDriver");
    ("Junction.setLayerOneFNoise", [("Junction::setLayerOneFNoise", [rq "layerId" St; rq "sources" U; rq "bias" D; rq "scale" D])]);
    ("Junction.getLayer", [("Junction::getLayer", [rq "layerId" St])]) ].
Definition doc_layers : list (string * list (string * doc_sig)) :=
  let one n a t := [("Layer::" ++ n, [rq a t])] in
  [ ("Layer", [("Layer", (doc_layer ++ [op "temperature" D; op "damping" D])%list)]);
    ("Layer.createSOTLayer", [("Layer::LayerSOT", (doc_layer ++ [df "damping" D (fl 0.11); df "fieldLikeTorque" D (VInt 0); df "dampingLikeTorque" D (VInt 0)])%list)]);
    ("Layer.createSTTLayer", [("Layer::LayerSTT", (doc_layer ++ [df "damping" D (fl 0.011); df "SlonczewskiSpacerLayerParameter" D (fl 1); df "beta" D (fl 0); df "spinPolarisation" D (fl 0)])%list)]);
    ("Layer.setAnisotropyDriver", one "setAnisotropyDriver" "driver" SDr); ("Layer.setTemperatureDriver", one "setTemperatureDriver" "driver" SDr);
    ("Layer.setExternalFieldDriver", one "setExternalFieldDriver" "driver" ADr); ("Layer.setMagnetisation", one "setMagnetisation" "mag" V);
    ("Layer.setOerstedFieldDriver", one "setOerstedFieldDriver" "driver" ADr); ("Layer.setDampingLikeTorqueDriver", one "setDampingLikeTorqueDriver" "driver" SDr);
    ("Layer.setFieldLikeTorqueDriver", one "setFieldLikeTorqueDriver" "driver" SDr);
    ("Layer.setReferenceLayer", [("Layer::setReferenceLayer(CVector)", [rq "ref" V]); ("Layer::setReferenceLayer(Reference)", [rq "ref" (TObj KReference)])]);
    ("Layer.setTopDipoleTensor", one "setTopDipoleTensor" "tensor" (TVector V)); ("Layer.setBottomDipoleTensor", one "setBottomDipoleTensor" "tensor" (TVector V));
    ("Layer.getId", [("Layer::getId", [])]);
    ("Layer.setAlternativeSTT", one "setAlternativeSTT" "setAlternative" B); ("Layer.setKappa", one "setKappa" "kappa" D) ].
(** cmtj/stack/__init__.pyi; only the stub of SeriesStack documents the list form of setCouplingStrength. *)
Definition doc_stack (c : string) (listed : bool) : list (string * list (string * doc_sig)) :=
  [ (c, [(c, [rq "junctionList" (TVector Ju); df "topId" St (VStr "free"); df "bottomId" St (VStr "bottom"); df "phaseOffset" D (VInt 0)])]);
    (c ++ ".getLog", [("Stack::getLog(id)", [rq "junctionId" U]); ("Stack::getLog()", [])]);
    (c ++ ".runSimulation", [("Stack::runSimulation", doc_run)]);
    (c ++ ".setCoupledCurrentDriver", [("Stack::setCoupledCurrentDriver", [rq "driver" SDr])]);
    (c ++ ".setCouplingStrength", ("Stack::setCouplingStrength(number)", [rq "coupling" D]) :: if listed then [("Stack::setCouplingStrength(vector)", [rq "coupling" (TVector D)])] else []);
    (c ++ ".setExternalFieldDriver", [("Stack::setExternalFieldDriver", [rq "driver" ADr])]);
    (c ++ ".setMagnetisation", [("Stack::setMagnetisation", [rq "junctionId" U; rq "layerId" St; rq "mag" V])]);
    (c ++ ".getMagnetisation", [("Stack::getMagnetisation", [rq "junction" U; rq "layerId" St])]);
    (c ++ ".getJunction", [("Stack::getJunction", [rq "junctionId" U])]) ].
(** cmtj/reservoir/__init__.pyi *)
Definition doc_reservoir : list (string * list (string * doc_sig)) :=
  [ ("GroupInteraction", [("GroupInteraction", [rq "coordinateMatrix" (TVector V); rq "junctionList" (TVector Ju); df "topId" St (VStr "free")])]);
    ("GroupInteraction.getLog", [("GroupInteraction::getLog(id)", [rq "junctionIndex" U]); ("GroupInteraction::getLog()", [])]);
    ("GroupInteraction.runSimulation", [("GroupInteraction::runSimulation", [rq "totalTime" D; df "timeStep" D (fl 1e-13); df "writeFrequency" D (fl 1e-13)])]);
    ("GroupInteraction.setInteractionFunction", [("GroupInteraction::setInteractionFunction", [rq "function" TFun])]);
    ("Reservoir", [("Reservoir", [rq "coordinateMatrix" (TVector (TVector V)); rq "layerMatrix" (TVector (TVector La))])]);
    ("Reservoir.getLayer", [("Reservoir::getLayer", [rq "arg0" U])]); ("Reservoir.getMagnetisation", [("Reservoir::getMagnetisation", [rq "arg0" U])]);
    ("Reservoir.runSimulation", [("Reservoir::runSimulation", [rq "totalTime" D; rq "timeStep" D])]);
    ("Reservoir.saveLogs", [("Reservoir::saveLogs", [rq "filename" St])]);
    ("Reservoir.setAllExternalField", [("Reservoir::setAllExternalField", [rq "driver" ADr])]);
    ("Reservoir.setLayerAnisotropy", [("Reservoir::setLayerAnisotropy", [rq "arg0" U; rq "driver" SDr])]);
    ("Reservoir.setLayerExternalField", [("Reservoir::setLayerExternalField", [rq "arg0" U; rq "driver" ADr])]);
    ("reservoir.computeDipoleInteraction", [("computeDipoleInteraction", doc_dipole)]);
    ("reservoir.computeDipoleInteractionNoumra", [("computeDipoleInteractionNoumra", doc_dipole)]);
    ("reservoir.nullDipoleInteraction", [("nullDipoleInteraction", doc_dipole)]) ].
(** cmtj/noise/__init__.pyi and cmtj/llgb/__init__.pyi *)
Definition doc_llgb : list (string * list (string * doc_sig)) :=
  [ ("BufferedAlphaNoise", [("BufferedAlphaNoise", [rq "bufferSize" U; rq "alpha" D; rq "std" D; rq "scale" D])]);
    ("VectorAlphaNoise", [("VectorAlphaNoise", [rq "bufferSize" U; rq "alpha" D; rq "std" D; rq "scale" D; df "axis" (TObj KAxis) axis_all])]);
    ("LLGBJunction", [("LLGBJunction", [rq "layers" (TVector (TObj KLLGBLayer))])]);
    ("LLGBJunction.runSimulation", [("LLGBJunction::runSimulation", (doc_run ++ [op "log" B; op "solverMode" (TObj KSolverMode)])%list)]);
    ("LLGBJunction.saveLogs", [("LLGBJunction::saveLogs", [rq "arg0" St])]);
    ("LLGBJunction.setLayerExternalFieldDriver", [("LLGBJunction::setLayerExternalFieldDriver", [rq "layerId" St; rq "driver" ADr])]);
    ("LLGBJunction.setLayerTemperatureDriver", [("LLGBJunction::setLayerTemperatureDriver", [rq "layerId" St; rq "driver" SDr])]);
    ("LLGBLayer", [("LLGBLayer", (doc_layer ++ [rq "damping" D; rq "Tc" D; rq "susceptibility" D; rq "me" D])%list)]);
    ("LLGBLayer.setAnisotropyDriver", [("LLGBLayer::setAnisotropyDriver", [rq "driver" SDr])]);
    ("LLGBLayer.setExternalFieldDriver", [("LLGBLayer::setExternalFieldDriver", [rq "driver" ADr])]);
    ("LLGBLayer.setTemperatureDriver", [("LLGBLayer::setTemperatureDriver", [rq "driver" SDr])]);
    ("llgb.MFAWeissCurie", [("LLGB::MFAWeissCurie", [rq "me" D; rq "T" D; rq "J0" D; op "relax" D; op "tolerance" D; op "maxIter" U])]);
    ("llgb.langevin", [("LLGB::langevin", [rq "arg0" D])]); ("llgb.langevinDerivative", [("LLGB::langevinDerivative", [rq "arg0" D])]) ].
Definition stubs : list (string * list (string * doc_sig)) :=
  (doc_functions ++ doc_drivers ++ doc_junction ++ doc_layers ++ doc_stack "ParallelStack" false ++ doc_stack "SeriesStack" true ++ doc_reservoir ++ doc_llgb)%list.
Fixpoint documented_in (name : string) (l : list (string * list (string * doc_sig))) : list (string * doc_sig) :=
  match l with [] => [] | (n, ss) :: r => if String.eqb name n then ss else documented_in name r end.
Definition documented (name : string) : list (string * doc_sig) := documented_in name stubs.
