{"id": "C01", "title": "Magnetisation torque is tangent to the sphere", "statement": "The time derivative a layer computes (plain LLG, with spin-transfer torque, or with spin-orbit torque) is always orthogonal to the magnetisation it was evaluated at.", "quantifier": "all layers, drivers, neighbour magnetisations, times and magnetisations for which the evaluation returns a value", "why_tests_cant": "the torque has three branches and a dozen real parameters; tests only compare a few trajectories", "anchors": ["core/junction.hpp: Layer::solveLLG", "core/junction.hpp: Layer::calculateLLG", "core/junction.hpp: Layer::calculateLLGWithFieldTorque"]}
{"id": "C02", "title": "Damping only dissipates", "statement": "Without current torques the power H.dm/dt delivered by the effective field equals gamma*alpha/(1+alpha^2)*|m x H|^2, so for alpha >= 0 the energy of a frozen field never rises and is constant when alpha = 0.", "quantifier": "all magnetisations, effective fields and damping values", "why_tests_cant": "an inequality over a continuum of states; sampling cannot exclude a sign error in a rarely used branch", "anchors": ["core/junction.hpp: Layer::solveLLG"]}
{"id": "C03", "title": "Every step and every log row is normalised", "statement": "After any successful run of any length, with any solver, drivers and thermal or coloured noise, every stepped layer's magnetisation has length exactly 1 (or is exactly the zero vector), and so does every magnetisation row appended to the log.", "quantifier": "all junctions, solver modes, run durations, random streams; by induction on the number of steps", "why_tests_cant": "tests check a handful of short runs; the invariant concerns unbounded runs and every noise realisation", "anchors": ["core/junction.hpp: Layer::rk4_step", "core/junction.hpp: Junction::eulerHeunSolverStep", "core/junction.hpp: Junction::heunSolverStep", "core/junction.hpp: Junction::runSimulation", "core/cvector.hpp: CVector::normalize"]}
{"id": "C04", "title": "Layers are advanced from a common snapshot", "statement": "One multi-layer RK4 step advances each layer using the neighbours' magnetisations from before the step: the result is what one obtains by evaluating every layer independently on the old state, whatever the iteration order.", "quantifier": "all junctions with two or more layers, all states, times and steps", "why_tests_cant": "a Gauss-Seidel slip is invisible in single-layer tests and tiny in coupled ones", "anchors": ["core/junction.hpp: Junction::runMultiLayerSolver", "core/junction.hpp: Layer::rk4_step"]}
{"id": "C05", "title": "Log rows form exactly the requested time grid", "statement": "A run with totalTime, timeStep and writeFrequency appends ceil(N/w) rows with N = trunc(totalTime/timeStep), w = trunc(writeFrequency/timeStep), and the k-th appended time is k*w*timeStep, the state logged being the one after the step taken at that time.", "quantifier": "all positive durations and steps and all junctions whose run succeeds", "why_tests_cant": "off-by-one and truncation errors show only at particular ratios", "anchors": ["core/junction.hpp: Junction::runSimulation", "core/junction.hpp: Junction::logLayerParams"]}
{"id": "C06", "title": "Log columns stay aligned", "statement": "Starting from a fresh junction with distinct layer ids, after any sequence of runs and log clears with energies not requested, every log column has the same length, equal to the log length that saveLogs iterates over.", "quantifier": "all finite sequences of API calls run/clear and all junction types", "why_tests_cant": "an invariant over unbounded call histories", "anchors": ["core/junction.hpp: Junction::logLayerParams", "core/junction.hpp: Junction::saveLogs", "core/junction.hpp: Junction::clearLog"]}
{"id": "C07", "title": "Energy logging duplicates the current column", "statement": "With calculateEnergies enabled, a layer that has spin torques gets its current column appended twice per row, so after k rows that column has 2k entries and no longer lines up with time; every other column keeps k entries.", "quantifier": "all junctions with a spin-torque layer and every number of logged rows", "why_tests_cant": "no test enables energies together with torques", "anchors": ["core/junction.hpp: Junction::logLayerParams"]}
{"id": "C08", "title": "A write frequency below the step is refused without side effects", "statement": "runSimulation with timeStep greater than writeFrequency raises an error and leaves magnetisations, log and drivers exactly as they were.", "quantifier": "all junctions and all such parameter pairs", "why_tests_cant": "tests check that it raises, not that nothing changed", "anchors": ["core/junction.hpp: Junction::runSimulation"]}
{"id": "C09", "title": "Layer setters touch exactly the named layers", "statement": "Setting a driver by layer id changes that driver on every layer with that id, on all layers for 'all', changes no other field and no other layer, and raises with nothing changed when the id does not occur.", "quantifier": "all junctions (including repeated ids), ids and drivers", "why_tests_cant": "frame conditions over all fields and all layer counts", "anchors": ["core/junction.hpp: Junction::scalarlayerSetter", "core/junction.hpp: Junction::axiallayerSetter", "core/junction.hpp: Junction::setLayerExternalFieldDriver", "core/junction.hpp: Junction::setLayerTemperatureDriver"]}
{"id": "C10", "title": "Coupling setters are symmetric and pairwise", "statement": "Setting an interlayer coupling for (a,b) has the same effect as for (b,a); on success it changes exactly one adjacent pair - top coupling of the lower and bottom coupling of the upper layer - and raises with no change if no adjacent pair carries the two ids.", "quantifier": "all junctions, ids and drivers", "why_tests_cant": "needs all positions and both orders, plus a frame condition", "anchors": ["core/junction.hpp: Junction::setCouplingDriver", "core/junction.hpp: Junction::setIECDriver", "core/junction.hpp: Junction::setQuadIECDriver", "core/junction.hpp: Junction::setIDMIDriver"]}
{"id": "C11", "title": "GMR stays between Rp and Rap", "statement": "For unit magnetisations the classic junction resistance lies between Rp and Rap, equals Rp exactly when the two vectors are parallel and Rap exactly when antiparallel (Rp<Rap), and depends only on the angle.", "quantifier": "all unit vectors and resistances", "why_tests_cant": "extremality over the sphere", "anchors": ["core/junction.hpp: Junction::calculateMagnetoresistance", "core/junction.hpp: Junction::getMagnetoresistance"]}
{"id": "C12", "title": "Strip resistance is the parallel combination", "statement": "A strip junction's longitudinal resistance is the parallel combination of the per-layer values Rx0 + AMR mx^2 + SMR my^2 (same for the transverse one with the AHE term); with positive layer values it is positive and no larger than any of them.", "quantifier": "all layer counts and magnetisations", "why_tests_cant": "induction over the number of layers", "anchors": ["core/junction.hpp: Junction::stripMagnetoResistance"]}
{"id": "C13", "title": "Solver selection", "statement": "The requested solver is used unless temperature or coloured noise is present, in which case any non-stochastic request is replaced by Euler-Heun; Heun and Euler-Heun requests are always honoured; a Dormand-Prince request always executes RK4 (never an adaptive scheme).", "quantifier": "all solver modes, noise settings and layer counts", "why_tests_cant": "tests do not observe which scheme ran", "anchors": ["core/junction.hpp: Junction::getSolver"]}
{"id": "C14", "title": "No noise means deterministic", "statement": "If no layer has a temperature or coloured noise set, the trajectory and log of a run are the same for every random stream, with every solver.", "quantifier": "all junctions, solvers, run lengths and pairs of random streams", "why_tests_cant": "hyper-property over pairs of executions", "anchors": ["core/junction.hpp: Layer::getStochasticLangevinVector", "core/junction.hpp: Layer::getOneFVector", "core/junction.hpp: Junction::eulerHeunSolverStep", "core/junction.hpp: Junction::heunSolverStep"]}
{"id": "C15", "title": "Effective field is the documented sum", "statement": "The effective field is external + anisotropy + interlayer exchange + interlayer DMI + Oersted + DMI + fluctuation + reserved field minus demagnetisation minus dipole contributions; it is affine in the external, Oersted, DMI and reserved fields with coefficient one.", "quantifier": "all layers, states and times", "why_tests_cant": "every summand must be present once with the right sign for all values", "anchors": ["core/junction.hpp: Layer::calculateHeff", "core/junction.hpp: Layer::calculateHeffDipoleInjection"]}
{"id": "C16", "title": "Anisotropy field is the gradient of its energy", "statement": "The uniaxial anisotropy field equals -1/Ms times the gradient of -K (m.n)^2.", "quantifier": "all magnetisations, axes, K and nonzero Ms", "why_tests_cant": "a derivative statement on a continuum", "anchors": ["core/junction.hpp: Layer::calculateAnisotropy"]}
{"id": "C17", "title": "Exchange field is the gradient of a symmetric energy", "statement": "The interlayer exchange field on a layer equals -1/(Ms t) times the gradient of -J1 (m.c) - J2 (m.c)^2, and the two layers of a pair feel fields derived from one common energy (action-reaction: Ms1 t1 m1 x H1 + Ms2 t2 m2 x H2 = 0).", "quantifier": "all pairs of layers, magnetisations and coupling values", "why_tests_cant": "derivative and reciprocity statements on a continuum", "anchors": ["core/junction.hpp: Layer::calculateIEC_", "core/junction.hpp: Layer::calculateIEC"]}
{"id": "C18", "title": "Interlayer DMI does not obey action-reaction", "statement": "The interlayer DMI field uses the same sign for both members of a pair, so the pair's torques are not derived from a common D.(m1 x m2) energy: the total torque generally does not vanish along D.", "quantifier": "witness configuration plus the general formula for the sum of the two torques", "why_tests_cant": "tests check presence of an effect, never reciprocity", "anchors": ["core/junction.hpp: Layer::calculateIDMI_", "core/junction.hpp: Layer::calculateIDMI"]}
{"id": "C19", "title": "Aligned states are equilibria", "statement": "If the effective field of a layer is parallel to its magnetisation at all stages and no current torque or noise acts, a step of any solver leaves the unit magnetisation unchanged.", "quantifier": "all layers, steps and static fields", "why_tests_cant": "must hold for every step size and direction", "anchors": ["core/junction.hpp: Layer::rk4_step", "core/junction.hpp: Junction::heunSolverStep", "core/junction.hpp: Junction::eulerHeunSolverStep"]}
{"id": "C20", "title": "Spin torques vanish on the polariser axis", "statement": "Spin-transfer and spin-orbit torque contributions are zero when the magnetisation is (anti)parallel to the reference vector, and the result then equals the plain LLG derivative.", "quantifier": "all parameters and currents", "why_tests_cant": "exact identity over a continuum", "anchors": ["core/junction.hpp: Layer::solveLLG"]}
{"id": "C21", "title": "Axis relabelling equivariance", "statement": "Cyclically relabelling x->y->z->x in every input (magnetisations, anisotropy axes, tensors, reference vectors, axial drivers, noise) relabels the outputs of the effective field, torque, and every solver step in the same way, for whole runs.", "quantifier": "all junctions, times and run lengths", "why_tests_cant": "metamorphic property over all inputs, catches any wrong index", "anchors": ["core/junction.hpp: calculate_tensor_interaction", "core/junction.hpp: c_cross", "core/junction.hpp: Layer::solveLLG", "core/junction.hpp: Junction::runSimulation"]}
{"id": "C22", "title": "Constant, step, sine and pulse drivers", "statement": "A constant driver returns its value at all times; a step driver adds the amplitude exactly on the closed window; sine stays within constant +- |amplitude| and is periodic in 1/f; positive sine never falls below the constant; a pulse train is periodic on t>=0 and high exactly on the first fraction of each period.", "quantifier": "all parameters and times (positive periods)", "why_tests_cant": "all reals", "anchors": ["core/drivers.hpp: ScalarDriver::getCurrentScalarValue", "core/drivers.hpp: Driver::stepUpdate", "core/drivers.hpp: Driver::pulseTrain"]}
{"id": "C23", "title": "Half-sine driver keeps the non-positive half", "statement": "The half-sine driver never exceeds its constant (for every amplitude): it adds the sine only where it is <= 0.", "quantifier": "all parameters and times", "why_tests_cant": "contrary to the name; tests do not sample the sign", "anchors": ["core/drivers.hpp: ScalarDriver::getCurrentScalarValue"]}
{"id": "C24", "title": "Trapezoid driver shape", "statement": "For positive edge and non-negative steady time the trapezoid driver is zero before the start and after the end, rises linearly, holds, falls linearly, is continuous in time and stays between 0 and the amplitude.", "quantifier": "all times and parameters", "why_tests_cant": "continuity and bounds over reals", "anchors": ["core/drivers.hpp: Driver::trapezoidalUpdate"]}
{"id": "C25", "title": "Gaussian drivers", "statement": "The Gaussian impulse is maximal at t0, symmetric around it and stays strictly between 0 and the amplitude elsewhere; the 'Gaussian step' factory yields exactly the Gaussian impulse.", "quantifier": "all times and nonzero widths", "why_tests_cant": "the step factory is only tested for being constructible", "anchors": ["core/drivers.hpp: ScalarDriver::getGaussianImpulseDriver", "core/drivers.hpp: ScalarDriver::getGaussianStepDriver"]}
{"id": "C26", "title": "Scaling and shifting drivers", "statement": "Multiplying a driver by k multiplies its value at every time by k for constant, step, sine, pulse, trapezoid and Gaussian drivers (and for positive/half-sine when k>=0); adding v adds v to both constant and amplitude, hence shifts the value by v only for constant drivers in general.", "quantifier": "all drivers, scalars, times", "why_tests_cant": "algebraic law over all values; the addition law is surprising", "anchors": ["core/drivers.hpp: ScalarDriver::operator*", "core/drivers.hpp: ScalarDriver::operator+"]}
{"id": "C27", "title": "Axial driver masking", "statement": "Applying a 0/1 mask makes exactly the masked-out components identically zero at all times and leaves the others; a mask value other than 0 or 1 raises, with components before the offending one already masked.", "quantifier": "all drivers, masks and times", "why_tests_cant": "exception-time state is never observed in tests", "anchors": ["core/drivers.hpp: AxialDriver::applyMask"]}
{"id": "C28", "title": "Driver subclasses lose their override", "statement": "An axial driver built from scalar drivers stores plain scalar drivers, so a subclass overriding the value function evaluates as the base driver inside an axial driver (a NullDriver stays zero, a user subclass becomes the constant 0).", "quantifier": "all subclass value functions and times", "why_tests_cant": "needs the slicing semantics of by-value storage", "anchors": ["core/drivers.hpp: AxialDriver::AxialDriver", "core/drivers.hpp: NullDriver"]}
{"id": "C29", "title": "Vector algebra", "statement": "CVector dot/cross/scale/add satisfy the laws of Euclidean 3-space; normalising yields a unit vector in the same direction, is idempotent, and leaves zero unchanged; division by zero raises.", "quantifier": "all vectors", "why_tests_cant": "algebraic laws over reals", "anchors": ["core/cvector.hpp: CVector", "core/junction.hpp: c_cross", "core/junction.hpp: c_dot"]}
{"id": "C30", "title": "Series and parallel stack laws", "statement": "A series stack reports the sum of member resistances and a parallel stack the reciprocal of the sum of reciprocals; for positive members the parallel value is positive and below each member while the series value is above each, for any number of junctions.", "quantifier": "all member counts and positive resistances", "why_tests_cant": "induction over the stack size", "anchors": ["core/stack.hpp: SeriesStack::calculateStackResistance", "core/stack.hpp: ParallelStack::calculateStackResistance"]}
{"id": "C31", "title": "Stack coupling is cumulative", "statement": "At each stack step the current driver of junction j is the base driver scaled by the product over earlier junctions of (1 + coupling term); in delayed mode the terms depend only on the magnetisations before the step, in immediate mode on the already advanced predecessors.", "quantifier": "all stacks, coupling strengths, steps", "why_tests_cant": "requires unfolding the recurrence for any length", "anchors": ["core/stack.hpp: Stack::runSimulation", "core/stack.hpp: SeriesStack::computeCouplingCurrentDensity", "core/stack.hpp: ParallelStack::computeCouplingCurrentDensity"]}
{"id": "C32", "title": "Stack log shape", "statement": "After any sequence of stack runs the stack log columns (resistance, one current per junction, time) have equal length and every member junction's log has gained as many rows.", "quantifier": "all stacks and run histories", "why_tests_cant": "unbounded histories", "anchors": ["core/stack.hpp: Stack::logStackData", "core/stack.hpp: Stack::runSimulation"]}
{"id": "C33", "title": "Stack broadcast setters", "statement": "Broadcast setters apply to every junction of the stack exactly what the per-junction setter would; couplings vectors must have one entry less than the stack.", "quantifier": "all stack sizes", "why_tests_cant": "all positions and frame", "anchors": ["core/stack.hpp: Stack::setMagnetisation", "core/stack.hpp: Stack::setOerstedFieldDriver", "core/stack.hpp: Stack::setCouplingStrength"]}
{"id": "C34", "title": "Stack steps all members with the last member's solver", "statement": "All junctions of a stack are advanced with the runner of the last junction: if the last has a single layer, only the first layer of every other junction moves.", "quantifier": "all stacks whose last member has one layer", "why_tests_cant": "tests use homogeneous stacks", "anchors": ["core/stack.hpp: Stack::runSimulation", "core/reservoir.hpp: GroupInteraction::runSimulation"]}
{"id": "C35", "title": "Dipole tensor", "statement": "The dipole tensor from relative positions is symmetric, traceless, invariant under swapping the two positions, and scales as distance^-3; coincident positions raise.", "quantifier": "all pairs of positions further apart than 1e-10", "why_tests_cant": "algebra over all positions", "anchors": ["core/reservoir.hpp: getDipoleTensorFromRelPositions"]}
{"id": "C36", "title": "Two dipole formulas agree up to the 4 pi factor", "statement": "The Kanao and Noumra dipole interaction functions return collinear fields whose ratio is exactly 4 pi, for all geometries and moments.", "quantifier": "all separations, moments, Ms and volumes", "why_tests_cant": "identity over all inputs", "anchors": ["core/reservoir.hpp: computeDipoleInteraction", "core/reservoir.hpp: computeDipoleInteractionNoumra"]}
{"id": "C37", "title": "Group interaction is simultaneous", "statement": "In a group simulation every element's dipole field is the sum over the other elements (never itself) computed from the state before the step, so the outcome does not depend on the processing order.", "quantifier": "all group sizes, interaction functions and steps", "why_tests_cant": "needs all sizes", "anchors": ["core/reservoir.hpp: GroupInteraction::stepFunctionalSolver", "core/reservoir.hpp: GroupInteraction::runSimulation"]}
{"id": "C38", "title": "Reservoir pair tensor misuse", "statement": "The matrix reservoir stores for each cell the tensors to all other cells in order, skipping itself, but multiplies the i-th tensor by the i-th cell's magnetisation; for every cell but the last, some tensor is thus applied to the wrong cell.", "quantifier": "all reservoir sizes of at least two", "why_tests_cant": "index bookkeeping for all sizes", "anchors": ["core/reservoir.hpp: Reservoir::computeDipoleInteraction", "core/reservoir.hpp: Reservoir::calculateReservoirDipoleInteractions"]}
{"id": "C39", "title": "Buffered noise refill schedule", "statement": "Buffered coloured noise regenerates its buffer exactly at ticks 0, n, 2n, ...; tick k returns scale times entry k mod n of the buffer generated at tick floor(k/n)*n.", "quantifier": "all positive buffer sizes, all tick counts", "why_tests_cant": "unbounded tick counts", "anchors": ["core/noise.hpp: BufferedAlphaNoise::tick"]}
{"id": "C40", "title": "Bounded noise generators", "statement": "Pink noise stays in [-(A0+A1+A2), A0+A1+A2] forever for every rand stream, and 1/f noise stays in [0, sources*scale] (scale>=0).", "quantifier": "all random streams and tick counts", "why_tests_cant": "invariant over unbounded executions", "anchors": ["core/noise.hpp: PinkNoise::tick", "core/noise.hpp: OneFNoise::tick"]}
{"id": "C41", "title": "Vector noise", "statement": "Isotropic vector noise always has length |scale| or 0, single-axis noise is zero on the other two axes, axis none raises.", "quantifier": "all buffers and tick counts", "why_tests_cant": "all streams", "anchors": ["core/noise.hpp: VectorAlphaNoise::tickVector"]}
{"id": "C42", "title": "LLGB longitudinal relaxation", "statement": "The LLGB derivative satisfies m.dm/dt = gamma' * alpha_par * (m.H): transverse terms never change the length, and with no external field the length relaxes towards the equilibrium value below Tc and towards zero above.", "quantifier": "all states with nonzero m, temperatures and susceptibilities", "why_tests_cant": "sign over a continuum", "anchors": ["core/llgb.hpp: LLGBLayer::solveLLG", "core/llgb.hpp: LLGBLayer::getLongitudinal"]}
{"id": "C43", "title": "LLGB damping parameters", "statement": "Parallel damping is 2/3 alpha T/Tc; perpendicular damping is alpha(1 - T/(3Tc)) below Tc, and both agree at Tc (continuity); both are non-negative below Tc and perpendicular >= parallel.", "quantifier": "all temperatures", "why_tests_cant": "piecewise reals", "anchors": ["core/llgb.hpp: LLGBLayer::getAlphaParallel", "core/llgb.hpp: LLGBLayer::getAlphaPerpendicular"]}
{"id": "C44", "title": "LLGB time is cumulative", "statement": "LLGB simulation time continues across runs (unlike Junction whose time restarts at 0) and is reset only by clearing the log.", "quantifier": "all sequences of runs/clears", "why_tests_cant": "unbounded histories", "anchors": ["core/llgb.hpp: LLGBJunction::runSimulation", "core/llgb.hpp: LLGBJunction::clearLog", "core/junction.hpp: Junction::runSimulation"]}
{"id": "C45", "title": "Spherical/cartesian conversions round-trip", "statement": "VectorObj and FieldScan conversions are mutually inverse: cartesian->spherical->cartesian is the identity for every vector, and spherical->cartesian->spherical is the identity exactly for coordinates in normal form (principal range, zero angles where they are undetermined).", "quantifier": "all vectors/angles", "why_tests_cant": "branch cuts and poles", "anchors": ["cmtj/utils/general.py: VectorObj", "cmtj/utils/linear.py: FieldScan"]}
{"id": "C46", "title": "Amplitude scan with return is a palindrome-style loop", "statement": "FieldScan.amplitude_scan returns steps evenly spaced fields along one direction from start to stop; with back=True the field list is the forward list without its last point followed by the full reversed list.", "quantifier": "all ranges and step counts", "why_tests_cant": "all sizes", "anchors": ["cmtj/utils/linear.py: FieldScan.amplitude_scan"]}
{"id": "C47", "title": "Root finder output", "statement": "Every root reported by RootFinder is a value of the solver inside the requested interval, reported roots are pairwise at least xtol apart, the search terminates, and a guess is only skipped when an earlier one led beyond it; roots between may be missed.", "quantifier": "all functions (as oracles) and intervals", "why_tests_cant": "quantifies over all callables", "anchors": ["cmtj/utils/solvers.py: RootFinder"]}
{"id": "C48", "title": "Parallel distribution is schedule independent", "statement": "distribute assigns each result to the index of its parameter combination whatever the completion order, provided combinations are distinct; the set of (index, result) pairs is always complete.", "quantifier": "all completion orders", "why_tests_cant": "interleavings", "anchors": ["cmtj/utils/parallel.py: distribute"]}
{"id": "C49", "title": "Coordinate descent returns parameters that may not be the best", "statement": "coordinate_descent reports the best score of all candidates, but the returned dictionary aliases the working one: it holds the last value tried for the key that was improved last (the upper end of the range), not the candidate that achieved the score; at most one key differs from the start.", "quantifier": "all objective oracles; witness", "why_tests_cant": "aliasing is invisible unless the best is not last", "anchors": ["cmtj/utils/optimization.py: coordinate_descent"]}
{"id": "C50", "title": "Python resistance formulas", "statement": "compute_gmr agrees with the junction's magnetoresistance (range, extremes); calculate_magnetoresistance differs and can be negative; series/parallel strip formulas agree for one layer, satisfy the ordering law for positive layers, treat samples independently and give the strip resistance of the core; the linearised helpers return the value and the exact first-order change of the two-layer resistance.", "quantifier": "all magnetisations and layer counts", "why_tests_cant": "identities over reals", "anchors": ["cmtj/utils/resistance.py: compute_gmr", "cmtj/utils/resistance.py: calculate_magnetoresistance", "cmtj/utils/resistance.py: calculate_resistance_parallel", "cmtj/utils/resistance.py: calculate_resistance_series"]}
{"id": "C51", "title": "Domain wall model structure", "statement": "Wall velocity and angle rates satisfy the documented damped coupled equations; the static wall width is positive and bounded by its anisotropy-only value; interlayer coupling between two walls is antisymmetric; the reported trajectory has one row per step.", "quantifier": "all parameters and states", "why_tests_cant": "algebra over reals", "anchors": ["cmtj/models/domain_dynamics.py: DomainWallDynamics", "cmtj/models/domain_dynamics.py: MultilayerWallDynamics"]}
{"id": "C52", "title": "Oersted field of block structures", "statement": "The field one block exerts on another depends only on the source current (linearly) and the centre distance, it fails exactly for blocks of one column, and computing a structure adds to every block the sum of the fields of all other blocks. A structure holds exactly one block per index cell; setting a region's current changes exactly the rows from the lower index up to, not including, the upper one and a failure changes nothing; region sums over adjacent index ranges add up and agree with the direct contribution of the whole structure.", "quantifier": "all block structures, sizes, regions, currents", "why_tests_cant": "quantifies over all structure sizes and regions, including empty, negative and out-of-range indices", "anchors": ["cmtj/models/oersted.py: Block", "cmtj/models/oersted.py: Structure"]}
{"id": "C53", "title": "Spectrum arrays", "statement": "spectralFFT returns the one-sided discrete Fourier spectrum of the samples from minTime on, with equally many frequencies, amplitudes and phases whenever at least three samples are used (with one or two samples it returns one amplitude and no frequency); spectralFFTMixed always returns one amplitude more than frequencies.", "quantifier": "all log lengths", "why_tests_cant": "parity-dependent length arithmetic for all n", "anchors": ["core/compute.hpp: ComputeFunctions::spectralFFT", "core/compute.hpp: ComputeFunctions::spectralFFTMixed"]}
{"id": "C54", "title": "Smit-Beljers hessian assembly", "statement": "The assembled 2N x 2N hessian is symmetric in its real part for every energy, its imaginary parts appear only in the i-th diagonal 2x2 blocks with opposite signs, hence it is hermitian.", "quantifier": "all N and energies", "why_tests_cant": "all sizes", "anchors": ["cmtj/models/general_sb.py: Solver.create_energy_hessian", "cmtj/models/general_sb.py: get_hessian_from_energy_expr"]}
{"id": "C55", "title": "Adam descent step bound and termination", "statement": "Each Adam iteration moves each coordinate by a bounded amount; the loop always terminates after at most max_steps+1 gradient evaluations and returns a position actually visited.", "quantifier": "all gradient oracles", "why_tests_cant": "quantifies over all callables and unbounded step counts", "anchors": ["cmtj/models/general_sb.py: Solver.adam_gradient_descent", "cmtj/models/general_sb.py: Solver.amsgrad_gradient_descent"]}
{"id": "C56", "title": "Volumetric flag and scans", "statement": "create_energy gives the same expression for volumetric True and False, and an analytical field scan without initial position overwrites the magnitude of the caller's first field with 1.", "quantifier": "all systems", "why_tests_cant": "no test compares", "anchors": ["cmtj/models/general_sb.py: Solver.create_energy", "cmtj/models/general_sb.py: Solver.analytical_field_scan"]}
{"id": "C57", "title": "Coloured noise copies and thermal noise correlation", "statement": "Copies of a layer carry the generator state, so two junctions (or two layers) built from one layer object see identical thermal noise sequences.", "quantifier": "all streams, all run lengths", "why_tests_cant": "pairs of executions", "anchors": ["core/junction.hpp: Layer::distribution", "core/junction.hpp: Layer::getStochasticLangevinVector"]}
{"id": "C58", "title": "Each step computes its documented integration scheme", "statement": "The single-layer and multi-layer RK4 steps, the RK4 step with an injected dipole field, the stochastic Euler-Heun step and the stochastic Heun step succeed exactly when the scheme's derivatives exist, and then produce the normalised result of the textbook scheme evaluated on the state before the step, with the noise sample and the generator positions prescribed by the noise model.", "quantifier": "all junctions, layer counts, times, steps and random streams", "why_tests_cant": "A test compares a few trajectories with a tolerance; a wrong stage weight, stage time or neighbour is invisible at small steps.", "anchors": ["core/junction.hpp: rk4_step, runSingleLayerSolver, runMultiLayerSolver, eulerHeunSolverStep, heunSolverStep"]}
{"id": "C59", "title": "Constructors give an idle object holding the caller's values", "statement": "A layer constructor succeeds exactly when magnetisation and anisotropy axis are non-null; the layer then holds the given geometry and material, has no driver, noise, coupling or dipole field and moves under its demagnetising field only. A junction constructor refuses an empty layer list, a classic junction of one layer without reference or of more than two layers, and strip lists of wrong length, and otherwise stores its arguments and has an empty log.", "quantifier": "all arguments, all three layer kinds and three junction kinds", "why_tests_cant": "Dozens of members default silently; a wrong default only shows in particular runs.", "anchors": ["core/junction.hpp: Layer constructors, LayerSTT, LayerSOT", "core/junction.hpp: Junction constructors"]}
{"id": "C60", "title": "Energy columns are those of the last right-hand side evaluation", "statement": "After every step the remembered fields, anisotropy and coupling values are those of the last evaluation of the layer's right-hand side in that step, and the energy columns of a run list them row by row; with RK4 a driver's column therefore shows the driver at the end of the step while the time column shows the start; the thermal field columns are always zero.", "quantifier": "all junctions, drivers, step counts and integrators", "why_tests_cant": "The offset is one step and invisible for constant drivers.", "anchors": ["core/junction.hpp: Layer::calculateHeff, logLayerParams"]}
{"id": "C61", "title": "Energy functions belong to the fields", "statement": "The exchange and anisotropy energies of EnergyDriver change by minus Ms V times the layer's field per change of magnetisation; the anisotropy energy lies in [0, K V]; Zeeman and demagnetising energies change by the same rule with a further factor mu0, so the energies cannot be added for one choice of units of Ms.", "quantifier": "all magnetisations, fields, axes and constants", "why_tests_cant": "Gradient identities quantify over all displacements.", "anchors": ["core/junction.hpp: EnergyDriver"]}
{"id": "C62", "title": "Getters, saved table and layer-level settings", "statement": "Getters by id return the first layer carrying the id and throw when there is none; clearing the log empties every column and nothing else; the saved file holds exactly the log in column order with one line per row; the layer-level setters (kappa, dipole tensors, coloured noise) accept exactly their documented range, change only their own members and leave the layer unchanged when they refuse.", "quantifier": "all junctions, ids, logs and arguments", "why_tests_cant": "Frame conditions over every other member and id cannot be sampled.", "anchors": ["core/junction.hpp: getLayer, getLayerIds, clearLog, saveLogs, setAlphaNoise, createBufferedAlphaNoise"]}
{"id": "C63", "title": "Mean-field Curie-Weiss solver", "statement": "langevin is coth x - 1/x and its companion is its derivative; the Curie-Weiss solver returns the first iterate of the relaxed fixed-point iteration whose residual is below the tolerance, stays in (0,1] for physical inputs whatever the iteration count, and at or above the Curie temperature no non-zero solution exists.", "quantifier": "all arguments, temperatures, couplings, relaxations and iteration limits", "why_tests_cant": "unbounded iteration counts and a continuum of temperatures; inequality between transcendental functions", "anchors": ["core/llgb.hpp: langevin, langevinDerivative, MFAWeissCurie"]}
{"id": "C64", "title": "LLGB steps, runs, log and setters", "statement": "A Heun or Euler-Heun step moves each layer independently by exactly its scheme, evaluated from a common snapshot; a run performs whole steps, appends one row per write interval with the documented columns, and is refused without side effects for an unsupported solver or too small write frequency; setters change exactly the addressed layers and throw if there are none; thermal fields are identically zero.", "quantifier": "all junctions, drivers, random streams, step counts and ids", "why_tests_cant": "frame conditions, every layer count and unbounded runs", "anchors": ["core/llgb.hpp: LLGBJunction::heunSolverStep, eulerHeunSolverStep, runSimulation, logLayerParams, setters, LLGBLayer constructor"]}
{"id": "C65", "title": "Spectral lines and rectified voltage", "statement": "An oscillation with q whole periods in the samples shows up in spectralFFT as its amplitude and phase at bin q and zero elsewhere, unless q is the highest bin, which is never returned; calculateVoltageSpinDiode of a resistance R0 + A sin(2 pi f t + psi) over whole periods gives sqrt(power/R0) A cos(psi)/2, and Rpp is never negative.", "quantifier": "all logs, sample counts, frequencies, amplitudes and phases", "why_tests_cant": "statement about all sampled waves and all sample counts", "anchors": ["core/compute.hpp: ComputeFunctions::spectralFFT", "core/compute.hpp: ComputeFunctions::calculateVoltageSpinDiode"]}
{"id": "C66", "title": "Box-Muller pair", "statement": "box_muller_random turns two uniform draws into the pair mean + std r cos a, mean + std r sin a with r = sqrt(-2 ln u1) and a = 2 pi u2; a first draw of zero raises instead of returning a number.", "quantifier": "all means, deviations and draws", "why_tests_cant": "a zero draw has probability 2^-53 and the radius identity is about all draws", "anchors": ["cmtj/utils/general.py: box_muller_random"]}
{"id": "C67", "title": "Smit-Beljers energy expression", "statement": "create_energy returns an expression whose value at any assignment of the symbols is the sum over layers of thickness times (Zeeman, DMI-field, perpendicular and in-plane anisotropy, demagnetisation) energies plus every neighbour pair's bilinear, biquadratic, interlayer-DMI and dipole energies counted once, in vector form; it is available exactly when a field is passed or set; the sum of total_symbolic_layer_energy of two layers counts the coupling twice.", "quantifier": "all layer lists, couplings, fields and symbol values", "why_tests_cant": "identity between symbolic expressions and vector energies for every layer count", "anchors": ["cmtj/models/general_sb.py: Solver.create_energy", "cmtj/models/general_sb.py: LayerSB.no_iteraction_symbolic_energy", "cmtj/models/general_sb.py: LayerSB.total_symbolic_layer_energy"]}
{"id": "C68", "title": "Gradient used by the energy descent", "statement": "get_gradient_expr's callable returns, in the order theta_0, phi_0, theta_1, ..., exactly the partial derivatives of the system energy at the given position, for positions of the right length; a descent started in a stationary point without perturbation returns that point.", "quantifier": "all solvers with distinct layer ids and all positions", "why_tests_cant": "derivative statement for all positions and layer counts", "anchors": ["cmtj/models/general_sb.py: Solver.get_gradient_expr", "cmtj/models/general_sb.py: Solver.adam_gradient_descent"]}
{"id": "C69", "title": "Spherical equation of motion", "statement": "rhs_spherical_llg gives the unique angle rates of the Landau-Lifshitz-Gilbert equation for the energy's field with the softened 1/sin theta; without torques the energy never increases and decreases exactly at the damping rate; the spin torques T enter as T - alpha m x T, unlike the field's torque T + alpha m x T.", "quantifier": "all layers, energies, angles away from the softened pole", "why_tests_cant": "vector identity for all states", "anchors": ["cmtj/models/general_sb.py: LayerDynamic.rhs_spherical_llg", "cmtj/models/general_sb.py: LayerDynamic.rhs"]}
{"id": "C70", "title": "Single layer resonance frequency", "statement": "single_layer_resonance returns gamma/(2 pi) sqrt((E_tt E_pp - E_tp^2)/(Ms sin theta)^2) of the total energy; as that energy contains the thickness but the denominator does not, the frequency of a single layer is proportional to its thickness instead of independent of it.", "quantifier": "all layers, fields, positions and thicknesses", "why_tests_cant": "scaling law over all thicknesses", "anchors": ["cmtj/models/general_sb.py: Solver.single_layer_resonance"]}
{"id": "C71", "title": "Linearised dynamics", "statement": "The LLG Jacobian holds the partial derivatives of the coupled equations of motion; the matrix of the linearised diode problem is (1+alpha^2)(i omega - J) while the drive vector lacks that factor, so the returned amplitudes are the true response divided by 1+alpha^2, taken at the given phase; with the frequency as cached variable the call always raises.", "quantifier": "all dynamic layer systems, drives, frequencies and phases", "why_tests_cant": "matrix identities for all sizes", "anchors": ["cmtj/models/general_sb.py: Solver.compose_llg_jacobian", "cmtj/models/general_sb.py: Solver.compute_A_and_V_matrices", "cmtj/models/general_sb.py: Solver.linearised_N_spin_diode"]}
{"id": "C72", "title": "Solver construction and dispatch", "statement": "A layer is accepted iff its id is at most 9; a solver iff the coupling lists are one shorter than the layers and the ids are exactly 0..n-1 in some order; layer references are the neighbours with the matching constants; solve returns the dynamic modes for dynamic layers, single layer frequencies for one layer or on request, and the numeric roots otherwise, at the equilibrium of the descent.", "quantifier": "all argument lists", "why_tests_cant": "exact acceptance and dispatch conditions", "anchors": ["cmtj/models/general_sb.py: LayerSB.__post_init__", "cmtj/models/general_sb.py: Solver.__post_init__", "cmtj/models/general_sb.py: Solver.get_layer_references", "cmtj/models/general_sb.py: Solver.solve"]}
{"id": "C73", "title": "Pulse procedure measures what it says", "statement": "PIMM_procedure succeeds exactly when wait_time does not exceed the duration, the pulse is positive, there is one parameter set per layer and every field in turn can be prepared, run and read; then H, Rx, Ry, m_avg, the spectrum, the frequency axis and the per-layer outputs are those of the trajectories of the prepared junctions, each started from the end of the previous field. Weights are thickness times Ms normalised to one, averages are at most one long, all fields share one frequency axis, previous logs and drivers do not matter, consecutive calls equal one call. It is refuted that the reported resistance is the resistance of the magnetisations.", "quantifier": "all junctions with distinct layer ids, field lists, arguments, resistance functions and random streams", "why_tests_cant": "unbounded field lists and layers, arbitrary dynamics and exact success condition", "anchors": ["cmtj/utils/procedures.py: PIMM_procedure", "cmtj/utils/procedures.py: compute_spectrum_strip", "cmtj/utils/procedures.py: ResistanceParameters"]}
{"id": "C74", "title": "Spin diode procedure measures what it says", "statement": "VSD_procedure returns one row per field and one entry per frequency; each entry is the rectified mean of the chosen resistance of the trajectory of the prepared junction driven by the sine field of that frequency, times the same sine. It succeeds exactly then; it never does without resistance parameters, with Rz on anything but a classic two layer junction, with another resistance name, with frequency -1 or with an integration step of 50 ns or more.", "quantifier": "all junctions with distinct layer ids, fields, frequencies, arguments, filter designs and random streams", "why_tests_cant": "unbounded sweeps, exact success condition, arbitrary dynamics", "anchors": ["cmtj/utils/procedures.py: VSD_procedure", "cmtj/utils/procedures.py: simulate_VSD"]}
{"id": "C75", "title": "Filters and the rectified voltage", "statement": "The filters return the unique zero-history solution of the difference equation of their coefficients (hence are linear) exactly when the critical frequencies are inside (0,1) of the Nyquist frequency; compute_sd is the mean of the low-pass filtered product of minus the current and the resistance, linear in the resistance. It is refuted that the band pass accepts a positive frequency or a band in hertz.", "quantifier": "all signals, coefficients, cut-offs, sampling rates and orders", "why_tests_cant": "for all signals of all lengths and all coefficients", "anchors": ["cmtj/utils/filters.py: Filters.butter_lowpass_filter", "cmtj/utils/filters.py: Filters.butter_bandpass_filter", "cmtj/utils/resistance.py: compute_sd"]}
{"id": "C76", "title": "Energies computed from a log", "statement": "EnergyCompute.compute_from_log succeeds exactly when every logged field column has a layer magnetisation of matching length and a nonzero cell size, and then returns, per layer and logged field, minus the dot product of the magnetisation and that field of the same row divided by the cell volume (surface for names ending in J); on the log of a run with unambiguous layer names it returns one energy per logged row, layer and field, of the trajectory states, and nothing else. Names containing underscores, fields logged for part of the rows, and two-layer junctions with a layer name starting with H raise an error. It is refuted that exchange energies are per surface, that a layer's energy always uses its own magnetisation, and that the energy only combines simultaneous rows.", "quantifier": "all logs (any columns, any lengths), all cell sizes, all junctions, durations, steps, solvers", "why_tests_cant": "the column names are free user strings and the log length is unbounded", "anchors": ["cmtj/utils/energy.py: EnergyCompute.compute_from_log", "cmtj/utils/energy.py: EnergyCompute.calculate_energy_from_field", "cmtj/utils/energy.py: EnergyCompute.calculate_energy_from_field_interfacial", "core/junction.hpp: Junction::logLayerParams"]}
{"id": "C77", "title": "Resonance line shapes", "statement": "The Lorentzian helpers return, for every field, width, centre and amplitude for which width and detuning do not both vanish, exactly the value v with v((H-Hr)^2+dH^2) = Vs dH^2 (symmetric) or Vas dH (H-Hr) (antisymmetric); the symmetric curve is even about Hr, has its unique maximum Vs there and half of it exactly at a distance |dH|; the antisymmetric curve is odd and bounded by |Vas|/2, reached at |H-Hr| = |dH|; two parameter sets give the same mixed curve only if they agree up to a simultaneous sign change of width and odd amplitude; the Meinert angular curve is even about its phase offset and its three amplitudes are determined by the curve.", "quantifier": "all real fields, widths, centres, amplitudes and angles", "why_tests_cant": "identities and identifiability over all real parameters", "anchors": ["cmtj/models/ensemble.py: meinert_model", "cmtj/models/ensemble.py: symmetric_lorentz", "cmtj/models/ensemble.py: antisymmetric_lorentz", "cmtj/models/ensemble.py: mixed_lorentz"]}
{"id": "C78", "title": "Analytic drivers of the domain models", "statement": "The constant, sine, decaying and Gaussian drivers are the closed-form waves of their parameters: the sine has period 2 pi over its frequency parameter, the decay loses a factor e per time constant, the Gaussian has its unique maximum at zero and falls to 1/e of it at sigma; zero time constants fail. It is refuted that the frequency of the sine is in hertz and that sigma is a standard deviation.", "quantifier": "all times and parameters", "why_tests_cant": "identities over all real parameters", "anchors": ["cmtj/models/drivers.py: constant_driver", "cmtj/models/drivers.py: sine_driver", "cmtj/models/drivers.py: decay_driver", "cmtj/models/drivers.py: gaussian_driver"]}
{"id": "C79", "title": "Detrending a spectrum", "statement": "Filters.detrend_axis subtracts from every entry the median of its column (axis 0) or row (axis 1 or -1): afterwards all these medians vanish, detrending again changes nothing, and offsets added per column or row do not matter; other axes raise. It is refuted that axis -2 is the same as axis 0.", "quantifier": "all rectangular arrays of any size and real entries, all axes", "why_tests_cant": "arrays of every size with arbitrary entries", "anchors": ["cmtj/utils/filters.py: Filters.detrend_axis"]}
{"id": "C80", "title": "Domain noise model", "statement": "noise_model returns exactly when the distributions are known, the areas are usable, the step count is not negative, oscillations and background noise are not both requested, one of them is requested unless there are no steps, and the thermal deviation is not negative when a domain is renewed; the result is then the unique signal which is reset to the area-weighted sum of the domains in every step with a renewed domain and otherwise walks by the disturbance of the step. Domains are renewed exactly when their disturbed period divides the time index (or vanishes), the counts are the numbers of renewals, uniform areas sum to one, areas ascend and functional periods ascend from at least one. It is refuted that the signal vanishes when all noise amplitudes are zero.", "quantifier": "all arguments and all random draws, any number of domains, steps and dimensions", "why_tests_cant": "every stream of random draws and every run length", "anchors": ["cmtj/models/noise.py: noise_model"]}
{"id": "C81", "title": "Autocorrelation", "statement": "autocorrelation returns, for every non-constant signal, the lags k dT and the circular autocorrelation of the deviations from the mean divided by their energy, for the first half of the lags; it is 1 at lag zero, within [-1,1] elsewhere, 1 at every period of a periodic record, and invariant under rescaling and shifting the signal; constant signals fail. It is refuted that it is the correlation of the finite record without wrap-around.", "quantifier": "all signals of every length, all time steps", "why_tests_cant": "the discrete Wiener-Khinchin identity for every length and signal", "anchors": ["cmtj/models/noise.py: autocorrelation"]}
{"id": "C82", "title": "Time grid in binary64 arithmetic", "statement": "With IEEE doubles, a run of a junction, stack or LLGB junction with a finite step returns its grid exactly when total time and write frequency are finite, the step is not zero and not above the write frequency, the truncated rounded quotients fit the integer types, and the write interval is not zero unless there are no steps; the number of steps is the truncation of the rounded quotient T/dt, which is the floor of the exact quotient or one more, equals n when T is exactly n dt, and is n or n-1 when T and dt are the doubles nearest to the decimals n d and d. For positive steps the time of row k of a junction or stack is the double nearest to k dt, lies in [0,T], increases strictly and has relative error at most 2^-53, the modulus of the write test is never zero, and the logged rows are the multiples of the write interval. The LLGB clock is accumulated by addition: the k-th time is within k 2^-52 relative of t0 + k dt and increases strictly. It is refuted that decimal arguments give n steps (3e-13/1e-13 gives 2), that the default arguments log every 100th step (they log every 99th), and that the LLGB clock is the double nearest to k dt.", "quantifier": "all finite doubles, all step counts", "why_tests_cant": "rounding of two divisions and a product for every pair of doubles", "anchors": ["core/junction.hpp: runSimulation", "core/stack.hpp: runSimulation", "core/reservoir.hpp: runSimulation", "core/llgb.hpp: runSimulation"]}
{"id": "C83", "title": "Pulse and step drivers in binary64 arithmetic", "statement": "With IEEE doubles, the pulse driver evaluated at a finite time with a finite non-zero period returns the amplitude exactly when the time lies between the rounded start N p of its period and the rounded end of the pulse, and zero otherwise, where N is the truncated rounded quotient t/p; it is undefined exactly when N does not fit an int. For duty cycles in [0,1] and times at phase distance more than 2^-50 (t/p+1) from both edges it equals the ideal pulse (and the driver value is the rounded constant plus amplitude, or the constant). The step driver is exactly the ideal one for all finite arguments. It is refuted that a pulse train with duty cycle 1 is constant (period 1e-9 on the grid of step 1e-13 drops to 0 in iteration 30000) and that a pulse is on at the beginning of each decimal period (t = 3e-9, period 1e-9).", "quantifier": "all finite doubles", "why_tests_cant": "rounding of quotient, product and sum for every time and period", "anchors": ["core/drivers.hpp: pulseTrain", "core/drivers.hpp: stepUpdate", "core/drivers.hpp: getCurrentScalarValue"]}
{"id": "C84", "title": "Counts rounded up from binary64 quotients", "statement": "With IEEE doubles, Structure computes its block counts exactly when the cell sizes are non-zero and the quotients do not overflow, and then each count is the ceiling of the rounded quotient (the z count at least 1); it is the exact ceiling or, when the quotient rounds down to an integer, one less; exact multiples give exact counts, and decimal arguments n d and d give n or n+1 blocks (refuted: always n, 285e-9/5e-9 gives 58). numpy.arange with finite arguments has the ceiling of the rounded quotient of the rounded span many elements (at least one in a forward range, none in a backward one), and from zero its elements are the doubles nearest to i dt; its last element may reach the end. plot_noise_data's time axis of k steps has k or k+1 points, and the plot succeeds exactly when it has k (refuted: always, 3 steps of 0.1 raise). A dipole reservoir run makes N rows at the doubles nearest to i dt, none for negative N, and is undefined exactly when the truncated rounded quotient N does not fit an int.", "quantifier": "all finite doubles, all counts", "why_tests_cant": "rounding of a quotient for every pair of doubles", "anchors": ["cmtj/models/oersted.py: Structure.__init__", "cmtj/models/noise.py: plot_noise_data", "core/reservoir.hpp: Reservoir::runSimulation"]}
{"id": "C85", "title": "Fitting resonance data with the front end", "statement": "The six axis names, and no others, have angles and a vector, which point the same way. The fit error is infinite exactly when there are fewer simulated frequencies than targets, and otherwise the sum over the maximal runs of equal fields of the squared distance of the target with the same number to the nearest frequency; for a sweep with a frequency at every field and one target per field it is zero exactly when every target is one of the frequencies of its field. The sweep solves each field from the equilibrium of the one before. Every parameter of the stack is either searched between its bounds or held, never both, and a suggestion together with the held values always yields the lists of J, K and Ms. A data file gives one row per line after the first that is neither blank nor a comment, split at blanks. Refuted: that a file with two columns can be fitted (a perfect simulation has error 1), that fields without frequencies are left out of the comparison (later targets move), that a field along x, y or xy lies in the plane (degrees are used as radians), that the axes xz and yz differ from x and y for the anisotropy, that swapped bounds are put in order, and that the resonance line extraction ever returns a frequency.", "quantifier": "all tables, targets, files, forms and suggestions", "why_tests_cant": "any file, any number of layers and fields", "anchors": ["view/simulation_fns.py: compute_sb_mse, simulate_sb_wrapper, kwargs_to_list, get_axis_angles", "view/autofit.py: get_config, autofit", "view/helpers.py: read_data", "view/utils.py: extract_max_resonance_lines"]}
{"id": "C86", "title": "Cached energies follow the parameters", "statement": "A method decorated with lru_cache on mutable instances answers every program of attribute assignments and calls, on any number of instances and for any positive cache size, like the undecorated method, exactly when equal hashes of (instance, arguments) imply equal results; for create_energy this holds when solvers that differ have different hashes. The cache never holds more than maxsize entries; on unchanged instances a call is a hit exactly when its key is among the maxsize most recently used ones; exceptions are not cached. Layers compare equal exactly when number, thickness, anisotropies and magnetisation (and damping) agree; it is refuted that equal layers have equal energies (demagnetisation and DMI are ignored) or equal torques.", "quantifier": "all programs of assignments and calls, all hashes, all cache sizes", "why_tests_cant": "aliasing between cache entries and later mutation depends on arbitrary interleavings", "anchors": ["cmtj/models/general_sb.py: Solver.create_energy", "cmtj/models/general_sb.py: Solver.__hash__", "cmtj/models/general_sb.py: LayerSB.__eq__", "cmtj/models/general_sb.py: LayerDynamic.__eq__", "cmtj/utils/general.py: VectorObj.__eq__"]}
{"id": "C87", "title": "Modes of a dynamic stack and rounded roots", "statement": "For a stack of dynamic layers dynamic_layer_solve decomposes exactly the derivative matrix of the coupled equations of motion at the given position and returns Im(lambda)/2pi of exactly the eigenvalues with positive imaginary part, in the order of the decomposition, all positive, with one vector each; it answers for every position off the poles and refuses a missing field, a layer that is not dynamic, or a position of the wrong length. num_solve returns in increasing order exactly the roots rounded to the nearest 0.01 GHz, ties to even. It is refuted that the returned vectors are eigenvectors (rows of the matrix are returned instead of columns) and that different roots are kept apart.", "quantifier": "all stacks, positions, decompositions and root lists", "why_tests_cant": "any number of layers and any decomposition", "anchors": ["cmtj/models/general_sb.py: Solver.dynamic_layer_solve", "cmtj/models/general_sb.py: Solver.compose_llg_jacobian", "cmtj/models/general_sb.py: Solver.num_solve", "cmtj/models/general_sb.py: Solver.solve"]}
{"id": "C88", "title": "Parallel evaluation and the optimisation loop", "statement": "multiprocess_simulate returns the errors of the suggestions in their order, equal to evaluating them one after the other, whatever order the workers finish in, and raises the first failure in the order of the suggestions; no suggestions are refused. After n_iters iterations hebo_optimization_loop has observed exactly n_iters batches, each suggested from exactly the observations before it and each observation being the evaluated error of its suggestion; iteration j is reported exactly when its batch improves strictly on everything before, the reports decrease strictly and the last is the least error observed.", "quantifier": "all functions, suggestion strategies, completion orders and numbers of iterations", "why_tests_cant": "completion orders of concurrent workers", "anchors": ["cmtj/utils/optimization.py: multiprocess_simulate", "cmtj/utils/optimization.py: hebo_optimization_loop"]}
{"id": "C89", "title": "Geometry of the figures", "statement": "get_sphere is a closed 100 by 100 mesh of unit vectors. plot_trajectory_sphere divides all points by their joint norm, so that a trajectory of constant length is drawn at radius 1/sqrt(number of points) (the promised unit sphere is refuted for two points or more); plot_coloured_trajectory joins consecutive points as given. unpack_ndim_map visits each selection of distinct indices exactly once in lexicographic order and returns the coordinates and value of each, it answers exactly when no axis and no dimension is shorter than the first axis (or there is no selection), and it visits every entry exactly with at most one axis (the diagonal is left out otherwise). In the coordinates plot every value keeps the fraction of its axis and stays between the extremes of the first column, the axes are padded by 5 percent, and the picture is finite exactly when no other column is constant; the curve of a row reaches the last axis exactly when there are at least as many rows as columns. create_stack puts layers, labels and arrows upon each other without gaps and sets the limits; arrows are centred exactly when the stack is not offset sideways.", "quantifier": "all trajectories, maps, axes, tables and stacks", "why_tests_cant": "figures are not compared, and the statements hold for any number of points, axes, rows and layers", "anchors": ["cmtj/utils/plotting.py: get_sphere", "cmtj/utils/plotting.py: plot_trajectory_sphere", "cmtj/utils/plotting.py: plot_coloured_trajectory", "cmtj/utils/plotting.py: unpack_ndim_map", "cmtj/utils/plotting.py: create_coordinates_plot", "cmtj/utils/plotting.py: create_stack"]}
{"id": "C90", "title": "Layers that do not interact evolve independently", "statement": "If no layer of a junction has exchange, interlayer DMI or dipole coupling and no torque is polarised by a neighbour, then the derivative of a layer does not depend on the neighbours, each solver step of the junction is one step of each layer alone, and runSimulation of the junction contains the runs of the single layers: it succeeds exactly when each layer can be run alone, ends in the same layers and appends the same log columns, whatever else is in the junction. This needs that all layers alone would use the same solver; otherwise it is false: a temperature driver of 0 K on one layer changes the trajectory of a quiet layer it does not interact with.", "quantifier": "all junctions, layers, drivers, noise, solvers, step sizes and run lengths", "why_tests_cant": "compares whole runs of junctions of any size with runs of each layer alone", "anchors": ["core/junction.hpp: Layer::calculateHeff", "core/junction.hpp: Junction::runMultiLayerSolver", "core/junction.hpp: Junction::heunSolverStep", "core/junction.hpp: Junction::eulerHeunSolverStep", "core/junction.hpp: Junction::getSolver", "core/junction.hpp: Junction::runSimulation"]}
{"id": "C91", "title": "The domain simulation is the area average of independent hysteresis curves", "statement": "simulate_domains answers exactly with the scanned fields, one magnetisation curve per domain and their mean weighted by area. The curve of a domain is that of a single macrospin started on its easy axis, carried from one field to the next, averaged over the last samples of each run. The curve depends on the anisotropy of the domain and the shared settings only: not on the number of domains, the other domains, or any area. Only the proportions of the areas count, and with areas that are not negative no point is longer than one. It answers exactly for a known axis, at least one domain, a nonzero total area, nonzero magnetisation and thickness and at least one averaged sample; a total area of zero is a division by zero.", "quantifier": "all numbers of domains, anisotropies, areas, materials, field scans, times, steps and averaging windows", "why_tests_cant": "quantifies over all forms and whole sequences of simulation runs, and compares simulations with different sets of domains", "anchors": ["view/domain.py: simulate_domains", "view/simulation_fns.py: create_single_domain", "core/junction.hpp: Junction::runSimulation"]}
{"id": "C92", "title": "The front-end simulations run the described stack and show its procedures", "statement": "prepare_simulation builds exactly the stack of the form: every layer with its own constants in SI units and magnetised along its easy axis, coupled to the next layer by its own coupling; it fails only for no layer. At every field of a scan a layer moves in the scanned field, the Oersted field, its own anisotropy, the film demagnetisation and the couplings to its two neighbours, and in nothing else. simulate_pimm shows exactly the result of the pulse procedure on that stack (one spectrum and one magnetisation per field, the latter in the unit ball for positive constants), simulate_vsd exactly the diode voltages less the median of every frequency over the fields. The settings for which each of them answers are characterised; a pulse simulation of 4 ns or less never answers, a diode simulation of Rz never answers.", "quantifier": "all stacks, couplings, field scans, frequencies, times, steps, excitations, random draws and filter designs", "why_tests_cant": "quantifies over all forms, whole sequences of simulation runs and random streams", "anchors": ["view/simulation_fns.py: create_single_layer, prepare_simulation, get_pimm_data, get_vsd_data", "view/helpers.py: simulate_pimm, simulate_vsd", "cmtj/utils/procedures.py: PIMM_procedure, VSD_procedure"]}
{"id": "C93", "title": "Simulations converge to the solution of the LLG equations", "statement": "For a junction without noise whose drivers have no jumps, started on the unit sphere, every solver approximates the solution of the coupled Landau-Lifshitz-Gilbert differential equations: for a right-hand side bounded by M with Lipschitz constant L and a step dt with dt M < 1, the magnetisation of every layer after k steps is within (4 L (1+3M) + M^2) (k dt) exp(3 L k dt) dt of the solution at time k dt; the same holds for the final state and every logged row of runSimulation (whose time column is one step behind), and for every eps there is a delta such that every successful simulation with a step below delta is within eps everywhere. Constant, sine, positive-sine, half-sine, trapezoid and Gaussian drivers qualify, with plain, spin-orbit and (away from the singularity of the efficiency) spin-transfer torque.", "quantifier": "all stacks of any number of coupled layers, all solutions, all solver modes, durations, steps and write frequencies", "why_tests_cant": "a statement about the limit of infinitely many runs and all solutions of a nonlinear system of differential equations", "anchors": ["core/junction.hpp: runSimulation, runSingleLayerSolver, runMultiLayerSolver, heunSolverStep, eulerHeunSolverStep, Layer::calculateLLG", "core/drivers.hpp: ScalarDriver::getCurrentScalarValue"]}
{"id": "C94", "title": "Undamped precession in closed form", "statement": "A layer without damping, current torque and noise in a constant field h along the unit vector n precesses: the equations turn it about n by the angle gamma0 h t and keep its component along n. After k steps of any solver its magnetisation is the normalised starting one with the transverse part multiplied by w^k, where w is the Taylor polynomial of exp(i z), z = gamma0 h dt, of degree 4 (RK4), 2 (Heun) or 1 (Euler-Heun). Hence the component along the field is q / sqrt(q^2 + |w|^(2k) (1 - q^2)): RK4 closes the angle to the field at every step exactly when 0 < z^2 < 8, and converges to alignment although the equations conserve the angle, while Heun and Euler-Heun open it at any step. For 0 <= z <= 3/2 RK4 is within 2 k (z^5/120 + z^6/720) of the exact rotation after k steps. The same is stated for the final state of runSimulation.", "quantifier": "all such layers in any junction, all axes, fields, steps, numbers of steps and solvers", "why_tests_cant": "closed forms for every number of steps and a limit of infinitely many steps; a test sees one trajectory and a tolerance", "anchors": ["core/junction.hpp: Layer::rk4_step, runSingleLayerSolver, runMultiLayerSolver, heunSolverStep, eulerHeunSolverStep, runSimulation"]}
{"id": "C95", "title": "Exchange-coupled layers: the default solver loses the conserved angle", "statement": "Two layers coupled by interlayer exchange only (no damping, current, noise or other fields): every solution of the coupled equations conserves the cosine q of the angle between them. RK4, which freezes the neighbours during a step, does not (refuted): one step sends q to (q - (1-q^2)(q(1-a1)(1-a2) + b1 b2)) / sqrt(..)sqrt(..) with w_i = a_i + i b_i the RK4 gains of z_i = gamma0 h_i dt. For equal layers and |z| <= 1 every step lowers q by at least (2/5) z^2 (1-q^2), for either sign of the coupling, so long simulations end antiparallel even with ferromagnetic coupling; and the error at a fixed time t is at least (3/10)(gamma0 h)^2 t dt, of first order in the step.", "quantifier": "all such pairs, starting angles, coupling strengths, steps and numbers of steps", "why_tests_cant": "compares all solutions of a differential equation with all trajectories of a solver, including the limit of infinitely many steps; a test with a tolerance at one step size passes", "anchors": ["core/junction.hpp: runMultiLayerSolver, Layer::rk4_step, Layer::calculateIEC, runSimulation"]}
{"id": "C96", "title": "Python calls reach the C++ function and parameter their stub documents", "statement": "For the functions listed as faithful, every call the .pyi stub permits (positional, keyword or mixed, any keyword order) reaches the documented C++ function with each value at its own parameter and the documented default elsewhere; for those listed as positional this holds without keywords and any keyword raises TypeError. The remaining documented functions depart from their stub (refuted, each with the signature they do serve): e.g. the 8th positional argument of Layer, documented as temperature, sets the damping; the arguments documented as persist and log of Junction.runSimulation set log and calculateEnergies; keywords constant, topId, junctionId, temperature, persist always raise; default dampings and write frequencies differ; iterating over a CVector does not end; cmtj.none is the reference and not the axis.", "quantifier": "all documented functions, all calls with any arguments and keywords", "why_tests_cant": "tests use one spelling of a call; the statement covers every way of passing the arguments and every function of the interface, and silent misrouting raises no error", "anchors": ["python/cmtj.cpp: PYBIND11_MODULE", "cmtj/__init__.pyi", "cmtj/stack/__init__.pyi", "cmtj/reservoir/__init__.pyi", "cmtj/noise/__init__.pyi", "cmtj/llgb/__init__.pyi", "core/cvector.hpp: operator[]"]}
{"id": "C97", "title": "A damped layer relaxes into the field", "statement": "A layer of damping alpha with no current, noise, anisotropy, demagnetisation or coupling in a constant field h n: for every solution of the LLG equations the cosine q(t) of the angle to the field is the hyperbolic tangent relaxed(q(0), alpha w t) with w = gamma0 h/(1+alpha^2), so every start except exactly opposite ends along the field. With RK4, a = w dt <= 1/32 and alpha <= 1, each step raises q by at least (a alpha/2)(1-q^2) whenever q >= 0 or alpha >= a^5; after k steps 1-q_k <= (1-q_0)(1 - (a alpha/2)(1+q_0))^k, and not faster than (1-3 a alpha)^k, so a simulation ends along the field. The bound on alpha is needed (refuted without it): for alpha <= a^5/500 a start at more than 120 degrees ends opposite to the field, the state of highest energy; with a = 1, alpha = 1/1000 already one step goes the wrong way.", "quantifier": "all such layers in any junction without noise, all starts, fields, dampings up to 1, steps up to 1/32 rad, numbers of steps; all solutions", "why_tests_cant": "limits of infinitely many steps for a continuum of starts, dampings and steps; the wrong-pole regime needs particular ratios of damping and step", "anchors": ["core/junction.hpp: Layer::calculateHeff, Layer::solveLLG, Layer::rk4_step, runMultiLayerSolver, runSingleLayerSolver, runSimulation"]}
{"id": "C98", "title": "Energy of a coupled stack never rises", "statement": "For a stack of any number of layers with time-independent fields, anisotropies and couplings (Zeeman, uniaxial, demagnetising, bilinear and biquadratic exchange, dipolar), no current and no interlayer DMI, whose neighbours agree on their coupling: along every solution of the LLG equations the total energy per area changes at minus the sum over layers of Ms t gamma0 alpha/(1+alpha^2) |m x H|^2; it never rises, is constant without damping, and with damping everywhere it is constant only while no layer feels a torque. Simulations with small enough steps inherit this up to any tolerance, whatever the solver. For dipolar coupling of layers with different Ms the claim is refuted: the dipole field is computed with the receiving layer's Ms, so with reciprocal tensors and no damping the magnetostatic energy of a pair changes from -h Ma to -h Mb.", "quantifier": "all such stacks, all solutions, all instants; all simulations with steps below a bound depending on the tolerance", "why_tests_cant": "energy balance holds for a continuum of couplings, states and times; a run can only sample it with discretisation error", "anchors": ["core/junction.hpp:505-515 Layer::calculateHeff", "core/junction.hpp: calculateHeffDipoleInjection, calculateLLG, calculateIEC_, runSimulation"]}
{"id": "C99", "title": "One motion, and every simulation approaches it", "statement": "For a stack of any number of layers (with or without spin-transfer or spin-orbit torque, couplings, time-dependent drivers without jumps) and unit magnetisations, the LLG equations have exactly one solution on [0,T] precisely when every layer has non-zero Ms and thickness. Noise-free simulations approach it as the step goes to zero, at the end and in every logged row, whatever the solver mode; hence any two simulations of the same junction with small enough steps agree within any tolerance, and simulations of a conservative stack lose or keep energy (C98) with no further hypothesis.", "quantifier": "all such stacks, horizons T, tolerances; all pairs of simulations with steps below a bound", "why_tests_cant": "existence and uniqueness of a limit over all steps and solvers", "anchors": ["core/junction.hpp: Layer::calculateHeff, calculateLLG, rk4_step, runSimulation, runMultiLayerSolver, runSingleLayerRK4"]}
{"id": "C100", "title": "Damped stacks come to rest", "statement": "The motion of a stack from unit magnetisations exists for all times. If the stack is conservative (time-independent drivers, no current, no interlayer DMI, couplings on which neighbours agree) and every layer has a positive moment and positive damping, every layer finally turns into the effective field it feels: the torque becomes and stays smaller than any tolerance, and the time until it is smaller in all layers at one instant is bounded independently of the starting state. A stack stays where it is exactly when no layer feels a torque. Noise-free simulations that are long enough, with small enough steps, end in a state whose torques are below the tolerance, whatever the solver mode.", "quantifier": "all such stacks with any number of layers, all starting magnetisations, tolerances, simulations of sufficient length with steps below a bound", "why_tests_cant": "limits over unbounded time and all starting states", "anchors": ["core/junction.hpp: Layer::calculateHeff, calculateLLG, rk4_step, runSimulation, runMultiLayerSolver, runSingleLayerRK4"]}
{"id": "C101", "title": "The two resonance solvers find the same modes, at frequencies 0.045 % apart", "statement": "At an equilibrium of a stack of undamped LayerDynamic layers whose energy has a positive definite second derivative, a frequency f is returned by Solver.dynamic_layer_solve (eigenvalues of the linearised motion) exactly when f times a fixed constant is a root of the Smit-Beljers matrix that the other solvers search. The constant is 2 pi gamma / gamma_rad (times the softening of the sine); it lies between 1.0004 and 1.0005, so the two lists of frequencies are never the same: the Smit-Beljers list contains a frequency above all those of dynamic_layer_solve.", "quantifier": "all stacks of any number of layers with any couplings, all equilibria with a common softening, any correct eigenvalue routine", "why_tests_cant": "equality of two lists of frequencies for all stacks and positions; test tolerances hide the constant factor", "anchors": ["cmtj/models/general_sb.py: Solver.dynamic_layer_solve, compose_llg_jacobian, create_energy_hessian, num_solve", "cmtj/utils/__init__.py: gamma, gamma_rad"]}
{"id": "C102", "title": "Analytical roots are those of the numerical Smit-Beljers matrix, unless a second derivative vanishes", "statement": "Solver.analytical_roots solves the matrix of an unknown energy and substitutes the second derivatives of the real one. If no second derivative of the energy by two angles vanishes identically, the substituted matrix at the frequency w equals, entry by entry, the Smit-Beljers matrix of the numerical solvers at w times gamma, for every field and position: the roots that analytical_field_scan multiplies by gamma are the frequencies of the numerical solvers. This is so for every single layer with a magnetisation and a thickness. If a second derivative vanishes identically, as for two layers without coupling, it is replaced by an unrelated derivative (with respect to a field component) that was computed before, so that the result depends on the iteration order of a Python set.", "quantifier": "all stacks with layers numbered from 0, all traversal orders of the symbols, all sound simplifications to 0, all fields and positions", "why_tests_cant": "the order of a Python set changes from process to process; equality of matrices for all stacks", "anchors": ["cmtj/models/general_sb.py: general_hessian_functional, get_hessian_from_energy_expr, get_all_second_derivatives, Solver.analytical_roots, get_ms_subs, analytical_field_scan"]}
{"id": "C103", "title": "A change in a stack is felt one layer further per step, two with the Heun solver", "statement": "Take two stacks that are the same near some layer but may differ in everything else (number of layers, parameters, magnetisations, drivers) further away, and run both with the same time step and solver. After N steps the magnetisations, parameters and random-generator positions still agree in the layers that are N layers away from the difference (2 N with the Heun solver, whose corrector uses the predictors of the neighbours), and the log rows of a layer agree until the difference can arrive. No smaller distance suffices. Energy logging does not change the motion.", "quantifier": "all pairs of junctions, all solvers, all drivers and couplings, thermal and coloured noise, all numbers of steps", "why_tests_cant": "relates two runs for all far-away configurations", "anchors": ["core/junction.hpp: runSingleLayerSolver, runMultiLayerSolver, eulerHeunSolverStep, heunSolverStep, runSimulation"]}
{"id": "C104", "title": "A simulation can be carried on by a second call when no driver changes with time", "statement": "When no driver of the stack changes with time and no layer has coloured noise, running N1 steps and then N2 steps in a second call leaves exactly the same layers (magnetisations and positions in the random streams) as running N1+N2 steps in one call, for every solver and also with thermal noise. If the first call ends on a logged step, the columns of the layers in the log are those of one call, while the time column starts again at zero. If the long run succeeds, so do the two short ones. With a driver that changes with time this fails, because every call starts at time zero: a field switched on at time 1 never acts in two calls of length 1.", "quantifier": "all junctions with constant drivers, all solvers, all numbers of steps and writing intervals", "why_tests_cant": "compares all ways of splitting a run, for all junctions", "anchors": ["core/junction.hpp: runSimulation", "core/drivers.hpp: getCurrentScalarValue"]}
{"id": "C105", "title": "A stack built upside down makes the same motion", "statement": "Take the layers in the opposite order and exchange in each of them everything that concerns its lower and upper neighbour (exchange, quadratic exchange, interlayer DMI, dipole tensors, top/bottom reference). Then every solver succeeds on one stack exactly when it succeeds on the other, every layer has the same magnetisation after every step, the columns of each layer get the same new values, and the resistance of a bilayer is the same. Setting a coupling between two named neighbours acts alike on both stacks.", "quantifier": "all junctions (strip resistance excluded for whole runs), all drivers, couplings, torques, thermal and coloured noise, all solvers and run lengths", "why_tests_cant": "relates two runs for all stacks; no test builds both orders", "anchors": ["core/junction.hpp: calculateHeff, calculateIEC, solveLLG, runMultiLayerSolver, heunSolverStep, eulerHeunSolverStep, runSimulation, setIECDriver"]}
{"id": "C106", "title": "A fit of the front end shows and stores the best point it tried", "statement": "For every optimiser, however it chooses its proposals: a fit that returns has simulated every proposed point together with the held parameters (rounds x suggestions points in all), the best point it reports is the first of those with the least error, the simulation it draws is that of this point and has this error, and after it the form holds the values of the best point and is otherwise unchanged. The shown error never rises, the shown per cent never falls and ends at 100. Held parameters are not written to the form; an interrupted fit raises and loses what it found; a fit without a finite error raises, so the message that it failed is never shown.", "quantifier": "all optimisers (functions of what they were told), all forms, files, solvers, numbers of rounds and suggestions, all moments of interruption between rounds", "why_tests_cant": "any strategy of the optimiser and any run length; the front end has no tests and the optimiser is random", "anchors": ["view/autofit.py: hebo_fit, autofit, get_fixed_arguments_from_state"]}
{"id": "C107", "title": "Turning a whole stack in space turns its motion", "statement": "If every vector, tensor, vector driver and thermal random vector of a stack is turned by the same rotation and all numbers stay the same, then a simulation of the turned stack succeeds exactly when that of the original one does, every solver gives the turned magnetisations at every step, the logged columns hold the components of the same vectors, turned, and the resistance along the stack is unchanged. The resistances of a strip are unchanged by half a turn about its axis, but not by every rotation. If everything but the magnetisation looks the same after the rotation (a film turned about its axis), turning the magnetisation is enough.", "quantifier": "all rotations, stacks, fields, couplings, tensors, spin torques, drivers in time, thermal streams, solvers, times and steps", "why_tests_cant": "every angle and axis of rotation and every run length; a test compares one direction with one other in floating point", "anchors": ["core/junction.hpp: Layer::calculateHeff, Layer::calculateLLGWithFieldTorque, Junction::runSimulation", "core/cvector.hpp"]}
{"id": "C108", "title": "Multiplying all fields makes the motion proportionally faster", "statement": "If all fields, couplings, anisotropies, tensors, currents and temperatures of a stack are multiplied by k > 0 and all drivers run k times as fast, then a simulation with time, step and write interval divided by k succeeds exactly when the original one does; every solver gives the same magnetisations at every step, thermal noise included (with the same random numbers); the magnetisation columns get the same values, the time column the times divided by k, and all resistances are the same. A driver of any shape becomes k times as fast by multiplying its values and its frequency and dividing its times by k.", "quantifier": "all k > 0, stacks, fields, couplings, spin torques, drivers in time, temperatures, random streams, solvers, times and steps", "why_tests_cant": "every factor and every run length; in particular the scaling of the noise amplitude with temperature and step is invisible in a single random run", "anchors": ["core/junction.hpp: Layer::calculateHeff, Layer::calculateLLGWithFieldTorque, Layer::getLangevinStochasticStandardDeviation, Junction::runSimulation", "core/drivers.hpp: ScalarDriver::getCurrentScalarValue"]}
{"id": "C109", "title": "Layers described differently move alike", "statement": "If the layers of two stacks have the same equation of motion, start and noise, then every solver gives the same magnetisations at every step, a simulation of the one succeeds exactly when a simulation of the other does, the magnetisation columns get the same values and all resistances are the same. In particular the easy axis may be given in either direction; of the external, Oersted, DMI and reserved fields only the sum counts; and a film c times as thick with c times the couplings, interlayer DMI vectors and current (at an unchanged cell volume) moves alike, unless it has the static spin-orbit torque, for which this is refuted.", "quantifier": "all stacks, fields, couplings, spin torques, drivers in time, temperatures, thermal and coloured noise, random streams, solvers, times and steps; all factors c other than 0", "why_tests_cant": "every pair of equivalent descriptions, every driver and every run length; a term that reads the wrong field or the wrong thickness can be invisible for the chosen values", "anchors": ["core/junction.hpp: Layer::calculateHeff, Layer::calculateAnisotropy, Layer::calculateIEC_, Layer::calculateIDMI_, Layer::calculateLLGWithFieldTorque, Junction::runSimulation"]}
