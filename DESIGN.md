# DESIGN

Target: the `cmtj` sources in `/repo` (C++ header core in `core/`, Python package in `cmtj/`,
Streamlit front end in `view/`). Everything here was obtained by *reading* the sources; nothing
was compiled or executed.

## Trusted base

* The Coq 8.16.1 kernel (and `coqc`). No plugin, no disabled check, no axiom of our own.
* Standard-library axioms reached through `Reals`: `ClassicalDedekindReals.sig_forall_dec`,
  `ClassicalDedekindReals.sig_not_dec`, `FunctionalExtensionality.functional_extensionality_dep`,
  and, where classical real analysis is used, `Classical_Prop.classic`. Every property theorem is
  followed by `Print Assumptions`. Structural theorems print "Closed under the global context".
* The correspondence model <-> source: every definition carries a comment `file:lines`.

## Modelling conventions

* `double` is modelled by the real numbers `R` (no rounding, no overflow). A computation that
  would leave the reals (division by zero giving inf/NaN, cast of such a value) yields the explicit
  error value `NonFinite`; C++ exceptions and Python `raise` yield `Throw`. Statements about IEEE
  truncation of `totalTime/timeStep` are made in a separate model on Coq's primitive floats.
* Stateful methods are functions `S -> S * result A`: the state *at the time of the throw* is kept, so
  exception safety is visible.
* Random number generators are explicit infinite streams `nat -> R` quantified universally.
* Loops are structural recursions/folds. Callbacks (objective, gradient, dipole function) are
  function arguments (oracles).
* `std::unordered_map<string, vector<double>>` is an association list with `operator[]` semantics.

## File layout

`M_*.v` model, `S_*.v` specification, `P_*.v` proofs, `T_*.v` property theorems (only
`Theorem ... exact lemma`, `Example`s and `Print Assumptions`).

## Plan per property

| id | property | modelled in | how proved |
|----|----------|-------------|------------|
| C01 | Magnetisation torque is tangent to the sphere | Layer.v: solveLLG with all branches, result monad | componentwise ring after inverting the binds, against spec dot/cross |
| C02 | Damping only dissipates | Layer.v | ring identity (Lagrange) + sign |
| C03 | Every step and every log row is normalised | Junction.v: all four runners, runSimulation fold, log | invariant `unit_or_zero` by induction on iterations; log rows by the same induction |
| C04 | Layers are advanced from a common snapshot | Junction.v: runMultiLayerSolver | refinement to a Jacobi spec defined by map over the old state |
| C05 | Log rows form exactly the requested time grid | Junction.v: runSimulation, logLayerParams | induction on iterations; arithmetic on nat/Z truncation. IEEE rounding of the divisions and times is the separate float model of C82 (M_Grid.v) |
| C06 | Log columns stay aligned | Junction.v: log as association list of columns | invariant over op lists run/clear |
| C07 | Energy logging duplicates the current column | Junction.v | induction on rows: column counts |
| C08 | A write frequency below the step is refused without side effects | Junction.v | direct, frame equality |
| C09 | Layer setters touch exactly the named layers | Junction.v: setters; Layer.v record | map/forall2 characterisation, separate spec of the changed field |
| C10 | Coupling setters are symmetric and pairwise | Junction.v: setCouplingDriver | induction over the layer list |
| C11 | GMR stays between Rp and Rap | Junction.v: calculateMagnetoresistance | Cauchy-Schwarz in 3D |
| C12 | Strip resistance is the parallel combination | Junction.v: stripMagnetoResistance | induction over layers |
| C13 | Solver selection | Junction.v: getSolver | case analysis against a decision table |
| C14 | No noise means deterministic | Junction.v: rng as explicit stream | relational induction over two executions |
| C15 | Effective field is the documented sum | Layer.v: calculateHeff | unfold + ring; affine laws |
| C16 | Anisotropy field is the gradient of its energy | Layer.v: calculateAnisotropy | derivable_pt_lim along every direction (stdlib Reals) |
| C17 | Exchange field is the gradient of a symmetric energy | Layer.v: calculateIEC_ | derivable_pt_lim + ring for reciprocity |
| C18 | Interlayer DMI does not obey action-reaction | Layer.v: calculateIDMI_ | general formula + witness |
| C19 | Aligned states are equilibria | Layer.v / Junction.v | zero derivative, then step algebra |
| C20 | Spin torques vanish on the polariser axis | Layer.v: solveLLG | ring |
| C21 | Axis relabelling equivariance | S_Rot.v, P_Rot.v | simulation relation by cyclic permutation through every layer function, solver loop, setter and the log |
| C22 | Constant, step, sine and pulse drivers | Drivers.v | case analysis; floor arithmetic for the pulse; sin periodicity |
| C23 | Half-sine driver keeps the non-positive half | Drivers.v | case analysis |
| C24 | Trapezoid driver shape | Drivers.v | nra / Lipschitz continuity |
| C25 | Gaussian drivers | Drivers.v | exp monotonicity |
| C26 | Scaling and shifting drivers | Drivers.v | case analysis on driver kind |
| C27 | Axial driver masking | Drivers.v: applyMask with state on exception | direct |
| C28 | Driver subclasses lose their override | Drivers.v: dynamic driver value type with slicing | direct |
| C29 | Vector algebra | Vec.v | ring, sqrt |
| C30 | Series and parallel stack laws | Stack.v | induction |
| C31 | Stack coupling is cumulative | Stack.v | induction over the junction list |
| C32 | Stack log shape | Stack.v | invariant over op lists |
| C33 | Stack broadcast setters | Stack.v | map |
| C34 | Stack steps all members with the last member's solver | Stack.v | induction |
| C35 | Dipole tensor | Reservoir.v | field |
| C36 | Two dipole formulas agree up to the 4 pi factor | Reservoir.v | field |
| C37 | Group interaction is simultaneous | Reservoir.v | induction / permutation |
| C38 | Reservoir pair tensor misuse | Reservoir.v | index lemma for all sizes |
| C39 | Buffered noise refill schedule | Noise.v | induction on ticks, div/mod |
| C40 | Bounded noise generators | Noise.v | invariant over ticks |
| C41 | Vector noise | Noise.v | norm lemma |
| C42 | LLGB longitudinal relaxation | Llgb.v | ring + sign analysis |
| C43 | LLGB damping parameters | Llgb.v | case analysis, lra |
| C44 | LLGB time is cumulative | Llgb.v | invariant over op lists |
| C45 | Spherical/cartesian conversions round-trip | M_Geom.v | atan/acos facts of stdlib |
| C46 | Amplitude scan with return is a palindrome-style loop | M_Geom.v | list induction |
| C47 | Root finder output | M_PyUtils.v: RootFinder with oracle solver | invariant; fuel-free termination measure |
| C48 | Parallel distribution is schedule independent | M_PyUtils.v: distribute | permutation induction |
| C49 | Coordinate descent returns parameters that may not be the best | M_PyUtils.v: heap cell for aliasing | witness + general statement |
| C50 | Python resistance formulas | M_Sym.v, M_Resist.v | algebra; symbolic derivative proved to be the derivative |
| C51 | Domain wall model structure | M_DW.v | iff with the force equations, derivatives, trace induction |
| C52 | Oersted field of block structures | M_Oersted.v | iff per method, loop invariants over the pair and region loops |
| C53 | Spectrum arrays | M_Compute.v: spectralFFT, spectralFFTMixed | soundness and completeness against a discrete Fourier specification, lia with div |
| C54 | Smit-Beljers hessian assembly | M_SB.v: matrix filling loops on symbolic expressions | cell-by-cell invariant over nested folds, Schwarz theorem for symbolic derivatives |
| C55 | Adam descent step bound and termination | M_SB.v: Adam and AMSGrad loops with gradient oracle | equivalence with a history form, Cauchy-Schwarz for the moving averages |
| C56 | Volumetric flag and scans | M_SB.v: scan over field objects in a heap | induction over the fields |
| C57 | Coloured noise copies and thermal noise correlation | Junction.v: stream in the layer | two-run induction |
| C58 | Each step computes its documented scheme | M_Layer.v, M_Junction.v: four steps | scheme relations, soundness and completeness |
| C59 | Constructors | M_Layer.v, M_Junction.v: constructors | acceptance iff, full characterisation of the fresh state |
| C60 | Energy columns | M_Layer.v caches, M_Junction.v log row | last-evaluation relation carried through steps and runs |
| C61 | EnergyDriver | M_Vec.v energies | algebra, Cauchy-Schwarz |
| C62 | Getters, saved table, layer settings | M_Junction.v, M_Layer.v | iff characterisations with frame conditions |
| C63 | Mean-field solver | M_Llgb.v: langevin, MFAWeissCurie | iterate characterisation, hyperbolic inequalities by derivative sign |
| C64 | LLGB steps, runs, log, setters | M_Llgb.v | per-layer step relations, iff with a step-by-step trajectory |
| C65 | What spectra and diode voltages show | M_Compute.v | orthogonality of sampled waves by telescoping sums |
| C66 | Box-Muller pair | M_Geom.v | case analysis |
| C67 | Smit-Beljers energy expression | M_SB.v: create_energy | evaluation of folds against vector sums |
| C68 | Gradient used by the energy descent | M_SB.v: gradfn | symbolic derivative = partial derivative |
| C69 | Spherical equation of motion | M_SB.v: rhs_spherical_llg | orthogonal frame algebra |
| C70 | Single layer resonance frequency | M_SB.v: single_layer_resonance | iff with second partial derivatives, scaling |
| C71 | Linearised dynamics | M_SB.v: Jacobian, A and V, linearised diode | cell-by-cell, inverse as oracle with its defining property |
| C72 | Solver construction and dispatch | M_SB.v | iff characterisations |
| C73 | Pulse procedure | M_Procedures.v: PIMM_procedure on the junction model | iff with the trajectories of S_Run, numpy generator as a stream |
| C74 | Spin diode procedure | M_Procedures.v: VSD_procedure | iff with the trajectories, filter design as oracle |
| C75 | Filters, rectified voltage | M_Procedures.v: lfilter, butter_*, compute_sd | difference equation, coefficients as oracle |
| C76 | Energies from a log | M_Energy.v: EnergyCompute | iff with a declarative energy table over string relations, then composed with the logs of runs |
| C77 | Resonance line shapes | M_Shapes.v: *_lorentz, meinert_model | rational identities; identifiability by evaluating at a few fields |
| C78 | Analytic drivers | M_Shapes.v: *_driver | exp/sin identities |
| C79 | Detrending | M_Shapes.v: np_median, detrend_axis | median as a relation (sorted permutation), uniqueness of sorting |
| C80 | Domain noise model | M_NoiseModel.v: noise_model | iff with a declarative history relation over arbitrary draws |
| C81 | Autocorrelation | M_NoiseModel.v: autocorrelation | discrete Wiener-Khinchin identity from the orthogonality of the roots of unity |
| C82 | Binary64 time grid | M_Grid.v: counts, times and log flags of all runSimulation loops on Flocq doubles | rounding is monotone and idempotent, correctness lemmas of Flocq's operations, relative error bounds; witnesses by computation |
| C83 | Binary64 pulse and step drivers | M_FloatDriver.v: pulse train, step update and the driver value on Flocq doubles | exact outcome by Flocq's correctness lemmas, agreement with the ideal pulse off the edges by error bounds; witnesses by computation |
| C84 | Counts rounded up | M_FloatCount.v: Structure's block counts, numpy.arange and the noise plot's time axis on Flocq doubles | ceiling of a rounded quotient, error bound below one half; witnesses by computation |
| C85 | Fitting front end | M_Fit.v: axes, fit error, layers and sweep, search space, file reader, resonance lines | inversion of every function; runs and words by induction; cos 90 is not 0 by bounds on pi |
| C86 | Cached energies | M_Memo.v: lru_cache over mutable instances, comparison of vectors and layers | invariant of the entries over all programs, counterexample program for the converse; most-recently-used list by induction |
| C87 | Modes and roots | M_Modes.v: selection of eigenvalues and vectors, rounding and merging of roots | inversion, filter positions by induction; the matrix by the Jacobian lemma of C71; rounding by Flocq's Znearest |
| C88 | Suggestions | M_Modes.v: futures finished in any order, optimisation loop | futures by induction over the completion order, loop invariants on batches and reports |
| C89 | Figures | M_Plot.v: sphere mesh, trajectories, unpacked maps, parallel coordinates, stacks | permutations by lexicographic sorting and counting, witness selections by transposition, inversion; loop of the stack by induction |
| C90 | Independence of uncoupled layers | M_Layer.v, M_Junction.v | equality of computations on uncoupled layers pushed through the monad, layer-wise characterisation of the steps, uniqueness of trajectories |
| C91 | Domain simulation of the front end | M_Domains.v | step of a junction of uncoupled macrospins, induction over the fields, uniqueness of hysteresis curves |
| C92 | Simulations behind the front end | M_Prepare.v | induction over the couplings, invariant of the stack along a scan, existence of runs, iff of the two procedures |
| C93 | Convergence to the LLG solution | M_Junction.v, M_Layer.v | increments close to the drift for all schemes, tangency, mean value theorem, discrete Gronwall; calculus of bounded Lipschitz functions for regularity |
| C94 | Undamped precession | M_Junction.v, M_Layer.v | one step of each solver is multiplication of the transverse part by a complex number; powers, norms, Taylor bounds of sin and cos |
| C95 | Exchange-coupled pair | M_Junction.v, M_Layer.v | one step turns each layer about the other one's old direction; recurrence for the cosine, strict decrease, limit |
| C96 | Python interface against its stubs | M_Bind.v | model of the pybind11 dispatcher with an iff characterisation; matching of signatures proved sound once, then applied to the tables |
| C97 | Damped relaxation | M_Junction.v, M_Layer.v | coordinates around the field turn a step into one on three numbers; perturbation of the undamped step, bounds on the length before normalisation; closed form of the equations by a Gronwall argument |
| C98 | Energy of a stack | M_Junction.v, M_Layer.v | energy as a recursion over the stack, its derivative by induction with the work done by the layer below as a boundary term; simulations through C93 |
| C99 | One motion | M_Junction.v, M_Layer.v | Picard iteration with an exponential weight for a system in coordinates, radial projection onto the unit ball to make the equations bounded and Lipschitz everywhere, norm conservation to remove it again; uniqueness by Gronwall |
| C100 | Damped stacks settle | M_Junction.v, M_Layer.v | global solution from the solutions on all horizons by completeness (no choice); energy bounded below, losses Lipschitz in time (Barbalat); torque-free states by uniqueness (C99) |
| C101 | Smit-Beljers and linearised motion agree | M_SB.v, M_Modes.v | rows of the linearised undamped motion are the rows of the Hessian turned and scaled; definiteness makes the eigenvalues imaginary; constants compared with Machin's bounds on pi |
| C102 | Analytical roots | M_Analytic.v | substitution table as a fold over the pairs of a traversal, exact content by splitting the pairs; matrix loops in closed form; second derivatives compared through uniqueness of partial derivatives |
| C103 | How far a change is felt | M_Junction.v | uniqueness of each scheme given the neighbours; induction over the steps; exchange-coupled chain for sharpness |
| C104 | Carrying on a simulation | M_Junction.v, M_Drivers.v | steps do not depend on time; same trajectory shifted by N1; a step driver switched on late for the refutation |
| C105 | Stack upside down | M_Junction.v, M_Layer.v | flipped right-hand side; completeness of each scheme; induction over the steps |
| C106 | Fit of the front end | M_Autofit.v | induction over the rounds, the last round split off; first minimum of a list |
| C107 | Rotation of a stack | M_Junction.v, M_Layer.v | rotations keep scalar and vector products, so they commute with every term; image of a step, induction over steps |
| C108 | Multiplied fields | M_Junction.v, M_Layer.v, M_Drivers.v | the derivative is homogeneous in the fields, the noise in the square root of the temperature; image of a step, induction over steps |
| C109 | Equivalent descriptions | M_Junction.v, M_Layer.v, M_Drivers.v | a step depends on a layer only through its right-hand side and its noise; algebra of the field terms; induction over steps |

## Not modelled

* IEEE rounding in the physics. Rounding and the integer casts are modelled for the time grid (C82), the pulse and step drivers (C83)
  and the counts rounded up (C84) only; there a cast whose
  value does not fit is an `Undefined` error, and the rest of the step is left out because it does not influence the grid.
* Statistical quality of random generators, FFT numerics (`kissfft`, numpy), sympy's symbolic engine,
  `scipy.fsolve`, multiprocessing runtime, matplotlib (the figures of `cmtj/utils/plotting.py` up to the numbers handed over, C89), Streamlit widgets and figures, file I/O formatting.
* The optimiser HEBO (`view/autofit.py`, `cmtj/utils/optimization.py`): its proposals are an arbitrary function of what it was told; for C106 it keeps the finite errors only,
  its best point is the first one with the least error, and asking for it before any finite error raises.
* In `core/reservoir.hpp`: `std::prev_permutation` is represented by the order in which it enumerates the pairs of cells
  (`pairs n`, lexicographic); the method that only throws "Not implemented!" is left out.
* In `core/noise.hpp`: `kissfft` is represented by the defining sum of the discrete Fourier transform over the reals
  (`transform`), single precision is ignored, random distributions are arbitrary streams.
* In `core/llgb.hpp`: timing printouts are left out; the unqualified `abs` of the mean-field loop is read as the
  floating-point one; the two Gaussian generators of a layer are arbitrary streams.
* In `core/compute.hpp`: FFTW is represented by the defining sum of the discrete Fourier transform over the reals, a
  failed plan by an empty input; the leaked output array is ignored; `atan2` is the branch definition of `M_Math`.
* sympy: expressions are kept as built (`M_Sym`), automatic simplification is not represented; names are constructors.
  numpy's infinity in `1.0 / 0.0` is represented (`npnum`), signed zeros are not.
* In `cmtj/models/general_sb.py`: the determinant/roots for several layers (`num_solve`, `analytical_roots` are oracles,
  only the hessian they start from and the rounding of the roots (C87) are modelled), `numpy.linalg.inv`/`eig` (oracles; `inv` with its defining property),
  `lru_cache` outside C86 (the other models call the undecorated function; C86 says when that is the same; sympy prints matrix
  entries with 15 digits, so the hash ignores smaller differences), `lambdify`, the time budget of the progress bar, single precision of the diode matrices. `analytical_roots`
  passes a mutable sympy matrix to the cached `create_energy`, which may not be hashable; the model assumes it is.
* In `cmtj/models/domain_dynamics.py`: scipy's `RK45` is represented by the trace of its steps (status, time, state),
  `vector_size` keeps its default 3, float overflow is ignored.
* In `cmtj/models/oersted.py`: printouts, progress bars and figures are left out; the numpy array of blocks is the flattened
  list; only the array `show_field` returns is modelled.

## Files

| file | content |
|------|---------|
| Base | result and state monads, real division and conversions with explicit errors |
| M_Vec, S_Vec, P_Vec, P_VecMore, T_Vec | `core/cvector.hpp` |
| M_Drivers, S_Drivers, P_Drivers, P_DriversMore, T_Drivers | `core/drivers.hpp` |
| M_LayerState, M_Layer, S_Layer, P_Monad, P_Layer, P_LayerProps, P_LayerEx, T_Layer | `Layer` in `core/junction.hpp` |
| M_Junction | `Junction` in `core/junction.hpp` |
| S_Step, P_Step, P_Step2, P_Step3, P_Step4, T_Step | time steps |
| S_Run, P_Run, P_Keys, P_RunProps, P_Quiet, P_RunEx, T_Run | whole runs and the log |
| S_Api, P_Api, P_Log, T_Api | setters and sequences of calls |
| S_Cache, P_Cache, T_Cache | remembered fields and the energy columns |
| S_Ctor, P_Ctor, T_Ctor | constructors, getters, saved table, EnergyDriver |
| M_Stack, S_Stack, P_Stack, P_StackRun, P_StackLog, P_StackProps, T_Stack | `core/stack.hpp` |
| M_Procedures, S_Procedures, P_Procedures (set-up, log), P_Pimm, P_PimmProps, P_Vsd, P_VsdProps, P_ProcMore, T_Procedures | `cmtj/utils/procedures.py`, `cmtj/utils/filters.py`, `compute_sd` |
| M_Energy, S_Energy, P_Energy, P_EnergyRun (logs of runs), P_EnergyMore, T_Energy | `cmtj/utils/energy.py` (`EnergyCompute`; the callback class `EnergyDriver` is unused) |
| M_Shapes, S_Shapes, P_Shapes (line shapes, drivers), P_Detrend, T_Shapes | `cmtj/models/ensemble.py`, `cmtj/models/drivers.py`, `detrend_axis` of `cmtj/utils/filters.py` |
| M_NoiseModel, S_NoiseModel, P_NoiseModel (exact result), P_NoiseModelMore, P_Auto, T_NoiseModel | `cmtj/models/noise.py` (`noise_model`, `autocorrelation`; the plotting functions are left out) |
| M_Grid, S_Grid, P_Grid (rounding, casts), P_GridRun (junction, stack), P_GridClock (LLGB clock, literals), T_Grid | the time grid of `runSimulation` in `core/junction.hpp`, `core/stack.hpp`, `core/reservoir.hpp`, `core/llgb.hpp` in binary64 (Flocq) |
| M_FloatDriver, S_FloatDriver, P_FloatDriver, T_FloatDriver | `pulseTrain`, `stepUpdate` of `core/drivers.hpp` in binary64 |
| M_FloatCount, S_FloatCount, P_FloatCount, T_FloatCount | counts of `cmtj/models/oersted.py` and the time axis of `cmtj/models/noise.py` in binary64, with numpy.arange |
| M_Fit, S_Fit, P_Fit, T_Fit | `view/simulation_fns.py`, `view/autofit.py`, `view/helpers.py`, `view/utils.py` without widgets and figures |
| M_Memo, S_Memo, P_Memo, T_Memo | `lru_cache` and the comparisons of `cmtj/models/general_sb.py`, `VectorObj.__eq__` |
| M_Modes, S_Modes, P_Modes, P_ModesMotion, T_Modes | `dynamic_layer_solve` and the rounding of `num_solve` in `cmtj/models/general_sb.py`; `cmtj/utils/optimization.py` except `coordinate_descent` |
| M_Plot, S_Plot, P_Plot, T_Plot | `cmtj/utils/plotting.py` (what is drawn where; no colours, fonts or matplotlib) |
| S_Alone, P_Alone, T_Alone | (no new code) independence of uncoupled layers in runs of a junction |
| M_Domains, S_Domains, P_Domains, T_Domains | view/simulation_fns.py:15-34 create_single_domain, view/domain.py:39-83 simulate_domains |
| M_Prepare, S_Prepare, P_Prepare, P_PrepareRun, P_PrepareVsd, T_Prepare | view/simulation_fns.py:37-65 create_single_layer, 114-128 prepare_simulation, 132-155 get_pimm_data, 158-188 get_vsd_data, view/helpers.py:109-126 simulate_vsd, 129-140 simulate_pimm |
| S_Converge, P_Metric, P_Converge, P_Regular, P_Tame, P_ConvergeRun, T_Converge | no new code: solvers, layers and drivers of M_Junction, M_Layer, M_Drivers against the differential equations |
| S_Precess, P_Precess, P_PrecessRun, T_Precess | no new code: the solvers on layers in a constant field |
| S_Exchange, P_Exchange, T_Exchange | no new code: the Runge-Kutta solver on two layers coupled by exchange |
| M_Bind, S_Bind, P_Bind, P_BindDoc, P_BindTable, P_BindOdd, T_Bind | python/cmtj.cpp (functions, overloads, keywords, defaults, enumerations) and the signatures in the five __init__.pyi; pybind11's dispatcher and casters for None, bool, int, float, str, functions, bound objects and lists; not attributes, operators, return values |
| S_Relax, P_Relax, P_RelaxStep, P_RelaxRun, T_Relax | no new code: the Runge-Kutta solvers on a damped layer in a constant field |
| S_StackEnergy, P_StackEnergy, P_StackEnergyRun, T_StackEnergy | no new code: the equations of motion and runSimulation of a stack |
| S_Exists, P_Picard, P_Exists, T_Exists | no new code: existence and uniqueness of the motion the solvers approximate |
| P_Global, P_Settle, T_Settle | no new code: long-time behaviour of the motion the solvers approximate |
| S_TwoSolvers, P_TwoSolvers, T_TwoSolvers | no new code: relation between dynamic_layer_solve and the energy Hessian |
| M_Analytic, S_Analytic, P_Analytic, P_AnalyticMore, T_Analytic | `general_hessian_functional`, `get_all_second_derivatives`, `analytical_roots`, `get_ms_subs` of `cmtj/models/general_sb.py`; sympy.solve and the LU decomposition are left out |
| S_Reach, P_Reach, P_ReachEx, T_Reach | nothing new: pairs of runs of the same functions |
| S_Continue, P_Continue, P_ContinueRun, P_ContinueEx, T_Continue | nothing new: pairs of calls of the same function |
| S_Mirror, P_Mirror, P_MirrorRun, P_MirrorApi, T_Mirror | nothing new: pairs of runs of the same functions |
| M_Autofit, S_Autofit, P_Autofit, T_Autofit | `view/autofit.py` 11-75 and 117-145 without widgets and figures; the optimiser is an argument |
| S_Turn, P_Turn, P_TurnRun, T_Turn | no new code: rotations of the stacks of `core/junction.hpp` |
| S_Faster, P_Faster, P_FasterRun, P_BarEx, T_Faster | no new code: pairs of runs with multiplied fields |
| S_Same, P_Same, P_SameRun, T_Same | no new code: pairs of runs of differently described layers |
| M_Reservoir, S_Reservoir, P_Dipole, P_Group, P_GroupStep, P_GroupRun, P_Reservoir, P_ReservoirRun, T_Reservoir | `core/reservoir.hpp` |
| M_Noise, S_Noise, P_Noise, P_NoiseBuf, P_NoiseVec, T_Noise | `core/noise.hpp` |
| M_Llgb, S_Llgb, P_Llgb, P_LlgbRun, P_LlgbHist, P_LlgbPhys, P_Mfa, P_LlgbEx, T_Llgb | `core/llgb.hpp` |
| M_Math, S_Math, P_Math, M_Compute, S_Compute, P_Compute, P_Spectrum, T_Compute | `core/compute.hpp`, two-argument arctangent |
| M_Geom, S_Geom, P_Geom, T_Geom | `cmtj/utils/general.py` (not `perturb_position`), `cmtj/utils/linear.py` |
| M_PyUtils, S_PyUtils, P_PyUtils, T_PyUtils | `cmtj/utils/solvers.py`, `parallel.py`, `optimization.py` |
| M_Sym, S_Sym, P_Sym | sympy expressions, substitution, symbolic derivatives |
| M_Resist, S_Resist, P_Resist, T_Resist | `cmtj/utils/resistance.py` (not `compute_sd`) |
| S_Rot, P_Rot, T_Rot | axis relabelling of `M_Layer`, `M_Junction` |
| M_DW, S_DW, P_DW, T_DW | `cmtj/models/domain_dynamics.py` |
| M_Oersted, S_Oersted, P_Oersted, T_Oersted | `cmtj/models/oersted.py` |
| M_SB, S_SB, P_SB, P_SBDescent, P_SBMotion, P_SBResponse, P_SBTheorems, T_SB | `cmtj/models/general_sb.py` |

## Findings

Behaviour of the code that contradicts its documentation or a natural expectation; each is a theorem.

* C06 `c06_repeated_ids_refuted`: constructors accept repeated layer ids, whose columns then get several entries per row.
* C07: with energies, the `_I` column of a spin-torque layer is written twice per row.
* C09: a refused `setLayerDampingLikeTorqueDriver` / `setLayerFieldLikeTorqueDriver` leaves `includeSOT` on; a call for
  "all" that is refused half-way keeps the earlier layers' changes.
* C11 `c11_pinned_range_refuted`: the fixed reference vector is not normalised, so the resistance can leave [Rp, Rap].
* C13: a Dormand-Prince request runs plain RK4.
* C18 `c18_action_reaction_refuted`: the interlayer DMI torques of a pair do not cancel.
* C23: the half-sine driver keeps the non-positive half.
* C25: the Gaussian step factory builds a Gaussian impulse.
* C28: user subclasses of the scalar driver lose their override inside axial drivers.
* C57: layers copied from one object draw identical thermal noise.
* C59 `c59_unit_magnetisation_refuted`: layer constructors keep a magnetisation of any length.
* C60 `c60_simultaneous_refuted`: RK4 rows pair the time at the start of the step with driver values at its end.
* C60 `c60_thermal_columns_zero`: the `_Hth*` columns are always zero (the member is never written).
* C61 `c61_common_unit_refuted`: the Zeeman and demagnetising energies carry a factor mu0 that the exchange and
  anisotropy energies lack.
* C32 `c32_negative_time_refuted`: a stack run computes its step counts through a signed cast stored as unsigned, so a
  negative total time asks for about 4.29e9 steps (the counts are also computed before the write frequency is checked).
* C33: an index past the end is undefined behaviour in `setMagnetisation` and `setJunctionAnisotropyDriver`, while
  `getJunction` and `getLog` throw.
* C34 `c34_members_move_refuted`: every member is stepped with the last member's runner; a bilayer followed by a single
  layer runs without complaint and its upper layer never moves.
* C36 `c36_ratio`: the two dipole formulas offered for groups differ by a factor 4 pi.
* C37: a group, like a stack, wraps a negative total time and steps every element with the last element's runner;
  an interaction function that reads the reserved dipole field of the layers sees values already changed in this step.
* C38 `c38_intended_refuted`, `c38_feels_itself`, `c38_last_unfelt`: in the reservoir every cell but the last feels its own
  magnetisation through the tensor to its neighbour, later cells are shifted by one, the last cell influences nobody, and
  the volume used is the receiving cell's. Building a reservoir of a single cell is undefined behaviour.
* C39 `c39_entries`, `c39_white_refuted`: the buffered generator halves line N-1 of the spectrum and drops line N, so its
  samples are not the filtered draws; with alpha = 0 it does not return the white draws. A buffer of one sample returns
  a quarter of the draw, an empty buffer is undefined behaviour.
* C40 `c40_pink_centred_refuted`: a fresh pink noise generator starts at the lower end of its range (first sample below -0.66).
* C41: `tick` of a vector noise on the y or z axis always returns 0; `getPrevSample` returns the sample without the scale.
* C42 `c42_anisotropy_refuted`: with an anisotropy and no applied field a layer of equilibrium length still lengthens; the
  relaxation claim needs K = 0 as well. The anisotropy enters as K (n.m) n, without the 2/Ms factor of the plain layers,
  and the demagnetising tensor is stored but never used.
* C44 `c44_time_column`: the clock is advanced before each step, so the first step of a fresh junction is taken at dt and
  the first row is labelled dt (a `Junction` starts at 0).
* C64 `c64_transverse_noise`, `c64_no_damping_no_step`: the thermal fields are multiplied by zero, so LLGB runs are never
  stochastic; yet zero damping, zero Ms or a negative temperature still turn every step into NaN through them.
* C64: rows of a Heun run pair the time t with K, T and both dampings at t + dt; Euler-Heun rows take only the
  perpendicular damping at t + dt. A negative total time wraps to a huge step count. `getAnisotropyField` and
  `stochasticTorqueOld` are never called.
* C63 `c63_weiss`: without convergence the solver returns the last iterate with the residual of the one before; zero
  iterations return the start value and error 0.
* C53 `c53_short_refuted`: when one or two samples remain after `minTime`, spectralFFT returns one amplitude and no
  frequency. `c53_mixed_short`: with fewer than three samples spectralFFTMixed writes outside an empty vector.
* C53 `c53_mixed_lengths`: spectralFFTMixed always returns one amplitude more than frequencies.
* C65 `c65_top_bin_missing`: spectralFFT drops the highest bin below half the sample rate. Bin 0 is the plain sum of the
  samples while the other bins are divided by half their number; columns longer than the time column are divided by the
  number of time samples.
* The empty-log test of both spectra can never succeed, because `log["time"]` has created a column before it.
* C45 `c45_eq_geometric_refuted`: `==` on VectorObj compares the three coordinates, so the same vector written with two
  azimuths at a pole is unequal to itself.
* C46 `c46_single`: a scan with one step contains only `start`.
* C47 `c47_short_interval`: an interval shorter than the step is not searched at all; `c47_complete_refuted`: a solver
  that jumps to a far root makes the finder skip the roots in between. Roots of earlier `find` calls are kept.
* C48 `c48_repeated_refuted`: repeated values in a space are all reported under the first position.
* C49 `c49_aliasing_refuted`, `c49_returned`, `c49_one_key`: the returned dictionary has one key at the upper end of its
  range, whatever candidate was best, and the keys are never improved together.
* C66 `c66_zero_draw`: a zero first draw raises `math domain error`.
* C50 `c50_mr_refuted`: calculate_magnetoresistance has the sign of the angle and the offset wrong, antiparallel layers can
  get a negative resistance; `c50_angular_polar_refuted`: the angular helper measures theta from the film plane, the rest
  of the package from the normal; `c50_linearised_mirror_refuted`: the linearised helpers mirror the second layer, so two
  layers at equal angles are not parallel.
* C56 `c56_scan_keeps_fields_refuted`: a scan without a start position sets the magnitude of the caller's first field to 1
  and scans it (and every entry that is the same object) with that magnitude. The `volumetric` flag has no effect.
* C69 `c69_torque_damped_like_field_refuted`: the damping terms of the spin torques have the opposite sign of the Gilbert
  mixing applied to the field.
* C70 `c70_thickness_independent_refuted`: the single layer resonance frequency is proportional to the thickness.
* C71 `c71_response`: the linearised diode response is too small by 1 + alpha squared; `c71_frequency_cache_refuted`:
  `cache_var="f"` always raises.
* C67 `c67_two_layer_sum`: layer energies count each coupling twice, `create_energy` once.
* The constants gamma and gamma_rad / 2 pi of `general_sb.py` differ by about 0.05 %, so the one-layer shortcut and the
  hessian roots disagree even at unit thickness.
* C51 `c51_second_velocity_refuted`: the reported velocity of a second wall subtracts the width of the first wall instead
  of its own old position, so a wall at rest is reported as moving.
* C51 `c51_static_width_unused_refuted`: static relaxation only changes the reported width, the wall moves with the start
  width. `c51_undamped_fails`: zero damping raises even when the width is fixed. `c51_pinning_field`: the pinning field is
  the slope of the pinning potential times the pinning period.
* C52 `c52_ampere_law_refuted`: block coordinates are halved, so the field is twice Ampere's law for the centre distance.
* C52 `c52_region_total_refuted`: a region that ends inside the structure gets less than the requested total current (the
  share is computed for one more row than is set). `c52_default_end_fails`: leaving out the upper coordinate raises for a
  float extent. `c52_last_row_refuted`: the end -1 means the whole structure for sums but drops the last row of slices.
* C52 `c52_computed`: fields of structures with several layers can never be computed, blocks of one column divide by zero.
  `c52_recomputed`: computing twice doubles the fields.
* C21 `c21_strip_refuted`: strip resistances name their axes, so they are excluded from relabelling (expected).
* C73 `c73_resistance_of_magnetisations_refuted`: PIMM computes the resistances from magnetisations already multiplied by
  the moment weights, so with several layers the reported resistance is not that of the layers. `c73_wait_whole_run`: a wait
  time equal to the duration passes the check and always fails. `c73_zero_length`: the default parameters (l = 0) always
  divide by zero. `c73_last_zero`: take_last_n = 0 means everything. `c73_pulse_field`: the pulse includes its end time.
* C74 `c74_requirements`: leaving out the parameters always raises, Rz with one layer always raises (it reads a column
  "Resistance" that is never logged).
* C75 `c75_bandpass_frequency_refuted`: the band pass has no branch for a positive frequency, only for 0;
  `c75_bandpass_hertz_refuted`: a tuple is not divided by the Nyquist frequency.
* C76 `c76_exchange_per_surface_refuted`: only field columns whose layer name ends in "J" are divided by the surface, so the
  exchange field Hiec is divided by the volume. `c76_own_magnetisation_refuted`, `c76_unknown_layer`: the layer name is cut at
  its first underscore, so "a_b" takes the magnetisation of "a" or raises. `c76_reserved_names`: the column "R_a_b" of a two
  layer junction counts as a field when a name starts with "H", and the call raises. `c76_partly_logged`,
  `c76_simultaneous_refuted`: fields logged for part of the rows raise, except a single row, which is broadcast. The
  magnetisation is the unit vector: the factor mu0 Ms of an energy density in J/m^3 is absent.
* C77 `c77_dispersion_bound`: the antisymmetric amplitude Vas is twice the largest value of the curve, unlike the symmetric one.
* C78 `c78_hertz_refuted`: `sine_driver(t, amp, freq, phase)` uses `freq` as an angular frequency. `c78_deviation_refuted`:
  the Gaussian driver is exp(-(t/sigma)^2), so sigma is sqrt 2 standard deviations.
* C79 `c79_negative_axis_refuted`: `detrend_axis` with axis -2 computes column medians but subtracts them from rows; it raises
  on arrays that are not square and gives a different result on square ones.
* C80 `c80_both_refused`: `noise_model(N, enable_oscillations=True)` always raises, because the default background deviation is
  positive. `c80_neither_refused`: with the background deviation 0 and no oscillations the call raises an unbound variable error.
  `c80_silence_refuted`: the start vectors are uniform draws that no amplitude scales. `c80_walk`: between renewals the
  background noise accumulates as a random walk instead of being an additive noise. In `disturbance_of`, the background noise is
  summed over the dimensions and the same number is added to all of them.
* C81 `c81_linear_refuted`: the transform is not padded, so the correlation wraps around the end of the record.
* C82 `c82_steps_decimal_refuted`: a total time of n decimal steps often runs n-1 steps: `runSimulation(3e-13, 1e-13, ...)` makes
  2 steps, `runSimulation(3e-8, 1e-13, ...)` makes 299999 (`c82_steps_example`). Never fewer than n-1 (`c82_steps_decimal`).
* C82 `c82_default_write_refuted`: with the default step 1e-13 and write frequency 1e-11 every 99th step is logged, not every 100th.
* C82 `c82_llgb_drift_refuted`: the LLGB junction advances its clock by addition, so its times differ from the junction's
  (already in step 6 for dt = 1e-13); the first row is at t0 + dt and the clock is not reset between runs.
* C82 `c82_stack`: the stack and the reservoir cast through `int` before checking the step, so a negative total time gives
  4294967296 minus the number of steps iterations instead of an error.
* C83 `c83_full_duty_refuted`, `c83_rising_edge_refuted`: at the edges of a pulse train rounding decides: duty cycle 1 has gaps
  (period 1e-9, step 1e-13: iteration 30000), and the pulse may still be off at the decimal start of a period (t = 3e-9).
* C84 `c84_decimal_refuted`: a 285 nm structure with 5 nm cells has 58 blocks along x instead of 57.
* C84 `c84_axis_refuted`: `plot_noise_data` builds its time axis with arange and raises whenever rounding gives one point more
  than requested (3 steps of 0.1).
* C85 `c85_columns_refuted`: the columns of an uploaded file are flattened row by row, but the error compares one number per field;
  a perfect simulation of two columns has error 1.
* C85 `c85_gap_refuted`: a field at which the solver finds no frequency has no group, so all later fields are compared with the
  targets of earlier ones.
* C85 `c85_field_refuted`: `simulate_sb` passes the field angles in degrees to `VectorObj`, which expects radians; a field along x
  has z component h cos 90 (not 0).
* C85 `c85_tilted_axis_refuted`: the anisotropy axes xz and yz give the layers of x and y.
* C85 `c85_bounds_refuted`: `get_config` announces that it swaps reversed bounds, but writes the original ones.
* C85 `c85_line`, `c85_extract_refuted`: `extract_max_resonance_lines` adds a list of None to an array; it raises for two or more
  layers and returns an empty line for one.
* C85 `c85_target`: a file with a single value becomes a number instead of a list and the fit raises.
* C86 `c86_equal_energy_refuted`, `c86_equal_torque_refuted`: layers that differ in demagnetisation, DMI or torques compare equal;
  comparing a layer with a dynamic layer of the same fields raises an AttributeError (`c86_layer_eq`).
* C87 `c87_vectors_refuted`: `dynamic_layer_solve` returns rows of numpy's eigenvector matrix, whose columns are the eigenvectors.
* C87 `c87_merge_refuted`: roots less than 0.01 GHz apart may be reported as one frequency.
* C89 `c89_unit_refuted`, `c89_coloured_unit_refuted`: trajectories are not normalised to the unit sphere: one divides by the
  joint norm of all points, the other not at all.
* C89 `c89_diagonal_refuted`: `unpack_ndim_map` never visits an entry with a repeated index, so that the diagonal of a map and,
  with axes of different lengths, everything beyond the length of the first axis is missing from the coordinates plot.
* C89 `c89_curve_refuted`: the abscissas of a curve are counted by rows instead of columns, so that with fewer rows than
  columns the curves end before the last axis.
* C89 `c89_arrow_refuted`: with `offset_x` the arrows are at half the offset, off the layers.
* C90 `c90_solver_refuted`: a temperature driver on one layer (even 0 K) makes `getSolver` use Euler-Heun for all layers,
  which replaces RK4 by an explicit Euler step for quiet layers the warm one does not interact with.
* C91 `c91_zero_area`: areas of opposite sign that add up to zero give a division by zero before the first run.
* C92 `c92_short_time`: the form accepts simulation times from 1 ns on, but the spectrum is taken from 4 ns on, so every pulse simulation of at most 4 ns fails. `c92_vsd_requirements`: the junction of the front end has no resistance of its own, so a diode simulation of Rz never answers (the form offers Rx and Ry only).
- **Undamped layers are damped or pumped by the solver** (C94): without damping the equations keep the angle
  to a constant field, but RK4 closes it at every step with `0 < gamma0 h dt < sqrt 8` (by `z^6/72` of the squared
  transverse part per step) and Heun and Euler-Heun open it (`z^4/4` and `z^2`).  Long undamped simulations end
  along the field (RK4) or across it (Heun), whatever the damping-free physics.
- **RK4 is of first order for coupled stacks and pumps them** (C95): `runMultiLayerSolver` keeps the neighbours
  of the start of the step in all four stages.  An undamped pair with exchange only conserves the angle between
  the layers, but every RK4 step opens it (by about `z^2 (1-q^2)` of the cosine, `z = gamma0 J dt / (Ms t)`), whatever
  the sign of J; without damping even ferromagnetic coupling ends antiparallel, the state of highest energy.
- **The stubs misdescribe the Python interface** (C96).  Silent: `Layer(..., demagTensor, 300)` is documented as a
  temperature of 300 and sets the damping to 300; `runSimulation(T, dt, w, persist, log)` passes persist as log and log
  as calculateEnergies; createSOTLayer's damping defaults to 0.011, not 0.11; GroupInteraction.runSimulation writes every
  1e-11 s, not 1e-13 s; iterating over a CVector repeats z for ever (`x, y, z = v` raises), `v[-3]` is z;
  `cmtj.none` is Reference.none.  Loud (TypeError): the keywords constant, topId, junctionId, temperature, persist and
  arg0, every keyword of the functions bound without py::arg (all layer and junction setters, CVector, AxialDriver),
  GroupInteraction.getLog(), getVectorAxialDriver on an instance, a driver as amplitude of getSineDriver, and lists for
  vectors: implicitly_convertible is declared for a constructor that does not exist.
- `Junction(layers)` never gets the default resistances Rp = 100, Rap = 200 of the second overload (C96); they apply
  only when the other of the two is given.
- **Numerical damping of RK4 can beat the physical one** (C97): the step contracts the transverse part by about
  `a^6/144` (`a` the angle per step), towards the nearer pole.  For `alpha` far below `a^5` a layer that starts
  against the field therefore settles opposite to it, although every solution of the equations turns into the
  field.  At `a = 1` this happens for ordinary dampings (1/1000).
- **Dipole field scaled with the wrong magnetisation** (C98): `calculateHeff` (junction.hpp:509-512) multiplies the
  neighbour's direction and the dipole tensor by `this->Ms`.  A stray field is proportional to the magnetisation of
  its source.  For two layers of different `Ms` with reciprocal tensors the magnetostatic energy is not conserved
  without damping; the tensors would have to satisfy `Ms_a^2 t_a D_top = Ms_b^2 t_b D_bottom^T` instead.
- **Two values of the gyromagnetic ratio** (C101): `gamma` (28.024 GHz/T, used by the Smit-Beljers matrix) and `gamma_rad` (176 Grad/s/T, used by the spherical LLG equation) are inconsistent: 2 pi gamma / gamma_rad is between 1.00045 and 1.00046, so the two solvers report frequencies about 0.045 % apart for the same undamped stack (`c101_same_refuted`, `c101_larger`).
- **Derivatives equal to 0 are replaced by unrelated ones** (C102): `get_all_second_derivatives` (general_sb.py:132-149) stores the derivative of the unknown energy by a field symbol under the key 0, in the dictionary that it passes to `.subs` for the later derivatives.  A second derivative that sympy reduces to 0, such as that by the angles of two uncoupled layers, is then replaced by the last stored field derivative.  `free_symbols` is a set, so the outcome depends on its iteration order (`c102_order_refuted`, `c102_value_refuted`).
- **The Heun solver couples next-nearest layers within one step** (C103): `heunSolverStep` evaluates the corrector with the predictors of the neighbours, so that one step at a layer depends on the layers two away; the other solvers depend on direct neighbours only (`c103_step`, `c103_sharp`).
- **A second `runSimulation` starts at time zero again** (C104): drivers are evaluated at times counted from the start of each call and the time column repeats, so that a run with time-dependent drivers cannot be carried on by a second call (`c104_refuted`, `c104_log`); with constant drivers it can (`c104_continue`).
- **"Optimisation failed!" is never shown** (C106): when no error is finite, `best_x` of the optimiser raises RuntimeError and `hebo_fit` catches ValueError only (`c106_nothing`, `c106_failed_refuted`).
- **An interrupted fit is lost** (C106): it raises UnboundLocalError, because `simulated_data` is bound after the loop only; everything found so far is lost (`c106_interrupted_refuted`).
- **Held parameters are not written back** (C106): after a fit the searched parameters are written to the form but the held ones are not, so the form can show another value than the one used (`c106_held_refuted`).
