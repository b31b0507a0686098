# Design of the formal verification of DP3

This directory holds a machine-checked model, in Rocq/Coq 8.16.1, of parts of DP3 (the LOFAR preprocessing pipeline).
The source tree was read as text; it was neither built nor run. Every definition in the `*Model.v` files cites the file and
lines it models, and says where it simplifies.

Files of a topic X: `XModel.v` (the code), `XSpec.v` (a small specification that does not use the model),
`XProofs.v` (lemmas) and `XProps.v` (the theorems of the properties, `Cnn_…`, each followed by `Print Assumptions` and by
examples that meet its hypotheses). Some small topics have fewer files.

## 1. Modelling conventions

* Sizes and indices are `nat` or `Z`; where the code uses unsigned arithmetic and the property depends on wrap-around, the
  wrap (`mod 2^32`, `mod 2^64`) is explicit.
* Undefined behaviour (out-of-range access, signed overflow, division by zero) is a distinct outcome (`Undefined`, `None`
  or a flag in the state), never a default value. Exceptions are a distinct outcome as well (`Throw` or `None`).
* Floating point: theorems about which element goes where and which operation is applied to which operands in which order
  are proved for an arbitrary carrier with arbitrary operations, hence hold for IEEE arithmetic. Algebraic theorems
  (conservation, means) are proved in exact rational arithmetic (`Qc`) and say so; rounding is outside the model there.
  C04 models rounding of doubles with Flocq; C22 uses the real numbers.
* Threads: parallel loops are modelled as a fold in an arbitrary order where the property is about order independence.
* A step is modelled as a state with a transition per buffer and a finish; theorems are by induction over all streams.
* Names: `_partial` is a theorem that covers part of the statement; `_refuted` shows with a witness that the statement (or a
  natural strengthening of it) is false of the model.

## 2. Trusted base

* Coq's kernel (8.16.1), and the standard library with its axioms as listed below. `coqchk` accepts all files.
* The reading of the C++ code: a theorem is about the model. The model was compared with the source line by line, but
  nothing mechanical links them.
* Parameters of sections that stand for code outside of the model: the regular expression matcher of C++ (C55; C61 has a model of
  the part that is used), `std::nth_element` (C46, any function with the contract of the standard), the path functions of
  casacore (C44), the queue of aocommon (C31), the prediction of a slot (C45), floating point operations (C32), and the
  distance test of clustering (C29).
* Not modelled at all: casacore tables and measures, EveryBeam, schaapcommon, Python, MPI and file systems; the numerical
  solvers; the reading of sky models and of H5Parm files. Parts of steps that are left out are listed in section 3.

### Axioms used

`Print Assumptions` follows every property theorem in the sources. Of the 575 theorems in the manifest, 448 are "Closed under the global context". The others use only axioms of the standard library:

* `C04_index_to_pair_inverse`, `C04_row_major_inverse_large`, `C04_column_major_int_truncation_refuted`, `C73_last_refuted`, `C73_times_rounded_partial`, `C83_order`, `C87_visibility`, `C87_auto`, `C87_order`, `C87_parts`, `C87_reverse`, `C87_centre`, `C87_gaussian`, `C87_no_size`, `C87_spectrum`, `C87_sinc`, `C87_time_smearing_refuted`, `C88_simulated`, `C96_h5_amplitude_refuted`, `C97_smooth`, `C97_smooth_truncated_partial`, `C97_smooth_constant`, `C97_smooth_ignores`, `C97_smooth_refuted`: `ClassicalDedekindReals.sig_forall_dec`, `ClassicalDedekindReals.sig_not_dec`, `Classical_Prop.classic`, `FunctionalExtensionality.functional_extensionality_dep`.
* `C22_regular`, `C22_bda`, `C22_monotone`, `C22_negative_bound_refuted`, `C71_stall`, `C71_phase`, `C87_lmn`, `C87_rotation`, `C88_uvw`, `C88_data`, `C88_steps`, `C88_back`, `C91_factors`, `C91_refused`, `C91_bda_refuted`, `C91_no_tiles_refuted`, `C91_renumbered_refuted`, `C94_estimate`, `C94_flagged`, `C94_matrix_estimate`, `C94_threads`, `C94_threads_refuted`, `C94_exact`, `C94_unit`, `C94_unit_refuted`, `C94_stall`, `C94_relaxed`, `C94_converged`, `C94_init`, `C94_propagate`, `C95_fill`, `C95_exact`, `C95_corrected`, `C95_flagged`, `C95_one_correlation`, `C95_weights_refuted`, `C95_one_correlation_refuted`, `C96_gain`, `C96_unused`, `C96_scalar`, `C96_tec`, `C96_h5`, `C96_unused_refuted`, `C96_scalar_unused_refuted`, `C96_overwrite_refuted`, `C96_h5_phase_refuted`, `C98_leakage`, `C98_rotation`, `C98_form`, `C98_fixed`, `C98_reference`, `C98_diverged_partial`, `C98_diverged_refuted`, `C98_undetected_refuted`, `C98_invalid_refuted`, `C98_faraday_samples`, `C98_faraday`, `C98_faraday_refuted`, `C98_limit_refuted`, `C98_stored`, `C102_core`, `C102_core_refuted`, `C102_smooth_uniform`, `C102_smooth_distance`, `C102_smooth_refused`, `C102_smooth_refuted`, `C104_offset`, `C104_grid`, `C104_range`, `C104_solutions`, `C104_offset_refuted`, `C104_no_data_refuted`: `ClassicalDedekindReals.sig_forall_dec`, `ClassicalDedekindReals.sig_not_dec`, `FunctionalExtensionality.functional_extensionality_dep`.
* `C96_times`, `C96_h5_times`, `C96_h5_times_refuted`, `C97_antenna`, `C97_antenna_fixed`, `C97_antenna_refuted`, `C97_interval`, `C97_reference`, `C97_reference_refuted`, `C98_weights_refuted`, `C98_sub_weights_refuted`, `C98_flags_refuted`, `C99_mixing`, `C99_matrix`, `C99_flagged`, `C99_deproject`, `C99_singular`, `C99_apply`, `C99_subtract`, `C99_residual`, `C99_equation`, `C101_solver`, `C101_constraints`, `C101_hybrid`, `C101_datause_refuted`, `C101_gpu_refuted`, `C102_groups`: `ClassicalDedekindReals.sig_forall_dec`, `FunctionalExtensionality.functional_extensionality_dep`.
* `C98_weights`, `C98_rotation_weights_partial`, `C98_sub_weights_partial`, `C98_flags_partial`: `ClassicalDedekindReals.sig_forall_dec`.

## 3. What is modelled

Each line: the files of the topic, the code that is modelled, and what is left out.

* **Fields\*.v** — common/Fields.h, and the fields of a chain in base/DP3.cc (GetChainRequiredFields, SetChainProvidedFields). Complete.
* **Baseline\*.v** — common/baseline_indices.h. Complete, with the rounding of the double square root.
* **BdaBuffer\*.v** — base/BdaBuffer.cc and .h: construction, AddRow, AddData, RemoveData, MoveData, CopyConstructor, Clear, access. Time comparison is a parameter.
* **BdaAverage\*.v** — steps/BDAAverager.cc: updateInfo (factors, channel groups), AddBaseline, process, finish. Left out: fixed-size output (PushBufferSizeRequest), extra data buffers, frequencies of DPInfo.
* **BdaExpand\*.v** — steps/BdaExpander.cc: updateInfo, process, CopyData, finish. Left out: extra data buffers.
* **Average\*.v** — steps/Averager.cc and DPInfo::update. Left out: parsing of units, extra data buffers.
* **Info\*.v** — base/DPInfo.cc: setChannels (regular), SelectChannels, RemoveUnusedAntennas, setAntUsed, setTimes, getAutoCorrIndex. Left out: the BDA form of setChannels, directions, array positions.
* **Upsample\*.v** — steps/Upsample.cc, without recomputation of UVW.
* **Filter\*.v** — steps/Filter.cc (updateInfo, process, createIdMap, renumberSubTable) and base/BaselineSelection.cc. The MSSelection syntax is left out.
* **FlagExpr\*.v** — steps/PreFlagger.cc: expressions of sets (exprToRpn) and their evaluation.
* **Preflag\*.v** — steps/PreFlagger.cc: modes, matching of times, channels, uv distances, baselines and amplitudes, trees of sets. Parsing of times and frequencies from text and azimuth/elevation computations are parameters.
* **UvwFlag\*.v** — steps/UVWFlagger.cc: ranges and flags, regular and BDA. Left out: recomputation of coordinates for another phase centre, counters.
* **Str, NumParse, Split, Range\*.v** — common/StringTools.cc and ParameterValue.cc: skipping, integers, splitting of lists, expansion of ranges. `strtol` is modelled as glibc has it.
* **Parset, Read\*.v** — common/ParameterSetImpl.cc: the map, subsets, unused keys, reading of streams and arguments. Left out: file inclusion, writing.
* **Median\*.v** — common/Median.h.
* **FlagCount\*.v** — base/FlagCounter.cc: counters, totals, tables, file names. Left out: printing of percentages, writing the tables.
* **Interp\*.v** — steps/Interpolate.cc: all.
* **Clip\*.v** — steps/Clipper.cc: process. The prediction is a parameter.
* **Mad\*.v** — steps/MadFlagger.cc: windows, buffer of slots, correlations, median factors, flags of a baseline, autocorrelations. Left out: evaluation of the window expressions.
* **Adder\*.v** — steps/StationAdder.cc: patterns, superstations, new baselines, data, weights, flags, UVW. Left out: positions of superstations, writing of the antenna table.
* **Transfer\*.v** — steps/Transfer.cc and FlagTransfer.cc: all but reading of the source measurement set.
* **Times\*.v** — steps/MsReader.cc: the walk over time slots, insertion of missing ones, selection of times. Tables are lists of slots.
* **Cells\*.v** — steps/MsReader.cc: data, flags, weights of a slot, channel selection. Left out: extra data columns, UVW recomputation.
* **Cluster\*.v** — common/ProximityClustering.cc and clusterProximateSources of sky_model/SkyModelFunctions.cc.
* **Lane\*.v** — common/buffered_lane.h.
* **Pattern\*.v** — PatternToRegex of common/StringTools.cc, the part of std::regex it uses, and common/ValuePerStationParsing.h.
* **Chain\*.v** — base/DP3.cc: MakeSingleStep, MakeOutputStep, MakeStepsFromParset, MakeMainSteps; accepts, outputs and the presence of process functions of all steps. Left out: what constructors do, steps inside steps.
* **Stokes\*.v** — steps/NullStokes.cc: process. Exact arithmetic.
* **SolveBuffer\*.v** — ddecal/gain_solvers/BdaSolverBuffer.cc and .h: the queue of buffers and of rows per interval (AppendAndWeight without the weighting, AdvanceInterval, IntervalIsComplete, GetDone, BufferCount); steps/BdaDdeCal.cc: how process and finish use it. Times are exact numbers.
* **Weigh\*.v** — ddecal/gain_solvers/SolverTools.cc: AssignAndWeight and Weigh with batches of any even size; BdaSolverBuffer.cc: the weighting in AppendAndWeight. Products, roots and the test for finite values are any functions.
* **SolveData\*.v** — ddecal/gain_solvers/SolveData.cc: both constructors, the counts per antenna and solution, and the solution weights; steps/BdaDdeCal.cc: GetChanBlockIndex. Visibilities, weights and norms are any types and functions; times are exact numbers. The conversion to the matrix type of the solver is any function.
* **Gain\*.v** — ddecal/gain_solvers: PerformIteration, SolveDirection and AddOrSubtractDirection of IterativeScalarSolver.cc, IterativeDiagonalSolver.cc and IterativeFullJonesSolver.cc: one model of the loops, with the formulas of the three solvers as parameters; indices wrap at 32 bits; any division of the visibilities over threads. Matrices and complex numbers (aocommon) are exact.
* **Iterate\*.v** — ddecal/gain_solvers/SolverBase.cc and .h: DetectStall, Step, AssignSolutions, MakeResult, MakeSolutionsFinite and ReachedStoppingCriterion; the loop of Solve in IterativeScalarSolver.cc; HybridSolver.cc. An iteration, the constraints and std::abs are any functions; numbers are exact; the square root is avoided by squaring, and shown to be the same.
* **Phase\*.v** — ddecal/gain_solvers/SolverBase.cc: Step in phase-only mode, with batches of any size, over the real numbers.
* **Resample\*.v** — ddecal/Settings.cc: PrepareSubSolutionsPerDirection; ddecal/SolutionResampler.cc: Upsample for solutions and for results of constraints; ddecal/SolutionWriter.cc: the time axis, the order of the values, and the axes of constraint results; the H5 library is not modelled. ResampleRound has the time axis with IEEE doubles (Flocq).
* **Ddecal\*.v** — steps/DDECal.cc: process, doPrepare, doSolve, InitializeSolutions, finish, StoreFlags and RestoreFlags, SumModels, with the buffers as records of data, flags, the rest and model data per direction. What the solver, the model steps, the UVW flagger and the correction compute are parameters; writing the solutions is C73.
* **Sums\*.v** — steps/DDECal.cc: the channel blocks of updateInfo, the sums of doPrepare, CheckMinimumVisibilities, and the time given to the solver; exact numbers.
* **Subtract\*.v** — steps/DDECal.cc: ApplySolutionAndSubtract and CorrectAndSubtractModels for one slot, exact complex numbers.
* **BdaApply\*.v** — steps/BdaDdeCal.cc: DetermineChannelBlocks and the subtraction in ProcessDone; ddecal/gain_solvers/BdaSolverBuffer.cc: ApplySolutions; exact complex numbers.
* **BdaQueue\*.v** — steps/BdaDdeCal.cc: process, ExtractResults, HasAllDirections, SumModels, ProcessCompleteDirections up to the solver, finish. The results of the steps come by any schedule in order; what they compute is a parameter. The solver part is C67.
* **NextSteps\*.v** — steps/DDECal.cc: initializeColumnReaders, initializeIDG, initializePredictSteps, setModelNextSteps and the result steps of updateInfo; steps/BdaDdeCal.cc: InitializeModelStepChain, InitializeColumnReaders, InitializePredictSteps; steps/Step.cc: setNextStep. Steps are names.
* **AoFlag\*.v** — steps/AOFlaggerStep.cc: process, finish, flag, flagBaseline, and the adaptation of the window size in updateInfo. The AOFlagger library (strategy and statistics) is a parameter; the choice of window and overlap from the available memory is not modelled.
* **ApplyCal\*.v** — steps/OneApplyCal.cc: process, CorrectionLoop, CalculateBufferTimes; steps/ApplyCal.cc: ApplyDiag, ApplyFull, ApplyWeights. The gains (JonesParameters of schaapcommon: reading, interpolating and inverting solutions) are a parameter. Weights know infinity and not-a-number.
* **ApplySet\*.v** — steps/ApplyCal.cc and steps/OneApplyCal.cc: the constructors. Conversions of values are parameters; the solution tables are not modelled.
* **AntFlag\*.v** — steps/AntennaFlagger.cc: updateInfo, process and the order of baselines; antennaflagger/Flagger.cc: finding outliers, statistics of antennas and stations. Numbers are exact with infinity and not-a-number; the standard deviation and sum of squares over the channels of one baseline and the complex logarithm are parameters.
* **Multi\*.v** — steps/MultiMsReader.cc: constructor, updateInfo and the handling of bands, process and GetWeights. The readers of the measurement sets are those of the Times topic. Frequencies and times are exact; casacore::near is a parameter. UVW, extra data columns and the remaining information (DPInfo) are not modelled.
* **UpdateMs\*.v** — steps/MSUpdater.cc: SetFieldsToWrite, getRequiredFields, updateInfo (columns and fields), process, putFlags, putData and putWeights, on rows with named columns; reading again uses the reader of the Cells topic. Adding columns, storage managers and keywords of the beam, flushing and the history are not modelled; a column that is added has arbitrary values until written.
* **UvwSplit\*.v** — base/Simulate.cc: SetupUvwSplitting with and without positions, GetBaselineSelection, SplitUvw; GetBaselinesSortedByLength as any list of all baselines that is sorted by length. Coordinates are exact rationals. rotateUVW and simulate are not modelled here.
* **Euler\*.v** — steps/PhaseShift.cc: fillEulerMatrix, and the casacore matrices it is used with. Real numbers.
* **Simulate\*.v** — base/Simulator.cc and Simulator.h: radec2lmn, phases, spectrum, sinc, visit for point and Gaussian sources; base/PointSource.cc: stokes. Real numbers; the float argument of sinc is not modelled. The order of the loops and the preallocated storage are not modelled.
* **Shift\*.v** — steps/PhaseShift.cc: updateInfo (matrices, phase vector, frequencies), process; base/Simulate.cc: rotateUVW. Real numbers. Reading the direction (handleCenter) is not modelled.
* **Beam\*.v** — steps/ApplyBeam.cc: updateInfo, ComputeBeam, ApplyBeamToData, ProcessData, ProcessModelData; base/Telescope.cc: SelectStationIndices; what steps/OnePredict.cc tells about the beam. Exact numbers; the response of a station (EveryBeam) is any function of time, mode, station, frequency and direction. Reading directions and conversion of these to ITRF are not modelled (the direction is an argument of the response).
* **Predict\*.v** — steps/OnePredict.cc: PredictSourceRange, PredictWithSourceParallelization, addBeamToData (the sum over sources, the cached beams of the threads), process and SetOperation, SetApplyCal (the check of updateweights); steps/H5ParmPredict.cc (the chain over directions and the check of these). The visibilities of a source, the beam of a patch and the corrections are any functions. The division of the sources over threads is any division; threads add their sums in any order, each sum at once (in the code under a mutex). Not modelled: reading of the sky model, smearing, moving phase centre, the dish telescope branch, BDA.
* **Scale\*.v** — steps/ScaleData.cc: constructor, updateInfo (called once), fillSizeScaleFactors, process for regular and BDA data. Real numbers instead of float, where a value that is not finite is a separate value; the reading of coefficients from text (see C24) and the matching of patterns by casacore are not modelled.
* **Axis\*.v** — parmdb/Axis.cc and Axis.h: the cells of regular and ordered axes, find, locate, subset, doSubset, compress, combine, add, makeAxis, operator==, checkIntervals; parmdb/AxisMapping.cc: the constructor of AxisMapping. Exact numbers, near is equality, asserts are hypotheses; ids, streams and the caches of axes and mappings are not modelled.
* **Parm\*.v** — parmdb/Parm.cc: getResult (without perturbations) with getResultCoeff, both getResultScalar and fillArrayPV; parmdb/ParmValue.cc: rescale, scale2, fillPascal, createValues for polynomials; parmdb/ParmFacadeLocal.cc: the grid of getValues and the values of doGetValues; parmdb/ParmFacade.h: getValuesMap without steps. Exact numbers; errors, perturbations, masks, the solve grid of scalars and the reading of tables are not modelled.
* **Stef\*.v** — base/GainCalAlgorithm.cc: all of init, doStep, doStep_unpolarized, doStep_polarized, relax, getSolution and getAverageUnflaggedSolution; the loop over iterations of steps/GainCal.cc for one group of channels. Real numbers; arrays by their position in memory; the order of the threads is a permutation of the unknowns, each solved in one go. The throws for gains that are not finite, the logging and the TEC fit between iterations are not modelled; a relative change of 0/0 is 0.
* **RealCplx\*.v** — Complex numbers over the real numbers of the standard library; models no code.
* **Cal\*.v** — steps/GainCal.cc: the groups of channels of updateInfo, process, fillMatrices, the end of calibrate (solutions from gains), invertSol, applySolution, finish; steps/ApplyCal.cc: ApplyDiag, ApplyScalar, ApplyFull for one sample, without the weights. Real numbers. The prediction of the model, the UVW flagging, the antenna map and the weights for the TEC fit are not modelled; calibration is a parameter of the model of the intervals.
* **GainFile\*.v** — steps/GainCal.cc: initParmDB, parmName, writeSolutionsParmDB (names, values and the time axes of the chunks), the counting of process and finish, writeSolutionsH5Parm and makeSolTab; steps/OneApplyCal.cc: the choice of parameters in updateInfo and their values and defaults in updateParmsParmDB; parmdb/ParmDBCasa.cc: putValues, putDefValue, deleteValues, getNames, as lists of names, values and defaults. Real numbers. A ParmDB has one value for each cell of the grid (the lookup of cells is C93); the H5Parm library and schaapcommon's JonesParameters (polar coordinates, real and imaginary parts, TEC to phase) are external and their meaning is assumed.
* **Constr\*.v** — ddecal/constraints: AntennaConstraint.h (Apply), AntennaIntervalConstraint.cc (Initialize, Apply), Constraint.cc (ApplyReferenceAntenna), KernelSmoother.h (the Gaussian kernel and Smooth), SmoothnessConstraint.cc (Apply). Real numbers; a solution that is not finite is `None`, and arrays of solutions are functions of channel block, antenna, sub-solution and polarization. Not modelled: the other kernels (not used by DDECal), threads, and the choice of constraints in SolverFactory.cc.
* **Rot\*.v** — ddecal/constraints: RotationConstraint.{h,cc} (FitRotation, SetRotation, SetWeights, Apply), RotationAndDiagonalConstraint.{h,cc}, FaradayConstraint.cc (SetWeights, SetSubSolutionWeights, PerformFit), the leakage and amplitude constraints. Real numbers; a matrix with an element that is not finite is `None`; std::arg is a parameter with values in [-pi, pi]. Loops without a bound (Limit) have fuel. Not modelled: the fit of a slope (a parameter), the choice of its range, threads.
* **Demix\*.v** — steps/Demixer.cc: addFactors, makeFactors, deproject and the subtraction of demix; base/EstimateMixed.cc: makeIndex and the equations of estimate; base/Apply.cc; base/SubtractMixed.cc; steps/Averager.cc as it is used by the Demixer. One baseline and, but for the equations, one correlation at a time. Real numbers; the inversion of a matrix is a parameter. Not modelled: the solver's iterations, the simulation of the model visibilities (C20), the LBFGS variant, cursors and strides (the order of the indices of the mixing matrix is).
* **DemixTime\*.v** — steps/Demixer.cc: the directions (constructor), the time averaging (constructor, updateInfo), process, finish, handleDemix and the loop over time slots of demix; steps/MultiResultStep.cc: process; steps/Averager.cc: when an average is complete; sky_model/SkyModelFunctions.cc: MakePatches, as far as it fails. A time slot is its number and an average the list of its slots; an access past the end of a buffer is `None`. Not modelled: the averaging in frequency, the merge of baselines that are not selected, threads, wrapping of numbers.
* **Factory\*.v** — base/CalType.cc and CalType.h; ddecal/Settings.cc: ParseSolverAlgorithm, ParseSolverDataUse, ToString; ddecal/SolverFactory.cc: CreateSolver (both), CreateScalarSolver, CreateDiagonalSolver, CreateFullJonesSolver, AddConstraints, DetermineCoreAntennas, InitializeAntennaConstraint, CalculateAntennaSmoothnessFactors and the part of InitializeSolverConstraints that calls them; ddecal/Settings.cc: ReadAntennaConstraint. Not modelled: the settings of the solvers other than the number of iterations (step size, tolerance, LBFGS and low-rank settings), the screen fitter (does not compile), the warnings, overflow of distances, and operator>> for a double, which is a function of the text.
* **FactoryInit\*.v** — The same model as Factory, and the antenna constraint and the check of the interval constraint of ConstrModel.v.
* **InitSol\*.v** — ddecal/InitialSolutions.cc: the test for full-Jones tables of the constructor, and Read; ddecal/Settings.cc: GetNSolutions, GetExpandedSmoothnessDdFactors; steps/DDECal.cc: InitializeSolutions without earlier solutions. ReadJonesMatrix (schaapcommon: nearest source, interpolation, missing antennas) is a given function with two polarizations per table, or four for full Jones; rounding of float is not modelled.
* **Tec\*.v** — base/PhaseFitter.cc and .h, with real numbers; ddecal/constraints/TecConstraint.cc: TecConstraint::Apply for one solution of one antenna, after the reference antenna is divided out (see Constr for that). ApproximateTECConstraint, PieceWisePhaseFitter and the threads are not modelled; std::arg and std::polar are taken as phase and number with that phase.
* **Domain\*.v** — parmdb/Grid.cc: GridRep::setup from domains and Grid::toDomains; parmdb/Grid.h: getCellId, getCellLocation and getCell; the asserts of parmdb/Axis.cc: Axis::setup. Failing asserts are Throw, or nothing if they are compiled out. Exact arithmetic; see GridSort for sorting.
* **GridSort\*.v** — parmdb/Grid.cc: the constructor of GridRep from domains, with std::sort as insertion (the order of domains that start at the same point may differ).
* **Grids\*.v** — parmdb/Grid.cc: GridRep::setup from grids, combineAxes and the constructor of Grid from grids; parmdb/Grid.h: getBoundingBox. As Domain; sorting grids is not modelled.
* **SkyModel\*.v** — sky_model/SkyModel.cc and .h: all functions, with names as numbers in the order of the strings and patterns as predicates (casacore::Regex is trusted). Of a source only name, patch and direction are modelled; std::map is an ascending association list.
* **Box\*.v** — parmdb/Box.cc and .h: the constructor from start and end or center and width, unite, intersect, intersects, contains, empty and the order. Exact arithmetic; asserts, the constructor from a vector and printing are not modelled.
* **Combine\*.v** — steps/Combine.cc: process for regular and BDA data; base/DPBuffer.cc: CopyData, MoveData, RemoveData, SetSolution, GetSolution.
* **Subchain\*.v** — steps/Split.cc: the constructor, up to making the steps.

## 4. Properties

For each property: what is modelled and how it is proved, the status, and the theorems. The statements are in `properties.jsonl`; findings are in section 5.

**C01 — Reader fetches exactly the fields the pipeline needs.** The four fields as bits; the fold over the reversed chain. Proved equal to a direct definition over prefixes, by induction on the chain.
Status: proved. Theorems: `C01_chain_required_exact` (FieldsProps.v).

**C02 — Every output step writes exactly what changed since the previous output.** The fold over the chain with resets at output steps; compared with the segments between output steps, by induction.
Status: proved. Theorems: `C02_chain_provided_exact` (FieldsProps.v).

**C03 — Baseline numbering is a bijection.** The two index formulas over `Z`; injective, onto and ordered, for all antenna counts.
Status: proved. Theorems: `C03_index_bijection` (BaselineProps.v), `C03_order`, `C03_baseline_list`. Both baseline orders, every number of antennas up to 2^31 (above that the 64-bit products could wrap).

**C04 — Baseline index to antenna pair inverts the numbering.** The inverse with a square root in doubles (Flocq rounding); the error of the root is bounded and truncation shown right.
Status: partial. Theorems: `C04_index_to_pair_inverse` (BaselineProps.v), `C04_row_major_inverse_large`, `C04_column_major_int_truncation_refuted`. Double square root modelled with Flocq rounding. Holds for up to 2^16 stations; beyond that the column-major order is refuted (int truncation).

**C05 — BDA buffer rows tile the storage.** States of the buffer with offsets; invariant over all histories of calls that the rows tile the arrays.
Status: partial. Theorems: `C05_arrays_full` (BdaBufferProps.v), `C05_rows_tile_partial`, `C05_rows_tile_flags_or_weights`, `C05_rows_tile_refuted`. Capacity part holds always. Layout holds if some array is enabled when rows are added; without any array the rows overlap (refuted).

**C06 — BDA buffer row contents are stable and refusals are side-effect free.** The same histories; contents of rows are tracked against an abstract list of rows (refinement).
Status: proved. Theorems: `C06_row_contents_stable` (BdaBufferProps.v), `C06_old_rows_stable`, `C06_move_data`, `C06_add_row_decision`, `C06_copy_contents`. All histories of the buffer API.

**C07 — BDA channel averaging partitions the channels.** The channel boundaries computed per output channel; shown to be a partition, by arithmetic on divisions.
Status: proved. Theorems: `C07_channel_groups` (BdaAverageProps.v). Groups valid iff nout <= nin; sizes differ by at most one; widths add up.

**C08 — BDA averaging conserves weight and weighted visibility.** Invariant over the slots of a stream: each baseline buffer holds the weighted sums of its open window; rows written are means of windows.
Status: proved. Theorems: `C08_rows_are_averages` (BdaAverageProps.v), `C08_windows_partition`, `C08_weight_conserved`, `C08_flagged_sample_zero`, `C08_short_interval_refuted`. Whole step from first slot to finish, exact arithmetic. The last theorem shows that a time interval below the time tolerance makes the step throw.

**C09 — BDA averaged uvw is the mean of the inputs.** As C08, for uvw.
Status: partial. Theorems: `C09_uvw_mean_partial` (BdaAverageProps.v), `C09_uvw_flagged_refuted`. Holds for rows with positive weight; refuted for fully flagged rows (sum instead of mean).

**C10 — BDA expansion emits complete, ordered time slots and conserves weight.** Invariant over the rows of the buffers: which slots are open and complete; the slots written are a prefix in order.
Status: proved. Theorems: `C10_slots_ordered_complete` (BdaExpandProps.v), `C10_slot_times`, `C10_weights_conserved`, `C10_channels_restored`, `C10_channels_rounded`, `C10_gap_drops_rest_refuted`. Stated property proved; the refutation is an extra finding: a missing row of one baseline silently drops every later slot.

**C11 — Regular averaging conserves weight and weighted visibility and flags exactly by rule.** The sums of a block of slots by induction over the block, then over the stream.
Status: proved. Theorems: `C11_blocks_averaged` (AverageProps.v), `C11_slot_count`. Exact arithmetic.

**C12 — Averaged metadata matches the averaged data.** DPInfo::update over lists of channels and times; arithmetic in `Qc`.
Status: proved. Theorems: `C12_metadata` (AverageProps.v), `C12_announced_is_delivered`, `C12_refusal`, `C12_factors`. Exact arithmetic.

**C13 — Channel selection keeps the metadata consistent.** Lists of channels; firstn/skipn equalities. Wrap-around of 32-bit sums explicit.
Status: partial. Theorems: `C13_select_partial` (InfoProps.v), `C13_refusal_partial`, `C13_select_twice`, `C13_bandwidth_refuted`, `C13_wrap_refuted`. Ranges and refusal hold; total bandwidth is not updated and a wrapping start+count is not refused.

**C14 — Removing unused antennas preserves every baseline.** The map from old to new antenna numbers; names and positions of both ends of each baseline are kept.
Status: proved. Theorems: `C14_renumbering` (InfoProps.v), `C14_used_table`. Also idempotence.

**C15 — Upsampling yields the announced slots in order.** The step as a state machine; invariants over streams under stated spacing; witnesses for the failing cases.
Status: partial. Theorems: `C15_upsample_partial` (UpsampleProps.v), `C15_empty_stream_refuted`, `C15_order_refuted`, `C15_half_offset_refuted`, `C15_stuck_refuted`, `C15_backwards_refuted`. Order, coverage and provenance hold for slots at least half an input interval apart and aligned to the output intervals; the full statement is false for the empty stream, closer or half-offset overlaps, a flagged slot repeating the previous time, and times going backwards.

**C16 — Filter passes exactly the selected baselines and channels.** Copies by offset in flat arrays; equal to selecting rows and columns of a cube.
Status: partial. Theorems: `C16_filtered_partial` (FilterProps.v), `C16_announced`, `C16_empty_selection_refuted`, `C16_large_buffer_refuted`. Exact selection proved for selections with a match and buffers up to 2^32 values; false for a selection matching nothing (everything passes) and for larger buffers (32-bit offset).

**C17 — Station removal renumbers subtables consistently.** The id map; order preserving bijection onto the kept ids; rows of subtables follow it.
Status: proved. Theorems: `C17_id_map` (FilterProps.v), `C17_subtable`. The empty set of removed ids is excluded by the caller.

**C18 — Flag expressions mean what boolean algebra says.** Tokenizer and shunting-yard as functions; proved to accept exactly the printed forms of expressions and to evaluate as boolean algebra, by induction on expressions.
Status: proved. Theorems: `C18_accepted` (FlagExprProps.v), `C18_value`, `C18_unambiguous`, `C18_not_not_refuted`. All expressions and all spellings, including symbols written without blanks. The pointwise use of the result on flag arrays is in C51. Finding: the word NOT directly followed by '!' is read as a set name.

**C19 — Preflagger modes only change what they promise.** Per sample functions of mode; pointwise.
Status: proved. Theorems: `C19_set` (PreflagProps.v), `C19_set_exact`, `C19_clear`, `C19_clear_exact`, `C19_counts`, `C19_set_incomplete_refuted`, `C19_clear_incomplete_refuted`, `C19_clear_adds_refuted`. The promises hold for every flag pattern; the exact result for flags equal over the correlations. Three stronger readings are refuted for unequal flags or invalid data.

**C20 — Time-of-day ranges select the intended times.** Times of the day in `Qc`; modular arithmetic over the day.
Status: proved. Theorems: `C20_time_of_day` (PreflagProps.v), `C20_absolute`, `C20_wide_refuted`, `C20_next_day_refuted`, `C20_absolute_accepted`. For ranges within the day and half widths up to 12 hours; outside of that the claim is refuted with accepted inputs.

**C21 — An empty channel selection selects nothing.** Channel masks; compared with the set of selected channels.
Status: partial. Theorems: `C21_mask` (PreflagProps.v), `C21_partial`, `C21_refuted`, `C21_refused`. The full claim is false: a selection without channels is ignored (C21_refuted). The theorem covers selections with at least one channel.

**C22 — UVW flagging flags exactly the requested distances.** Ranges over real numbers; pointwise equivalence with the union of the requested ranges.
Status: proved. Theorems: `C22_regular` (UvwFlagProps.v), `C22_bda`, `C22_monotone`, `C22_negative_bound_refuted`. Exact real arithmetic, coordinates below 10^15, uv distance ranges without negative bounds; with a negative lower bound the claim is refuted.

**C23 — Parameter files and command line agree.** Parsing of lines; theorem over printed lists of settings; witnesses where a file and the command line differ.
Status: partial. Theorems: `C23_file` (ReadProps.v), `C23_last_wins`, `C23_agree_partial`, `C23_equals_refuted`, `C23_double_equals_refuted`, `C23_stray_text_refuted`, `C23_blank_refuted`. Files and arguments agree, and the last setting wins, for every list of settings whose keys are plain and whose values hold no '=' or '#' outside quotes and do not end in a backslash; outside that the statement is false of the code and the refutations show how.

**C24 — Parameter subsets are exact.** The map as a sorted list; every operation refines the function from keys to values, for all histories.
Status: proved. Theorems: `C24_lookup` (ParsetProps.v), `C24_subset`, `C24_subtract`, `C24_adopt`, `C24_updates`. For every history of calls, case-sensitive and case-insensitive; adoption for a collection of the same mode.

**C25 — Every unused parameter is reported.** The used marks along all histories of lookups.
Status: proved. Theorems: `C25_unused` (ParsetProps.v), `C25_normal`, `C25_nocase_refuted`. Exact for every history; finding: in case-insensitive sets a lookup in another spelling does not count as use.

**C26 — Lists in parameter values split at top-level commas only.** Splitter with counters against an inductive grammar of balanced texts.
Status: proved. Theorems: `C26_elements` (SplitProps.v), `C26_single`, `C26_nested`, `C26_unquote`, `C26_interleaved_refuted`. Exact characterisation (iff) of the elements getVector returns, including refusal, for every text; getString removes exactly the protecting quotes. Finding: interleaved brackets such as [(]) are accepted because only counts are kept, and [ or { inside ( ) is refused.

**C27 — Range notation expands to the full sequence.** The rewriting loop against a grammar of texts with ranges; by induction on the text.
Status: partial. Theorems: `C27_expansion_partial` (RangeProps.v), `C27_overflow_refuted`, `C27_quoted_suffix_refuted`. Proved for every text made of plain characters, single dots, quoted strings and ranges (prefix and suffix without dots or quotes); counting up to 2147483647 overflows (refuted), and a quoted suffix is cut at a comma (refuted).

**C28 — Number parsing is exact or refused.** Digit loops with overflow checks; for all texts equivalent to the denoted number being in range.
Status: proved. Theorems: `C28_signed` (NumParseProps.v), `C28_unsigned`, `C28_unique`, `C28_blank_refuted`. All ten integer readers accept exactly the texts denoting a number in range (decimal with sign, or 0x hexadecimal) and give that number. Finding: blank text is accepted as 0. strto(u)l modelled per glibc.

**C29 — Clustering assigns every direction to exactly one cluster.** The loop over open clusters; invariant that open and closed clusters partition the indices; the distance test is any relation.
Status: proved. Theorems: `C29_partition` (ClusterProps.v), `C29_once`, `C29_around`. The distance test is an arbitrary relation.

**C30 — Per-station values: last matching pattern wins.** Lists of patterns and stations; induction over items and patterns.
Status: partial. Theorems: `C30_values` (PatternProps.v), `C30_refused`, `C30_no_number_refuted`. Values and the refusal of items without a colon are proved for any pattern matching. That malformed items are refused is false: the value is read from a stream without looking at its state.

**C31 — Work queues deliver every item once and in order.** Events of a writer, a queue and readers in any order; invariants over all schedules.
Status: partial. Theorems: `C31_conserved` (LaneProps.v), `C31_complete`, `C31_order`, `C31_one_reader`, `C31_empty_buffer_refuted`. Proved for every schedule of any number of readers with a read buffer of at least one item; a reader with a buffer of zero items stops at once and loses all. The queue below the buffers is taken to be a first in, first out queue.

**C32 — Interpolation is independent of streaming.** The step as a state machine with any order of the samples of a slot; refinement to the definition over the whole stream.
Status: proved. Theorems: `C32_stream` (InterpProps.v), `C32_mean`, `C32_window`. Floating point operations and the kernel are parameters in C32_stream; C32_mean is in exact arithmetic. Any order in which threads treat the samples of a slot. Memory allocation and the lane itself not modelled.

**C33 — Median flagging uses the right time window for every slot.** The circular buffer of slots; the entries of the window for each sent slot, by an invariant on the stream.
Status: partial. Theorems: `C33_time_window_partial` (MadProps.v), `C33_window_size`, `C33_short_reads_outside`, `C33_short_refuted`. Proved for streams with at least as many slots as the window. Refuted for shorter streams: slots lost or sent without data, and reads past the list of time entries.

**C34 — Median flagging uses the right channel window.** The window of channels mirrored at the ends; equality with a direct definition.
Status: proved. Theorems: `C34_window_size` (MadProps.v), `C34_channels`. Every odd window that fits, every channel; the computed window size is odd and fits.

**C35 — Median flagging honours the correlations the user lists.** The list of correlations as indexed by the code; equality with the list the user gave, when it is a permutation.
Status: partial. Theorems: `C35_correlations_partial` (MadProps.v), `C35_outside_iff`, `C35_outside_refuted`, `C35_dropped_refuted`. Proved for lists that are a permutation of 0..k-1. Refuted otherwise: the list is indexed with its own values.

**C36 — Median flagging depends only on unflagged samples in the window.** The scratch array is part of the state; decision as function of the window.
Status: partial. Theorems: `C36_decision_partial` (MadProps.v), `C36_scratch_refuted`, `C36_flagged_samples`, `C36_flagged_values`. Proved when the windows hold no flagged sample and fill the scratch space; refuted otherwise: stale scratch values take part in the median. Exact arithmetic.

**C37 — Superstations are formed from exactly the right baselines.** The loops over baselines and superstations; equality with a set of pairs.
Status: proved. Theorems: `C37_baselines` (AdderProps.v). Every baseline table and every list of superstations without common stations.

**C38 — Superstation visibilities are weighted sums with correct flags.** Weighted sums over signed baseline numbers; induction on their list.
Status: proved. Theorems: `C38_existing` (AdderProps.v), `C38_value`, `C38_uvw`. All settings, data, weights and flags; exact arithmetic.

**C39 — Reading a measurement set fills time gaps and keeps order.** A walk over the list of stored slots with the time of the next slot; invariants by induction on fuel and list.
Status: partial. Theorems: `C39_regular` (TimesProps.v), `C39_ordered`, `C39_ends`, `C39_last_lost_refuted`, `C39_out_of_order_refuted`. Proved for stored times in order and any tolerance below half an interval: order, completeness up to the last time minus the tolerance, insertion only where nothing is stored, end of reading; regular sets deliver exactly the grid. False in two cases: the last time slot is lost if the times drift within the tolerance, and times that are out of order can make the delivered times go back.

**C40 — Channel selection of the reader stays inside the band.** The conversion of the parsed values and the checks; arithmetic.
Status: partial. Theorems: `C40_selected` (CellsProps.v), `C40_inside`, `C40_negative_refuted`. False for negative values: minus one is taken as zero, and others are undefined behaviour. Evaluation of the expressions is not modelled.

**C41 — Visibilities and flags of a time slot.** Flat arrays of cells; equality with a specification per baseline, channel and correlation.
Status: partial. Theorems: `C41_stored` (CellsProps.v), `C41_inserted`, `C41_no_column`, `C41_irregular`, `C41_counted`, `C41_without_data_refuted`, `C41_count_refuted`. False if the visibilities are not read (flags are then not spread and non-finite data not flagged), and the count of a correlation leaves out those after another one of the sample. Sizes below 2^32. Extra data columns are not modelled.

**C42 — Flag counts are consistent.** Counters as functions; sums over stations, baselines, channels.
Status: proved. Theorems: `C42_counts` (FlagCountProps.v), `C42_totals`, `C42_tables`, `C42_columns`, `C42_fully_flagged`. Counts are natural numbers (int64_t overflow out of reach is not modelled); percentages and printing of numbers not modelled.

**C43 — Transfer copies the right time slot, baseline and channel.** The counters of slots and the search of channels; equality with a direct definition.
Status: proved. Theorems: `C43_transfer` (TransferProps.v), `C43_frequency`, `C43_refused`, `C43_factor`. For the main data buffer and the flags, with exact frequencies.

**C44 — Only compatible steps are connected.** Step classes with what they accept, announce and deliver; induction over the names. The chain is then run with one buffer.
Status: partial. Theorems: `C44_works` (ChainProps.v), `C44_neighbours`, `C44_first_refuted`, `C44_column_refuted`, `C44_bda_out_refuted`, `C44_bda_lost_refuted`, `C44_split_refuted`. Proved when the first step accepts the data of the reader and no column reader is used on BDA data. In general false: the first step is not checked, and a column reader claims to give regular data. Also, output steps of BDA data are refused in the list of steps or swallow the data, and a split at the end of a split is refused.

**C45 — Clipping flags the right visibilities.** Map from row numbers to baselines; invariant over slots.
Status: partial. Theorems: `C45_clip_partial` (ClipProps.v), `C45_inserted_slot_refuted`, `C45_unsorted_rows_refuted`. Proved when the predicted slots have ascending row numbers; refuted for inserted (missing) time slots and for slots whose rows do not ascend. Prediction and amplitude comparison are oracles.

**C46 — The median of scratch data is the statistical median.** Any function with the contract of nth_element; permutations and order.
Status: partial. Theorems: `C46_median_partial` (MedianProps.v), `C46_order_independent`, `C46_even_refuted`. The C++ standard does not guarantee the result for an even number of values: the element at the middle is read after a second nth_element, which may move it. Proved for odd counts with any conforming nth_element and for even counts when the second call keeps that element (as libstdc++ does).

**C47 — BDA averaging factors respect the configured limits.** Factors in `Qc` with rounding to integers; inequalities.
Status: partial. Theorems: `C47_time_factor_limits` (BdaAverageProps.v), `C47_out_channels_limits`, `C47_minchannels_refuted`. Exact arithmetic. Refuted when minchannels exceeds the number of input channels.

**C48 — Autocorrelation lookup table.** The loop over baselines; equality with a search.
Status: partial. Theorems: `C48_autocorrelations` (InfoProps.v), `C48_no_baselines_refuted`. Table correct for non-empty baseline lists; undefined behaviour without baselines.

**C49 — Number of time slots from first and last time.** Rounding of a quotient in `Qc`.
Status: proved. Theorems: `C49_time_count` (InfoProps.v), `C49_set_times_total`. Tolerates an offset below half an interval.

**C50 — Baseline selection is the conjunction of the given criteria.** A list of criteria; pointwise conjunction.
Status: proved. Theorems: `C50_baseline_selection` (FilterProps.v). Station patterns are an arbitrary predicate; the MSSelection syntax of casacore is not modelled.

**C51 — A preflagger selects by the conjunction of its criteria and its set expression.** Arrays of flags per criterion; pointwise conjunction, recursion over the tree of sets.
Status: proved. Theorems: `C51_selects` (PreflagProps.v), `C51_unique`, `C51_uv`, `C51_uv_accepted`. Channel selections that are given must leave a channel (see C21).

**C52 — Channel metadata given by a reader is checked and completed.** Checks and defaults as a function; equivalences.
Status: partial. Theorems: `C52_set_channels` (InfoProps.v), `C52_no_channels_refuted`. Proved, except that zero channels without a reference frequency reads outside the vector (refuted).

**C53 — Flag tables do not overwrite each other.** File names as texts; injectivity for step names.
Status: partial. Theorems: `C53_filename` (FlagCountProps.v), `C53_steps`, `C53_measurement_sets_refuted`. Proved for step names; refuted for measurement sets: L1.SB1.MS and L1.SB2.MS share L1_<step>.flag.

**C54 — Autocorrelation flags reach exactly the baselines they should.** The loop over baselines with the autocorrelation table; pointwise.
Status: proved. Theorems: `C54_autocorrelations` (MadProps.v), `C54_untouched`. Every baseline table in which the autocorrelation index is consistent.

**C55 — Superstations consist of the stations the user meant.** Lists of patterns with negation; induction.
Status: proved. Theorems: `C55_patterns` (AdderProps.v), `C55_negation`, `C55_definitions`, `C55_names`. The regular expression matcher is a parameter. Names in the definition record are distinct (keys of a map).

**C56 — Superstation visibilities in terms of the original data.** Composition of C37 and C38 to the original data; induction over superstations.
Status: partial. Theorems: `C56_original_data_partial` (AdderProps.v), `C56_summed_twice_refuted`. Proved for average=true, useweights=true and minpoints at most 1 with nonnegative weights. Refuted for average=false: weights are applied twice between superstations. useweights=false not covered.

**C57 — Transfer accesses only existing channels and baselines.** The same model as C43 with outcomes for accesses outside.
Status: partial. Theorems: `C57_reads_behind_iff` (TransferProps.v), `C57_reads_behind_refuted`, `C57_writes_outside_refuted`, `C57_below_the_band_refuted`, `C57_descending_refuted`, `C57_factor_zero_refuted`. False of the code: the frequency behind the last one is read whenever the source covers the band (exact condition proved), gaps in the row numbers (reader with baseline selection) make it write outside the target, channels below the band of the source are overwritten, descending frequencies get the wrong channel, and a factor of zero is accepted.

**C58 — Selection of times.** Start, end and number of slots over the list of stored times.
Status: partial. Theorems: `C58_start` (TimesProps.v), `C58_ntimes`, `C58_end`, `C58_negative_ntimes_refuted`, `C58_refused`. False for a negative number of time slots, which is accepted as a huge one. If nothing is left after the start, all times become zero (the theorems ask for a time slot after the start).

**C59 — Weights of a time slot.** Weights per cell, including automatic weights from autocorrelations.
Status: partial. Theorems: `C59_stored` (CellsProps.v), `C59_auto`, `C59_auto_not`, `C41_inserted`, `C59_without_data_refuted`. Exact arithmetic. Automatic weights without visibilities read outside of the data.

**C60 — Clustered patches hold every component once, in the middle of the cluster.** Patches as lists of components over the clusters of C29; permutation.
Status: partial. Theorems: `C60_components` (ClusterProps.v), `C60_direction_refuted`. Components, numbers and names are proved. That the direction lies among the components is false: right ascensions are averaged without regard to the border of the circle.

**C61 — Name patterns match what they say.** A parser for the regular expressions that are produced, and a backtracking matcher; compared with an inductive definition of globs.
Status: partial. Theorems: `C61_pattern` (PatternProps.v), `C61_special_refuted`. Proved for patterns without other special characters of regular expressions and names on one line; with such characters it is false. The matching of std::regex is modelled by backtracking over characters, dots, stars and pluses.

**C62 — The type of a step follows from its name or its type parameter.** Texts; stripping of digits and lower case; membership in the list of types.
Status: proved. Theorems: `C62_type` (ChainProps.v), `C62_unknown`. Digits and lower case are those of the C locale.

**C63 — Split gives each chain its own values.** Parameter sets as maps; the chains get copies in turn while the shared map changes; induction over the parameters, over the parser of lists of C26.
Status: partial. Theorems: `C63_values` (SubchainProps.v), `C63_refused`, `C63_quotes_refuted`, `C63_caller_refuted`. Proved for lists of texts without quotes. Missing: quotes inside values are taken away, and the parameter set of the caller is changed (refuted).

**C64 — Removing Stokes parameters leaves the others.** The loop over a flat array, with accesses outside undefined; induction over the samples.
Status: partial. Theorems: `C64_removed` (StokesProps.v), `C64_two_refuted`, `C64_outside_refuted`. Proved for four correlations, exact arithmetic. False for other numbers of correlations, which are not refused.

**C65 — Combining named visibilities changes only the main ones.** Maps from names to arrays; pointwise operation; for BDA data the loop over rows that tile the array.
Status: partial. Theorems: `C65_regular` (CombineProps.v), `C65_missing`, `C65_bda`, `C65_copy`, `C65_move`, `C65_empty_refuted`, `C65_bda_empty_refuted`, `C65_move_within_refuted`. Proved for names that are not empty; false for the empty name and for moving to the same name within a regular buffer.

**C66 — Solutions put in a buffer are read back per direction.** Interleaved arrays with the strides of the code; index arithmetic.
Status: proved. Theorems: `C66_solutions` (CombineProps.v).

**C67 — The buffer for the BDA solver hands every row to the right solution interval.** Queues as lists with the indices of the code; an invariant relates the queue to the rows received so far; refinement to a specification that files rows by mid time.
Status: partial. Theorems: `C67_intervals` (SolveBufferProps.v), `C67_buffers`, `C67_step`, `C67_absent_baseline`, `C67_order_refuted`, `C67_late_refuted`, `C67_no_baselines_refuted`. Times are exact numbers. Rows out of order within a buffer are accepted silently; a row that comes after its interval was solved, or a step without baselines, makes the code read outside its queue (undefined). A baseline without any data holds back all solving and output until the end.

**C68 — The solver sees every visibility times its own weight, or zero.** Lists of floats with batches, lane masks and remainder as in the code; index arithmetic for any even batch size; for BDA data an invariant over the channels.
Status: partial. Theorems: `C68_regular` (WeighProps.v), `C68_bda`, `C68_weights_refuted`. Floating point products and roots are any functions. Weights themselves are not tested for being finite.

**C69 — Every visibility goes to the solver once, with its own antennas, channel block and solution.** Loops over an array of blocks with a write position per block; an invariant shows that the positions of a block are filled in order, once. Boundary arithmetic with nia; the BDA case by induction over the rows.
Status: partial. Theorems: `C69_regular` (SolveDataProps.v), `C69_blocks`, `C69_solutions`, `C69_even`, `C69_bda`, `C69_first_refuted`, `C69_limit_refuted`, `C69_weight_block_refuted`, `C69_weight_block`, `C69_bda_weights_refuted`, `C69_antennas`, `C69_solution_visibilities`, `C69_solution_weights`. Times are exact and conversions to 32 bits are left out. The claim that the first visibility has the lowest solution number is false for BDA data, limited solution counts shift the numbers of later directions, the step weighs channels in another block than it solves them in, and BDA data with weights reads outside the shape of a matrix.

**C70 — An iteration of a gain solver gives every antenna its best fitting solution.** The loops are shown to give, for every antenna and solution, the sums of the contributions of exactly its visibilities, for any commutative sum and any division over threads. Then the normal equations: the misfit at x is the misfit at the result plus the squared norm of the change (Pythagoras for 2x2 complex matrices, by ring), which is positive unless the denominator is singular. The fixed point follows.
Status: partial. Theorems: `C70_scalar` (GainProps.v), `C70_diagonal`, `C70_full`, `C70_fixed`, `C70_first_refuted`, `C70_empty_refuted`. Numbers are exact. The best fit needs that the first visibility of the block has the lowest solution number of every direction, and that the block is not empty; without these the solvers read or write outside their arrays.

**C71 — A gain solver stops when it should and says truthfully whether it converged.** The loop is compared with the endless sequence of iterations, by induction on the iterations left. Running mean and variance by an invariant; the variance of numbers that are not negative is at most n-1 times the squared mean, which shows that the default never stalls. The rest is algebra over complex numbers and reals.
Status: partial. Theorems: `C71_stop` (IterateProps.v), `C71_reported`, `C71_stall`, `C71_stall_never`, `C71_reported_refuted`, `C71_stall_refuted`, `C71_step`, `C71_phase` (PhaseProps.v), `C71_scale` (IterateProps.v), `C71_same`, `C71_same_refuted`, `C71_nan_refuted`, `C71_finite`, `C71_finite_partial`, `C71_finite2_refuted`, `C71_finite4_refuted`. False in part: a stalled solver reports a number of iterations like a converged one, stall detection may use numbers that were never set, the full-Jones solver halves its step sizes, a solve without any finite solution converges, and the diagonal and full-Jones solvers use the average of the first element for all. With the default sigma and number of iterations, stalling is never detected. Numbers are exact.

**C72 — The hybrid solver stays within its iterations.** Case analysis with linear arithmetic, with differences that wrap at 64 bits.
Status: partial. Theorems: `C72_two` (IterateProps.v), `C72_two_refuted`, `C72_three_refuted`. Proved for two solvers, as they are made; the converse of the claim about the reported number is false, and more solvers may do more than the maximum. A solver that has stalled is left out.

**C73 — The solution file gives for every time slot the solution that was fitted to it.** The vectors filled by nested loops are characterised by the value at each place; the least common multiple is used only through divisibility; the parts of an interval by division. Joined to the model of the solver data (C69) for the solution of a slot. With rounding: error bounds of Flocq for every time, and a computed witness in binary64.
Status: partial. Theorems: `C73_written` (ResampleProps.v), `C73_solver`, `C73_constraint`, `C73_constraint_refuted`, `C73_bda_refuted`, `C73_last_refuted` (ResampleRound.v), `C73_times_rounded_partial`. Proved with exact times for the solutions. With rounding the last solution may be missing in the file, and the time axis of the results of constraints may have another length than its values (findings). The names and attributes in the file are not modelled.

**C74 — DDECal passes on every time slot once, in order, and solves every interval from its own slots.** The run as a fold over the slots and the final call. The state after any number of slots is given in closed form (the batch that is filled, the slots that were sent, the solutions and calls so far) and proved by induction; division of the list into batches and intervals by firstn and skipn.
Status: proved. Theorems: `C74_accepted` (DdecalProps.v), `C74_passed`, `C74_solved`. For all settings, lists of slots, and every solver, predictor, flagger and correction, which are parameters. Threads and the thread pool are not modelled.

**C75 — The weights, counts and time that DDECal gives to the solver are those of the interval.** The walk over baselines, channels and correlations as nested recursion over the vectors of sums; the sums after any list of slots in closed form by induction. The refutations have computed witnesses.
Status: partial. Theorems: `C75_blocks` (SumsProps.v), `C75_sums`, `C75_weights_partial`, `C75_weights_refuted`, `C75_min_vis`, `C75_min_vis_refuted`, `C75_time_refuted`, `C75_time_partial`. The channel blocks and the sums are proved. Refuted: the weights of earlier slots are multiplied with the factor again for every later slot; with a batch of several intervals the counts are of the whole batch; the time is not the mean time unless the interval has one slot.

**C76 — DDECal subtracts the model as seen through the solutions of the right antennas, direction and channel block.** The loops over directions and channels by induction, with the block of a channel from C75; each kind of solution is a Jones matrix of the specification. The refutations have computed witnesses.
Status: partial. Theorems: `C76_subtract_partial` (SubtractProps.v), `C76_numbers_refuted`, `C76_other_refuted`. Proved if the numbers of the antennas in the data are those of the solutions. Refuted with antennas without baselines: solutions of other antennas are used, or elements after the end are read.

**C77 — BdaDdeCal applies to BDA model data the solutions that were fitted to it.** The frequencies of the block edges in closed form by induction; the search for the block of a channel is proved to end in the block of the solver by comparing exact frequencies; each kind of solution is a Jones matrix of the specification of C76. The refutations have computed witnesses, with the channel edges that BDA averaging makes.
Status: partial. Theorems: `C77_apply_partial` (BdaApplyProps.v), `C77_when`, `C77_channels_refuted`, `C77_solutions_refuted`, `C77_blocks`. Proved for one solution per direction and rows whose averaged channels respect the channel blocks; when that is so is a theorem. Refuted otherwise: channels get solutions of another block than they were used for; with several solutions for a direction those of other antennas are used.

**C78 — BdaDdeCal combines every buffer with its own model data, however late this comes.** The state after any number of calls and any schedule is given by how many results every step gave and how many buffers left; proved an invariant of process by induction over the buffers.
Status: partial. Theorems: `C78_accepted` (BdaQueueProps.v), `C78_paired_partial`, `C78_prompt`, `C78_flags_refuted`. All proved except that the flags are those with which the buffer came: refuted, the flags of the UVW selection are sent on.

**C79 — The steps that are asked for with modelnextsteps are applied to the model data.** Case analysis over the sources and the two parameters; for BDA the chains are computed for all settings.
Status: partial. Theorems: `C79_regular` (NextStepsProps.v), `C79_bda_partial`, `C79_bda_refuted`. Proved for regular data. Refuted for BDA data: the steps are never applied.

**C80 — AOFlagger judges every time slot in its context and flags exactly what was found.** An invariant over the time slots says which windows were done and that sent and held slots together are the input judged by these; the windows of the code are proved to be those of the specification. Counts by a conserved sum.
Status: partial. Theorems: `C80_flags_partial` (AoFlagProps.v), `C80_context`, `C80_correlations`, `C80_fit`, `C80_correlation_refuted`, `C80_statistics_refuted`, `C80_last_window_refuted`. Proved if all correlations of a visibility have the same flag at the start; refuted otherwise. Refuted: the statistics have the overlaps several times; the last window can be very small.

**C81 — ApplyCal corrects every visibility with the gains of its own antennas, time and channel.** An invariant over the time slots: the buffered times are a run of slots that contains the current one at the current place. Then induction over baselines, channels and directions; the weights by field arithmetic from an independent formula for the variance.
Status: partial. Theorems: `C81_corrected` (ApplyCalProps.v), `C81_counted`, `C81_zero_weight_refuted`, `C81_directions_refuted`. Proved for regular time slots (C81_corrected, C81_counted); weights for positive weights and one direction. False for weights that are zero with full Jones matrices (they become NaN) and for updateweights with several directions of model data.

**C82 — Substeps of ApplyCal inherit the settings of the step.** Inversion of the constructor for the values found; forward evaluation for acceptance.
Status: partial. Theorems: `C82_inherited_partial` (ApplySetProps.v), `C82_accepted`, `C82_interpolation_refuted`, `C82_soltab_refuted`, `C82_usemodeldata_refuted`, `C82_no_steps_refuted`. Proved for parmdb, solset, timeslotsperparmupdate, updateweights, direction, invert, missingantennabehavior and correction. False for interpolation, soltab and usemodeldata, and steps=[] is undefined.

**C83 — AntennaFlagger flags exactly the baselines of antennas that are outliers.** The loop with early stop is proved equal to a recursion over rounds that says which values are outliers; sums over baselines are rewritten to sums over pairs of antennas; the flags follow from the bijection of baseline indices of C03. The order check uses the same bijection.
Status: partial. Theorems: `C83_flags` (AntFlagProps.v), `C83_outliers`, `C83_order`, `C83_documented_refuted`, `C83_zero_median_refuted`. All baselines, orders and rounds, with exact numbers; the statistics of the channels of a baseline and the logarithm are parameters. The documented rounds (only unflagged data) are refuted, and all stations are flagged if most have no data.

**C84 — Several measurement sets are combined in frequency, slot by slot and channel by channel.** What every reader delivers alone is the input of the statement; an induction over the time slots shows that the combination takes from each. The writes to ranges of channels are proved to tile the buffer, whatever was in it. The channel lists are concatenations with the same partition.
Status: partial. Theorems: `C84_combined` (MultiProps.v), `C84_accepts`, `C84_same_time`, `C84_channels`, `C84_filled`, `C84_missing_refuted`, `C84_overlap_refuted`, `C84_times_refuted`, `C84_made`, `C84_first`. Data, flags, weights, times and channels of the combination for all inputs, on top of the model of the time slots of a reader (C39); the same time for all if the sets are regular. Refuted: missingdata is not looked at, overlapping bands are accepted, and the times of the slots are not compared (undefined behaviour if one set ends earlier). UVW and extra columns are not modelled.

**C85 — Updating a measurement set writes what changed to its own rows and channels, and nothing else.** Induction over the rows, which are different, shows that each gets the array of its own baseline; a run is an induction over the buffers. Reading again composes this with the theorems on the reader (C41, C59).
Status: partial. Theorems: `C85_update` (UpdateMsProps.v), `C85_inserted`, `C85_run`, `C85_reread`, `C85_round_trip`, `C85_no_change`, `C85_fields`, `C85_unselected_refuted`, `C85_column_refuted`, `C85_weight_column_refuted`, `C85_dysco_refuted`. All rows, selections, fields and runs; reading again is through the model of the reader (C41, C59). Refuted: clearing FLAG_ROW unflags channels outside the selection and other flag columns; with msin.weightcolumn=WEIGHT data and weights are written that were not read; dysco does not ask for the flags. Adding columns and keywords is not modelled.

**C86 — Station UVW coordinates give back the UVW coordinates of every baseline.** Invariants of the search: the stations known have their position relative to the first of their group, and baselines between known and unknown stations belong to members not yet searched. For the selection an invariant on the groups of antennas, which are the classes of the antennas linked so far, and a count of groups; the theorem on the splitting is applied to the selection and extended along the links.
Status: partial. Theorems: `C86_split` (UvwSplitProps.v), `C86_split_longest`, `C86_longest`, `C86_same_position_refuted`. The coordinates are exact rationals instead of rounded doubles. With two antennas at the same position the claim is refuted, because autocorrelations are counted as baselines that connect.

**C87 — Predicted visibilities are the sum over the components of the sky model.** Directions are compared with unit vectors and the frame of east, north and centre, by trigonometric identities. The buffer after a list of components is found by induction over the list; phase factors of stations combine to that of the baseline.
Status: partial. Theorems: `C87_lmn` (SimulateProps.v), `C87_visibility`, `C87_auto`, `C87_order`, `C87_parts`, `C87_reverse`, `C87_centre`, `C87_gaussian`, `C87_no_size`, `C87_spectrum`, `C87_sinc`, `C87_rotation`, `C87_time_smearing_refuted`. Real numbers instead of floating point. Refuted for a point source with all correlations and smearing in time but not in frequency, which is not smeared.

**C88 — Changing the phase centre keeps the baselines and what is seen on them.** The matrix of the code is the change from one orthonormal frame to another; the phase vector gives the difference of the w coordinates. Steps after each other by induction. The simulated phase of a source is that of its unit vector minus w, so that it moves with the shift.
Status: proved. Theorems: `C88_uvw` (ShiftProps.v), `C88_data`, `C88_steps`, `C88_back`, `C88_simulated`. Real numbers instead of floating point; reading the centre from the parset is not modelled. The theorem on simulated data is for components without smearing and with absolute angles.

**C89 — ApplyBeam changes every visibility by the beams of its own antennas, and the metadata tell which beam.** The specification has the beam of an antenna by its name, and relates data before and after by what is seen through these beams, without inverses. The chain of steps is an invariant over a list of actions: the data seen through the beam told by the metadata stay the same.
Status: partial. Theorems: `C89_stations` (BeamProps.v), `C89_refused`, `C89_apply`, `C89_defined`, `C89_models`, `C89_chain`, `C89_skip_refuted`, `C89_model_invert_refuted`, `C89_named_prediction_refuted`. Proved for stations that are skipped only if no antennas were removed, for usemodeldata only with invert=false in a chain, and for predictions of the main data; refuted otherwise. Exact numbers; directions within the tolerance of 1e-9 are taken to be equal.

**C90 — A prediction is the sum over its sources seen through their beams, and goes where the operation says.** The specification is the sum over the list of sources. An invariant over all time slots says that the cached beams of each range of sources are those of its patches at the time of the last update; the sum needs only that addition is commutative and associative and that the beam is additive, both proved for scalars and matrices.
Status: partial. Theorems: `C90_sum` (PredictProps.v), `C90_additive`, `C90_unpolarized`, `C90_operation`, `C90_named`, `C90_named_applycal_refuted`, `C90_named_applycal_ignored`, `C90_directions`, `C90_named_directions_refuted`, `C90_which`, `C90_parse`, `C90_updateweights_refuted`. Proved for the sum over the sources, the caching of the beam, the operations and the directions. Three parts are false: the corrections of applycal are not applied to a prediction with a name, h5parmpredict with a name has only the last direction, and updateweights is not refused with add and subtract. The visibilities of a source (see C87) and the beam itself are parameters; numbers are exact.

**C91 — Scaledata multiplies every visibility by the root of the product of the factors of its two stations.** The specification has the polynomial as a sum of powers, the coefficients by a search over the given pairs, the number of tiles in use as a sum over the rows of the table, and the factor of a baseline by its square. What is refused is an equivalence.
Status: partial. Theorems: `C91_factors` (ScaleProps.v), `C91_refused`, `C91_process`, `C91_bda`, `C91_bda_refuted`, `C91_no_tiles_refuted`, `C91_renumbered_refuted`. Proved for regular data, and for BDA data where all baselines have the same channels. Three parts are false: BDA data with different numbers of channels are scaled with the factors of the wrong channels and beyond the end of the row, a station without tiles in use gets an infinite factor, and the sizes are taken by number even if stations have been left out and added. Real numbers; matching of patterns is a parameter for which * matches every name.

**C92 — The axes of the parameter database: finding, subsetting, compressing, combining and mapping cells.** The specification has cells as intervals: in order, or without holes from one point to another one. The search is characterised by which cells are left of the point; the subset as those cells that meet the interval; the union by slices, and its existence as an equivalence with both axes being rows of one axis.
Status: partial. Theorems: `C92_find` (AxisProps.v), `C92_locate`, `C92_regular`, `C92_subset`, `C92_subset_refuted`, `C92_compress`, `C92_combine`, `C92_combine_possible`, `C92_combine_refuted`, `C92_combine_hole_refuted`, `C92_mapping`, `C92_mapped_inside`, `C92_equal`, `C92_check`. Proved for exact numbers, where near is equality. Refuted for axes with holes (subset, combine) and for overlapping axes with different cells, where cells are read past the end instead of throwing.

**C93 — The values of a parameter of the parameter database on a grid.** The specification has polynomials as double sums and stored values by the cell in which a point lies. Rescaling is proved with the value of the polynomial as invariant of the four loops, and the binomial theorem for the recursion of the triangle; the filling of parts by an invariant: what has been written is right, what has been written stays, and the parts between the borders cover the grid.
Status: partial. Theorems: `C93_rescale` (ParmProps.v), `C93_polynomial`, `C93_created`, `C93_default_refuted`, `C93_scalars`, `C93_covered`, `C93_one_domain`, `C93_no_values`, `C93_outside_refuted`, `C93_grid`, `C93_center_refuted`, `C93_map_refuted`. Proved for exact numbers. Refuted: a default polynomial without values is scaled to the domain of everything instead of its own; values outside the domains give the last value or an exception depending on the storage; a grid by center and width starts at the center with cells of the full width; the map without steps passes its flags one argument too early.

**C94 — The iterations of gain calibration estimate the gains of the stations.** The specification lists the places of a visibility array (station, feed, time, channel, feed, station) and states the least-squares misfit over them; the loops over flat indices are proved to visit exactly these places, and the quotient of the sums to be the one minimiser by completing the square (for matrices by the normal equations, with a kernel vector if the determinant vanishes). Order independence by an invariant over the permuted list; stalling by counting bad iterations.
Status: partial. Theorems: `C94_estimate` (StefProps.v), `C94_flagged`, `C94_matrix_estimate`, `C94_threads`, `C94_threads_refuted`, `C94_exact`, `C94_unit`, `C94_unit_refuted`, `C94_stall`, `C94_relaxed`, `C94_converged`, `C94_init`, `C94_propagate`. Refuted: phase-only solutions of amplitude one after the last iteration without convergence; independence of the thread order over two iterations when one feed of a station is dead. Convergence of the iterations in general is not stated. Numbers are real numbers; the throws for gains that are not finite are not modelled.

**C95 — Gain calibration takes in the selected data and hands them on corrected.** The filling is proved equal to a list of writes with places that are distinct (mixed-radix positions are injective), whatever the order of the channels; the specification says what is at a place in terms of baselines and correlations. Exactness and the corrected data are then algebra of complex numbers and 2x2 matrices. The intervals by an invariant over the list of buffers. Partial: that the iterations reach gains that reproduce the data is not proved (C94), and the counters and weights of ApplyCal are not modelled.
Status: partial. Theorems: `C95_cells` (CalProps.v), `C95_fill`, `C95_exact`, `C95_corrected`, `C95_flagged`, `C95_run`, `C95_one_correlation`, `C95_weights_refuted`, `C95_one_correlation_refuted`, `C95_all_times_refuted`. Refuted for weights that differ between the correlations of a fulljones sample, for one correlation with a gain per feed (every station is flagged), and for solint=0 with applysolution (buffers stored outside a vector). That the iterations find the gains is not proved; floating point is exact.

**C96 — Applying the solutions file of a gain calibration gives the gains that were solved.** An invariant over the list of runs says that all names in the file are names of the type of calibration and that the defaults are those of the type; the names are proved to be different for different values, so that reading a name gives the value that was written last. The cases of the types are then computed. The time axes follow from an invariant over the time slots in which the written and the unwritten solutions are the ideal intervals up to the current one. The places in the tables of an H5Parm are mixed-radix indices.
Status: partial. Theorems: `C96_gain` (GainFileProps.v), `C96_unused`, `C96_scalar`, `C96_tec`, `C96_h5`, `C96_times`, `C96_h5_times`, `C96_unused_refuted`, `C96_scalar_unused_refuted`, `C96_overwrite_refuted`, `C96_h5_amplitude_refuted`, `C96_h5_phase_refuted`, `C96_h5_times_refuted`. Proved for files of one type of calibration. Refuted: stations that are not used with diagonalamplitude, scalarphase and scalaramplitude; a ParmDB that was written with another type; H5Parm tables of scalaramplitude and tecandphase; the time of an incomplete last interval in an H5Parm. Real numbers instead of floating point.

**C97 — The constraints of DDECal give solutions of the promised form.** Loops over channels, groups, directions and intervals as folds that update functions; each update touches its own elements only, so that the folds are means of the input, by induction. The blocks of an interval are compared with the sub-solutions that have the same quotient by the factor. The window of the smoother is an invariant over the channels (the left boundary is at most the channel, the right one is above it, and what is left of or right of them is at least half of the size away); sums over the window are then sums over all channels.
Status: partial. Theorems: `C97_antenna` (ConstrProps.v), `C97_antenna_fixed`, `C97_antenna_refuted`, `C97_interval`, `C97_reference`, `C97_reference_refuted`, `C97_smooth`, `C97_smooth_truncated_partial`, `C97_smooth_constant`, `C97_smooth_ignores`, `C97_smooth_refuted`. Groups with an antenna in common, channel blocks where the reference antenna has no solution, and the window of the truncated kernel break the statement (refuted). Truncated smoothing is proved for kernels of at most half of smoothnessconstraint. Real numbers; not finite is one value.

**C98 — DDECal's rotation constraints give rotations and diagonals of the documented form.** The sums of elements that FitRotation takes the argument of are the sum of the diagonal times exp(i t) and exp(-i t), so that the difference of their arguments is twice the angle up to whole turns; fmod then gives the only angle in [-pi/2, pi/2) on that axis. The sign that is lost in the angle is found back in the diagonal. The run over the antennas is an induction with the reference angle as state. Loops that set weights are described by the set of positions that they mark, and mixed radix positions are unique.
Status: partial. Theorems: `C98_leakage` (RotProps.v), `C98_rotation`, `C98_form`, `C98_fixed`, `C98_reference`, `C98_diverged_partial`, `C98_diverged_refuted`, `C98_undetected_refuted`, `C98_invalid_refuted`, `C98_weights`, `C98_rotation_weights_partial`, `C98_weights_refuted`, `C98_sub_weights_partial`, `C98_sub_weights_refuted`, `C98_flags_partial`, `C98_flags_refuted`, `C98_faraday_samples`, `C98_faraday`, `C98_faraday_refuted`, `C98_limit_refuted`, `C98_stored`. proved but for the documented test for divergence (refuted: the second polarization is compared with the mean of the first one, and invalid antennas count in the mean), the flags and the weights of the rotation with more than one sub-solution, and the diagonal with Faraday rotation; the fit of a slope is a parameter

**C99 — Demixing uses the mixing of the directions that is in the data, and subtracts the sources as they appear in the target direction.** A sum of sources, times the phasor of a direction, is averaged; sums over slots and channels are exchanged with the sum over directions, which gives the factors that addFactors and makeFactors sum, pair by pair; the loop that fills the matrix writes each position once. The projection times the columns of the directions without a model is zero because of the inverse. The prediction is linear in each unknown, so that the derivative times the change is the exact change; the position of an unknown in the index determines direction, station and element.
Status: proved. Theorems: `C99_mixing` (DemixProps.v), `C99_matrix`, `C99_flagged`, `C99_deproject`, `C99_singular`, `C99_apply`, `C99_subtract`, `C99_residual`, `C99_equation`. real numbers; the inversion of a matrix is trusted to give an inverse if there is one; the iterations of the solver (casacore's LSQFit) are not modelled; a cell without any weight, which gives factors that are not numbers, is flagged and not covered

**C100 — Demixing handles every time slot once, with the solution of its own time.** The state after j chunks and r slots is given in closed form (counters, averages, factors, output) and shown to be kept by process; the end of a chunk and finish are one lemma about a state with complete averages of r slots, whose output and solutions extend those expected for j chunks to those for j chunks and r slots. The loop over solutions is an induction in which a prefix of the averages is subtracted.
Status: partial. Theorems: `C100_run_partial` (DemixTimeProps.v), `C100_short_refuted`, `C100_zero_refuted`, `C100_complete`, `C100_directions`, `C100_othersources_refuted`. false for data shorter than timestep and for sources of othersources that are not in the sky model; numbers do not wrap; the contents of averages are their time slots (C99 has the values)

**C101 — The solver and constraints of DDECal are the ones that the settings ask for.** By cases over modes, algorithms, data use and build; the names by computation; the constraints by a characterization of the two lists that make up the list of a solver, with a rank for the order.
Status: partial. Theorems: `C101_names` (FactoryProps.v), `C101_shown_mode_refuted`, `C101_solver`, `C101_constraints`, `C101_hybrid`, `C101_datause_refuted`, `C101_gpu_refuted`. Everything is proved except where it is false: the name that is shown for Faraday rotation is refused as a setting, datause is ignored by solvers that have no choice of data, and usegpu by all modes without diagonal gains.

**C102 — Constraints of DDECal act on the antennas that the settings select.** The core by the equivalence of comparing squares and distances; groups by a characterization of std::find as the first antenna with a name; both together with C97_antenna for what is done to the solutions. Distance factors by induction over the antennas with the running maximum.
Status: partial. Theorems: `C102_core` (FactoryInitProps.v), `C102_core_refuted`, `C102_groups`, `C102_interval_partial`, `C102_interval_refuted`, `C102_smooth_uniform`, `C102_smooth_distance`, `C102_smooth_refused`, `C102_smooth_refuted`. Core, groups, factors and distances are proved for exact numbers. False: coreconstraint is ignored if antennaconstraint is given, valid averaging factors are refused if not all antennas are used, and smoothing factors of zero are accepted.

**C103 — DDECal starts every solution from the gain of the initial solutions for its direction, antenna and channel block.** A lemma on loops that write a set of places of a list, used three times: for the gains, the solutions and the antennas; the values are read from a flat array with the strides of the code, undefined after its end. Which direction a solution has is stated by splitting the list of solutions per direction.
Status: partial. Theorems: `C103_read` (InitSolProps.v), `C103_unit`, `C103_full`, `C103_factors`, `C103_read_refuted`. Refuted for modes with four gains and tables that are not full Jones: gains of another antenna are read, and memory after the values. Proved for all other combinations, except full-Jones tables with a mode of fewer gains, which depends on xtensor and is not modelled.

**C104 — The TEC constraint of DDECal replaces phases by those of the TEC that it reports.** Phases as real numbers up to whole turns; the distance on the circle is stated by existence and proved unique, so that the fmod of the code equals it. Costs as sums by a fold lemma; the grid by a lemma on the minimum of a list; the ternary search by an interval that only shrinks.
Status: partial. Theorems: `C104_offset` (TecProps.v), `C104_grid`, `C104_range`, `C104_solutions`, `C104_offset_refuted`, `C104_no_data_refuted`. Refuted: the offset is not the mean of noisy phases, because the sum of weights is not reset between iterations, and an antenna without finite solutions gets 4.73 TEC units. The best point of the grid is proved for mode tec; for tecandphase only that the TEC is near some point of the grid. Rounding and the approximate (piecewise) stage are not modelled.

**C105 — A grid of the parameter database that is made from domains or grids has exactly their cells.** The specification lists the boxes of a grid row by row. Sound: the asserts give equality of all borders, and the box at every index follows by division with remainder. Complete: the first row ends where the start in y changes, which ascending rows guarantee. Regular axes are proved to have the same cells by induction. For grids, axes are equal exactly if their cells are (C92), so that the cells of all grids are products of those of the first row and column; the number of cells is a sum of products. Sorting: the cells of a grid are in strict order, and a list in strict order is the only one among its permutations. The refutations are computed.
Status: partial. Theorems: `C105_sound` (DomainProps.v), `C105_complete`, `C105_cell`, `C105_domains`, `C105_unsorted` (GridSortProps.v), `C105_sorted_sound`, `C105_grids` (GridsProps.v), `C105_grids_complete`, `C105_domains_refuted` (DomainProps.v), `C105_rectangular_refuted`. Exact arithmetic; sorting of grids and the order of equal elements of std::sort are not modelled. Findings: toDomains writes outside of its arrays for grids with more rows than columns; without asserts non-rectangular domains are accepted and a domain is dropped or invented.

**C106 — A sky model finds every patch by its name and refuses names that exist.** Invariant over all sequences of calls: the index is in ascending order and has for every name the number of the last patch with it. Checked calls keep the names without duplicates; the refused calls are characterised by this invariant. The refutations are computed.
Status: partial. Theorems: `C106_patch` (SkyModelProps.v), `C106_names`, `C106_checked`, `C106_refused`, `C106_changes`, `C106_unchecked_refuted`, `C106_source_refuted`. Names are numbers in the order of the strings, patterns are predicates; the parameters of sources are not modelled. Findings: without the check a second patch with the same name hides the first one, which stays in the list; a source can be added to a patch that does not exist, also with the check.

**C107 — Boxes of the parameter database behave as sets of points.** The specification is the set of points of a box, with and without its border. Comparisons with near are strict or weak inequalities in exact arithmetic; points are given as corners or halfway between borders. The refutations are computed.
Status: partial. Theorems: `C107_contains` (BoxProps.v), `C107_intersects`, `C107_intersect`, `C107_unite`, `C107_center`, `C107_empty`, `C107_order`, `C107_intersects_refuted`, `C107_unite_refuted`. Exact arithmetic, casacore::near is equality; asserts and the constructor from a vector are not modelled. Findings: an empty box inside of a box is said to be intersected although no point is inside of it; an empty intersection is the point (0,0), so that the union with it is too large.

## 5. Findings

Statements that are false of the faithful model, each with a witness proved in Coq. "Finding" below is about the code as it is; whether it matters in practice is for the maintainers to judge.

* `C04_column_major_int_truncation_refuted` (BaselineProps.v): The bound on column-major order is sharp: with 65537 antennas the conversion to a 32-bit int destroys the result.
* `C05_rows_tile_refuted` (BdaBufferProps.v): The premise is needed: a buffer created without data, flags and weights (a reader asked for uvw only) gives both rows offset 0, and the data buffer added later by a predict step is shared by the two rows.
* `C08_short_interval_refuted` (BdaAverageProps.v): The rows of two baselines finished in the same slot are rejected as out of order (exception) when the time interval is below the tolerance (two microseconds), so the premise [eps <= dt] is needed.
* `C09_uvw_flagged_refuted` (BdaAverageProps.v): For a fully flagged row the uvw is the sum instead of the mean.
* `C10_gap_drops_rest_refuted` (BdaExpandProps.v): One missing row blocks the output for good: here slot 3 is complete (rows r3 and r4) but never written, since baseline 1 has no data for slot 2.
* `C13_bandwidth_refuted` (InfoProps.v): The total bandwidth is that of all channels still; it is written to the output by the writer steps.
* `C13_wrap_refuted` (InfoProps.v): With start + count beyond 2^32 the check passes although the range is far outside the channels (undefined behaviour).
* `C15_empty_stream_refuted` (UpsampleProps.v): Full C15 ("finishing is safe for any number of input slots") fails for the empty stream: finish reads prev_buffers_, which is still empty.
* `C15_order_refuted` (UpsampleProps.v): Full C15 ("output times never decrease") fails even when all input times are whole numbers of output intervals apart and increase: 4 output slots per input slot, the second input slot is flagged and starts one output slot after the first, the third starts again one later.
* `C15_half_offset_refuted` (UpsampleProps.v): Full C15 also fails when a slot starts half an output interval off the grid.
* `C15_stuck_refuted` (UpsampleProps.v): Full C15 ("no unflagged data is lost") fails after a flagged slot that repeats the time of its predecessor: first_to_flush_ becomes time_step_ and is never reset, and nothing more is ever output.
* `C15_backwards_refuted` (UpsampleProps.v): A slot that precedes its predecessor makes process read beyond the end of the vector of current slots.
* `C16_empty_selection_refuted` (FilterProps.v): Full C16 fails for a selection that matches no baseline: all baselines pass.
* `C16_large_buffer_refuted` (FilterProps.v): Full C16 fails for more than 2^32 values: with 2^30 values per baseline, selecting baseline 4 yields the data of baseline 0.
* `C18_not_not_refuted` (FlagExprProps.v): Finding: the word NOT directly followed by "!" is read as a set name, although OR and AND may be followed by "!".
* `C19_set_incomplete_refuted` (PreflagProps.v): Findings. Without equal flags a matching sample can stay partly unflagged: only the flag of the first correlation is looked at.
* `C19_clear_incomplete_refuted` (PreflagProps.v): A matching valid sample can keep a flag in clear mode.
* `C19_clear_adds_refuted` (PreflagProps.v): Clear mode can add flags: matching samples with invalid data get flagged.
* `C20_wide_refuted` (PreflagProps.v): Findings: half widths above 12 hours select the wrong side of the circle: 12:00+-50000s covers the whole day, but noon is not selected.
* `C20_next_day_refuted` (PreflagProps.v): A range that starts after 24:00 is accepted and selects too much: 25:00..26:00 selects 00:30.
* `C21_refuted` (PreflagProps.v): A selection without channels is ignored: with "baseline" (or "timeslot") it selects all channels.
* `C22_negative_bound_refuted` (UvwFlagProps.v): Finding: a range of the uv distance with a negative lower bound, such as 10+-20, is squared to (100, 900), so baselines of 5 m are not flagged although 5 is in (-10, 30).
* `C23_equals_refuted` (ReadProps.v): Finding: a value containing '=' is read differently from a file: "sel=a=b" sets sel to nothing and defines a key "a"; as an argument it sets sel to "a=b".
* `C23_double_equals_refuted` (ReadProps.v): Finding: with two '=' in a row the length of the key text wraps around and the key becomes the rest of the line: "sel=a==b" defines the keys sel, a and "=b".
* `C23_stray_text_refuted` (ReadProps.v): Finding: text before the first setting ends up in the value of the first key; a line without '=' is otherwise appended to the previous value.
* `C23_blank_refuted` (ReadProps.v): Finding: blanks before '=' belong to the key on the command line, not in a file.
* `C25_nocase_refuted` (ParsetProps.v): Finding: in a case-insensitive set a key that was looked up in another spelling is still reported as unused.
* `C26_interleaved_refuted` (SplitProps.v): Finding: only the numbers of parentheses are counted, so interleaved ones are accepted: "[[(])]" gives the element "[(])".
* `C27_overflow_refuted` (RangeProps.v): Counting up to the largest int, the loop counter overflows: undefined behaviour.
* `C27_quoted_suffix_refuted` (RangeProps.v): Quotes are not respected in the part after the second number: the suffix stops at the comma inside the quotes, and the quotes of the result are unbalanced or paired differently.
* `C28_blank_refuted` (NumParseProps.v): Finding: an empty or blank text is accepted and gives 0.
* `C30_no_number_refuted` (PatternProps.v): Something that is no number is not refused, but is zero; and minus one is a huge value.
* `C31_empty_buffer_refuted` (LaneProps.v): A reader with a buffer of size zero ends at once.
* `C33_short_refuted` (MadProps.v): Missing from the full statement: fewer slots arrive than the window. With an even number of them the last one is never sent; another one is sent twice, the second time without its data.
* `C35_outside_refuted` (MadProps.v): Missing: other lists. The list is indexed with its own values, so that 0 and 3 of four correlations read outside it,
* `C35_dropped_refuted` (MadProps.v): and valid correlations the user listed can be dropped.
* `C36_scratch_refuted` (MadProps.v): Missing: with a flagged sample in the window, values left in the scratch space by earlier samples take part in the median and change the decision.
* `C39_last_lost_refuted` (TimesProps.v): Within the tolerance the times may drift; the last time slot is then lost, though it is not after the last time: the end is tested with another tolerance than the time slots.
* `C39_out_of_order_refuted` (TimesProps.v): Time slots out of order: one that is skipped makes an earlier time acceptable again, and the times do not go up.
* `C40_negative_refuted` (CellsProps.v): A negative number is not refused: minus one is taken as zero, and the conversion of others is undefined behaviour.
* `C41_without_data_refuted` (CellsProps.v): If no step needs the visibilities they are not read, and the flags that are delivered are other ones: those of the other correlations and of non-finite data are not set.
* `C41_count_refuted` (CellsProps.v): The counts that are shown are not those of the non-finite values per correlation: here the second correlation of a sample is not finite, and is not counted.
* `C44_first_refuted` (ChainProps.v): The first step is not checked: BDA data are given to a step that cannot process them.
* `C44_column_refuted` (ChainProps.v): A column reader says to give regular data, also when it gives BDA data.
* `C44_bda_out_refuted` (ChainProps.v): An output step for BDA data is refused inside the list of steps, although it can process what it is made for.
* `C44_bda_lost_refuted` (ChainProps.v): Steps after an output step for BDA data get nothing.
* `C44_split_refuted` (ChainProps.v): A split as the last of the steps inside another split is refused.
* `C45_inserted_slot_refuted` (ClipProps.v): Missing from the full statement: slots inserted by the reader for missing times have no row numbers; when such a slot is the one to be predicted, nothing is mapped and the step fails.
* `C45_unsorted_rows_refuted` (ClipProps.v): Also missing: the rows of a slot need not ascend; then the flags of one baseline can end up at another one.
* `C46_even_refuted` (MedianProps.v): For an even number of values the median reads an element after a second nth_element, which is allowed to move it; with a conforming nth_element the result is not the median.
* `C47_minchannels_refuted` (BdaAverageProps.v): A minimum above the number of input channels gives more output than input channels, so by C07 some output channels are empty.
* `C48_no_baselines_refuted` (InfoProps.v): Without any baseline the function reads outside the vector.
* `C52_no_channels_refuted` (InfoProps.v): Without channels and without a reference frequency it reads outside the vector.
* `C53_measurement_sets_refuted` (FlagCountProps.v): But two MeasurementSets in one directory can: everything from the first dot on is dropped.
* `C56_summed_twice_refuted` (AdderProps.v): Without averaging, the rows of a superstation already are weighted sums; between two superstations they are multiplied with the weights again.
* `C57_reads_behind_refuted` (TransferProps.v): The frequency behind the last one is read when the source covers the band.
* `C57_writes_outside_refuted` (TransferProps.v): Row numbers with gaps, as when the reader selects baselines: the step writes outside of the array of the target.
* `C57_below_the_band_refuted` (TransferProps.v): A channel of the target below all channels of the source is overwritten all the same.
* `C57_descending_refuted` (TransferProps.v): Frequencies in descending order: a channel is copied that does not contain the frequency, though another one does.
* `C57_factor_zero_refuted` (TransferProps.v): A source with much shorter intervals is accepted with factor zero; the counter then wraps around and all time slots of the target get the first one of the source.
* `C58_negative_ntimes_refuted` (TimesProps.v): A negative number of time slots is accepted, and is more than four thousand million.
* `C59_without_data_refuted` (CellsProps.v): Automatic weights without visibilities read outside of the data.
* `C60_direction_refuted` (ClusterProps.v): The direction of a patch is the mean of right ascensions, which for components at both sides of zero lies at the opposite side of the sky.
* `C61_special_refuted` (PatternProps.v): Other characters have a meaning of a regular expression: this station does not have its own name.
* `C63_quotes_refuted` (SubchainProps.v): Missing: quotes. They are taken away when the list is split, so that a list inside loses them: a step that reads the first value of the parameter as a list of texts gets two of them instead of one.
* `C63_caller_refuted` (SubchainProps.v): Nor are the parameters of the caller what they were: a second split made of them has one chain instead of two.
* `C64_two_refuted` (StokesProps.v): Other numbers of correlations are not refused. With two correlations, xx of one channel is combined with yy of the next: neither has its I unchanged,
* `C64_outside_refuted` (StokesProps.v): and with an odd number of samples the visibility behind the last one is read and written.
* `C65_empty_refuted` (CombineProps.v): Missing: the name may be empty. Then the main visibilities are subtracted from themselves, and all named ones are removed.
* `C65_bda_empty_refuted` (CombineProps.v): Missing: with an empty name, the main visibilities are removed, so that the next step finds none.
* `C65_move_within_refuted` (CombineProps.v): Missing: moving within a buffer, from a name to the same name, loses the visibilities (BDA buffers handle this).
* `C67_order_refuted` (SolveBufferProps.v): Rows out of order are not refused when they are up to one interval early: the check compares with the interval before the one of the previous row.
* `C67_late_refuted` (SolveBufferProps.v): If their interval has been solved, it is worse: the number of the interval is negative, and becomes a huge unsigned number up to which intervals are added.
* `C67_no_baselines_refuted` (SolveBufferProps.v): Without baselines, the smallest element of an empty list is read.
* `C68_weights_refuted` (WeighProps.v): Only the visibilities are looked at, not the weights: a weight whose square root is not a number makes visibilities that are not finite. Here [None] is not a number.
* `C69_first_refuted` (SolveDataProps.v): The first visibility of BDA data need not have the lowest solution number, as the header says and the solvers need: a long row comes before a short one that starts at the same time.
* `C69_limit_refuted` (SolveDataProps.v): If an interval has fewer rows than a direction has solutions, the solutions of the next directions are numbered from a lower number than in the array of the solver, which has the numbers that were asked for: a direction uses the solutions of another.
* `C69_weight_block_refuted` (SolveDataProps.v): The step adds the weights of a channel to another block than the one where the channel is solved, if the blocks do not have the same number of channels.
* `C69_bda_weights_refuted` (SolveDataProps.v): With weights, which a solver in linear mode asks for, the constructor for BDA data reads a third size of a matrix.
* `C70_first_refuted` (GainProps.v): If the first visibility of a block does not have the lowest solution number, which is possible for BDA data (C69_first_refuted), the solver writes outside its arrays: the difference of the numbers is negative and wraps.
* `C70_empty_refuted` (GainProps.v): A channel block without visibilities: the solver reads the solution number of the first one.
* `C71_reported_refuted` (IterateProps.v): If the solver has stalled, the reported number of iterations does not tell: it is at most the maximum, though the solver has not converged. DDECal then keeps the solutions with flagunconverged, and starts from them with propagateconvergedonly.
* `C71_stall_refuted` (IterateProps.v): If the constraints are satisfied for the first time after the first iteration, the detection of stalling uses numbers that were never set.
* `C71_same_refuted` (IterateProps.v): The full-Jones solver has not, though a comment says so: the elements beside the diagonal are counted, so its steps seem half as large, and it stops earlier.
* `C71_nan_refuted` (IterateProps.v): Solutions that are not finite are left out, so if no solution is finite, as without any valid data, the step has size zero and the solver says that it has converged.
* `C71_finite2_refuted` (IterateProps.v): The diagonal solver takes the average of the first polarization for both.
* `C71_finite4_refuted` (IterateProps.v): The full-Jones solver fills all four elements with the average of the first, so that a solution that was not finite gets a singular matrix, whatever the others are.
* `C72_two_refuted` (IterateProps.v): The other way round it is false: if the first solver does not converge, its iterations are reported with one more, so that a second one that converges in the last iteration is reported as not converged.
* `C72_three_refuted` (IterateProps.v): With three solvers that converge, the iterations of the first are taken off twice, the number left becomes negative and wraps, and more than the maximum is done.
* `C73_constraint_refuted` (ResampleProps.v): The file of a constraint may have a time axis and weights of another size than its values and times: the axis and the weights have all resampled intervals, but the values and the times only those that start within the data. Here three slots, intervals of two slots, and one and two solutions per direction: two intervals are resampled to four, of which three are within the data.
* `C73_bda_refuted` (ResampleProps.v): With a solution interval of zero slots, which means all slots, BdaDdeCal gives the zero to the writer (steps/BdaDdeCal.cc:845-852): the time of the solution is then the start of the data and not its middle.
* `C73_last_refuted` (ResampleRound.v): The last solution may be missing in the file. The end that DDECal gives to the writer is the centroid of the last slot and not its end, so that the margin of half a slot is gone: for a solution that starts with the last slot both sides of the comparison are the same number, and rounding decides. Here two slots of 1.00139008 s at 4871389388.127568 and 4871389389.128958 (MJD, in seconds) with a solution for each: there are two solutions, and one is written.
* `C75_weights_refuted` (SumsProps.v): With more slots, the weight is not the mean: all weights of earlier slots are multiplied again by the factor at every slot. In this interval of two slots, antenna 1 has four times the weight of antenna 2, and gets the smaller weight for the constraints.
* `C75_min_vis_refuted` (SumsProps.v): The slots that are held are those of several intervals, if IDG predicts the model data. An interval without any visibility is then not flagged if another that is handled at the same time has enough.
* `C75_time_refuted` (SumsProps.v): The time that is given to the solver for an interval of more slots is not in the interval: the sum of earlier slots is added again at every slot
* `C76_numbers_refuted` (SubtractProps.v): Antennas that are in the data but have no baselines have no solutions, and the antennas are renumbered for the solver (steps/DDECal.cc:272-279); but not when the model is subtracted. Here three antennas of which the second is not used: the solver uses solutions 0 and 1 for the baseline of antennas 0 and 2; subtracting reads after the end of the solutions.
* `C76_other_refuted` (SubtractProps.v): If the numbers are inside, the solution of another antenna is used: antenna 1 in the data is the first antenna that has a solution, and the baseline of antennas 1 and 2 gets those of the second and third
* `C77_channels_refuted` (BdaApplyProps.v): The solver assigns the channels of a row to blocks by their number, but the solutions are applied by frequency. Here eight channels in four blocks, and a row where they are averaged to five: the visibilities in its second channel are used for the solutions of block 1, but get the solutions of block 0.
* `C77_solutions_refuted` (BdaApplyProps.v): With several solutions for a direction, the solver has antenna * (number of solutions) + solution as index; the solutions are applied with antenna * (number of directions) + direction. Regular data with these settings is refused; BDA data gets solutions of other antennas. Here two solutions for the one direction: antenna 1 gets the second solution of antenna 0.
* `C78_flags_refuted` (BdaQueueProps.v): The comment in steps/BdaDdeCal.cc:442-443 says that the unmodified flags are sent on, and for regular data DDECal restores them (C74). But the UVW flagger works on the buffer itself: the visibilities that are not used for the solutions because of the UVW limits are flagged in the output.
* `C79_bda_refuted` (NextStepsProps.v): With BDA data these steps are made (for columns) but then dropped when the step for the result is set as next step; for patches they are not looked at: no direction ever has any of the steps that are asked for, without a warning
* `C80_correlation_refuted` (AoFlagProps.v): If only the first correlation of a visibility was flagged, interference that is found in it does not flag the other correlations: only the first flag is looked at. (The documentation says that all correlations are flagged if one is.)
* `C80_statistics_refuted` (AoFlagProps.v): With an overlap the statistics of quality have the time slots of the overlaps twice (or more often), and the second time the flags that this step has set as original flags
* `C80_last_window_refuted` (AoFlagProps.v): A comment in the code says that there cannot be a very small last window. There can: 101 time slots and a window of 11, with or without an overlap of one time slot, give a last window of two time slots
* `C81_zero_weight_refuted` (ApplyCalProps.v): updateweights with full Jones matrices: a correlation with a zero weight and a zero gain, such as the off-diagonal gains of antennas without solutions (missingantennabehavior=unit), gives weights that are not a number: 1/0 is infinite and infinity times zero is not a number. Here the gains are identity matrices, so that nothing should change, but after it the weights of the three other correlations are not a number.
* `C81_directions_refuted` (ApplyCalProps.v): updateweights with usemodeldata: the weights are changed once for every direction of the model data, which all share them
* `C82_interpolation_refuted` (ApplySetProps.v): interpolation=linear for the step is not used by its substeps: these use nearest (steps/OneApplyCal.cc:104-107 asks twice for the value of the substep)
* `C82_soltab_refuted` (ApplySetProps.v): soltab for the step is not used by its substeps: these use amplitude000 and phase000 (steps/OneApplyCal.cc:137-138)
* `C82_usemodeldata_refuted` (ApplySetProps.v): usemodeldata=true for the step is not used by its substeps: these correct the data (steps/OneApplyCal.cc:64)
* `C82_no_steps_refuted` (ApplySetProps.v): steps=[], which the documentation gives as the default, is not the same as no steps: the first element of an empty list is used (steps/ApplyCal.cc:74)
* `C83_documented_refuted` (AntFlagProps.v): The documentation says that in every iteration only the data that is not flagged is analysed. The code replaces what it flags by the median instead and keeps counting it, so the standard deviation becomes smaller than that of the data that is not flagged, and more is flagged (antennaflagger/Flagger.cc:37-48). Of the values 3, 3, 3, 3, 5, 100 both find 100, but only the code finds 5.
* `C83_zero_median_refuted` (AntFlagProps.v): If more than half of the stations have no data (zeros), the median of the statistics is zero; the statistics are divided by it, nothing is finite, and all stations are flagged, also those with data. With three of five stations with data no station is flagged.
* `C84_missing_refuted` (MultiProps.v): The documentation says that a measurement set that does not exist is accepted if missingdata is true (and orderms is false). The setting is not looked at: with missingdata=false, the default, a wrong name gives a band of flagged zeros (MultiMsReader.cc:62-64).
* `C84_overlap_refuted` (MultiProps.v): Bands that overlap are accepted and put one after the other; the frequencies of the channels are then not increasing, though they are in every measurement set
* `C84_times_refuted` (MultiProps.v): Only the first time, the last time and the interval of the measurement sets are compared, not the times of the slots. A measurement set with irregular times (which the reader allows) is combined with the data of other times: here that of 116 s with that of 120 s, without a message. With the same measurement sets the other way around, one ends before the first and the reader uses a buffer that does not exist.
* `C85_unselected_refuted` (UpdateMsProps.v): FLAG_ROW is cleared when a selected channel has no flag. A channel outside the selection that was only flagged by FLAG_ROW is then no longer flagged, although the step does not touch that channel otherwise.
* `C85_column_refuted` (UpdateMsProps.v): Also if the flags are written to another column than the flags that are in use: those lose FLAG_ROW
* `C85_weight_column_refuted` (UpdateMsProps.v): With msin.weightcolumn=WEIGHT and only changed flags, the fields to write are extended with the weights, and by setting them again with the name of the data column filled in also with the data, after the fields to read have been determined. Both cubes are then made from memory that is not there.
* `C85_dysco_refuted` (UpdateMsProps.v): With storage manager dysco, flagged visibilities are to be replaced by NaN before compression. The step does not ask for the flags: if only the data changed and no other step needs the flags, none are read, and the flagged values are written as they are.
* `C86_same_position_refuted` (UvwSplitProps.v): C86: with two antennas at the same position the autocorrelation of one of them may be counted as a baseline that connects; the one between the two is then not used, and the station coordinates do not give its coordinates
* `C87_time_smearing_refuted` (SimulateProps.v): C87: with all correlations and smearing in time but not in frequency, a point source is not smeared: the terms are computed but only used when there is smearing in frequency too. (A Gaussian source, or the same source with Stokes I alone, is smeared.) Here a baseline of one kilometre sees the phase of a source change by a full turn in an interval of about fourteen seconds, so nothing should remain of it.
* `C89_skip_refuted` (BeamProps.v): Finding: a station that is to be skipped is looked up in the list of stations of the telescope, but compared with the numbers of the antennas in the data. If antennas have been removed before (here the first one), another station is skipped instead.
* `C89_model_invert_refuted` (BeamProps.v): Finding: with usemodeldata and invert the main visibilities are left alone, but the metadata tell that these have been corrected for the beam. A next ApplyBeam then "undoes" this.
* `C89_named_prediction_refuted` (BeamProps.v): Finding: a prediction that is put in named visibilities leaves the main visibilities alone, but the metadata tell that these have not been corrected for the beam, though they may have been. The next ApplyBeam corrects for the beam again.
* `C90_named_applycal_refuted` (PredictProps.v): The corrections of the parameter applycal are not applied to a prediction with a name: the step applycal corrects the main visibilities, which are taken out of the buffer before
* `C90_named_directions_refuted` (PredictProps.v): With a name, only the last direction is there, with the input added, and no corrections
* `C90_updateweights_refuted` (PredictProps.v): The weights are updated with the operations add and subtract too, though this is to be refused: the check looks for "applycal.applycal.updateweights"
* `C91_bda_refuted` (ScaleProps.v): Rows of baselines that are averaged in frequency have fewer channels than the factors, which are those of the channels of the first baseline for all
* `C91_no_tiles_refuted` (ScaleProps.v): A station without any tile in use gets an infinite factor
* `C91_renumbered_refuted` (ScaleProps.v): The sizes are taken by number from the antennas of the measurement set: if a station has been left out and another one added, a station gets the size of another one
* `C92_subset_refuted` (AxisProps.v): On an axis with a hole, the end of the interval being in the hole: the cell behind the hole, no point of which is in the interval, is in the subset.
* `C92_combine_refuted` (AxisProps.v): For axes that overlap in another way, an exception is promised; instead the cells of this axis are read past the end if the center of the first cell of that axis is past the end of this axis.
* `C92_combine_hole_refuted` (AxisProps.v): An axis with a hole, all cells of which have the same width, is combined as if there were no hole: the cells behind the hole are moved.
* `C93_default_refuted` (ParmProps.v): A default polynomial that is evaluated without making the values first is not scaled to its domain but to the domain of everything, from -1e30 to 1e30: the value at a point of its domain is another one than that of the polynomial.
* `C93_outside_refuted` (ParmProps.v): What a user gets outside of the stored values depends on how they are stored: the same values give the last value if they are in one domain, and an exception if they are in two.
* `C93_center_refuted` (ParmProps.v): The grid made for a center and a width is not the interval around the center with that width: it starts at the center, and each of its cells has the full width.
* `C93_map_refuted` (ParmProps.v): Asking for the values on a start-end range without steps does not give the grid with the default steps: the flag that says that it is a range is taken as the time step, and the flag for the defaults is taken for it.
* `C94_threads_refuted` (StefProps.v): C94 does not hold that the order of the threads does not matter: if one feed of a station has no signal, the station is flagged, and the gain of its other feed is estimated or not, whichever comes first. It stays as it is from then on, and is still used for the gains of all other stations
* `C94_unit_refuted` (StefProps.v): C94 does not hold that with phases only all gains have amplitude one: the relaxation takes the mean of two estimates, and if that is the last iteration, the mean is the solution. The correction of the data with such a solution changes their amplitudes
* `C95_weights_refuted` (CalProps.v): C95 refuted for weights that are not the same for the correlations of a sample: the data are exactly those of the model as seen through the Jones matrices of the stations, all weights are positive, but the true gains are not kept. The code multiplies each correlation of the data and of the model with its own weight, and the matrix product of weighted elements is not the weighted product
* `C95_one_correlation_refuted` (CalProps.v): C95 refuted for one correlation and a gain per feed: the data are exactly those of the model as seen through the gains of the stations, but whatever gains are started from, no station has a solution after the first estimate. The unknowns of the second feed have no data, and without data for one of its feeds a station is flagged
* `C95_all_times_refuted` (CalProps.v): C95 refuted for a solution interval that is the whole observation (solint=0) whose solutions are applied: the vector that the buffers are kept in until there is a solution gets the length of the parset, which is zero, before zero is replaced by the number of times; so the first buffer is already stored outside of it
* `C96_unused_refuted` (GainFileProps.v): A run of diagonalamplitude leaves a station that it does not use with amplitude zero: there is no default for amplitudes, and ApplyCal takes zero for a Gain that is not there. For the other types such a station has the identity (C96_unused).
* `C96_scalar_unused_refuted` (GainFileProps.v): With scalarphase or scalaramplitude, ApplyCal cannot use the ParmDB at all if there is a station that calibration did not use: there are no defaults for the parameters that are written.
* `C96_overwrite_refuted` (GainFileProps.v): The documentation says that an existing ParmDB is overwritten. After a run of diagonal, a run of diagonalphase removes the values but not the names, so that ApplyCal takes real and imaginary parts, of which only the defaults are left: the solutions are ignored.
* `C96_h5_amplitude_refuted` (GainFileProps.v): An H5Parm of scalaramplitude has phases in the table of amplitudes.
* `C96_h5_phase_refuted` (GainFileProps.v): An H5Parm of tecandphase has the TEC again, with the opposite sign, in the table of phases, where the constant part of the fit should be.
* `C96_h5_times_refuted` (GainFileProps.v): The last solution interval may have fewer time slots; its time in an H5Parm is still that of a whole interval, which may be after all the data.
* `C97_antenna_refuted` (ConstrProps.v): Refutes for C97 that antennas of a group always get the same solution: antennaconstraint=[[A,B],[B,C]] is accepted, and the groups are handled one after the other, so that A and B, of the first group, end up with different solutions.
* `C97_reference_refuted` (ConstrProps.v): Refutes for C97 that only antennas without a solution end up without one, and that they do: in a channel block where the reference antenna has no solution (which may be up to 80% of them) all other antennas lose theirs, and the reference antenna gets 1 as if it had one.
* `C97_smooth_refuted` (ConstrProps.v): Refutes for C97 that the truncated kernel covers the channels within its size. This is the example of the documentation, a kernel of 2 MHz with channels of 1 MHz, of which the documentation says that 2 channels on both sides are covered, 5 in total. The window extends to half of the size, plus one channel: below the centre that is 2 channels, but above the centre only 1, so that the solution of the second channel above is not used. With narrower channels the window leaves out about half of the kernel on both sides.
* `C98_diverged_refuted` (RotProps.v): C98, divergence that is not there: an antenna that has the amplitudes 1 and 6 is found to diverge, though all antennas are the same, as the second amplitude is compared with the mean of the first one (RotationAndDiagonalConstraint.cc:312-316). The amplitudes are not far from the mean of both either.
* `C98_undetected_refuted` (RotProps.v): C98, divergence that is not found: of two antennas the second amplitudes are 1 and 24, and the first one of these is more than a factor of five from the mean of 12.5, and from the mean of all amplitudes; it is not found, as both are compared with the mean of the first amplitudes, 5.
* `C98_invalid_refuted` (RotProps.v): C98, divergence with invalid data: one antenna has valid data and the amplitude one, and five have none; divergence is found, as the sum is divided by the number of all antennas (RotationAndDiagonalConstraint.cc:277-278).
* `C98_weights_refuted` (RotProps.v): C98, weights of the rotation: with two sub-solutions the weights of the first antenna get those of the second one, as they are copied in the order of the sub-solution, while the values are in the order of the antenna (RotationConstraint.cc:29-31, RotationAndDiagonalConstraint.cc:183-186).
* `C98_sub_weights_refuted` (RotProps.v): C98, weights of the sub-solutions: with two polarizations there are too few weights, and some of them are those of other channel blocks, as a weight is added once and not for each polarization (FaradayConstraint.cc:96-100, as opposed to 75-80).
* `C98_flags_refuted` (RotProps.v): C98, flags: if there is divergence for the second of two sub-solutions only, the second antenna of three is not flagged for it, and it is flagged for the first sub-solution, as the position does not depend on the sub-solution (RotationAndDiagonalConstraint.cc:239).
* `C98_faraday_refuted` (RotProps.v): C98, Faraday rotation with a diagonal: with faradaydiagonalmode=diagonal a solution that is a diagonal matrix times the rotation that is found, and one that is the rotation times a diagonal matrix, are both changed: the diagonal is found with the rotation at the right and is put back with the rotation at the left (FaradayConstraint.cc:171-183), unlike with rotation+diagonal.
* `C98_limit_refuted` (RotProps.v): C98, the amplitude is not limited: a diagonal that is more than a factor of five from the mean stays as it is, though the comments say that its amplitude is adjusted to be within the range (RotationAndDiagonalConstraint.cc:22-39 and 310: what should be done out of the range is done within it, where it has no effect).
* `C100_short_refuted` (DemixTimeProps.v): Finding: data that are shorter than timestep. The number of output averages in a chunk is computed with the timestep that was given, before it is limited to the number of time slots in the data, so that it can be zero; all checks are passed, and then the first average is stored past the end of an array (steps/Demixer.cc:374-390 and 401; steps/MultiResultStep.cc:16-32). Here there are 3 time slots, timestep 5, demixtimestep 10 and ntimechunk 1; with ntimechunk 8, the default on 8 cores, it happens for a single time slot and timestep 10
* `C100_zero_refuted` (DemixTimeProps.v): Finding: a timestep of zero is not refused: it divides (steps/Demixer.cc:182-185), while the averaging itself takes it as one (steps/Averager.cc:57-66)
* `C100_othersources_refuted` (DemixTimeProps.v): Finding: othersources. The documentation says that the direction of a source in othersources has to be given if the source is unknown, which is usually the case (docs/schemas/Demixer.yml). But the sky model is asked for the patches of all sources, also these (steps/Demixer.cc:203-222), and an unknown one is an error (sky_model/SkyModelFunctions.cc:109-110); if it is known, there are more patches than sources with a model, which a debug build does not accept (steps/Demixer.cc:222)
* `C101_shown_mode_refuted` (FactoryProps.v): Refutes for C101 that the name that DDECal shows for a mode can be used as the setting: for Faraday rotation it shows "faraday", which is refused; the setting is "faradayrotation".
* `C101_datause_refuted` (FactoryProps.v): Refutes for C101 that datause selects what part of the data is used, or is refused: for full Jones gains, and for the default algorithm, the setting is accepted without effect.
* `C101_gpu_refuted` (FactoryProps.v): Refutes for C101 that usegpu=true is refused without a solver for a GPU: this is only so for diagonal gains; for other modes the setting is accepted, even if DP3 is built without CUDA, and has no effect.
* `C102_core_refuted` (FactoryInitProps.v): Refutes for C102 that with coreconstraint unequal to zero all stations within the distance get the same solution: if antennaconstraint is given too, coreconstraint is ignored without a message.
* `C102_interval_refuted` (FactoryInitProps.v): Refutes for C102 that valid factors of antennas are accepted: they are read for all antennas of the data, but their number is compared with the number of antennas that are used. So if one antenna has no baselines left, for example after a filter or with a selection of baselines, DDECal stops with the message that the setting has an incorrect number of values, though it has a pattern and a valid value for every antenna.
* `C102_smooth_refuted` (FactoryInitProps.v): Refutes for C102 that the factors that are accepted give a kernel for every antenna: a factor of zero in antenna_smoothness_factors, also one that is the result of text that is no number, is accepted. The size of the kernel is then divided by zero.
* `C103_read_refuted` (InitSolProps.v): C103, a finding: the tables of the default names are read as two gains per antenna if they are not full Jones. A mode with four gains per antenna, such as fulljones or rotation, then reads the third and fourth gain from the values of the next antenna, and for the last antenna from memory after the values. Nothing checks that the tables fit the mode.
* `C104_offset_refuted` (TecProps.v): C104, a finding: the sum of the weights is not set to zero between the three iterations that fit the offset, so that the second and third one are only a half and a third of the correction. With phases that are spread around half a turn the offset is not the mean phase: for 0.9, 0.9 and -0.9 times PI, of which the mean is 29/30 times PI, the fit stops at 67/90 times PI.
* `C104_no_data_refuted` (TecProps.v): C104, a finding: an antenna without a single finite solution does not keep its solutions. It gets the lowest alpha of the search, so that its solutions become finite, with the phases of 4.73 TEC units.
* `C105_domains_refuted` (DomainProps.v): C105, a finding: the domains of a grid with more rows than columns are not given: the arrays for the borders of the rows have the number of columns as their size, so that memory after them is written.
* `C105_rectangular_refuted` (DomainProps.v): C105, a finding: according to its description the constructor throws an exception if the domains do not span a rectangular grid, but only asserts check it. Without these, a domain is dropped, or the grid has a cell that is not one of the domains.
* `C106_unchecked_refuted` (SkyModelProps.v): C106, a finding: without the check, a patch with an existing name is added; the patch before remains in the list of patches but is not found by its name any more.
* `C106_source_refuted` (SkyModelProps.v): C106, a finding: a source can be added to a patch that does not exist, also with the check.
* `C107_intersects_refuted` (BoxProps.v): C107, a finding: a box without points inside of it is said to be intersected by a box around it, against the description of [intersects]; their intersection is empty.
* `C107_unite_refuted` (BoxProps.v): C107, a finding: an empty intersection is the box from (0,0) to (0,0), so that the union with it has points that are not in the other box.

Other things seen while reading the code, not in the model:

* MsReader: if no time slot is left after the start time, all times become zero.
* lane_write_buffer: `reset` discards what was not flushed; `&_buffer[0]` is taken of a vector that can be empty.
* Transfer: inserted time slots have no row numbers, so reading the source for them is undefined; `outputbuffername` is used without being set; FlagTransfer takes the width of the first channel for all.
* Clipper: a time step or frequency step of zero divides by zero. Interpolate: unflagged NaN values are flagged and become zero.
* FlagCounter: percentages divide by the number of points, which can be zero.
* StationAdder, Filter, PreFlagger: calling updateInfo twice appends or squares again.
* StationAdder: zero total weight with averaging gives NaN; with useweights=false the mean of means is taken.
* UVWFlagger: the frame type of the phase centre is not used.
* MSBDAReader: flags of the measurement set are not read; late rows are lost.
* strToBool looks at the first character only.

## How to read seeded/LOG.jsonl

* `first_failure` is the lemma or theorem at which the build stopped. It may be a helper lemma, or a proof script that does not fit the edited definition.
* `theorems_failed` lists the theorems of the claim that were not available after that, so also those of the same file that were not tried.
* `inconclusive` means that the build did not end in time, so that nothing is known about the theorems.
* Not all planned edits were tried: those of GridSortModel, a part of BoxModel (intersect, intersects, contains, empty, before) and a part of FactoryModel are missing.
