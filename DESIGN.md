# Formal model of Merlin++ core behaviour

Source under study: `/repo` (Merlin++). Everything here is a Rocq (Coq 8.16.1)
model written by reading that source; nothing was compiled or run.

## Layout

For every area `X` there are up to four files in `rocq/theories/`:

* `X.v`        model: total computable functions, each citing file and lines
* `XSpec.v`    specification: small, independent of the model's helpers
* `XProofs.v`  lemmas
* `XProps.v`   property theorems (`exact lemma`), `Print Assumptions`, Examples

`Base.v` holds the outcome type: `Ok v | Throw e | UB`. Undefined behaviour in
the C++ (out-of-range access, null dereference, uninitialised read) is the
separate outcome `UB`, never a default value.

## Modelling conventions

* `double` is modelled by exact reals `R` where the property is about
  arithmetic identities. Rounding, overflow and NaN are **not** modelled.
  Where an order or equality test on doubles is all that matters the model is
  over `R` with `Rle_dec`-style tests or over an abstract ordered type.
* `std::string` is `list ascii`; `std::vector`/`list` are lists;
  `size_t`/`int` are `nat`/`Z` without wrap-around unless a property is about it.
* Pointers are identities (nat); ownership and deallocation only appear where
  a property is about them.
* Output to streams is a value; logging to cout/cerr is dropped.
* Random numbers are explicit oracle arguments.

## Plan per property

| id | model | proof | expected result |
|----|-------|-------|-----------------|
| C01 | StringPattern ctor (fragment list + flags) and Match | soundness against inductive glob language, induction on fragments | proved |
| C02 | same | completeness for classes; counterexample for greedy search | refuted + partial |
| C03-C05 | DataTable as typed columns, name index, op type with outcomes | invariant by induction on ops; refinement to finite map | proved |
| C06 | variadic AddRow | counterexample (row is added before values are checked); positive on exact argument lists | refuted + partial |
| C07-C08 | Writer to list of lines/tokens; split_line; Read | round trip by induction on rows | proved / refuted |
| C09 | NumericalRange over R | case analysis | proved with sentinel finding |
| C10-C11 | ArbSpacedData, EqualSpacedData | binary search invariant; end point is UB | proved / refuted |
| C12 | ring_iterator on index | mod arithmetic | proved |
| C13-C14 | process list and Track loop | sortedness invariant; fuel with termination measure | proved |
| C15-C17, C19 | lattice as list, constructor as stack machine | induction | proved, pattern selection refuted |
| C18 | frame tree, lengths, positions | induction on tree | proved |
| C20 | event trace of a run | induction | proved |
| C21-C24 | tracker/integrator state machines over traces | induction on steps | proved / refuted |
| C25-C28 | running means, covariance, momentum rescale, MPI partition | induction on list, field | proved / refuted |
| C29 | packed index | bijection lemma | proved |
| C30-C33 | rotations (tagged union), transforms, phase-space transform | ring/field, induction on expression | proved / refuted |
| C34-C36 | transport matrices, RMap | trigonometric identities | proved / refuted |
| C37-C39, C79-C83, C167, C168 | apertures, interpolated apertures, collimator jaws, aperture survey | nonlinear real arithmetic, induction on tables, bisection with fuel | proved / refuted |
| C40-C42, C84-C89, C113, C149, C169 | collimation list surgery, loss map | invariants, induction, permutations | proved / refuted |
| C43-C46, C56, C90-C95, C170-C172 | channels, buffers, feedback queue, klystron | invariants, complex arithmetic | proved / refuted |
| C47, C96-C98 | multipole expansion over complex pairs | induction on expansion | proved / refuted |
| C48, C121-C124, C176 | optics table interpreter on top of the lattice model | induction on rows, stack discipline | proved / refuted |
| C49-C50, C99-C105, C173-C175 | histograms, bin lists, wake impulses | counting, permutations, field | proved / refuted |
| C51-C52, C111-C112, C114-C118 | LU, Gauss-Jordan, symplectification, vectors, matrices, views | loop invariants, index arithmetic, determinants | proved / refuted |
| C53, C119-C120 | beam parameters, beam matrix | field, sqrt | proved / refuted |
| C54-C55, C106-C110, C127-C129, C150 | supports with dirty flags, movers, ground motion | state machines, induction on histories, sums | proved / refuted |
| C57-C76 | the same models as C01-C36 | as there | proved / refuted |
| C73, C125-C126 | chromatic matrices | derivatives in the momentum deviation | proved / refuted |
| C77-C78, C164-C166 | cavity maps, lenses of slices | determinants, exp/ln, field | proved / refuted |
| C177-C190 | symplectic maps for one particle, bend/multipole/cavity steps | derivatives of curves, flows, brackets, induction on steps | proved / refuted |
| C191-C197 | second-order maps of bends and pole faces | closed forms, derivatives coefficient by coefficient, algebraic criterion for quadratic maps to be symplectic | proved / refuted |
| C198-C205 | one step of the default integrators, bends, pole faces and tilts | steps reduced to the maps of C163, C191, C194, C196 with an abstract kick; refutations by the sense of rotations and strict monotony of cosh | proved / refuted |
| C206-C207 | ownership of the pole faces of bends | heap of face objects, invariant (owned faces are alive and have one owner), refinement to faces as values | proved / refuted |
| C208-C210 | thin lens integrators: drifts, bends, faces, straight magnets | one step as matrices and kicks; equality with the solutions of the linear equations of motion (C162) and their momentum derivative (C73) | proved / refuted |
| C211-C212 | solenoid step | matrix at the momentum of the particle; equality with the solution of the motion | proved / refuted |
| C213-C214 | monitor steps | induction over the list of steps | proved / refuted |
| C215-C223 | transfer matrices, closed orbits, dispersion, rms of orbit and dispersion | a component is any map of one particle; the search is the loop of the code with the solver SVDMatrix modelled and the factorisation a parameter; exactness for linear machines, counterexamples for resonant, limited, shifted and default uses |
| C224-C243 | tables of lattice functions: rows, eigenvectors carried along, phases, invariants, columns, reading, means, derivatives, unstable motion, acceleration, counted phases | the walk along the lattice by induction on the components; a component is any map of one particle with a factor of momentum; EigenSystem is a parameter; histories of requests for the columns; counterexamples for the missing row, absent columns, single rows, derivatives, symplectic four by four, orbits under acceleration, lost turns |
| C244-C261 | hollow electron lens: deflection as an integral over the density of the electrons, direction, modes over the turns, sweeps, steps, velocity, printed profile | integrals (Coquelicot) of the pieces joined; characterisation of one call, induction over turns and steps; refutations universal where possible |
| C262-C278 | spin tracking: precession as the solution of a differential equation, ends of magnets, bends, division into steps, spins with their particles, termination in the step manager | uniqueness of the solution by a conserved distance; rotations composed; refinement to a list of pairs; non-termination by an invariant of the loop |
| C279-C300 | materials: mixtures by number and by weight, choice of nuclei, extra values, copies, mean free path, the prepared table | weighted means over lists; refinement of maps; the prepared table evaluated step by step with invariants |
| C301-C323 | proton scattering in collimators: free paths, use of random numbers, choice of processes, kinematics, energy loss, multiple scattering, the loop through the jaw, reports of losses | invariants over histories of scatterings; termination by the remaining length; covariances as bilinear forms; one-step theorems for every medium |
| C324-C339 | apertures configured from a table along the machine | lemmas on the ordered table (search, rows around a drift), then one theorem per kind of element; frame and idempotence by induction on the elements |
| C340-C358 | collimator files and the jaws made from them | induction on the lines read and on the records; the jaws by the theorems of C81 |
| C359-C370 | bunches made from distributions with filters | every particle is traced to one vector of the generator by induction on the loop, the transformation is computed; never ending by induction on the fuel |
| C371-C379 | tunes from tracking | the transform is proved equal to the defining sum: the swap loop reverses the bits (invariant over the counter with binary carry), each stage doubles the length of the partial transforms (invariant over the set of finished pairs); peaks by the geometric sum |
| C380-C390 | linac and transverse RF structures | induction over the steps with energies and transverse momenta as invariants; the expansion of the logarithm is bounded by the mean value theorem |
| C391-C403 | check for finite coordinates, monitors, errors of frames | loop invariants over the particles and induction over histories; names of files by the last underscore; errors against a map over the frames with explicit random numbers |
| C404-C412 | synchrotron radiation | losses by induction over the bunch with an oracle for photons; points of radiation by an invariant on the position over all subdivisions |
| C413-C419 | wakes of collimators | moments by de Moivre's formula, induction on the order; gradient by derivatives; sums and causality by induction over slices and modes |
| C420-C427 | failing crab cavities | turns by an invariant on the counters over all lists of markers; kicks by induction over the bunch with arbitrary optics |
| C428-C433 | wakes for macro-particles | slices by an invariant of the cutting loop; sums and balance by induction over slices and particles |
| C434-C441 | frames, construction and conversion of macro-particles | moments by sums over an ensemble; telescoping sums of erfc over the grid; counts by induction over the bunch |
| C442-C447 | wakes of couplers and tapers | loops as sums by induction over slices; derivatives of exp |
| C448-C451 | corrector windings | by the components of multipole fields (C47) |
| C452-C456 | random vectors with given covariances | invariant of the in-place decomposition over rows and columns; sums over ensembles; a vector orthogonal to earlier columns by back substitution |
| C130-C163 | the parts of C02-C76 that hold | as there | proved |

A property that turned out false of the code keeps its statement; its claim has
status `partial`, its `_refuted` theorems give the counterexample (usually for
all inputs of a class), and what does hold has a property of its own.

## Trusted base

* The kernel of Coq 8.16.1 and its standard library. No plugin, no native
  compilation, no axiom of our own, no `Admitted`, no `Variable`/`Hypothesis`
  outside sections. `HollowLensSpec.v` states integrals with Coquelicot's `is_RInt`;
  Coquelicot adds no axiom.
* That the model says what the code does. Every definition cites file and
  lines. No code was compiled or run; the correspondence is by reading.
* Axioms: theorems about strings, tables, lattices, lists, counters and state
  machines over `nat`/`Z`/`list` are closed under the global context. Theorems
  about reals depend on the standard library's construction of R:
  `ClassicalDedekindReals.sig_forall_dec`, `ClassicalDedekindReals.sig_not_dec`,
  `FunctionalExtensionality.functional_extensionality_dep`, and, where
  derivatives, square roots, trigonometric functions or decidability of
  arbitrary real propositions enter, `Classical_Prop.classic`. Each theorem is
  followed by `Print Assumptions`; the table at the end of this file lists the
  result for every theorem claimed.

## What is modelled

Model files and the code they follow (all under `Merlin++/`; a definition's
comment has the lines).

| model | code |
|-------|------|
| StringPattern.v | StringPattern.cpp |
| DataTable.v, DataTableTFS.v | DataTable.cpp/.h, DataTableTFS.cpp |
| Ranges.v, Ring.v, Interp.v | NumericalUtils/Range, RingIterator.h, Interpolation.cpp |
| Process.v, Tracker.v, Tracking.v | ProcessStepManager.cpp, ComponentTracker, ComponentIntegrator, ComponentDivider, MonitorIntegrator, TrackingSimulation, BeamlineStepper |
| Lattice.v, Frames.v | AcceleratorModel(Constructor), LatticeFrame, SequenceFrame, ComponentFrame, PatchFrame, geometry classes |
| Rot.v | Rotation3D, Transform2D/3D, Vector3D, PSvector transforms |
| Cov.v, Bunch.v | TCovMtrx, PSmoments, ParticleBunch, SMPBunch, bunch constructor, MPI partition |
| Optics.v, SparseMap.v, RFMap.v, SmpLens.v, Chromatic.v | TransportMatrix, MatrixMaps, RMap, RTMap, TransportRMap, TransportTMap, cavity maps, slice integrators |
| Aper.v, Survey.v | apertures, interpolated apertures, CollimatorAperture, ApertureSurvey |
| Collimate.v, LossMap.v | CollimateParticleProcess, LossMapCollimationOutput, CollimationOutput |
| Channels.v, Feedback.v, Klystron.v, Field.v | channel servers, BPM, buffers, feedback, Klystron, MultipoleField |
| Hist.v, Wake.v | Histogram, ParticleBinList, ParticleBunchDistribution, WakeFieldProcess |
| Mat.v, Gauss.v, LU.v, TMat.v, BeamMat.v | LinearAlgebra.cpp, TLASimp.h, TMatrixLib/tblas, BeamData, beam matrix |
| Support.v, Atl.v | SupportStructure, AcceleratorSupport, MagnetMover, ATL2D, SimpleATL |
| Mad.v | MADInterface.cpp |
| SympInt.v | SymplecticIntegrators.cpp (for one particle) |
| BendMap.v | BasicTransportMaps.cpp 14-89, 225-531 (second-order maps of bends and pole faces) |
| TransInt.v | TransportIntegrators.cpp 57-335, 337-460 (default integrators of drifts, bends, pole faces and straight magnets for one particle) |
| PoleFaces.v | SectorBend.h 66-140, SectorBend.cpp 26-36, 58-84 (pole faces of bends, with deletion and copying) |
| ThinInt.v | StdIntegrators.cpp 29-72, 126-131, 177-336, 381-447 (thin lens integrators, solenoids, monitors, markers); TrackEntrance and TrackExit of bends |
| Orbit.v | ClosedOrbit.cpp 22-222, 224-255, TransferMatrix.cpp 18-216, Dispersion.cpp 29-117, PhaseAdvance.cpp 99-127, RingDeltaTProcess.cpp 29-53, TLASimp.h 172-226, 383-391; not: the factorisation SVD (419-), the radiation process itself, particle loss, DEBUG_CLOSED_ORBIT |
| LatFun.v | LatticeFunctions.cpp 45-700 (LatticeFunction, LatticeFunctionTable), PhaseAdvance.cpp 45-97, 129-183; not: the files written, EigenSystem (a parameter), RemoveFunction (declared, not defined) |
| HollowLens.v | HollowElectronLens.cpp 15-119 and .h 70-131, HollowELensProcess.cpp 24-454, PhysicalConstants.cpp 59-70; not: overflow of the turn counter, terminal output |
| Spin.v | SpinParticleProcess.cpp 19-403 except Output, ParticleBunch.cpp 26-29, 308-320, ParticleBunch.h 319-324, 398-401; the field of a component is a function of x and y |
| Material.v, MaterialData.v | MaterialProperties.h 41-92, MaterialProperties.cpp 26-206 except printing, MaterialData.cpp 26-75, 98-173; maps are lists of pairs, variable arguments lists of doubles, null pointers and the open order of evaluation of C++14 are modelled |
| Scatter.v | ScatteringModel.cpp 32-40, 114-314, ScatteringProcess.cpp 34-347, ScatteringModelsMerlin.cpp 19-108, CollimateProtonProcess.cpp 41-204; random numbers are an oracle, the tables of elastic and diffractive scattering and the aperture parameters; logarithms and roots of wrong arguments are an error outcome |
| ApConf.v | ApertureConfiguration.cpp 23-300, 333-346; the file is a list of rows with lengths (the DataTable reader is in DataTable.v), lower_bound is undefined on a table which is not partitioned, printing is left out |
| CollDB.v | CollimatorDatabase.cpp 27-585; the file is a list of words with the number each one starts with if any, members not read are indeterminate (None), the material database is a function, random numbers are a sequence, the optical functions a list of rows; log output is left out |
| Distr.v | ParticleDistributionGenerator, HaloParticleDistributionGenerator, HollowElensParticleDistributionGenerator, BunchFilter, ParticleBunch.cpp 164-220; the random engine is two sequences with one counter, loops have fuel with the outcome Running |
| Tune.v | BetatronTunes.cpp, all functions; tracking is a function from turns to coordinates, values which are not numbers are the outcome TNaN |
| Linac.v | LCAVintegrator.cpp, TransRFIntegrator.cpp, RFStructure.cpp, the RotateY180 of TWRFStructure, SWRFStructure and TransverseRFStructure; a division by zero is the outcome LNaN; Esum and np of LCAVMap are never read and left out |
| Watch.v | NANCheckProcess.cpp, MonitorProcess.cpp without the contents of the files, AcceleratorErrors.h and .cpp without the log; values that are not finite are None, the local transformation of a frame is the list of its moves |
| SynchRad.v | SynchRadParticleProcess.cpp, all functions; the magnitude of the field is a function, the photons an oracle (PhotonSpectrumGen.cpp is not modelled) |
| CollWake.v | CollimatorWakeProcess.cpp 36-44, 96-234; the wake functions of the modes are arbitrary; a bunch is given by its slices (the slicing of WakeFieldProcess.cpp is not modelled here) |
| CCFail.v | CCFailureProcess.cpp 109-142, 153-296, 303-885; phase advances and beta functions are arbitrary functions; not numbers are an outcome and not particles dropped |
| SMPWake.v | SMPWakeFieldProcess.cpp 30-82, 152-194, 208-229, 239-280; wake functions arbitrary; slices are cut anew at each kick, which the code does after bends and at new wakes only |
| SMPConv.v | SMPTransform3D.cpp 24-102, RMap.h 240-243, SMPBunchConstructor.cpp 17-90, erfcc.cpp 13-17, ParticleBunchConverter.cpp 26-108; erfc and the moments of the bunch are arbitrary |
| CoupWake.v | CouplerWakeFieldProcess.cpp 33-45, 105-170, CollimatorPotentialModels.cpp 22-49; wake and RF functions arbitrary; the choice of the component (56-103) is left out |
| CorrWind.v | CorrectorWinding.cpp 15-45, RectMultipole.h 98-101 |
| MultiNorm.v | MultiNormal.h 51-67, 70-80, 126-153; the constructors at 83-117 differ in the checks of the matrix only |

Simplifications: exact reals for `double`; a division by zero or the square
root of a negative number is `None`, `NaN` or a failing result where the code
would go on with NaN; `fequal` is |x-y| <= eps for a fixed positive eps;
`std::sort` is any function that sorts; random numbers, file contents and
virtual calls into user classes are arguments; loops that may not end have fuel
and the theorems show enough fuel exists or that no fuel is.

## Findings

Where the code does not do what its interface says. Each is a `_refuted`
theorem or a clause of a theorem about what the code does.

* **Names and tables.** Greedy pattern search misses names (`*b` against
  `abab`); an alternation prints as another pattern. A failing AddRow leaves a
  partly filled row. A TFS cell with `"` is altered silently; an empty string
  loses its row or makes the file unreadable; an empty text or a missing or
  blank type line reads an empty vector.
* **Interpolation.** The equally spaced table reads past its end at xmax. From
  second order on the first and last values are not reproduced; with order =
  points-1 every evaluation reads out of range.
* **Processes.** RemoveProcess of an absent process erases end(); false is
  returned when the removed one was last. A permitted step of zero loops for ever.
* **Lattice.** GetBeamline(n1 > n2) is accepted and its iteration leaves the
  lattice, as does that of a reversed beamline; in pattern pairs the start is not
  counted for the second pattern and order is not checked. Components of whole
  appended frames keep index 0. A superfluous EndFrame is undefined.
  InstallModelElement uses a dangling iterator, accepts negative positions,
  leaves indexes stale and registers no component. ExtractComponents throws at a
  frame without component.
* **Frames.** Appending late or replacing a sub-frame does not update the
  enclosing length; an empty centred sequence asserts; the way back inside one
  sub-frame is not inverted; the total transformation of sequences with origin at
  an end becomes the identity at layout; entrance planes of centred sequences are
  mirrored; displacements below the tolerance are not conjugated.
* **Transformations.** The identity test is tolerant; the 2-D one accepts half a
  turn; the 2-D to 3-D lift turns the other way; 3-D `==` is tolerant and `!=` exact.
* **Tracking.** Every continuation with injection on axis omits its first
  entrance; component-wise stepping omits patches; continuing without bunch or
  with an empty beamline is undefined; after an exception inside a component
  every later run asserts. TrackStep returns the number of the state. A first step
  below the tolerance applies the entrance map twice. Monitors may measure
  repeatedly or never. The divider's adjusted step is below its minimum.
* **Bunches.** Projected and slice moments are added to what the result held;
  adjustments of sliced bunches change momenta and times; SetCentroid leaves an
  n-th part of the distance; np = 0 gives a particle; the first particle is not
  filtered; seven doubles per particle make unpacking assert, identities are lost.
* **Maps.** A solenoid within the tolerance is not symplectic, one without
  strength is the identity instead of a drift; a bend with cancelling focusing has
  no dispersion; small maps zero the longitudinal moments; RescaleMoments forgets
  the ct-dp covariance; copied sparse maps refer to the original; the 37th term
  overflows; sparse quadrupole, roll and solenoid reset time and momentum; the
  sparse solenoid has a coefficient in the wrong place; second-order access always
  appends; QuadrupoleTM divides by zero without gradient. Chromatic matrices are
  the identity instead of zero without strength; bends without gradient have a unit
  vertical block; defocusing bends use cos for cosh; T(5,1), T(5,2) are missing and
  T(5,5) = T(6,6) = 1.
* **Cavities, slices.** The dense map with end fields has determinant E1/E0; the
  six-dimensional standing wave leaves the vertical plane alone; the thin
  quadrupole kick of slices has the wrong sign; their rotation zeroes ct and dp.
* **Apertures.** An uncut octagon rejects everything outside its inner diamond; a
  flat ellipse accepts its whole axis; the interpolated rect-ellipse's quick test
  omits the rear half width, the interpolated ellipse the vertical half axis; behind
  the last entry the behaviour is undefined or everything is accepted; a narrowing
  collimator accepts at its closed end; SetEntranceWidth/Height and the jaw error
  have no effect.
* **Collimation.** A second check with losses in a component reads outside its
  records; particles lost only at the exit are never reported; short steps skip
  collimator checks. In two output modes the first record counts twice; finalising
  twice corrupts; a negative position loops for ever; the header names 11 columns
  for 9.
* **Channels, feedback, klystron.** Dotted types break the search; repository
  queries stop at the first type without channel; the predicate's negation flag is
  never set; a default buffer that is attached too records twice; SetBPMOffset
  zeroes the other plane; the delay queue starts with zeros; in vector-sum mode no
  setting reaches a cavity, zero divides by zero.
* **Fields.** A scale within the tolerance gives no field; reading a component
  raises HighestMultipole; RotateY180 gives minus the turned field.
* **Histograms, wakes.** The last bin reaches beyond x2; the default slope filter
  always reads out of range; values in an incomplete last bin assert; a second cut
  follows a cut; CSR distances wrap around; slopes are rescaled exactly only for
  dp = 0.
* **Supports, ground motion.** A girder moved at one end never moves; copies of
  simple mounts hold a wild pointer; SetATLMode tests the mode it leaves; absolute
  steps use the time before the step; only the upper triangle of the eigenvectors is
  recorded.
* **Linear algebra.** LUMatrix passes an empty pivot vector; singular matrices
  without a zero row are not reported; Symplectify fails for eigenvalue -1; v-s adds;
  products with a non-square result are refused; reversed ranges lead out of the
  array; a transposed TGEMV scales over the wrong length; printing a tall matrix throws.
* **Beam data.** Equal emittances give NaN on the way back; without momentum
  spread the dispersion is lost; only the mean of a reused result is cleared;
  coupling reads back with wrong signs.
* **Optics tables.** Unknown types are dropped without advancing the position;
  markers and wire scanners lose their length; cavities are rounded to half
  wavelengths; thin multipoles and straight bends with gradient divide by zero; a
  line directly inside one of the same name closes it; AppendModel deletes its model.
* **Symplectic integrators.** A gradient of minus the squared curvature gives NaN; a
  bend without dipole field asserts; a tilt below the tolerance zeroes every particle;
  a multipole with gradient is kicked twice and drifts on by half its length;
  quadrupoles enlarge the area off momentum; the standing-wave matrix has a sine for a
  cosine.
* C188: in both integrator sets a thick quadrupole with a skew component is tracked with the
  complex conjugate gradient (the matrices are turned the wrong way), opposite to the thin kick
  of the same field; a skew part whose angle is below the comparison tolerance multiplies by a
  zero matrix and puts all particles on the axis.

* C192: the second-order bend map carries 1/beta in some coefficients and not in
  their partners; at no finite energy is it symplectic.
* C193: the bend map works in canonical momenta, drifts, quadrupoles, sextupoles
  and combined-function bends in slopes; a bend of vanishing curvature does not
  become a drift.
* C195: the combined-function bend map has no value at field index 1/5 (and
  without curvature or gradient), misses h*S in the coefficient of x*x' of x,
  and its second-order path length has the wrong sign from the start.
* C197: pole-face maps of magnets with gradient, or with a fringe field, are not
  symplectic when the face is tilted.
* C200: the default integrators rotate skew quadrupoles and sextupoles the wrong way round
  (TransportIntegrators.cpp 379-451): they act with the complex conjugate of their strength.
  A dipole component inside such a magnet kicks in a wrong direction.
* C202: in a bend with gradient the gradient is normalised to the reference momentum of the bunch
  but the momentum deviation to that of the bend (TransportIntegrators.cpp 239-260).  Momenta that
  differ by less than 1e-6 GeV/c, an absolute tolerance, count as equal.
* C204: missing pole faces are taken for exits at both ends (ApplyPoleFaceRotation 317-335), so a
  bend without face data moves x by -h y^2; the gradient there lacks the sign of the charge; a tilt
  below the tolerance of the rotation zeroes all transverse coordinates.
* C205: the default set turns the bunch by -tilt before a bend, the symplectic and thin-lens sets
  by +tilt.
* C207: SetPoleFaceInfo with one face for both ends gives the entrance the type of an exit; RotateY180
  swaps the faces but not their types; a null face is written to (SectorBend.h 96-111), which every
  optics row with exactly one of E1 and E2 zero does (MADInterface.cpp 379-385, 415-421); assigning a
  bend to itself copies from freed faces.
* C210: in the THIN_LENS set magnets of no length do nothing; a straight magnet with a gradient and other
  multipoles whose field scale is zero, or any such magnet for a bunch without charge, multiplies by an
  unfilled matrix and puts all particles on the axis (the second half asks for the coefficient, the first
  for the strength); gradients of bends do not scale with the momentum of the particle.
* C212: a solenoid whose rotation in a step is below 2^-52, and any for a bunch without charge, does not
  advance the particles.
* C214: a monitor tracked in several steps drifts back and measures again after each step beyond its
  measurement point; a measurement point at the exit never measures.
* SVDMatrix leaves out directions whose singular value is below 1e-6 of the largest, so ClosedOrbit reports a figure of merit of zero near an integer resonance although the orbit does not close (C218_refuted).
* ClosedOrbit::FindClosedOrbit counts iterations from one: SetMaxIterations(1) returns the guess without tracking anything (C219_refuted). The radiation process is removed from the tracker but never deleted.
* Dispersion::FindRMSDispersion starts from a dispersion of zero instead of the one at the start, and writes the dispersion after each component next to the position before it (C221_refuted). The bunch it makes is never deleted.
* PhaseAdvance::TransferMapBetween uses the closed orbit at the start of the lattice as the orbit at component n1 (C222_refuted).
* TransferMatrix does not initialise radstepsize and radnumsteps, which FindTM(M) and FindClosedOrbitTM read (C223_refuted).
* C231: a table of the orbit only has no row behind the last component; the same table with one function of the motion has one (LatticeFunctions.cpp 445-499, 541-553).
* C232: `Value` of a function that is not in the table reads the end of the list (LatticeFunctions.cpp 615-636).
* C235: `Mean` and `RMS` over a single row divide zero by zero (638-693).
* C236: `CalculateEnergyDerivative` divides by the difference of the momenta of two closed orbits found with `TransverseOnly(true)` from zero: it is always zero unless the table is one of the orbit only (298-345).
* C238: the default table has longitudinal functions and is refused (`MerlinException`) for every machine whose longitudinal motion is not stable; `exit(1)` is called if stability is to be forced and the element (4,4) differs from one by more than 1e-8.
* C239: `MakeTMSymplectic` with motion that is stable only across symplectifies a matrix of four rows as one of six (483).
* C241: under acceleration the probes are scaled in the bunch, the reference in a copy (457, 466): behind the second accelerating component the orbit counts as a displacement.
* C243: `CalcIntegerPart` compares rows up to n-1 only (PhaseAdvance.cpp 148): a turn completed at row n is lost.
* Hollow electron lens: with offsets the size of the kick uses the distance from the lens, its direction the angle about the axis, so that particles
  between the axis and an attracting lens are pushed away from it (C248).
* Hollow electron lens: a mode other than 0 to 3 leaves the mode unset, the radii and the beam size are unset until the user sets them (C250, C261).
* Hollow electron lens: the measured profiles ignore the outer radius (C251); SetLHCRadialProfile alone has no effect (C252).
* Hollow electron lens: a sweep whose range is not a whole number of steps leaves its range (C256); n steps kick n times (C258).
* Hollow electron lens: the momentum in GeV is combined with the mass in kilogram, which makes the velocity that of light (C259).
* OutputProfile of the lens ignores its lower end (C261).
* Spin tracking: the end of a solenoid is not scaled with the momentum and has twice the field, the end of a dipole half of it (C268, C269).
* Spin tracking: in bends the frame turns with the particle, so that off momentum the spin is wrong by the angle of the bend times dp/(1+dp) (C266).
* Spin tracking: with more than one step per component tracking never ends (C273); a step of no length at the beginning passes the entrance again (C272).
* Spin bunches: sorting and the exchange of particles in the collimation leave the spins behind (C276, C277).
* Materials: the choice of the nucleus of a mixture does not use the composition (C288).
* Materials: copies have an indeterminate mean free path, AC150K of the prepared table among them; O, Fe, Ni and Mo have a negative one (C292, C296); IT180 gets five times the radiation length of tungsten (C297).
* Materials: UseSixTrackValues reads beyond its array and gives Al, Fe and Cu the values of Cu, W and Pb (C298).
* Materials: too few weights are read beyond the vector (C285); a failing MakeMixture may leave a null pointer in the table (C286); reading a missing extra value enters it (C291); EnergyScale ignores the energy (C294).
* Scattering: the simple energy loss looks up a name nobody sets and takes nothing (C301); models of SixTrack use the full one until the first scattering (C303).
* Scattering: the full energy loss adds the most probable loss to the proton, with units that do not fit (C319), and never uses the constants below 100 eV (C318); it and multiple scattering keep constants by the address of the material (C317).
* Scattering: cross sections stay those of the first energy (C305), Rutherford scattering happens too often (C307), off momentum protons lose dE/(1+dp) (C309).
* Collimation of protons: a proton back in the aperture is moved too far (C310), slow protons vanish unreported (C312), losses after scattering are placed one step too far (C313), and iron and three other materials give NaN (C315).
* Aperture configuration: an element gets the aperture of the one before it when they touch (C326); unknown types are counted as configured (C329).
* Aperture configuration: before the first entry of the table the pipe is extrapolated (C334), behind the last it is that of the first entry (C335), at the beginning of a drift with two entries it is a diamond (C333), and the type of the first entry decides (C336). Rectangles of different sizes end the program (C338); shared apertures are freed twice (C339).
* Collimator database: a misplaced word turns the rest of the file into nameless collimators (C341); unknown materials give a collimator without material (C342) or a null pointer that is followed (C358); only the first collimator of a name is configured (C344); offsets and jaw tilts are read and ignored (C345).
* Collimator settings from optics: the height uses the horizontal beam size (C347), tilted jaws not matched can stop the orbit (C349), errors of size zero still displace by 50 micrometres (C351), the error sizes are variances (C352), errors with matching end the program (C353), the impact parameter of an earlier call is returned (C355), collimators between rows are skipped silently (C356).
* Bunch construction: energy spread and length of the beam are used as variances (C364) although the beam matrix uses them as standard deviations; the hollow lens halo has angles where alpha is not zero (C362); the horizontal filter refuses particles without angle (C366), so that construction may never end (C367); the vertical filter ignores the orbit (C368); limits are not initialised (C370).
* Tunes: the transform is right for powers of two (C371) and runs out of range for all other lengths (C372); every tune nearest to a bin from above is found exactly one bin too low (C373) although the interpolation itself is exact (C379), or out of range for the last two bins (C375); a plane at rest gives no number (C374); without diffusion the change of the tune is minus the tune (C376).
* Structures: positions depend on the number of steps (C382); without full acceleration transverse momenta are not kept (C384); the path length is ignored (C385); a transverse structure displaces by three times the right amount (C386).
* Checks: the index printed is not the position (C392); bad particles reported before removal or halting was switched on stay (C394); details switched on inside an element read past the end (C396). A monitor without particles is switched on again by the next element (C399). Errors of less than 15 nm are left out (C401), setting rotations wipes shifts (C402), only the first alternative of a pattern gets the free type (C403).
* Radiation: adjusting the reference does not rescale symplectic momenta (C406); angles are damped although photons go forward (C407); a subdivided first step switches radiation off when a largest step is set (C410); empty or missing bunches (C411).
* Wakes of collimators: the sine part of the longitudinal wake has the wrong sign (C415); transverse momentum is not kept (C418); a thousand slices overflow tables (C419).
* Crab cavities: tables of four without check (C421); the second point does nothing when both are on and uses the counter of the first (C422); after the failure nothing acts (C426); the phase asked for is lost (C427).
* Wakes for macro-particles: the first particle counts twice (C429, C432); the moment of xp and y is not damped (C431); empty bunches (C433).
* Macro-particles: rolls up to a milliradian are left out (C435); constructed bunches lack the charge outside the limits (C437); the bins of the conversion do not match its cells (C440); bunches without spread (C441).
* Couplers: the RF kick is divided by the charge and multiplied again, so bunches without charge have no numbers (C444); tapers do not check the mode (C447).
* Corrector windings: setting one plane clears the other (C449); nothing is set on a magnet that is off (C450); the field follows the strength of the magnet (C451).
* Random vectors: a first coordinate without spread leads to a division by zero without exception (C454).

## Not modelled

Floating-point rounding, memory allocation, threads/MPI transport, random
generators, file system, physics accuracy of scattering tables. Eigensystem
routines and singular value decomposition, XTFF reader, coupler and
collimator wakes, synchrotron radiation.

## Assumptions of each theorem

What `Print Assumptions` lists. D = `ClassicalDedekindReals.sig_forall_dec`,
N = `ClassicalDedekindReals.sig_not_dec`,
F = `FunctionalExtensionality.functional_extensionality_dep`,
C = `Classical_Prop.classic`, none = closed under the global context.

* `ApConfProps.v`
  * D F: C324_ordered, C324_with, C324_without, C325_beyond, C325_first, C326_gap, C326_refuted, C327_frame, C327_succeeds, C328_again, C329_refuted
* `ApDriftProps.v`
  * none: C339_delete, C339_shared
  * D F: C330_uniform, C331_entries, C335_refuted, C337_mix
  * D N F: C332_circle, C333_refuted, C334_refuted, C336_refuted, C338_refuted
* `AperProps.v`
  * none: C38_rectangle_refuted
  * D F: C37_rows
  * D N F: C37_circle, C37_ellipse, C37_rectangle, C37_rectellipse, C37_star, C37_symmetric, C38_beyond_refuted, C38_ellipse_partial, C38_ellipse_refuted, C38_rectellipse_partial, C38_rectellipse_refuted, C79_flat_ellipse_refuted, C79_octagon_uncut_refuted, C80_circle, C80_in_front, C80_octagon, C167_octagon
* `AtlProps.v`
  * D: C108_reset, C109_symmetric_partial, C110_reset
  * D F: C55_combined_refuted, C109_record_refuted, C150_calls
  * D N F: C55_no_way_out_refuted, C108_increment, C108_vibration, C110_negative_refuted, C110_walk, C129_absolute_partial, C129_absolute_refuted, C150_careful
* `BeamMatProps.v`
  * D N F: C53_reused_refuted, C119_moments, C119_sizes, C120_coupling, C120_decouple, C120_moments, C120_normal, C120_singular_refuted
  * D N F C: C53_dispersion_refuted, C53_round_beam_refuted, C119_round_trip, C120_never_ends_refuted, C120_read_angle_refuted, C120_read_back_refuted
* `BendMapProps.v`
  * D N F: C191_bend, C191_domain, C191_high_energy, C192_finite_energy_refuted, C193_straight_refuted
* `BunchProps.v`
  * none: C28_distribute_partial, C28_distribute_refuted, C28_gather_refuted
  * D: C25_empty_refuted, C69_asked_refuted, C159_constructed, C159_terminates
  * D F: C25_centroid, C25_moments, C25_order, C25_projected_centroid, C25_scale, C25_semidefinite, C25_shift, C25_zero_variance, C26_accumulator_refuted, C26_formula, C26_projected_partial, C26_repeated, C27_slices_refuted, C70_centroid_partial, C70_centroid_refuted, C70_formula, C70_repeated, C71_previous_contents_refuted, C143_momentum, C143_refused, C143_time, C143_to_mean, C159_charge, C159_reference_refused, C160_charge, C160_formula, C160_projected, C160_slices
  * D N F: C25_coordinate
* `CCFailProps.v`
  * D F: C420_regions, C420_single, C420_turns, C425_strength
  * D N F: C421_five_refuted, C422_counter_refuted, C422_second_refuted, C423_before, C424_behind, C426_after_refuted, C427_off, C427_phase_kept, C427_phase_refuted
* `ChannelsProps.v`
  * none: C43_beamline, C43_constructors, C43_dotted_type_refuted, C43_name, C43_registration, C43_short_name, C43_writable, C44_restore, C44_write_read, C56_find_or_count_refuted, C56_intended_partial, C90_skips_refuted, C170_all_known, C170_repository, C171_buffers
  * D: C44_increment, C44_same, C44_sizes, C172_own_plane, C172_reading
  * D F: C91_default_refuted, C92_other_plane_refuted, C171_inactive, C171_measurement, C171_noise
* `ChromaticProps.v`
  * D N F: C73_particles, C73_quadrupole, C125_defocusing, C125_focusing, C125_no_curvature, C125_scales, C125_small, C126_diagonal_refuted, C126_dipole_refuted, C126_particles_refuted, C126_path_length_refuted, C126_quadrupole_refuted, C126_scales_refuted
  * D N F C: C126_defocusing_refuted
* `CollDBProps.v`
  * D: C340_gaps, C340_sigmas, C341_refuted
  * D F: C342_refuted, C345_refuted
  * D N F: C343_gaps, C344_refuted
* `CollOptProps.v`
  * D N F: C346_matched, C347_refuted, C348_flat, C348_one_sided, C349_refuted, C350_errors, C351_refuted, C352_refuted, C353_refuted, C354_impact, C355_first, C355_refuted, C356_last, C356_no_optics, C356_refuted, C357_each, C357_last_row, C357_order, C358_refuted
* `CollWakeProps.v`
  * D N F C: C413_moments, C414_gradient, C415_energy_refuted, C415_gain_refuted, C416_causal, C417_mode, C417_modes, C417_same_places, C418_momentum_refuted, C419_slices_refuted
* `CollimatePlace.v`
  * D F: C113_distinct, C113_once, C113_place
* `CollimateProps.v`
  * D: C40_scattered
  * D F: C40_check, C40_history, C40_no_loss, C40_plain, C41_leftover_refuted, C41_second_check_refuted, C84_alone, C84_checks, C85_turns, C86_short_steps_refuted, C149_first_check, C169_collimator_bins
* `CorrWindProps.v`
  * D F: C448_get, C448_set, C449_planes_refuted, C450_off_refuted, C450_thin_refuted, C451_strength_refuted
* `CoupWakeProps.v`
  * none: C444_bins_refuted
  * D F: C442_wakes, C443_rf, C444_else_partial, C444_neutral_refuted, C444_thin_refuted
  * D N F: C445_slope, C446_causal, C446_zero, C447_modes_refuted
  * D N F C: C446_decay
* `CovProps.v`
  * none: C29_packing
  * D: C29_diagonal, C29_symmetric, C29_write_read, C29_zero
  * D F: C29_equality, C29_negative_refuted
  * D N F: C29_beyond, C29_derived
* `DataTableProps.v`
  * none: C03_iteration_visits_every_row, C03_table_rectangular, C04_table_refines_typed_map, C05_error_leaves_table_unchanged, C05_no_undefined_access, C06_variadic_add_row_atomic_refuted, C131_variadic_add_row_exact
* `DataTableTFSProps.v`
  * none: C07_tfs_round_trip, C08_empty_string_refuted, C08_string_round_trip_partial, C08_string_round_trip_refuted, C58_read_any_text_refuted, C152_accepted_table_wellformed, C152_read_text
* `DistrProps.v`
  * D F: C363_first, C366_horizontal, C366_refuted, C366_vertical
  * D N F: C359_ring, C360_horizontal, C360_horizontal_cut, C360_vertical, C360_vertical_cut, C361_thick, C361_thin, C362_refuted, C363_cutoffs, C364_refuted, C365_uniform, C367_refuted, C368_refuted, C369_bunch, C369_draws, C369_filtered, C369_sequence, C370_refused, C370_refuted
* `FaceProps.v`
  * D N F: C196_domain, C196_face, C196_hard_edge, C196_upright, C197_fringe_refuted, C197_gradient_refuted
* `FeedbackProps.v`
  * none: C95_store_restore, C95_unstored_refuted
  * D: C45_bad_delay, C95_kept
  * D F: C45_delay, C45_first_pulses_zero, C45_frame, C93_convergence, C93_dead_beat, C93_hold
* `FieldProps.v`
  * D: C47_reading_grows_refuted
  * D F: C47_bad_exclude, C47_coefficient, C47_component, C47_lowest, C47_lowest_of_nothing_refuted, C47_reading, C47_series, C47_tiny_scale, C47_tiny_scale_refuted, C96_force, C96_maxwell, C97_derivative, C97_field, C97_gradient, C97_kn, C97_pole_field_skew, C98_dipole_refuted, C98_reversed_refuted, C98_turned_refuted, C98_twice
  * D N F: C47_highest, C97_nothing_refuted, C97_pole_field
* `FramesProps.v`
  * D F: C18_replace_refuted, C136_position_sum
  * D N F: C18_late_append_refuted, C65_layout_partial, C65_layout_refuted, C66_back_refuted, C66_plane_refuted, C66_total_refuted, C67_tiny_shift_refuted, C136_contiguous, C156_centred, C156_extent, C156_forward, C156_physical, C157_aligned, C157_coinciding_planes, C157_displacement_at_plane, C157_displacement_undone
* `GaussProps.v`
  * D F: C111_inverse, C111_outcomes, C111_pivot, C111_shape
* `GenBendProps.v`
  * D N F: C194_bend, C194_domain, C195_field_index_refuted, C195_path_refuted, C195_position_refuted
* `HistProps.v`
  * none: C50_range_partial
  * D F: C49_bad_width, C49_beyond, C49_empty_range, C49_hist, C49_no_bins, C49_slices, C50_accesses_refuted, C50_default_refuted, C50_values_partial, C99_defined_refuted, C99_upper_end_refuted, C173_counts
* `HollowDirProps.v`
  * D F: C251_outer_radius_refuted
  * D N F: C251_full_current_refuted, C252_both_calls, C252_lhc_profile_refuted
  * D N F C: C247_no_torque, C247_towards, C248_offset_lens_refuted, C248_torque_refuted
* `HollowLensProps.v`
  * D N F C: C244_alone, C244_inside, C244_only_angles, C245_perfect_profile, C246_measured_profile
* `HollowModeProps.v`
  * none: C250_radii_refuted, C261_sigma_refuted
  * D: C250_modes
  * D F: C255_fixed, C255_sweep, C256_range_left_refuted, C256_zero_turns_refuted
  * D N F: C259_formula, C259_slow_proton_refuted, C259_velocity_refuted, C260_exists, C260_rows, C261_lower_end_refuted, C261_range_refuted
  * D N F C: C249_total, C249_turns, C250_invalid_mode_refuted, C253_turnskip, C254_ac_factor, C254_not_set, C257_diffusive, C257_others, C258_steps_refuted
* `InterpProps.v`
  * D F: C10_bad_range_outside, C10_single_point_undefined, C10_straight_line_between_neighbours, C10_supply_order_irrelevant, C10_tabulated_value, C11_right_end_refuted, C59_end_point_refuted, C59_order_reduced_refuted, C132_equally_spaced, C132_extrapolation, C153_history_irrelevant, C153_inner_tabulated_value, C153_mean_of_two_polynomials
* `JawProps.v`
  * D N F: C81_no_length, C81_one_sided, C81_tapered, C81_two_sides, C81_unaligned, C82_entrance_refuted, C82_error_refuted, C82_narrowing_refuted, C168_errors
* `KlystronProps.v`
  * D N F C: C46_cavities_stay_refuted, C46_scaling_partial, C46_vector_sum_refuted, C46_zero_refuted, C94_balanced, C94_construction, C94_setting, C94_shares
* `LUProps.v`
  * D F: C51_lumatrix_refuted, C51_singular_refuted, C114_errors, C114_inverse, C114_short, C114_solve, C115_determinant, C115_never_zero_refuted
* `LatFunProps.v`
  * D N F C: C224_rows, C224_total, C225_twiss
* `LatMoreProps.v`
  * D N F C: C236_refuted, C237_orbit, C237_total, C238_forced, C238_unstable, C239_refuted
* `LatPhaseProps.v`
  * D F: C242_additive, C242_phase, C243_refuted
  * D N F C: C240_twiss, C241_refuted
* `LatTableProps.v`
  * none: C232_refuted, C232_size
  * D: C232_printed, C232_value
  * D F: C229_added, C229_columns, C229_sets, C229_settings, C233_position, C234_between, C234_mean, C234_path
  * D N F: C234_rms, C235_refuted
  * D N F C: C230_rows, C230_total, C231_refuted
* `LatTwissProps.v`
  * D N F C: C226_phase, C226_start, C227_periodic, C228_invariant
* `LatticeProps.v`
  * none: C15_reversed_beamline_refuted, C15_reversed_pair_refuted, C61_patch_frame_refuted, C133_index_range, C133_whole_beamline, C134_documented, C134_selection_exact, C135_index_query, C154_extract_all, C154_extract_components
  * D: C16_order_refuted, C16_overlap_refuted, C16_single_frame_refuted
  * D F: C17_appended_frame_index_refuted, C17_unbalanced_refuted, C19_iterator_refuted, C19_negative_position_refuted, C62_installed_refuted, C135_beamline_index, C135_lattice_is_call_order, C135_repository, C137_install_exact, C137_length_refused
* `LinacProps.v`
  * D N F: C380_acceleration, C381_defined, C382_steps_refuted, C383_ends, C383_undo, C384_not_full_refuted, C385_off_refuted, C386_displacement_refuted, C387_kick, C388_turned, C389_settings, C390_position
  * D N F C: C389_phasor, C390_error
* `LossMapProps.v`
  * D: C88_detailed
  * D F: C42_first_twice_refuted, C42_totals_refuted, C42_twice_refuted, C87_bin, C87_ends, C87_negative_refuted, C87_record, C87_temperature, C89_merged, C89_runs, C89_sorting, C89_totals
* `MadProps.v`
  * D N F: C48_lengths_refuted, C48_positions_partial, C48_unknown_refuted, C121_positions, C122_bend, C122_cavity, C122_drift, C122_kickers, C122_momentum, C122_multipoles, C122_one_face_refuted, C122_plain, C122_rbend, C122_solenoid, C122_straight_refuted, C122_thin_refuted, C123_frames, C123_same_name_refuted, C123_unclosed, C124_after_exception_refuted, C124_append_refuted, C176_successive
* `MaterialDataProps.v`
  * none: C290_few, C290_separated, C290_white, C290_words, C292_assigned, C292_copied
  * D: C290_set, C291_default, C291_present, C291_refuted
  * D F: C292_refuted, C292_refuted_assign, C292_updated, C293_given, C293_update, C294_refuted
  * D F C: C293_fits
* `MaterialProps.v`
  * D F: C279_accepts, C279_rejects, C282_single
  * D F C: C279_averages, C280_scale, C281_order, C283_between
* `MaterialStdProps.v`
  * D F: C295_table, C296_refuted, C296_refuted_copy, C297_refuted, C298_refuted, C298_shifted, C300_measured
* `MaterialTableProps.v`
  * none: C289_back, C289_names
  * D F: C285_refuted_few, C285_refuted_many, C286_arguments, C286_failed, C286_frame, C286_frame_w, C286_refuted, C288_refuted, C299_by_number, C299_unknown
  * D F C: C284_by_weight, C287_nucleus, C288_blind, C288_equal
* `MultiNormPosProps.v`
  * D N F: C456_taken
* `MultiNormProps.v`
  * D N F: C452_dimension, C452_factor, C453_moments, C454_flat_refuted, C455_positive
* `OpticsProps.v`
  * D: C147_product_sizes
  * D F: C36_moments_at_momentum_refuted, C36_transverse_map_refuted, C74_plane_identity_refuted, C145_roll, C147_at_reference, C147_chromatic, C147_drift_moments4, C147_drift_moments6, C147_drift_particle, C147_moments, C147_moments_at_momentum, C147_moments_moved, C147_momentum_dependence, C147_planes, C147_product
  * D N F: C35_solenoid_no_strength_refuted, C75_bend_refuted, C145_drift, C145_pole_face, C145_quadrupole, C145_roll_angle, C145_sector_bend, C145_solenoid, C145_too_small, C146_drift, C146_no_strength, C146_quadrupole, C146_sector_bend, C146_solenoid, C146_solenoid_zero_length, C146_there_and_back, C146_weak_limit, C146_zero_length, C162_bend, C162_drift, C162_quadrupole, C162_solenoid
  * D N F C: C34_solenoid_refuted
* `OrbitFindProps.v`
  * D F: C217_dispersion, C218_refuted, C219_count, C219_refuted
  * D N F: C220_constant, C220_rms
* `OrbitMoreProps.v`
  * none: C223_refuted
  * D F: C216_settings, C222_linear, C222_refuted, C223_set
  * D N F: C221_refuted
* `OrbitProps.v`
  * D F: C215_between, C215_error, C215_product, C215_similar, C215_turn, C216_carried, C216_found, C216_kept
* `PoleFacesProps.v`
  * none: C206_start
  * D: C206_run, C206_step, C207_null_refuted, C207_one_face_refuted, C207_rotate_refuted, C207_self_refuted
* `ProcessProps.v`
  * none: C13_priority_order, C13_removal, C13_where_added, C60_remove_answer_partial, C60_remove_answer_refuted
  * D F: C14_active_process_sees_all, C14_integrated_length, C14_steps_cover_component, C14_tracking_terminates, C14_zero_step_never_ends
* `RFMapProps.v`
  * D N F: C77_plane_split_refuted, C77_sparse_damping_refuted, C165_plane_damping, C165_plane_edges, C165_sparse_damping, C165_sparse_on_crest, C165_sparse_planes
  * D N F C: C77_matrix_damping_refuted, C77_standing_refuted, C164_energy_gain, C164_no_frequency, C164_no_length, C164_off, C164_transverse, C165_matrix_damping, C165_matrix_longitudinal, C165_matrix_split, C165_standing
* `RangesProps.v`
  * D F: C09_equality, C09_range_check, C09_range_order_irrelevant, C09_unbounded_and_fixed
* `RingProps.v`
  * none: C12_one_turn, C12_ring_inverse, C12_ring_postfix, C12_ring_steps
* `RotProps.v`
  * D F: C63_comparison_partial, C63_comparison_refuted
  * D N F: C30_rotations_are_matrices, C30_type_tests, C31_identity_test_refuted, C33_particles_move_as_rays, C33_ray_determines, C33_successive_is_composed, C64_identity_test_refuted, C144_elementary, C144_group_of_motions, C144_identity_test, C144_rigid, C155_plane_group
  * D N F C: C32_lift_agrees_partial, C32_lift_refuted
* `SMPConvProps.v`
  * D F: C434_frames, C435_roll_refuted, C435_test_refuted, C436_grid, C437_charge_refuted, C438_bin, C438_cells, C438_charge, C438_limits, C439_all, C440_below_refuted, C440_last_refuted, C441_spread_refuted
  * D N F C: C435_which_refuted
* `SMPWakeProps.v`
  * none: C433_empty_refuted
  * D F: C428_slices, C429_true_partial, C429_twice_refuted, C430_momenta, C431_moments_refuted, C432_balance_refuted
* `ScatterLoopProps.v`
  * D N F: C310_refuted, C311_through, C312_once, C312_refuted, C313_refuted, C313_slow, C314_ends, C314_inside
  * D N F C: C315_refuted
* `ScatterMediumProps.v`
  * D N F C: C316_spread, C317_kept, C317_refuted_loss, C317_refuted_straggle, C318_refuted, C318_values, C319_refuted, C320_same
* `ScatterPathProps.v`
  * D N F C: C302_in_collimator, C306_in_collimator, C316_in_collimator, C317_in_collimator, C322_free_path, C322_unset, C323_fresh
* `ScatterProps.v`
  * none: C308_inelastic
  * D F: C301_refuted, C301_refuted_new, C302_given, C306_choice, C307_refuted
  * D N F C: C303_later, C303_refuted, C304_in_use, C305_refuted, C306_acts, C306_defined, C308_exchange, C309_on_momentum, C309_refuted, C321_cross_sections, C321_rejects
* `SmpLensProps.v`
  * D F: C166_thin, C166_thin_dipole
  * D N F: C78_rotation_refuted, C78_thin_refuted, C166_edge, C166_rotation, C166_thick, C166_thick_dipole
* `SparseMapProps.v`
  * none: C148_too_many_terms
  * D: C148_sparse_outside
  * D F: C36_copy_refuted, C36_to_matrix_refuted, C74_second_order_partial, C74_second_order_refuted, C148_sparse_acts, C148_sparse_array, C148_sparse_bunch, C148_sparse_moments, C148_sparse_of_matrix, C161_drift, C161_roll, C163_drift, C163_sextupole
  * D N F: C72_longitudinal_refuted, C72_solenoid_refuted, C76_quadrupole_refuted, C161_pole_face, C161_quadrupole, C161_sector_bend, C161_solenoid, C163_quadrupole, C163_sector_bend_linear
* `SpinBunchProps.v`
  * none: C275_erase_end, C277_closes_up, C277_refuted
  * D F: C273_refuted, C274_alone, C274_enter, C274_one, C274_zero, C276_refuted, C276_sorted, C278_bound, C278_mean
  * D N F: C275_pairs, C275_run, C277_undefined
* `SpinEdgeProps.v`
  * D N F: C267_design
  * D N F C: C266_refuted, C268_no_momentum, C268_refuted, C269_refuted, C270_thin, C271_steps, C272_inside, C272_refuted
* `SpinProps.v`
  * D N F: C262_transform_keeps, C264_step, C265_numbers, C265_stopped
  * D N F C: C262_length, C262_step_keeps, C263_precession, C263_solution, C264_determined
* `StringPatternProps.v`
  * none: C01_constructor_depth, C01_match_sound, C01_match_terminates_without_ub, C02_match_complete_refuted, C57_print_refuted, C130_literal_exact, C130_match_complete, C151_print_equivalent
* `SupportProps.v`
  * D N F: C54_bent_girder_refuted, C54_girder_partial, C54_one_end_refuted, C106_follows, C127_copy_refuted, C127_girder_copy_partial, C128_girder_ends
  * D N F C: C107_mover
* `SurveyProps.v`
  * D F: C39_bisect, C39_four, C39_limit, C39_turns, C83_absolute, C83_distance, C83_inconsistent, C83_points, C83_refused
  * D N F: C39_rectangle
* `SympIntProps.v`
  * D N F: C177_bend, C177_combined, C177_domain, C177_drift, C177_quadrupole, C178_bend, C178_combined, C178_drift, C178_quadrupole, C179_bend, C179_combined, C179_drift, C179_kick, C179_pole_face, C179_quadrupole, C186_roll_back
  * D N F C: C177_arc, C178_arc, C178_magnet, C179_arc, C179_bend_step, C180_gradient_refuted, C180_no_dipole_refuted, C180_tiny_tilt_refuted, C186_bend
* `SympProps.v`
  * D F: C112_half_turn_refuted, C112_symplectic, C112_unchanged
* `SympRectProps.v`
  * D N F: C179_cavity, C184_travelling, C187_on_momentum
  * D N F C: C181_steering_refuted, C182_area_refuted, C183_bend, C183_multipole, C183_next_bunch, C184_cells, C184_off, C184_standing, C185_determinant_partial, C185_determinant_refuted, C185_particles, C187_area, C187_empty, C187_kicked, C187_kicked_symplectic, C187_quadrupole, C187_thin
* `SympStepProps.v`
  * D F: C190_matched
  * D N F: C190_face, C190_hard_edge
  * D N F C: C188_skew_refuted, C188_tiny_skew_refuted, C189_rotated, C189_split, C189_thin, C190_kicked, C190_plain, C190_tilted
* `SynchRadProps.v`
  * D F: C411_null_refuted, C412_components
  * D N F: C404_energy, C405_direction, C406_adjust_refuted, C407_angles_refuted, C408_points, C409_spacing, C410_split_refuted, C411_empty_refuted
* `TMatProps.v`
  * none: C116_block, C116_column, C116_ranges, C116_reported, C116_reversed_refuted, C116_row
  * D: C52_dot_lengths_refuted, C52_print_refuted, C116_block_write, C116_column_write, C116_read_whole, C116_row_write, C117_identity, C118_access, C118_dot, C118_matrix_access, C118_matrix_ops, C118_print, C118_vector_ops
  * D F: C52_minus_refuted, C52_product_refuted, C117_apply, C117_congruence, C117_gemm, C117_gemv, C117_gemv_scale_refuted, C117_rectangular, C117_times, C118_compare, C118_named
* `ThinIntProps.v`
  * none: C208_no_face
  * D F: C208_drift, C208_drift_steps
  * D N F: C208_bend, C208_charge, C208_face, C208_field_kept, C208_no_step, C208_same_faces, C208_same_momentum, C208_straight, C208_wrong_way
* `ThinOtherProps.v`
  * D F: C213_thin, C213_track, C213_whole, C214_exit_refuted, C214_repeated_refuted
  * D N F: C211_angular, C211_off, C211_same_momentum, C211_solenoid, C211_steps, C212_neutral_refuted, C212_weak_refuted
  * D N F C: C210_balance_refuted, C210_gradient_refuted
* `ThinRectProps.v`
  * D N F C: C209_charge, C209_empty, C209_field_kept, C209_kicked, C209_like_symplectic, C209_quadrupole, C210_neutral_refuted, C210_off_refuted, C210_thin_refuted
* `TrackerProps.v`
  * none: C139_register, C139_replaced_set
  * D: C21_marker_refuted
  * D F: C21_question_after_failure_refuted, C21_step_answer_refuted, C22_tiny_step_refuted, C23_minimum_refuted, C24_never_refuted, C24_repeated_refuted, C139_refused_before_choice, C139_state_machine, C139_unknown, C140_once, C141_bad_counts, C141_equal_steps, C141_triggers, C142_count, C142_once, C142_thin
* `TrackingProps.v`
  * none: C20_injection_refuted, C20_stepping_refuted, C68_run_again_refuted, C138_each_component_once, C138_interrupted, C138_refusals, C138_run, C138_run_and_turns, C138_stepping, C138_track_bunch, C138_turns, C158_run_again, C158_unusable_afterwards
* `TransBendProps.v`
  * D N F: C201_charge_bend, C201_field_kept, C201_gradient_map, C201_kicked, C201_maps, C201_plain, C201_same_momentum, C201_straight, C201_wrong_way, C202_tolerance_refuted
  * D N F C: C201_charge_straight, C202_gradient_refuted
* `TransFaceProps.v`
  * D N F: C203_face, C203_level, C203_missing, C203_outcome, C203_pair, C203_tilted, C203_upright, C204_charge_refuted, C204_no_faces_refuted, C204_tiny_tilt_refuted
  * D N F C: C205_tilt_refuted
* `TransIntProps.v`
  * D F: C198_drift, C198_drift_steps
  * D N F C: C198_empty, C198_field_kept, C198_kicked, C198_no_step, C198_quadrupole, C198_sextupole, C198_sextupole_with_others, C198_thin, C198_with_others, C199_quadrupole, C199_sextupole
* `TransSkewProps.v`
  * D N F: C199_kick
  * D N F C: C200_kick_refuted, C200_quadrupole_refuted, C200_sextupole_refuted
* `TuneProps.v`
  * D N F: C371_fft, C372_power_refuted, C379_interpolation
  * D N F C: C372_turns_refuted, C373_tune_refuted, C374_at_rest_refuted, C375_last_bins_refuted, C375_rotating_refuted, C376_no_diffusion_refuted, C377_lost, C378_once, C378_tunes
* `TuneRealProps.v`
  * D N F C: C373_between_refuted
* `WakeProps.v`
  * D F: C102_causal, C102_continuous, C102_head, C103_formula, C105_none, C105_once
  * D N F: C100_truncation_refuted, C101_default_filter_refuted, C103_momentum_partial, C103_momentum_refuted, C104_csr_refuted, C174_charge, C174_kept, C175_deceleration, C175_defined, C175_kick, C175_nothing_left
* `WatchProps.v`
  * none: C391_once, C391_reported, C392_index, C393_cull, C394_late_refuted, C395_halt, C396_defined, C396_int_refuted, C396_late_refuted, C396_lines, C397_files, C398_elements, C399_no_bunch_refuted, C403_alternatives_refuted
  * D: C392_index_refuted
  * D N F: C400_errors, C401_small_refuted, C402_added, C402_both_refuted
