{"id": "C01", "title": "A name pattern never matches a name outside its glob meaning", "statement": "If StringPattern(p).Match(s) returns true then s belongs to the language of p read as a glob: '*' stands for any (possibly empty) sequence of characters and every other character for itself; when '|' separates at least two non-empty parts of p, the parts are alternatives and one of them must contain s (otherwise '|' stands for itself). Match always returns.", "quantifier": "all pattern strings p and all subject strings s", "why_tests_cant": "Patterns and subjects are unbounded strings; a false positive needs a particular alignment of repeated fragments that no finite test list can exclude.", "anchors": ["Merlin++/StringPattern.cpp: StringPattern::StringPattern, StringPattern::Match", "Merlin++/StringPattern.h"]}
{"id": "C02", "title": "A name pattern matches every name in its glob meaning", "statement": "If s belongs to the glob language of p (as in C01) then StringPattern(p).Match(s) returns true; in particular for patterns without wildcard, with a single leading/trailing/inner wildcard, and for alternations of those.", "quantifier": "all pattern strings p and all subject strings s", "why_tests_cant": "Missed matches occur only for subjects in which a literal fragment re-occurs; the set of such pairs is infinite.", "anchors": ["Merlin++/StringPattern.cpp: StringPattern::Match", "Merlin++/AcceleratorModel.cpp: ExtractModelElements"]}
{"id": "C03", "title": "A data table is always rectangular", "statement": "After any sequence of AddColumn, AddRow, Set, SetWithStr and header operations, successful or failing, every column of a DataTable has exactly Length() cells, column names are unique, every column name resolves to a column of its declared type, and a newly added column or row holds the type's default value.", "quantifier": "all operation sequences on a table, including those containing failing calls", "why_tests_cant": "The invariant relates four containers that are updated separately by every call; a violating history may be arbitrarily long.", "anchors": ["Merlin++/DataTable.cpp: DataTable::AddColumn, DataTable::AddRow", "Merlin++/DataTable.h: DataTable"]}
{"id": "C04", "title": "A data table behaves like a map from (column,row) to a typed value", "statement": "A value written by Set_d/Set_i/Set_s (or Set/SetWithStr) is what the matching Get returns afterwards, every other cell and every header value is unchanged, and column order as listed by the table is the order of addition.", "quantifier": "all tables, all cells, all values, all interleavings of reads and writes", "why_tests_cant": "Aliasing between columns (three storage vectors plus a name index) can only be excluded for all tables by proof.", "anchors": ["Merlin++/DataTable.cpp: Get_d, Set_d, SetWithStr, GetAsStr, HeaderAdd*, HeaderGet*"]}
{"id": "C05", "title": "Bad table accesses are reported and change nothing", "statement": "Access to a column that does not exist or a row at or beyond Length() reports out_of_range, access under the wrong type reports WrongTypeException, adding a column that exists reports invalid_argument and a type other than d, i, s reports WrongTypeException; in every such case the table is left exactly as it was. Conversely no error is raised for existing columns, rows and right types.", "quantifier": "all tables and all arguments", "why_tests_cant": "The claim is an equivalence over the whole argument space together with a frame condition.", "anchors": ["Merlin++/DataTable.cpp: AddColumn, Get_*, Set_*"]}
{"id": "C06", "title": "Adding a row with values is all-or-nothing", "statement": "AddRow(v1,...,vk) either appends one row holding exactly the given values or fails leaving the table unchanged.", "quantifier": "all tables and all argument lists", "why_tests_cant": "The failing histories depend on number and type of arguments relative to the columns; atomicity is a statement about every failure point.", "anchors": ["Merlin++/DataTable.h: AddRow(T... values) variadic template"]}
{"id": "C07", "title": "A table written in TFS form reads back as the same table", "statement": "For a table with at least one column (or no rows) whose names contain no white space or quotes and are not empty, whose string values are not empty and contain no double quote or newline, and whose numbers survive the decimal format, reading the TFS text written by the writer gives back a table that cannot be told apart from the original by any later sequence of operations: same header entries, column names, types, order and cells.", "quantifier": "all such tables, of any number of columns, rows and header entries, and all later operation sequences", "why_tests_cant": "Round-trip over unbounded tables and strings; the writer and reader only communicate through text tokenisation.", "anchors": ["Merlin++/DataTableTFS.cpp: DataTableWriterTFS::Write, DataTableReaderTFS::Read, split_line"]}
{"id": "C08", "title": "Any string cell survives the TFS round trip", "statement": "The round trip of C07 also holds when string cells or header strings are empty or contain quotes, spaces or newlines.", "quantifier": "all string values", "why_tests_cant": "Failing values are particular strings (empty, quote) in particular positions.", "anchors": ["Merlin++/DataTableTFS.cpp: split_line, Write"]}
{"id": "C09", "title": "A numerical range accepts exactly the values between its limits", "statement": "For NumericalRange(a,b) the membership test and Check agree: Check returns 'within' exactly for values between min(a,b) and max(a,b) inclusive, 'below'/'above' otherwise, irrespective of the order of a and b; an unbounded range accepts everything.", "quantifier": "all pairs of limits and all values", "why_tests_cant": "Boundary behaviour at both ends for all limit pairs, including the sentinel pair used for 'unbounded'.", "anchors": ["Merlin++/Range.h: NumericalRange"]}
{"id": "C10", "title": "Interpolation reproduces its data and stays between neighbours", "statement": "Linear interpolation on arbitrarily spaced data returns the tabulated value at every tabulated abscissa, lies between the two neighbouring ordinates elsewhere, returns exactly the straight line through the neighbours, does not depend on the order in which the points were supplied, and raises BadRange exactly outside the tabulated interval.", "quantifier": "all data sets with at least two distinct abscissae, all arguments", "why_tests_cant": "The binary search must find the right segment for every table length and every query.", "anchors": ["Merlin++/Interpolation.cpp: ArbSpacedData, ArbSpacedData::ValueAt"]}
{"id": "C11", "title": "Equally spaced interpolation is defined on its whole closed interval", "statement": "Evaluating an equally spaced table at any x in [xmin, xmax] only reads tabulated ordinates and returns the linear interpolant.", "quantifier": "all table sizes, all x in the closed interval", "why_tests_cant": "The failing point is the single right end point of the interval.", "anchors": ["Merlin++/Interpolation.cpp: EqualSpacedData"]}
{"id": "C12", "title": "Stepping around a ring visits every component cyclically", "statement": "Incrementing a ring iterator n times from position k on a ring of N elements is at position (k+n) mod N, decrementing undoes incrementing, and N increments return to the start having visited every element exactly once.", "quantifier": "all non-empty rings, all start positions, all numbers of steps", "why_tests_cant": "Unbounded numbers of turns and ring sizes.", "anchors": ["Merlin++/ring_iterator.h", "Merlin++/AcceleratorModel.cpp: GetRing"]}
{"id": "C13", "title": "Bunch processes run in priority order", "statement": "After any sequence of AddProcess and RemoveProcess calls, processes with non-negative priorities added through AddProcess are executed in non-decreasing priority, equal priorities in order of addition; a process added with negative priority runs last at the time it is added; removing a process leaves the order of the others.", "quantifier": "all sequences of additions and removals", "why_tests_cant": "Order depends on whole insertion history.", "anchors": ["Merlin++/ProcessStepManager.cpp: AddProcess, RemoveProcess"]}
{"id": "C14", "title": "Step-wise tracking covers each component exactly once", "statement": "Tracking a component of length L terminates when active processes allow positive steps bounded below; the steps taken are positive, no step exceeds the maximum allowed by any active process, the steps sum to L, and every process that stays active sees all of them in order.", "quantifier": "all component lengths, all sets of processes and all their (state dependent) step limits", "why_tests_cant": "Step limits are arbitrary functions of process state; the loop count is unbounded.", "anchors": ["Merlin++/ProcessStepManager.cpp: ProcessStepManager::Track"]}
{"id": "C15", "title": "A beamline selection contains exactly the requested index range", "statement": "GetBeamline(n1,n2) yields the components with indices n1..n2 inclusive in lattice order, and reports BadRange for every pair that does not denote a non-empty range of existing indices.", "quantifier": "all lattices and all index pairs", "why_tests_cant": "Boundary pairs for all lattice sizes.", "anchors": ["Merlin++/AcceleratorModel.cpp: GetBeamline(size_t,size_t)"]}
{"id": "C16", "title": "Selecting a beamline by name patterns returns the documented occurrences", "statement": "GetBeamline(pat1,pat2,n1,n2) starts at the n1-th component matching pat1 and ends at the n2-th component matching pat2 (counted along the lattice), and reports BadRange iff these do not exist in order.", "quantifier": "all lattices, patterns and occurrence numbers", "why_tests_cant": "Counting errors appear only when the two patterns overlap.", "anchors": ["Merlin++/AcceleratorModel.cpp: GetBeamline(const string&,const string&,int,int)"]}
{"id": "C17", "title": "Lattice construction preserves order, length and indices", "statement": "For any well-nested sequence of NewFrame/AppendComponent/AppendFrame/EndFrame calls, the model's flat lattice is the sequence of appended components in call order, the i-th component carries beamline index i, index queries return exactly the matching indices in increasing order, and unbalanced nesting is reported.", "quantifier": "all call sequences", "why_tests_cant": "Arbitrary nesting depth and length.", "anchors": ["Merlin++/AcceleratorModelConstructor.cpp", "Merlin++/AcceleratorModel.cpp: GetIndexes"]}
{"id": "C18", "title": "Frames are laid out contiguously and lengths add up", "statement": "After construction the i-th element of a sequence frame starts where the (i-1)-th ended, the sequence spans exactly the sum of the lengths, whatever origin convention (entrance, centre, exit), and the position of a component in any enclosing frame is the sum of local positions.", "quantifier": "all frame trees, lengths and origin conventions", "why_tests_cant": "Trees of any depth and real-valued lengths.", "anchors": ["Merlin++/SequenceFrame.cpp: ConsolidateConstruction", "Merlin++/LatticeFrame.cpp: GetPosition"]}
{"id": "C19", "title": "Installing an element splits exactly one drift and keeps the rest", "statement": "InstallModelElement of a zero-length element at a position strictly inside a drift replaces that drift by two drifts whose lengths add to the old one with the element between them at the requested position; all other components keep their order and positions, the total length is unchanged, and positions not inside a drift are reported without change.", "quantifier": "all lattices and positions", "why_tests_cant": "Arbitrary lattices; the frame condition ranges over all other components.", "anchors": ["Merlin++/AcceleratorModel.cpp: InstallModelElement"]}
{"id": "C20", "title": "Tracking visits each component once per turn in order with its frame transforms", "statement": "For a beamline of N components and T turns, a run applies, per component in lattice order, entrance transform, component tracking, exit transform, in that order, exactly once per turn; injection-on-axis omits only the very first entrance transform.", "quantifier": "all beamlines, all turn numbers, all placements of patches and misalignments", "why_tests_cant": "Unbounded sequences of events, order sensitive.", "anchors": ["Merlin++/TrackingSimulation.cpp: PerformTracking, StepComponent", "Merlin++/TTrackSim.h"]}
{"id": "C21", "title": "The component tracker only integrates in a legal state", "statement": "The tracker state machine accepts exactly: select an integrator, then start tracking, then steps until the component is exhausted or reset; TrackStep before selection is refused; a component without integrator is reported as unknown, and a step returns the remaining length.", "quantifier": "all call sequences", "why_tests_cant": "Histories of calls of any length.", "anchors": ["Merlin++/ComponentTracker.cpp", "Merlin++/ComponentTracker.h"]}
{"id": "C22", "title": "Entrance and exit effects are applied exactly once", "statement": "Whatever positive steps a component is divided into (summing to its length), its entrance map is applied once, before the body, and its exit map once, after the body; the body maps are applied in order for exactly the given steps.", "quantifier": "all component lengths and all partitions into positive steps", "why_tests_cant": "All partitions of a real interval.", "anchors": ["Merlin++/ComponentIntegrator.h: TIntegratorBase / Track"]}
{"id": "C23", "title": "Dividing a component gives equal steps no shorter than the minimum", "statement": "A ComponentDivider with n steps and minimum step m triggers exactly at the end of each of k equal steps covering the component, where k = n unless that makes steps shorter than m.", "quantifier": "all lengths, step counts and minimum steps", "why_tests_cant": "Real-valued quantities and integer truncation.", "anchors": ["Merlin++/ComponentStepper.cpp: ComponentDivider"]}
{"id": "C24", "title": "Monitors measure exactly once per passage", "statement": "A monitor with measurement point anywhere in its closed length takes exactly one measurement per passage, at that point, whatever the step division.", "quantifier": "all lengths, measurement points and step partitions", "why_tests_cant": "All partitions of a real interval, boundary measurement points.", "anchors": ["Merlin++/StdIntegrators.cpp: MonitorCI::TrackStep"]}
{"id": "C25", "title": "Bunch statistics are the exact sample mean and covariance", "statement": "For every non-empty bunch GetCentroid is the arithmetic mean, GetMoments the population covariance about that mean (symmetric, non-negative diagonal, Cauchy-Schwarz), independent of particle order, and translation of all particles shifts the mean only.", "quantifier": "all bunches (any number of particles, any coordinates), in exact arithmetic", "why_tests_cant": "Unbounded numbers of particles; single pass running updates versus definition.", "anchors": ["Merlin++/ParticleBunch.cpp: GetMoments, Mean, GetCentroid"]}
{"id": "C26", "title": "Projected moments do not depend on the caller's accumulator", "statement": "GetProjectedMoments returns the covariance of the two chosen coordinates regardless of what the result object contained before the call.", "quantifier": "all bunches and all prior contents of the result object", "why_tests_cant": "The failing cases need re-use of a result object.", "anchors": ["Merlin++/ParticleBunch.cpp: GetProjectedMoments", "Merlin++/SMPBunch.cpp: GetProjectedMoments"]}
{"id": "C27", "title": "Changing the reference momentum or time changes no physical particle", "statement": "AdjustRefMomentum / AdjustRefMomentumToMean / AdjustRefTimeToMean keep every particle's absolute momentum P0(1+dp), respectively absolute arrival time, and leave the mean relative deviation zero afterwards.", "quantifier": "all bunches and all adjustments with non-vanishing factor", "why_tests_cant": "Conservation for all particles and reals.", "anchors": ["Merlin++/ParticleBunch.cpp: AdjustRefMomentum, AdjustRefMomentumToMean, AdjustRefTimeToMean", "Merlin++/SMPBunch.cpp"]}
{"id": "C28", "title": "Distributing a bunch over processes loses no particle", "statement": "For any number of processes and particles, distribution assigns every particle to exactly one process, gathering restores the original multiset, and the master keeps the remainder.", "quantifier": "all particle counts and process counts", "why_tests_cant": "Division remainder for all pairs.", "anchors": ["Merlin++/ParticleBunch.cpp: distribute, gather"]}
{"id": "C29", "title": "Packed symmetric matrices are true symmetric matrices", "statement": "Writing element (i,j) of a covariance matrix is read back at (i,j) and (j,i) and changes no other element, for all i,j within the dimension; the packed storage is used completely and without overlap.", "quantifier": "all dimensions and index pairs", "why_tests_cant": "Bijection of index arithmetic for every dimension.", "anchors": ["Merlin++/TCovMtrx.h"]}
{"id": "C30", "title": "Rotations compose as matrices, whatever their internal representation", "statement": "The product, inverse and application of rotations built from identity, axis rotations and general rotations in any combination equal matrix product, transpose and matrix-vector application; every rotation so obtained is orthogonal with determinant 1.", "quantifier": "all expression trees of rotations", "why_tests_cant": "Double dispatch over all representation pairs and arbitrary nesting depth.", "anchors": ["Merlin++/AxisRotations.cpp", "Merlin++/GeneralRotation.cpp", "Merlin++/IdentityRotation.cpp", "Merlin++/Rot3Drep.cpp", "Merlin++/Rotation3D.h"]}
{"id": "C31", "title": "3-D transformations form a group acting on points and vectors", "statement": "(A*B)(p)=A(B(p)), A.inv() undoes A on both sides, composition is associative, distances are preserved, and the identity test holds only for transformations that move nothing.", "quantifier": "all transformations and points, in exact arithmetic", "why_tests_cant": "Algebraic laws over reals.", "anchors": ["Merlin++/Transform3D.cpp", "Merlin++/Transform3D.h"]}
{"id": "C32", "title": "A planar transformation lifted to 3-D acts the same in the plane", "statement": "For every 2-D transformation t and point (x,y), the 3-D transformation built from t maps (x,y,0) to the point t(x,y) in the plane.", "quantifier": "all 2-D transformations and points", "why_tests_cant": "Sign conventions show up only with both rotation and offset.", "anchors": ["Merlin++/Transform3D.h: Transform3D(const Transform2D&)", "Merlin++/Transform2D.h", "Merlin++/MagnetMover.cpp"]}
{"id": "C33", "title": "Frame changes act on particles as on straight rays", "statement": "Applying a transformation to a phase-space vector gives the intersection of the particle's ray with the new reference plane and the new slopes; successive application equals application of the composed transformation; longitudinal coordinates and identity are untouched.", "quantifier": "all transformations with non-vanishing forward direction and all particles", "why_tests_cant": "Rational identities over reals plus branch agreement.", "anchors": ["Merlin++/PSvectorTransform3D.cpp", "Merlin++/SMPTransform3D.cpp"]}
{"id": "C34", "title": "Linear transport matrices are symplectic", "statement": "The 4x4 / 6x6 first-order matrices for drift, quadrupole, sector bend (transverse), solenoid, pole-face rotation and coordinate roll are symplectic for all parameter values, in all branches.", "quantifier": "all lengths, strengths, curvatures and angles", "why_tests_cant": "Trigonometric identities for all reals and all sign branches.", "anchors": ["Merlin++/TransportMatrix.cpp"]}
{"id": "C35", "title": "Transporting through two pieces equals transporting through the whole", "statement": "For drift, quadrupole and solenoid, R(l1+l2) = R(l2) R(l1) for the same strength, and R(0) is the identity; the limit of zero strength is the drift.", "quantifier": "all lengths and strengths", "why_tests_cant": "Addition theorems for all reals; degenerate strengths are measure-zero for tests.", "anchors": ["Merlin++/TransportMatrix.cpp: SBR, SolR, Drift, QuadrupoleR", "Merlin++/SymplecticIntegrators.cpp"]}
{"id": "C36", "title": "Linear maps act identically on particles and on beam moments", "statement": "Applying a linear map to every particle and then taking moments equals applying the map to the moments (mean R m, covariance R S R^T); sparse maps act as the matrix they are built from.", "quantifier": "all maps, bunches and moments", "why_tests_cant": "Unbounded bunches, sums over sparse representations.", "anchors": ["Merlin++/RMap.h", "Merlin++/RMap.cpp", "Merlin++/MatrixMaps.cpp"]}
{"id": "C37", "title": "Aperture tests decide exactly the advertised cross-section", "statement": "Circular, rectangular, elliptical and rect-ellipse apertures with positive half axes accept (x,y) exactly when the point lies inside the open named shape, so the quick-accept shortcut never lets a point through that is outside; every aperture (also octagonal) is symmetric about both axes and accepts, with a point, the whole way from the centre to it; each table row yields the aperture its type column names.", "quantifier": "all dimensions, points and table rows", "why_tests_cant": "Exact boundary of sets in the plane for all real parameters.", "anchors": ["Merlin++/Aperture.cpp"]}
{"id": "C38", "title": "Interpolated apertures never accept a point outside both neighbours", "statement": "At any longitudinal position between two tabulated cross-sections the interpolated aperture accepts only points inside the linearly interpolated shape; quick-accept is sound and every position is defined.", "quantifier": "all tables, positions and points", "why_tests_cant": "Real-valued tables and positions.", "anchors": ["Merlin++/InterpolatedApertures.cpp"]}
{"id": "C39", "title": "Aperture survey radius is the true aperture to tolerance", "statement": "The survey's bisection returns for a star-shaped aperture a value within the tolerance of the largest open distance, never beyond its search limit, after a number of steps fixed by the tolerance.", "quantifier": "all apertures that are open on an interval [0,a) along the ray", "why_tests_cant": "All real half-widths.", "anchors": ["Merlin++/ApertureSurvey.cpp"]}
{"id": "C40", "title": "Collimation partitions the bunch", "statement": "One aperture check splits the bunch into survivors and lost particles: every particle is in exactly one set, survivors are exactly those inside the aperture (or surviving scattering), keep their relative order and coordinates, and the recorded indices are their original indices; the loss counters equal the numbers of lost particles.", "quantifier": "all bunches, apertures and scattering outcomes", "why_tests_cant": "Unbounded bunches, simultaneous list surgery on two lists.", "anchors": ["Merlin++/CollimateParticleProcess.cpp: DoCollimation"]}
{"id": "C41", "title": "Repeated aperture checks in one component are safe", "statement": "With checks requested at both entrance and exit, every check only reads coordinates recorded for particles that exist, and the numbers of lost particles of all checks add up to the total loss.", "quantifier": "all loss histories within a component", "why_tests_cant": "The failure needs losses at two planes of one component.", "anchors": ["Merlin++/CollimateParticleProcess.cpp: DoCollimation, SetCurrentComponent"]}
{"id": "C42", "title": "Loss maps account for every lost particle exactly once", "statement": "After any sequence of Dispose calls followed by Finalise, the loss counts over all entries of the loss map add up to the number of disposed particles in each of the output modes, and entries for one element and bin are merged.", "quantifier": "all sequences of lost particles and all output modes", "why_tests_cant": "Merge of adjacent records over arbitrarily long lists; first record special.", "anchors": ["Merlin++/LossMapCollimationOutput.cpp: Dispose, Finalise"]}
{"id": "C43", "title": "Channel lookup returns exactly the matching channels", "statement": "A channel query type.id.key on a beamline returns one channel per registered constructor of the element's type with matching key, for every element of the beamline whose qualified name matches, and nothing else, whatever else is registered (type names contain no dots); asking for writable channels gives the same ones, or fails if one of them is read-only. Two constructors of the same type and key cannot be registered.", "quantifier": "all registrations and queries", "why_tests_cant": "Sorted-map range search over arbitrary strings.", "anchors": ["Merlin++/ChannelServer.cpp: FindCtors, GetROChannels, GetRWChannels"]}
{"id": "C44", "title": "Writing then reading a channel array is the identity and increments add", "statement": "WriteAll followed by ReadAll returns the written vector for independent channels; IncrementAll adds component-wise; each channel only affects its own element; a saved state is restored by Reset; vectors of another length are not accepted.", "quantifier": "all arrays and vectors", "why_tests_cant": "Arbitrary lengths.", "anchors": ["Merlin++/Channels.cpp", "Merlin++/Channels.h"]}
{"id": "C45", "title": "A feedback with pulse delay n applies each correction n-1 pulses later", "statement": "With SetPulseDelay(n) the k-th Apply writes the correction computed by the (k-n+1)-th Apply (zeros before that), each computed correction is written exactly once and in order.", "quantifier": "all delays and all numbers of pulses", "why_tests_cant": "Queue behaviour over unbounded histories.", "anchors": ["Merlin++/LinearFBSystem.cpp: Apply, SetPulseDelay"]}
{"id": "C46", "title": "A klystron's voltage equals the vector sum of its cavities", "statement": "After construction and after any SetVoltage, SetPhase or SetVoltagePhasor the sum of the cavity voltage phasors equals the klystron's phasor, in both operating modes.", "quantifier": "all cavity sets with non-zero sum, all call sequences, both modes", "why_tests_cant": "Invariant over call sequences and complex values.", "anchors": ["Merlin++/Klystron.cpp"]}
{"id": "C47", "title": "Multipole components round trip and the field is their series", "statement": "Setting a component or coefficient and reading it back at the same radius returns the value and changes no other component; for every field whose scale exceeds the library's tolerance the 2-D field is the power series with those components, and excluding orders up to n removes exactly those orders; the lowest multipole is the first non-zero one.", "quantifier": "all fields, orders, radii (non-zero), points and exclusions from -1 on", "why_tests_cant": "Tests sample a few multipoles and points; the claim is for every expansion, order, radius and point.", "anchors": ["Merlin++/MultipoleField.cpp: SetComponent, GetComponent, SetCoefficient, GetCoefficient, GetField2D, LowestMultipole", "Merlin++/MultipoleField.h: SetComponent, GetComponent, SetCoefficient, GetCoefficient, GetField2D, LowestMultipole"]}
{"id": "C48", "title": "Lattice positions from an optics file are cumulative lengths", "statement": "Reading an optics table, each component's lattice position equals the sum of the lengths of all preceding rows.", "quantifier": "all tables of element rows", "why_tests_cant": "Arbitrary tables mixing all row types, including unknown and ignored.", "anchors": ["Merlin++/MADInterface.cpp: ReadComponent, ConstructModel"]}
{"id": "C49", "title": "Histogramming conserves counts", "statement": "Hist and ParticleBinList put each datum in exactly the bin containing it or count it as lost; the bin sums plus lost equal the number of data; slices are contiguous and ordered.", "quantifier": "all data sets, ranges and bin counts", "why_tests_cant": "Unbounded data and edges.", "anchors": ["Merlin++/Histogram.cpp", "Merlin++/ParticleBunchUtilities.cpp"]}
{"id": "C50", "title": "Slope filtering only reads existing bins", "statement": "ParticleBinList with a smoothing filter reads only existing bins and filter coefficients.", "quantifier": "all bin counts and filter widths", "why_tests_cant": "Out-of-range reads depend on the relation of bins and width.", "anchors": ["Merlin++/ParticleBunchUtilities.cpp: ParticleBinList", "Merlin++/WakeFieldProcess.cpp: SetFilter"]}
{"id": "C51", "title": "Solving a linear system returns its solution", "statement": "For a non-singular square matrix the LU solver returns x with M x = b, inversion returns the inverse, and singular input is reported.", "quantifier": "all dimensions and matrices, exact arithmetic", "why_tests_cant": "All sizes and pivot orders.", "anchors": ["Merlin++/TLASimp.h: LUfactor, LUsolve, InvertMatrix"]}
{"id": "C52", "title": "Vector and matrix operators have their algebraic meaning", "statement": "v-s subtracts s from every element, products of conformable matrices are the matrix product, and non-conformable operands are reported.", "quantifier": "all dimensions and values", "why_tests_cant": "Dimension combinations are unbounded.", "anchors": ["Merlin++/TMatrixLib.h"]}
{"id": "C53", "title": "Beam parameters and beam matrix determine each other", "statement": "For an uncoupled beam with positive emittances and beta functions, converting beam data to a beam matrix and back returns the same beta, alpha, emittance, dispersion and spreads.", "quantifier": "all admissible beam parameters", "why_tests_cant": "Nonlinear identities over reals.", "anchors": ["Merlin++/NormalTransform.cpp"]}
{"id": "C54", "title": "Moving a support moves what it carries", "statement": "After any sequence of offsets of its supports, the local frame transform of a mount reflects the current offsets.", "quantifier": "all sequences of support offsets and queries", "why_tests_cant": "Cached transform with dirty flags: order of moves and queries matters.", "anchors": ["Merlin++/SupportStructure.cpp: UpdateSupportTransform", "Merlin++/AcceleratorSupport.h"]}
{"id": "C55", "title": "Ground-motion mode and vibration are never combined", "statement": "At no time is ATL2D in incremental mode with a non-zero vibration; refused calls change nothing.", "quantifier": "all sequences of SetATLMode and SetVibration", "why_tests_cant": "Invariant over call histories.", "anchors": ["Merlin++/ATL2D.cpp: SetATLMode, SetVibration"]}
{"id": "C56", "title": "Element queries return exactly the elements with matching qualified name", "statement": "ElementRepository insertion, find and count agree with a set of elements keyed by identity and the glob meaning of the query.", "quantifier": "all repositories and queries", "why_tests_cant": "Arbitrary sets.", "anchors": ["Merlin++/ElementRepository.cpp"]}
{"id": "C57", "title": "A printed name pattern means the same as the original", "statement": "Writing a StringPattern to a stream produces a pattern text with the same glob language as the pattern that was constructed.", "quantifier": "all pattern strings p and all subject strings s", "why_tests_cant": "Equivalence of two languages over infinitely many subjects, for every pattern.", "anchors": ["Merlin++/StringPattern.cpp: operator<<"]}
{"id": "C58", "title": "Reading any TFS text gives a table or reports an error", "statement": "Reading an arbitrary text as a TFS table either returns a well-formed table (unique column names, all columns of the same length) or throws an exception; it never performs an undefined access.", "quantifier": "all texts", "why_tests_cant": "Ranges over every possible malformed input.", "anchors": ["Merlin++/DataTableTFS.cpp: DataTableReaderTFS::Read, split_line, type_conv"]}
{"id": "C59", "title": "Higher order interpolation reproduces its data and ignores evaluation history", "statement": "For interpolation of order two or more on arbitrarily spaced data: every evaluation inside the tabulated range is defined, the tabulated value is returned at every tabulated abscissa, and the result of an evaluation does not depend on which evaluations were made before.", "quantifier": "all data sets with distinct abscissae, all orders, all sequences of arguments", "why_tests_cant": "The object keeps a hidden position between calls; independence of all histories, and the windows chosen near the ends for every table size and order, cannot be enumerated.", "anchors": ["Merlin++/Interpolation.cpp: ArbSpacedData::ArbSpacedData, ArbSpacedData::ValueAt", "Merlin++/Interpolation.h: Method::evaluatepoly"]}
{"id": "C60", "title": "Removing a process reports whether it was present", "statement": "RemoveProcess returns true exactly when the process was in the table, and is harmless when it was not.", "quantifier": "all tables and all processes", "why_tests_cant": "Depends on the position of the process in the table; the absent case is undefined behaviour that may look harmless.", "anchors": ["Merlin++/ProcessStepManager.h: RemoveProcess", "Merlin++/ProcessStepManager.cpp: RemoveProcess"]}
{"id": "C61", "title": "Extracting components by pattern returns exactly the matches in lattice order", "statement": "ExtractComponents(pat) returns the component frames whose qualified name matches pat, in lattice order, for every lattice.", "quantifier": "all lattices (with and without component-less frames) and patterns", "why_tests_cant": "Depends on what else is in the lattice.", "anchors": ["Merlin++/AcceleratorModel.cpp: ExtractComponents, MatchName"]}
{"id": "C62", "title": "Installing an element keeps the model's bookkeeping consistent", "statement": "After InstallModelElement every frame's beamline index equals its position in the lattice, and the installed component can be found through the element repository.", "quantifier": "all lattices and positions", "why_tests_cant": "Concerns every other frame of the lattice.", "anchors": ["Merlin++/AcceleratorModel.cpp: InstallModelElement"]}
{"id": "C63", "title": "Equality and inequality of points are opposites", "statement": "For any two points or vectors in space exactly one of a==b and a!=b is true.", "quantifier": "all pairs of points", "why_tests_cant": "Only pairs closer than the tolerance but different show it.", "anchors": ["Merlin++/Space3D.h: operator==, operator!="]}
{"id": "C64", "title": "Planar transformations form a group and the identity test is exact", "statement": "(A*B)(p)=A(B(p)), A.inv() undoes A on both sides for planar transformations, and the identity test succeeds only for transformations that move no point (beyond rounding).", "quantifier": "all planar transformations and points", "why_tests_cant": "Algebraic laws over all reals; the test looks only at the sine of the angle.", "anchors": ["Merlin++/Transform2D.h", "Merlin++/Space2D.h: isZero"]}
{"id": "C65", "title": "Laying out a finished lattice never fails", "statement": "Once a tree of frames has been put together, laying it out (giving every frame its local position and its entrance and exit planes) succeeds, whatever frames it contains.", "quantifier": "all trees of frames built by appending, any origin convention, any lengths", "why_tests_cant": "Depends on shapes of trees (empty or nested sequences) and positions of centres that no finite set of lattices covers.", "anchors": ["Merlin++/SequenceFrame.cpp: ConsolidateConstruction, CalculateCachedTransforms, CalculateCentreCT"]}
{"id": "C66", "title": "Geometry transformations between two places of a frame are the motion along its axis", "statement": "The transformation a frame returns for two places along it carries the local axes at the first onto those at the second, also when the first place is further downstream (then it is the inverse), and the total and the entrance/exit transformations are those of the ends.", "quantifier": "all frames, all pairs of places, all arrangements of straight and curved components", "why_tests_cant": "Real-valued places, any number and nesting of components.", "anchors": ["Merlin++/SequenceFrame.cpp: GetGeometryTransform, GetTotalGeometryTransform, CalculateCachedTransforms", "Merlin++/ArcGeometry.cpp", "Merlin++/RectangularGeometry.cpp"]}
{"id": "C67", "title": "Displacing a frame has no effect on what merely passes through its axes", "statement": "The transformation at the entrance plane of a displaced frame, followed by the geometry of the frame and the transformation at its exit plane, equals the geometry of the frame alone; frames without displacement have identity transformations at their planes.", "quantifier": "all frames, displacements (rotations and translations) and points", "why_tests_cant": "Holds for every rigid motion and every frame geometry.", "anchors": ["Merlin++/LatticeFrame.cpp: GetBoundaryPlaneTransform, LocalBoundaryPlaneTransform"]}
{"id": "C68", "title": "A simulation can be run again after a handled exception", "statement": "When exception handling is switched on and a run ended early because a component raised one of the library's exceptions, the next run of the same simulation constructs a fresh bunch and has the effects of a first run.", "quantifier": "all lattices, all components at which the exception is raised, all settings", "why_tests_cant": "Depends on the point of failure within the lattice and within the component.", "anchors": ["Merlin++/TrackingSimulation.cpp: DoRun", "Merlin++/TTrackSim.h: TTrnsProc::InitialiseProcess", "Merlin++/ComponentTracker.cpp: SelectIntegrator"]}
{"id": "C69", "title": "A constructed bunch has the particles asked for", "statement": "Constructing a bunch of np particles from a distribution gives np particles with identities 0..np-1, the first on the given centroid, every other one accepted by the filter and displaced by the centroid; the total charge is the charge asked for.", "quantifier": "all np, distributions, filters, centroids and charges", "why_tests_cant": "Depends on every sequence of random vectors and every filter.", "anchors": ["Merlin++/ParticleBunch.cpp: ParticleBunch(size_t, const ParticleDistributionGenerator&, const BeamData&, ParticleBunchFilter*)", "Merlin++/ParticleBunch.cpp: GetTotalCharge"]}
{"id": "C70", "title": "SetCentroid places the centroid", "statement": "After SetCentroid(x0) the centroid of the bunch is x0.", "quantifier": "all bunches and all x0", "why_tests_cant": "Holds or fails for all particle numbers; a bunch already centred passes.", "anchors": ["Merlin++/ParticleBunch.cpp: SetCentroid"]}
{"id": "C71", "title": "Statistics of a sliced bunch are those of the whole", "statement": "GetCentroid and GetMoments of a bunch of slices are the charge-weighted mean and the total covariance (spread between slices plus mean spread inside them), independent of what the result object held before.", "quantifier": "all bunches of slices with non-zero charge, all prior contents", "why_tests_cant": "Needs all numbers of slices and all prior contents.", "anchors": ["Merlin++/SMPBunch.cpp: GetMoments, GetProjectedMoments, GetCentroid, AddParticle"]}
{"id": "C72", "title": "The two families of first-order elements agree", "statement": "The sparse map of a drift, quadrupole, sector bend, solenoid, pole face or coordinate roll acts as the dense matrix of the same element, for the same parameters.", "quantifier": "all lengths, strengths, curvatures, angles", "why_tests_cant": "Two independent implementations over all real parameters and branches.", "anchors": ["Merlin++/TransportRMaps.cpp", "Merlin++/TransportMatrix.cpp"]}
{"id": "C73", "title": "The chromatic matrix of a quadrupole is the momentum derivative of its transfer matrix", "statement": "For a quadrupole of non-zero length and strength the chromatic matrix is, element by element, the derivative of the transfer matrix with respect to the relative momentum deviation, the field being fixed; a particle moved with R + T dp differs from one moved with the exact matrix of its own momentum by less than any multiple of dp, for dp small enough.", "quantifier": "all real lengths and strengths except zero, all particles", "why_tests_cant": "A derivative over all lengths and strengths of either sign; tests compare a few values.", "anchors": ["Merlin++/TransportMatrix.cpp: QuadrupoleT, QuadrupoleR, SectorBendR", "Merlin++/MatrixMaps.cpp: RdpMtrx::Apply"]}
{"id": "C74", "title": "Coefficients of maps read back as written", "statement": "After any sequence of assignments to coefficients of a map, each coefficient has the value written last, reading does not change the map, and a map reported as the identity changes no coordinate.", "quantifier": "all sequences of assignments and reads", "why_tests_cant": "Unbounded histories of accesses.", "anchors": ["Merlin++/RMap.cpp: operator()", "Merlin++/RTMap.h: operator()", "Merlin++/RMap.h: R2Map::IsIdentity"]}
{"id": "C75", "title": "The first-order matrices solve the linear equations of motion", "statement": "For every element length s, the first-order matrix of a drift, quadrupole, sector bend and solenoid, as a function of s, is the solution of the linearised equations of motion of that element starting from the identity.", "quantifier": "all lengths, strengths and curvatures, both signs of focusing", "why_tests_cant": "A statement about derivatives at every point of every element, in all branches.", "anchors": ["Merlin++/TransportMatrix.cpp: SBR, SolR, Drift, Quadrupole, SectorBend, Solenoid"]}
{"id": "C76", "title": "Second-order maps solve the equations of motion to second order", "statement": "The second-order maps of drift, quadrupole and sextupole are, for every length, the solution of the equations of motion of the element truncated after second order; their linear part is the first-order matrix; the linear part of the second-order bend is the first-order bend.", "quantifier": "all lengths, strengths, initial coordinates", "why_tests_cant": "Differential equations at every point for all parameters.", "anchors": ["Merlin++/BasicTransportMaps.cpp", "Merlin++/RTMap.cpp"]}
{"id": "C77", "title": "Accelerating cavities damp the planes by the energy ratio and give every particle the energy of its phase", "statement": "The transverse map of an accelerating cavity has determinant E0/E1 in each plane, where E1 = E0 + g*length*cos(phi), for every length, gradient, phase and choice of end fields, in each form in which the library offers it; a cavity split in two equals the whole; after a travelling-wave step every particle's absolute energy has grown by g*length*cos(phi - k*ct), the reference energy by g*length*cos(phi), and a cavity without gradient is a drift.", "quantifier": "all lengths, gradients, phases, energies, dimensions, bunches, end field choices", "why_tests_cant": "Statement about all real parameters including the limit of no energy gain and every subset of end fields.", "anchors": ["Merlin++/TransportMatrix.cpp", "Merlin++/TransportRMaps.cpp", "Merlin++/StdIntegrators.cpp"]}
{"id": "C78", "title": "Quadrupoles, cavity edges and rotations of sliced bunches", "statement": "Tracking a slice through a quadrupole transports its centre with the quadrupole matrix at the slice's own momentum and its covariance by the same matrix; a dipole part only moves the centre; a thin quadrupole kick is the limit of thick ones; rotating a slice and rotating it back restores it.", "quantifier": "all lengths, strengths, slices, angles", "why_tests_cant": "Equality of matrices and covariances for all real parameters.", "anchors": ["Merlin++/SMPStdIntegrators.cpp", "Merlin++/TransportRMaps.cpp", "Merlin++/RMap.cpp"]}
{"id": "C79", "title": "Octagonal apertures and flat ellipses accept exactly their shape", "statement": "An octagonal aperture accepts exactly the rectangle without its four cut corners, including the limit in which nothing is cut; an ellipse without height accepts nothing outside its half axes.", "quantifier": "all half widths, corner angles and points", "why_tests_cant": "Degenerate limits of a continuous family of shapes.", "anchors": ["Merlin++/Aperture.cpp: OctagonalAperture, EllipticalAperture"]}
{"id": "C80", "title": "Interpolated circular and octagonal apertures follow the table", "statement": "For a table with increasing positions, at any position inside the table the interpolated circular aperture accepts exactly the open disc whose radius is the linear interpolation of the tabulated radii, and the interpolated octagonal aperture exactly the octagon with linearly interpolated half widths and angles (corners genuinely cut); in front of the element the entrance cross-section is used.", "quantifier": "all increasing tables, positions within them and points", "why_tests_cant": "Search plus interpolation over tables of any length.", "anchors": ["Merlin++/InterpolatedApertures.cpp"]}
{"id": "C81", "title": "Collimator jaws: displaced, tilted and tapered openings", "statement": "An unaligned collimator accepts exactly the points whose coordinates in the frame of the tilted, displaced jaws lie within the half openings; a one-sided collimator only limits one side, and two opposite one-sided jaws together equal the full collimator; a tapered collimator uses the linear interpolation of opening and centre between entrance and exit as long as it does not narrow or is displaced.", "quantifier": "all openings, tilts, offsets, lengths, points and positions", "why_tests_cant": "Real geometry for all parameters.", "anchors": ["Merlin++/CollimatorAperture.cpp"]}
{"id": "C82", "title": "Collimator openings respond to what was set", "statement": "A collimator that narrows, or whose exit opening was never set, accepts only points inside the interpolated opening; setting the entrance width or height, and setting the jaw error, changes what is accepted.", "quantifier": "all openings, errors, points", "why_tests_cant": "Needs every combination of setters and positions.", "anchors": ["Merlin++/CollimatorAperture.cpp"]}
{"id": "C83", "title": "Aperture survey samples every requested position once", "statement": "In absolute mode the survey visits every multiple of the step below the total length exactly once, in order, attributed to the element it lies in, across element boundaries and elements without length; in distance mode each element is sampled at the multiples of the step and its end; in point mode at evenly spaced points from entrance to exit; bad steps and inconsistent lattice positions are refused.", "quantifier": "all beamlines, steps and modes", "why_tests_cant": "Accumulation of positions over beamlines of any length.", "anchors": ["Merlin++/ApertureSurvey.cpp"]}
{"id": "C84", "title": "Aperture checks happen at the requested planes", "statement": "In a component that is not a collimator, aperture checks requested at the entrance, the centre and the exit happen at exactly these places (to the stepping tolerance), each once and in this order, whatever steps the other processes force, and nowhere else.", "quantifier": "all component lengths, all request combinations, all sequences of permitted steps", "why_tests_cant": "Step sequences depend on every other process attached to the tracker.", "anchors": ["Merlin++/CollimateParticleProcess.cpp: SetCurrentComponent, DoProcess, SetNextS, GetMaxAllowedStepSize"]}
{"id": "C85", "title": "Turn counting", "statement": "The turn number reported with losses is the number of times the component first entered has been entered, for any sequence of components.", "quantifier": "all sequences of components", "why_tests_cant": "Unbounded sequences with repeated components.", "anchors": ["Merlin++/CollimateParticleProcess.cpp: SetCurrentComponent"]}
{"id": "C86", "title": "Collimators are checked in every bin", "statement": "Inside a collimator the jaws are checked at the end of every bin, whatever steps the other processes force.", "quantifier": "all collimator lengths, bin sizes and sequences of permitted steps", "why_tests_cant": "The failure needs another process with a shorter step.", "anchors": ["Merlin++/CollimateParticleProcess.cpp: DoProcess, SetNextS, GetMaxAllowedStepSize"]}
{"id": "C87", "title": "Loss records", "statement": "Recording a particle lost at a non-negative distance from the entrance of a component adds one record with the component's name, place and length, the ten centimetre bin that contains the place of loss, and the temperature class: collimator for collimators, warm if the component starts in a warm region, cold otherwise.", "quantifier": "all components, warm regions and places of loss", "why_tests_cant": "Real-valued places of loss and arbitrary region lists.", "anchors": ["Merlin++/LossMapCollimationOutput.cpp: Dispose"]}
{"id": "C88", "title": "Detailed loss records", "statement": "The detailed output keeps the losses in components whose name matches one of the given identifiers, with all their data and in the order of loss, and no others.", "quantifier": "all identifier lists, components and losses", "why_tests_cant": "Arbitrary names and patterns.", "anchors": ["Merlin++/DetailedCollimationOutput.cpp: Dispose"]}
{"id": "C89", "title": "Ten centimetre loss maps", "statement": "In the ten centimetre mode every lost particle is counted exactly once, and for a beamline of successive, differently named components there is exactly one entry per element and bin, holding the number of particles lost there.", "quantifier": "all sequences of losses in all beamlines", "why_tests_cant": "Depends on how sorted records interleave, for arbitrarily many losses.", "anchors": ["Merlin++/LossMapCollimationOutput.cpp: Dispose, Finalise", "Merlin++/CollimationOutput.h: Compare_LossData"]}
{"id": "C90", "title": "Channel queries on the whole model", "statement": "A channel query without a beamline returns one channel per matching registered constructor for every matching element of the model.", "quantifier": "all registrations, element sets and queries", "why_tests_cant": "Depends on the types of all other matching elements.", "anchors": ["Merlin++/ChannelServer.cpp: GetROChannels, GetRWChannels, FindElements"]}
{"id": "C91", "title": "Monitor readings reach every buffer once", "statement": "An active monitor with a buffer sends to every attached buffer and to the default buffer exactly one measurement: the scaled bunch centroid with noise of the given resolution, the resolution and the reference time, after the response function; an inactive one, or one without buffers, sends nothing and draws no random number.", "quantifier": "all monitors, buffer sets, centroids and noise values", "why_tests_cant": "Arbitrary buffer sets and random noise.", "anchors": ["Merlin++/BPM.cpp: MakeMeasurement", "Merlin++/AMBufferManager.h"]}
{"id": "C92", "title": "Offsets of position channels", "statement": "Setting the offset of one plane's channel of a monitor adds it to the readings of that channel and leaves those of the other plane alone.", "quantifier": "all buffers and offsets", "why_tests_cant": "Two channels share hidden state.", "anchors": ["Merlin++/BPMChannel.cpp: SetBPMOffset, Read", "Merlin++/BPMDataBuffer.h"]}
{"id": "C93", "title": "Feedback converges on a linear machine", "statement": "If the monitor signals depend linearly on the actuators and the feedback's pseudo-inverse really inverts that response, then after k undelayed pulses the distance of every signal from its setpoint is (1 - gain)^k times the initial one, whatever the machine was doing before; gain one reaches the setpoints in one pulse, and taking the present signals as setpoints makes the next pulse change nothing.", "quantifier": "all gains, numbers of pulses, machines, sets of signals and actuators, setpoints and initial states", "why_tests_cant": "A test fixes one machine and one number of pulses; the claim is about every linear machine, gain and pulse count.", "anchors": ["Merlin++/LinearFBSystem.cpp: Apply, SignalsToSetpoints, SetGain", "Merlin++/Channels.cpp: ReadAll, WriteAll"]}
{"id": "C94", "title": "Balanced klystron settings", "statement": "A klystron in balanced mode always has its cavities' phasors summing to its own voltage and phase: after construction the sum is unchanged, and after any sequence of voltage, phase or phasor settings the sum equals the last setting, every cavity carrying an equal share at the klystron's phase.", "quantifier": "all non-empty lists of cavities of non-zero length and all sequences of settings", "why_tests_cant": "Tests try one cavity list and one setting; the balance must survive every sequence of settings for every list.", "anchors": ["Merlin++/Klystron.cpp: Klystron, SetVoltage, SetPhase, SetVoltagePhasor, AdjustCavities", "Merlin++/RFStructure.cpp: GetVoltagePhasor, SetVoltagePhasor"]}
{"id": "C95", "title": "Stored actuator settings can be restored", "statement": "After storing the actuators, and whatever pulses, delays, gains or machine movements follow, restoring puts every actuator back to the value it had when stored and touches nothing else.", "quantifier": "all feedback systems with independent actuators, all machine states at store and restore time", "why_tests_cant": "The states between store and restore are unbounded and include pending delayed corrections.", "anchors": ["Merlin++/LinearFBSystem.cpp: StoreActuators, RestoreActuators"]}
{"id": "C96", "title": "Magnetic fields satisfy Maxwell's equations and do no work", "statement": "The field returned at any point has zero divergence and zero curl in the transverse plane, and the force on a charge is q v x B, perpendicular to its velocity.", "quantifier": "all multipole fields, points, velocities and charges", "why_tests_cant": "Tests sample a few multipoles and points; the claim is for every expansion, order, radius and point.", "anchors": ["Merlin++/MultipoleField.cpp: GetBFieldAt, GetForceAt, GetField2D"]}
{"id": "C97", "title": "Strengths are derivatives of the field", "statement": "The normalised strength K_n equals the n-th complex derivative of By+iBx at the origin divided by the rigidity; a field constructed with gradient b_n has that strength and no other multipole; a field constructed with pole-tip components has exactly these components at that radius.", "quantifier": "all fields, orders, strengths, radii and rigidities (non-zero)", "why_tests_cant": "Tests sample a few multipoles and points; the claim is for every expansion, order, radius and point.", "anchors": ["Merlin++/MultipoleField.cpp: GetKn, MultipoleField constructors, factorial"]}
{"id": "C98", "title": "Turning a field about the vertical axis", "statement": "Rotating a field by 180 degrees about the vertical axis gives the field seen from behind (the field at (-x,y) with the horizontal part reversed), and doing it twice restores the field.", "quantifier": "all fields and points", "why_tests_cant": "Tests sample a few multipoles and points; the claim is for every expansion, order, radius and point.", "anchors": ["Merlin++/MultipoleField.cpp: RotateY180"]}
{"id": "C99", "title": "Bunch distributions count every particle in range", "statement": "The distribution of a phase-space coordinate over [umin, umax] counts every particle in that range in the bin containing it, reports the others as lost and, when asked, removes exactly those from the bunch.", "quantifier": "all bunches, coordinates, ranges, bin widths and flags", "why_tests_cant": "The failures sit on the upper end of the range and on the first particle of the bunch; tests with random particles miss both.", "anchors": ["Merlin++/ParticleBunchUtilities.cpp: ParticleBunchDistribution"]}
{"id": "C100", "title": "Wake fields keep the charge and cut the bunch once", "statement": "One wake field impulse leaves the total charge of the bunch unchanged, whatever number of particles it cuts off; the particles that stay are exactly those within the requested number of spreads of the bunch mean, with identity, transverse position and arrival time unchanged.", "quantifier": "every bunch, number of slices, number of spreads, filter, wake potential and component length for which the impulse completes", "why_tests_cant": "the cut depends on the statistics of the whole bunch; only particular bunches lose particles", "anchors": ["Merlin++/WakeFieldProcess.cpp (WakeFieldProcess::Init, CalculateQdist, CalculateWakeL, CalculateWakeT, ApplyWakefield)"]}
{"id": "C101", "title": "The wake kick", "statement": "An impulse of a non-CSR wake takes from each particle's momentum the component length times the longitudinal wake at its position, and changes its slopes by the transverse wake; the wake at a slice boundary is the sum over all particles in the slices from there on of charge times potential at the distance to the middle of their slice (times their offset for the transverse wake), interpolated linearly within a slice. The reference momentum falls by the mean loss. A potential that is nowhere negative lets no particle gain momentum. The impulse completes exactly when the new reference momentum is positive.", "quantifier": "every bunch, number of slices, number of spreads, wake potential, component length; any sorting algorithm", "why_tests_cant": "sums over arbitrary bunches and arbitrary potentials", "anchors": ["Merlin++/WakeFieldProcess.cpp (WakeFieldProcess::Init, CalculateQdist, CalculateWakeL, CalculateWakeT, ApplyWakefield)"]}
{"id": "C102", "title": "Wakes act backwards and continuously", "statement": "The wake at a position depends only on particles less than one slice width behind that position or ahead of it, varies continuously along the bunch (within a bound proportional to the distance), and vanishes at the head of the bunch.", "quantifier": "all particle distributions, potentials, slice widths and positions", "why_tests_cant": "continuity and independence range over all pairs of positions and all pairs of bunches", "anchors": ["Merlin++/WakeFieldProcess.cpp (WakeFieldProcess::Init, CalculateQdist, CalculateWakeL, CalculateWakeT, ApplyWakefield)"]}
{"id": "C103", "title": "Wakes change transverse momentum by the transverse kick only", "statement": "After an impulse the transverse momentum (momentum times slope) of each particle has changed by exactly the component length times the transverse wake; without a transverse wake it is unchanged.", "quantifier": "every bunch and wake potential for which the impulse completes", "why_tests_cant": "the deviation is of second order and only seen for particles off the reference momentum", "anchors": ["Merlin++/WakeFieldProcess.cpp (WakeFieldProcess::Init, CalculateQdist, CalculateWakeL, CalculateWakeT, ApplyWakefield)"]}
{"id": "C104", "title": "CSR wakes act", "statement": "A coherent-synchrotron-radiation wake is evaluated at distances within the bunch, so that it changes momenta whenever it is nonzero there.", "quantifier": "every bunch and CSR potential", "why_tests_cant": "unsigned wrap-around shows only as a missing effect", "anchors": ["Merlin++/WakeFieldProcess.cpp (WakeFieldProcess::Init, CalculateQdist, CalculateWakeL, CalculateWakeT, ApplyWakefield)"]}
{"id": "C105", "title": "One wake impulse per component", "statement": "Tracking through a component whose wake is meant for this process, in any division into steps no longer than the process allows, applies exactly one impulse of the full component length, at the chosen place (centre or exit) within tolerance, after which the process is inactive; a component without such a wake gets none.", "quantifier": "all component lengths, all step sequences that add up to the length, both impulse locations", "why_tests_cant": "all step sequences", "anchors": ["Merlin++/WakeFieldProcess.cpp (SetCurrentComponent, DoProcess, GetMaxAllowedStepSize)"]}
{"id": "C106", "title": "A simply mounted frame follows its support", "statement": "After any sequence of offsets of the support of a simple mount and queries, the frame transform is that of the frame displaced by the current offset of the support, turned into the axes of the frame; the support reports that offset.", "quantifier": "all sequences of set, increment and reset and of queries, all placements of the mount", "why_tests_cant": "cached transform with dirty flags: order of moves and queries matters", "anchors": ["Merlin++/SupportStructure.cpp: UpdateSupportTransform, GetLocalFrameTransform", "Merlin++/AcceleratorSupport.h"]}
{"id": "C107", "title": "Magnet movers", "statement": "After any sequence of settings of a magnet mover the horizontal and vertical displacement and the roll read back as last set (the roll as an angle in (-pi,pi]), and the frame transform is the local transform followed by the displacement and the roll.", "quantifier": "all sequences of SetX, SetY, SetRoll and Reset, all local transforms", "why_tests_cant": "all histories and all angles", "anchors": ["Merlin++/MagnetMover.h", "Merlin++/MagnetMover.cpp: GetLocalFrameTransform", "Merlin++/Transform2D.h"]}
{"id": "C108", "title": "Ground motion in increments follows the ATL law", "statement": "In incremental mode, after any number of steps from a reset, the displacements of the supports are vertical and are linear combinations of independent unit normal numbers whose coefficients give the difference of the displacements of any two supports the variance A times elapsed time times distance, and each displacement the variance A times elapsed time times distance from the reference point; the time returned is the sum of the steps. Vibration adds independent noise of the given size to each support. A reset returns the clock and all supports to zero and changes nothing else.", "quantifier": "all arrangements of supports, all step sequences, all random numbers; for every exact eigensystem of the matrix the class builds", "why_tests_cant": "a statistical law cannot be tested by samples; the identity holds for all arrangements", "anchors": ["Merlin++/ATL2D.cpp: ATL2D, DoStep, ApplyATL, Distance, Reset"]}
{"id": "C109", "title": "Recorded eigensystems are read back", "statement": "Constructing ATL2D from the files written by RecordEigenSystem gives the eigenvectors that were recorded.", "quantifier": "all eigenvector matrices", "why_tests_cant": "all matrices; symmetric ones pass", "anchors": ["Merlin++/ATL2D.cpp: RecordEigenSystem, ATL2D"]}
{"id": "C110", "title": "The one-dimensional ground motion is a random walk along the arc", "statement": "After any number of steps the displacement of each support is a sum of independent normal increments such that the difference between two supports has the variance A times elapsed time times the arc distance between them, plus independent noise of the requested size that does not accumulate; reset starts afresh.", "quantifier": "all lists of supports at positions not before the origin, in any order, all step sequences, all random numbers, any correct sorting algorithm", "why_tests_cant": "a statistical law cannot be tested by samples", "anchors": ["Merlin++/SimpleATL.cpp: SimpleATL, DoStep, ApplyATL, Reset"]}
{"id": "C111", "title": "Matrix inversion returns the inverse or reports singularity", "statement": "Inverting a square matrix either replaces it by its two-sided inverse, and then the returned smallest pivot is positive, or reports a singular matrix, and does so exactly when the matrix has no inverse; a non-square matrix is reported as such.", "quantifier": "all matrices of all sizes, exact arithmetic", "why_tests_cant": "all matrices, including those that need row and column exchanges", "anchors": ["Merlin++/LinearAlgebra.cpp: Inverse, RealMatrixInverse"]}
{"id": "C112", "title": "Symplectification gives a symplectic matrix and leaves symplectic ones alone", "statement": "Whenever Symplectify returns, the matrix is symplectic. A symplectic matrix that does not have the eigenvalue -1 is returned unchanged.", "quantifier": "all 6 by 6 matrices, exact arithmetic", "why_tests_cant": "all matrices", "anchors": ["Merlin++/LinearAlgebra.cpp: Symplectify, MakeSymplecticS"]}
{"id": "C113", "title": "Losses are reported at the first place outside the aperture", "statement": "When a bunch enters a component that is not a collimator and is checked there, the losses reported are the particles found outside at the check, each with its identity and at the first of the places 0, one bin, two bins, ... before the exit at which it is outside the aperture when followed from the coordinates it entered with; the reported longitudinal place is clamped to the component, and no particle is reported more often than it was lost.", "quantifier": "all bunches, apertures, transports, bin sizes and lengths", "why_tests_cant": "all bunches and apertures; the index into the recorded coordinates must be right for every pattern of losses", "anchors": ["Merlin++/CollimateParticleProcess.cpp: DoCollimation, SetCurrentComponent"]}
{"id": "C114", "title": "LU factors solve every regular system", "statement": "LUfactor, given room for the pivots, factorises every invertible matrix, and LUsolve then returns the solution of the system for every right hand side, so that solving for the unit vectors gives the inverse; a matrix that is not square and a matrix with a row of zeros are reported, and so is a right hand side that is too short.", "quantifier": "all sizes, all invertible matrices, all right hand sides, exact arithmetic", "why_tests_cant": "all matrices, including those that need exchanges of rows and right hand sides with leading zeros", "anchors": ["Merlin++/TLASimp.h: LUfactor, LUsolve"]}
{"id": "C115", "title": "The product of the pivots is the determinant", "statement": "For an invertible matrix the sign times the product of the diagonal of the LU factors is the determinant.", "quantifier": "all sizes, all invertible matrices, every function that reacts to row operations as a determinant", "why_tests_cant": "all matrices", "anchors": ["Merlin++/TLASimp.h: LUfactor, LUMatrix::det"]}
{"id": "C116", "title": "Rows, columns, ranges and blocks are views of the matrix", "statement": "Reading element k of a row, column, part of a row or column, or block gives the element of the matrix at the corresponding place, writing through it changes exactly that element, assigning to a whole row, column or block changes exactly the elements it covers, and subscripts or ranges outside, and operands of another size, are reported.", "quantifier": "all matrices, all subscripts, all ranges whose first index does not exceed the last", "why_tests_cant": "all shapes and ranges; absence of changes elsewhere", "anchors": ["Merlin++/TMatrixLib.h: SubVector, SubMatrix, Matrix::row, column, operator()"]}
{"id": "C117", "title": "Matrix products", "statement": "TGEMM replaces C by beta C + alpha op(A) op(B) for every choice of transposed operands of matching sizes, TGEMV replaces y by beta y + alpha op(A) x for an operand that is not transposed or square or when beta is one, TGEMR gives R M R^T, the product operators give the products, and operands the operators cannot multiply are reported. Factors within the tolerance of zero count as zero, a beta within the tolerance of one as one.", "quantifier": "all sizes, all elements, all factors, exact arithmetic", "why_tests_cant": "all sizes and transpositions", "anchors": ["Merlin++/tblas.h: tgemm, tgemv, tgemr", "Merlin++/TMatrixLib.h: operator*, IdentityMatrix"]}
{"id": "C118", "title": "Elementwise operators and comparisons of vectors and matrices", "statement": "Every op= with a scalar or an operand of equal size applies the operator element by element, s+v, v+s, s-v, v*s, v/s, u+v, u-v, u/v give the corresponding elements, == is true exactly for equal vectors, element access returns and replaces the addressed element only, and operands of different size and subscripts outside are reported; a square matrix is printed row by row.", "quantifier": "all sizes, elements and subscripts", "why_tests_cant": "all sizes", "anchors": ["Merlin++/TMatrixLib.h"]}
{"id": "C119", "title": "Uncoupled beams with different emittances keep their parameters", "statement": "For an uncoupled beam with positive beta functions and positive, different emittances the beam matrix made from the beam data is the Twiss form with dispersion, its sizes are the square roots of emittance times beta and gamma, and converting it back returns the same beam data (reference time and momentum unset, dispersion only with a momentum spread) and the same mode emittances.", "quantifier": "all uncoupled beam data with positive, different emittances", "why_tests_cant": "Nonlinear identities over reals.", "anchors": ["Merlin++/NormalTransform.cpp: BeamDataToSigmaMtrx, SigmaMatrixToBeamData, NormalModeEmittance", "Merlin++/BeamData.h"]}
{"id": "C120", "title": "Coupling transformations are canonical", "statement": "The coupling matrix is symplectic for all parameters and undone by the negated parameters, the normal transformation without dispersion is symplectic, the beam matrix made from beam data is the normal transformation applied to the diagonal matrix of emittances and spreads, and a decoupling that ends returns a symplectic matrix that carries the original moments to the decoupled ones.", "quantifier": "all parameters, all moments", "why_tests_cant": "Nonlinear identities over reals; number of iterations unbounded.", "anchors": ["Merlin++/NormalTransform.cpp: CouplingMatrix, NormalTransform, DecoupleSigma, SigmaMatrixToBeamData"]}
{"id": "C121", "title": "Components of a model read from a table stand one behind the other", "statement": "In every model made from an optics table each component's lattice position is the reader's starting position plus the lengths of all components before it in the lattice, the reader's position after the table is the end of the last component, and the components of the lattice are exactly those made, in the order of the rows.", "quantifier": "all tables and reader settings", "why_tests_cant": "Arbitrary tables mixing all row types, including nested lines, ignored and overridden types.", "anchors": ["Merlin++/MADInterface.cpp: ConstructModel, TypeFactory::GetInstance"]}
{"id": "C122", "title": "Magnets read from a table have the table's strengths", "statement": "A row of a thick magnet that is read without error gives one component of the row's name and length whose integrated field, divided by the magnetic rigidity of the beam there, is the strength in the table: K1L, K2L, K3L for normal and skew multipoles, angle, gradient and pole faces for bends, kick angle with the sign of its plane for correctors, KS for solenoids; cavities get frequency, voltage and phase from the table; the momentum used changes only at bends and, if radiation is switched on, by the classical energy loss of the bend.", "quantifier": "all rows of known type with non-zero length, all momenta", "why_tests_cant": "Identities over all real strengths, lengths and momenta, for every row type.", "anchors": ["Merlin++/MADInterface.cpp: SBendComponent, RBendComponent, QuadrupoleComponent, SextupoleComponent, OctupoleComponent, VKickerComponent, HKickerComponent, SolenoidComponent, RFCavityComponent, ConstructModel"]}
{"id": "C123", "title": "LINE rows become frames around what stands between them", "statement": "If the LINE rows of a table are properly nested pairs of equal names and no line directly contains a line of its own name, the frames of the model mirror the lines: a line named with one of the prefixes F_, S_, G_ or M_ (or any line, if line names are honoured) is a frame of the corresponding kind and remaining name around exactly what its rows made, other lines leave no frame, and with flat reading there are no frames. A line that is never closed gives no model.", "quantifier": "all tables with nested lines, all settings", "why_tests_cant": "Unbounded nesting and names.", "anchors": ["Merlin++/MADInterface.cpp: ConstructModel, ConstructNewFrame, EndFrame"]}
{"id": "C124", "title": "Several tables can be read into one model", "statement": "Tables appended one after another end up in one model, which can be fetched afterwards; a reader can be used again after an exception.", "quantifier": "all sequences of tables", "why_tests_cant": "Histories of reader calls.", "anchors": ["Merlin++/MADInterface.cpp: AppendModel, GetModel, ConstructModel"]}
{"id": "C125", "title": "The chromatic matrix of a combined-function bend", "statement": "For a bend of non-zero length with a gradient and net horizontal focusing every transverse element and every dispersion element of the chromatic matrix is the momentum derivative of the bend's matrix; with net horizontal defocusing this holds for the vertical and the dispersion elements; without curvature it agrees with the quadrupole's; the path-length term scales like a length; matrices smaller than 6x6 are refused.", "quantifier": "all lengths, curvatures and gradients with K1 and K1 + h^2 different from zero", "why_tests_cant": "Derivatives over a three-parameter family with separate branches.", "anchors": ["Merlin++/TransportMatrix.cpp: SectorBendT, SectorBendR"]}
{"id": "C126", "title": "Chromatic matrices are momentum derivatives without exception", "statement": "For every quadrupole and bend, whatever its strength, curvature and length, the chromatic matrix is the momentum derivative of the transfer matrix in all its elements.", "quantifier": "all lengths, curvatures and gradients", "why_tests_cant": "Special cases (no gradient, net defocusing, vanishing focusing) are easily missed.", "anchors": ["Merlin++/TransportMatrix.cpp: SectorBendT, QuadrupoleT"]}
{"id": "C127", "title": "A copy of a mount can be used like a new one", "statement": "The copy of a mount in any state, once placed, behaves like a newly made mount of the same kind and frame in that place.", "quantifier": "all mounts, all histories before the copy, all placements after it", "why_tests_cant": "Arbitrary histories; an uninitialised pointer may happen to look right.", "anchors": ["Merlin++/SupportStructure.cpp: SupportStructure(const SupportStructure&), ConsolidateConstruction"]}
{"id": "C128", "title": "A girder has an independently movable support at each end", "statement": "A placed girder exports two supports; the first stands at the entrance plane, the second at the exit plane, with arc positions of the two ends; after any sequence of moves and queries each reports the offset given to it and none given to the other.", "quantifier": "all sequences of moves of either end and queries, all placements", "why_tests_cant": "Arbitrary interleavings of moves and queries.", "anchors": ["Merlin++/SupportStructure.cpp: ConsolidateConstruction, ExportSupports", "Merlin++/AcceleratorSupport.h"]}
{"id": "C129", "title": "Ground motion in absolute mode has the variance of the elapsed time", "statement": "In absolute mode the displacements after a step have the variance A times elapsed time times distance.", "quantifier": "all arrangements of supports, all states and step sizes", "why_tests_cant": "a statistical law cannot be tested by samples", "anchors": ["Merlin++/ATL2D.cpp: ATL2D, DoStep, ApplyATL, Distance, Reset"]}
{"id": "C130", "title": "A name pattern finds every name whose tail is unambiguous", "statement": "Match answers true for every name in the glob language of the pattern (or of one of its alternatives) if the pattern ends with the wild-card, or if the text after its last wild-card occurs in the name only at its end; a pattern without wild-card and alternatives matches exactly itself.", "quantifier": "all pattern strings p and all subject strings s", "why_tests_cant": "Missed matches occur only for subjects in which a literal fragment re-occurs; the set of such pairs is infinite.", "anchors": ["Merlin++/StringPattern.cpp: StringPattern::Match", "Merlin++/AcceleratorModel.cpp: ExtractModelElements"]}
{"id": "C131", "title": "Adding a row of fitting values appends exactly that row", "statement": "In every table reachable by its operations, AddRow with one value per column, each of the type of its column, appends one row that holds exactly these values, and changes no other cell and no column name.", "quantifier": "all reachable tables, all rows of values of fitting types", "why_tests_cant": "The failing histories depend on number and type of arguments relative to the columns; atomicity is a statement about every failure point.", "anchors": ["Merlin++/DataTable.h: AddRow(T... values) variadic template"]}
{"id": "C132", "title": "Equally spaced interpolation between and beyond the points", "statement": "Evaluating an equally spaced table of at least two points at any x with xmin <= x < xmax reads two neighbouring ordinates whose abscissae enclose x and returns the value at x of the line through them; below xmin and above xmax it returns the value of the line through the first and through the last two points.", "quantifier": "all tables of at least two points with positive spacing, all x except xmax", "why_tests_cant": "The failing point is the single right end point of the interval.", "anchors": ["Merlin++/Interpolation.cpp: EqualSpacedData"]}
{"id": "C133", "title": "A beamline of an ascending pair of indices", "statement": "For n1 <= n2, GetBeamline(n1,n2) yields exactly the components n1 to n2 in lattice order, not reversed, with these as first and last index, if n2 is an index of the lattice, and reports BadRange otherwise; the whole beamline of a non-empty lattice contains all components.", "quantifier": "all lattices and all pairs n1 <= n2", "why_tests_cant": "Boundary pairs for all lattice sizes.", "anchors": ["Merlin++/AcceleratorModel.cpp: GetBeamline(size_t,size_t)"]}
{"id": "C134", "title": "What a selection by two patterns returns", "statement": "GetBeamline(pat1,pat2,n1,n2) with counts of at least one returns the part from the n1-th component that matches pat1 to the n2-th component that matches pat2 when the start itself is not counted, and reports BadRange when one of them does not exist; this is the documented selection whenever the start does not match pat2.", "quantifier": "all lattices, patterns and occurrence numbers", "why_tests_cant": "Counting errors appear only when the two patterns overlap.", "anchors": ["Merlin++/AcceleratorModel.cpp: GetBeamline(const string&,const string&,int,int)"]}
{"id": "C135", "title": "A lattice is what was appended, in call order", "statement": "For every well-nested sequence of construction calls the lattice is the sequence of appended components in call order and the repository contains exactly the frames, components and sequences made; without whole appended frames the i-th component has index i; index queries on any part return exactly the indices of matching components, ascending.", "quantifier": "all well-nested call sequences", "why_tests_cant": "Arbitrary nesting depth and length.", "anchors": ["Merlin++/AcceleratorModelConstructor.cpp", "Merlin++/AcceleratorModel.cpp: GetIndexes"]}
{"id": "C136", "title": "Frames assembled from the inside out are contiguous", "statement": "After layout of any tree of frames assembled from the inside out, every element starts where the one before ended, the tree spans the sum of the lengths from the start its origin convention gives, and the position of a frame in an enclosing one is the sum of the local positions between.", "quantifier": "all trees assembled from the inside out, all lengths and origin conventions", "why_tests_cant": "Trees of any depth and real-valued lengths.", "anchors": ["Merlin++/SequenceFrame.cpp: ConsolidateConstruction", "Merlin++/LatticeFrame.cpp: GetPosition"]}
{"id": "C137", "title": "Installing into a drift when storage suffices", "statement": "Installing an element of length zero at a place inside a drift (or at its start), in a lattice whose storage need not grow, replaces the drift by two drifts whose lengths add up, with the element between them at the requested place, names the parts after the drift, and leaves all other components unchanged; elements with length are refused.", "quantifier": "all lattices with spare storage, all places inside drifts", "why_tests_cant": "Arbitrary lattices; the frame condition ranges over all other components.", "anchors": ["Merlin++/AcceleratorModel.cpp: InstallModelElement"]}
{"id": "C138", "title": "Effects of runs, continuations and interrupted runs", "statement": "A run constructs one bunch, initialises the transport and applies, component by component in lattice order, entrance transform, tracking and exit transform; n continuations apply the same turn n times (with injection on axis, each omits its first entrance transform), so each component is tracked once per turn; an exception stops the sequence after the entrance transform of the component that raised it and is swallowed exactly if handling is on and it is one of the library's; without patches, stepping through all components has the effects of a turn.", "quantifier": "all beamlines and rings, all settings, all numbers of turns, all places of an exception", "why_tests_cant": "Unbounded sequences of events, order sensitive.", "anchors": ["Merlin++/TrackingSimulation.cpp: PerformTracking, StepComponent", "Merlin++/TTrackSim.h"]}
{"id": "C139", "title": "The tracker follows its phases for every call sequence", "statement": "For every sequence of calls the answers, the effects and the failures of the tracker are those of an automaton with the phases idle, chosen, tracking and finished; steps and questions before a choice are refused; a component is unknown exactly if none of its classes has an integrator; registering replaces only the integrator of its class.", "quantifier": "all call sequences", "why_tests_cant": "Histories of calls of any length.", "anchors": ["Merlin++/ComponentTracker.cpp", "Merlin++/ComponentTracker.h"]}
{"id": "C140", "title": "Entrance and exit maps for steps above the tolerance", "statement": "Whatever non-negative steps a component is divided into that sum up to its length, if every proper initial and final part is longer than the tolerance, the entrance map is applied once before the body, the body maps in order for exactly the given steps, and the exit map once after it.", "quantifier": "all components of length zero or above the tolerance, all such divisions", "why_tests_cant": "All partitions of a real interval.", "anchors": ["Merlin++/ComponentIntegrator.h: TIntegratorBase / Track"]}
{"id": "C141", "title": "A divider triggers at the ends of equal steps", "statement": "For positive length and count the step is the length divided by a whole number, the count itself if that is no shorter than the minimum; after any increments the number of triggers is the number of whole steps covered (within the tolerance), and the distance reported is that to the next step end; counts of zero and below are undefined.", "quantifier": "all positive lengths, all step counts, minima and increments", "why_tests_cant": "Real-valued quantities and integer truncation.", "anchors": ["Merlin++/ComponentStepper.cpp: ComponentDivider"]}
{"id": "C142", "title": "How often a monitor measures", "statement": "In a passage of a thick monitor through any steps a measurement is made at the measuring point for every step that ends beyond it, so exactly one if only the last step does; a thin monitor measures in each call; the beam is moved on by the sum of the steps.", "quantifier": "all lengths, measurement points and step partitions", "why_tests_cant": "All partitions of a real interval, boundary measurement points.", "anchors": ["Merlin++/StdIntegrators.cpp: MonitorCI::TrackStep"]}
{"id": "C143", "title": "Adjusting the reference of a bunch of particles", "statement": "AdjustRefMomentum and its variant to the mean keep every particle's absolute momentum, AdjustRefTimeToMean every absolute arrival time; the reference becomes the mean and the mean deviation zero; all other coordinates, identities and the charge are unchanged; a factor that is not positive is refused.", "quantifier": "all bunches of particles and all adjustments", "why_tests_cant": "Conservation for all particles and reals.", "anchors": ["Merlin++/ParticleBunch.cpp: AdjustRefMomentum, AdjustRefMomentumToMean, AdjustRefTimeToMean", "Merlin++/SMPBunch.cpp"]}
{"id": "C144", "title": "3-D transformations are rigid motions", "statement": "Every transformation built from translations, rotations, products and inverses acts on points and vectors as the corresponding composition of motions, preserves distances, scalar and cross products, and is undone by its inverse on both sides; one that passes the identity test does not turn and moves points by no more than the tolerance.", "quantifier": "all expressions over translations, rotations, products, inverses; all points", "why_tests_cant": "Algebraic laws over reals.", "anchors": ["Merlin++/Transform3D.cpp", "Merlin++/Transform3D.h"]}
{"id": "C145", "title": "First-order matrices are symplectic", "statement": "The matrices of drift, quadrupole, sector bend, coordinate roll and pole face are symplectic for all parameters, and that of a solenoid for all whose rotation angle is zero or above the tolerance; a roll given by c and s is symplectic exactly if c^2 + s^2 = 1; matrices with too few dimensions are refused.", "quantifier": "all lengths, strengths, curvatures, angles; dimensions 4 and 6", "why_tests_cant": "Trigonometric identities for all reals and all sign branches.", "anchors": ["Merlin++/TransportMatrix.cpp"]}
{"id": "C146", "title": "Matrices of two pieces multiply to that of the whole", "statement": "R(l1+l2) = R(l2) R(l1) for drifts, quadrupoles and bends, and for solenoids whose pieces turn by more than the tolerance; R(-l) undoes R(l); R(0) is the identity; the quadrupole tends to the drift as its strength tends to zero.", "quantifier": "all lengths, strengths and curvatures; dimensions 4 and 6", "why_tests_cant": "Addition theorems for all reals; degenerate strengths are measure-zero for tests.", "anchors": ["Merlin++/TransportMatrix.cpp: SBR, SolR, Drift, QuadrupoleR", "Merlin++/SymplecticIntegrators.cpp"]}
{"id": "C147", "title": "Matrices act on moments as on particles", "statement": "The moments of a bunch moved by a 6x6 matrix are the moved moments of the bunch; for smaller matrices this holds for the coordinates they move; products act as one map after the other and refuse unequal sizes; a map with reference momentum acts on a particle according to its absolute momentum only; drifts of particles, of 6- and 4-dimensional moments and of plane pairs are the drift matrix.", "quantifier": "all matrices, non-empty bunches, moments", "why_tests_cant": "Unbounded bunches, sums over sparse representations.", "anchors": ["Merlin++/RMap.h", "Merlin++/RMap.cpp", "Merlin++/MatrixMaps.cpp"]}
{"id": "C148", "title": "Sparse maps act as the sum of their terms", "statement": "A sparse map adds to each coordinate the terms of its row, on particles and on moments alike, refuses terms outside six dimensions, reads back what was assigned last, and, made from a matrix, acts as that matrix and converts back to it.", "quantifier": "all sparse maps that were not copied, all particles, moments, assignment sequences", "why_tests_cant": "Unbounded bunches, sums over sparse representations.", "anchors": ["Merlin++/RMap.h", "Merlin++/RMap.cpp", "Merlin++/MatrixMaps.cpp"]}
{"id": "C149", "title": "The first aperture check in a component", "statement": "The first check in a component never reads outside its records, and reports excessive loss exactly if the particles lost so far reach the threshold, with their number and the initial number.", "quantifier": "all bunches, apertures, thresholds", "why_tests_cant": "The failure needs losses at two planes of one component.", "anchors": ["Merlin++/CollimateParticleProcess.cpp: DoCollimation, SetCurrentComponent"]}
{"id": "C150", "title": "Setting the mode of ground motion", "statement": "A refused call changes nothing, an accepted one changes only what it names; SetVibration is refused exactly in incremental mode, SetATLMode exactly in incremental mode with vibration; if incremental mode is only entered without vibration the two are never combined.", "quantifier": "all sequences of SetATLMode and SetVibration", "why_tests_cant": "Invariant over call histories.", "anchors": ["Merlin++/ATL2D.cpp: SetATLMode, SetVibration"]}
{"id": "C151", "title": "A printed pattern without alternatives means the same", "statement": "Printing a pattern without alternatives gives a text with the same glob language.", "quantifier": "all patterns without alternatives, all names", "why_tests_cant": "Equivalence of two languages over infinitely many subjects, for every pattern.", "anchors": ["Merlin++/StringPattern.cpp: operator<<"]}
{"id": "C152", "title": "Accepted TFS texts give well-formed tables", "statement": "Every table obtained by reading a text has distinct column names and columns of equal length, and no operation on it is undefined; reading is never undefined if a line of names is followed by a non-blank line.", "quantifier": "all texts, all later operations", "why_tests_cant": "Ranges over every possible malformed input.", "anchors": ["Merlin++/DataTableTFS.cpp: DataTableReaderTFS::Read, split_line, type_conv"]}
{"id": "C153", "title": "Higher order interpolation away from the ends", "statement": "With at least order+2 distinct points an evaluation inside the range returns the mean of the two polynomials of that order through two neighbouring windows of points around it, hence the tabulated value at every inner point; the result never depends on earlier evaluations.", "quantifier": "all data sets with distinct abscissae, orders from two, argument sequences", "why_tests_cant": "The object keeps a hidden position between calls; independence of all histories, and the windows chosen near the ends for every table size and order, cannot be enumerated.", "anchors": ["Merlin++/Interpolation.cpp: ArbSpacedData::ArbSpacedData, ArbSpacedData::ValueAt", "Merlin++/Interpolation.h: Method::evaluatepoly"]}
{"id": "C154", "title": "Extracting components by pattern", "statement": "In a lattice whose frames all have components ExtractComponents returns exactly the frames with matching qualified names, in lattice order; the pattern * returns the whole lattice.", "quantifier": "all lattices without component-less frames (any for *), all patterns", "why_tests_cant": "Depends on what else is in the lattice.", "anchors": ["Merlin++/AcceleratorModel.cpp: ExtractComponents, MatchName"]}
{"id": "C155", "title": "Planar transformations are a group", "statement": "A product of planar transformations acts as one after the other, the inverse undoes a transformation on both sides, and a transformation given by shift and angle turns by the angle, then subtracts the shift.", "quantifier": "all planar transformations and points", "why_tests_cant": "Algebraic laws over all reals; the test looks only at the sine of the angle.", "anchors": ["Merlin++/Transform2D.h", "Merlin++/Space2D.h: isZero"]}
{"id": "C156", "title": "Geometry transformations follow the axis", "statement": "Between two places of a frame not yet laid out, the second downstream of the first, the transformation carries the axes of the first onto those of the second; in laid-out centred rows of components so does the total transformation, and the one upstream between different components is the inverse; the physical transformation is the composition of the enclosing placements; places outside the extent are refused.", "quantifier": "all frames, pairs of places further apart than the tolerance and clear of joints", "why_tests_cant": "Real-valued places, any number and nesting of components.", "anchors": ["Merlin++/SequenceFrame.cpp: GetGeometryTransform, GetTotalGeometryTransform, CalculateCachedTransforms", "Merlin++/ArcGeometry.cpp", "Merlin++/RectangularGeometry.cpp"]}
{"id": "C157", "title": "Displacing a frame has no effect on what passes through its axes", "statement": "For every displacement the identity test recognises as one, the transformation at the entrance plane followed by the geometry of the frame and the transformation at the exit plane is the geometry alone; frames without displacement have no effect; at coinciding planes the displacements of the enclosing frames compose.", "quantifier": "all frames, displacements not below the tolerance, points", "why_tests_cant": "Holds for every rigid motion and every frame geometry.", "anchors": ["Merlin++/LatticeFrame.cpp: GetBoundaryPlaneTransform, LocalBoundaryPlaneTransform"]}
{"id": "C158", "title": "Running again after an exception between components", "statement": "If exceptions are handled and the one that ended a run was raised after its component had been left, the next run has the effects of a first run; if it left the transport inside a component every later run and continuation is refused.", "quantifier": "all lattices, settings and places of the exception", "why_tests_cant": "Depends on the point of failure within the lattice and within the component.", "anchors": ["Merlin++/TrackingSimulation.cpp: DoRun", "Merlin++/TTrackSim.h: TTrnsProc::InitialiseProcess", "Merlin++/ComponentTracker.cpp: SelectIntegrator"]}
{"id": "C159", "title": "Particles of a constructed bunch", "statement": "A bunch of np > 0 particles has the identities 0..np-1, its first particle is on the centroid with the reference momentum, every other one is accepted by the filter and displaced by the first; construction ends if the filter accepts again and again; the total charge is that asked for; a non-positive reference momentum is refused.", "quantifier": "all np > 0 (one particle for np = 0), distributions, filters, centroids, charges", "why_tests_cant": "Depends on every sequence of random vectors and every filter.", "anchors": ["Merlin++/ParticleBunch.cpp: ParticleBunch(size_t, const ParticleDistributionGenerator&, const BeamData&, ParticleBunchFilter*)", "Merlin++/ParticleBunch.cpp: GetTotalCharge"]}
{"id": "C160", "title": "Statistics of a sliced bunch with a cleared result", "statement": "With a cleared result object centroid and moments of a bunch of slices are the charge-weighted mean and the total covariance (between slices plus mean inside), for all six coordinates and for projections; otherwise the former covariance is added; the charge is the sum of the slices.", "quantifier": "all bunches of slices with non-zero charge", "why_tests_cant": "Needs all numbers of slices and all prior contents.", "anchors": ["Merlin++/SMPBunch.cpp: GetMoments, GetProjectedMoments, GetCentroid, AddParticle"]}
{"id": "C161", "title": "Sparse elements agree with matrices", "statement": "The sparse map of a drift, sector bend and pole face acts as the 6x6 matrix of the element; that of a quadrupole and a roll as its 4x4 matrix on the transverse coordinates; that of a solenoid except for two elements.", "quantifier": "all lengths, strengths, curvatures, angles", "why_tests_cant": "Two independent implementations over all real parameters and branches.", "anchors": ["Merlin++/TransportRMaps.cpp", "Merlin++/TransportMatrix.cpp"]}
{"id": "C162", "title": "First-order matrices solve the equations of motion", "statement": "As functions of the length the matrices of drift and quadrupole, of bends whose focusing does not cancel (in four dimensions of all bends), and of solenoids with more than the tolerance of rotation, are the solution of the linearised equations of motion from the identity.", "quantifier": "all lengths, strengths and curvatures, both signs of focusing", "why_tests_cant": "A statement about derivatives at every point of every element, in all branches.", "anchors": ["Merlin++/TransportMatrix.cpp: SBR, SolR, Drift, Quadrupole, SectorBend, Solenoid"]}
{"id": "C163", "title": "Second-order maps solve the equations of motion", "statement": "The second-order maps of drift, sextupole and quadrupole with a gradient are, for every length, the solution of the equations of motion truncated after second order, with the first-order matrix as linear part; second-order drifts compose; the linear part of the second-order bend is the first-order bend.", "quantifier": "all lengths, curvatures, sextupole strengths, gradients except zero", "why_tests_cant": "Differential equations at every point for all parameters.", "anchors": ["Merlin++/BasicTransportMaps.cpp", "Merlin++/RTMap.cpp"]}
{"id": "C164", "title": "Particles gain the energy of their phase", "statement": "After a travelling-wave step every particle's absolute energy has grown by g*length*cos(phi - k*ct), the reference energy by g*length*cos(phi); time and identity are kept; the transverse coordinates are moved by the cavity matrix; a cavity without gradient is a drift, one without length does nothing, one without frequency is refused.", "quantifier": "all bunches, lengths, gradients, phases", "why_tests_cant": "Statement about all real parameters including the limit of no energy gain and every subset of end fields.", "anchors": ["Merlin++/TransportMatrix.cpp", "Merlin++/TransportRMaps.cpp", "Merlin++/StdIntegrators.cpp"]}
{"id": "C165", "title": "Cavity maps damp by the energy ratio", "statement": "The plane map of an accelerating cavity has determinant E0/E1 for every choice of end fields, which act as thin lenses at the ends; so do the sparse map (unless only the exit field is on), the dense map without end fields and the standing-wave map (horizontally, and vertically in four dimensions); dense maps without end fields of two parts multiply to that of the whole; their longitudinal elements are the derivatives of the energy gain.", "quantifier": "all lengths, gradients, phases, energies with non-vanishing E0 and E1", "why_tests_cant": "Statement about all real parameters including the limit of no energy gain and every subset of end fields.", "anchors": ["Merlin++/TransportMatrix.cpp", "Merlin++/TransportRMaps.cpp", "Merlin++/StdIntegrators.cpp"]}
{"id": "C166", "title": "Lenses, edges and rotations of slices", "statement": "A slice in a quadrupole moves with the matrix of its own momentum and its covariance is transformed by the same matrix, a dipole part kicks the centre in the middle; thin dipole and cavity edge kick the centre, the edge acts as a thin lens on the covariance; rotation turns the transverse coordinates and covariance.", "quantifier": "all slices, lengths, strengths, angles", "why_tests_cant": "Equality of matrices and covariances for all real parameters.", "anchors": ["Merlin++/SMPStdIntegrators.cpp", "Merlin++/TransportRMaps.cpp", "Merlin++/RMap.cpp"]}
{"id": "C167", "title": "Octagonal apertures accept exactly their shape", "statement": "An octagonal aperture with at least one cut side of the corner accepts exactly the rectangle without the cut corners.", "quantifier": "all half widths, admissible corner angles, points", "why_tests_cant": "Degenerate limits of a continuous family of shapes.", "anchors": ["Merlin++/Aperture.cpp: OctagonalAperture, EllipticalAperture"]}
{"id": "C168", "title": "A collimator with errors follows its taper", "statement": "The collimator with jaw errors accepts exactly the points inside the opening interpolated between entrance and exit, seen from the interpolated and tilted axis.", "quantifier": "all openings, tilts, offsets, points", "why_tests_cant": "Needs every combination of setters and positions.", "anchors": ["Merlin++/CollimatorAperture.cpp"]}
{"id": "C169", "title": "Collimator checks with steps of one bin", "statement": "With steps of one bin (the last one shorter) the jaws of a collimator are checked at the end of every bin.", "quantifier": "all lengths and bin sizes", "why_tests_cant": "The failure needs another process with a shorter step.", "anchors": ["Merlin++/CollimateParticleProcess.cpp: DoProcess, SetNextS, GetMaxAllowedStepSize"]}
{"id": "C170", "title": "What channel queries on the whole model return", "statement": "A query returns one channel per matching constructor for each of the elements found, in order, up to the first whose type has no such channel; for all elements if there is none.", "quantifier": "all registrations, elements with non-empty type, keys", "why_tests_cant": "Depends on the types of all other matching elements.", "anchors": ["Merlin++/ChannelServer.cpp: GetROChannels, GetRWChannels, FindElements"]}
{"id": "C171", "title": "Monitor readings reach distinct buffers once", "statement": "An active monitor sends to every attached buffer and to the default buffer, if that is not attached too, exactly one measurement: the scaled bunch centroid with noise, the resolution and the time, after the response function; noise is drawn once for each plane with a resolution; inactive monitors and those without buffers send and draw nothing; buffers are attached at most once.", "quantifier": "all monitors, buffer sets, centroids and noise values", "why_tests_cant": "Arbitrary buffer sets and random noise.", "anchors": ["Merlin++/BPM.cpp: MakeMeasurement", "Merlin++/AMBufferManager.h"]}
{"id": "C172", "title": "A position channel reads the last measurement plus its offset", "statement": "The reading of a plane's channel is the last recorded position plus the offset last set for it, for each plane.", "quantifier": "all buffers and offsets", "why_tests_cant": "Two channels share hidden state.", "anchors": ["Merlin++/BPMChannel.cpp: SetBPMOffset, Read", "Merlin++/BPMDataBuffer.h"]}
{"id": "C173", "title": "Bunch distributions within whole bins", "statement": "If no value in the range lies in the incomplete last bin, the distribution counts every particle in range in its bin, reports the number of the others and, when asked (and the first particle is in range), removes exactly those.", "quantifier": "all bunches, coordinates, ranges and bin widths with this property", "why_tests_cant": "The failures sit on the upper end of the range and on the first particle of the bunch; tests with random particles miss both.", "anchors": ["Merlin++/ParticleBunchUtilities.cpp: ParticleBunchDistribution"]}
{"id": "C174", "title": "Wake fields keep the charge, identities and positions", "statement": "A wake field impulse leaves the total charge unchanged, and identity, transverse position and arrival time of every particle kept; nothing is cut off when all particles are within the requested spreads.", "quantifier": "every bunch, number of slices, number of spreads, filter, wake potential and component length for which the impulse completes", "why_tests_cant": "the cut depends on the statistics of the whole bunch; only particular bunches lose particles", "anchors": ["Merlin++/WakeFieldProcess.cpp (WakeFieldProcess::Init, CalculateQdist, CalculateWakeL, CalculateWakeT, ApplyWakefield)"]}
{"id": "C175", "title": "The wake kick with a fitting filter", "statement": "An impulse of a non-CSR wake takes from each particle's momentum the length times the longitudinal wake at its position and changes its slopes by the transverse wake; the wake at a slice boundary is the sum over the particles behind of charge times potential, interpolated linearly; the reference momentum falls by the mean loss; a potential nowhere negative lets no particle gain momentum; without a filter, or with one that stays within its arrays, the impulse completes exactly when the new reference momentum is positive.", "quantifier": "every bunch, number of slices, spreads, potential, length; any sorting algorithm", "why_tests_cant": "sums over arbitrary bunches and arbitrary potentials", "anchors": ["Merlin++/WakeFieldProcess.cpp (WakeFieldProcess::Init, CalculateQdist, CalculateWakeL, CalculateWakeT, ApplyWakefield)"]}
{"id": "C176", "title": "Tables read one after another continue the line", "statement": "Two models made in succession with one reader: the second starts where the components of the first end, and its components stand one behind the other from there.", "quantifier": "all pairs of tables read without failure", "why_tests_cant": "Histories of reader calls.", "anchors": ["Merlin++/MADInterface.cpp: AppendModel, GetModel, ConstructModel"]}
{"id": "C177", "title": "Symplectic maps solve Hamilton's equations", "statement": "Tracked with the symplectic integrators, a particle in a drift, a quadrupole, a sector bend or a combined-function bend moves, for every length, along the solution of Hamilton's equations of the Hamiltonian the element stands for (exact square root for drifts and for the exact bend, second order in the transverse momenta for the others), starting where it entered. Numbers come out exactly for particles with positive longitudinal momentum and magnets with the strengths the map is made for.", "quantifier": "all particles, lengths, curvatures and gradients in the domain", "why_tests_cant": "a test compares a few trajectories with a tolerance; the claim is equality with the solution for all parameters", "anchors": ["Merlin++/SymplecticIntegrators.cpp: DriftMap, SectorBendMap, SectorBendMapEF, CombinedFunctionSectorBendMap, QuadrupoleMap, MultipoleKick, PoleFaceRotation"]}
{"id": "C178", "title": "Cutting an element does not change tracking", "statement": "Tracking through a drift, quadrupole, bend or combined-function bend in any number of steps, of any lengths, gives exactly the particle that one step over the sum of the lengths gives.", "quantifier": "all lists of step lengths (induction on the list), all particles and strengths in the domain", "why_tests_cant": "the number and the lengths of the steps are unbounded", "anchors": ["Merlin++/SymplecticIntegrators.cpp: DriftMap, SectorBendMap, SectorBendMapEF, CombinedFunctionSectorBendMap, QuadrupoleMap, MultipoleKick, PoleFaceRotation"]}
{"id": "C179", "title": "The maps are symplectic", "statement": "At every particle where it is defined the map of a drift, quadrupole, bend, combined-function bend, exact bend, pole face, multipole kick at any angle, travelling-wave cavity, and of a whole step through a bend with any multipole field (untilted or tilted by more than the comparison tolerance) is differentiable and its derivative is a symplectic matrix of the six coordinates.", "quantifier": "all particles, lengths, strengths, multipole expansions of any order, phases", "why_tests_cant": "a numerical Jacobian at sample points with a tolerance cannot establish an identity in all coordinates and parameters", "anchors": ["Merlin++/SymplecticIntegrators.cpp: DriftMap, SectorBendMap, SectorBendMapEF, CombinedFunctionSectorBendMap, QuadrupoleMap, MultipoleKick, PoleFaceRotation", "Merlin++/SymplecticIntegrators.cpp: SectorBendCI::TrackStep, RectMultipoleCI::TrackStep, TWRFStructureCI::TrackStep, SWRFStructureCI::TrackStep"]}
{"id": "C180", "title": "Every sector bend is tracked", "statement": "Tracking a particle through a sector bend of any curvature, gradient, tilt and field gives finite coordinates that depend on where the particle entered.", "quantifier": "all bends, all particles with positive momentum", "why_tests_cant": "the failures are on a surface in the parameter space", "anchors": ["Merlin++/SymplecticIntegrators.cpp: DriftMap, SectorBendMap, SectorBendMapEF, CombinedFunctionSectorBendMap, QuadrupoleMap, MultipoleKick, PoleFaceRotation", "Merlin++/SymplecticIntegrators.cpp: SectorBendCI::TrackStep, RectMultipoleCI::TrackStep, TWRFStructureCI::TrackStep, SWRFStructureCI::TrackStep"]}
{"id": "C181", "title": "The multipole kick of a step is applied once", "statement": "In a step through a multipole with a quadrupole term the other multipoles, including the dipole term, kick the particle once, in the middle of the step: steering on the axis of a focusing magnet does not exceed the integrated field.", "quantifier": "all multipole fields with gradient", "why_tests_cant": "the effect depends continuously on the field; a test fixes one field", "anchors": ["Merlin++/SymplecticIntegrators.cpp: SectorBendCI::TrackStep, RectMultipoleCI::TrackStep, TWRFStructureCI::TrackStep, SWRFStructureCI::TrackStep"]}
{"id": "C182", "title": "Quadrupole steps keep the area of phase space", "statement": "A step of the symplectic integrator set through a quadrupole keeps the area in each transverse phase plane for particles of any momentum.", "quantifier": "all quadrupoles, lengths, momentum deviations", "why_tests_cant": "the excess is of second order in the momentum deviation", "anchors": ["Merlin++/SymplecticIntegrators.cpp: SectorBendCI::TrackStep, RectMultipoleCI::TrackStep, TWRFStructureCI::TrackStep, SWRFStructureCI::TrackStep"]}
{"id": "C183", "title": "Tracking leaves the magnet's field as it was", "statement": "After a step through a bend or multipole the magnet's field has the coefficients it had before, although they are changed during the step, and a later bunch is tracked as if the first had never been.", "quantifier": "all fields, particles, momenta, steps", "why_tests_cant": "every field and every path through the step is meant", "anchors": ["Merlin++/SymplecticIntegrators.cpp: SectorBendCI::TrackStep, RectMultipoleCI::TrackStep, TWRFStructureCI::TrackStep, SWRFStructureCI::TrackStep"]}
{"id": "C184", "title": "Cavities give each particle the momentum of its phase", "statement": "In a standing-wave structure the reference momentum rises by voltage times cosine of the phase and the particle's own momentum by voltage times the cosine of the phase at its arrival; in a travelling-wave structure the reference stays and the particle gains likewise at the middle of the step, its transverse momenta unchanged. A switched-off cavity is a drift. Standing-wave steps must be whole half wavelengths, otherwise an assertion fails.", "quantifier": "all amplitudes, frequencies, phases, lengths and particles", "why_tests_cant": "holds for all phases and arrivals exactly", "anchors": ["Merlin++/SymplecticIntegrators.cpp: SectorBendCI::TrackStep, RectMultipoleCI::TrackStep, TWRFStructureCI::TrackStep, SWRFStructureCI::TrackStep", "Merlin++/SymplecticIntegrators.cpp: RFStructureMap, RSRFStructureMap"]}
{"id": "C185", "title": "Standing-wave focusing keeps the normalised area", "statement": "The transverse matrix of a standing-wave structure has the ratio of the momenta as determinant, so the normalised area in phase space is kept.", "quantifier": "all voltages, phases and lengths", "why_tests_cant": "must hold for all phases", "anchors": ["Merlin++/SymplecticIntegrators.cpp: RSRFStructureMap"]}
{"id": "C186", "title": "Bends with curvature are tracked and tilts are undone", "statement": "A bend with non-zero curvature, matched dipole field, gradient other than minus the squared curvature and tilt zero or above the tolerance gives finite coordinates to every particle of positive momentum and keeps its momentum; rotating in and back is the identity.", "quantifier": "all such bends with multipole fields of any order, all particles", "why_tests_cant": "all fields and particles", "anchors": ["Merlin++/SymplecticIntegrators.cpp: SectorBendCI::TrackStep, RectMultipoleCI::TrackStep, TWRFStructureCI::TrackStep, SWRFStructureCI::TrackStep"]}
{"id": "C187", "title": "Multipole steps: drifts, one kick, one matrix", "statement": "A thin multipole kicks once by its field; a multipole without gradient is half a drift, one kick by the whole length, half a drift, a symplectic map; an upright quadrupole alone is the matrix of its strength, corrected linearly in the momentum deviation, on momentum equal to the solution of the equations of motion in the transverse coordinates and area-preserving; a magnet without field is a drift.", "quantifier": "all fields of the class, particles, lengths", "why_tests_cant": "all fields and particles", "anchors": ["Merlin++/SymplecticIntegrators.cpp: SectorBendCI::TrackStep, RectMultipoleCI::TrackStep, TWRFStructureCI::TrackStep, SWRFStructureCI::TrackStep"]}
{"id": "C188", "title": "A skew gradient acts with one sign", "statement": "A quadrupole with a skew component moves a particle, over any length, as its field (By + i Bx = K (x + i y)) says, with the sign the same field has in a magnet of no length and in a kick.", "quantifier": "all complex gradients, lengths, particles with the reference momentum", "why_tests_cant": "the claim is about every gradient and every length; a test with an upright gradient, or with one skew magnet compared against itself, cannot see the sign", "anchors": ["Merlin++/SymplecticIntegrators.cpp: SectorBendCI::TrackStep, RectMultipoleCI::TrackStep, MultipoleKick", "Merlin++/TransportMatrix.cpp: Srot"]}
{"id": "C189", "title": "What a step through a rotated quadrupole does", "statement": "A multipole with gradient K only and length acts as the upright quadrupole of strength |K| between axes turned by half the phase of K and back, for particles of any momentum; with no length it gives the kick of K itself; with other multipoles besides the gradient the step is half the quadrupole, the kick of the others turned by half the phase of K, half the quadrupole, the kick again and half a drift.", "quantifier": "all complex gradients whose half phase exceeds the comparison tolerance, lengths, multipole fields, particles", "why_tests_cant": "all fields and particles", "anchors": ["Merlin++/SymplecticIntegrators.cpp: SectorBendCI::TrackStep, RectMultipoleCI::TrackStep, MultipoleKick", "Merlin++/TransportMatrix.cpp: Srot"]}
{"id": "C190", "title": "What a step through a sector bend does", "statement": "A bend with an upright dipole field and gradient acts as the linear map of its curvature and gradient over the whole step; with any other field component as half of it, the kick of everything the linear map leaves out over the whole step, and the other half; tilted, as the untilted bend between turned axes. It is tracked only if charge, curvature and field agree in sign. Pole faces act as the edge matrix; without a gap they focus one plane as strongly as they defocus the other.", "quantifier": "all curvatures, tilts, fields of any order, pole faces, particles, both variants of the bend map", "why_tests_cant": "all fields and particles", "anchors": ["Merlin++/SymplecticIntegrators.cpp: SectorBendCI::TrackStep, RectMultipoleCI::TrackStep, MultipoleKick", "Merlin++/TransportMatrix.cpp: Srot", "Merlin++/SymplecticIntegrators.cpp: SectorBendCI_ef, PoleFaceRotation"]}
{"id": "C191", "title": "The second-order map of a bend solves the equations of motion", "statement": "The second-order map of a sector bend without gradient moves every particle as the solution, to second order in the coordinates, of the equations of motion in canonical momenta, plus terms that die out like 1/(gamma^2-1); the solution is symplectic to that order. Without curvature, or for gamma not above one, there is no map.", "quantifier": "all curvatures, lengths, energies, particles", "why_tests_cant": "the claim is a differential equation in the length for every particle and curvature", "anchors": ["Merlin++/BasicTransportMaps.cpp: SectorBendTM, GenSectorBendTM, PoleFaceTM"]}
{"id": "C192", "title": "The second-order bend map is symplectic at every energy", "statement": "The second-order map of a bend is symplectic up to second order in the coordinates whatever the energy of the reference particle.", "quantifier": "all curvatures, lengths, energies", "why_tests_cant": "a property of the derivative of the map at every point, for all magnets", "anchors": ["Merlin++/BasicTransportMaps.cpp: SectorBendTM, GenSectorBendTM, PoleFaceTM"]}
{"id": "C193", "title": "A bend of vanishing curvature becomes a drift", "statement": "As the curvature of a bend goes to zero its second-order map approaches that of a drift of the same length.", "quantifier": "all lengths, energies, particles", "why_tests_cant": "a limit over all curvatures", "anchors": ["Merlin++/BasicTransportMaps.cpp: SectorBendTM, DriftTM"]}
{"id": "C194", "title": "The second-order map of a bend with gradient", "statement": "The second-order map of a sector bend with gradient and sextupole component solves the equations of motion for the two positions, the two slopes and the momentum, once h*S*x*x' (S the sine-like solution) is added to x. It exists exactly when curvature, gradient, K1+h^2 and 5*K1+h^2 are all nonzero.", "quantifier": "all curvatures, gradients, sextupole components, lengths, particles", "why_tests_cant": "a differential equation with some thirty coefficients, each a function of length, curvature and gradients", "anchors": ["Merlin++/BasicTransportMaps.cpp: SectorBendTM, GenSectorBendTM, PoleFaceTM"]}
{"id": "C195", "title": "The combined-function bend map is right for every magnet", "statement": "The second-order map of a bend with gradient exists for every gradient and moves particles, path length included, as the equations of motion say.", "quantifier": "all curvatures, gradients, sextupole components, lengths, particles", "why_tests_cant": "the claim is for every magnet and particle", "anchors": ["Merlin++/BasicTransportMaps.cpp: SectorBendTM, GenSectorBendTM, PoleFaceTM"]}
{"id": "C196", "title": "The second-order map of a pole face", "statement": "The second-order map of a pole face has the first-order edge matrix as its derivative on the axis; it is symplectic to second order exactly if 3 K1 tan(b) - h c/(2 cos^3 b) +- h^2 tan^2(b) (tan(b) - tan(b - fringe)) is zero, in particular for magnets without gradient with flat faces and hard edges. An upright face shifts x by +-h y^2/2 and kicks y accordingly.", "quantifier": "all curvatures, gradients, face angles and curvatures, fringe fields, both ends", "why_tests_cant": "a property of the derivative at every point for all magnets", "anchors": ["Merlin++/BasicTransportMaps.cpp: SectorBendTM, GenSectorBendTM, PoleFaceTM"]}
{"id": "C197", "title": "Pole face maps are symplectic", "statement": "The second-order map of a pole face is symplectic to second order in the coordinates for every magnet.", "quantifier": "all curvatures, gradients, face angles, fringe fields", "why_tests_cant": "a property of the derivative at every point for all magnets", "anchors": ["Merlin++/BasicTransportMaps.cpp: SectorBendTM, GenSectorBendTM, PoleFaceTM"]}
{"id": "C198", "title": "The default integrator steps through straight magnets as its maps say", "statement": "With the default integrators a step through a drift is the second-order drift map and steps add up. A magnet with only a normal quadrupole or sextupole component applies the second-order map of that strength for the whole step; with further components the map is applied for half of the step, then the kick of all other components, scaled with the momentum of the particle, then the map again; without quadrupole and sextupole the halves are drifts; a thin magnet is one kick. The field of the magnet is the same afterwards.", "quantifier": "all steps, magnets, particles", "why_tests_cant": "the claim is for every particle, step length, field and reference momentum", "anchors": ["Merlin++/TransportIntegrators.cpp: DriftCI::TrackStep, RectMultipoleCI::TrackStep, MultipoleKick"]}
{"id": "C199", "title": "Rotated magnets are tracked in rotated axes", "statement": "A quadrupole or sextupole with a skew component is tracked by turning the particle by minus the angle of its strength, passing the upright magnet of the same modulus and turning back; the kick of other components inside the turned axes is the field at the turned position times one more phase.", "quantifier": "all strengths whose angle exceeds the tolerance, steps, particles", "why_tests_cant": "the claim is for every particle, step length, field and reference momentum", "anchors": ["Merlin++/TransportIntegrators.cpp: RectMultipoleCI::TrackStep, RotateBunchAboutZ"]}
{"id": "C200", "title": "Skew magnets act along their own field", "statement": "With the default integrators a magnet with skew components deflects particles along the field it declares, whatever the angle.", "quantifier": "all strengths, steps, particles", "why_tests_cant": "the claim is for every particle, step length, field and reference momentum", "anchors": ["Merlin++/TransportIntegrators.cpp: RectMultipoleCI::TrackStep"]}
{"id": "C201", "title": "The default integrator steps through bends as its maps say", "statement": "With the default integrators a step through a sector bend applies the second-order map of the bend, at the momentum of the particle relative to the momentum the bend is made for; skew and higher components act as a kick between two half steps. Without gradient the map is the second-order solution of the equations of motion (massless particles) or that plus the terms of C191. A bend that bends the wrong way is rejected. The field is the same afterwards. In a pure bend only the momentum of the particle counts, not the reference momentum; the opposite charge in the opposite field moves alike, in bends and straight magnets.", "quantifier": "all bends, steps, particles, reference momenta", "why_tests_cant": "the claim is for every particle, step length, field and reference momentum", "anchors": ["Merlin++/TransportIntegrators.cpp: SectorBendCI::TrackStep, ApplyMap1", "Merlin++/SectorBend.cpp: SectorBend::GetMatchedMomentum"]}
{"id": "C202", "title": "The motion in a bend does not depend on the reference momentum", "statement": "Two bunches that hold a particle of the same momentum and coordinates, but have different reference momenta, see it leave a sector bend in the same place.", "quantifier": "all bends, reference momenta, particles", "why_tests_cant": "the claim is for every particle, step length, field and reference momentum", "anchors": ["Merlin++/TransportIntegrators.cpp: SectorBendCI::TrackStep"]}
{"id": "C203", "title": "Pole faces and tilts in the default integrators", "statement": "With the default integrators the faces of a bend are the second-order maps of C196, of the sense of an entrance for every type other than zero; upright faces of the two types at the two ends cancel; a face along the beam gives no number; a tilted bend is entered by a turn of minus the tilt and left by a turn of the tilt.", "quantifier": "all bends, faces, tilts, particles", "why_tests_cant": "the claim is for every particle, step length, field and reference momentum", "anchors": ["Merlin++/TransportIntegrators.cpp: SectorBendCI::TrackEntrance, SectorBendCI::TrackExit, SectorBendCI::ApplyPoleFaceRotation"]}
{"id": "C204", "title": "Bends without face data have plain ends, for either charge and any tilt", "statement": "With the default integrators the ends of a bend for which no faces were given cancel; faces treat the opposite charge in the opposite field alike; a bend with a very small tilt acts like one without.", "quantifier": "all bends, tilts, particles", "why_tests_cant": "the claim is for every particle, step length, field and reference momentum", "anchors": ["Merlin++/TransportIntegrators.cpp: SectorBendCI::ApplyPoleFaceRotation, SectorBendCI::TrackEntrance, RotateBunchAboutZ"]}
{"id": "C205", "title": "The integrator sets agree on the sense of a tilt", "statement": "A tilted bend bends in the same direction whichever set of integrators is chosen.", "quantifier": "all tilted bends, particles", "why_tests_cant": "the claim is for every particle, step length, field and reference momentum", "anchors": ["Merlin++/TransportIntegrators.cpp: SectorBendCI::TrackEntrance", "Merlin++/SymplecticIntegrators.cpp: SectorBendCI::TrackStep"]}
{"id": "C206", "title": "Each bend owns its pole faces", "statement": "If a program hands each pole face to at most one bend, gives both faces when it sets two, and does not assign a bend to itself, then no sequence of making, setting, copying, assigning, turning and destroying bends touches or frees a face that is gone; each bend always shows the faces last given to it, copies are independent of the original, and every face a bend has owned is freed once no bend owns it.", "quantifier": "all such programs", "why_tests_cant": "memory safety and freedom from leaks over every history of operations", "anchors": ["Merlin++/SectorBend.h: SectorBend::PoleFaceInfo", "Merlin++/SectorBend.cpp: SectorBend::PoleFaceInfo::Copy, SectorBend::SetPoleFaceInfo, SectorBend::RotateY180"]}
{"id": "C207", "title": "Pole faces can be set in every way the interface offers", "statement": "Setting one face for both ends, or a face at one end only, turning a bend around, setting the same faces again and assigning a bend to itself leave a bend with an entrance face at its entrance and an exit face at its exit.", "quantifier": "all bends and faces", "why_tests_cant": "the claim is for every state of the bends before", "anchors": ["Merlin++/SectorBend.h: SectorBend::PoleFaceInfo", "Merlin++/SectorBend.cpp: SectorBend::PoleFaceInfo::Copy, SectorBend::SetPoleFaceInfo, SectorBend::RotateY180", "Merlin++/MADInterface.cpp: RBendComponent, SBendComponent"]}
{"id": "C208", "title": "Bends in the thin lens integrators follow the linear equations of motion", "statement": "In the THIN_LENS set a drift is a straight line; a sector bend carries a particle with the solution of the linear equations of motion, written for the momentum the magnet is made for, over the step, or over two halves around one kick by the remaining multipoles if there are any; without curvature it is a quadrupole. A tilted magnet acts in its own frame, pole faces are thin lenses and missing faces do nothing. A bend whose field bends the wrong way stops the program, the field of the magnet is left as it was, the opposite charge in the opposite field moves the same way, and for pure dipoles only the momentum of the particle counts.", "quantifier": "all bends, particles, momenta, charges and steps; tilts zero or above the comparison tolerance", "why_tests_cant": "equality with the flow of a differential equation for every real step and particle", "anchors": ["Merlin++/StdIntegrators.cpp: psdrift, MultipoleKick, DriftCI::TrackStep, SectorBendCI::TrackStep, SectorBendCI::TrackEntrance, SectorBendCI::TrackExit, SectorBendCI::ApplyPoleFaceRotation", "Merlin++/MatrixMaps.cpp: RMtrx::Apply"]}
{"id": "C209", "title": "Straight magnets in the thin lens integrators", "statement": "In the THIN_LENS set a straight magnet of some length without field is a drift; one without gradient is a kick by its field half way through a drift; one with a normal gradient acts by the linear motion and its first derivative with respect to the momentum deviation, with one kick by all the other multipoles half way. The field is left as it was, and the opposite charge in the opposite field moves the same way.", "quantifier": "all magnets, particles, momenta, charges and steps", "why_tests_cant": "equality with the flow of a differential equation and its derivative for every real input", "anchors": ["Merlin++/StdIntegrators.cpp: RectMultipoleCI::TrackStep"]}
{"id": "C210", "title": "Every magnet acts by its field in the thin lens integrators", "statement": "In the THIN_LENS set a magnet of no length kicks by its integrated field, a magnet switched off by its field scale and a magnet seen by neutral particles are drifts, the focusing of a bend depends on the momentum of the particle and not on how it is split into reference and deviation, and a bend disperses momenta whatever its gradient.", "quantifier": "all magnets and particles", "why_tests_cant": "the claim is for every magnet and particle", "anchors": ["Merlin++/StdIntegrators.cpp: RectMultipoleCI::TrackStep, SectorBendCI::TrackStep", "Merlin++/TransportMatrix.cpp: SBR"]}
{"id": "C211", "title": "Solenoids transport by the exact linear motion at the momentum of each particle", "statement": "A solenoid step carries the transverse coordinates of each particle with the solution of the equations of motion in a longitudinal field, for the momentum of that particle; it keeps the canonical angular momentum, the path length and the momentum; successive steps add up, only the momentum of the particle counts, and without field the step is a drift.", "quantifier": "all fields, momenta, charges, particles and steps whose rotation exceeds the comparison tolerance", "why_tests_cant": "equality with the flow of a differential equation for every real input", "anchors": ["Merlin++/StdIntegrators.cpp: SolenoidCI::TrackStep", "Merlin++/TransportMatrix.cpp: Solenoid"]}
{"id": "C212", "title": "Particles advance in every solenoid", "statement": "Through a solenoid with some field each particle moves along its slope at least as in a drift when the field is too weak to turn it, or when it has no charge.", "quantifier": "all solenoids and particles", "why_tests_cant": "the claim is for every strength, also those near the tolerance", "anchors": ["Merlin++/StdIntegrators.cpp: SolenoidCI::TrackStep", "Merlin++/TransportMatrix.cpp: SolR"]}
{"id": "C213", "title": "Monitors measure at their measurement point", "statement": "A monitor of some length transports as a drift of that length in whatever steps it is tracked; each measurement shows the bunch as it is at the measurement point; the measurements are as many as steps end beyond that point, so just one when the monitor is tracked in one step. A monitor of no length measures the bunch as it is, once, and accepts only a step of no length.", "quantifier": "all monitors, measurement points, particles and subdivisions into steps", "why_tests_cant": "ranges over all subdivisions into steps and real inputs", "anchors": ["Merlin++/StdIntegrators.cpp: MonitorCI::TrackStep", "Merlin++/ComponentIntegrator.h: Track", "Merlin++/Monitor.h: Monitor"]}
{"id": "C214", "title": "Monitors measure exactly once in a passage", "statement": "Whatever the steps and the measurement point, up to and including the exit, one passage through a monitor makes one measurement.", "quantifier": "all monitors and subdivisions into steps", "why_tests_cant": "ranges over all subdivisions into steps", "anchors": ["Merlin++/StdIntegrators.cpp: MonitorCI::TrackStep"]}
{"id": "C215", "title": "The transfer matrix of a linear machine is exact", "statement": "For a machine that moves particles linearly the transfer matrix of a turn or of a stretch is exactly the matrix of the motion, whatever orbit and step it is taken with; matrices of consecutive stretches multiply, and those of the turn seen from two places are similar. For any machine the error of an element is at most the curvature of the motion times the step.", "quantifier": "all lattices, orbits, steps other than zero, observation points and radiation settings", "why_tests_cant": "equality for every lattice, orbit and step", "anchors": ["Merlin++/TransferMatrix.cpp: TransferMatrix::FindTM", "Merlin++/AcceleratorModel.cpp: GetRing, GetBeamline", "Merlin++/RingDeltaTProcess.cpp: DoProcess"]}
{"id": "C216", "title": "The closed orbit of a linear machine is found", "statement": "For a linear machine whose orbit can be solved for, the search started from any particle returns the closed orbit, the only one with the longitudinal coordinates of the particle if those are kept, and with three or more iterations allowed reports a figure of merit within the tolerance. A particle that is on a closed orbit of any machine is returned unchanged after one iteration. Orbits found at two places are the same orbit. Over any history of calls of the setters, radiation steps are those of the last call of Radiation(true), SetRadStepSize or SetRadNumSteps, and are always set when radiation is on.", "quantifier": "all lattices, starting particles, places, tolerances below one and limits of at least two", "why_tests_cant": "every lattice and starting point", "anchors": ["Merlin++/ClosedOrbit.cpp: ClosedOrbit::FindClosedOrbit", "Merlin++/TLASimp.h: SVDMatrix::Init, SVDsolve"]}
{"id": "C217", "title": "The dispersion of a linear machine is exact", "statement": "For a linear machine whose transverse orbit can be solved for, the dispersion found is the one periodic solution of the equation of the dispersion, whatever step in momentum is used and whatever the orbit of the machine is.", "quantifier": "all lattices, places and steps other than zero", "why_tests_cant": "every lattice and step", "anchors": ["Merlin++/Dispersion.cpp: Dispersion::FindDispersion", "Merlin++/ClosedOrbit.cpp: ClosedOrbit::FindClosedOrbit"]}
{"id": "C218", "title": "A search that reports convergence has found a closed orbit", "statement": "If the closed orbit search ends with a figure of merit within the tolerance, the orbit it returns closes to that accuracy.", "quantifier": "all lattices", "why_tests_cant": "every lattice", "anchors": ["Merlin++/ClosedOrbit.cpp: ClosedOrbit::FindClosedOrbit", "Merlin++/TLASimp.h: SVDMatrix::Init"]}
{"id": "C219", "title": "The number of iterations allowed is the number made", "statement": "With a limit of n iterations the closed orbit search makes up to n iterations, and reports how many it made.", "quantifier": "all lattices, settings and limits of at least one", "why_tests_cant": "every lattice and limit", "anchors": ["Merlin++/ClosedOrbit.cpp: ClosedOrbit::FindClosedOrbit, ClosedOrbit::SetMaxIterations"]}
{"id": "C220", "title": "The rms of an orbit", "statement": "The rms orbit is, in each coordinate, the root of the mean over the length of the square of the orbit half way between the ends of each component; an orbit that is the same at the ends of all components has that value as its rms.", "quantifier": "all lattices of positive length and particles", "why_tests_cant": "every lattice and orbit", "anchors": ["Merlin++/ClosedOrbit.cpp: ClosedOrbit::FindRMSOrbit"]}
{"id": "C221", "title": "The rms dispersion and the dispersion along the machine", "statement": "The rms dispersion is taken over the dispersion at the ends of all components, and the rows written give the dispersion at the position they name.", "quantifier": "all lattices", "why_tests_cant": "every lattice", "anchors": ["Merlin++/Dispersion.cpp: Dispersion::FindRMSDispersion"]}
{"id": "C222", "title": "The map between two components is taken about the closed orbit", "statement": "The transfer map between two components is the linear motion about the closed orbit where the first of them is.", "quantifier": "all lattices and components", "why_tests_cant": "every lattice", "anchors": ["Merlin++/PhaseAdvance.cpp: PhaseAdvance::TransferMapBetween", "Merlin++/TransferMatrix.cpp: TransferMatrix::FindTM"]}
{"id": "C223", "title": "A transfer matrix can be asked for with the default settings", "statement": "A transfer matrix object that has been told nothing about radiation finds the closed orbit and the matrix about it.", "quantifier": "all lattices and settings", "why_tests_cant": "the values read have never been set: tests see whatever is in memory", "anchors": ["Merlin++/TransferMatrix.cpp: TransferMatrix::TransferMatrix, TransferMatrix::FindTM, TransferMatrix::FindClosedOrbitTM"]}
{"id": "C224", "title": "A table of lattice functions has a row in front of every component and one at the end", "statement": "A calculation that succeeds leaves the columns asked for, in the order asked for, each with one row per component and one more; the path length column gives the length of the components before the row, the orbit columns the coordinates there of the particle that started on the closed orbit, or where the user said. If the longitudinal motion is as the columns need and no stretch from the start is singular, the calculation succeeds.", "quantifier": "all lattices, tables, starting particles, steps and bend scales", "why_tests_cant": "every lattice and every list of columns", "anchors": ["Merlin++/LatticeFunctions.cpp: LatticeFunctionTable::Calculate, DoCalculate, CalculateLatticeFunction"]}
{"id": "C225", "title": "The lattice functions are those of the eigenvectors carried along", "statement": "Without acceleration the function (i, j, k) in a row is the product of coordinates i and j of the k-th eigenvector of the turn, carried to that row by the motion about the orbit, whatever the phases of the eigenvectors are.", "quantifier": "all lattices, tables, orbits, steps and eigenvectors", "why_tests_cant": "every lattice and eigenvector", "anchors": ["Merlin++/LatticeFunctions.cpp: LatticeFunctionTable::DoCalculate, CalculateLatticeFunction"]}
{"id": "C226", "title": "The phase advance in a row is the turn of the eigenvector up to there", "statement": "Without acceleration the phase function of a plane is, in turns, the angle by which the eigenvector of that plane has turned between the start and the row; it lies between -1e-9 and 1 in the transverse planes and between -1/2 and 1/2 in the longitudinal plane, and is 0 at the start.", "quantifier": "all lattices, tables, planes and rows", "why_tests_cant": "every lattice and row", "anchors": ["Merlin++/LatticeFunctions.cpp: LatticeFunctionTable::DoCalculate, CalculateLatticeFunction"]}
{"id": "C227", "title": "In a ring the lattice functions close and the last phase is the tune", "statement": "If the eigenvector of a plane is turned by an angle in one turn, the functions of that plane are the same in the last row as in the first, and the phase in the last row is that angle.", "quantifier": "all rings, planes and angles", "why_tests_cant": "every ring", "anchors": ["Merlin++/LatticeFunctions.cpp: LatticeFunctionTable::DoCalculate"]}
{"id": "C228", "title": "The Courant-Snyder invariant holds in every row", "statement": "For motion that keeps the area in phase space, or if the table is told to make the matrices symplectic, the functions of a plane satisfy in every row the relation of beta, alpha and gamma, generalised to coupled motion.", "quantifier": "all lattices, planes and rows", "why_tests_cant": "every lattice and row", "anchors": ["Merlin++/LatticeFunctions.cpp: LatticeFunctionTable::DoCalculate, MakeTMSymplectic"]}
{"id": "C229", "title": "The columns of a table after any sequence of requests", "statement": "After any sequence of requests the first column is the path length; the table is one of the orbit only exactly if no column of the motion has been asked for since the last reset; adding a function appends one column; the sets of columns are the documented ones; and settings survive later requests.", "quantifier": "all histories of requests", "why_tests_cant": "every history", "anchors": ["Merlin++/LatticeFunctions.cpp: LatticeFunctionTable::AddFunction, RemoveAllFunctions, UseOrbitFunctions, UseDefaultFunctions, SetDelta, ScaleBendPathLength, MakeTMSymplectic, SetForceLongitudinalStability"]}
{"id": "C230", "title": "A table of the orbit only", "statement": "A table of the orbit only has one row per component, with the path length and the coordinates in front of it of the particle that started on the closed orbit or where the user said; for columns that exist the calculation succeeds.", "quantifier": "all lattices, tables and starting particles", "why_tests_cant": "every lattice", "anchors": ["Merlin++/LatticeFunctions.cpp: LatticeFunctionTable::DoCalculateOrbitOnly"]}
{"id": "C231", "title": "Asking for one more function leaves the other columns alone", "statement": "Adding a function to a table does not change the number of rows of the columns it already has.", "quantifier": "all lattices and tables", "why_tests_cant": "every lattice and table", "anchors": ["Merlin++/LatticeFunctions.cpp: LatticeFunctionTable::DoCalculate, DoCalculateOrbitOnly, AddFunction"]}
{"id": "C232", "title": "Reading a table", "statement": "A value read is the one in that row of the first column with those indices, a row that does not exist is refused, the table printed has exactly the rows asked for, and a function that is not in the table is refused.", "quantifier": "all tables, indices and rows", "why_tests_cant": "every table and index", "anchors": ["Merlin++/LatticeFunctions.cpp: LatticeFunctionTable::Value, GetColumn, PrintTable, Size, NumberOfRows"]}
{"id": "C233", "title": "The row at a position", "statement": "The index found for a position is that of the first row at or behind it, or -1 if there is none.", "quantifier": "all tables and positions", "why_tests_cant": "every table and position", "anchors": ["Merlin++/LatticeFunctions.cpp: LatticeFunctionTable::GetSPosIndex"]}
{"id": "C234", "title": "Means of lattice functions", "statement": "The mean of a function over a stretch is its integral by trapezoids over the length; along a machine that does not go backwards it lies between the smallest and the largest value, the mean of the path length is that of its ends, and the rms is the root of the mean of squares and not below the mean.", "quantifier": "all tables, functions and stretches of length other than zero", "why_tests_cant": "every table and stretch", "anchors": ["Merlin++/LatticeFunctions.cpp: LatticeFunctionTable::Mean, RMS"]}
{"id": "C235", "title": "The mean over a single row is the value there", "statement": "The mean of a function from a row to the same row is the value in that row.", "quantifier": "all tables, functions and rows", "why_tests_cant": "every table and row", "anchors": ["Merlin++/LatticeFunctions.cpp: LatticeFunctionTable::Mean, RMS"]}
{"id": "C236", "title": "Derivatives of lattice functions with energy", "statement": "CalculateEnergyDerivative gives the change of each function with the momentum of the closed orbit.", "quantifier": "all lattices and tables", "why_tests_cant": "every lattice and table", "anchors": ["Merlin++/LatticeFunctions.cpp: LatticeFunctionTable::CalculateEnergyDerivative, DoCalculate", "Merlin++/LatticeFunctions.cpp: LatticeFunction::Derivative"]}
{"id": "C237", "title": "Derivatives of the orbit with energy", "statement": "In a table of the orbit only CalculateEnergyDerivative gives in every row the difference of the two closed orbits there over the difference of their momenta, and keeps the path length; if the momenta differ it succeeds.", "quantifier": "all lattices and tables of the orbit only", "why_tests_cant": "every lattice", "anchors": ["Merlin++/LatticeFunctions.cpp: LatticeFunctionTable::CalculateEnergyDerivative, DoCalculateOrbitOnly", "Merlin++/LatticeFunctions.cpp: LatticeFunction::Derivative"]}
{"id": "C238", "title": "Longitudinal functions of motion that is not stable are refused", "statement": "If the longitudinal motion is not stable, a table with a longitudinal function is refused, and with ForceLongitudinalStability a machine with longitudinal focusing is refused.", "quantifier": "all lattices and tables", "why_tests_cant": "every lattice and table", "anchors": ["Merlin++/LatticeFunctions.cpp: LatticeFunctionTable::DoCalculate, CalculateLatticeFunction, SetForceLongitudinalStability"]}
{"id": "C239", "title": "Symplectic matrices for motion that is stable only across", "statement": "MakeTMSymplectic works for a machine whose longitudinal motion is not stable.", "quantifier": "all lattices and tables", "why_tests_cant": "every lattice", "anchors": ["Merlin++/LatticeFunctions.cpp: LatticeFunctionTable::DoCalculate, MakeTMSymplectic", "Merlin++/LinearAlgebra.cpp: Symplectify"]}
{"id": "C240", "title": "Lattice functions under acceleration", "statement": "For motion about the axis in proportion to the displacement, the functions in a row are those of the eigenvectors carried along, times the momentum there over the momentum at the start.", "quantifier": "all lattices with acceleration, tables and rows", "why_tests_cant": "every lattice and row", "anchors": ["Merlin++/LatticeFunctions.cpp: LatticeFunctionTable::DoCalculate"]}
{"id": "C241", "title": "Under acceleration the functions do not depend on the orbit", "statement": "For linear motion the lattice functions under acceleration are the same about every orbit.", "quantifier": "all lattices with acceleration and orbits", "why_tests_cant": "every lattice and orbit", "anchors": ["Merlin++/LatticeFunctions.cpp: LatticeFunctionTable::DoCalculate"]}
{"id": "C242", "title": "Phase advances between elements", "statement": "Phase advances between elements add up. If the phase grows by less than 0.9999 of a turn from row to row and no turn is completed at the two elements, the phase advance between them is the true one, with its whole turns.", "quantifier": "all tables and pairs of rows", "why_tests_cant": "every table and pair", "anchors": ["Merlin++/PhaseAdvance.cpp: PhaseAdvance::PhaseAdvanceBetween, CalcIntegerPart"]}
{"id": "C243", "title": "Every turn is counted", "statement": "The phase advance up to an element counts every turn completed up to there.", "quantifier": "all tables and elements", "why_tests_cant": "every table and element", "anchors": ["Merlin++/PhaseAdvance.cpp: PhaseAdvance::CalcIntegerPart, PhaseAdvanceBetween"]}
{"id": "C244", "title": "A hollow electron lens changes nothing but the angles of particles beyond its inner radius", "statement": "A call of the process keeps the number, order, identity, position, time and momentum deviation of the particles and the reference momentum, time and charge of the bunch; a particle not further from the centre of the lens than its inner radius is left as it is; what happens to a particle does not depend on the other particles; of the lens only the turn counter changes, by one.", "quantifier": "all lenses, modes, bunches, random numbers and turns", "why_tests_cant": "every bunch and mode", "anchors": ["Merlin++/HollowELensProcess.cpp: HollowELensProcess::DoProcess, CalcKickSimple, CalcKickRadial"]}
{"id": "C245", "title": "The perfect profile deflects by the current within the radius of the particle", "statement": "With the perfect profile the deflection at a radius is that by a line current, times the share of a uniform beam between the two radii which lies within that radius (an integral over the density).", "quantifier": "all lenses, radii and velocities", "why_tests_cant": "every radius", "anchors": ["Merlin++/HollowELensProcess.cpp: HollowELensProcess::CalcKickSimple, CalcThetaMax"]}
{"id": "C246", "title": "The measured profiles deflect by the current within the radius of the particle", "statement": "With either measured profile the deflection at a radius is that by a line current, times the share, as an integral, of the density given by straight lines through the measured points which lies within that radius.", "quantifier": "all lenses, radii and velocities, both profiles", "why_tests_cant": "every radius", "anchors": ["Merlin++/HollowELensProcess.cpp: HollowELensProcess::CalcKickRadial, CalcThetaMax"]}
{"id": "C247", "title": "A centred lens pulls towards its centre or pushes away from it", "statement": "No call changes the angular momentum of a particle about the axis; a centred lens which is on deflects each particle beyond the inner radius towards the centre when the electrons move against the protons and away from it when they move with them.", "quantifier": "all lenses, bunches and profiles", "why_tests_cant": "every particle", "anchors": ["Merlin++/HollowELensProcess.cpp: HollowELensProcess::DoProcess"]}
{"id": "C248", "title": "A lens off the axis acts about its own centre", "statement": "The deflection by a lens with offsets is along the line from the centre of the lens to the particle.", "quantifier": "all lenses with offsets and particles", "why_tests_cant": "every offset and position", "anchors": ["Merlin++/HollowELensProcess.cpp: HollowELensProcess::DoProcess"]}
{"id": "C249", "title": "A lens with mode and radii set works on every bunch for any number of turns", "statement": "A lens whose mode and radii are set, with finite rigidity and velocities and a usable sweep, processes every bunch without undefined behaviour or numbers which are not finite, for any number of turns and steps, counting them.", "quantifier": "all such lenses, bunches, random numbers, steps and turns", "why_tests_cant": "every history", "anchors": ["Merlin++/HollowELensProcess.cpp: HollowELensProcess::DoProcess, SetCurrentComponent"]}
{"id": "C250", "title": "Every constructed lens can be used", "statement": "A lens constructed with any integer as mode, and used without setting the radii, behaves in a defined way.", "quantifier": "all constructor arguments and bunches", "why_tests_cant": "undefined behaviour need not show", "anchors": ["Merlin++/HollowElectronLens.cpp: HollowElectronLens::HollowElectronLens", "Merlin++/HollowELensProcess.cpp: HollowELensProcess::DoProcess"]}
{"id": "C251", "title": "The measured profile lies between the radii given", "statement": "With a measured profile the current flows between the inner and the outer radius the user has set.", "quantifier": "all lenses and radii", "why_tests_cant": "every pair of radii", "anchors": ["Merlin++/HollowELensProcess.cpp: HollowELensProcess::CalcKickRadial", "Merlin++/HollowElectronLens.cpp: HollowElectronLens::SetRadii"]}
{"id": "C252", "title": "Asking for the LHC profile gives the LHC profile", "statement": "After SetLHCRadialProfile the kick is that of the measured profile of the LHC lens.", "quantifier": "all lenses and particles", "why_tests_cant": "every order of calls", "anchors": ["Merlin++/HollowElectronLens.h: SetLHCRadialProfile, SetRadialProfile, SetPerfectProfile"]}
{"id": "C253", "title": "In turn skip mode the lens acts on every n-th turn and no other", "statement": "Over any number of turns the lens acts exactly on those whose number, counted from construction or the last SetAC, is a multiple of the number set (2 if none), and then like a lens which is always on.", "quantifier": "all lenses, bunches, numbers and histories of turns", "why_tests_cant": "every history", "anchors": ["Merlin++/HollowELensProcess.cpp: HollowELensProcess::DoProcess", "Merlin++/HollowElectronLens.cpp: HollowElectronLens::SetTurnskip"]}
{"id": "C254", "title": "In AC mode the kick is between none and the full kick, the same share for all", "statement": "In AC mode each particle gets the kick of the lens which is always on times (1 + cos) / 2 of the phase of the operating tune after that many turns, a number between 0 and 1 common to all particles; without SetAC nothing happens.", "quantifier": "all lenses, bunches and turns", "why_tests_cant": "every turn and tune", "anchors": ["Merlin++/HollowELensProcess.cpp: HollowELensProcess::DoProcess"]}
{"id": "C255", "title": "A sweep of the tune goes from the lowest to the highest tune and starts again", "statement": "When the range is a whole number of steps the tune goes up one step every so many turns, stays between the lowest and the highest, and starts again after the highest; without range or step it is the tune given.", "quantifier": "all sweeps of whole steps and turns", "why_tests_cant": "every turn", "anchors": ["Merlin++/HollowELensProcess.cpp: HollowELensProcess::DoProcess", "Merlin++/HollowElectronLens.cpp: HollowElectronLens::SetAC"]}
{"id": "C256", "title": "Every sweep stays in its range", "statement": "For any range, step and number of turns per step the operating tune is a number in the range.", "quantifier": "all sweeps and turns", "why_tests_cant": "every sweep", "anchors": ["Merlin++/HollowELensProcess.cpp: HollowELensProcess::DoProcess", "Merlin++/HollowElectronLens.cpp: HollowElectronLens::SetAC"]}
{"id": "C257", "title": "In diffusive mode one random number decides for the whole bunch", "statement": "In diffusive mode each call takes one random number and acts on all particles like a lens which is always on if it is not negative, on none otherwise; the other modes take no random number.", "quantifier": "all lenses, bunches and random sequences", "why_tests_cant": "every random sequence", "anchors": ["Merlin++/HollowELensProcess.cpp: HollowELensProcess::DoProcess"]}
{"id": "C258", "title": "The kick does not depend on the number of steps", "statement": "Tracking through the lens in several steps gives the same kick and the same count of turns as in one step.", "quantifier": "all lenses, bunches and numbers of steps", "why_tests_cant": "every division into steps", "anchors": ["Merlin++/HollowELensProcess.cpp: HollowELensProcess::DoProcess, GetMaxAllowedStepSize"]}
{"id": "C259", "title": "The velocity used is that of the protons of the bunch", "statement": "The kick uses the velocity of a proton of the reference momentum.", "quantifier": "all reference momenta", "why_tests_cant": "every momentum", "anchors": ["Merlin++/HollowELensProcess.cpp: HollowELensProcess::SetCurrentComponent", "Merlin++/PhysicalConstants.cpp: LorentzGamma, LorentzBeta, ProtonMass"]}
{"id": "C260", "title": "The printed profile gives the kicks at the radii it lists", "statement": "A lens with radii and beam size set prints 999 rows; row i gives the radius i (max - min) / 1000 in beam sizes, the kicks of both profiles there and their sizes.", "quantifier": "all lenses, energies and ranges", "why_tests_cant": "every range", "anchors": ["Merlin++/HollowELensProcess.cpp: HollowELensProcess::OutputProfile"]}
{"id": "C261", "title": "The printed profile covers the range asked for", "statement": "The profile printed goes from the lower end to the upper end given.", "quantifier": "all lenses and ranges", "why_tests_cant": "every range", "anchors": ["Merlin++/HollowELensProcess.cpp: HollowELensProcess::OutputProfile"]}
{"id": "C262", "title": "No history changes the length of a spin", "statement": "If all spins of a bunch and all spins added to it have the same length, then after any sequence of adding and erasing particles, sorting, exchanging particles, turning the frame, changing settings and tracking steps every spin still has that length; each single step and each turn of the frame keeps the length of each spin.", "quantifier": "all sequences of operations, all components, fields, momenta and lengths of steps", "why_tests_cant": "every history and every field", "anchors": ["Merlin++/SpinParticleProcess.cpp: RotateSpin, DoProcess, ApplyTransformation, AddParticle, erase"]}
{"id": "C263", "title": "Spins obey the Thomas-BMT equation", "statement": "In any component that is not a bend, away from the ends of a solenoid, a step of length ds takes the spin of each particle along the solution of dS/ds = Omega x S with the precession vector of Thomas, Bargmann, Michel and Telegdi for the field at the particle and the particle's own momentum; this solution exists and is unique.", "quantifier": "all fields, particles, spins, momenta and lengths of steps", "why_tests_cant": "an equality with the solution of a differential equation for every field and length", "anchors": ["Merlin++/SpinParticleProcess.cpp: RotateSpin, DoProcess"]}
{"id": "C264", "title": "A step is entrance, body, exit, and touches nothing but spins", "statement": "A step applies the fringe field of the entrance exactly when it starts at the beginning of a component, then the body over the length of the step, then the fringe field of the exit exactly when it ends at the end; particles, reference momentum and settings stay, and the new spin of a particle depends on its own coordinates and spin only.", "quantifier": "all components, steps and bunches", "why_tests_cant": "every component, position and particle", "anchors": ["Merlin++/SpinParticleProcess.cpp: DoProcess"]}
{"id": "C265", "title": "Spins stay numbers", "statement": "With positive momenta and one spin per particle a step gives a number for every spin, whatever the field, the component and the length of the step, including no field at all.", "quantifier": "all fields, components, steps and bunches of positive momenta", "why_tests_cant": "a division by the size of the precession vector must be safe for every field", "anchors": ["Merlin++/SpinParticleProcess.cpp: RotateSpin, DoProcess"]}
{"id": "C266", "title": "In bends spins are relative to the design orbit", "statement": "In a bend the spin of any particle turns relative to the frame of the design orbit as the field makes it turn, less the turning of the frame.", "quantifier": "all particles of any momentum in the body of a bend", "why_tests_cant": "every momentum", "anchors": ["Merlin++/SpinParticleProcess.cpp: RotateSpin, DoProcess"]}
{"id": "C267", "title": "In bends spins of the reference momentum are relative to the design orbit", "statement": "In the body of a bend the spin of a particle of the reference momentum turns as the field makes it turn, less the turning of a frame with the curvature the vertical field gives the reference particle.", "quantifier": "all bends, fields, particles with dp = 0, spins and steps", "why_tests_cant": "every field and length", "anchors": ["Merlin++/SpinParticleProcess.cpp: RotateSpin, DoProcess"]}
{"id": "C268", "title": "The end of a solenoid acts by the field Gauss's law asks for", "statement": "Passing the end of a solenoid turns the spin by the integral of the radial field that conserves the flux, in inverse proportion to the rigidity.", "quantifier": "all solenoids, particles and momenta", "why_tests_cant": "every field and momentum", "anchors": ["Merlin++/SpinParticleProcess.cpp: DoProcess"]}
{"id": "C269", "title": "The end of a dipole acts by the field Ampere's law asks for", "statement": "Passing the end of a dipole with upright faces turns the spin by the integral of the longitudinal field that makes the circulation vanish.", "quantifier": "all bends, particles and momenta", "why_tests_cant": "every field and height", "anchors": ["Merlin++/SpinParticleProcess.cpp: DoProcess"]}
{"id": "C270", "title": "The two ends of a magnet undo each other", "statement": "A solenoid of no length, or a dipole of no length with upright faces, leaves the bunch and all its spins as they were.", "quantifier": "all strengths, particles, spins and momenta", "why_tests_cant": "rotations that do not commute must cancel for every particle", "anchors": ["Merlin++/SpinParticleProcess.cpp: DoProcess"]}
{"id": "C271", "title": "Cutting a magnet into steps does not matter", "statement": "Any sequence of steps through a component gives the same spins as one step over their sum, provided all but the last end behind the entrance and before the exit and the particles do not move in between.", "quantifier": "all components, fields, bunches and lists of steps", "why_tests_cant": "every division into steps", "anchors": ["Merlin++/SpinParticleProcess.cpp: DoProcess"]}
{"id": "C272", "title": "A step of no length does nothing", "statement": "A step of length zero leaves all spins as they were.", "quantifier": "all components and places in them", "why_tests_cant": "every place", "anchors": ["Merlin++/SpinParticleProcess.cpp: DoProcess"]}
{"id": "C273", "title": "SetNumComponentSteps sets the number of steps", "statement": "With SetNumComponentSteps(n) tracking takes at least n steps through a component and then goes on to the next.", "quantifier": "all n > 1, components with a field, and other processes in the table", "why_tests_cant": "termination for every table of processes", "anchors": ["Merlin++/SpinParticleProcess.cpp: GetMaxAllowedStepSize, SetNumComponentSteps", "Merlin++/ProcessStepManager.cpp: Track"]}
{"id": "C274", "title": "By default the spin process does not limit the steps", "statement": "With one step per component the process allows all that is left of the component, wherever it stands, so that alone it takes one step over the whole length; it is active exactly where there is a field and the bunch carries spins.", "quantifier": "all components, sequences of steps and tables", "why_tests_cant": "every sequence of steps", "anchors": ["Merlin++/SpinParticleProcess.cpp: GetMaxAllowedStepSize, SetCurrentComponent"]}
{"id": "C275", "title": "Every particle keeps its own spin", "statement": "Under adding, erasing, turning the frame, changing settings and tracking, the n-th spin remains that of the n-th particle: adding adds a pair, with spin along z by default, erasing removes the pair, a turn of the frame turns both.", "quantifier": "all sequences of these operations", "why_tests_cant": "every history", "anchors": ["Merlin++/SpinParticleProcess.cpp: AddParticle, push_back, erase, ApplyTransformation, DoProcess"]}
{"id": "C276", "title": "Sorting takes the spins along", "statement": "SortByCT orders the particles by ct and every particle keeps its spin.", "quantifier": "all bunches", "why_tests_cant": "every order", "anchors": ["Merlin++/SpinParticleProcess.cpp: SortByCT"]}
{"id": "C277", "title": "Lost particles take their spins with them", "statement": "When a process removes particles from a spin bunch by exchanging its particles, those left keep their spins.", "quantifier": "all bunches and losses", "why_tests_cant": "every loss", "anchors": ["Merlin++/ParticleBunch.h: clear, swap", "Merlin++/CollimateParticleProcess.cpp: DoCollimation", "Merlin++/SpinParticleProcess.cpp: DoProcess"]}
{"id": "C278", "title": "The average spin is the mean", "statement": "GetAverageSpin is the mean of the spins, its length is at most one when theirs are, and only an empty bunch gives something that is not a number.", "quantifier": "all bunches", "why_tests_cant": "every bunch", "anchors": ["Merlin++/SpinParticleProcess.cpp: GetAverageSpin"]}
{"id": "C279", "title": "A mixture is the average of its parts", "statement": "The atomic and mass number and the cross sections of a mixture are the means over its parts weighted with their shares, the energy loss and the inverse radiation length the means weighted with their masses, the density is the given one and the mean free path belongs to these values. It is made whenever all parts are known and the sums are not zero; a wrong number of shares or an unknown part is reported.", "quantifier": "all tables of materials, lists of parts, shares and densities", "why_tests_cant": "an identity for every list of parts", "anchors": ["Merlin++/MaterialProperties.cpp: Mixture::Mixture"]}
{"id": "C280", "title": "Only the ratios of the shares count", "statement": "Multiplying all shares of a mixture by the same number other than zero gives the same mixture.", "quantifier": "all mixtures and factors", "why_tests_cant": "every factor", "anchors": ["Merlin++/MaterialProperties.cpp: Mixture::Mixture"]}
{"id": "C281", "title": "The order of the parts does not matter", "statement": "Listing the parts of a mixture with their shares in another order gives the same members, and the same nuclei up to order.", "quantifier": "all mixtures and permutations", "why_tests_cant": "every permutation", "anchors": ["Merlin++/MaterialProperties.cpp: Mixture::Mixture"]}
{"id": "C282", "title": "A mixture of one part is that part", "statement": "A mixture with a single part has all members of the part, whatever its share, and its nuclei are those of the part.", "quantifier": "all materials, shares and densities", "why_tests_cant": "every material", "anchors": ["Merlin++/MaterialProperties.cpp: Mixture::Mixture, A_H, A_R"]}
{"id": "C283", "title": "Averages lie between the least and the greatest", "statement": "With shares that are not negative each averaged member of a mixture lies between the least and the greatest value of the parts.", "quantifier": "all mixtures with shares that are not negative and positive A", "why_tests_cant": "every list of parts", "anchors": ["Merlin++/MaterialProperties.cpp: Mixture::Mixture"]}
{"id": "C284", "title": "Shares by weight", "statement": "A mixture made by weight weights the energy loss and the inverse radiation length with the given weights, and everything else with weight over A; its A is the weighted harmonic mean.", "quantifier": "all tables, lists of parts and weights", "why_tests_cant": "an identity for every list", "anchors": ["Merlin++/MaterialData.cpp: MakeMixtureByWeight"]}
{"id": "C285", "title": "A wrong number of weights is reported", "statement": "MakeMixtureByWeight with a number of weights other than that of parts reports an error.", "quantifier": "all lists", "why_tests_cant": "every length", "anchors": ["Merlin++/MaterialData.cpp: MakeMixtureByWeight"]}
{"id": "C286", "title": "Making a mixture changes only its own entry", "statement": "MakeMixture and MakeMixtureByWeight leave all other materials as they were, and when they fail the table is as before.", "quantifier": "all tables, arguments and orders of evaluation", "why_tests_cant": "every table; C++14 leaves the order of evaluation open", "anchors": ["Merlin++/MaterialData.cpp: MakeMixture, MakeMixtureByWeight"]}
{"id": "C287", "title": "The nucleus hit is chosen by the random number", "statement": "For a uniform random number r the nucleus is the first one where the sum of the shares of the cross section reaches r.", "quantifier": "all mixtures and random numbers", "why_tests_cant": "every random number", "anchors": ["Merlin++/MaterialProperties.cpp: A_H, A_R"]}
{"id": "C288", "title": "Nuclei are hit according to cross section and share", "statement": "Each nucleus of a mixture is hit with a probability in proportion to its share times its cross section.", "quantifier": "all mixtures", "why_tests_cant": "every composition", "anchors": ["Merlin++/MaterialProperties.cpp: Mixture::Mixture, A_H, A_R"]}
{"id": "C289", "title": "Names of parts are separated by single spaces", "statement": "The parts of a mixture are exactly what stands between single spaces: names without spaces joined by single spaces are found again, and joining what is found gives the string back.", "quantifier": "all strings", "why_tests_cant": "every string", "anchors": ["Merlin++/MaterialData.cpp: MakeMixture"]}
{"id": "C290", "title": "Extra values can be read back", "statement": "After SetExtra each name has its value, other names and all other members are as before; names may be any words separated by white space. Fewer numbers than names are undefined.", "quantifier": "all materials, lists of distinct names and values", "why_tests_cant": "every list", "anchors": ["Merlin++/MaterialProperties.cpp: SetExtra, GetExtra, HaveExtra"]}
{"id": "C291", "title": "Reading an extra value changes nothing", "statement": "GetExtra leaves the material as it was.", "quantifier": "all materials and names", "why_tests_cant": "every material", "anchors": ["Merlin++/MaterialProperties.cpp: GetExtra"]}
{"id": "C292", "title": "A copy is like the original", "statement": "A copied or assigned material has all the members of the original.", "quantifier": "all materials", "why_tests_cant": "every material", "anchors": ["Merlin++/MaterialProperties.cpp: MaterialProperties(const MaterialProperties&), operator="]}
{"id": "C293", "title": "The mean free path belongs to the other members", "statement": "After construction, Update, EnergyScale and the making of a mixture the mean free path is that of the cross sections, density and mass number; Update touches nothing else.", "quantifier": "all values", "why_tests_cant": "every value", "anchors": ["Merlin++/MaterialProperties.cpp: MaterialProperties, Update, EnergyScale, Mixture::Mixture"]}
{"id": "C294", "title": "A material can be scaled to another energy", "statement": "EnergyScale gives the material at another energy with its extra values and nuclei.", "quantifier": "all materials and energies", "why_tests_cant": "every material", "anchors": ["Merlin++/MaterialProperties.cpp: EnergyScale"]}
{"id": "C295", "title": "The prepared table holds the listed materials", "statement": "StandardMaterialData is built without error, whatever the order of evaluation, and holds the eleven elements with the listed values and extra values, AC150K, IT180 and Glidcop.", "quantifier": "both orders of evaluation, all entries", "why_tests_cant": "the order of evaluation is left open; reads of unset members do not show", "anchors": ["Merlin++/MaterialData.cpp: StandardMaterialData::StandardMaterialData"]}
{"id": "C296", "title": "Every prepared material has a positive mean free path", "statement": "Each material of StandardMaterialData has a positive mean free path that belongs to its other members.", "quantifier": "all materials of the table", "why_tests_cant": "an unset member may hold anything", "anchors": ["Merlin++/MaterialData.cpp: StandardMaterialData::StandardMaterialData", "Merlin++/ScatteringModel.cpp: PathLength"]}
{"id": "C297", "title": "Prepared mixtures are made of measured values", "statement": "The values of IT180 are averages of measured values of its parts.", "quantifier": "the table", "why_tests_cant": "a reference value for the mixture is needed", "anchors": ["Merlin++/MaterialData.cpp: StandardMaterialData::StandardMaterialData"]}
{"id": "C298", "title": "UseSixTrackValues sets the values of SixTrack", "statement": "UseSixTrackValues gives each of its seven elements the total cross section used by SixTrack.", "quantifier": "all tables", "why_tests_cant": "reading beyond an array goes unnoticed", "anchors": ["Merlin++/MaterialData.cpp: StandardMaterialData::UseSixTrackValues"]}
{"id": "C299", "title": "A wrong number of shares or an unknown part is reported", "statement": "MakeMixture with a wrong number of shares throws; an unknown part is reported by MakeMixture and MakeMixtureByWeight, the latter before anything is changed.", "quantifier": "all tables and lists", "why_tests_cant": "every list", "anchors": ["Merlin++/MaterialData.cpp: MakeMixture, MakeMixtureByWeight"]}
{"id": "C300", "title": "Measured elements have positive values", "statement": "Al, Be, C, Cu, Pb, Si and W of StandardMaterialData have a positive mean free path that belongs to their other members, and positive radiation length and energy loss.", "quantifier": "both orders of evaluation, all seven elements", "why_tests_cant": "the order of evaluation is left open", "anchors": ["Merlin++/MaterialData.cpp: StandardMaterialData::StandardMaterialData"]}
{"id": "C301", "title": "Simple energy loss is dE/dx times the way", "statement": "With the simple energy loss a proton loses the dE/dx of the material times the length of its way.", "quantifier": "all materials, protons, ways and energies", "why_tests_cant": "every material; a lost loss is hidden by the other processes", "anchors": ["Merlin++/ScatteringModel.cpp: EnergyLossSimple"]}
{"id": "C302", "title": "A given value is lost per metre", "statement": "With a value under SixtrackdEdx in the extra values of the material the simple energy loss takes this energy per metre and changes nothing else of the proton or the material.", "quantifier": "all materials with a value, protons, ways and energies", "why_tests_cant": "every value", "anchors": ["Merlin++/ScatteringModel.cpp: EnergyLossSimple"]}
{"id": "C303", "title": "The SixTrack models use the simple energy loss", "statement": "The scattering models of SixTrack without ionisation use the simple energy loss, the others the full one.", "quantifier": "all models and histories of scatterings", "why_tests_cant": "every history", "anchors": ["Merlin++/ScatteringModel.cpp: ConfigureProcesses, EnergyLoss, ScatteringModel::ScatteringModel", "Merlin++/ScatteringModelsMerlin.cpp"]}
{"id": "C304", "title": "Cross sections in use belong to the material", "statement": "After any sequence of scatterings in any materials the cross sections and processes in use are those of the material of the last one, made for the energy of the first scattering in this material.", "quantifier": "all sequences of materials and energies, all five models", "why_tests_cant": "every history", "anchors": ["Merlin++/ScatteringModel.cpp: ParticleScatter", "Merlin++/ScatteringModelsMerlin.cpp"]}
{"id": "C305", "title": "Cross sections follow the energy", "statement": "The cross sections in use are those for the energy of the proton which is scattered.", "quantifier": "all sequences of energies", "why_tests_cant": "every history", "anchors": ["Merlin++/ScatteringModel.cpp: ParticleScatter", "Merlin++/ScatteringModelsMerlin.cpp"]}
{"id": "C306", "title": "Processes are chosen by their cross sections", "statement": "The process is the first one whose cross section, added to those before, exceeds the random share of the total, the last one otherwise; it then acts on the proton. Choosing is never undefined for elements.", "quantifier": "all histories, materials and random numbers", "why_tests_cant": "every random number and history; reading beyond the list does not show", "anchors": ["Merlin++/ScatteringModel.cpp: ParticleScatter"]}
{"id": "C307", "title": "Rutherford scattering has its rate", "statement": "The rate of Rutherford scattering per metre is its cross section times the density of nuclei.", "quantifier": "all materials with positive cross sections", "why_tests_cant": "a rate is a statement on all random numbers", "anchors": ["Merlin++/ScatteringModel.cpp: ParticleScatter, PathLength", "Merlin++/MaterialProperties.cpp: Update"]}
{"id": "C308", "title": "A process takes energy and gives transverse momentum", "statement": "A process on a proton at the reference energy takes the energy and gives the transverse momentum belonging to its exchange, in the plane of the random number, and changes nothing else; it reports whether more than 0.1 GeV is left. After an inelastic process the proton is lost.", "quantifier": "all processes, protons, energies and random numbers", "why_tests_cant": "every proton and random number", "anchors": ["Merlin++/ScatteringProcess.cpp: Scatter methods, ScatterStuff"]}
{"id": "C309", "title": "Off momentum protons lose the same energy", "statement": "The energy a process takes in a collimator is the one of its exchange, for protons of any energy.", "quantifier": "all processes and protons", "why_tests_cant": "every proton", "anchors": ["Merlin++/CollimateProtonProcess.cpp: DoScatter", "Merlin++/ScatteringProcess.cpp: ScatterStuff"]}
{"id": "C310", "title": "A proton leaving the jaw goes on straight", "statement": "A proton which is back inside the aperture leaves the collimator where its straight way leads.", "quantifier": "all protons, apertures and lengths", "why_tests_cant": "every proton and aperture", "anchors": ["Merlin++/CollimateProtonProcess.cpp: DoScatter"]}
{"id": "C311", "title": "A proton meeting nothing goes through", "statement": "A proton which stays in the jaw and meets nothing leaves at the end of the collimator, on its straight way, unreported.", "quantifier": "all protons and lengths", "why_tests_cant": "every proton", "anchors": ["Merlin++/CollimateProtonProcess.cpp: DoScatter"]}
{"id": "C312", "title": "Every absorbed proton is reported once", "statement": "Every absorbed proton is reported to the collimation outputs exactly once, and no surviving one.", "quantifier": "all protons, media and random numbers", "why_tests_cant": "every way through the collimator", "anchors": ["Merlin++/CollimateProtonProcess.cpp: DoScatter, Dispose"]}
{"id": "C313", "title": "Losses are placed where the proton stopped", "statement": "The place of a reported loss is where the proton was stopped.", "quantifier": "all protons and media", "why_tests_cant": "every way through the collimator", "anchors": ["Merlin++/CollimateProtonProcess.cpp: DoScatter, Dispose"]}
{"id": "C314", "title": "The way through a collimator ends inside it", "statement": "With free paths above some length the loop ends, after at most length over that length turns; with free paths that are not negative the place of the proton stays within the collimator.", "quantifier": "all media, protons and lengths", "why_tests_cant": "termination for all random numbers", "anchors": ["Merlin++/CollimateProtonProcess.cpp: DoScatter"]}
{"id": "C315", "title": "Protons can be scattered in every prepared material", "statement": "A proton can be followed through a collimator of any material of the prepared table.", "quantifier": "all protons and materials", "why_tests_cant": "NaN hides in the coordinates of some protons", "anchors": ["Merlin++/CollimateProtonProcess.cpp: DoScatter", "Merlin++/ScatteringModel.cpp: PathLength, EnergyLossFull", "Merlin++/MaterialData.cpp"]}
{"id": "C316", "title": "Multiple scattering has the widths of the review", "statement": "Multiple scattering adds to angle and position of each plane combinations of independent normal numbers with the widths and the correlation given by the Particle Data Group for the mean energy, the planes independently, and changes nothing else.", "quantifier": "all materials, protons, ways and random numbers", "why_tests_cant": "covariances are statements on all random numbers", "anchors": ["Merlin++/ScatteringModel.cpp: Straggle"]}
{"id": "C317", "title": "Constants of the medium belong to the material", "statement": "Radiation length and constants of the energy loss are those of the material the proton is in.", "quantifier": "all histories of materials", "why_tests_cant": "every history; addresses are reused by the allocator", "anchors": ["Merlin++/ScatteringModel.cpp: Straggle, EnergyLossFull"]}
{"id": "C318", "title": "The density correction distinguishes excitation energies", "statement": "The constants of the density correction are those of Sternheimer for solids below 100 eV when the excitation energy is below, those above otherwise; the excitation energy is the given one or 10 eV times Z, and C and the width follow from it.", "quantifier": "all materials", "why_tests_cant": "every material", "anchors": ["Merlin++/ScatteringModel.cpp: EnergyLossFull"]}
{"id": "C319", "title": "Full energy loss is the probable loss plus fluctuation", "statement": "A proton loses the most probable energy loss of Landau, Vavilov and Bichsel with the density correction and higher orders, plus xi times the Landau number.", "quantifier": "all materials, protons, ways and random numbers", "why_tests_cant": "every material and energy", "anchors": ["Merlin++/ScatteringModel.cpp: EnergyLossFull"]}
{"id": "C320", "title": "Scattering keeps the number of the proton", "statement": "Whatever happens in a collimator, the proton keeps its number.", "quantifier": "all protons, media, apertures and random numbers", "why_tests_cant": "every way through the collimator", "anchors": ["Merlin++/CollimateProtonProcess.cpp: DoScatter", "Merlin++/ScatteringModel.cpp: ParticleScatter"]}
{"id": "C321", "title": "Cross sections of the five models", "statement": "The cross sections of a model are the total, the Rutherford, the elastic and single diffractive ones of 1.618 A^0.333 nucleons and the inelastic one; the models differ in the source of the elastic and single diffractive ones as named.", "quantifier": "all models, materials and energies", "why_tests_cant": "every material and energy", "anchors": ["Merlin++/ScatteringModelsMerlin.cpp"]}
{"id": "C322", "title": "Free paths are exponential", "statement": "A proton goes further than x without meeting anything exactly when its random number is below exp(-x/lambda); a material whose mean free path was never set is undefined to use.", "quantifier": "all materials, lengths and random numbers", "why_tests_cant": "a distribution is a statement on all random numbers", "anchors": ["Merlin++/ScatteringModel.cpp: PathLength"]}
{"id": "C323", "title": "Each proton gets fresh random numbers", "statement": "What happens to a proton in a collimator depends only on the random numbers between the position before and the one after it.", "quantifier": "all protons, media, models and two sequences of random numbers", "why_tests_cant": "every pair of sequences", "anchors": ["Merlin++/CollimateProtonProcess.cpp: DoScatter", "Merlin++/ScatteringModel.cpp"]}
{"id": "C324", "title": "Rows of an aperture file become entries at both ends", "statement": "Each row of the file with an aperture gives one entry at the beginning and one at the end of its element, rows without give none, and the entries are in order along the machine when the elements follow each other.", "quantifier": "all files", "why_tests_cant": "every file", "anchors": ["Merlin++/ApertureConfiguration.cpp: AssignAperturesToList, ApertureConfiguration::ApertureConfiguration"]}
{"id": "C325", "title": "An element gets the first entry at or behind its position", "statement": "An element with a length which is no drift and has no aperture gets the aperture of the first entry at or behind its position; behind the last entry an error is reported.", "quantifier": "all ordered tables, elements and positions", "why_tests_cant": "every position", "anchors": ["Merlin++/ApertureConfiguration.cpp: ConfigureElementApertures"]}
{"id": "C326", "title": "An element gets its own aperture", "statement": "An element for which the file lists an aperture gets this aperture.", "quantifier": "all files of elements following each other", "why_tests_cant": "every file; ties of positions", "anchors": ["Merlin++/ApertureConfiguration.cpp: ConfigureElementApertures"]}
{"id": "C327", "title": "Configuring sets missing apertures only", "statement": "Configuring changes only the apertures of elements which have a length and no aperture; type, length, position and order stay; the number printed is the number of these elements; it succeeds when the search for each of them does.", "quantifier": "all tables and lists of elements", "why_tests_cant": "every list", "anchors": ["Merlin++/ApertureConfiguration.cpp: ConfigureElementApertures"]}
{"id": "C328", "title": "Configuring twice is configuring once", "statement": "A second configuration with the same table changes nothing.", "quantifier": "all tables and lists of elements", "why_tests_cant": "every list", "anchors": ["Merlin++/ApertureConfiguration.cpp: ConfigureElementApertures"]}
{"id": "C329", "title": "The number of configured apertures counts apertures", "statement": "The number of configured apertures is the number of elements which got one.", "quantifier": "all tables and elements", "why_tests_cant": "every type of aperture", "anchors": ["Merlin++/ApertureConfiguration.cpp: ConfigureElementApertures"]}
{"id": "C330", "title": "A drift between equal entries gets their aperture", "statement": "A drift whose entries before, along and behind it are equal gets this aperture.", "quantifier": "all ordered tables and drifts", "why_tests_cant": "every table", "anchors": ["Merlin++/ApertureConfiguration.cpp: ConfigureElementApertures"]}
{"id": "C331", "title": "The entries used for a drift", "statement": "A drift between entries of one type but different sizes is interpolated with the last entry before it when none is at its beginning, those along it and the next one, their positions measured from the beginning of the drift.", "quantifier": "all ordered tables and drifts", "why_tests_cant": "every table", "anchors": ["Merlin++/ApertureConfiguration.cpp: ConfigureElementApertures"]}
{"id": "C332", "title": "Round pipes are interpolated along a drift", "statement": "Inside a drift between round entries the pipe is the disc whose radius is the linear interpolation between the two entries around the place.", "quantifier": "all ordered tables, drifts, places behind the beginning and particles", "why_tests_cant": "every place", "anchors": ["Merlin++/ApertureConfiguration.cpp: ConfigureElementApertures", "Merlin++/InterpolatedApertures.cpp: InterpolatedCircleAperture"]}
{"id": "C333", "title": "The pipe at the beginning of a drift", "statement": "At the beginning of a drift with round entries there the pipe is the smaller disc of these entries.", "quantifier": "all ordered tables and drifts", "why_tests_cant": "ties of positions", "anchors": ["Merlin++/ApertureConfiguration.cpp: ConfigureElementApertures", "Merlin++/InterpolatedApertures.cpp: InterpolatedCircleAperture"]}
{"id": "C334", "title": "A drift before the first entry is interpolated around the ring", "statement": "Before the first entry of the table the pipe lies between the last entry and the first.", "quantifier": "all ordered tables and drifts", "why_tests_cant": "every table", "anchors": ["Merlin++/ApertureConfiguration.cpp: ConfigureElementApertures"]}
{"id": "C335", "title": "A drift behind the last entry begins with it", "statement": "Behind the last entry of the table the pipe lies between the last entry and the first.", "quantifier": "all ordered tables and drifts", "why_tests_cant": "every table", "anchors": ["Merlin++/ApertureConfiguration.cpp: ConfigureElementApertures"]}
{"id": "C336", "title": "Both shapes limit a drift between types", "statement": "Where the type of the entries changes along a drift, the pipe at the place of an entry is the shape of this entry.", "quantifier": "all ordered tables and drifts", "why_tests_cant": "every pair of types", "anchors": ["Merlin++/ApertureConfiguration.cpp: ConfigureElementApertures", "Merlin++/InterpolatedApertures.cpp: InterpolatorFactory"]}
{"id": "C337", "title": "Octagons and rounded shapes do not mix", "statement": "Rounded and octagonal entries of different sizes around one drift end the program with a message.", "quantifier": "all ordered tables and drifts", "why_tests_cant": "every table", "anchors": ["Merlin++/ApertureConfiguration.cpp: ConfigureElementApertures"]}
{"id": "C338", "title": "A configured drift can be tracked through", "statement": "When a drift was given an aperture, particles can be tested against it.", "quantifier": "all ordered tables and drifts", "why_tests_cant": "every table", "anchors": ["Merlin++/ApertureConfiguration.cpp: ConfigureElementApertures", "Merlin++/InterpolatedApertures.cpp: InterpolatedRectangularAperture"]}
{"id": "C339", "title": "Deleting apertures frees each once", "statement": "When no two elements share an aperture, deleting the apertures frees those of all elements once, nothing else, and leaves the elements without one; a shared aperture is freed twice, which is undefined.", "quantifier": "all lists of elements and apertures", "why_tests_cant": "sharing of objects", "anchors": ["Merlin++/ApertureConfiguration.cpp: DeleteAllApertures"]}
{"id": "C340", "title": "A collimator file is read line by line", "statement": "Each line of a collimator file becomes one record with its name, numbers and material, in order; words behind the last complete line are left out.", "quantifier": "all files of well-formed lines, both formats", "why_tests_cant": "every file", "anchors": ["Merlin++/CollimatorDatabase.cpp: constructor"]}
{"id": "C341", "title": "A word in place of a number in a collimator file is reported", "statement": "A line of a collimator file with a word in place of a number is reported.", "quantifier": "all files with such a line", "why_tests_cant": "every file", "anchors": ["Merlin++/CollimatorDatabase.cpp: constructor"]}
{"id": "C342", "title": "An unknown material in a collimator file is reported", "statement": "A material which is not in the material database is reported when collimators are configured.", "quantifier": "all records and collimators", "why_tests_cant": "every file", "anchors": ["Merlin++/CollimatorDatabase.cpp: ConfigureCollimators(model)"]}
{"id": "C343", "title": "Collimators get the gaps of the file", "statement": "With gaps given, each collimator named in the file gets jaws of its gap, tilted, and its material; name, length and place stay; the others do not change.", "quantifier": "all files and beamlines without repeated names", "why_tests_cant": "every file and beamline", "anchors": ["Merlin++/CollimatorDatabase.cpp: ConfigureCollimators(model)"]}
{"id": "C344", "title": "All collimators of a name are configured", "statement": "Every collimator with the name of a record is configured.", "quantifier": "all files and beamlines", "why_tests_cant": "every beamline", "anchors": ["Merlin++/CollimatorDatabase.cpp: ConfigureCollimators(model)"]}
{"id": "C345", "title": "Offsets and jaw tilts of a collimator file are used", "statement": "The offsets and tilts of single jaws in the file change the jaws.", "quantifier": "all files and beamlines", "why_tests_cant": "every file", "anchors": ["Merlin++/CollimatorDatabase.cpp: ConfigureCollimators(model)"]}
{"id": "C346", "title": "Jaws matched to the beam", "statement": "With matching, jaws are centred on the orbit and open by the given multiples of the beam size, tilted, everything interpolated between the entrance and the exit.", "quantifier": "all optical functions, records, collimators and particle positions", "why_tests_cant": "every particle and position along the collimator", "anchors": ["Merlin++/CollimatorDatabase.cpp: ConfigureCollimators(model, emittances, twiss)"]}
{"id": "C347", "title": "The height of jaws is a multiple of the vertical beam size", "statement": "The half height of the jaws is the given multiple of the vertical beam size.", "quantifier": "all optical functions and records", "why_tests_cant": "every optics", "anchors": ["Merlin++/CollimatorDatabase.cpp: ConfigureCollimators(model, emittances, twiss)"]}
{"id": "C348", "title": "Jaws not matched take in both ends", "statement": "Without matching and tilt, jaws are parallel and take in just the openings at both ends; for the one-sided absorber there is no jaw at the negative side.", "quantifier": "all optical functions, records and particle positions", "why_tests_cant": "every particle", "anchors": ["Merlin++/CollimatorDatabase.cpp: ConfigureCollimators(model, emittances, twiss)"]}
{"id": "C349", "title": "Tilted jaws not matched take in both ends", "statement": "Without matching, tilted jaws take in the openings at both ends.", "quantifier": "all optical functions and records", "why_tests_cant": "every optics", "anchors": ["Merlin++/CollimatorDatabase.cpp: ConfigureCollimators(model, emittances, twiss)"]}
{"id": "C350", "title": "Alignment errors of jaws", "statement": "With alignment errors each jaw is displaced by its own position error and turned by its own angle error, and both by a common displacement; five random numbers are used.", "quantifier": "all random numbers, optical functions, records and particle positions", "why_tests_cant": "every random number and particle", "anchors": ["Merlin++/CollimatorDatabase.cpp: ConfigureCollimators(model, emittances, twiss)"]}
{"id": "C351", "title": "Alignment errors of no size do nothing", "statement": "With error sizes zero the jaws are where they are without errors.", "quantifier": "all random numbers and optical functions", "why_tests_cant": "every random number", "anchors": ["Merlin++/CollimatorDatabase.cpp: ConfigureCollimators(model, emittances, twiss)"]}
{"id": "C352", "title": "The position error is an rms displacement", "statement": "The position error given is the rms displacement of a jaw.", "quantifier": "all error sizes and random numbers", "why_tests_cant": "every size", "anchors": ["Merlin++/CollimatorDatabase.cpp: ConfigureCollimators(model, emittances, twiss)"]}
{"id": "C353", "title": "Alignment errors can be switched on", "statement": "Switching on the alignment errors gives jaws with errors.", "quantifier": "all optical functions and records", "why_tests_cant": "every optics", "anchors": ["Merlin++/CollimatorDatabase.cpp: ConfigureCollimators(model, emittances, twiss)"]}
{"id": "C354", "title": "The impact parameter", "statement": "The result is the multiple of the beam size of the primary collimator plus the given distance in beam sizes; other collimators and a distance of 1 leave it.", "quantifier": "all optical functions, records and settings", "why_tests_cant": "every optics", "anchors": ["Merlin++/CollimatorDatabase.cpp: ConfigureCollimators(model, emittances, twiss)"]}
{"id": "C355", "title": "The impact parameter without the primary collimator", "statement": "The result does not depend on earlier calls when the primary collimator is not configured.", "quantifier": "all files and beamlines", "why_tests_cant": "every history of calls", "anchors": ["Merlin++/CollimatorDatabase.cpp: ConfigureCollimators(model, emittances, twiss)"]}
{"id": "C356", "title": "Every collimator of the file gets jaws", "statement": "Every collimator named in the file gets jaws.", "quantifier": "all optical functions and collimators", "why_tests_cant": "every optics", "anchors": ["Merlin++/CollimatorDatabase.cpp: ConfigureCollimators(model, emittances, twiss)"]}
{"id": "C357", "title": "Configuring by optical functions is local", "statement": "Only collimators named in the file change, and only jaws and material, each by its own record.", "quantifier": "all files and beamlines without repeated names", "why_tests_cant": "every file and beamline", "anchors": ["Merlin++/CollimatorDatabase.cpp: ConfigureCollimators(model, emittances, twiss)"]}
{"id": "C358", "title": "An unknown material is reported when optical functions are used", "statement": "A material which is not in the material database is reported when collimators are configured from optical functions.", "quantifier": "all records and optical functions", "why_tests_cant": "every file", "anchors": ["Merlin++/CollimatorDatabase.cpp: ConfigureCollimators(model, emittances, twiss)"]}
{"id": "C359", "title": "A ring distribution has the emittances of the beam", "statement": "In a bunch made from a ring distribution every particle has the emittances of the beam as Courant-Snyder invariants.", "quantifier": "all beams, random numbers, filters and particles", "why_tests_cant": "every random number", "anchors": ["Merlin++/ParticleDistributionGenerator.cpp: RingParticleDistributionGenerator", "Merlin++/ParticleBunch.cpp: constructor with a generator"]}
{"id": "C360", "title": "A halo distribution has the given amplitude", "statement": "In a bunch made from a halo distribution of one plane every particle has the given amplitude in units of sigma there and is on the centroid in the other plane, or within the cutoffs.", "quantifier": "all beams, sizes, cutoffs, random numbers, filters and particles", "why_tests_cant": "every random number", "anchors": ["Merlin++/HaloParticleDistributionGenerator.cpp", "Merlin++/ParticleBunch.cpp: constructor with a generator"]}
{"id": "C361", "title": "The halo for a hollow lens has the given radii", "statement": "Particles of the thin halo lie on the circle of the outer radius and those of the thick one in the annulus between both radii, in units of the beam sizes.", "quantifier": "all beams, radii, random numbers, filters and particles", "why_tests_cant": "every random number", "anchors": ["Merlin++/HollowElensParticleDistributionGenerator.cpp", "Merlin++/ParticleBunch.cpp: constructor with a generator"]}
{"id": "C362", "title": "The halo for a hollow lens has no angles", "statement": "Particles of the halo for a hollow lens are at zero in the angles.", "quantifier": "all beams and particles", "why_tests_cant": "every beam", "anchors": ["Merlin++/HollowElensParticleDistributionGenerator.cpp", "Merlin++/ParticleBunch.cpp: constructor with a generator"]}
{"id": "C363", "title": "Cutoffs of a normal distribution", "statement": "With cutoffs, every particle of a normal bunch is within the multiples of the beam sizes; a number is the first one of the sequence within the cutoff.", "quantifier": "all beams, cutoffs, random numbers and particles", "why_tests_cant": "every random number", "anchors": ["Merlin++/ParticleDistributionGenerator.cpp: NormalParticleDistributionGenerator, RandomNG::normal", "Merlin++/ParticleBunch.cpp: constructor with a generator"]}
{"id": "C364", "title": "Spreads of a normal distribution", "statement": "The momentum deviation and the longitudinal position of a normal bunch have the energy spread and the length of the beam as standard deviations.", "quantifier": "all beams and random numbers", "why_tests_cant": "every beam", "anchors": ["Merlin++/ParticleDistributionGenerator.cpp: NormalParticleDistributionGenerator", "Merlin++/ParticleBunch.cpp: constructor with a generator"]}
{"id": "C365", "title": "A uniform distribution is bounded by the beam sizes", "statement": "Every particle of a uniform bunch is within one beam size in each position and within twice the emittances in the invariants.", "quantifier": "all beams, random numbers, filters and particles", "why_tests_cant": "every random number", "anchors": ["Merlin++/ParticleDistributionGenerator.cpp: UniformParticleDistributionGenerator", "Merlin++/ParticleBunch.cpp: constructor with a generator"]}
{"id": "C366", "title": "Halo filters take what is beyond the limit", "statement": "The horizontal filter takes exactly the particles farther than the limit from the orbit, the vertical one those farther than the limit from the axis.", "quantifier": "all particles, limits and orbits", "why_tests_cant": "every particle", "anchors": ["Merlin++/BunchFilter.cpp: Apply", "Merlin++/ParticleBunch.cpp: constructor with a generator"]}
{"id": "C367", "title": "Construction with a halo filter ends", "statement": "When the distribution has particles beyond the limit, construction with a filter ends.", "quantifier": "all limits, orbits and random numbers", "why_tests_cant": "an endless loop cannot be observed", "anchors": ["Merlin++/BunchFilter.cpp: HorizontalHaloParticleBunchFilter::Apply", "Merlin++/ParticleBunch.cpp: constructor with a generator"]}
{"id": "C368", "title": "The vertical filter follows the beam", "statement": "The vertical filter refuses particles within the limit of the centroid.", "quantifier": "all beams, limits and random numbers", "why_tests_cant": "every beam", "anchors": ["Merlin++/BunchFilter.cpp: VerticalHaloParticleBunchFilter::Apply", "Merlin++/ParticleBunch.cpp: constructor with a generator"]}
{"id": "C369", "title": "A bunch takes its particles in turn from the generator", "statement": "A constructed bunch has the number of particles asked for, at least one, numbered from zero, the first at the centroid, the charge of the beam in total, and without filter each particle is made of the next random numbers.", "quantifier": "all generators, beams, filters and random numbers", "why_tests_cant": "every sequence", "anchors": ["Merlin++/ParticleBunch.cpp: constructor with a generator", "Merlin++/ParticleBunch.cpp: constructor with a generator"]}
{"id": "C370", "title": "A filter without limit or orbit is harmless", "statement": "A filter whose limit or orbit was not set takes zero for it.", "quantifier": "all beams and generators", "why_tests_cant": "indeterminate values", "anchors": ["Merlin++/BunchFilter.cpp: constructor", "Merlin++/ParticleBunch.cpp: constructor with a generator"]}
{"id": "C371", "title": "The fast transform is the Fourier transform", "statement": "For a power of two of complex numbers the transform in place leaves the discrete Fourier transform of the data.", "quantifier": "all powers of two and all data", "why_tests_cant": "every length and all values", "anchors": ["Merlin++/BetatronTunes.cpp: FFT"]}
{"id": "C372", "title": "Tunes from any number of turns", "statement": "Tunes can be found from any number of turns.", "quantifier": "all numbers of turns and all tracks", "why_tests_cant": "every length", "anchors": ["Merlin++/BetatronTunes.cpp: FindTunes, FFT"]}
{"id": "C373", "title": "The tune of a rotating particle is found", "statement": "For a particle whose phase advances by the same fraction of a turn each turn, the tune found is this fraction.", "quantifier": "all amplitudes, phases, fractions p/n and powers of two of turns", "why_tests_cant": "every fraction", "anchors": ["Merlin++/BetatronTunes.cpp: FindTune"]}
{"id": "C374", "title": "A particle on the axis has a tune", "statement": "The tune of a plane in which the particle does not move is a number.", "quantifier": "all powers of two of turns", "why_tests_cant": "special value", "anchors": ["Merlin++/BetatronTunes.cpp: FindTune, amp"]}
{"id": "C375", "title": "Tunes near a whole number from below are found", "statement": "A spectrum with its peak in one of the last two bins gives a tune.", "quantifier": "all data with such a peak", "why_tests_cant": "every data", "anchors": ["Merlin++/BetatronTunes.cpp: FindTune"]}
{"id": "C376", "title": "No diffusion without measuring it", "statement": "When the diffusion is not asked for, the change of tune is zero.", "quantifier": "all tracks and numbers of turns", "why_tests_cant": "every track", "anchors": ["Merlin++/BetatronTunes.cpp: FindTunes"]}
{"id": "C377", "title": "A lost particle has tune zero", "statement": "When the particle is lost or unstable in any of the turns, tunes and changes are zero.", "quantifier": "all tracks, numbers of turns and both modes", "why_tests_cant": "every turn of loss", "anchors": ["Merlin++/BetatronTunes.cpp: FindTunes"]}
{"id": "C378", "title": "Tunes are those of the recorded turns", "statement": "The tunes are those found in the windowed values of the first n turns; the changes are the tunes of the following n turns, with the same window, less the first.", "quantifier": "all stable tracks and numbers of turns", "why_tests_cant": "every track", "anchors": ["Merlin++/BetatronTunes.cpp: FindTunes"]}
{"id": "C379", "title": "The interpolation between bins is exact", "statement": "Given the sizes of two neighbouring bins of the windowed spectrum of a particle with a constant advance of phase, the interpolation returns the offset of the tune from the first of them without error.", "quantifier": "all offsets from one bin before to two bins after, all numbers of turns from 4, all amplitudes", "why_tests_cant": "every real offset", "anchors": ["Merlin++/BetatronTunes.cpp: amp"]}
{"id": "C380", "title": "Acceleration in a linac structure", "statement": "Tracked through a structure in any steps with full acceleration, each particle gains the field at its time times the length, the reference momentum the field at the reference time times the length; transverse momenta, times and identities stay.", "quantifier": "all bunches, settings and lists of steps", "why_tests_cant": "every partition and bunch", "anchors": ["Merlin++/LCAVintegrator.cpp: TrackStep, LCAVMap"]}
{"id": "C381", "title": "When acceleration is defined", "statement": "A step succeeds when all momenta before and after it are positive; it stops the program when the reference momentum would become negative.", "quantifier": "all bunches, settings and steps", "why_tests_cant": "every setting", "anchors": ["Merlin++/LCAVintegrator.cpp: TrackStep, LCAVMap"]}
{"id": "C382", "title": "Steps in a linac structure do not matter", "statement": "The positions after a structure do not depend on the number of steps.", "quantifier": "all bunches, settings and lists of steps", "why_tests_cant": "every partition", "anchors": ["Merlin++/LCAVintegrator.cpp: TrackStep, LCAVMap"]}
{"id": "C383", "title": "Fields at the ends of a structure", "statement": "The entrance changes each transverse momentum by minus half the field times the position, the exit by plus that; an exit directly after an entrance restores the bunch.", "quantifier": "all bunches and settings", "why_tests_cant": "every setting", "anchors": ["Merlin++/LCAVintegrator.cpp: TrackEntrance, TrackExit, ApplyEndField"]}
{"id": "C384", "title": "Transverse momenta without full acceleration", "statement": "A structure without full acceleration leaves transverse momenta unchanged.", "quantifier": "all bunches, settings and steps", "why_tests_cant": "every setting", "anchors": ["Merlin++/LCAVintegrator.cpp: TrackStep, ApplyRFMap"]}
{"id": "C385", "title": "A structure switched off is a drift", "statement": "With amplitude zero the bunch is drifted, with the path length, by both kinds of structures.", "quantifier": "all bunches and steps", "why_tests_cant": "every bunch", "anchors": ["Merlin++/LCAVintegrator.cpp: TrackStep, LCAVMap", "Merlin++/TransRFIntegrator.cpp: TrackStep, TRFMap"]}
{"id": "C386", "title": "Displacement in a transverse structure", "statement": "A step displaces by the angle before times its length and half the change of angle times its length.", "quantifier": "all bunches, settings and steps", "why_tests_cant": "every bunch", "anchors": ["Merlin++/TransRFIntegrator.cpp: TrackStep, TRFMap"]}
{"id": "C387", "title": "Kick of a transverse structure", "statement": "In any steps each particle gains the field at its time times the length, in the direction of the field; times, momenta and identities stay.", "quantifier": "all bunches, settings and lists of steps", "why_tests_cant": "every partition and bunch", "anchors": ["Merlin++/TransRFIntegrator.cpp: TrackStep, TRFMap"]}
{"id": "C388", "title": "Structures turned around", "statement": "Turning a transverse structure around reverses the horizontal kick and keeps the vertical; turning any structure twice restores it.", "quantifier": "all settings", "why_tests_cant": "every setting", "anchors": ["Merlin++/TransverseRFStructure.cpp: RotateY180", "Merlin++/TWRFStructure.cpp: RotateY180", "Merlin++/SWRFStructure.cpp: RotateY180"]}
{"id": "C389", "title": "Settings of structures are read back", "statement": "Phasors, voltages, frequencies, wavelengths and wave numbers are read back as set; a voltage cannot be set on a structure without length.", "quantifier": "all settings and values", "why_tests_cant": "every value", "anchors": ["Merlin++/RFStructure.cpp: SetVoltagePhasor, SetVoltage, SetWavelength, SetK, GetVoltagePhasor, GetBeamVoltage"]}
{"id": "C390", "title": "Error of the displacement in one step", "statement": "One step of acceleration displaces by length times angle times 1 - u/2, u the relative energy gain; this is within length times u squared over three of the exact integral.", "quantifier": "all bunches, settings and steps; all positive gains", "why_tests_cant": "every gain", "anchors": ["Merlin++/LCAVintegrator.cpp: TrackStep, LCAVMap"]}
{"id": "C391", "title": "Each bad particle is reported once", "statement": "A check reports exactly the identities of particles with a coordinate that is not finite which were not reported before; over any history of checks, elements and switches no identity is reported twice.", "quantifier": "all bunches, states and histories", "why_tests_cant": "every history", "anchors": ["Merlin++/NANCheckProcess.cpp: DoProcess, Report, DoCull, SetCurrentComponent"]}
{"id": "C392", "title": "The index in the report is the position", "statement": "The index printed with a bad particle is its position in the bunch.", "quantifier": "all bunches and states", "why_tests_cant": "every history", "anchors": ["Merlin++/NANCheckProcess.cpp: DoProcess, Report, DoCull, SetCurrentComponent"]}
{"id": "C393", "title": "Bad particles are removed", "statement": "With removal on and no particle of the bunch reported before, exactly the bad particles are removed, the others keep their order, and the same holds at the next check; with removal off the bunch stays.", "quantifier": "all bunches and states", "why_tests_cant": "every bunch", "anchors": ["Merlin++/NANCheckProcess.cpp: DoProcess, Report, DoCull, SetCurrentComponent"]}
{"id": "C394", "title": "Removal and halting work when switched on later", "statement": "With removal or halting on, no bad particle remains unnoticed in the bunch after a check.", "quantifier": "all bunches and states", "why_tests_cant": "every history", "anchors": ["Merlin++/NANCheckProcess.cpp: DoProcess, Report, DoCull, SetCurrentComponent"]}
{"id": "C395", "title": "Halting on a bad particle", "statement": "With halting on, a check ends the program at the first bad particle not reported before, after reporting it; without such particles it does nothing.", "quantifier": "all bunches and states", "why_tests_cant": "every bunch", "anchors": ["Merlin++/NANCheckProcess.cpp: DoProcess, Report, DoCull, SetCurrentComponent"]}
{"id": "C396", "title": "Reports are always defined", "statement": "A report with or without details is defined for every bad particle and shows its coordinates now, at the start of the element and at that of the previous one.", "quantifier": "all bunches and states", "why_tests_cant": "every history", "anchors": ["Merlin++/NANCheckProcess.cpp: DoProcess, Report, DoCull, SetCurrentComponent"]}
{"id": "C397", "title": "Files of a monitor are not overwritten", "statement": "Over any history of elements, steps and changes of prefix and elements the files written are numbered upwards from one and no name occurs twice.", "quantifier": "all histories", "why_tests_cant": "every history", "anchors": ["Merlin++/MonitorProcess.cpp: DoProcess, SetCurrentComponent, InitialiseProcess"]}
{"id": "C398", "title": "Files are written at the elements named", "statement": "At an element named, one file is written for each step; at others none.", "quantifier": "all histories", "why_tests_cant": "every history", "anchors": ["Merlin++/MonitorProcess.cpp: DoProcess, SetCurrentComponent, InitialiseProcess"]}
{"id": "C399", "title": "A monitor without a bunch of particles does nothing", "statement": "Initialised with a bunch that is not one of particles, the process stays switched off.", "quantifier": "all monitors", "why_tests_cant": "every history", "anchors": ["Merlin++/MonitorProcess.cpp: DoProcess, SetCurrentComponent, InitialiseProcess"]}
{"id": "C400", "title": "Errors of frames", "statement": "Exactly the frames with matching names are moved, by errors of the given means and rms with fresh random numbers for each frame, in place of the previous moves (set) or after them (added).", "quantifier": "all frames, settings and random numbers", "why_tests_cant": "every random number", "anchors": ["Merlin++/AcceleratorErrors.cpp: ApplyShifts, ApplyRotations", "Merlin++/AcceleratorErrors.h: SetErrors, AddErrors"]}
{"id": "C401", "title": "Small errors are applied", "statement": "Errors of any rms different from zero are random.", "quantifier": "all rms and random numbers", "why_tests_cant": "every value", "anchors": ["Merlin++/AcceleratorErrors.cpp: ApplyShifts, ApplyRotations", "Merlin++/AcceleratorErrors.h: SetErrors, AddErrors"]}
{"id": "C402", "title": "Shifts and rotations can both be set", "statement": "Setting shifts and then rotations gives frames with both.", "quantifier": "all frames, settings and random numbers", "why_tests_cant": "every setting", "anchors": ["Merlin++/AcceleratorErrors.cpp: ApplyShifts, ApplyRotations", "Merlin++/AcceleratorErrors.h: SetErrors, AddErrors"]}
{"id": "C403", "title": "Errors for alternatives", "statement": "Errors with a pattern of alternatives are applied to frames that match any.", "quantifier": "all patterns", "why_tests_cant": "every pattern", "anchors": ["Merlin++/AcceleratorErrors.cpp: ApplyShifts, ApplyRotations", "Merlin++/AcceleratorErrors.h: SetErrors, AddErrors"]}
{"id": "C404", "title": "Energy lost by radiation", "statement": "At a point of radiation each particle loses the energy it radiates, by the classical formula or the sum of its photons, and the reference momentum, when adjusted, the mean of these; positions, times and identities stay.", "quantifier": "all bunches, fields, constants and photons", "why_tests_cant": "every bunch and photon", "anchors": ["Merlin++/SynchRadParticleProcess.cpp: ApplySR, DoProcess"]}
{"id": "C405", "title": "Radiation keeps directions in symplectic variables", "statement": "Without adjustment of the reference momentum, in symplectic variables the direction of each particle stays.", "quantifier": "all bunches, fields and photons", "why_tests_cant": "every bunch", "anchors": ["Merlin++/SynchRadParticleProcess.cpp: ApplySR, SetSymplecticVars"]}
{"id": "C406", "title": "Adjusting the reference keeps directions", "statement": "In symplectic variables directions stay also when the reference momentum is adjusted.", "quantifier": "all bunches, fields and photons", "why_tests_cant": "every bunch", "anchors": ["Merlin++/SynchRadParticleProcess.cpp: ApplySR, DoProcess"]}
{"id": "C407", "title": "Radiation keeps angles in the usual variables", "statement": "Photons are emitted along the direction of motion, so that the angles of particles stay.", "quantifier": "all bunches, fields and photons", "why_tests_cant": "every bunch", "anchors": ["Merlin++/SynchRadParticleProcess.cpp: ApplySR"]}
{"id": "C408", "title": "Radiation along the whole component", "statement": "With n steps asked for, every particle radiates n times over a total of the whole length, however other processes subdivide the steps.", "quantifier": "all components, numbers and sequences of steps", "why_tests_cant": "every subdivision", "anchors": ["Merlin++/SynchRadParticleProcess.cpp: SetCurrentComponent, DoProcess, GetMaxAllowedStepSize"]}
{"id": "C409", "title": "Largest distance of points of radiation", "statement": "With a largest step asked for, the points are closer than it, by the smallest number of steps that allows this, and all are used when the first step is not subdivided.", "quantifier": "all components and steps", "why_tests_cant": "every subdivision", "anchors": ["Merlin++/SynchRadParticleProcess.cpp: SetMaxComponentStepSize, SetCurrentComponent"]}
{"id": "C410", "title": "Subdivided steps with a largest distance", "statement": "With a largest step asked for, every particle radiates over the whole length, however other processes subdivide the steps.", "quantifier": "all components and sequences of steps", "why_tests_cant": "every subdivision", "anchors": ["Merlin++/SynchRadParticleProcess.cpp: DoProcess"]}
{"id": "C411", "title": "Radiation without particles or bunch", "statement": "An empty bunch, no bunch or a largest step of zero are dealt with.", "quantifier": "all components and settings", "why_tests_cant": "special values", "anchors": ["Merlin++/SynchRadParticleProcess.cpp: DoProcess, SetCurrentComponent"]}
{"id": "C412", "title": "Components with radiation", "statement": "The bunch radiates in sector bends, and in rectangular multipoles exactly when asked to.", "quantifier": "all components and settings", "why_tests_cant": "every setting", "anchors": ["Merlin++/SynchRadParticleProcess.cpp: SetCurrentComponent, IncludeQuadRadiation"]}
{"id": "C413", "title": "Moments of slices", "statement": "The moments of order m of a slice, computed from radius and azimuth of its particles, are the sums of the real and imaginary parts of (x + iy)^m.", "quantifier": "all orders and slices", "why_tests_cant": "every order and slice", "anchors": ["Merlin++/CollimatorWakeProcess.cpp: CalculateCm, CalculateSm"]}
{"id": "C414", "title": "Transverse wake is a gradient", "statement": "The transverse kick of each mode is the gradient of the potential of the mode at the place of the particle.", "quantifier": "all orders, wakes and particles", "why_tests_cant": "every order and place", "anchors": ["Merlin++/CollimatorWakeProcess.cpp: ApplyWakefield"]}
{"id": "C415", "title": "Longitudinal wake is the potential", "statement": "The change of energy by each mode is minus the potential of the mode, so that a particle loses energy to its own wake.", "quantifier": "all orders, wakes and particles", "why_tests_cant": "every order and place", "anchors": ["Merlin++/CollimatorWakeProcess.cpp: ApplyWakefield"]}
{"id": "C416", "title": "Wakes act one way", "statement": "A slice is affected by itself and the slices after it in the list only; what happens to it does not depend on the slices before it.", "quantifier": "all wakes and bunches", "why_tests_cant": "every bunch", "anchors": ["Merlin++/CollimatorWakeProcess.cpp: CalculateWakeT, CalculateWakeL, ApplyWakefield"]}
{"id": "C417", "title": "Sums of wakes over slices and modes", "statement": "In each mode a particle feels the sum over its own and the later slices of the wake at their distance times the moments of the bunch as it came; modes act from the first to the last; positions, times, identities and slices stay.", "quantifier": "all wakes, modes and bunches", "why_tests_cant": "every number of slices and modes", "anchors": ["Merlin++/CollimatorWakeProcess.cpp: CalculateWakeT, CalculateWakeL, ApplyWakefield"]}
{"id": "C418", "title": "Change of energy keeps transverse momentum", "statement": "Without transverse wake the transverse momentum of each particle stays.", "quantifier": "all wakes and particles", "why_tests_cant": "every particle", "anchors": ["Merlin++/CollimatorWakeProcess.cpp: ApplyWakefield"]}
{"id": "C419", "title": "Number of slices", "statement": "The wake can be applied for every number of slices.", "quantifier": "all numbers of slices", "why_tests_cant": "every number", "anchors": ["Merlin++/CollimatorWakeProcess.cpp: ApplyWakefield"]}
{"id": "C420", "title": "Turns are counted at crab markers", "statement": "With four markers before and behind each point, in any order, the turn number at every marker is one more than the number of full turns before it, and the number of markers of each place in this turn is known; with one point alone its markers decide.", "quantifier": "all numbers of turns and orders of markers", "why_tests_cant": "every number of turns and order", "anchors": ["Merlin++/CCFailureProcess.cpp: SetCurrentComponent"]}
{"id": "C421", "title": "Other numbers of cavities", "statement": "There can be any number of cavities before a point.", "quantifier": "all numbers of cavities", "why_tests_cant": "every number", "anchors": ["Merlin++/CCFailureProcess.cpp: SetCurrentComponent, DoProcess"]}
{"id": "C422", "title": "Cavities of the second point", "statement": "With both points switched on, the cavities of both kick the bunch.", "quantifier": "all bunches and states", "why_tests_cant": "every state", "anchors": ["Merlin++/CCFailureProcess.cpp: DoProcess"]}
{"id": "C423", "title": "Voltage before a point", "statement": "Before a point each particle is kicked by the voltage that, with four cavities, makes the crossing angle at the point, in the plane of the point; the voltage, phase and element are kept for the partner behind the point.", "quantifier": "all optics, bunches and turns", "why_tests_cant": "every optics and bunch", "anchors": ["Merlin++/CCFailureProcess.cpp: DoProcess, CalcV1, CalcM_12, ApplyPreCCKick"]}
{"id": "C424", "title": "Voltage behind a point", "statement": "Behind a point each particle is kicked by minus the voltage of the partner times the matrix element between the two.", "quantifier": "all optics, bunches and turns", "why_tests_cant": "every optics and bunch", "anchors": ["Merlin++/CCFailureProcess.cpp: DoProcess, CalcV2, CalcM_22, ApplyPostCCKick"]}
{"id": "C425", "title": "Course of a failure", "statement": "The strength of failing cavities is full before the failure, falls by equal steps each turn and is zero on the last turn of the failure.", "quantifier": "all numbers of turns", "why_tests_cant": "every number of turns", "anchors": ["Merlin++/CCFailureProcess.cpp: DoProcess"]}
{"id": "C426", "title": "After a failure", "statement": "After the turns of the failure the cavities that did not fail still work.", "quantifier": "all states and bunches", "why_tests_cant": "every state", "anchors": ["Merlin++/CCFailureProcess.cpp: DoProcess"]}
{"id": "C427", "title": "Phase of the cavities", "statement": "The phase asked for is used at every cavity.", "quantifier": "all phases and states", "why_tests_cant": "every phase", "anchors": ["Merlin++/CCFailureProcess.cpp: DoProcess"]}
{"id": "C428", "title": "Slices of macro-particles", "statement": "The slices for wakes are the bunch in its order; each holds particles less than the width behind its first, and the next begins at least the width behind it.", "quantifier": "all bunches and positive widths", "why_tests_cant": "every bunch and width", "anchors": ["Merlin++/SMPWakeFieldProcess.cpp: PrepSlices"]}
{"id": "C429", "title": "Charge of slices", "statement": "The charge and mean time of each slice are those of its particles.", "quantifier": "all bunches and positive widths", "why_tests_cant": "every bunch and width", "anchors": ["Merlin++/SMPWakeFieldProcess.cpp: PrepSlices"]}
{"id": "C430", "title": "Momenta after wakes", "statement": "Each macro-particle changes its momentum by half the wake of its slice and the wakes of later ones, its transverse momenta by those of the centroids of later slices; places, times and charges stay.", "quantifier": "all wakes and bunches", "why_tests_cant": "every wake and bunch", "anchors": ["Merlin++/SMPWakeFieldProcess.cpp: ApplyWakefield, PrepLWake, AWK"]}
{"id": "C431", "title": "Moments after wakes", "statement": "The second moments of a macro-particle change as angles do with its momentum.", "quantifier": "all wakes and macro-particles", "why_tests_cant": "every particle", "anchors": ["Merlin++/SMPWakeFieldProcess.cpp: AWK"]}
{"id": "C432", "title": "Reference follows the bunch", "statement": "The reference momentum changes by the mean of the changes of the bunch.", "quantifier": "all wakes and bunches", "why_tests_cant": "every bunch", "anchors": ["Merlin++/SMPWakeFieldProcess.cpp: ApplyWakefield, PrepLWake"]}
{"id": "C433", "title": "Wake of an empty bunch", "statement": "Applying wakes to a bunch without particles does nothing.", "quantifier": "all wakes", "why_tests_cant": "special case", "anchors": ["Merlin++/SMPWakeFieldProcess.cpp: PrepSlices"]}
{"id": "C434", "title": "Macro-particles in frames", "statement": "A macro-particle taken into a frame has the centroid and second moments of the particles it stands for, each taken into that frame.", "quantifier": "all frames and ensembles", "why_tests_cant": "every frame and ensemble", "anchors": ["Merlin++/SMPTransform3D.cpp: Apply"]}
{"id": "C435", "title": "Small rolls of macro-particles", "statement": "Any roll of a frame turns the macro-particle.", "quantifier": "all rolls", "why_tests_cant": "every angle", "anchors": ["Merlin++/SMPTransform3D.cpp: SMPTransform3D, RMap.h: IsIdentity"]}
{"id": "C436", "title": "Grid of macro-particles", "statement": "A constructed bunch has one macro-particle at each of the places of the grid in time and momentum, with the offsets of the beam, its dispersion, and the charge of its cell.", "quantifier": "all beams and grids", "why_tests_cant": "every beam and grid", "anchors": ["Merlin++/SMPBunchConstructor.cpp: ConstructSliceBunch"]}
{"id": "C437", "title": "Charge of a constructed bunch", "statement": "The constructed bunch has the charge of the beam.", "quantifier": "all beams and grids", "why_tests_cant": "every beam and grid", "anchors": ["Merlin++/SMPBunchConstructor.cpp: ConstructSliceBunch"]}
{"id": "C438", "title": "Converting to macro-particles", "statement": "Converting a bunch gives one macro-particle for each cell, in the middle of n by m cells of the range, with the charge of the particles of that bin; the total is the charge times the part of the particles inside the limits.", "quantifier": "all bunches, limits and grids", "why_tests_cant": "every bunch and grid", "anchors": ["Merlin++/ParticleBunchConverter.cpp: Convert"]}
{"id": "C439", "title": "Charge kept by converting", "statement": "Without limits the conversion keeps the charge.", "quantifier": "all bunches and grids", "why_tests_cant": "every bunch", "anchors": ["Merlin++/ParticleBunchConverter.cpp: Convert"]}
{"id": "C440", "title": "Bins of the conversion", "statement": "Each particle counts in the cell it lies in.", "quantifier": "all bunches and grids", "why_tests_cant": "every particle", "anchors": ["Merlin++/ParticleBunchConverter.cpp: Convert"]}
{"id": "C441", "title": "Converting bunches without spread", "statement": "A bunch of particles at one time can be converted.", "quantifier": "all bunches without spread", "why_tests_cant": "special case", "anchors": ["Merlin++/ParticleBunchConverter.cpp: Convert"]}
{"id": "C442", "title": "Wakes of couplers", "statement": "The transverse wake at a slice is the RF kick of the coupler at its centroid and phase, and the sum over the slices from it on of their density times the transverse wake of their centroids and the wake of the coupler; behind the last slice it is zero.", "quantifier": "all couplers, cavities and bunches", "why_tests_cant": "every wake and bunch", "anchors": ["Merlin++/CouplerWakeFieldProcess.cpp: CalculateWakeT, GetSliceCentroid"]}
{"id": "C443", "title": "RF kick of couplers", "statement": "The RF kick of a coupler does not depend on the charge of the bunch.", "quantifier": "all couplers and charges", "why_tests_cant": "every charge", "anchors": ["Merlin++/CouplerWakeFieldProcess.cpp: CalculateWakeT"]}
{"id": "C444", "title": "Couplers always act", "statement": "Every bunch in every cavity with couplers gets a kick.", "quantifier": "all bunches and cavities", "why_tests_cant": "special cases", "anchors": ["Merlin++/CouplerWakeFieldProcess.cpp: CalculateWakeT"]}
{"id": "C445", "title": "Wakes of tapers agree", "statement": "The longitudinal wake of a tapered collimator is the slope of its transverse wake.", "quantifier": "all radii, modes and distances", "why_tests_cant": "every distance", "anchors": ["Merlin++/CollimatorPotentialModels.cpp: Wlong, Wtrans"]}
{"id": "C446", "title": "Wakes of tapers", "statement": "Tapered collimators have no wake at or ahead of the charge and none of order zero; behind, the transverse wake is not negative and decays, and the longitudinal one is its loss.", "quantifier": "all radii, modes and distances", "why_tests_cant": "every distance", "anchors": ["Merlin++/CollimatorPotentialModels.cpp: Wlong, Wtrans"]}
{"id": "C447", "title": "Modes of tapers", "statement": "The wake of every mode can be asked for.", "quantifier": "all modes", "why_tests_cant": "every mode", "anchors": ["Merlin++/CollimatorPotentialModels.cpp: Wlong, Wtrans"]}
{"id": "C448", "title": "Setting corrector windings", "statement": "Setting a plane of a corrector winding gives the magnet that integrated dipole field, which is read back; other multipoles stay.", "quantifier": "all magnets and values", "why_tests_cant": "every magnet and value", "anchors": ["Merlin++/CorrectorWinding.cpp: SetBx, SetBy, GetBx, GetBy"]}
{"id": "C449", "title": "Planes of corrector windings", "statement": "Setting one plane of a corrector winding leaves the other as it was.", "quantifier": "all magnets and values", "why_tests_cant": "every sequence of settings", "anchors": ["Merlin++/CorrectorWinding.cpp: SetBx, SetBy"]}
{"id": "C450", "title": "Windings on any magnet", "statement": "A corrector winding can be set on every magnet.", "quantifier": "all magnets", "why_tests_cant": "special cases", "anchors": ["Merlin++/CorrectorWinding.cpp: SetBx, SetBy"]}
{"id": "C451", "title": "Windings and strength", "statement": "The field of a corrector winding stays when the strength of its magnet changes.", "quantifier": "all magnets, values and strengths", "why_tests_cant": "every history of settings", "anchors": ["Merlin++/CorrectorWinding.cpp: SetBx, SetBy"]}
{"id": "C452", "title": "Factor of a covariance", "statement": "A generator that is constructed holds a lower triangle with a diagonal that is not negative, whose product with its transpose is the covariance given; dimensions that do not fit, and only these, are refused as such.", "quantifier": "all dimensions and matrices", "why_tests_cant": "every dimension and matrix", "anchors": ["Merlin++/MultiNormal.h: MultiNormal, CholeskyDecomp"]}
{"id": "C453", "title": "Moments of random vectors", "statement": "From independent numbers of mean zero and variance one, the vectors have the means and covariances given.", "quantifier": "all dimensions, means and covariances", "why_tests_cant": "every matrix; moments of a distribution", "anchors": ["Merlin++/MultiNormal.h: GetRandVec"]}
{"id": "C454", "title": "Coordinates without spread", "statement": "A covariance with a coordinate of variance zero gives vectors with that coordinate fixed, or is refused.", "quantifier": "all matrices of two or more dimensions", "why_tests_cant": "special case of every dimension", "anchors": ["Merlin++/MultiNormal.h: CholeskyDecomp"]}
{"id": "C455", "title": "Only covariances are taken", "statement": "A symmetric matrix that is taken is positive semi-definite.", "quantifier": "all dimensions and matrices", "why_tests_cant": "every matrix and vector", "anchors": ["Merlin++/MultiNormal.h: CholeskyDecomp"]}
{"id": "C456", "title": "Covariances are taken", "statement": "Every symmetric positive definite matrix of fitting dimensions is taken, and the diagonal of its factor is positive.", "quantifier": "all dimensions and matrices", "why_tests_cant": "every matrix", "anchors": ["Merlin++/MultiNormal.h: MultiNormal, CholeskyDecomp"]}
