{"id": "C01", "title": "Time loop ends at the requested final time", "statement": "Calling Solver::run() with a positive time step and a non-negative final time (exact arithmetic) stops after finitely many steps, at a time not after the final time and less than 1e-8 time steps before it; every step has exactly the configured length except possibly the last one, which is shorter and then lands exactly on the final time; probes are called once per step.", "quantifier": "every time step > 0, every final time >= 0, every starting time <= final time", "why_tests_cant": "The loop runs a data-dependent, unbounded number of steps; tests fix a handful of (dt, final time) pairs.", "anchors": ["src/solver/Solver.cpp: Solver::run, Solver::step"]}
{"id": "C02", "title": "Time loop in double precision: no overshoot, exact landing, and when it terminates", "statement": "With IEEE binary64 arithmetic and round-to-nearest, a run started at time 0 never moves past the final time, and the step that is shortened lands on the final time exactly (no residual); the loop stops there if and only if the 1e-8*dt guard margin is not lost to rounding.", "quantifier": "every pair of positive finite doubles (dt, final time) and every number of steps", "why_tests_cant": "Rounding depends on every bit of dt and final time; the stuck case needs more than 1e8 steps and can never be reached by a test.", "anchors": ["src/solver/Solver.cpp: Solver::run, Solver::step"]}
{"id": "C03", "title": "Every accepted set of solver options gives a run that stops", "statement": "If the solver constructor accepts its options (no exception), then run() terminates.", "quantifier": "every order, final time, CFL, explicit time step value that passes option validation", "why_tests_cant": "Non-termination cannot be observed by a finite test, and the accepted region is unbounded.", "anchors": ["src/solver/Solver.cpp: checkOptionsAreValid, Solver::Solver, Solver::run"]}
{"id": "C04", "title": "Probe export schedule", "statement": "A cycle-driven probe with interval n > 0 is written at a solver call exactly when the call index is a multiple of n or the time is within 1e-8 of the final time; in particular it is always written at the initial state and at the last step, and a run of K steps writes floor(K/n)+1 records, plus one when K is not a multiple of n.", "quantifier": "every interval, every number of steps, every sequence of times", "why_tests_cant": "The count is a function of two unbounded integers and the time sequence.", "anchors": ["src/solver/ProbesManager.cpp: updateProbe (Exporter/Field/Point/Near/Domain/RCS), updateProbes", "src/components/RCSSurfaceExporter.cpp: write"]}
{"id": "C05", "title": "Requested number of saves versus records written", "statement": "When a probe asks for s saves, the interval recomputed from the actual time step is at least 1 and the run writes at least min(s, steps)+1 records; when s divides the number of steps it writes exactly s+1; it never writes more than about twice the request plus two.", "quantifier": "every s > 0, every positive time step, every final time", "why_tests_cant": "Integer division effects appear only for particular ratios between step count and request.", "anchors": ["src/solver/ProbesManager.cpp: recalculateExportSteps", "src/solver/Solver.cpp: Solver::Solver"]}
{"id": "C06", "title": "steps/saves priority in the input file", "statement": "When a probe's JSON gives an explicit number of steps, the interval used during the run is that number, whatever other keys are present.", "quantifier": "every probe object and every solver options object", "why_tests_cant": "The interaction of three optional keys and the later recomputation is a product of independent choices.", "anchors": ["src/driver/driver.cpp: buildProbes calculate_interval", "src/solver/ProbesManager.cpp: recalculateExportSteps"]}
{"id": "C07", "title": "Movie of a point/field probe", "statement": "After any sequence of recordings, the movie of a probe has one frame per distinct recorded time, ordered by time, holding the first value recorded at that time; the frame reported as maximum (minimum) has a value not exceeded (not undercut) by any other frame and is the earliest such frame.", "quantifier": "every finite sequence of (time, value) recordings", "why_tests_cant": "Quantifies over all histories, including repeated times.", "anchors": ["src/components/Probes.h: FieldProbe::addFieldToMovies, findFrameWithMax, findFrameWithMin"]}
{"id": "C08", "title": "MOR state snapshots", "statement": "For a state probe over a window [a,b] with s saves, files are numbered 0,1,2,... without gaps, at most s are written, every written time lies in the window (up to 1e-12), the k-th file is written at or after its nominal time a+k(b-a)/(s-1) less a millionth of the spacing, and the written times never decrease; if no solver step is longer than the nominal spacing, each file is written less than one step after its nominal time.", "quantifier": "every window, every s, every non-decreasing sequence of solver times", "why_tests_cant": "Quantifies over all time sequences the adaptive/shortened stepping can produce.", "anchors": ["src/solver/ProbesManager.cpp: updateProbe(MORStateProbe&)"]}
{"id": "C09", "title": "All requested MOR snapshots are produced", "statement": "If the solver times cover the whole window, exactly s snapshot files are written.", "quantifier": "every window, save count and non-decreasing sequence of times covering the window", "why_tests_cant": "Fails only for time sequences whose steps are larger than the spacing.", "anchors": ["src/solver/ProbesManager.cpp: updateProbe(MORStateProbe&)"]}
{"id": "C10", "title": "Changing the final time before running keeps the final export", "statement": "After setFinalTime(T) and run(), the last state (at time T) is exported by every probe.", "quantifier": "every constructor final time, every new final time, every interval", "why_tests_cant": "Involves all interleavings of setters and run.", "anchors": ["src/solver/Solver.h: setFinalTime", "src/solver/ProbesManager.cpp: finalTime_"]}
{"id": "C11", "title": "Coupled elements end on the same rank", "statement": "After the partition adjustment, the two elements of every SGBC or TFSF face pair are on the same MPI rank, and so are all elements connected through a chain of such pairs.", "quantifier": "every mesh size, initial partition, list of pairs, number of ranks, hash-map order and unstable-sort outcome", "why_tests_cant": "Union-find with path halving over arbitrary graphs, with unspecified container iteration order.", "anchors": ["src/driver/driver.cpp: applyPairwiseConstraintsPartitioning, assignComponent"]}
{"id": "C12", "title": "Partition adjustment stays in range and only moves coupled elements", "statement": "Elements that occur in no pair keep their rank; every moved element gets a rank in [0, P); no array is read or written out of bounds.", "quantifier": "every mesh size, partition, pair list (including out-of-range ids), P", "why_tests_cant": "Memory safety for every input.", "anchors": ["src/driver/driver.cpp: applyPairwiseConstraintsPartitioning"]}
{"id": "C13", "title": "Partition load bookkeeping", "statement": "The load vector kept during the adjustment always equals the weighted element count of the current partition, so the rank chosen for each component is a rank of minimum true load.", "quantifier": "every initial partition and every sequence of component assignments", "why_tests_cant": "Invariant over every prefix of an unbounded assignment sequence.", "anchors": ["src/driver/driver.cpp: computeWeightedLoad, assignComponent, leastLoadedRank"]}
{"id": "C14", "title": "Block merge computes the sum of the blocks", "statement": "The merged global sparse matrix has at each (row, column) the sum over all blocks of sign times the block entry at the shifted position; no entry is lost or counted twice.", "quantifier": "every list of blocks with arbitrary (even repeated/unsorted) columns, offsets, signs, and every matrix size they fit in", "why_tests_cant": "Two-pass marker algorithm with aliasing between rows; errors depend on overlap patterns.", "anchors": ["src/components/DGOperatorFactory.h: mergeBlocksToCSR"]}
{"id": "C15", "title": "Block merge produces a well-formed CSR structure within bounds", "statement": "Row pointers start at 0, never decrease, end at the number of stored entries; the number of entries counted in the first pass equals the number written in the second, row by row; no row has a repeated column; all writes are inside the allocated arrays.", "quantifier": "every list of blocks that fit in the matrix", "why_tests_cant": "Memory safety of a count-then-fill algorithm for every sparsity pattern.", "anchors": ["src/components/DGOperatorFactory.h: mergeBlocksToCSR"]}
{"id": "C16", "title": "Direct CSR assembly equals entry-wise assembly", "statement": "Assembling the global operator by collecting blocks and merging gives the same matrix as scattering each block with Add.", "quantifier": "every set of sub-operator blocks", "why_tests_cant": "Equality of two code paths over all operators.", "anchors": ["src/components/DGOperatorFactory.h: addGlobal*, collectGlobal*, loadBlockInGlobalAtIndices, collectBlockPlacement"]}
{"id": "C17", "title": "Global operator has the structure of Maxwell's curl equations", "statement": "With centred fluxes off (volume part only), the assembled operator applied to (E,H) gives eps^-1 curl H for E and -mu^-1 curl E for H, component by component, where each partial derivative is the assembled directional operator.", "quantifier": "every state vector, all six components, every set of directional operators", "why_tests_cant": "Universal over all fields; sign errors in single blocks are invisible for 1D/2D test polarisations.", "anchors": ["src/components/DGOperatorFactory.h: addGlobalDirectionalOperators, collectGlobalDirectionalOperators"]}
{"id": "C18", "title": "Field component layout", "statement": "Writing through the (field, direction) view changes exactly the dofs of that component in the global state vector and no other; the six views cover the vector; the solver, the global operator and the source injector use the same layout.", "quantifier": "every local size, every component, every dof index", "why_tests_cant": "Aliasing property over all sizes and indices.", "anchors": ["src/evolution/Fields.h", "src/components/DGOperatorFactory.h: FieldOffsets", "src/evolution/GlobalEvolution.cpp: buildSingleVectorTFSFFunc"]}
{"id": "C19", "title": "Numerical flux is tangential", "statement": "The flux the nodal (Hesthaven) operator adds at a face node has no component along the face normal, for any jumps and any alpha.", "quantifier": "every unit normal, every jump of E and H, every alpha", "why_tests_cant": "Continuum of inputs.", "anchors": ["src/evolution/HesthavenEvolution.cpp: Mult"]}
{"id": "C20", "title": "Face energy balance", "statement": "The energy rate contributed by an interior face with the nodal flux is -alpha times the sum of the squared tangential jumps: zero for centred flux, never positive for alpha >= 0.", "quantifier": "every pair of traces, every unit normal, every alpha >= 0", "why_tests_cant": "Continuum of inputs; a sign error in one of 12 terms can be hidden by test polarisations.", "anchors": ["src/evolution/HesthavenEvolution.cpp: Mult"]}
{"id": "C21", "title": "Boundary conditions as mirror states", "statement": "The boundary jump factors are those of the mirror state of each condition: for PEC the tangential E average is zero, for PMC the tangential H average is zero, and for both the boundary face adds no energy for any alpha >= 0; an absorbing boundary never adds energy.", "quantifier": "every trace, every unit normal, every alpha >= 0", "why_tests_cant": "Continuum of inputs.", "anchors": ["src/evolution/HesthavenEvolution.cpp: applyBoundaryConditionsToNodes", "src/components/DGOperatorFactory.h: bdrCentCoeff, bdrUpwindCoeff"]}
{"id": "C22", "title": "Right-hand-side evaluation leaves no residue", "statement": "The scratch vectors shared between evaluations (source injection and thin-layer flux) are all zero before and after each call of the evolution operator, so one evaluation never contaminates the next.", "quantifier": "every state, every time, every number and order of calls, overlapping dof sets", "why_tests_cant": "Invariant over all call histories.", "anchors": ["src/evolution/GlobalEvolution.cpp: applyTFSFSourceToVector, Mult"]}
{"id": "C23", "title": "Right-hand side does not depend on earlier trial evaluations", "statement": "Between two commits of the thin-layer state, the result of evaluating the operator at a given stage time and state is the same no matter which stages were evaluated before it.", "quantifier": "every sequence of stage evaluations (times, states) between commits", "why_tests_cant": "Quantifies over all integrator schedules.", "anchors": ["src/evolution/GlobalEvolution.cpp: Mult, commitSGBCCheckpoint, finalizeSGBCStep"]}
{"id": "C24", "title": "Implicit solve uses the factorisation of the requested step", "statement": "For every sequence of implicit solves with arbitrary step sizes, each returned vector solves (I - dt A) k = rhs for the dt of that call, even when the factorisation is reused.", "quantifier": "every sequence of dt values", "why_tests_cant": "Cache invalidation over all histories.", "anchors": ["src/evolution/GlobalEvolution.cpp: ImplicitSolve"]}
{"id": "C25", "title": "Thin-layer sub-solves are independent of the thread schedule", "statement": "Advancing all thin-layer states in parallel with per-thread solver copies gives the same states for every assignment of tasks to threads and every interleaving.", "quantifier": "every number of threads, every task assignment and order", "why_tests_cant": "All schedules.", "anchors": ["src/evolution/GlobalEvolution.cpp: constructor thread pool, finalizeSGBCStep, Mult", "src/solver/SolverExtension.cpp: SGBCWrapper::clone, loadState, saveState"]}
{"id": "C26", "title": "Sub-stepping covers the step exactly", "statement": "When a thin-layer sub-step limit is smaller than the solver step, the step is divided in n equal parts that add up to the step, each not longer than the limit, with no more parts than necessary, and the interpolation weight ends at 1.", "quantifier": "every step > 0 and every limit", "why_tests_cant": "Ceiling arithmetic for all real ratios.", "anchors": ["src/evolution/GlobalEvolution.cpp: finalizeSGBCStep, Mult", "src/solver/SolverExtension.cpp: solve"]}
{"id": "C27", "title": "CPU and GPU packing kernels agree", "statement": "The GPU kernels that unpack the input vector, append neighbour data, scatter and clear sources produce the same memory as the CPU loops.", "quantifier": "every local and neighbour size, every index list", "why_tests_cant": "Index arithmetic for all sizes.", "anchors": ["src/evolution/GlobalEvolution.cu", "src/evolution/GlobalEvolution.cpp: Mult, applyTFSFSourceToVector"]}
{"id": "C28", "title": "Initial fields superpose", "statement": "The initial state with several initial-field sources is the sum of the states each source alone would give, in any order, and components no source drives are zero.", "quantifier": "every list of sources", "why_tests_cant": "All lists and orders.", "anchors": ["src/solver/SourcesManager.cpp: setInitialFields", "src/components/Sources.cpp: InitialField::eval"]}
{"id": "C29", "title": "Total-field sources superpose in every evolution operator", "statement": "With several total-field sources, the injected incident field is the sum of the fields of all sources, whichever evolution operator is used.", "quantifier": "every list of total-field sources, every operator", "why_tests_cant": "All lists; single-source tests cannot see it.", "anchors": ["src/solver/SourcesManager.cpp: evalTimeVarField, evalTimeVarFieldDirect", "src/evolution/MaxwellEvolution.cpp: Mult", "src/evolution/MaxwellEvolutionMethods.cpp: evalTimeVarFunction", "src/evolution/HesthavenEvolution.cpp: evaluateTFSF"]}
{"id": "C30", "title": "Plane wave is a rigidly travelling transverse wave", "statement": "A plane-wave source satisfies f(x + s k, t + s) = f(x, t) for its unit propagation direction k; when the polarisation is orthogonal to k, E and H are orthogonal to k and to each other, have equal magnitude, and E x H points along k.", "quantifier": "every position, time, shift, non-zero polarisation and propagation vectors", "why_tests_cant": "Continuum of inputs.", "anchors": ["src/math/Function.h: Planewave"]}
{"id": "C31", "title": "Source collections are value types", "statement": "Copying a source or probe collection gives an equal and independent collection: later additions to one are not visible in the other and the order of addition is kept.", "quantifier": "every sequence of additions and copies", "why_tests_cant": "All histories.", "anchors": ["src/components/Sources.cpp: Sources", "src/components/Sources.h"]}
{"id": "C32", "title": "Maximum source frequency estimate", "statement": "The frequency used to size thin-layer meshes is at least the highest frequency any modulated or Gaussian source of the input requires.", "quantifier": "every list of sources in the input", "why_tests_cant": "All lists of mixed source kinds.", "anchors": ["src/driver/driver.cpp: calculateMaximumSourceFrequency"]}
{"id": "C33", "title": "Mesh file clean-up is correct and idempotent", "statement": "Cleaning a Gmsh file keeps every line outside the element section, keeps exactly the elements that are not of a lower dimension than the mesh requires, in order, renumbers them 1..n, writes the count n, and copies the geometric tag over the physical tag; running it again changes nothing.", "quantifier": "every text file with one element section", "why_tests_cant": "All files; idempotence is a two-run property.", "anchors": ["src/driver/driver.cpp: fixGmshMesh, detectMeshDimension, shouldDeleteElement"]}
{"id": "C34", "title": "Mesh file clean-up survives interruption", "statement": "If the process dies at any point during the clean-up, the mesh file on disk is either the original or the cleaned one.", "quantifier": "every file and every crash point", "why_tests_cant": "All crash points.", "anchors": ["src/driver/driver.cpp: fixGmshMesh"]}
{"id": "C35", "title": "Material assignment", "statement": "Each geometric tag gets the material of the first input entry that lists it; every material stored has relative permittivity and permeability >= 1 and non-negative conductivity; the wave speed never exceeds 1 and impedance times admittance is 1 for lossless materials.", "quantifier": "every input list of materials", "why_tests_cant": "All lists and real parameters.", "anchors": ["src/driver/driver.cpp: assembleAttributeToMaterial", "src/components/Material.cpp"]}
{"id": "C36", "title": "Material property vectors cover every element", "statement": "For every element whose tag is in the material map, the piecewise coefficient evaluated at the element's tag is the property of the mapped material, and building it never writes out of bounds.", "quantifier": "every material map with positive tags", "why_tests_cant": "All maps, including maps with gaps.", "anchors": ["src/components/Model.cpp: buildEpsMuPiecewiseVector, buildSigmaPiecewiseVector, initialiseGeomTagVector"]}
{"id": "C37", "title": "Boundary markers", "statement": "For every boundary tag map accepted by the model, the marker of a condition has a 1 exactly at positions (tag-1) of the tags mapped to the condition, 0 elsewhere, and is built without out-of-bounds writes.", "quantifier": "every boundary map and mesh boundary attribute set", "why_tests_cant": "All maps; memory safety.", "anchors": ["src/components/Model.cpp: assembleGeomTagToTypeMap, assembleBdrToMarkerMaps, getMarker"]}
{"id": "C38", "title": "Boundary assignment from input", "statement": "Each boundary tag gets the condition of the first input entry listing it, is classified interior exactly when some interior face carries the tag, and is never in both maps.", "quantifier": "every boundary list and mesh", "why_tests_cant": "All lists.", "anchors": ["src/driver/driver.cpp: assembleAttributeToBoundary, assignBdrCond"]}
{"id": "C39", "title": "Case naming rules", "statement": "A case path is accepted exactly when file, folder and mesh are consistently named, and every mesh format the documentation allows is accepted.", "quantifier": "every path and case name", "why_tests_cant": "All strings.", "anchors": ["src/driver/driver.cpp: validateCaseNamingStyle"]}
{"id": "C40", "title": "Total/scattered-field element lists", "statement": "The element/face lists produced for the total- and scattered-field sub-meshes contain no invalid element, and every marked face contributes its two sides to opposite lists (or its single existing side to one list).", "quantifier": "every sequence of marked faces and orientations", "why_tests_cant": "All meshes.", "anchors": ["src/components/SubMesher.cpp: setTFSFAttributesForSubMeshing*, cleanInvalidSubMeshEntries"]}
{"id": "C41", "title": "Near-to-far-field faces refer to their element", "statement": "Every (element, local face) pair recorded for the far-field surface names a local face of that element lying on the surface.", "quantifier": "every marked face and orientation", "why_tests_cant": "All meshes.", "anchors": ["src/components/SubMesher.cpp: NearToFarFieldSubMesher"]}
{"id": "C42", "title": "1D interior connectivity", "statement": "In one dimension, the pair of dofs recorded for the k-th interior interface is the last dof of element k and the first of element k+1, for every number of elements and order.", "quantifier": "every number of elements and polynomial order", "why_tests_cant": "Universal over sizes; tests use two elements.", "anchors": ["src/evolution/HesthavenEvolutionMethods.cpp: assembleGlobalConnectivityMap1D"]}
{"id": "C43", "title": "Far-field surface data file round trip", "statement": "Reading a surface data file written by the exporter returns exactly the positions, normals, weights and snapshots written, for every number of snapshots.", "quantifier": "every geometry, dof count and snapshot list", "why_tests_cant": "All sizes and contents.", "anchors": ["src/components/RCSSurfaceExporter.cpp", "src/components/RCSSurfacePostProcessor.cpp: readRankData"]}
{"id": "C44", "title": "Far-field surface data file cut by a crash", "statement": "If the writer is killed at any byte after the header block, reading the file returns a prefix of the snapshots written and nothing else.", "quantifier": "every content and every cut position", "why_tests_cant": "All crash points.", "anchors": ["src/components/RCSSurfaceExporter.cpp: write", "src/components/RCSSurfacePostProcessor.cpp: readRankData"]}
{"id": "C45", "title": "Radar cross section is non-negative and independent of rank order", "statement": "The computed RCS is never negative and does not depend on the order in which the rank directories are visited nor on how surface points are distributed among ranks.", "quantifier": "every data set, every permutation and every distribution of points", "why_tests_cant": "All permutations and distributions.", "anchors": ["src/components/RCSSurfacePostProcessor.cpp", "src/components/FarField.cpp"]}
{"id": "C46", "title": "Requested angles and frequencies are independent", "statement": "The RCS at an angle and frequency does not depend on which other angles and frequencies are requested, including repetitions.", "quantifier": "every list of angles and frequencies", "why_tests_cant": "All lists.", "anchors": ["src/components/RCSSurfacePostProcessor.cpp", "src/driver/rcs_driver.cpp: linspace"]}
{"id": "C47", "title": "Merging of per-rank RCS files", "statement": "Merging per-rank files sums the potential/RCS column entry by entry, keeps angles, frequencies and the normalisation column, and does not depend on the rank order; malformed or mismatched files are reported.", "quantifier": "every set of per-rank files", "why_tests_cant": "All sets and orders.", "anchors": ["src/components/RCSManager.cpp: readDataFile, addRows, writeMergedFile, writeParallelDataIntoSingleFiles"]}
{"id": "C48", "title": "A case without plane wave is rejected by the far-field tool", "statement": "Reading the incident wave data of a case without a plane-wave source fails with an error, and any valid plane wave is accepted.", "quantifier": "every list of sources", "why_tests_cant": "All inputs.", "anchors": ["src/components/FarField.cpp: buildPlaneWaveData"]}
{"id": "C49", "title": "Spherical coordinates round trip and orthonormal frame", "statement": "Conversion to spherical coordinates and back returns the same point for every point off the origin, the local unit vectors form an orthonormal frame, and vector conversion preserves length.", "quantifier": "every point and vector", "why_tests_cant": "Continuum.", "anchors": ["src/components/Spherical.cpp", "src/components/RCSSurfacePostProcessor.cpp: thetaHat, phiHat, rHat"]}
{"id": "C50", "title": "Face rotation is a proper rotation and its use round-trips", "statement": "For every unit face normal the rotation matrix is orthogonal with determinant 1 and maps the normal to the first axis; rotating fields into the face frame and back is the identity.", "quantifier": "every unit normal in 1D, 2D and 3D", "why_tests_cant": "Continuum with a branch in the construction.", "anchors": ["src/solver/SolverExtension.h: buildFaceRotationMatrix", "src/evolution/GlobalEvolution.cpp: rotateGlobalFieldsToLocal", "src/solver/SolverExtension.cpp: fillGlobalSGBCVec"]}
{"id": "C51", "title": "Thin-layer mesh", "statement": "The 1D mesh built for a layered wall has strictly increasing vertices, starts and ends with the ghost cells, has exactly the sum of the layer segments between them, each segment carrying its layer's tag, and its wall part has the total width of the layers.", "quantifier": "every list of layers with positive widths and segment counts", "why_tests_cant": "All lists.", "anchors": ["src/solver/SolverExtension.cpp: buildSGBCMesh", "src/components/Model.h: SGBCProperties"]}
{"id": "C52", "title": "Operator storage ordering", "statement": "The ordering used to share equal matrices between elements is a strict weak ordering whose equivalence is entry-wise equality within the tolerance used, so that an element is never given a different matrix.", "quantifier": "every set of matrices", "why_tests_cant": "Transitivity over all triples.", "anchors": ["src/evolution/HesthavenEvolutionMethods.h: MatrixCompareLessThan", "src/evolution/HesthavenEvolution.cpp: storeDirectionalMatrices"]}
{"id": "C53", "title": "Pole-residue fit selection", "statement": "The fit returned is the first stable one meeting the tolerance, otherwise the best stable one; an unstable fit is never returned.", "quantifier": "every sequence of candidate fits", "why_tests_cant": "All sequences.", "anchors": ["src/components/SIBCPoleResidueFitting.cpp: findOptimalPoles, checkQuality"]}
{"id": "C54", "title": "Triangle orientation comparison", "statement": "Two faces are reported as equally oriented exactly when one vertex list is a cyclic rotation of the other; the relation is reflexive, symmetric and transitive.", "quantifier": "every vertex list", "why_tests_cant": "All triples.", "anchors": ["src/math/Geometry.cpp: elementsHaveSameOrientation"]}
{"id": "C55", "title": "Face matrices of the jump integrators", "statement": "Each face matrix equals the quadrature sum of the jump/average expression it documents: the contribution of all quadrature points is kept, neighbouring traces enter with opposite sign, and a face whose two traces agree contributes nothing.", "quantifier": "every quadrature rule, shape values, normals", "why_tests_cant": "All rules and sizes.", "anchors": ["src/mfemExtension/BilinearIntegrators.cpp", "src/mfemExtension/IntegratorFunctions.cpp: buildFaceMatrix", "src/mfemExtension/LinearIntegrators.cpp"]}
{"id": "C56", "title": "Interior-boundary assembly", "statement": "The matrix assembled for interior boundaries is the sum over interior marked faces of the matrices of exactly the integrators whose marker selects the face's tag, and unmarked faces contribute nothing.", "quantifier": "every mesh, marker set and integrator list", "why_tests_cant": "All combinations.", "anchors": ["src/mfemExtension/BilinearForm_IBFI.cpp: Assemble", "src/mfemExtension/LinearForm_IBFI.cpp: Assemble"]}
{"id": "C57", "title": "Automatic source delay", "statement": "When the delay of a Gaussian plane wave is not given, the pulse at time 0 is below exp(-25) of its peak at every point of the total-field boundary.", "quantifier": "every boundary point set, spread, direction", "why_tests_cant": "Continuum.", "anchors": ["src/driver/driver.cpp: buildSources"]}
{"id": "C58", "title": "Invalid options are rejected on every process", "statement": "If the solver options are invalid (negative order, negative final time, non-positive CFL), the solver constructor throws on every MPI rank.", "quantifier": "every options object and every rank", "why_tests_cant": "Unit tests run on one process.", "anchors": ["src/solver/Solver.cpp: Solver::Solver, checkOptionsAreValid"]}
{"id": "C59", "title": "Saves can be requested with an automatic time step", "statement": "Reading a probe that asks for a number of saves is well defined for every solver_options object, including those that leave time_step or final_time out (both are optional).", "quantifier": "every solver_options object and every probe object", "why_tests_cant": "Product of independent optional keys; the failure is undefined behaviour, which a test may not notice.", "anchors": ["src/driver/driver.cpp: buildProbes calculate_interval"]}
{"id": "C60", "title": "Time labels of exported states", "statement": "The time label written with an exported state is within 0.0005 of its time, labels never go back in time, and two exported states at different times have different labels.", "quantifier": "every pair of times", "why_tests_cant": "Continuum of times.", "anchors": ["src/solver/ProbesManager.cpp: updateProbe(ExporterProbe&)"]}
{"id": "C61", "title": "Unusable probes are rejected", "statement": "A probe with interval 0, or a field/point probe whose position is outside the mesh, is rejected with an error before or at the first export.", "quantifier": "every list of probes", "why_tests_cant": "The failure is undefined behaviour.", "anchors": ["src/solver/ProbesManager.cpp: updateProbe, initPointFieldProbeExport"]}
{"id": "C62", "title": "Right-hand side is operator, sources and layers added up", "statement": "Each entry of the time derivative is the operator applied to the fields and neighbour data, minus the source operator applied to the incident field, plus (on elements next to a thin layer) the layer operator applied to what the layer shows that element. A layer never changes what the elements of another layer see.", "quantifier": "every field vector, time, mesh size, neighbour data, set of layers", "why_tests_cant": "Linear-algebra identity over all sizes and all layer placements.", "anchors": ["src/evolution/GlobalEvolution.cpp: Mult"]}
{"id": "C63", "title": "Implicit stages solve the equation of the explicit operator", "statement": "The vector k that the operator returns for an implicit stage satisfies k = f(t, x + dt k), where f is what the same operator returns for an explicit evaluation.", "quantifier": "every state, time and step, with sources and thin layers", "why_tests_cant": "Consistency of two code paths for all inputs.", "anchors": ["src/evolution/GlobalEvolution.cpp: ImplicitSolve, Mult"]}
{"id": "C64", "title": "Fields inside thin layers follow their sides", "statement": "The fields inside a thin layer after a step are those before it integrated over the step by the layer's own solver in the documented number of equal parts, with the mesh fields at its two sides, in the frame of the face and interpolated over the step, fed in at both ends; an evaluation at a time uses the layer integrated from the start of the step to that time. No layer depends on another layer, on the order in which layers are processed, or on earlier evaluations. Layers are left alone only when they and the fields at their sides are below 1e-8.", "quantifier": "every history of steps and evaluations, every set of layers, every integrator and layer operator", "why_tests_cant": "Histories and integrators are unbounded; the property is a refinement of the whole run to a plain function.", "anchors": ["src/evolution/GlobalEvolution.cpp: commitSGBCCheckpoint, Mult, finalizeSGBCStep", "src/solver/SolverExtension.cpp: updateFieldsWithGlobalVector, updateFieldsWithInterpolatedGhost, solve"]}
{"id": "C65", "title": "Fields taken into the frame of a face come back unchanged", "statement": "Rotating the mesh fields into the frame of a face and rotating them back gives the original six components.", "quantifier": "every orthonormal frame and every field", "why_tests_cant": "Continuum of frames.", "anchors": ["src/evolution/GlobalEvolution.cpp: rotateGlobalFieldsToLocal, fillBCSlot"]}
{"id": "C66", "title": "The parallel Fourier transform equals the serial one", "statement": "The Fourier transform of the recorded surface data is, bit for bit, the terms of the snapshots added in their order, for every number of threads, every division of the frequencies among them and every interleaving of their memory accesses.", "quantifier": "every interleaving, thread count, data set and rounding of the additions", "why_tests_cant": "Schedules cannot be enumerated and a lost update would be rare.", "anchors": ["src/components/RCSSurfacePostProcessor.cpp: computeResults (parallel region)"]}
{"id": "C67", "title": "Nodal operator value", "statement": "For every state, the nodal (Hesthaven) operator returns a vector whose entry at each dof of each straight element is the curl of the other field plus the lifted numerical flux of the jumps seen across the element's faces (mirror states at boundaries, incident field added at total-field faces), whose entries at curved elements are the product by their stored rows, and whose remaining entries are zero; it never reads or writes outside the state.", "quantifier": "every mesh connectivity, order, boundary map, source list and state", "why_tests_cant": "Universal over meshes, orders and states; the loops scatter by index maps.", "anchors": ["src/evolution/HesthavenEvolution.cpp: Mult", "src/evolution/HesthavenEvolutionMethods.cpp: FieldsInputMaps, FieldsElementMaps"]}
{"id": "C68", "title": "Energy stability of the nodal operator", "statement": "If the element matrices satisfy integration by parts and the faces match, the energy rate of the nodal operator is exactly the sum over faces of the dissipation of its flux; with alpha >= 0 and PEC, PMC or absorbing (alpha >= 1/2) boundaries the energy of every solution never grows, and with alpha = 0 in a closed cavity it is constant.", "quantifier": "every discretisation satisfying the identities, every state, every solution and pair of times", "why_tests_cant": "A statement about all states and all times; a sign error in one block grows only in some modes.", "anchors": ["src/evolution/HesthavenEvolution.cpp: Mult"]}
{"id": "C69", "title": "The assembled global operator obeys the power balance of Maxwell's equations", "statement": "Applying the assembled global operator to any field state changes the discrete energy exactly by the power each face exchanges under the condition given to its tag in the input (PEC, PMC, absorbing, sheet, or plain interior face with upwinding alpha) minus the power lost to conduction. With every outer face closed and no interior sheet the energy of a lossy or lossless run never grows; with centred fluxes between PEC/PMC walls and no conductivity it is conserved.", "quantifier": "for every mesh, order, dimension, tag table, upwinding factor, conductivity matrix and field state", "why_tests_cant": "tests watch the energy of a few cavities for a few periods; a sign or coefficient that is wrong only for one condition, direction or mesh orientation escapes them", "anchors": ["src/components/DGOperatorFactory.h:21-45", "src/components/DGOperatorFactory.h:467-675", "src/components/DGOperatorFactory.h:871-1580"]}
{"id": "C70", "title": "A total-field/scattered-field surface injects exactly the incident wave", "statement": "In a run with a total field source, the state integrated by the global solver is the total field inside the surface and the total field minus the incident field outside: at every state the operator with the source term gives the rate of that pair. With no scatterer the incident field fills the inside and nothing leaks out.", "quantifier": "for every mesh, order, dimension, tag table, upwinding factor, conductivity matrix, incident field that is continuous across the surface, and field state", "why_tests_cant": "tests inject a few plane waves through boxes aligned with the mesh and compare with tolerances; a wrong sign, half factor or missing component on one face orientation shows only in some direction", "anchors": ["src/components/DGOperatorFactory.h:677-711", "src/components/DGOperatorFactory.h:1362-1425", "src/evolution/GlobalEvolution.cpp:551-626"]}
{"id": "C71", "title": "The dipole source is an exact field", "statement": "The field of a dipole source satisfies Maxwell's equations without charges or currents at every time and every point other than the origin, and a point of the plane is the point of space with third coordinate zero.", "quantifier": "every length, spread other than zero, delay, time and point other than the origin", "why_tests_cant": "a continuum of points and times; tests compare a few values with a reference", "anchors": ["src/math/Function.h: DerivGaussDipole"]}
{"id": "C72", "title": "Every source of the input takes part", "statement": "Each entry of the list of sources in the input gives exactly one source of its kind, in order, or the input is refused.", "quantifier": "every list of sources in the input", "why_tests_cant": "all lists and spellings; an entry that is dropped gives a run that looks fine", "anchors": ["src/driver/driver.cpp: buildSources"]}
{"id": "C73", "title": "Face connectivity of the nodal operator", "statement": "Every node of every face of every element is paired with the node of the neighbouring element at the same place, or with itself on the boundary; the pairs of an element's faces are consecutive and in the order the operator expects; each boundary condition is given exactly the faces on which its marker is set; building the maps leaves the mesh as it was.", "quantifier": "every conforming mesh of elements of one size, every order, every set of markers", "why_tests_cant": "the pairing is found by comparing entries of a matrix with tolerances; tests check a few meshes, while a wrong pair on one mesh corrupts a simulation silently", "anchors": ["src/evolution/HesthavenEvolutionMethods.cpp: Connectivities, assembleGlobalConnectivityMap, initBdrConnectivityMaps, initIntFaceConnectivityMaps"]}
{"id": "C74", "title": "Exactness of the pole-residue fit", "statement": "An impedance that is a sum of N simple poles, sampled at 2N+1 distinct frequencies or more, is recovered by the fit of order N: same poles, same residues, error zero; the search over the orders therefore returns a stable fit within any positive tolerance, of order N or less. The sampled frequencies are distinct and run geometrically from the first to the last.", "quantifier": "every number of poles, every poles off the samples and off zero, every nonzero residues, every set of distinct frequencies, every exact solver of linear systems and of eigenvalues", "why_tests_cant": "tests fit one or two impedances and look at the error; a slip in the scaling, the weights or the companion matrix may be hidden by a higher order", "anchors": ["src/components/SIBCPoleResidueFitting.cpp: scaleFrequencies, calculate_weights, build_system, extractRoots, solveForPoles, calcResidues, checkQuality, calcPolesAndResidues, findOptimalPoles"]}
{"id": "C75", "title": "The total field is inside the surface", "statement": "When the marked faces separate a set of elements from the rest of the mesh, the elements beside the surface on the inner side are put in the total-field sub-mesh and those on the outer side in the scattered-field one.", "quantifier": "every conforming mesh in two or three dimensions and every marked closed surface", "why_tests_cant": "tests use one or two meshes whose numbering or shape happens to suit the rule used", "anchors": ["src/components/SubMesher.cpp: setIndividualTFSFAttributesForSubMeshing2D, setIndividualTFSFAttributesForSubMeshing3D, buildFaceOrientation"]}
{"id": "C76", "title": "Sub-meshes hold what was listed, and fields go back and forth unchanged", "statement": "If no element is listed on both sides, the total-field and scattered-field sub-meshes consist of exactly the elements listed, and the global one of exactly the elements beside a marked face. The boundary of a sub-mesh on the marked faces carries the code of the condition and nothing else changes. Adding a sub-mesh field to the parent field changes each entry by what is mapped to it, and subtracting it afterwards restores the field.", "quantifier": "every conforming mesh, marker, user attributes other than the reserved codes, degree-of-freedom map and fields", "why_tests_cant": "tests compare a few meshes of a few elements", "anchors": ["src/components/SubMesher.cpp: TotalFieldScatteredFieldSubMesher, setGlobalTFSFAttributesForSubMeshing, setBoundaryAttributesInChild, MaxwellTransferMap"]}
{"id": "C77", "title": "The launcher does what the command line says", "statement": "Whatever the arguments, the launcher either starts the last path given with -i on the last device given with -d or --device (cpu by default), prints the help and exits with 2 when -h comes first, throws on an unknown device, or exits with 1 (no arguments) or 3 (the path does not contain .json).", "quantifier": "every list of arguments of any length", "why_tests_cant": "the order and repetition of flags are unbounded", "anchors": ["src/launcher/launcher.cpp: main"]}
{"id": "C78", "title": "The automatic time step is positive, geometric and the same on every rank", "statement": "When no time step is given, the step is positive, proportional to cfl, limited by the smallest element (in meshes of triangles or tetrahedra: by the smallest inscribed radius), unchanged when the mesh is moved and k times larger when it is enlarged k times; every rank computes the same one.", "quantifier": "every mesh of usable elements, order, cfl, operator and number of ranks", "why_tests_cant": "a test fixes a handful of meshes; the claim is about every geometry, and about what other ranks compute", "anchors": ["src/solver/Solver.cpp: estimateTimeStep", "src/solver/Solver.cpp: calcMeshTimeStep", "src/solver/Solver.cpp: getTimeStepScale", "src/solver/Solver.cpp: getMinimumInterNodeDistance"]}
{"id": "C79", "title": "The spectral analysis examines the operator that is evolved and reports exactly the unstable elements", "statement": "With the spectral option, the matrix analysed for each element is the operator that evolves that element alone, with its own material and absorbing faces, and the run is stopped with an error exactly when the chosen time step makes that evolution unstable; the largest eigenvalue reported is the largest.", "quantifier": "every element type and dimension, family of element forms, upwinding parameter, eigenvalue list and time step", "why_tests_cant": "a test analyses one or two elements of order one in vacuum with alpha 1; neither the sign of every one of the 48 blocks nor the meaning of the check can be settled by that", "anchors": ["src/solver/Solver.cpp: performSpectralAnalysis", "src/solver/Solver.cpp: assembleSubmeshedSpectralOperatorMatrix", "src/solver/Solver.cpp: evaluateStabilityByEigenvalueEvolutionFunction", "src/evolution/MaxwellEvolutionMethods.cpp: allocateDenseInEigen", "src/components/EigenvalueEstimator.cpp", "src/components/OptimizationManager.cpp: calcHighestModulus"]}
{"id": "C80", "title": "Each solver option of the case file is the value given or its documented default", "statement": "Reading a case file sets each solver option to the value given under its key, or to the documented default when the key is missing, independently of the other keys; a value of the wrong type or an unknown operator name is an error; and a value outside its documented range never reaches the time loop.", "quantifier": "every JSON document, with any subset of the keys and values of any type", "why_tests_cant": "tests read a handful of files in which most options are present and valid; the combinations of missing, mistyped and out-of-range values are unbounded", "anchors": ["src/driver/driver.cpp: buildSolverOptions", "src/solver/SolverOptions.h", "src/evolution/EvolutionOptions.h", "src/solver/Solver.cpp: checkOptionsAreValid", "src/solver/Solver.cpp: assignODESolver", "README.md"]}
{"id": "C81", "title": "A thin layer is meshed finely enough for the highest source frequency and its walls are read as written", "statement": "For each SGBC boundary of the case file the solver builds one wall with the tags, the layers in their order (or the single material) and the end conditions written there; every layer keeps its relative permittivity and permeability, its conductivity in solver units and its width; and without manual overrides the layer is divided so that a wave at the highest source frequency is resolved by 20 degrees of freedom per wave length and by two cells per skin depth, with no more cells than needed.", "quantifier": "every JSON description of a boundary, material, width and source frequency", "why_tests_cant": "tests mesh a few layers and look at one count; the bound must hold over a continuum of conductivities, widths and frequencies and over every combination of optional keys", "anchors": ["src/driver/driver.cpp: parseSGBCLayer", "src/driver/driver.cpp: buildModel", "src/driver/driver.cpp: assignBoundaryType", "src/components/Model.h: SGBCProperties", "src/math/PhysicalConstants.h"]}
{"id": "C82", "title": "After set-up each process marks exactly the surfaces its sources and thin layers are attached to", "statement": "After the model is built, every process holds a marker of the total field surface that is set exactly at the attributes of its own boundary elements tagged by some plane wave or dipole source, and a marker of the thin layers set exactly at those tagged by some SGBC boundary; a marker without any attribute is not stored; the set-up is refused exactly for a centred flux with absorbing boundaries under Hesthaven's operator.", "quantifier": "every list of sources and boundaries and every distribution of boundary elements over processes", "why_tests_cant": "tests use one source on one surface; the loss of a surface shows only with several sources on different tags and depends on the partition", "anchors": ["src/driver/driver.cpp: postProcessInformation", "src/driver/driver.cpp: getSGBCTags", "src/components/Model.h: getTotalFieldScatteredFieldToMarker"]}
{"id": "C83", "title": "The solver made for a thin layer represents its layers", "statement": "For every wall read from a case whose layers have a positive width and at least one cell, the solver that is made for it has in every cell the permittivity, permeability and conductivity of the layer the cell belongs to and vacuum in all cells added around the wall; absorbs at its two outer points and has on the two faces of the wall exactly the conditions the case asks for; uses the highest order of the layers, full upwinding and an implicit integrator that the solver accepts; and recommends the smallest of the steps its layers allow: half the time light takes to cross a cell, longer in a layer of n > 3 skin depths by the factor min(n^2, 50). When a step of any length is divided, no part is longer than half a crossing of a cell of any layer of at most three skin depths, nor than 25 crossings of any cell. A copy made for another thread is the same wall. The resolution messages name every conducting layer with the highest of the bounds 10 GHz, 1 GHz, 1 MHz below which its skin depth is more than a cell.", "quantifier": "for every list of layers, ends, time step and number of threads", "why_tests_cant": "Tests use one or two layers and one thread; the step depends on all layers at once and errors in it show up as slow drifts inside the wall, which no test observes.", "anchors": ["src/solver/SolverExtension.cpp: buildSGBCModel", "src/solver/SolverExtension.cpp: SGBCWrapper constructor", "src/solver/SolverExtension.cpp: clone", "src/solver/SolverExtension.cpp: checkSkinDepthResolution"]}
{"id": "C84", "title": "Every pair of nodes of a thin-layer surface carries one layer, turned the right way", "statement": "When the operator is made for a mesh in the plane or in space with thin-layer surfaces, each boundary attribute that a wall of the case names and that has a marked face gets one wall, and every pair of facing nodes of its marked faces (every node, on an outer face) gets one copy of the fields of that wall, all zero and of the wall's size, when the attribute is named once. Each copy belongs to the two elements beside its face; its first node is a node of the element it names first, its second one of the other; its local frame is right-handed and orthonormal and its first axis is the unit normal of the face at the integration point nearest to the node, pointing from the first element to the second. The work list contains every copy once, the two lists of nodes to update contain exactly the nodes of the elements on each side, and the walls and copies fit what the time stepping of the layers expects. On a line whose elements are numbered along it the copies join the last node of an element to the first of the next.", "quantifier": "for every mesh, marking, list of walls and numbering of nodes in which elements share no node", "why_tests_cant": "Tests use one flat surface on a small mesh; which side is first depends on the numbering of the elements of each face, and the number of copies on how often the case names an attribute.", "anchors": ["src/evolution/GlobalEvolution.cpp: constructor", "src/mfemExtension/SubMesher.cpp: computePerDofFaceNormals", "src/mfemExtension/SubMesher.cpp: getNormalAtRefPoint", "src/evolution/GlobalEvolution.cpp: collectDofs"]}
{"id": "C85", "title": "The matrix operator and the global operator are the same operator", "statement": "For every mesh, set of boundary conditions, flux parameter, set of materials and state, a case run with the matrix (\"maxwell\") evolution operator evaluates the same right-hand side as the same case run with the global operator, on one or several processes and whatever the output vector held before.", "quantifier": "all meshes of dimension 1 to 3, all boundary and interior boundary tables, all flux parameters, all materials, all states, all neighbour data, all former contents of the output", "why_tests_cant": "Tests compare the two operators on a few meshes with vacuum; they cannot cover every material, dimension and combination of boundaries.", "anchors": ["src/evolution/MaxwellEvolution.cpp:200-273", "src/evolution/MaxwellEvolution.cpp:39-198", "src/components/DGOperatorFactory.h:713-847", "src/components/DGOperatorFactory.h:1427-1571"]}
{"id": "C86", "title": "The table of a point or field probe holds exactly its due rows", "statement": "After a run, the table of every numbered point or field probe that writes holds its heading and then one row for each call at which an export was due, in the order of the calls, with the time in seconds and the values on the process that holds the point. This does not depend on how the processes interleave or on what files were there before.", "quantifier": "all file systems before the run, all probes with the numbers the case file gives, all numbers of processes and nodes, all sequences of calls, all interleavings", "why_tests_cant": "A test runs one schedule in a clean directory; lost or doubled rows depend on the schedule and on left-over files.", "anchors": ["src/solver/ProbesManager.cpp:184-260", "src/solver/ProbesManager.cpp:344-411", "src/driver/driver.cpp:750-777"]}
{"id": "C87", "title": "After a run the result directories hold only that run's results", "statement": "Every file found after a run in the result directories of the exports it performed (point and field tables, domain snapshots, near-field snapshots, reduction states) was written by that run; nothing of an earlier run is left among them.", "quantifier": "all file systems before the run, all probes, all processes, all sequences of calls, all interleavings", "why_tests_cant": "Tests start from clean directories, so left-over snapshots of a longer earlier run never appear.", "anchors": ["src/solver/ProbesManager.cpp:184-260", "src/solver/ProbesManager.cpp:284-309", "src/solver/ProbesManager.cpp:425-496", "src/solver/ProbesManager.cpp:609-658"]}
{"id": "C88", "title": "Every process's share of every snapshot is kept", "statement": "For every due export of near-field, domain, surface and reduction-state probes, the values of every process are in a result file at the end of the run.", "quantifier": "all numbers of processes, all probes with distinct names, all sequences of calls, all interleavings", "why_tests_cant": "Losing one process's data depends on the number of processes and the schedule; tests run on one process or look at one file.", "anchors": ["src/solver/ProbesManager.cpp:425-496", "src/solver/ProbesManager.cpp:609-658", "src/components/RCSSurfaceExporter.cpp:28-68", "src/components/RCSSurfaceExporter.cpp:140-164"]}
{"id": "C89", "title": "Writing results never leaves a process waiting", "statement": "Whatever the probes, their export steps, the point each process holds and the schedule, all processes meet at the same barriers: no process waits at a barrier that another one never reaches, and the run ends, except when a directory cannot be created because a file has its name.", "quantifier": "all probes, all processes and nodes, all sequences of calls, all reachable states of all interleavings", "why_tests_cant": "A missing barrier shows as a hang on particular schedules and particular combinations of probes only.", "anchors": ["src/solver/ProbesManager.cpp:189-197", "src/solver/ProbesManager.cpp:226-234", "src/solver/ProbesManager.cpp:291-296", "src/solver/ProbesManager.cpp:471-479", "src/solver/ProbesManager.cpp:617-631"]}
{"id": "C90", "title": "The snapshot far-field tool computes the radiated power", "statement": "For every surface, set of snapshots, angle and frequency the far-field value of the snapshot tool is the near-to-far-field formula: the squared amplitudes of the surface integrals of n x H and -n x E with the phase exp(i k r.x). It is finite, never negative, and does not change when the mesh is moved.", "quantifier": "all surfaces and basis functions, all snapshots, all angles and frequencies, dimensions 2 and 3", "why_tests_cant": "Tests compare a few spheres with reference curves within a tolerance; a wrong sign, phase or a singular point shows for particular geometries only.", "anchors": ["src/components/FarField.cpp:11-48", "src/components/FarField.cpp:100-148", "src/components/FarField.cpp:317-475", "src/mfemExtension/LinearIntegrators.cpp:323-361"]}
{"id": "C91", "title": "The snapshot tool's cross section does not depend on the sampling", "statement": "The radar cross section of the snapshot tool is 4 pi times radiated over incident power. It does not depend on the order in which the snapshots are found nor on how densely the same signal is sampled.", "quantifier": "all ranks, all snapshots, all orders, all angles and frequencies", "why_tests_cant": "A test has one sampling; a factor that depends on the number of snapshots looks like a calibration constant.", "anchors": ["src/components/RCSManager.cpp:18-47", "src/components/RCSManager.cpp:225-232", "src/components/FarField.cpp:317-352"]}
{"id": "C92", "title": "The two far-field tools agree", "statement": "For the same surface, snapshots and plane wave, the tool for surface data and the tool for snapshots report the same far field and the same cross section.", "quantifier": "all surfaces, snapshots, angles and frequencies, dimensions 2 and 3", "why_tests_cant": "Each tool has its own tests with its own references; nothing runs both on one case.", "anchors": ["src/components/RCSSurfacePostProcessor.cpp:131-158", "src/components/RCSSurfacePostProcessor.cpp:400-442", "src/components/FarField.cpp:445-475", "src/components/RCSManager.cpp:18-47"]}
{"id": "C93", "title": "The snapshot tool's result does not depend on the number of processes", "statement": "The merged far field and cross section of a run do not depend on how the surface was divided among the processes of the simulation; the normalisation column is that of the frequency.", "quantifier": "all divisions of the surface among any number of ranks, all orders of the rank directories", "why_tests_cant": "Tests read data of a single rank, where adding powers and adding amplitudes are the same.", "anchors": ["src/components/RCSManager.cpp:104-183", "src/components/RCSManager.cpp:185-261"]}
{"id": "C94", "title": "The snapshot tool's incident power is that of the simulated wave", "statement": "For every case with a plane wave the incident power by which the snapshot tool divides is the power of the wave the simulation injected, at every frequency.", "quantifier": "all plane waves the case file can describe, all sampling times, all frequencies", "why_tests_cant": "The tests use one unmodulated wave with a mean behind the origin.", "anchors": ["src/components/RCSManager.cpp:18-47", "src/math/Function.h:45-143", "src/components/FarField.cpp:281-288"]}
{"id": "C95", "title": "The nodal operator is built as a Galerkin scheme and its energy never grows", "statement": "For every conforming mesh of straight triangles or tetrahedra the operator that the construction leaves behind has, on each element, the mass, derivative and face terms of that element itself. With walls all around and no sources the energy of every state falls or stays, and with centred fluxes it stays the same.", "quantifier": "all conforming meshes, all orders and node sets, all states, all flux parameters, all solutions in time", "why_tests_cant": "Tests run a handful of small meshes; a wrong scaling of one element type or a wrong order of face nodes changes the answer without stopping the run.", "anchors": ["src/evolution/HesthavenEvolution.cpp:11-82", "src/evolution/HesthavenEvolution.cpp:134-205", "src/evolution/HesthavenEvolution.cpp:315-437", "src/evolution/HesthavenEvolutionMethods.cpp:133-300"]}
{"id": "C96", "title": "The nodal operator accepts every element type the same way", "statement": "Whatever the type of the elements (triangles, quadrilaterals, tetrahedra, hexahedra, or several of them) the construction either gives an operator of the right scale or reports an error.", "quantifier": "all meshes of all element types, including an empty part of a mesh", "why_tests_cant": "The tests for quadrilaterals are disabled and there are none for hexahedra or mixed meshes.", "anchors": ["src/evolution/HesthavenEvolution.cpp:27-82", "src/evolution/HesthavenEvolution.cpp:134-171", "src/evolution/HesthavenEvolution.cpp:351-408"]}
{"id": "C97", "title": "Each element is treated as straight or curved, by its shape only", "statement": "Every element is handled once, as straight or as curved, according to whether its nodes leave the straight element; the choice does not depend on the unit of length. An incident field that touches a curved element stops the construction, and nothing else does.", "quantifier": "all meshes, all node positions, all markers", "why_tests_cant": "Tests use one curved mesh of unit size.", "anchors": ["src/evolution/HesthavenEvolution.cpp:207-263", "src/evolution/HesthavenEvolution.cpp:315-350"]}
{"id": "C98", "title": "Curved elements use the global operator", "statement": "At every node of a curved element and for every component, the nodal operator returns exactly the row of the global operator, for every state.", "quantifier": "all meshes with curved and straight elements, all global operators, all states", "why_tests_cant": "A test compares the two operators on one mesh and one state.", "anchors": ["src/evolution/HesthavenEvolution.cpp:410-437", "src/evolution/HesthavenEvolution.cpp:645-680"]}
{"id": "C99", "title": "The nodal and the assembled evolution are the same method", "statement": "On the same mesh of straight triangles or tetrahedra in vacuum, for the same conditions, the same flux parameter and every state, the two evolution operators a user can choose between return the same time derivative, so a run gives the same fields whichever is chosen.", "quantifier": "all conforming meshes, all orders and node sets, all states, all flux parameters, all solutions in time", "why_tests_cant": "A test compares the two on a few meshes and states; conditions on interior faces and flux parameters between 0 and 1 are not compared.", "anchors": ["src/evolution/HesthavenEvolution.cpp:265-313", "src/evolution/HesthavenEvolution.cpp:439-542", "src/evolution/GlobalEvolution.cpp:381-393", "src/components/DGOperatorFactory.h:373-700"]}
{"id": "C100", "title": "Fields that satisfy the conditions are only moved by their curl", "statement": "For fields that are continuous between the elements and meet the conditions of the walls, the operator returns the curl of the fields and the ohmic losses, with nothing from the faces, for every flux parameter; a uniform field that meets the conditions stays as it is for all time.", "quantifier": "all meshes, all states that are continuous and meet the conditions, all flux parameters", "why_tests_cant": "Consistency is a statement about all admissible fields; convergence tests look at one solution and cannot separate a face error from a discretisation error.", "anchors": ["src/evolution/HesthavenEvolution.cpp:265-313", "src/components/DGOperatorFactory.h:373-700", "src/mfemExtension/BilinearIntegrators.cpp:1-716"]}
{"id": "C101", "title": "The implicit integrators never add energy", "statement": "In a passive problem without sources, each of the six implicit integrators a user can choose returns after every step a state whose energy is at most the energy before it, whatever the time step; the trapezoidal and the midpoint rule keep the energy exactly when nothing absorbs; and the stage equations always have exactly one solution.", "quantifier": "all meshes and conditions that do not amplify, all states, all time steps, runs of any length", "why_tests_cant": "A stable test run says nothing about another mesh, another step or a longer run; growth can be too slow to be seen in a test.", "anchors": ["src/solver/Solver.cpp:41-77", "src/solver/Solver.cpp:535-551", "src/solver/SolverOptions.h:8-18", "src/evolution/MaxwellEvolution.cpp:1-38"]}
{"id": "C102", "title": "The default integrator keeps the energy bounded", "statement": "In a passive problem without sources, the explicit integrator keeps the energy of the fields bounded by its first value for every number of steps.", "quantifier": "all meshes and conditions that do not amplify, all states, all time steps, runs of any length", "why_tests_cant": "Whether a step is small enough depends on the whole mesh and on the materials; a test fixes both.", "anchors": ["src/solver/Solver.cpp:41-77", "src/solver/Solver.cpp:302-354", "src/solver/Solver.cpp:535-551", "src/solver/SolverOptions.h:8-18"]}
{"id": "C103", "title": "A run converges to the exact solution when the step shrinks", "statement": "For each of the seven integrators, from any initial state of a passive problem without sources, the fields of a run differ from the exact solution of the semi-discrete equations by at most a constant times the order-th power of the time step times the elapsed time; the constant depends on the integrator only. So the fields go to the exact solution as the step goes to zero, and that solution exists and is unique.", "quantifier": "all meshes and conditions that do not amplify, all states, all steps below a quarter of the inverse of the bound of the operator, runs of any length", "why_tests_cant": "A convergence test shows one slope for one solution; it cannot exclude another state, a longer run or a step outside its range.", "anchors": ["src/solver/Solver.cpp:41-77", "src/solver/Solver.cpp:483-551", "src/solver/SolverOptions.h:8-18"]}
{"id": "C104", "title": "A driven run stays bounded and follows the driven equations", "statement": "With a total-field/scattered-field source, the fields of a run on a passive problem grow at most linearly in time, with the largest size of the source: for every step with the six implicit integrators, for steps below a stability limit with Runge-Kutta 4. For a smooth source the fields differ from the exact solution of the driven semi-discrete equations by a term of second order in the step (first for backward Euler) times the elapsed time, plus what leaving out a negligible source contributes. The exact solution exists and is unique, and the fields go to it as the step goes to zero.", "quantifier": "all meshes and conditions that do not amplify, all states, all sources (bounded; smooth for the accuracy), all steps below the stated limits, runs of any length", "why_tests_cant": "A test uses one source and one step and sees only a finite run; a source evaluated at a wrong stage time still gives plausible fields, and growth over long times is not visible in a short run.", "anchors": ["src/evolution/GlobalEvolution.cpp:551-626", "src/evolution/GlobalEvolution.cpp:1090-1233", "src/solver/Solver.cpp:41-77", "src/solver/Solver.cpp:483-551"]}
{"id": "C105", "title": "A run with the automatic time step stays bounded", "statement": "When no time step is given, the solver picks one from the mesh, the order and the Courant factor. With the default explicit integrator and no source, the energy of the fields in a passive problem must not grow beyond its first value, up to a fixed small factor, however many steps are taken.", "quantifier": "for every mesh, order, material, boundary condition, flux, Courant factor, initial state and number of steps", "why_tests_cant": "a test runs a few meshes for a few hundred steps from smooth data, which hardly contain the fastest waves of the mesh; whether these grow depends on every mesh, and a slow growth shows only after the test has ended", "anchors": ["src/solver/Solver.cpp:302-354", "src/solver/SolverOptions.h:22", "src/evolution/GlobalEvolution.cpp:1009-1087"]}
{"id": "C106", "title": "The reference field of a resonant box is an exact solution", "statement": "The field that results of resonant cases are compared with must solve the wave equation inside the box, vanish on its walls, start as the initial field of the same case and, with suitable magnetic fields, solve Maxwell's equations. The two companion functions offered with it must be consistent with it, and lists of wrong sizes must be rejected.", "quantifier": "for every number of directions, mode numbers, box lengths, position and time", "why_tests_cant": "a test compares a few values; only a derivation shows that the formula solves the equations for every mode, and a wrong factor shows up as an error of the solver instead", "anchors": ["src/math/Function.h:419-559", "src/math/Function.h:145-168", "src/driver/driver.cpp:375-384"]}
{"id": "C107", "title": "The statistics files describe the run that was made", "statement": "After a run the statistics directory of its case holds one file per process and nothing of earlier runs. Each file holds one initialisation record and one run record with the requested times, the exact numbers of elements, unknowns and operator entries, and the mean element size. This holds for every number of processes, every interleaving, every set of probes and whatever was in the directory before, and whether the solver is started from a case file or made by a program.", "quantifier": "all run modes, case names, probes, numbers of ranks, schedules, earlier contents of the directory, histories of constructors and runs, and operator sizes", "why_tests_cant": "Tests write into one directory with one process and never read the file. The order in which processes clear, create and append is a schedule; the rounding of the operator size needs an operator with more than 94906265 rows.", "anchors": ["src/driver/driver.cpp:1624-1661", "src/solver/Solver.cpp:131-146", "src/solver/Solver.cpp:356-367", "src/solver/Solver.cpp:404-444"]}
{"id": "C108", "title": "A run on several processes computes the fields of a run on one", "statement": "Cut the mesh among any number of processes. Each process assembles its own operator, exchanges the fields of neighbouring elements and advances its own unknowns. After any number of time steps the fields of all the processes together are the fields of a run on one process, and they determine the whole state.", "quantifier": "all meshes, dimensions, boundary conditions, penalties, materials, orders, numbers of processes, partitions, states, step sizes and numbers of steps", "why_tests_cant": "Tests that run on several processes use one mesh and one partition and compare with a tolerance. A sign or a missing row on a face between two processes only shows for the partitions that cut there.", "anchors": ["src/components/DGOperatorFactory.h:391-397", "src/components/DGOperatorFactory.h:467-573", "src/components/DGOperatorFactory.h:1427-1571", "src/evolution/GlobalEvolution.cpp:759-812", "src/driver/driver.cpp:79-96"]}
{"id": "C109", "title": "However the processes are scheduled, a run on several of them ends with the fields of the run on one", "statement": "Every process of a run advances at its own pace and waits only in its exchanges with neighbours. Whatever the order in which the processes go on, the run ends after a bounded number of exchanges and every process then holds its part of the fields a run on one process computes. This should hold for every time integrator the input can name.", "quantifier": "all meshes, partitions, numbers of processes, states, steps, integrators and interleavings of the processes", "why_tests_cant": "A test sees a few interleavings of a few processes. A mismatch between the numbers of messages of two processes shows as a hang only for some initial fields and partitions.", "anchors": ["src/evolution/GlobalEvolution.cpp:759-812", "src/evolution/GlobalEvolution.cpp:1090-1233", "src/solver/Solver.cpp:41-76"]}
{"id": "C110", "title": "A run stays near every field that nearly satisfies Maxwell's equations", "statement": "Take any fields in the space of the solver that change with time, have continuous tangential parts, meet the conditions of the faces and satisfy Maxwell's equations, with the conductivity and a given source, up to a defect of bounded size, both tested with the functions of the space. At every step, the fields of a run with the assembled operator differ from them, in the energy norm, by no more than the difference at the start, the defect times the elapsed time, and the error of the integrator: of the order of the integrator without source, of second order (first for backward Euler) with a smooth one. In particular, when the exact fields lie in the space the run follows them up to the error of the integrator.", "quantifier": "for every mesh, order, conditions, upwind parameter and conductivity, every reference field and defect, every start, integrator and step with dt K <= 1/4, every length of the run", "why_tests_cant": "A test compares a run with a known solution on one mesh at some times; it cannot show that the distance is controlled for every solution, nor that it grows at most linearly.", "anchors": ["src/components/DGOperatorFactory.h:1427-1571", "src/evolution/GlobalEvolution.cpp:628-830", "src/solver/Solver.cpp:41-77"]}
{"id": "C111", "title": "Runs on several processes integrate thin layers as one process does", "statement": "Take a mesh with thin layers (SGBC) and total-field sources, divided among processes so that both sides of a layer face lie on one process. If a run on one process ends with some fields and layers, and at each evaluation and each end of step every process that has layers finds either all layers of the mesh quiet or one of its own not quiet, then the explicit run on several processes also ends, its fields are the parts of the fields of the single process, and each process has the layers that lie on its part, with the same inner fields. If one process has all the layers, no condition on them is needed. Without the condition the inner fields can differ.", "quantifier": "for every mesh, partition, order of the elements on each process, wrappers, inner integrators, step lengths, number of steps, sources and conditions; with the condition on quiet layers, or with all layers on one process", "why_tests_cant": "A parallel test compares one partition with the serial run up to a tolerance; it cannot cover every partition and every history of quiet and loud layers.", "anchors": ["src/evolution/GlobalEvolution.cpp:399-549", "src/evolution/GlobalEvolution.cpp:645-751", "src/evolution/GlobalEvolution.cpp:831-995", "src/components/DGOperatorFactory.h:1363-1425", "src/solver/Solver.cpp:535-551", "src/driver/driver.cpp:172-260"]}
{"id": "C112", "title": "Timing reports never block a parallel run and cover every process", "statement": "In a build with timing information, each evaluation of the right-hand side may print a report. Whatever the measured durations, whatever earlier runs have left, and in whatever order the processes go on, the collective calls that decide and gather a report never leave a process waiting, the number of steps is bounded by twice the evaluations of each process, and what is printed is the same in every order. In processes that have just started, process 0 prints exactly one report at the first evaluation that is at least the fiftieth since the last report and at least 0.05 after it, with the mean durations in milliseconds and the bottleneck of every process in order; the other processes print nothing. A second solver in the same process does not start afresh: it can print nothing for its whole run.", "quantifier": "for every number of processes, sequence of evaluation times, measured durations, values left in the variables and order of the processes", "why_tests_cant": "Durations and the order of the processes differ in every run; a test sees one of them, and a deadlock in one collective call needs a particular order.", "anchors": ["src/evolution/GlobalEvolution.cpp:1003-1087"]}
{"id": "C113", "title": "The far-field tool carries out its request on the exports of the run", "statement": "Whatever the command line and the files, the far-field tool prints its help, ends with status 1 because no file was given, or carries out the request file given with the last -i. It then processes the surface probes of the case, each once and in order, with all frequencies and all pairs of angles of the request, and stops with an exception at the first one that fails or has no name. For a case below ./testData/maxwellInputs that the launcher accepts, it reads the case file of the run and, when the run mode in the request is that of the run, each probe from the directory the run exported it to. Cases that the launcher accepts elsewhere are not found.", "quantifier": "for every list of arguments, request file, case file, names, sweeps and outcome of the processing of each probe", "why_tests_cant": "Tests call the processing with fixed paths; they cannot cover all command lines and names, nor that the paths written by one program are those read by the other.", "anchors": ["src/launcher/rcs_launcher.cpp:24-58", "src/driver/rcs_driver.cpp:20-86", "src/components/RCSSurfaceExporter.cpp:32-34", "src/driver/driver.cpp:1487-1551"]}
{"id": "C114", "title": "A partitioned mesh has one element type and its elements keep their identity", "statement": "Building a model from a mesh with elements succeeds only if all elements have the same type, and is refused with an exception exactly when two of them differ; a mesh without elements is not refused but reads an element that does not exist. The map from elements of the whole mesh to elements of one process sends each element to the last local element whose centre is within 1e-5. When the centres of the mesh are further apart than that, for every partition and process an element is mapped exactly when the process owns it, to its number among the elements of the process; so every element has one process and one number, and no number is shared. For finer meshes both fail.", "quantifier": "for every list of element types, list of centres in any dimension, partition, process and element", "why_tests_cant": "Tests build the map for a few coarse meshes on a fixed number of processes; they cannot cover all partitions, sizes and scales.", "anchors": ["src/components/Model.cpp:8-51", "src/components/Model.cpp:53-59"]}
{"id": "C115", "title": "Numbers in the text files of a run are right to the digits they are written with", "statement": "Every time, field value and state value written to a text file is the closest decimal of its number of digits: six for snapshot times and probe tables, 17 for reduced-order snapshots. Reading a reduced-order snapshot back gives every finite double exactly. Table entries are right to 5e-6 of their size. The far-field tool reads snapshot times to 5.1e-6 of their size, never in the wrong order, and apart from each other when they differ by more than 1.02e-5 of the larger; its spectra differ from those of the exact times by at most 2 pi f times 5.1e-6 times the mean of |value * time|. Closer times can coincide. Probe positions are written to 5e-7 of the mesh unit and can coincide.", "quantifier": "for every real number or finite double, every list of snapshots, frequency, component and degree of freedom", "why_tests_cant": "Tests compare a few exported numbers with a tolerance; they cannot cover all doubles, nor how rounded times add up over all histories.", "anchors": ["src/solver/ProbesManager.cpp:205-216", "src/solver/ProbesManager.cpp:244-254", "src/solver/ProbesManager.cpp:360-408", "src/solver/ProbesManager.cpp:450-454", "src/solver/ProbesManager.cpp:494-495", "src/solver/ProbesManager.cpp:641-650", "src/components/FarField.cpp:194-203", "src/components/FarField.cpp:317-352"]}
{"id": "C116", "title": "An exported operator can be read back and is right to six digits", "statement": "With the option export_operator a run on one process writes the global evolution operator (and, with a total-field boundary, the source operator) to Exports/Operators/<mesh>/. The files are written exactly for the global evolution and for the element-wise evolution with curved elements; a file that cannot be opened stops the run with an exception, and asking for the export does not change the operator of the run. A file can be read back: it has the sizes, offsets and columns of the operator, and every value is the closest one of six digits, so that signs, equalities and opposite values are kept and a product is right to 5e-6 of the sum of the sizes of its terms. Row sums that are zero are not kept, and with several processes or the default evolution nothing is written.", "quantifier": "every operator (any size and entries), every field it is applied to, every combination of options and processes", "why_tests_cant": "Tests export small operators and look at the sizes; whether each entry of an operator of any size is found again, and how exact, is a statement about all matrices.", "anchors": ["src/components/DGOperatorFactory.h:1564-1602", "src/evolution/GlobalEvolution.cpp:325-348", "src/evolution/HesthavenEvolution.cpp:411-415"]}
{"id": "C117", "title": "The impedance the pole-residue fit aims at is that of a passive slab", "statement": "For layers of one material, the value handed to the pole-residue fit at a positive frequency is the ratio of electric to magnetic field on the near side of a slab of that material, whatever the fields, as long as the magnetic field on the far side is zero. Its resistance is never negative, and a conducting layer has a value with positive resistance at every positive frequency. There is one value per frequency. Layers behind the first one count with their width only; a layer without losses has frequencies without a value; no layer has a value at frequency zero; without layers the behaviour is undefined.", "quantifier": "every material (positive permittivity and permeability, conductivity not negative), width, list of frequencies, and every solution of the field equations in the slab", "why_tests_cant": "Tests look at three materials and check that a fit exists; that the resistance is positive for all materials and frequencies is a statement about complex functions.", "anchors": ["src/components/SIBCPoleResidueFitting.cpp:30-56", "src/components/Model.h:77-100", "src/math/PhysicalConstants.h:11-13"]}
{"id": "C118", "title": "The surface file describes the surface", "statement": "The number of points in the header of a far-field surface file is the number of quadrature points of the boundary faces with the near-to-far-field attribute that have a transformation. The positions are those of these points in order; each normal has length one, is orthogonal to the face and points as the cross product of its tangents does; each weight times its normal is the quadrature weight times the vector area of the face. The far-field tool reads back exactly these arrays.", "quantifier": "every list of boundary elements with any attributes from 1 on of which one is at least 201, faces of a plane or of space with a Jacobian of full rank, any quadrature rules, any number of snapshots and any 64-bit encoding of numbers", "why_tests_cant": "Tests compare far-field values of a few runs; that the count of one loop fits the arrays of another loop for every mesh, with faces that are skipped, is not visible there.", "anchors": ["src/components/RCSSurfaceExporter.cpp:43-138", "src/components/FarField.cpp:112-118"]}
{"id": "C119", "title": "The surface in the file is the surface of the probe", "statement": "The far-field surface file of a probe describes the quadrature points of those faces of the sub-mesh that lie on boundary elements of the mesh with one of the tags of the probe, and no others, as long as the boundary of the sub-mesh does not carry the attribute 201 by itself. A face of the mesh with the attribute 201 is written even if the probe does not name it, and a tag outside the attributes of the mesh is undefined behaviour.", "quantifier": "every mesh and sub-mesh (any attributes, face maps, faces without counterpart), every list of tags, every dimension and quadrature rule", "why_tests_cant": "Tests use meshes whose surface has one tag; whether a face that is not asked for can get into the file depends on the numbering of the attributes of the mesh.", "anchors": ["src/solver/ProbesManager.cpp:531-539", "src/components/SubMesher.cpp:310-357", "src/components/RCSSurfaceExporter.cpp:10-138"]}
{"id": "C120", "title": "Both evolutions take the same side as total field", "statement": "In two dimensions the element-wise evolution puts the total field to the right of the boundary segments of a total-field line, seen along the order of their vertices. The global evolution takes the same side exactly when the segment runs the same way as the face of the mesh; if it runs the other way the two evolutions take opposite sides. In space the global evolution takes the element closer to the centre of the surface, the element-wise evolution the side the order of the vertices of the face points to, and the two can differ.", "quantifier": "every mesh in the plane (for space a counterexample), every boundary segment between two elements whose centres lie on different sides of it", "why_tests_cant": "Tests of the two evolutions use their own meshes, in which the segments happen to run in a suitable direction; the agreement depends on the order of vertices in every mesh.", "anchors": ["src/components/SubMesher.cpp:219-250", "src/components/SubMesher.cpp:569-597", "src/evolution/HesthavenEvolutionMethods.cpp:562-610"]}
