# Formal model of OpenSEMBA/dgtd: design

The code in `/repo` is a discontinuous-Galerkin time-domain Maxwell solver in C++ built on MFEM.
This directory holds a Rocq/Coq 8.16.1 model of parts of it and proofs about the model.

## Conventions

* `rocq/theories/<Area>_Model.v` contains definitions only. Each definition cites the file and lines it models.
* `<Area>_Spec.v` contains the specification vocabulary, written without the model's helpers (when it is more than a line or two).
* `<Area>_Proofs.v` contains lemmas and proofs.
* `<Area>_Props.v` contains the property theorems only. Each is closed by `exact` and followed by `Print Assumptions`.
  Each theorem is accompanied by an `Example` showing a concrete non-trivial case that meets its hypotheses.
* Outcomes: `Common.v` defines `res A = Ok a | Throw | UB`. C++ exceptions are `Throw`; out-of-bounds accesses,
  integer division by zero, and missing keys on a const JSON object are `UB`. No default value hides them.
* C++ `int` is modelled by `Z` (or `nat` for sizes) without wrap-around. 32-bit overflow is out of scope unless stated.
* `double` is modelled by exact reals `R` unless the property is about rounding. The time loop has a second model
  over IEEE binary64 numbers (Flocq).
* If a property is false of the faithful model there is a theorem named `..._refuted` with a witness. Those are findings about the code.
* A theorem that covers only part of its property is named `..._partial` and the missing part is stated next to it.

## Plan, property by property

| id | what is modelled | how it is proved |
|----|------------------|------------------|
| C01 | `Solver::run`/`step` over R, state (time, dt, final, list of step lengths) | well-founded induction on the number of remaining steps; exact step count |
| C02 | the same loop over binary64 with Flocq rounding | invariant: time is a float in [0, final]; Sterbenz lemma for the last step; refutation of termination when the guard is absorbed |
| C03 | `checkOptionsAreValid`, constructor time-step choice, loop | refuted with a negative time step; proved for the options with non-negative step |
| C04 | the probe call machine (`cycle_`, interval, final time) | induction over the call sequence; counting |
| C05 | `recalculateExportSteps` + C04 | integer division arithmetic |
| C06 | `calculate_interval` on optional keys + `recalculateExportSteps` | case analysis; refuted when both keys are present |
| C07 | movie as a sorted association list with `emplace` | induction over recordings |
| C08 | MOR context machine | invariant by induction over calls |
| C09 | same | refuted with a witness; proved for steps no longer than the spacing |
| C10 | setter + probe machine | refuted with a witness; proved when the final time is unchanged |
| C11-C13 | whole `applyPairwiseConstraintsPartitioning`: DSU arrays, component table in arbitrary iteration order, arbitrary sort permutation, greedy assignment | DSU invariant (acyclic parent forest whose classes are the connected components), then induction over components |
| C14, C15 | `mergeBlocksToCSR` with explicit arrays, marker, both passes | loop invariants relating marker, pos, C_i |
| C16 | add/collect functions as lists of placements | equality of placement lists and C14 |
| C17 | placement list of directional operators | expansion of the block mat-vec |
| C18 | layout functions | index arithmetic |
| C19-C21 | nodal flux over R | ring / nra |
| C22, C23 | GlobalEvolution machine: scratch vectors, checkpoint, thin-layer states, sub-solver as an arbitrary function | invariant by induction over call histories |
| C24 | LU cache machine, factorisation as an arbitrary function with its specification | invariant by induction |
| C25 | tasks on a list of states, thread assignment, interleavings | permutation induction; clone difference as refutation |
| C26 | sub-step arithmetic over R with `ceil` (up) | real arithmetic |
| C27 | CPU loops and GPU kernels as array transformers | pointwise equality |
| C28, C29 | sources as functions; the three injection paths | induction over source lists; refutation with two sources |
| C30 | plane-wave formula over R^3 | algebra |
| C31 | heap of sources with clone | induction over histories |
| C32 | frequency function on a list of sources | induction; refutation with mixed kinds |
| C33, C34 | mesh fixer on the bytes of the file (getline, tokens, stoi); the file on disk during the write as any prefix | lexing lemmas, induction over lines; idempotence by re-applying the first theorem to its own output; crash refutation |
| C35-C38 | material/boundary/marker construction | induction; UB outcomes explicit |
| C39 | path components on character lists, naming validation, opened mesh | decomposition at the last separator and dot; occurrences of a pattern do not cross a separator; `.mesh` refutation |
| C40, C41 | TFSF/NTFF list construction on abstract faces | induction; refutation for local face ids |
| C42 | 1D connectivity loop | refutation for 3 elements; holds for at most 2 |
| C43, C44 | binary codec on bytes, with the state of the input stream | round trip by induction; truncation refutation and exact description |
| C45-C48 | RCS accumulation, merging, sentinel | algebra over R, permutations |
| C49, C50 | spherical and rotation algebra over R | trigonometric identities |
| C51 | SGBC 1D mesh builder | induction on layers |
| C52 | `MatrixCompareLessThan` on binary64 entries; std::set as a search tree with any rebalancing | strict weak order without NaN; invariant over all insertions; NaN refutations |
| C53 | `checkQuality` with NaN, `findOptimalPoles` loop | induction over the orders; running maximum |
| C54 | orientation comparison on vertex lists | case analysis |
| C55 | face-matrix integrators as quadrature loops over R | induction on quadrature points; refutation for the integrators that reset |
| C56 | interior-boundary assembly loop | induction on boundary elements |
| C57 | automatic delay | real analysis with `exp` |
| C58 | rank-aware constructor check | case analysis; refuted for ranks other than 0 |
| C59 | `calculate_interval` on optional keys | exact characterisation of the undefined cases; refuted as stated |
| C60 | exporter time label (rounding to 1e-3) | real arithmetic; injectivity refuted |
| C61 | probe update with interval 0 / empty point list | refuted: undefined behaviour |
| C62 | `Mult` of the global operator with layers, sources, neighbours | pointwise value of every loop; refuted for layers sharing a dof |
| C63 | `ImplicitSolve` against `Mult` | dense solve specification; refuted with layers |
| C64 | layers through commit, evaluations and finalize | refinement of the run to the plain function `evolve` (EvolLayer_Spec) by induction over steps and parts |
| C65 | rotation into and out of the face frame | algebra over an orthonormal frame |
| C66 | the OpenMP region around the transform, loads and stores as steps | invariant over all interleavings: a cell is touched by its owner only |
| C67 | `HesthavenEvolution::Mult` function by function on the six vectors | each loop refines a pointwise function; sums over face nodes |
| C68 | the same, with the element matrices constrained by the discrete integration by parts | pointwise algebra summed over a permutation of the sides; derivative along a solution |
| C69 | the assembled operator (C16) with the factory's sub-operators (C56) acting on states of a mesh with any faces and tags | row sums by the assembly theorem, face forms by the integrator theorems, summation by parts for the derivative, then a pointwise identity per condition |
| C70 | the assembled source operator acting on the halved incident field, next to the assembled operator of C69 | rows of both operators as sums over faces, tested with functions of one zone; the other zone's incident field reaches it only through the surface, where continuity turns jumps into the source terms; inverse mass matrix to go back to dofs |
| C71 | `DerivGaussDipole::eval` on points of space | closed forms of the Cartesian components; derivatives with Coquelicot; polynomial identities in 1/r |
| C72 | `buildSources` on JSON objects | case analysis per entry; induction over the list |
| C42 | `assembleGlobalConnectivityMap1D` | closed form of each entry; characterisation of the right ones |
| C73 | `Connectivities` and all it calls, on the tables of the mesh and the shape functions of the faces | entries of the face matrix; sorted lists; windows of a concatenation of sorted blocks; induction over the markers |
| C74 | the whole of SIBCPoleResidueFitting.cpp over complex numbers, the two Eigen solvers as oracles | root counting of the cross product of the two fractions; companion matrix eigenvalues; uniqueness of residues |
| C75 | the orientation and distance rules on the mesh geometry | affine function at barycentres (plane), identity of squared distances (space), two concrete meshes |
| C76 | attributes, `CreateFromDomain` as selection by attribute, child boundary, transfer loops | loop invariants over marked faces and entries |
| C77 | argument loop of main | reading relation (tokens), interpretation of items, uniqueness |
| C78 | estimateTimeStep on meshes of arbitrary elements | minimum of a list; inscribed radius as the best point of a simplex; invariance under similarities through side lengths (Heron) |
| C79 | the two element matrices as sums of blocks, the check as a loop over components | each call adds one block; the product with a vector is compared row by row with the semi-discrete equations of C01; counterexamples of size two for the check |
| C80 | JSON values and conversions; the ten blocks of buildSolverOptions | each block is a lookup or a default; the whole is an equivalence with a table of keys, types and defaults |
| C81 | parseSGBCLayer and the wall loop over JSON | equivalences with declarative readings; real inequalities for the cell count; vacuum at 1 GHz as witness |
| C82 | the marker loops over the attributes of the partition | marker invariant over the loops; induction over the sources for the first one kept |
| C83 | Wall_Model: materials, ends, options, recommended step, report and copies of SGBCWrapper on top of Geo_Model (mesh), Setup_Model (markers, piecewise vectors), Input_Model (layers) and Evol_Model (sub-steps) | minimum over a fold, markers through C37, vectors through C36, sub-steps through C26; refutations by witnesses |
| C84 | Attach_Model: the loop on marked boundary elements, the nearest normal, the map of tags, the states, walls, tasks and dof lists of the constructor of GlobalEvolution, on top of Sub_Model (faces, orientation), Geo_Model (frames), Wall_Model (walls); composed with Evol_Model's groups | invariant over the boundary elements, search by induction, inversion of the folds; refutations by witnesses |
| C85 | Matrix_Model: the products of MaxwellEvolution::Mult term by term on flat vectors, with the matrices of Form_Model and the operator of Assembly_Model | each AddMult adds to one part of the output; the sum of the parts is the right-hand side of C17 less conduction; zero normals and symmetry from the face sums of C69 |
| C86 | Output_Model: file system as a map from paths, operations and barriers of every rank, any interleaving between barriers | phases at the clearing barrier; the holder is the only writer of its file; content by folding its operations |
| C87 | same | after the clearing barrier no file is left below the directory; every later file has a writer in the programs |
| C88 | same | single-writer lemma per rank path; shared path: the final content is one write |
| C89 | same | the number of barriers of a rank's program does not depend on the rank; progress and a decreasing measure |
| C90 | Far_Model: phase, linear forms, transform, amplitudes of one rank; FarRound_Model: acos argument in binary64 | Cauchy-Schwarz for acos, exchange of sums over dofs and points, phase factor of a translation; witness by computation |
| C91 | Far_Model: incident power, files of a rank, merge | permutation of sums; exact value of the tool |
| C92 | Far_Model and Rcs_Model on the same data | both reduced to the same intensity |
| C93 | Far_Model: rcsManager over all ranks | induction over ranks and angles; doubled surface |
| C94 | Far_Model and Source_Model | closed form of the sum; witnesses |
| C95 | Hest_Model: reference meshes, mass inverse, face matrices with zero columns removed, lifting, directional matrices, face data, whole constructor | each matrix computed exactly; cancellation of the mass; discretises per element; pairing of the sides of all faces by a permutation of (element, face) keys; energy theorem of C68 |
| C96 | same model, other element types | exact factor for quadrilaterals; size mismatch is UB |
| C97 | splitElements, checkTFSF | filter of a sorted list; scaling of coordinates |
| C98 | curvedElement and nodalMult | rows of C67 instantiated at the construction |
| C99 | both operators as built by their constructors, on one mesh (record `sameProblem`) | weak form of each against any test function; sides of the faces matched one by one; injectivity of the mass |
| C100 | the same | the face terms vanish pointwise; derivatives of a constant vanish |
| C101 | the seven integrators over the operator built by the constructor; the stage solves as a function that meets the stage equation | the energy form is dissipative, so each stage gives a Gram inequality; SDIRK33 by a certificate with its true binary64 constants; induction over the run |
| C102 | the same, with a bound of the operator in the energy norm | polynomial identities in the inner products of the stages; pairs of steps; a conductor as counterexample |
| C103 | the same integrators; the exact solution as a curve that follows the operator | Taylor expansion of the solution in the energy norm; series of the stages with remainders; no growth of the steps, so errors add up; power series for existence |
| C104 | the same integrators with a source curve; the run may use a source that is off by a tolerance | response of one step to the source with remainders; errors add up because steps without source do not grow; variation of constants for existence; Gronwall for uniqueness |
| C105 | the bound of the assembled operator for any space with inverse and trace inequalities; the space of linear elements on a line; spaces made of images of one reference element of any order on a line, of triangles and of tetrahedra; the automatic step; runs of the explicit integrator | Young's inequality with a free weight on every face and volume term; explicit constants for the line; inverse and trace inequalities from the invertibility of the reference mass matrix by Cauchy-Schwarz, scaled with the ratio of volume and boundary; explicit eigenvectors between two walls for the growth |
| C106 | the resonant reference functions, any number of directions | closed form by induction over the loops; the field is a multiple of one sine along each direction, so the second derivatives are explicit |
| C107 | The statistics files: clearing, creation and both records, inside the whole program of file operations of each rank; the squared size in binary64 | Barriers split the schedule; nothing else touches the directory; induction over histories of constructors and runs; parity of numbers above 2^53 |
| C108 | The operator of one process (local faces, rows of shared faces, neighbour columns), the exchange, and Runge-Kutta steps on all the processes; what it means that a mesh is cut | Face forms tested with functions that live on one process; the jump integrators give the same value from either side; products with element-wise matrices; C17 for the rows; induction over steps |
| C109 | What each process sends and waits for in an evaluation, a Runge-Kutta step and an implicit stage; all interleavings of the processes | The state of a process after c exchanges is that of the collective run (invariant over moves); progress by induction on the least advanced process; counting exchanges for the hang |
| C110 | Curves of fields with a defect (Acc_Spec.v), on the assembled operator and the integrators of C103 | The difference is driven by the defect (C100), so it grows at most linearly (C104); the error of the integrator by C103 and C104. |
| C111 | The thin layers of every process (ParLay_Model.v) added to the evaluation of C108, with commit and finalize around each step | An invariant over the steps: the layers of each process are those of the single process that touch it (layersShared); evaluation, commit and finalize keep it if the decisions on quiet layers agree. The processes' success is derived from that of the single process. |
| C112 | The timing block of each process as a program of collective calls (Timer_Model.v), with the rule by which MPI lets a process leave a collective call | The processes go through the same calls together in an ideal run (sync); any order of moves is a pace of that run, so it is bounded and stops only at its end. The reports of the ideal run are then compared with a specification that picks the first due evaluation. |
| C113 | The argument loop and the request of the far-field tool (Tool_Model.v), with the paths as strings | Argument lists are read into words; the loop is shown to follow them. Paths are compared by their components (parts), and the case name by the naming check of C39. |
| C114 | The type check and the element maps (ElNum_Model.v); centres are lists of reals, the map a partial function | Induction from the right over the centres: the last match wins. The numbering on a process is compared with a count of the earlier elements of that process. |
| C115 | The numbers written by the streams of the probes and read by getTime (Print_Model.v), as correctly rounded decimals (Flocq) | Closest decimals from the rounding theorems; the 17-digit round trip from the gap between doubles, which is more than 1e-16 of their size; spectra from the Lipschitz bound of sine and cosine. |
| C116 | the entries that Threshold keeps, the lines of PrintCSR2, the conditions and names of the files; reading the lines back is a separate specification | induction over rows for the offsets, round trip of the reader, rounding lemmas of C115 |
| C117 | `generatePhysicsTarget` with complex root and hyperbolic tangent over pairs of reals; the fields of a slab as a separate specification by differential equations | a combination of the fields with sinh and cosh of the wave number is constant; sinh x cosh x >= x and sin y cos y <= y for the resistance |
| C118 | the two loops over the boundary elements, with marker and skipped faces (`SurfGeo_Model`); vectors, tangents and areas as a separate specification | both loops go through the same points; blocks of fixed length; round trip of C43 |
| C119 | `buildSurfaceMarker`, `setChild` (C76) and the exporter in the order of its constructor (`SurfTag_Model`) | the marker after the loop over the tags; C76_child for the attributes; C118 for the arrays |
| C120 | `calculateCrossBaryVertexSign` beside `faceOrientation` (C76); sides of a directed segment and centres as a separate specification (`Side_Spec`) | the sign is the difference of two turns; comparison of the tangents |

## Findings

Each is a theorem ending in `_refuted` (or named below) about the faithful model.

* C01: the last step is dropped when less than 1e-8 steps remain, so the run may end before the final time.
* C02: in binary64 a run of more than 2^29 steps of equal length never stops; the loop guard is absorbed.
* C03: a negative time step is accepted and the run never stops.
* C04: the probes use an absolute margin, the loop a relative one; with steps above 1 the last state is not exported.
* C06: `saves` overrides `steps` once the solver is built.
* C09: the model-order-reduction probe can miss its last snapshots when its window ends inside the run.
* C10: setting the final time after construction leaves the probes with the old one.
* C12: the diagnostics printed on rank 0 index the partition without a bounds check.
* C23: with thin layers present, evaluating the operator before the first commit throws (`C23_mult_before_commit`).
* C24: -1 is both "nothing cached" and a possible step; a first step of -1 dereferences a null factorisation.
* C26: a thin layer whose recommended step is below 1e-9 is never advanced (`solve` returns at once).
* C33: meshes of quadrangles, hexahedra, prisms or pyramids count as one-dimensional, so their points and lines stay; an element
  number that is not an int hides its type on the first run only, so a second run changes the file again; a record with a
  single tag has its first node written over its physical tag.
* C34: the mesh is truncated in place before it is rewritten; an interruption loses it.
* C44: a surface data file cut inside a snapshot is read as if that snapshot ended in zeros; a file cut inside the geometry
  gives zero positions, normals and weights. Neither is reported.
* C45: the incident pulse is sampled at the times of whichever rank is read first, so ranks recorded at different times make
  the result depend on the order; a negative frequency in two dimensions gives a negative cross section.
* C46: amplitudes are accumulated per angle and frequency, so asking twice multiplies the result by four; the tool's own
  `linspace` repeats the angle when start equals end and steps exceed 1. Angles equal to six decimals share a file.
* C47: the normalisation column is summed like the values; angles and frequencies of the ranks are not compared; files that
  only a later rank has are ignored.
* C48: the default written is -1e5 but the one tested is +1e5: no case without a plane wave is rejected and a plane wave with
  spread 1e5 is. A plane wave without a frequency inherits that of an earlier one.
* C50: in one dimension the face frame is the identity whatever the normal, so a normal of -1 is not taken to the first axis.
* C54: the comparison looks up the first vertex only, so triangles with a repeated vertex are misjudged.
* C21: with the nodal operator an absorbing boundary feeds energy into the domain when 0 < alpha < 1/2 (its jump is the trace divided by alpha).
* C21: with the nodal operator an interior PEC or PMC face uses the factor -1 where the mirror state needs -2 (the global operator uses 2); the wall can feed energy into the domain for every alpha.
* C55: the header documents the one-normal form as beta<n[v],[w]>; the matrix is beta<n[u],{v}> (average, not jump, of the test function). `MaxwellDGFluxTotalFieldIntegrator`, `MaxwellDGPenaltyTotalFieldIntegrator`, `TotalFieldScatteredFieldIntegrator` and the two-element `BoundaryDGJumpIntegrator` reset or overwrite their result at each integration point, so only the last point counts. The one-element `BoundaryDGJumpIntegrator` divides by the surface element it documents integrating over. None of these five is used by the solver.
* C36: nothing checks that every element attribute has a material. Elements of a tag left out of "materials" get permittivity 0 (division by zero later) or, if the tag is above all listed ones, an out-of-range read (C36_missing_refuted).
* C37: boundary tags of the input are not checked against the mesh; a tag above the largest boundary attribute is written past the end of the marker (C37_unknown_tag_refuted).
* C38: one interior face is enough for a tag to be interior, so outer faces of the same tag silently get no condition (C38_outer_refuted).
* C69: an outer face whose tag carries no condition gets no flux term at all; it is not a wall and energy can enter through it (`C69_untagged_refuted`). Nothing in the code rejects such a mesh.
* C29: `MaxwellEvolution::Mult` loops over the total field sources and in each turn injects the field of `evalTimeVarFunction`, which itself goes through all sources and keeps the last one: with k sources the last one is injected k times.
* C30: the constructor of a plane wave accepts a polarisation parallel to the propagation; E is then longitudinal and H is zero.
* C31: `Sources::operator=` clears before it copies, so assigning a collection to itself empties it; a moved-from collection keeps null pointers and copying it is undefined.
* C32: one modulated source hides every Gaussian source; Gaussian plane waves are not counted because their magnitude has no `type` (1 GHz is used).
* C57: the automatic delay looks at centroids of boundary elements; at a corner the pulse may be at its peak at time zero.
* C72: an initial field with an unknown magnitude type is dropped silently; `assemble3DVector` does not check the number of components.
* C42: `assembleGlobalConnectivityMap1D` uses `p * e + p` for the last dof of element e; elements have p + 1 dofs, so only the first interface is right. (The nodal operator in one dimension is stopped elsewhere, in `getReferenceVolume`.)
* C73: the sub-mesh of a face is selected by the attribute 777, so an element of the user's mesh with that attribute is added to every sub-mesh; a mesh whose boundary elements all lie on interior faces makes `isInteriorMap.at(false)` throw; an interior condition on a face of the boundary is undefined; SGBC as interior condition throws.
* C52: a matrix with a NaN entry compares as equal to every matrix of its size, so once one is stored other elements are given it (or its element is given another matrix), without an error.
* C53: a fit whose poles are not numbers is taken as stable with error 0 (both comparisons are false) and returned at once; a pole with real part up to 1e-6 passes as stable; when no order is stable the caller gets an empty result flagged unstable.
* C74: `findOptimalPoles` with no sample writes to an empty vector. The system allows a constant term at high frequency but the residues are fitted without one.
* C40: in one dimension a single marked point between the first and second elements is taken for the left end of the mesh: face 0 of element 0 is listed (the other end of the element) and the second side is lost. `cleanInvalidSubMeshEntries` removes only entries equal to -1: a face shared with another rank, whose neighbour the library may report as -2 or less, leaves an invalid element in the list.
* C41: in three dimensions the local face is looked up in the second element but, when the face normal points to the second element (always, for faces generated from their first element), recorded with the first.
* C75: in two dimensions the first element of the face (the one of lower number) always goes to the scattered field, wherever it lies: on a strip with both faces of the middle element marked, the middle element ends in the scattered field and the outer last one in the total field. In three dimensions the barycentre nearer to the centre of the surface decides: with a long box and a slanted element above it, the element above is put in the total field.
* C39: the README allows `.mesh` files, the loader opens them and the model name is cut accordingly, but the check of names refuses every model.filename that ends in `.mesh`.
* C39: the opened mesh is built by erasing the first `.json` of the whole path and testing `.msh` and `.mesh` anywhere in the name. The accepted case `a.json/a.json.json` opens `a/a.json.json.msh`, and `a.mesh/a.mesh.json` opens `a.mesh/a.mesh.msh.mesh`; neither was checked.
* C77: a flag at the end of the line without its value is ignored in silence; a path that merely contains `.json` passes the launcher and is refused later by an exception.
* C78: with the nodal operator in 3D the automatic step loops over all elements of the serial mesh but indexes the rank's list of straight-sided local elements: an out-of-bounds read as soon as there are two ranks or one curved element (Solver.cpp 338-339).
* C78: the order 0 passes the option check, but in 2D and 3D the automatic step reads the second node of a one-node element (Solver.cpp 263).
* C78: in 3D the area of a face is that of its first three vertices, so a hexahedron counts half of its boundary; the divisor 6 is applied to the whole mesh as soon as one hexahedron is present.
* C78: the README says cfl is not available in 2D and 3D and time_step must be given there; the code estimates a step and multiplies it by cfl.
* C79: the spectral matrix leaves out the penalty terms when alpha is 0, but the absorbing faces of the element keep penalty coefficient 1 whatever alpha is, so the matrix is not the evolved operator (Solver.cpp 608, DGOperatorFactory.h 488-492).
* C79: the sub-model of the analysis is built without materials: an element with attribute 1 is analysed as vacuum, and any other attribute reads past the end of the one-entry coefficient table (Solver.cpp 584, 722, 730).
* C79: the stability check evolves the vector of eigenvalues as if it were a field, and compares components: it rejects stable systems and accepts unstable ones.
* C79: in the matrix of EigenvalueEstimator the flux terms have the opposite sign to the evolved ones, the penalty loop `d < Z` leaves out Z, and the two-normal terms use the other field's boundary coefficients (EigenvalueEstimator.cpp 66-95).
* C79: findMaxEigenvalueModulus ignores every modulus above 1 (Solver.cpp 632).
* C80: the README gives 3 as the default order and says that basis_type and ode_type are strings; the code's default is 2 and a string is a type error (driver.cpp 695-701, EvolutionOptions.h).
* C80: cfl above 1, a negative upwind_alpha and a negative time_step are accepted; an unknown or misspelled key is ignored.
* C81: the bound of 1000 cells is applied with a message only, and an order given without num_of_segments is not used in the cell count, so the resolution is lost in both cases (driver.cpp 1338-1370).
* C81: num_of_segments 0, an empty "layers" list and a width that is not positive are accepted.
* C82: the marker of a total field source is stored with std::map::insert, which keeps the first one: the surface of a second source with other tags is dropped silently, and two processes may keep the surfaces of different sources (driver.cpp 1571-1573).
* C44: a surface data file shorter than its header, or whose header asks for more values than an int counts, is not refused: the reader's behaviour is undefined (RCSSurfacePostProcessor.cpp 78-95).
* C83: the resolution messages are printed for the first wall of a process only (a static flag), so a severely coarse second wall is silent (C83_report_refuted).
* C83: a wall with a clear layer whose cells light crosses in less than 2e-9 (two nanometres of vacuum) is given parts shorter than the bound below which `solve` returns at once, so its inside is never advanced (C83_thin_refuted).
* C83: `clone` rebuilds the wall from the properties, so a copy of a wall made by `buildSGBCWrapperWithPEC` has open ends (C83_clone_refuted); the code only clones walls made from the properties (C83_clone).
* C83: a wall without layers, which the case reader accepts, makes the constructor read the first element of an empty list (C83_empty_refuted).
* C84: on plane meshes whose faces run counter-clockwise along their first element the orientation is always positive, so a pair is never turned (C84_plane_unturned) and the first layer of a wall around an element lies outside it on one face and inside it on another (C84_side_refuted).
* C84: an attribute named by two walls (or twice by one) gets the copies of both, with the wall of the last only; copies made for a smaller wall are then read past their end by the time stepping (C84_twice_refuted).
* C84: on a line with a single element the layer of its right end is attached to its left node, because element 0 is taken to be the left end (C84_line_refuted).
* C84: on a line numbered from its right end the layer of an inner point joins the two nodes furthest from it (C84_order_refuted).
* C85: the matrix evolution operator builds and applies no conduction term (`evalConductivity` is never called), so a conducting material is lossless with it and lossy with the global operator (C85_conductivity_refuted, C85_energy).
* C86: two probes with one number write one file; the second heading truncates the first, then rows of both alternate (C86_shared_refuted). The number is an uninitialised member until setProbeID is called (C86_unnumbered). The case file's numbering avoids both (C86_numbered).
* C87: near-field and reduction-state directories are never cleared. Snapshots of an earlier, longer run stay, and the far-field tool reads every snapshot in the directory (C87_near_refuted, C87_mor_refuted). The result directory is named after the mesh, so two cases with one mesh remove each other's tables (C87_point_fresh).
* C88: the files x_k of a reduction-state probe have no rank in their path; on several processes only one process's values survive (C88_mor_refuted).
* The constructor creates the near-field directories under an empty case name; they stay empty (Output_Model, nearInit).
* C90: calcPsiAngle divides by the norm of the surface point; a quadrature point at the origin makes the whole run stop with "Malformed line" when the NaN is read back (C90_throws). The detour over acos is not needed: k r.x is already known. In double arithmetic the argument of acos exceeds 1 for many points seen along their own direction, e.g. (1,1,1) along the diagonal, and gives NaN (C90_rounding_refuted). Both far-field tools share these functions.
* C91: buildIncomingPowerTerm divides |G|^2 by the number of snapshots once while the fields are divided by it before squaring; the snapshot tool's cross section is too small by the number of snapshots (C91_section_partial).
* C92: the two tools differ by that factor, and in two dimensions by pi^2 in the far field and 1/(2 f) in the cross section (C92_tools_partial).
* C93: the snapshot tool adds the powers of the ranks, not their amplitudes, and multiplies the normalisation column by the number of ranks (C93_split_refuted).
* C94: buildIncomingPowerTerm reads sources[0] whatever its type, ignores the carrier frequency, mirrors a positive mean, and reads an uninitialised vector when the mean is left out (C94_*_refuted).
* C96: getReferenceVolume gives 4 for a quadrilateral, but the reference mesh of HesthavenEvolution is the unit square; the nodal operator on quadrilaterals is four times too large in every term, as if the speed of light were 4 (C96_quadrilateral, C96_refuted). The corresponding tests of the repository are disabled.
* C96: in three dimensions the reference element is always a tetrahedron; a mesh of hexahedra multiplies matrices of different sizes (C96_hexahedra_refuted). A mesh of several types keeps the reference matrices empty and does the same (C96_mixed_refuted). A rank without elements asks for the type of element 0 (C96_empty_refuted).
* C97: the tolerance for curved elements is 1e-5 in the unit of the mesh; a mesh in small units is treated as straight (C97_units_refuted).
* C99: the two evolution operators differ at interior walls (the nodal one has half of the correction, C99_sheet_refuted) and at absorbing faces when the flux parameter is not 1 (C99_absorbing_refuted); C99_difference gives the difference for every state.
* C100: at an absorbing face the nodal operator is not consistent unless the flux parameter is 1: it acts on an outgoing wave that meets the condition exactly (C100_nodal_refuted).
* C102: for every time step there is a passive problem in which the default integrator multiplies the energy by 25 in each step (C102_any_step_refuted). The automatic time step (Solver.cpp 302-354) looks at the mesh and the order only, so a conductor needs a step chosen by hand or an implicit integrator.
* C105: the automatic time step (Solver.cpp 302-320) takes the distance between neighbouring nodes divided by the order to the power 3/2 in one dimension. With linear elements and the default Courant factor 1 (SolverOptions.h 22) the explicit integrator is unstable on every mesh of equal elements between two conducting walls: one wave grows by 961 in energy per step with the upwind flux and by 13 with the centred flux (C105_default_refuted). With the upwind flux the growth starts below a factor of one half (C105_half_refuted); with the centred flux exactly when the factor exceeds the square root of 2/3 (C105_central_growth). A user has to set a smaller factor by hand.
* C106: the constructors of the resonant reference functions (Function.h 433-445, 476-488, 519-531) compare the sizes of their members before filling them, so the test never holds. A list of lengths shorter than that of the modes is read past its end and a longer one is cut (C106_sizes). The companions TM2D_Dx and TM2D_Dy read the second mode of a one-dimensional case past the end (C106_line). They carry the factor cos(w t) of the electric field, so they are its slopes but not the magnetic fields of the mode (C106_companions_refuted).
* C107: a program that constructs a Solver without the driver loses the initialisation record of the first solver, because the constructor opens the statistics file without creating its directory, and later runs append to the same file. The number of places of the operator is squared in double precision, so every odd size above 94906265 is reported wrongly. A process without elements reports no number for the mean element size.
* C108: the adjustment of the partition only looks at the tags of total-field sources and thin layers (driver.cpp 79-96, 1269-1277). An interior face with another condition, for instance a perfectly conducting sheet, can end up between two processes.
* C109: ImplicitSolve builds mfem::GMRESSolver without a communicator (GlobalEvolution.cpp 1221), while its operator exchanges face data. A process whose right-hand side is zero makes six exchanges, a neighbour with a non-zero one at least twelve: the neighbour waits for ever (or takes the messages of a later step for those of this one). Nothing in the driver refuses an implicit integrator on several processes.
* C108: each process compares its own part of the incident field with the threshold 1e-8 (GlobalEvolution.cpp 584-598, no reduction over processes) and skips its source term when the part is smaller. A field just above the threshold is used by a run on one process and dropped when its surface is spread over several. What is dropped is at most 1e-16 per process in sum of squares (C108_source_unheard).
* C111: the test whether all layers are quiet is made by each process on its own layers (GlobalEvolution.cpp 678-691 and 457-486). A layer that a single process integrates because another layer is loud is not integrated by a process that does not hold the loud layer, so its inner fields, below 1e-8, differ from those of the run on one process (C111_threshold_refuted).
* C112: the accumulators and the time of the last report are static variables of the function (GlobalEvolution.cpp 1010-1012), shared by all solvers of a process. A second solver that starts again at time 0 prints no report until its time passes that of the last report of the first solver plus 0.05, and its first averages include what the first solver left (C112_second_run_refuted).
* C113: the launcher accepts a case in any folder, but the far-field tool reads the case file only from ./testData/maxwellInputs/<case>/ (rcs_driver.cpp 41). For a case kept elsewhere it throws, or silently reads another case of the same name (C113_elsewhere_refuted).
* C114: the tolerance of the element map is the absolute length 1e-5 (Model.cpp 31), so in a mesh with finer elements two elements get the same local number and elements of other processes are found (C114_fine_refuted). The type check reads element 0 of a mesh that has none (Model.cpp 45, C114_empty_refuted).
* C115: time.txt is written with the default precision of six digits (ProbesManager.cpp 453, 495), so the far-field tool works with times that are wrong by up to 5e-6 of their size, and snapshots closer than that are given one time (C115_times_refuted). The head of a probe table gives positions with six decimals (std::to_string, lines 214 and 252): in a mesh in metres with details below a micrometre probes cannot be told apart (C115_position_refuted).
* C116: an exported operator has six digits per entry (the stream keeps its default precision), so that an operator that gives zero on constant fields is exported as one that does not. With several processes a message says so and nothing is written; with the default evolution nothing is written and nothing is said.
* C117: the target of the pole-residue fit uses the material of the first layer for the whole width of the stack, so that the materials behind it have no effect. The conductivity is read as if it were in SI units, while the documentation of `Material` (Material.h 30) and the driver (driver.cpp 963, 980) scale it with the impedance of free space; the fit is used by tests only, which pass SI values.
* C118: the comment in writeGeometry says that CalcOrtho is negated; the code does not negate it (C118_geometry has the sign).
* C119: the exporter recognises the surface by the attribute 201, which is the number of a boundary condition, while the other boundary attributes of the sub-mesh are numbers chosen in the mesh file. A wall with the number 201 (or, where MFEM numbers new faces from the largest attribute on, a mesh whose largest number is 200) adds its faces to the surface. A tag larger than all attributes is written outside the marker array.
* C120: the element-wise evolution takes the direction of a total-field line from the vertices of the boundary element, the global evolution from the vertices of the face, which MFEM orders after the first element. On a segment listed the other way round the two put the total field on opposite sides. In space the element-wise evolution uses the order of the vertices of the face and the global evolution the distance to the centre of the surface: on a cube with another cube on top they differ.
* C58: invalid options are rejected on rank 0 only.
* C59: asking for `saves` with an automatic time step divides by a missing or zero step.
* C60: two exported states can carry the same time label.
* C61: interval 0 and points outside the mesh give undefined behaviour, not an error.
* C62: two layers that share a mesh dof overwrite each other's slot in the shared work vector.
* C63: `ImplicitSolve` leaves the thin layers out, so implicit integrators see a different equation from explicit ones.

Seen while reading, outside the model: `solve` writes `static bool temporal_warning_printed` from parallel regions
without synchronisation; both surface currents of the far-field tool carry the opposite sign from the comments beside them
(harmless: only moduli are used); `clone` of a wrapper built with PEC sides loses the PEC sides.

## Trusted base

* Coq 8.16.1's kernel.
* Axioms, as `Print Assumptions` lists them (all from the standard library): theorems over `R` use
  `ClassicalDedekindReals.sig_forall_dec`, some also `ClassicalDedekindReals.sig_not_dec`, and
  `FunctionalExtensionality.functional_extensionality_dep`; some over Flocq floats also use `Classical_Prop.classic`.
  The theorems about matrices of arbitrary scalars, partitions and lists are closed under the global context.
* That the model follows the code. The citations beside each definition say which lines; the comments say what is simplified.

What is modelled and what is not:

| code | modelled | not modelled |
|------|----------|--------------|
| `components/DGOperatorFactory.h` | block placement, merge to CSR, scatter, source operator (Csr, Assembly) | MFEM form assembly of each block (given as matrices), the 1e-20 threshold |
| `driver/driver.cpp` | partition constraints (Partition), probe intervals (Probe), mesh clean-up down to characters (MeshFix) | see the areas below |
| `solver/Solver.cpp` | options check, step choice by given estimate, run and step loops, over R and binary64 (Time) | the CFL estimate itself, MPI reductions, console output |
| `solver/ProbesManager.cpp` | export schedule, movies, labels, MOR snapshots (Probe) | ParaView/VisIt file contents, point location |
| `evolution/GlobalEvolution.cpp` | `Mult`, `ImplicitSolve`, commit/finalise, caches (Evol); parallel loops (Sched) | MPI exchange (neighbour data is an argument), hypre/GMRES (oracle), the integrator (any program of stage solves) |
| `evolution/GlobalEvolution.cu` | the copy kernels as sets of copies in any order (Gpu) | device memory model of mfem (`Read`/`Write` give valid data) |
| `solver/SolverExtension.cpp` | wrapper step, ghosts, interpolation, state load/save (Evol) | the 1D operator assembly (an arbitrary matrix) |
| `components/RCSSurfaceExporter.cpp`, `readRankData` | file format, byte for byte (Codec) | positions and Jacobians (MFEM transformations); the arrays are in `SurfGeo_Model` |
| `components/RCSSurfacePostProcessor.cpp`, `driver/rcs_driver.cpp` | filter by time, Fourier transform serial and parallel, amplitudes, far field and cross section, file names and rows (Rcs, Dft) | MFEM surface mesh and linear forms (arbitrary functionals), parsing, the OpenMP runtime (the static schedule divides equally at each snapshot), rounding |
| `components/RCSManager.cpp`, `FarField.cpp` | merging of files, reading of the incident wave (Merge) | the legacy far-field computation, number parsing |
| `components/Spherical.cpp`, `solver/SolverExtension.h` (frame), `SolverExtension.cpp` (wall mesh and materials), `math/Geometry.cpp` | conversions, face frame, wall vertices, attributes, materials, interfaces, orientation (Geo) | MFEM's mesh construction, libm (atan2 and acos are exact real functions), the origin (its angle is NaN) |
| `evolution/Fields.h`, `FieldOffsets`, `buildSingleVectorTFSFFunc` | layout arithmetic (Layout) | mfem's `MakeRef` (a window), device memory |
| `evolution/HesthavenEvolution.cpp` | `Mult`, boundary and source jumps, flux, lifting, curved rows (Nodal) | rounding; the constructor is in `Hest_Model` |
| mfemExtension/BilinearIntegrators.cpp, IntegratorFunctions.cpp, LinearIntegrators.cpp | every AssembleFaceMatrix and AssembleRHSElementVect as loops over integration points (`Face_Model`) | choice of the rule, shape functions, MFEM's CalcOrtho and Weight taken as their formulas |
| driver/driver.cpp 870-1053, components/Material.cpp, components/Model.cpp 53-241 | material and boundary tables, markers, coefficients (`Setup_Model`) | JSON parsing, MPI partition of the mesh, TotalField and SGBC tags set elsewhere |
| mfemExtension/BilinearForm_IBFI.cpp 19-82, LinearForm_IBFI.cpp 19-83 | assembly on interior boundaries (`Form_Model`) | the base-class Assemble, static condensation, prolongation; markers are assumed to have the size the (debug-only) assertion demands |
| components/DGOperatorFactory.h 21-45, 117-147, 373-711 | sub-operators from face forms (`Form_Model`) | the marker semantics of the forked MFEM (AddInteriorFaceIntegrator with a marker skips the faces of marked boundary elements, AddInternalBoundaryFaceIntegrator assembles as BilinearForm_IBFI.cpp) are assumptions; shared faces |
| components/DGOperatorFactory.h 467-1580 with solver/GlobalEvolution.cpp | energy of the assembled operator (`Global_Spec`, `GlobalEnergy_Proofs`, `GlobalBalance_Proofs`) | the mass matrices are inverted exactly and the derivative satisfies integration by parts with the face quadrature (hypothesis `dgSpace`); entries are not dropped by Threshold |
| components/DGOperatorFactory.h 677-711, 1362-1425; evolution/GlobalEvolution.cpp 551-626 | source operator on a total field surface (`Tfsf_Spec`, `TfsfLil_Proofs`, `Tfsf_Proofs`, `TfsfRun_Proofs`) | sub-mesh extraction and projection of the incident field (hypothesis `halved`); the zones are those of the mesh (hypothesis `splits`); the skip of source terms with norm below 1e-8 |
| math/Function.h 20-416; components/Sources.h, Sources.cpp | functions, plane wave, dipole, initial field, total field (`Source_Model`) | Bessel functions are any total function; TM2DSinusoidalMode; positions are lists of reals |
| components/Sources.h 75-142 | collections over a heap (`Coll_Model`) | iterator invalidation, exceptions during allocation |
| solver/SourcesManager.cpp; evolution/MaxwellEvolutionMethods.cpp 8-33; evolution/MaxwellEvolution.cpp 275-328 | initial fields, the two ways to evaluate total fields, the source loop (`Source_Model`) | ProjectCoefficient is evaluation at the nodes; the sub-mesh is given by its element map and dofs; one rank |
| driver/driver.cpp 20-61, 299-641 | highest frequency, construction of sources, automatic delays (`Source_Model`) | JSON types are those expected; the global minimum over ranks is the minimum of one list |
| evolution/HesthavenEvolutionMethods.cpp 59-113, 271-434, 459-785 | face connectivity (`Conn_Model`) | mfem::SubMesh keeps the order of the elements; boundary element k of a one-element sub-mesh is local face k; dofs are numbered element after element; rows of a sparse matrix are read in increasing order of columns; quadrature and shape functions are given |
| evolution/HesthavenEvolutionMethods.h 28-55, HesthavenEvolution.cpp 158-168 | the store of matrices (`Store_Model`) | std::set is a search tree rebalanced in any way; the matrices themselves are given |
| components/SIBCPoleResidueFitting.cpp | the fit (`Fit_Model`) | rounding; Eigen's `bdcSvd().solve` and `ComplexEigenSolver` are oracles, exact in C74; the layer impedance itself is in `Slab_Model` |
| components/SubMesher.cpp (selection, tagging, child boundary, transfers) | `Sub_Model`: functions cited there | getNormal, computePerDofFaceNormals, calculateBaryNormalProduct, calculateCrossBaryVertexSign (unused or not modelled); `SubMesh::CreateFromDomain` is the selection of elements by attribute; `BuildFaceMap` and `BuildVdofToVdofMap` are given maps; that MFEM creates a face with the vertices of its first element is a hypothesis (`ccwFace`) |
| driver.cpp (names), launcher.cpp (arguments) | `Case_Model`: validateCaseNamingStyle, mesh paths, meshName_, main up to buildSolverJson | std::filesystem::path as in libstdc++ on POSIX; `exists` and JSON parsing are oracles; permission errors of `exists` |
| Solver.cpp (automatic step) | `Step_Model`: all functions from getMinimumInterNodeDistance to estimateTimeStep | GetElementVolume, GetElementSize, node positions, fscale values are data; rounding; getVerticesCoordsForElem, getSideLength, getElementPerimeter (never called) |
| Solver.cpp (spectral analysis), EigenvalueEstimator.cpp, OptimizationManager.cpp | `Spectral_Model`: assembly of both matrices, the check, the boundary attributes and conditions of the element sub-mesh, the largest moduli | Eigen's eigenvalues, the ODE step, CreateFromDomain, the forms; OptimizationManager's private loop (never called) |
| driver.cpp (options, SGBC parsing, postProcessInformation) | `Input_Model`: buildSolverOptions, parseSGBCLayer and the loop over the boundaries, getSGBCTags, the two markers and the final check; nlohmann::json values with the semantics of contains, operator[], size and the conversions | nlohmann::json itself (its behaviour is stated in Input_Model), the messages, SetAttributes |
| SolverExtension.cpp 29-47, 121-167, 444-558 | Wall_Model | text of the messages, the inner Solver construction beyond its option check |
| GlobalEvolution.cpp 46-308, SubMesher.cpp 117-197 | Attach_Model | buildConnectivityForInteriorBdrFace here (Conn_Model has it), transformation to the reference element, console output, allocation of the thread copies of the walls |
| src/evolution/MaxwellEvolution.cpp 28-37, 200-273 | matrices applied term by term, clearing of the output, flux vectors (Matrix_Model) | exchange of neighbour data (arbitrary values), timers |
| src/solver/ProbesManager.cpp 11-63, 95-127, 184-309, 344-529, 557-576, 609-658; src/components/RCSSurfaceExporter.cpp 28-68, 140-164; src/components/Probes.h | file operations and barriers of every rank, any interleaving (Output_Model) | printing of numbers, buffering of streams, partial effects of a failing remove_all, ParaView files, names with slashes |
| src/components/FarField.cpp 11-148, 163-174, 281-288, 317-475; src/components/RCSManager.cpp; src/mfemExtension/LinearIntegrators.cpp 323-361 | values of the snapshot far-field tool for any surface (Far_Model, reals), acos argument in binary64 (FarRound_Model) | mesh and basis of MFEM (quadrature points, normals and shape values are inputs; basis functions vanish outside their element), Vector::Norml2 (two readings), libm, decimal printing, directory listing order, more than one process for the tool |
| evolution/HesthavenEvolution.cpp 11-263, 315-437; HesthavenEvolutionMethods.cpp 133-300 | constructor of the nodal operator (`Hest_Model`) | shape functions, quadrature, mass and derivative matrices of MFEM (record `fecol` and `gelem`, with integration by parts as hypothesis `straight`); boundary element k of a one-element mesh is its face k; Eigen's inverse is exact; product of matrices of different sizes is UB; console output |
| the integrators RK4, BackwardEuler, Trapezoidal, ImplicitMidpoint, SDIRK23, SDIRK33, SDIRK34 (mfem linalg/ode.cpp, external) | the step of each, with the exact binary64 values of the constants (Ode_Model) | rounding; the solve of a stage is any function that meets the stage equation (what ImplicitSolve gives is C63) |
| math/Function.h 419-559 (resonant reference functions) | constructors and evaluation over the reals, reads past the end as undefined | rounding; clone |
| driver.cpp 1624-1661, Solver.cpp 131-146, 356-367, 404-444 | directory clearing, records, sizes | number formatting, clock and memory readings, communicators other than the world |
| DGOperatorFactory.h with ParBilinearForm, GlobalEvolution.cpp 759-812 on several processes | local and shared rows, neighbour columns, packing, exchange as a copy | MFEM: ParMesh cutting and numbering, ParBilinearForm::AssembleSharedFaces and ExchangeFaceNbrData are transcribed, not read from /repo; a shared face seen from the other side has the opposite normal and the same points |
| GlobalEvolution.cpp 771-774, 1117-1136, 1177-1231 on several processes | order and number of exchanges, local norm of the solver, first product | MFEM and MPI: an exchange returns when every neighbour has sent its own of the same number; GMRES after its first product is any function of the right-hand side and the products |
| Quadrature and derivative matrices of straight simplices (MFEM) | means of monomials in barycentric coordinates by the classical factorial formula; face rules exact for products of two basis functions; normals from the vertices | which rule MFEM picks and its decimal digits; curved elements |
| Total-field sources on several processes (GlobalEvolution.cpp 551-626, DGOperatorFactory.h 1404-1425) | the source operator of each process, its threshold test, scatter and product, in evaluations and Runge-Kutta runs | that each process has the surface dofs that lie in it (ParSubMesh), taken as a hypothesis |
| commit, evaluation and finalize of thin layers on several processes, GlobalEvolution.cpp 399-549, 645-751, 831-995 | yes (ParLay_Model.v), per process on its own layers | the construction of the layers from the mesh, the pairing in the partitioner (assumed), ghost columns of the layer operator on other processes (its columns are local) |
| timing reports, GlobalEvolution.cpp 1003-1087 | yes (Timer_Model.v): decisions, collective calls, averages, bottleneck, resets | the clocks (any durations), the printed layout, rounding |
| far-field tool, rcs_launcher.cpp 24-58, rcs_driver.cpp 20-86 | yes (Tool_Model.v): arguments, request, jobs, paths | JSON parsing (oracles; a negative number of steps is left out), MPI start and end, messages |
| element type check and element maps, Model.cpp 8-51 | yes (ElNum_Model.v) | the mesh itself; centres and the order of the elements of a process (MFEM) |
| text output of numbers, ProbesManager.cpp 205-216, 244-254, 360-408, 450-454, 494-495, 641-650, and getTime, FarField.cpp 194-203 | yes (Print_Model.v): the values | the characters; infinities and NaN; the C library (trusted to round to nearest even) |
| DGOperatorFactory.h 1564-1602, GlobalEvolution.cpp 325-348, HesthavenEvolution.cpp 411-415 | Threshold, PrintCSR2 as the sequence of lines, names and conditions of the files, the exception | Threshold and PrintCSR2 are mfem's and modelled from their description; making the directory and opening the file is one yes-or-no answer of the file system; a line is the number it denotes |
| SIBCPoleResidueFitting.cpp 30-56, Model.h 96-100 | the values for all frequencies (`Slab_Model`) | rounding; infinities are not distinguished from values that are not numbers; the sign of a zero imaginary part |
| RCSSurfaceExporter.cpp 43-65, 80-138, FarField.cpp 112-118 | count, positions, normals and weights (`SurfGeo_Model`) | quadrature rules, positions and Jacobians (MFEM); rounding; overflow of the count |
| ProbesManager.cpp 531-539, RCSSurfaceExporter.cpp 10-69 | tags, attributes of the sub-mesh, points of the file (`SurfTag_Model`) | face maps and attributes of a new sub-mesh (MFEM) |
| SubMesher.cpp 219-237, HesthavenEvolutionMethods.cpp 562-575, 603-610 | the side of a face (`Side_Model`) | rounding; which face transformations are used |

Assumptions stated as theorem hypotheses rather than modelled: the dense inverse is exact (`solves`), fresh heap memory
has arbitrary contents of the right length (`junk`), integrators never ask for a step of -1 (`sane`).
The nodal operator's data satisfies `wfNodal`; the energy theorems also assume `discretised` (discrete integration by parts).
The Example `C74_oracles_ex` (only) also uses `Coq.Logic.ClassicalEpsilon` (axiom `constructive_indefinite_description`) to show that exact solvers exist.
