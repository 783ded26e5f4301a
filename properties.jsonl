{"id": "C01", "title": "Every sample index is processed by exactly one process", "statement": "After the sample generator distributes its samples, for every sample index between 0 and the total (exclusive) there is exactly one process that reports the index as its own job; the share of each process is a contiguous range, shares are in process order, and any two shares differ in size by at most one.", "quantifier": "every total number of samples, every number of processes >= 1, every process rank, every sample index", "why_tests_cant": "A test fixes a few (total, process count) pairs and usually runs on one process; the claim is about every pair and every rank at once.", "anchors": ["src/sample_generator.cpp:105-121 SampleGenerator::DistributeSamples", "include/sample_generator.hpp:101-104 SampleGenerator::IsMyJob"]}
{"id": "C02", "title": "Linear sample index and parameter multi-index are inverse to each other", "statement": "Converting a linear sample index in [0,total) to a multi-index and back gives the same linear index; converting any multi-index whose every component lies in its own parameter's range to a linear index gives a value in [0,total), and converting that back gives the multi-index. Distinct samples therefore get distinct indices, files and random seeds.", "quantifier": "every list of positive parameter sizes (any number of parameters), every index", "why_tests_cant": "The number of size vectors is unbounded; a test checks a handful of small grids.", "anchors": ["src/sample_generator.cpp:123-137 GetSampleIndex(Array)", "src/sample_generator.cpp:139-156 GetSampleIndex(int)", "src/sample_generator.cpp:81-103 SetParamSpaceSizes"]}
{"id": "C03", "title": "A multi-index outside the sampling grid is rejected", "statement": "Asking the sample generator for the linear index of a multi-index that has a component outside its parameter's range never returns normally.", "quantifier": "every list of positive parameter sizes and every multi-index of the same length with an out-of-range component", "why_tests_cant": "Needs a universally quantified negative: the code only checks the final linear value, which test inputs rarely straddle.", "anchors": ["src/sample_generator.cpp:123-137 GetSampleIndex(Array)"]}
{"id": "C04", "title": "Sample generation visits every sample once and finishes", "statement": "Running sample generation to completion solves every sample owned by the calling process exactly once in increasing order (retrying a failed solve only in random mode), saves each solved sample under its own index, and terminates for every number of processes.", "quantifier": "every total, every number of processes and rank, every pattern of solver success and failure", "why_tests_cant": "Termination for every process count and every failure pattern is a statement about all executions; the test suite runs sample generation with one process.", "anchors": ["src/main_workflow.cpp:144-210 GenerateSamples"]}
{"id": "C05", "title": "Parameter values produced for a sample stay inside the configured range", "statement": "For every parameter kind, the value produced for local index i in [0,size) lies in [minimum, maximum], index 0 gives the minimum, values never decrease with i, and (linear real parameters with size > 1) the last index gives the maximum exactly.", "quantifier": "every minimum <= maximum, every size >= 1, every local index", "why_tests_cant": "Range claims over all real/integer bounds and sizes; tests only evaluate a few grids.", "anchors": ["src/parameter.cpp:21-41 DoubleParam::SetParam", "src/parameter.cpp:85-96 IntegerParam::GetInteger", "src/parameter.cpp:114-135 FilenameParam"]}
{"id": "C06", "title": "Integer parameter grid covers its whole range", "statement": "For an integer parameter, the last sample index gives the configured maximum and, when the number of samples does not exceed the number of integers available, no two samples get the same value.", "quantifier": "every minimum, maximum, sample size", "why_tests_cant": "The truncating integer division only loses the end point for some (range,size) combinations.", "anchors": ["src/parameter.cpp:85-96 IntegerParam::GetInteger", "include/parameter.hpp:65 SetMaximumSize"]}
{"id": "C07", "title": "Port tags are ordered consistently, so a port is never registered twice or lost", "statement": "The ordering used for port tags is a strict total order whose incomparability coincides with field-by-field equality; therefore an ordered map keyed by port tags finds a tag exactly when an equal tag was inserted.", "quantifier": "every pair and triple of port tags", "why_tests_cant": "Order axioms quantify over all triples of tags.", "anchors": ["src/sample_generator.cpp:13-25 operator<(PortTag)", "include/hdf5_utils.hpp:63-69 BasisTag::operator<"]}
{"id": "C08", "title": "Different basis tags have different printed names", "statement": "The printed name of a basis tag (used as basis, snapshot and dataset name) identifies the tag: two different tags never print the same name.", "quantifier": "every pair of (component, variable) names", "why_tests_cant": "Collision needs particular component names; tests use names that cannot collide.", "anchors": ["include/hdf5_utils.hpp:50-56 BasisTag::print", "src/rom_handler.cpp:19-34 GetBasisTag"]}
{"id": "C09", "title": "Snapshot bookkeeping keeps every component basis tag tied to one store", "statement": "After any sequence of snapshot saves, a basis tag can be looked up exactly when at least one snapshot with that tag was saved; the snapshots stored for it are exactly the ones saved with that tag, in saving order; saving under one tag never changes what is stored for another tag.", "quantifier": "every history of saved solution vectors with arbitrary tag lists", "why_tests_cant": "Quantifies over all histories; a test replays one.", "anchors": ["src/sample_generator.cpp:180-204 SaveSnapshot", "src/sample_generator.cpp:266-281 AddSnapshotGenerator", "src/sample_generator.cpp:335-355 LookUpSnapshot"]}
{"id": "C10", "title": "Port snapshot records point at the snapshots of the same solve", "statement": "After any sequence of snapshot saves with ports, every recorded pair of column offsets of a port designates the two snapshot columns that were saved for the two sides of that port in the same solve, in order, and unrelated ports are untouched.", "quantifier": "every history of saves, every topology (list of ports) and every tag assignment", "why_tests_cant": "Needs induction over histories and topologies.", "anchors": ["src/sample_generator.cpp:206-264 SaveSnapshotPorts", "src/sample_generator.cpp:357-370 LookUpSnapshotPortColOffsets"]}
{"id": "C11", "title": "Collected snapshot files are concatenated without mixing columns", "statement": "Collecting port snapshots from several files yields, for every recorded pair, the same two columns after re-indexing into the concatenated snapshot matrix: the new offset designates the column that the file-local offset designated.", "quantifier": "every list of snapshot files and every per-file record list", "why_tests_cant": "Off-by-offset errors appear only with several files of different widths.", "anchors": ["src/sample_generator.cpp:411-484 CollectSnapshotsByPort", "src/sample_generator.cpp:587-606 GetSnapshotOffset"]}
{"id": "C12", "title": "Reading back an option that was set gives the value; other options are untouched", "statement": "After setting an option under a slash-separated key, getting that key returns the value set, and getting any key whose path is neither a prefix nor an extension of it returns what it returned before; an optional read returns the fallback exactly when the key is absent and never modifies the configuration.", "quantifier": "every configuration tree, every key path, every value", "why_tests_cant": "Frame conditions quantify over all trees and all pairs of keys.", "anchors": ["src/input_parser.cpp:49-72 FindNodeFromDict", "include/input_parser.hpp:98-140 GetRequiredOptionFromDict GetOptionFromDict SetOptionInDict"]}
{"id": "C13", "title": "Command-line overrides are applied left to right and malformed overrides stop the program", "statement": "A forced-input string is a colon-separated list of key=value items; applying it is applying the items one after the other, so the last assignment to a key wins; an item with no '=' or an empty value or a second '=' followed by text stops the program and is never silently dropped.", "quantifier": "every override string, every configuration", "why_tests_cant": "All strings; malformed corner cases are not enumerated by tests.", "anchors": ["src/input_parser.cpp:74-98 OverwriteOption"]}
{"id": "C14", "title": "Dictionary look-up returns the first matching entry", "statement": "Looking up a named entry in a list of dictionaries returns the first entry whose key has the wanted value, and the undefined entry exactly when none matches.", "quantifier": "every list of entries", "why_tests_cant": "Quantifies over all lists, including duplicates.", "anchors": ["include/input_parser.hpp:146-184 LookUpFromDict"]}
{"id": "C15", "title": "Time profiler accumulates every start/stop interval once", "statement": "For every sequence of start and stop calls that the profiler accepts, the reported calls of a name equal the number of completed start/stop pairs of that name and its time is the sum of their durations; starting a running timer or stopping a timer that is not running stops the program.", "quantifier": "every sequence of start/stop events with arbitrary names and nondecreasing clock readings", "why_tests_cant": "Sequence property over arbitrary interleavings of names.", "anchors": ["src/etc.cpp:78-116 TimeProfiler::Start Stop", "include/etc.hpp TimeProfiler"]}
{"id": "C16", "title": "HDF5 round trip of dense matrices, tensors, vectors and arrays", "statement": "Reading a dense matrix, third-order tensor, vector or array that was written to a file returns the same object, entry by entry, although the storage order in the file differs from the one in memory.", "quantifier": "every size and every content", "why_tests_cant": "Index permutations over all sizes.", "anchors": ["src/hdf5_utils.cpp:98-143 DenseMatrix", "src/hdf5_utils.cpp:340-431 Vector DenseTensor", "include/hdf5_utils.hpp:126-235 Array Array2D"]}
{"id": "C17", "title": "HDF5 round trip of sparse and block matrices", "statement": "Reading a sparse matrix, block matrix or collection of matrix blocks that was written returns an object representing the same matrix, with blocks that were absent or empty read back as absent.", "quantifier": "every finalized CSR matrix and every block layout", "why_tests_cant": "All sizes including empty rows, zero blocks.", "anchors": ["src/hdf5_utils.cpp:176-338 SparseMatrix BlockMatrix", "src/hdf5_utils.cpp:433-492 MatrixBlocks"]}
{"id": "C18", "title": "Loading a sparse matrix from a CSR file never writes out of bounds", "statement": "Reading back a matrix in the three-array CSR file format never writes beyond an allocated buffer and returns the matrix that was written.", "quantifier": "every finalized CSR matrix", "why_tests_cant": "Only matrices with fewer entries than rows+1 overflow, and the overflow is silent.", "anchors": ["src/linalg_utils.cpp:365-394 ReadSparseMatrixFromHDF", "src/linalg_utils.cpp:396-423 WriteSparseMatrixToHDF"]}
{"id": "C19", "title": "Sample-point files round trip", "statement": "Writing a list of sample points (element, quadrature point, weight) for a given integration type and reading it back with the same type returns the same list in the same order; reading it with a different type stops the program.", "quantifier": "every list of sample points and every type", "why_tests_cant": "All lists and all four types.", "anchors": ["src/hyperreduction_integ.cpp:13-88 EQPElement::Save Load", "src/hdf5_utils.cpp:494-577 ReadDataset WriteDataset SampleInfo"]}
{"id": "C20", "title": "Interface orientation code is reversible", "statement": "The integer that encodes (local face, orientation) of a face of an element decodes to the same pair for every pair with orientation below 64.", "quantifier": "every local face index and orientation", "why_tests_cant": "Arithmetic identity over all values.", "anchors": ["src/topology_handler.cpp:422-447 FindParentInterfaceInfo", "src/topology_handler.cpp:53-98 GetInterfaceTransformations"]}
{"id": "C21", "title": "Boundary attribute lists are duplicate-free and complete", "statement": "After building the list of boundary attributes of a mesh, the list contains every attribute that occurs on a boundary element exactly once, in order of first occurrence, and nothing else.", "quantifier": "every mesh (list of boundary element attributes)", "why_tests_cant": "All meshes.", "anchors": ["src/topology_handler.cpp:100-120 UpdateAttributes UpdateBdrAttributes"]}
{"id": "C22", "title": "Every interface between two subdomains becomes one port with one attribute", "statement": "Splitting a mesh into subdomains yields for each pair of adjacent subdomains exactly one port listing every shared face exactly once, and port attributes are distinct from each other and from every existing boundary attribute.", "quantifier": "every mesh (list of faces with the subdomains of their two sides)", "why_tests_cant": "All meshes and partitions.", "anchors": ["src/topology_handler.cpp:357-420 BuildInterfaceInfos"]}
{"id": "C23", "title": "Component instances are numbered per type without gaps", "statement": "After reading a global configuration, each subdomain has a component type and an instance number such that instances of a type are numbered 0,1,2,... in subdomain order, the reported count of a type equals the number of subdomains with the type, and (type, instance) identifies the subdomain.", "quantifier": "every list of component types", "why_tests_cant": "All configurations.", "anchors": ["src/component_topology_handler.cpp:199-259 ReadComponentsFromFile"]}
{"id": "C24", "title": "Each port of a configuration gets its own unused attribute", "statement": "Reading the ports of a global configuration assigns to every port an attribute different from all other ports' and from every global boundary attribute, and connects the two recorded subdomains.", "quantifier": "every list of global boundary attributes and every number of ports", "why_tests_cant": "All configurations.", "anchors": ["src/component_topology_handler.cpp:261-348 ReadPortsFromFile"]}
{"id": "C25", "title": "Reference port data round trips through a file", "statement": "Writing reference ports to a file and reading the file back in a handler with the same component names gives the same component pair, attributes, vertex map and boundary-element pairs for each port.", "quantifier": "every list of reference ports whose component names exist", "why_tests_cant": "All port lists.", "anchors": ["src/component_topology_handler.cpp:428-576 ReadPortDatasFromFile WritePortDataToFile"]}
{"id": "C26", "title": "Vertex matching across a port is injective and within tolerance", "statement": "When building a reference port from two component meshes succeeds, every port vertex of the second component is matched with a vertex of the first within the tolerance, no vertex is used twice, and every boundary-element pair consists of elements whose vertices are matched.", "quantifier": "every pair of component meshes, offset vector and vertex order", "why_tests_cant": "Geometric input space is unbounded.", "anchors": ["src/component_topology_handler.cpp:745-935 BuildPortDataFromInput"]}
{"id": "C27", "title": "Every boundary element gets its global attribute or stays interior exactly as configured", "statement": "The global attribute of a component boundary in a subdomain is the one given by the last matching line of the configuration (boundary line, or the attribute of the port it belongs to); reading boundaries registers each attribute exactly once in the list of global boundary attributes.", "quantifier": "every list of boundary and port lines", "why_tests_cant": "All configurations, repeated lines included.", "anchors": ["src/component_topology_handler.cpp:386-426 ReadBoundariesFromFile", "src/component_topology_handler.cpp:612-635 SetupBdrAttributes"]}
{"id": "C28", "title": "Writing a block into a matrix changes exactly that block", "statement": "Copying a matrix into a position of a larger one sets the entries of the block to the copied entries and leaves every other entry unchanged; a block or a range that does not fit (into the target, or a range larger than the block) stops the program.", "quantifier": "every matrix size, block size and position", "why_tests_cant": "All sizes.", "anchors": ["src/linalg_utils.cpp:46-101 SetBlock CopyMatrix"]}
{"id": "C29", "title": "Sub-matrix products equal products with the extracted sub-matrix", "statement": "Multiplying a selection of rows of a matrix (or its transpose) by a vector gives the same result as first extracting the rows and multiplying, including the accumulating variant; rows may repeat, be in any order or be none; row numbers and vector sizes that do not fit stop the program.", "quantifier": "every matrix, row selection and vector", "why_tests_cant": "All sizes and entries.", "anchors": ["src/linalg_utils.cpp:425-504 MultSubMatrix AddMultTransposeSubMatrix MultTransposeSubMatrix"]}
{"id": "C30", "title": "Sub-matrix triple products are the Galerkin blocks", "statement": "The restricted triple-product accumulation adds exactly the weighted R-transpose A P block of the selected rows to the target.", "quantifier": "every matrix sizes, row selections", "why_tests_cant": "All sizes and entries.", "anchors": ["src/linalg_utils.cpp:506-575 AddSubMatrixRtAP", "src/linalg_utils.cpp:211-322 RtAP AddwRtAP", "src/linalg_utils.cpp:14-44 ComputeCtAB"]}
{"id": "C31", "title": "Third-order tensor contractions follow their formulas and the tangent is the exact derivative", "statement": "Contracting a third-order tensor with two vectors computes sum_ij x_i T_ijk y_j in component k, is bilinear, and the pair of matrix-valued transposed products used as Jacobian is its exact derivative: T(x+h,x+h) = T(x,x) + J(x)h + T(h,h).", "quantifier": "every tensor, every pair of vectors, over any commutative ring", "why_tests_cant": "Algebraic identity over all sizes and entries.", "anchors": ["src/linalg_utils.cpp:577-646 TensorContract TensorAddScaledContract TensorMult", "src/linalg_utils.cpp:672-782 TensorAddMultTranspose TensorAddScaledMultTranspose"]}
{"id": "C32", "title": "Tensor product along the middle index uses every entry of the vector", "statement": "The tensor-times-vector product along the middle index adds sum_j T_ijk x_j to entry (i,k).", "quantifier": "every tensor and vector", "why_tests_cant": "The error is invisible for vectors whose entries are equal or have length one.", "anchors": ["src/linalg_utils.cpp:648-670 TensorAddMultOnJ"]}
{"id": "C33", "title": "Gram-Schmidt returns orthonormal columns spanning the same space", "statement": "Orthonormalizing the columns of a matrix yields mutually orthogonal columns of unit length; each prefix of the new columns spans the space of the same prefix of the old ones; it succeeds exactly for linearly independent columns; orthonormalizing against a basis of mutually orthogonal columns yields columns orthogonal to it which together with it span the old columns.", "quantifier": "every matrix with linearly independent columns", "why_tests_cant": "All sizes and entries.", "anchors": ["src/linalg_utils.cpp:167-209 modifiedGramSchmidt Orthonormalize"]}
{"id": "C34", "title": "ROM block index and (domain, variable) pair are inverse in both orderings", "statement": "For both orderings of ROM unknowns the mapping between (subdomain, variable) pairs and block indices is a bijection onto [0, number of blocks).", "quantifier": "every number of subdomains and variables, both orderings", "why_tests_cant": "All sizes.", "anchors": ["src/rom_handler.cpp:198-236 GetBlockIndex GetDomainAndVariableIndex"]}
{"id": "C35", "title": "ROM and full-order block offsets tile the vectors", "statement": "The offsets computed for ROM blocks and for full-order blocks start at zero, are nondecreasing, and block b has the size of the basis (resp. of the full space) of the subdomain and variable that block b stands for, in both orderings.", "quantifier": "every list of component types, basis sizes and both orderings", "why_tests_cant": "All configurations.", "anchors": ["src/rom_handler.cpp:283-325 SetBlockSizes"]}
{"id": "C36", "title": "Lifting after projecting uses the same block for the same unknown, and projecting a lifted vector is the identity for orthonormal bases", "statement": "Projecting a full-order vector and lifting a ROM vector touch, for every (subdomain, variable), the slice of the full-order vector and the ROM block of that pair and nothing else; if every basis is orthonormal then projecting a lifted ROM vector returns it unchanged.", "quantifier": "every basis set, both orderings, every vector", "why_tests_cant": "All sizes, both orderings and all bases.", "anchors": ["src/rom_handler.cpp:450-533 ProjectGlobalToDomainBasis LiftUpGlobal ProjectTo*Basis LiftUp*"]}
{"id": "C37", "title": "The assembled ROM operator is the Galerkin projection of the full operator", "statement": "The projected operator satisfies, block by block, (ROM operator) x = projection of (operator applied to the lift of x); so a ROM solution is the coefficient vector whose lifted residual is orthogonal to the basis.", "quantifier": "every block operator, basis set and both orderings", "why_tests_cant": "All sizes.", "anchors": ["src/rom_handler.cpp:416-432 ProjectOperatorOnReducedBasis"]}
{"id": "C38", "title": "Component, boundary and interface projections agree with the block ordering", "statement": "Projecting the operator of one component (or interface) gives the blocks that the block index of its (subdomain, variable) pairs designates, in both orderings.", "quantifier": "both orderings, every number of variables", "why_tests_cant": "Only visible with several variables and the variable-first ordering.", "anchors": ["src/rom_handler.cpp:712-899 ProjectComponentToRefBasis ProjectInterfaceToDomainBasis ..."]}
{"id": "C39", "title": "Each allocation of the ROM handler is freed at most once", "statement": "Loading, replacing and destroying ROM operators in any order frees each matrix at most once and never uses a freed one.", "quantifier": "every sequence of load/set/solve/destroy calls", "why_tests_cant": "Memory lifetime over call sequences.", "anchors": ["src/rom_handler.cpp:901-933 LoadOperatorFromFile SetRomMat", "src/rom_handler.cpp:535-632 Solve"]}
{"id": "C40", "title": "Appending a reference basis keeps the old columns", "statement": "Appending vectors to a reference basis yields a basis whose first columns are the old ones in order followed by the new ones.", "quantifier": "every basis and added matrix", "why_tests_cant": "All sizes.", "anchors": ["src/rom_handler.cpp:1066-1088 AppendReferenceBasis"]}
{"id": "C41", "title": "Sorting by subdomain and sorting by variable are inverse permutations", "statement": "Reordering a solution vector from subdomain-major to variable-major and back returns the original vector, in either order of application, and each (subdomain, variable) slice keeps its contents.", "quantifier": "every number of subdomains, variables, every slice size, every vector", "why_tests_cant": "All sizes.", "anchors": ["src/multiblock_solver.cpp:169-203 SortBySubdomains SortByVariables"]}
{"id": "C42", "title": "Variable extraction and insertion obey get/put laws", "statement": "Inserting a variable's vector and extracting it returns it; extracting and inserting it back changes nothing; inserting leaves all other variables unchanged.", "quantifier": "every block layout, variable index and vector", "why_tests_cant": "All sizes.", "anchors": ["src/multiblock_solver.cpp:135-167 GetVariableVector SetVariableVector"]}
{"id": "C43", "title": "Boundary conditions apply to exactly the attributes a problem names", "statement": "After setting a parameterized problem, each boundary named by the problem has the type the problem gives (first listing), and each boundary not named keeps its previous type; the marker of each boundary selects exactly that attribute.", "quantifier": "every list of global attributes and every problem's attribute list", "why_tests_cant": "All lists, orders and duplicates.", "anchors": ["src/multiblock_solver.cpp:205-239 SetupBCVariables SetBdrType", "src/multiblock_solver.cpp:495-505 SetParameterizedProblem"]}
{"id": "C44", "title": "The global ROM matrix is the sum of exactly the element contributions", "statement": "Each block (i,j) of the assembled ROM matrix is the sum of the component block (if i=j), the boundary blocks of the subdomain's boundaries that carry an essential condition, and the interface blocks of the ports joining the two subdomains, each counted once.", "quantifier": "every topology, ordering, boundary type assignment", "why_tests_cant": "All topologies.", "anchors": ["src/multiblock_solver.cpp:273-343 AssembleROMMat"]}
{"id": "C45", "title": "Saving visualization output never uses a missing collection", "statement": "Saving visualization of a step never dereferences a collection that was not created, for every selection interval and offset of subdomains.", "quantifier": "every number of subdomains, interval and offset", "why_tests_cant": "Only intervals above one or positive offsets expose it.", "anchors": ["src/multiblock_solver.cpp:365-407 InitIndividualParaview", "src/multiblock_solver.cpp:457-493 SaveVisualization"]}
{"id": "C46", "title": "A solution file can be loaded back and mismatching files are refused", "statement": "Loading a saved solution restores exactly the saved vector; loading a file whose size differs stops the program before the solution is changed.", "quantifier": "every solution vector and file content", "why_tests_cant": "All sizes.", "anchors": ["src/multiblock_solver.cpp:507-579 SaveSolution LoadSolution"]}
{"id": "C47", "title": "Saving a timed solution works whenever saving is requested", "statement": "Saving a solution with time information never aborts because the file it just asked to write does not exist.", "quantifier": "every combination of the save switch and file name", "why_tests_cant": "Requires the combination where saving is disabled.", "anchors": ["src/multiblock_solver.cpp:530-547 SaveSolutionWithTime"]}
{"id": "C48", "title": "Block Gauss-Seidel sweeps solve the triangular splitting and fix the exact solution", "statement": "A forward sweep returns y with (D+L) y = x - U y_old, a backward sweep with (D+U) y = x - L y_old, so an exact solution is left unchanged by any number of sweeps; block Jacobi likewise with D.", "quantifier": "every block matrix with invertible diagonal blocks, any number of blocks and sweeps", "why_tests_cant": "All sizes.", "anchors": ["src/block_smoother.cpp:70-202 BlockGSSmoother BlockDSmoother"]}
{"id": "C49", "title": "Interface assembly adds every interface contribution once, in the right rows", "statement": "Applying the interface operators adds for every port, interface face and integrator its element vector once to the rows of its two subdomains and leaves all other rows untouched; mixed interface forms do the same.", "quantifier": "every topology, integrator list and vector", "why_tests_cant": "All topologies.", "anchors": ["src/interface_form.cpp:67-206 InterfaceAddMult InterfaceGetGradient AssembleInterfaceMatrix", "include/interfaceinteg.hpp MixedInterfaceForm"]}
{"id": "C50", "title": "Hyper-reduction samples are exactly the points with non-negligible weight", "statement": "Turning a solution of the nonnegative least-squares problem into sample points yields one sample for each weight above the threshold, with the element and quadrature point of that weight, in increasing order, no point twice, and the sample weights are the solution's weights.", "quantifier": "every weight vector, number of elements and quadrature points per element", "why_tests_cant": "All sizes.", "anchors": ["src/rom_nonlinearform.cpp:794-894 TrainEQPForIntegrator", "src/rom_interfaceform.cpp:607-701 TrainEQPForIntegrator"]}
{"id": "C51", "title": "The hyper-reduction training system has every entry filled exactly once", "statement": "Setting up the training system writes each (basis function, snapshot) x (element, quadrature point) entry exactly once with that pair's contribution, for any split of the elements over processes, and the right-hand side is the matrix transpose times the full quadrature weights of every element.", "quantifier": "every number of basis functions, snapshots, elements, points and processes", "why_tests_cant": "All sizes and splits.", "anchors": ["src/rom_nonlinearform.cpp:896-1272 SetupEQPSystemFor*", "src/rom_interfaceform.cpp:436-605 SetupEQPSystem"]}
{"id": "C52", "title": "Caching element data between consecutive samples does not change the result", "statement": "Evaluating a hyper-reduced form while re-using the element transformation of the previous sample when the element is unchanged gives the same sum as evaluating every sample from scratch.", "quantifier": "every list of samples in any order", "why_tests_cant": "All sample lists.", "anchors": ["src/rom_nonlinearform.cpp:46-345 ROMNonlinearForm::Mult", "src/rom_nonlinearform.cpp:347-624 GetGradient", "src/rom_interfaceform.cpp:76-380 InterfaceAddMult, InterfaceGetGradient"]}
{"id": "C53", "title": "Shared hyper-reduction samples are never used after being freed", "statement": "Components views and reference forms that share sample lists never read a list that has been freed, whatever the order of train/load/update calls.", "quantifier": "every sequence of update/load operations", "why_tests_cant": "Lifetimes over call sequences.", "anchors": ["include/rom_nonlinearform.hpp:92-194", "src/rom_interfaceform.cpp:703-766", "include/rom_interfaceform.hpp:78-108"]}
{"id": "C54", "title": "Fast hyper-reduced evaluation equals projected slow evaluation", "statement": "With precomputed basis values at the sample points, the fast evaluation of a nonlinear integrator on ROM coefficients equals the basis transpose times the integrator evaluated on the lifted coefficients.", "quantifier": "every basis, sample list and coefficient vector, over any commutative ring", "why_tests_cant": "Algebraic identity over all sizes.", "anchors": ["src/hyperreduction_integ.cpp:286-533,643-788", "src/rom_nonlinearform.cpp:46-345"]}
{"id": "C55", "title": "Jacobians of the nonlinear integrators are the exact derivatives", "statement": "For each convection integrator the gradient assembled at a state is the exact derivative of the assembled vector: the remainder after the linear term is the integrator's own quadratic form in the increment.", "quantifier": "every state, increment and shape data, over any commutative ring", "why_tests_cant": "Algebraic identity over all sizes.", "anchors": ["src/hyperreduction_integ.cpp:195-533,546-788", "src/nonlinear_integ.cpp:20-120"]}
{"id": "C56", "title": "A restarted unsteady run reproduces the uninterrupted run", "statement": "Running n time steps, with a restart file written at step k, and then restarting from that file and running to step n gives the same solution at step n as the uninterrupted run.", "quantifier": "every initial state, every n, k and all visualization/restart/snapshot intervals", "why_tests_cant": "All histories and schedule combinations; needs equality of whole trajectories.", "anchors": ["src/unsteady_ns_solver.cpp:82-291", "src/multiblock_solver.cpp:530-598"]}
{"id": "C57", "title": "Snapshots of an unsteady run are taken exactly at the scheduled steps", "statement": "An unsteady run collects a snapshot at exactly those steps after the bootstrap phase that are multiples of the sampling interval, each being the solution of that step, and the final time is the initial time plus the number of steps times the step size.", "quantifier": "every initial step, number of steps, interval and bootstrap value", "why_tests_cant": "All schedules.", "anchors": ["src/unsteady_ns_solver.cpp:82-147 Solve"]}
{"id": "C58", "title": "Newton tangent of the tensorial ROM is exact", "statement": "The gradient of the reduced steady Navier-Stokes operator is the exact derivative of the operator.", "quantifier": "every reduced matrix, tensors, state and increment over any commutative ring", "why_tests_cant": "Algebraic identity over all sizes.", "anchors": ["src/steady_ns_solver.cpp:162-242 SteadyNSTensorROM"]}
{"id": "C59", "title": "The hyper-reduced Navier-Stokes ROM reads and writes the velocity blocks", "statement": "The hyper-reduced ROM operator extracts from the ROM vector exactly the velocity block of each subdomain and adds the nonlinear term to exactly the velocity blocks, for both block orderings.", "quantifier": "every number of subdomains and variables, block sizes, both orderings", "why_tests_cant": "All layouts.", "anchors": ["src/steady_ns_solver.cpp:248-413 SteadyNSEQPROM GetVel AddVel"]}
{"id": "C60", "title": "Removing the pressure mean yields a zero-sum pressure and nothing else changes", "statement": "When no pressure-fixing boundary exists, the returned pressure has zero sum over all subdomains, the velocity is unchanged, and repeating the operation changes nothing.", "quantifier": "every solution vector and block layout", "why_tests_cant": "All sizes and entries.", "anchors": ["src/stokes_solver.cpp:707-815 Solve", "src/unsteady_ns_solver.cpp:582-587 SolveROM"]}
{"id": "C61", "title": "Complementary flux correction excludes exactly the zero-velocity boundaries", "statement": "When a flow problem is set, the boundaries excluded from the mass-conserving flux correction are exactly the global boundaries to which the problem assigns a homogeneous condition, and no memory outside the boundary list is written.", "quantifier": "every list of global attributes and problem attributes", "why_tests_cant": "The bug needs a problem whose list order or length differs from the mesh's.", "anchors": ["src/stokes_solver.cpp:1082-1146 SetParameterizedProblem"]}
{"id": "C62", "title": "The solver knows whether the pressure is fixed by the boundary conditions", "statement": "After configuring boundary conditions the solver treats the pressure as determined exactly when some global boundary has no velocity condition.", "quantifier": "every sequence of boundary-condition calls", "why_tests_cant": "Depends on history of calls.", "anchors": ["src/stokes_solver.cpp:100-142 AddBCFunction", "src/stokes_solver.cpp:222-230 DeterminePressureDirichlet"]}
{"id": "C63", "title": "Flow vector layouts agree", "statement": "The offsets by variable, by subdomain and by block used by the flow solvers describe the same vector: each starts at zero, ends at the total size, and the per-subdomain extent is the sum of its variables' extents.", "quantifier": "every list of space sizes", "why_tests_cant": "All layouts.", "anchors": ["src/stokes_solver.cpp:144-220 InitVariables", "src/stokes_solver.cpp:707-724"]}
{"id": "C64", "title": "Setting problem parameters by name and by index agree and do not interfere", "statement": "After any sequence of parameter settings on a problem, each named parameter has the last value set under its name (or its default), setting by index equals setting by the name with that index, and unknown names stop the program.", "quantifier": "every problem class, every sequence of settings", "why_tests_cant": "Sequences over all problems.", "anchors": ["src/parameterized_problem.cpp:440-458 SetParams", "src/parameterized_problem.cpp:568-1499 constructors"]}
{"id": "C65", "title": "Flow-past-array boundary types follow the inflow direction", "statement": "For every inflow velocity, on each pair of opposite sides exactly one side is an inflow (Dirichlet) and the other an outflow (Neumann), chosen by the sign of the velocity component.", "quantifier": "every velocity vector and every previous state of the problem", "why_tests_cant": "All sign combinations and histories.", "anchors": ["src/parameterized_problem.cpp:812-835 FlowPastArray::SetBattr"]}
{"id": "C66", "title": "Re-setting a problem replaces the previous problem", "statement": "Setting a parameterized problem on a solver twice leaves the same right-hand side and boundary data as setting only the second one.", "quantifier": "every pair of problems", "why_tests_cant": "Needs two settings in one process; tests set one.", "anchors": ["src/linelast_solver.cpp:443-486", "src/poisson_solver.cpp:550-585", "src/stokes_solver.cpp:1082-1146"]}
{"id": "C67", "title": "Basis snapshot file selection falls back only when nothing is configured", "statement": "The list of snapshot files used for a basis is never empty; it consists of the files configured for that basis in order, and the default file is used exactly when none is configured.", "quantifier": "every configuration", "why_tests_cant": "All configurations.", "anchors": ["src/main_workflow.cpp:383-415 FindSnapshotFilesForBasis"]}
{"id": "C68", "title": "The global basis tag list covers each component and variable once", "statement": "The list of basis tags for training has, for each component (and variable, when separate), exactly one tag, in component-major order.", "quantifier": "every component list and variable list", "why_tests_cant": "All lists.", "anchors": ["src/main_workflow.cpp:93-142 GetGlobalBasisTagList"]}
{"id": "C69", "title": "Singular-value coverage is a monotone fraction reaching one", "statement": "The coverage reported for each number of basis vectors is nondecreasing, between 0 and 1, and equals 1 at the full number; the reported coverage of the chosen basis size is the prefix sum over the total.", "quantifier": "every list of nonnegative singular values with positive sum", "why_tests_cant": "All lists.", "anchors": ["src/sample_generator.cpp:559-585 SaveSV"]}
{"id": "C70", "title": "Random sampling parameters identify the sample", "statement": "In random sampling mode the sample index and the multi-index used for file names are mutually inverse, and out-of-range indices are rejected.", "quantifier": "every sampling size and index", "why_tests_cant": "All sizes.", "anchors": ["src/random_sample_generator.cpp:12-65"]}
{"id": "C71", "title": "Inconsistent sample-point files are rejected", "statement": "Reading sample points from a file whose element, quadrature-point and weight arrays differ in length stops the program instead of reading beyond an array.", "quantifier": "every file", "why_tests_cant": "A test file with this defect reads whatever lies behind the array and may pass.", "anchors": ["src/hdf5_utils.cpp:494-533 ReadDataset SampleInfo", "src/hyperreduction_integ.cpp:55-88 EQPElement::Load"]}
{"id": "C72", "title": "Port data naming an unknown component is rejected", "statement": "Reading a reference-port file whose record names a component that the configuration does not list stops with an error.", "quantifier": "every list of component names and every port record naming something else", "why_tests_cant": "Tests read files produced by the code itself; a misspelt name is silently taken for component 0.", "anchors": ["src/component_topology_handler.cpp:488-499 ReadPortDatasFromFile"]}
{"id": "C73", "title": "A port that fits is built", "statement": "Whenever the port vertices of two component meshes can be matched one-to-one within the tolerance so that the boundary elements correspond, building the reference port succeeds.", "quantifier": "every pair of component meshes, tolerance, offset and vertex order", "why_tests_cant": "Success of a greedy search depends on the vertex order and the tolerance; tests use well separated vertices.", "anchors": ["src/component_topology_handler.cpp:829-919 BuildPortDataFromInput"]}
{"id": "C74", "title": "A mesh transformation is undone by its inverse and preserves distances", "statement": "Applying the transformation of a subdomain and then its inverse, or the other way round, gives back the point; the transformation preserves distances.", "quantifier": "every translation, rotation angle and point", "why_tests_cant": "Tests evaluate a few points in floating point; the claim is about all points and angles.", "anchors": ["include/component_topology_handler.hpp:20-62 mesh_config"]}
{"id": "C75", "title": "The rotation given for a subdomain is applied", "statement": "The point of a subdomain is the component's point rotated by the configured angles and then translated.", "quantifier": "every dimension, angle and point", "why_tests_cant": "The three-dimensional case is not covered by tests: the angles are read and ignored.", "anchors": ["include/component_topology_handler.hpp:20-62 mesh_config", "src/component_topology_handler.cpp:241-255 ReadComponentsFromFile"]}
{"id": "C76", "title": "A configuration naming a component type out of range is rejected", "statement": "Reading a global configuration whose list of subdomain types contains a number that is not the index of a component stops with an error and never accesses memory out of range.", "quantifier": "every number of components and every list of types", "why_tests_cant": "Memory errors need not show up in a test.", "anchors": ["src/component_topology_handler.cpp:230-240 ReadComponentsFromFile"]}
{"id": "C77", "title": "Every reference port takes its first definition", "statement": "When reference ports are set up from the files and descriptions of a configuration, in order, every reference port has data and the data are those of the first record or description with its name; later ones are ignored.", "quantifier": "every list of port names, files and descriptions", "why_tests_cant": "Orders and overlaps of definitions are unbounded; tests have one definition per port.", "anchors": ["src/component_topology_handler.cpp:160-197 SetupReferencePorts", "src/component_topology_handler.cpp:428-521 ReadPortDatasFromFile", "src/component_topology_handler.cpp:745-753 BuildPortDataFromInput"]}
{"id": "C78", "title": "Orthonormalizing against any basis yields columns orthogonal to it", "statement": "Orthonormalizing new columns against the columns of a given matrix yields columns orthogonal to all of them, whether or not the given columns are mutually orthogonal.", "quantifier": "every pair of matrices of the same height with linearly independent columns together", "why_tests_cant": "Tests use POD bases, which are orthonormal.", "anchors": ["src/linalg_utils.cpp:186-209 Orthonormalize", "src/rom_handler.cpp:1066-1088 AppendReferenceBasis"]}
{"id": "C79", "title": "The line search never increases the objective and stays within its record", "statement": "A step length returned by the line search of the optimizer has an objective value no larger than the starting point's, and the search never accesses memory outside of its record of trial values.", "quantifier": "every objective function, starting step, growth factor and refinement rule", "why_tests_cant": "The overrun needs an objective that does not grow along the search direction, e.g. a start at the minimum.", "anchors": ["src/linalg_utils.cpp:808-885 CGOptimizer::Brent"]}
{"id": "C80", "title": "Loading the reduced basis again keeps it", "statement": "Loading the reduced basis fills every block with the stored vectors of its tag, as many as configured; loading it again changes nothing, also after vectors have been appended to a block.", "quantifier": "every configuration of components, variables and basis sizes, every content of the files, every sequence of load and append", "why_tests_cant": "The order of loading and appending depends on the workflow; tests load once.", "anchors": ["src/rom_handler.cpp:238-274 LoadReducedBasis", "src/rom_handler.cpp:373-398 MFEMROMHandler::LoadReducedBasis", "src/rom_handler.cpp:1066-1088 AppendReferenceBasis"]}
{"id": "C81", "title": "The number of basis functions is the configured one", "statement": "The number of basis functions of a block is the number given for its tag in the input if there is one, and the default number otherwise; it is positive, and a component that no subdomain uses stops the program instead of being given a size.", "quantifier": "every list of components, variables, subdomain types and every dictionary", "why_tests_cant": "Dictionaries and tag sets are unbounded.", "anchors": ["src/rom_handler.cpp:98-154 ParseInputs", "include/input_parser.hpp:166-184 LookUpFromDict"]}
{"id": "C82", "title": "The handler releases everything it allocates", "statement": "Whatever sequence of loading, setting, solving and saving the operator is made, everything the ROM handler allocated has been released when it is destroyed.", "quantifier": "every sequence of calls and every solver type", "why_tests_cant": "Leaks do not change results; call sequences are unbounded.", "anchors": ["src/rom_handler.cpp:901-956 LoadOperatorFromFile, SetRomMat, SaveRomSystem", "src/rom_handler.cpp:535-632 Solve", "src/rom_handler.cpp:62-68 ~ROMHandlerBase", "src/rom_handler.cpp:364-371 ~MFEMROMHandler"]}
{"id": "C83", "title": "The reported error is the relative error of each variable over all subdomains", "statement": "Comparing two solutions reports, for each variable, the square root of the summed squared errors of all subdomains divided by the square root of the summed squared norms; it is zero exactly if the solutions agree on every subdomain.", "quantifier": "every number of subdomains and variables, every list of errors and norms with a nonzero norm per variable", "why_tests_cant": "Errors and norms are arbitrary numbers; a test checks single cases.", "anchors": ["src/multiblock_solver.cpp:720-747 ComputeRelativeError"]}
{"id": "C84", "title": "Saved ROM elements are loaded back under their names", "statement": "ROM elements saved to a file are loaded back for every component and port that asks for them, whatever the order and also if the file holds more components and ports; elements of different components or ports are never confused.", "quantifier": "every set of component names, ports, numbers of boundaries and elements", "why_tests_cant": "Names and sets of components are unbounded; tests use one mesh file for saving and loading.", "anchors": ["src/rom_element_collection.cpp:46-146 Save", "src/rom_element_collection.cpp:148-252 Load"]}
{"id": "C85", "title": "A smoother given another matrix behaves like one built for it", "statement": "After SetOperator a block smoother gives the results of a smoother newly built for the given block matrix.", "quantifier": "every smoother, every block matrix", "why_tests_cant": "Tests build smoothers once per matrix; the state kept from the old matrix only shows for a second one.", "anchors": ["src/block_smoother.cpp:42-51 SetOperator", "include/block_smoother.hpp:27"]}
{"id": "C86", "title": "A hyper-reduced form reproduces the full form at its training states", "statement": "If the solver returns nonnegative weights that meet the bounds it was given, then evaluating the hyper-reduced form at reduced coefficients whose state is one of the training snapshots differs from the full quadrature, in every component, by at most the training tolerance times the full value plus the contribution of the dropped weights (each at most 1e-12).", "quantifier": "every mesh, basis, set of snapshots, tolerance, split over processes and solver solution within the bounds", "why_tests_cant": "Connects assembly of the training system, selection of samples and evaluation; tests only compare a few trained cases.", "anchors": ["src/rom_nonlinearform.cpp:794-894 TrainEQPForIntegrator", "src/rom_nonlinearform.cpp:896-1272", "src/rom_nonlinearform.cpp:46-345 Mult"]}
{"id": "C87", "title": "Nonlinear integrators assemble the weak forms they are named after", "statement": "Paired with any test function, the vector assembled by the convection, inviscid flux and Temam integrators is the quadrature of ((a.grad)u,v), (u u, grad v) and 1/2((u.grad)u,v) - 1/2((u.grad)v,u).", "quantifier": "every element, shape data, rule, coefficients, state and test function", "why_tests_cant": "a test checks a few meshes and functions; the identity is for all shape data and states", "anchors": ["src/hyperreduction_integ.cpp:195-241,546-581", "src/nonlinear_integ.cpp:20-57"]}
{"id": "C88", "title": "The Temam form neither creates nor destroys kinetic energy", "statement": "Tested with the state itself, the Temam element integrator gives zero, the face and interface integrators give zero over the two sides together, and the boundary integrator gives exactly the kinetic energy carried through the boundary.", "quantifier": "every element pair, rule, normal, coefficient and state", "why_tests_cant": "energy neutrality is an identity over all states; a test sees only rounding-level values on a few", "anchors": ["src/nonlinear_integ.cpp:20-57,126-212", "src/interfaceinteg.cpp:843-920"]}
{"id": "C89", "title": "The Lax-Friedrichs face terms are conservative and consistent", "statement": "The vector assembled on a face or interface is minus the jump of the test function times one flux: the mean of the physical fluxes plus max(|u1|,|u2|)|n| times the jump of the velocity. The flux changes sign with the normal and equals the physical flux for equal velocities; exchanging the sides exchanges the vectors. On a boundary the given velocity, if any, is the other side.", "quantifier": "every pair of elements, rule, normal, coefficient, states and test functions", "why_tests_cant": "conservation between subdomains must hold for all states and both orders of the sides", "anchors": ["src/interfaceinteg.cpp:1311-1333,1394-1465,1534-1576,1846-1898"]}
{"id": "C90", "title": "Element vectors and matrices are the sums of their quadrature-point contributions", "statement": "The vector (matrix) an integrator assembles on an element, face or interface is the sum over the quadrature points of the vectors (matrices) it assembles at the single points with the weights of the rule, which is what hyper-reduction reweights.", "quantifier": "every rule, state and shape data", "why_tests_cant": "training and hyper-reduced evaluation use the single-point routines, the full model the others; tests compare on a few elements", "anchors": ["src/hyperreduction_integ.cpp:195-464,546-727", "src/interfaceinteg.cpp:1534-1726,1846-2071"]}
{"id": "C91", "title": "The full-order steady Navier-Stokes operator and its gradient agree", "statement": "Applying the full-order steady Navier-Stokes operator to a velocity-pressure vector gives, in the rows of a subdomain's velocity, the linear operator times the whole vector plus that subdomain's nonlinear form on its own velocity plus the interface form on all velocities, and in the remaining rows the linear operator alone. The gradient it hands to Newton's method is the derivative of that map in every direction, whenever the gradients of the nonlinear forms are.", "quantifier": "every number of subdomains and sizes, every linear operator given by velocity, gradient and divergence blocks, every family of nonlinear and interface forms, every point and direction", "why_tests_cant": "A finite-difference check compares one direction at one state up to a tolerance; here it is an exact statement for all subdomain counts and forms.", "anchors": ["src/steady_ns_solver.cpp:22-156", "include/steady_ns_solver.hpp:18-60"]}
{"id": "C92", "title": "The precomputed convection tensor is the Galerkin projection of the convection form", "statement": "The reduced third-order tensor computed from a velocity basis, contracted with the coefficients of a transporting and a transported field, equals the convection form of the two fields those coefficients stand for, tested with each basis function; with both equal it is the projection of the full-order nonlinear term.", "quantifier": "every mesh (list of elements with possibly sign-flipped degrees of freedom), dimension, quadrature rule, basis and coefficients", "why_tests_cant": "Tests compare ROM and FOM solutions up to a tolerance on one mesh; an index transposition in the tensor can be masked by symmetric data.", "anchors": ["src/steady_ns_solver.cpp:1380-1425", "src/nonlinear_integ.cpp"]}
{"id": "C93", "title": "Each time step of an unsteady flow run satisfies the semi-implicit Euler scheme", "statement": "In every step of an unsteady run, mass times the velocity increment over the step size, plus the viscous and pressure terms of the new solution, plus the convection of the old velocity, equals the forcing, and the new velocity satisfies the divergence equation; without a pressure condition the new pressure sums to zero and this correction does not disturb the equations.", "quantifier": "every mesh size and decomposition, step size, number of steps, fresh or restarted run and solver that solves its linear systems", "why_tests_cant": "Holds at every step of every run; solution is permuted between two orderings in every step.", "anchors": ["src/unsteady_ns_solver.cpp:82-283 Solve, InitializeTimeIntegration, Step"]}
{"id": "C94", "title": "A problem that fixes the velocity on the whole boundary is solved only without net flux", "statement": "When a flow problem leaves no boundary open, the velocities actually imposed have zero net flux through the global boundary (to the solver's tolerance), otherwise the program stops; for the component flow problem the correction achieves it whenever the corrected boundaries have a net outward flux about their centre, and with an open boundary the velocities are not corrected.", "quantifier": "every mesh, boundary list, problem and parameter values", "why_tests_cant": "Needs all geometries and problems; tests use one or two component meshes.", "anchors": ["src/stokes_solver.cpp:1082-1146 SetParameterizedProblem", "src/stokes_solver.cpp:1181-1288 SetComplementaryFlux", "src/stokes_solver.cpp:1365-1448 ComputeBEFlux, ComputeBEIntegral"]}
{"id": "C95", "title": "Each boundary gets exactly the condition that the problem assigns to it", "statement": "After a problem is set, each global boundary contributes to the right-hand side and to the matrix exactly the condition assigned to its attribute: the given function, zero, or nothing for natural boundaries, on every subdomain mesh that has the boundary and on no other.", "quantifier": "every mesh, boundary list and problem", "why_tests_cant": "All combinations of attributes and types.", "anchors": ["src/poisson_solver.cpp:120-260", "src/stokes_solver.cpp:222-400", "src/linelast_solver.cpp:164-196,420-486"]}
{"id": "C96", "title": "Training collects exactly the snapshots that sampling produced", "statement": "Collecting snapshots by basis gives, for each tag to be trained, the columns of the files configured for it, file by file and in order; and when nothing is configured and sampling wrote its files under the same prefix, exactly the columns sampled for that tag in the order they were taken, with no column of another tag. A tag that was never sampled makes training fail unless an older file is found.", "quantifier": "every configuration, every sampling history, every set of components and variables", "why_tests_cant": "All histories and configurations; the way from sampling through files to training spans separate runs.", "anchors": ["src/main_workflow.cpp:246-270 CollectSamplesByBasis", "src/main_workflow.cpp:383-415 FindSnapshotFilesForBasis", "src/sample_generator.cpp:283-291 WriteSnapshots", "src/sample_generator.cpp:385-409 CollectSnapshotsByBasis"]}
{"id": "C97", "title": "Trained bases have the file name and number of vectors the ROM will ask for", "statement": "Training writes one basis per collected tag, from exactly that tag's snapshots, into the file the ROM later opens for that tag and with the number of vectors the ROM later requires for it; different tags never share a file; a tag-specific number overrides the common one, and the number is positive.", "quantifier": "every configuration, tag and basis prefix", "why_tests_cant": "All configurations; two modules derive the names and numbers separately.", "anchors": ["src/main_workflow.cpp:272-284 TrainROM", "src/sample_generator.cpp:486-524 FormReducedBasis", "src/rom_handler.cpp:69-167 ParseInputs", "src/rom_handler.cpp:238-274 LoadReducedBasis"]}
{"id": "C98", "title": "A reduced unsteady flow run is the projected time-stepping scheme", "statement": "An unsteady flow run in the reduced space projects the initial solution onto the bases, takes the remaining time steps with the reduced system (steady operator plus velocity mass over the time step; convection at the old state) and lifts the last state. Its states satisfy the reduced backward-Euler Navier-Stokes equations, and when the reduced operators are projections, the residual of the full-order scheme at the lifted states is orthogonal to every basis vector.", "quantifier": "every basis, layout, number of steps, start, set of operators and solver that solves the system", "why_tests_cant": "All bases, states and numbers of steps; the equations are claims about every step of every run.", "anchors": ["src/unsteady_ns_solver.cpp:441-468 AssembleROMMat", "src/unsteady_ns_solver.cpp:470-605 SolveROM", "src/rom_handler.cpp:476-533 ProjectGlobalToDomainBasis, LiftUpGlobal"]}
{"id": "C99", "title": "A reduced run solves the problem that training and building produced", "statement": "Training a basis, building the reduced model, training the hyper-reduction where it applies and then running gives the solution of the reduced problem made of exactly these ingredients: the trained basis with its supremizers, the matrix from the elements or operator saved by the building stage (or projected in the run when nothing is saved), the convection tensor or rule of the chosen handling, and the right-hand side of the run with its boundary terms added once. Files left from earlier work do not matter. Exactly the documented combinations of solver, topology, building level and handling complete this path, and a run reads no other files than those of its configuration.", "quantifier": "every configuration, set of existing files, training data and problem parameters of the building and running stages", "why_tests_cant": "The stages are separate program runs coupled only through files; the claim ranges over all configurations and file contents.", "anchors": ["src/main_workflow.cpp:272-313 TrainROM, AuxiliaryTrainROM", "src/main_workflow.cpp:315-381 TrainEQP", "src/main_workflow.cpp:417-483 BuildROM", "src/main_workflow.cpp:485-704 SingleRun", "src/steady_ns_solver.cpp:576-642, 738-877", "include/unsteady_ns_solver.hpp:86-110"]}
{"id": "C100", "title": "A configuration that cannot be run is refused when its reduced model is built", "statement": "If building the reduced model succeeds, a run in the same configuration finds everything it needs; a combination of options that is not supported stops with an error message, in the building stage at the latest, and never uses data that does not exist.", "quantifier": "every configuration, set of files and problem parameters", "why_tests_cant": "All combinations of solver, topology, building level, flux and nonlinear handling.", "anchors": ["src/main_workflow.cpp:417-483 BuildROM", "src/main_workflow.cpp:485-704 SingleRun", "src/steady_ns_solver.cpp:757-811 SolveROM, InitROMHandler", "src/steady_ns_solver.cpp:999-1092 AllocateROMEQPElems"]}
{"id": "C101", "title": "The report of a run says what was computed, and comparing does not change the result", "statement": "Comparing a reduced run with the full-order solution leaves the solution that the run ends with and saves unchanged. The reported errors are those of that solution against the solution of a full-order run of the same problem, or against the given solution file. A reported time is -1 exactly when that phase was not run, all errors are -1 without comparison, and the value returned is the largest reported error. Options that ask for more output do not stop a run that would otherwise finish.", "quantifier": "every configuration, set of files, problem parameters and clock", "why_tests_cant": "All combinations of options and all solutions.", "anchors": ["src/main_workflow.cpp:485-704 SingleRun", "src/multiblock_solver.cpp:600-606 CopySolution", "src/multiblock_solver.cpp:749-776 CompareSolution", "src/rom_handler.cpp:935-956 SaveRomSystem"]}
{"id": "C102", "title": "Supremizers make every configured pressure mode visible to the reduced velocity space", "statement": "With one basis per variable, the flow solvers add supremizers to the velocity basis: as many for a component as the entry <component>_pres of basis/tags asks for, else the positive common number, else the number of its pressure vectors. What training stores for a component is orthonormal, orthogonal to its velocity basis, and together with it contains the transposed divergence of each of these pressure vectors; training succeeds exactly if they are independent. A reduced run appends the first vectors asked for to the velocity basis, changes nothing else, and refuses a missing file or one with too few vectors. The enriched basis is orthonormal, and for each reduced pressure there is a reduced velocity whose divergence pairing with it equals the squared norm of its image, so it vanishes only for pressures no velocity sees. Asking for more supremizers than pressure vectors is refused, and so are supremizers made for another velocity basis.", "quantifier": "all layouts, bases, divergence matrices, configurations", "why_tests_cant": "a test shows the number of vectors of one configuration, not orthogonality and span for all bases nor the reading beyond the pressure basis", "anchors": ["src/rom_handler.cpp:169-196", "src/stokes_solver.cpp:942-1008", "src/stokes_solver.cpp:1290-1363", "src/linalg_utils.cpp:167-209"]}
{"id": "C103", "title": "Every basis vector of every component can be drawn", "statement": "With basis/visualization/enabled and a loaded basis, one collection is saved for each component, on the mesh of the first subdomain of that component, with a field <variable>_basis_<k> for each variable and each basis vector k, whose values are exactly the entries of that variable in basis vector k. This holds whether the variables share a basis or not.", "quantifier": "all layouts, bases, variables", "why_tests_cant": "a test draws one layout and nobody compares the fields; with separate bases the outcome depends on memory outside the basis", "anchors": ["src/rom_handler.cpp:958-1011", "include/multiblock_solver.hpp:254-255"]}
{"id": "C104", "title": "The Navier-Stokes solver is built only if all subdomains have one element type", "statement": "The quadrature rules of the Navier-Stokes solver are chosen for the elements of the first subdomain. The solver is built exactly if the elements of all subdomains are of that type; otherwise it stops with a message. This holds for split meshes and for meshes assembled from components, however many components there are.", "quantifier": "all numbers of components and subdomains, all element types", "why_tests_cant": "tests use meshes of one element type", "anchors": ["src/steady_ns_solver.cpp:444-454", "include/topology_handler.hpp:91", "include/component_topology_handler.hpp:139"]}
{"id": "C105", "title": "An interface between components contributes what the same face inside one mesh would have contributed", "statement": "For two components that meet at a face, the interface integrators for vector diffusion (velocity) and for the normal flux (pressure against velocity) deliver four blocks. These are exactly the blocks, sorted by side, of the matrix that the interior-face integrator of the same equation computes for that face in an undivided mesh with the same shape functions, normal and coefficients at the same points. Integrating with a coefficient always succeeds; the interface is refused if there is no second element, or faces of different shapes meet.", "quantifier": "all dimensions, numbers of basis functions per side, parameters alpha and kappa (zero or not), integration rules, shape functions and coefficients", "why_tests_cant": "a test compares the matrices of one mesh with one polynomial degree; the two implementations (offsets, penalty triangle, allocation only if kappa is not zero) differ in the index arithmetic", "anchors": ["src/interfaceinteg.cpp:405-842", "src/dg_bilinear.cpp:13-227", "src/dg_mixed_bilin.cpp:167-312"]}
{"id": "C106", "title": "Interfaces carry the interior penalty form", "statement": "The blocks computed on an interface for diffusion (with a scalar, a matrix or no coefficient), vector diffusion and linear elasticity are, applied to any functions u and v on the two sides, - <{flux u}, [v]> + sigma <{flux v}, [u]> + kappa <{coefficient/h} [u], [v]>, with the flux Q grad u . n or the traction, h = det J / |n|. Hence they are symmetric for sigma = -1, nonnegative for sigma = 1 and kappa >= 0, independent of sigma and kappa on functions without a jump, zero on constants, and the same whichever component comes first.", "quantifier": "all dimensions, numbers of basis functions, parameters, rules, shape functions, coefficients, functions u and v", "why_tests_cant": "tests check convergence rates of few problems, which tolerate many errors of the penalty or symmetric terms", "anchors": ["src/interfaceinteg.cpp:86-674", "src/interfaceinteg.cpp:1022-1310"]}
{"id": "C107", "title": "Weakly imposed velocity values are consistent", "statement": "On a boundary face, the matrix of vector diffusion and the right-hand side for the boundary values fit together: for any velocity that takes the given values on the face, matrix times velocity minus right-hand side, tested with any function v, is -<mu du/dn, v>. In particular sigma and kappa have no influence on a velocity that satisfies the condition.", "quantifier": "all dimensions, numbers of basis functions, rules, sigma and kappa, velocities and test functions", "why_tests_cant": "a sign or factor error in one of the two still converges slowly in tests", "anchors": ["src/dg_bilinear.cpp:13-227", "src/dg_linear.cpp:16-144"]}
{"id": "C108", "title": "Pressure equations see the jump of the normal velocity and its boundary value", "statement": "The normal flux on an interface is <{q}, [u . n]>, so a velocity with continuous normal component does not contribute. On a boundary face, the matrix applied to a velocity equals the right-hand side built from the values of that velocity. A prescribed stress F contributes <F n, v>.", "quantifier": "all dimensions, numbers of basis functions, rules, velocities, pressures, stresses", "why_tests_cant": "tests use one pair of elements", "anchors": ["src/dg_mixed_bilin.cpp:167-312", "src/interfaceinteg.cpp:676-842", "src/dg_linear.cpp:150-333"]}
{"id": "C109", "title": "Boundary integrators of a mixed form act exactly where their markers say", "statement": "Assembling a mixed form (divergence, pressure gradient) applies each boundary face integrator exactly once to each boundary element that has a face and whose attribute is selected by the marker of the integrator, or to all of them when it was added without a marker; other boundary elements get nothing.", "quantifier": "all lists of markers and boundary elements", "why_tests_cant": "tests use at most two integrators on a square", "anchors": ["src/dg_mixed_bilin.cpp:103-161"]}
{"id": "C110", "title": "Boundary data of convection are integrals over the face", "statement": "The right-hand side of a convection boundary condition, built from the boundary velocity, is an integral over the boundary face: magnifying the face by a factor magnifies the contribution by the same factor. For the Temam form it is <Z (g . n) g, v>.", "quantifier": "all dimensions, rules, boundary velocities, factors", "why_tests_cant": "on a mesh whose boundary faces have length one a superfluous factor does not show", "anchors": ["src/dg_linear.cpp:335-539"]}
{"id": "C111", "title": "The reduced system from component elements is the projection of the full system", "statement": "For the Poisson, Stokes and elasticity solvers, building a reduced system from elements trained component by component (components, their boundaries, reference ports) gives, for every arrangement of copies of those components, the same matrix as assembling the full-order system of the arrangement and projecting it on the reduced basis: elements, interior faces, boundary conditions and interfaces included, with a basis for each variable or one for all.", "quantifier": "all components, arrangements, boundary conditions, port types, bases, integrators whose values do not depend on the copy", "why_tests_cant": "tests compare the two for two or three small arrangements within a tolerance", "anchors": ["src/poisson_solver.cpp:179-426", "src/stokes_solver.cpp:261-706", "src/linelast_solver.cpp:198-584", "src/multiblock_solver.cpp:273-343", "src/rom_handler.cpp:416-432"]}
{"id": "C112", "title": "The advection-diffusion operator uses the velocity of each subdomain", "statement": "Whatever calls led there, once its domain operators are built the advection-diffusion solver assembles a matrix whose form on each subdomain is (grad u, grad v) + Pe (b . grad u, v), b being the velocity that subdomain has at that moment, plus the Poisson boundary and interface terms. Building succeeds exactly when every subdomain has a velocity. A velocity given as a function replaces that of its subdomain (or of all) and of no other.", "quantifier": "all sequences of calls, geometries, velocities, Peclet numbers, quadrature points", "why_tests_cant": "a test uses one velocity for all subdomains and checks convergence rates", "anchors": ["src/advdiff_solver.cpp:13-48", "src/advdiff_solver.cpp:158-178", "src/poisson_solver.cpp:281-337"]}
{"id": "C113", "title": "The velocity of a parameterized problem is the flow of its parameters", "statement": "Setting a parameterized problem obtains the velocity from a Stokes solver: the solution of the flow problem for the current parameters, velocity m going to subdomain m. If it is to be saved it is stored under the given name and nothing else is written. A stored flow that is to be loaded is used as stored and no file changes; so a flow saved by one run is used by a later one. The flow used is always that of the current parameters, and a converged one.", "quantifier": "all problems, parameter values, save/load options, files, earlier calls", "why_tests_cant": "tests use one set of parameters and a converged flow", "anchors": ["src/advdiff_solver.cpp:172-178", "src/advdiff_solver.cpp:238-277", "src/multiblock_solver.cpp:507-579"]}
{"id": "C114", "title": "Velocity coefficients and flow solvers live as long as they are used", "statement": "In any order of calls to set functions, set problems and build operators, the velocity of each subdomain refers to objects that exist, no call is undefined, and deleting the solver deletes nothing twice. Operators that were built remain usable, and everything allocated is deleted.", "quantifier": "all sequences of calls", "why_tests_cant": "a use after deletion or a leak rarely changes a result", "anchors": ["src/advdiff_solver.cpp:30-37", "src/advdiff_solver.cpp:158-170", "src/advdiff_solver.cpp:238-277"]}
{"id": "C115", "title": "Linear solves start afresh and only converged solutions become snapshots", "statement": "The solve of the Poisson, elasticity and advection-diffusion solvers does not depend on an earlier solution. Given that the direct solver solves, and iterations that report convergence do, a reported convergence is one, and snapshots are taken of solutions only, one for each converged solve with a sample generator.", "quantifier": "all matrices, right-hand sides, solver options, earlier solutions", "why_tests_cant": "non-convergence is not exercised by tests", "anchors": ["src/advdiff_solver.cpp:77-156", "src/poisson_solver.cpp:430-504", "src/linelast_solver.cpp:306-387"]}
{"id": "C116", "title": "The flow drawn is the flow used", "statement": "The field named flow in the visualization of the advection-diffusion solver is, on each subdomain, the velocity the subdomain is advected with, in one view of all subdomains or one view each, whatever subdomains are chosen to be drawn.", "quantifier": "all sequences of calls, visualization options", "why_tests_cant": "visualization files are not compared by tests", "anchors": ["src/advdiff_solver.cpp:180-228", "src/multiblock_solver.cpp:345-480"]}
{"id": "C117", "title": "The hyper-reduced nonlinear term is the full-order one at the sampled points", "statement": "Built for a problem of components, the hyper-reduced convective term of the Navier-Stokes solver evaluates, on each subdomain and for each reduced state, the integrands of the full-order term (elements; interior faces and boundary faces for the Lax-Friedrichs operator, with the data of the boundary a face lies on) at the points and weights trained for its component, tested with the modes; its gradient is that of these integrands. With rules of all quadrature points it equals the full-order term; rules that reproduce what they were trained on reproduce the full-order term.", "quantifier": "all component problems, operators, boundary types and data, bases, rules, reduced states", "why_tests_cant": "integration tests compare one geometry with one set of boundary conditions and tolerances that hide a wrong boundary rule", "anchors": ["src/steady_ns_solver.cpp:487-562", "src/steady_ns_solver.cpp:1008-1122", "src/steady_ns_solver.cpp:1293-1378"]}
{"id": "C118", "title": "Saved hyper-reduction rules come back to the same terms", "statement": "Rules of the hyper-reduced Navier-Stokes solver written to a file and read by another run, possibly of fewer components in another order, are attached to the same integrator of the component of the same name and to the port of the same components and attributes; two components never share an entry; a file written for another operator is refused.", "quantifier": "all component names, numbers of boundaries, reference ports, rules, orders of components", "why_tests_cant": "tests write and read within one configuration", "anchors": ["src/steady_ns_solver.cpp:1164-1291", "src/rom_nonlinearform.cpp:1274-1386", "src/rom_interfaceform.cpp:703-755"]}
{"id": "C119", "title": "A mesh is split into subdomains along its attributes without losing or doubling anything", "statement": "Splitting a two-dimensional mesh gives one subdomain per attribute value (or one in all without decomposition); each element is in exactly the subdomain of its attribute, on the same vertices in the same order; the boundary of a subdomain consists of exactly the edges with one side in it; every edge between two subdomains without a boundary element of the mesh is in the one port of the two, exactly once, with the boundary elements and local faces of its two sides, and nothing else is in a port; outer boundary elements keep their attribute, ports get new ones; other decomposition modes are refused.", "quantifier": "every conforming mesh of triangles and quadrilaterals, every set of attributes and boundary elements, every numbering of vertices", "why_tests_cant": "Test meshes are a few structured grids with two to four subdomains; the claim is about the combinatorics of any mesh.", "anchors": ["src/topology_handler.cpp:31-50, 170-254, 287-355, 357-447", "include/topology_handler.hpp:145-200"]}
{"id": "C120", "title": "The two sides of an interface are evaluated at the same points", "statement": "For every interface between two subdomains and every quadrature coordinate, the transformations handed to the interface integrators map to the same physical point from both sides, running along the shared edge from one end to the other, whatever the orientation in which the two elements see the edge.", "quantifier": "every mesh as above, every vertex coordinates, every interface, every quadrature coordinate", "why_tests_cant": "A wrong orientation shows only for non-symmetric rules or solutions and for some numberings of the elements; the claim covers all of them.", "anchors": ["src/topology_handler.cpp:53-98, 422-447"]}
{"id": "C121", "title": "Fields of the subdomains are put together on the whole mesh", "statement": "After transferring the subdomain fields to the global mesh, every element of the global mesh has, for every variable, the values of its own subdomain at that element.", "quantifier": "every mesh as above, every number of variables, all values given element by element", "why_tests_cant": "Visual checks of output files cannot tell a swapped variable or subdomain from a solution.", "anchors": ["src/topology_handler.cpp:449-457"]}
{"id": "C122", "title": "Subdomains joined by a port see the interface at the same points", "statement": "When subdomains are assembled from component meshes, the interfaces of every reference port are built whenever the port is. A port of the configuration joins its two subdomains along the pairs of boundary elements of the reference port. If the second subdomain is placed relative to the first as the port says, the points at which the two sides are evaluated coincide for every coordinate of the interface, up to the tolerance of the port and rounding, whatever the order in which the two meshes list their vertices.", "quantifier": "all component meshes of triangles and quadrilaterals in the plane, all ports built from them, all configurations and placements, all coordinates", "why_tests_cant": "The code compares vertex numbers through the vertex map of the port and stores an orientation for the second side; with a wrong orientation the assembled matrices are still finite and only the solution is wrong. Tests use a few components whose sides run in fixed directions.", "anchors": ["src/component_topology_handler.cpp:636-718", "src/component_topology_handler.cpp:937-985", "src/topology_handler.cpp:53-98", "src/component_topology_handler.cpp:577-597"]}
{"id": "C123", "title": "A subdomain placed away from its port is refused", "statement": "A global configuration whose placement of two subdomains contradicts the placement that their port describes is refused when it is read.", "quantifier": "all configurations", "why_tests_cant": "The positions of the subdomains and the ports come from separate tables that nothing compares; tests only use tables produced together.", "anchors": ["src/component_topology_handler.cpp:577-597", "src/component_topology_handler.cpp:720-743"]}
{"id": "C124", "title": "Component meshes that cannot be combined are refused", "statement": "When the component meshes are read, every component of the configuration gets the mesh given for it. A configuration is refused with an error if a component has no mesh, if the meshes have different kinds of nodes or none, or if their dimension is not supported.", "quantifier": "all lists of components and mesh files", "why_tests_cant": "The checks follow uses of the pointers that they are meant to check; tests only load complete sets of meshes.", "anchors": ["src/component_topology_handler.cpp:102-147", "src/component_topology_handler.cpp:29-48"]}
{"id": "C125", "title": "Convection tensors reach the subdomains of the component they were built for", "statement": "Convection tensors that BuildROM saves for the components of a steady Navier-Stokes problem are found again by component name: in a later single run each subdomain is solved with the tensor built for the component of that name, entry by entry, even if the components have other numbers or only some of them are used; a run with a component for which no tensor was saved is refused.", "quantifier": "for all lists of component names, tensors, file contents and later configurations", "why_tests_cant": "Tests use one configuration with one numbering for building and running.", "anchors": ["src/steady_ns_solver.cpp:830-996", "src/hdf5_utils.cpp:385-431", "src/main_workflow.cpp:425-470"]}
{"id": "C126", "title": "The Navier-Stokes solver releases its reduced nonlinear data exactly once", "statement": "Destroying a steady Navier-Stokes solver releases every convection tensor, hyper-reduced form and interface form it allocated exactly once, after any sequence of set-up, building, loading and assembling calls.", "quantifier": "for all sequences of calls, building levels, nonlinear handlings and numbers of components and subdomains", "why_tests_cant": "Double frees and leaks depend on the building level and on the order of the calls; tests do not check for leaks.", "anchors": ["src/steady_ns_solver.cpp:457-486", "src/steady_ns_solver.cpp:738-996", "src/steady_ns_solver.cpp:1293-1378"]}
{"id": "C127", "title": "A reduced operator saved under a name comes back under that name", "statement": "Loading a global reduced operator from a file name gives the matrix and the convection tensors that were last saved under that name.", "quantifier": "for all names, operators and interleavings of saves and loads", "why_tests_cant": "Tests save one operator under one name.", "anchors": ["src/steady_ns_solver.cpp:576-642", "src/rom_handler.cpp:434-448", "src/rom_handler.cpp:901-917"]}
{"id": "C128", "title": "Data that vary in time are those of the time of each step", "statement": "In a time-dependent flow run each step uses the forcing and the boundary data of its own time, in the linear terms as in the convection, whether the run starts afresh or from a saved solution.", "quantifier": "for all forcing and boundary data as functions of time, step sizes, numbers of steps, subdomains, initial conditions and restarts", "why_tests_cant": "The tests compare runs with data that do not vary in time, or with a manufactured solution at one time; whether each of many steps sees the data of its time depends on the problem and on all steps before.", "anchors": ["src/unsteady_ns_solver.cpp:82-147", "src/unsteady_ns_solver.cpp:223-283", "src/unsteady_ns_solver.cpp:390-401", "src/stokes_solver.cpp:372-394", "src/parameterized_problem.cpp:164-180"]}
{"id": "C129", "title": "A run that has blown up is stopped, and the CFL number reported is the largest", "statement": "The CFL number reported after a step is the largest local one of all points of all elements, zero for a velocity of zero; a step whose solution contains a value that is not a number ends the run with an error, other solutions never do.", "quantifier": "for all velocities, meshes, orders, step sizes and solutions, also with values that are not numbers", "why_tests_cant": "A blow-up and the place of its first NaN cannot be enumerated by tests; the comparisons of floating point numbers with NaN decide what is noticed.", "anchors": ["include/unsteady_ns_solver.hpp:117-124", "src/unsteady_ns_solver.cpp:338-387"]}
{"id": "C130", "title": "A run starts from the initial condition of its problem", "statement": "A time-dependent run that is not restarted begins with the initial velocity and pressure of the problem set last, in each subdomain, a missing function standing for zero; problems may be set any number of times without an invalid or leaked coefficient.", "quantifier": "for all sequences of problems and runs on one solver, numbers of subdomains and initial conditions", "why_tests_cant": "A test sets one problem; sampling sets many, one after the other, and what a later one leaves of an earlier one depends on the sequence.", "anchors": ["src/unsteady_ns_solver.cpp:39-54", "src/unsteady_ns_solver.cpp:186-221", "src/unsteady_ns_solver.cpp:292-329"]}
{"id": "C131", "title": "The nonlinear conjugate gradient minimization only goes down and says truthfully whether it has converged", "statement": "Minimizing the norm of a residual with the nonlinear conjugate gradient optimizer, the objective never increases from an iterate to the next, the directions are conjugate directions with a bounded factor, no iterate before the last meets a tolerance, and the optimizer says it has converged if and only if the last iterate meets one. Started at a solution, it returns it.", "quantifier": "every operator with its gradient, right hand side, starting point, tolerances, number of iterations, and golden ratio and proposals of the line search", "why_tests_cant": "tests minimize a few functions from a few starting points; a monotone descent and a truthful flag concern every operator, every sequence of proposals of the line search and a second use of the same optimizer", "anchors": ["src/linalg_utils.cpp:783-806", "src/linalg_utils.cpp:808-885", "src/linalg_utils.cpp:887-948", "include/linalg_utils.hpp:190-240"]}
{"id": "C132", "title": "Quadrature rules of ports are trained on the pairs of states that met there and reproduce the interface terms at them", "statement": "From the snapshot files of several sampling runs, training gives every port, for every interface integrator, the rule of its reference port. That rule has non-negative weights on quadrature points of the port and reproduces, for every test mode of the two sides, the full interface terms within the tolerance at every pair of states that was on the two sides of the reference port in one solve. Evaluated at a reduced state that is such a pair on every port, the hyper-reduced interface terms are within the tolerance of the full ones. A reference port that was never sampled is not trained on other data.", "quantifier": "for all numbers of runs and solves, components, reference ports, ports, integrators, variables, bases, snapshots and tolerances", "why_tests_cant": "A test trains one port on one run. The rule depends on which columns of which snapshot files met at the port, in which order the runs were written, and how rules are shared by ports; a wrong pairing still gives a rule, of another problem.", "anchors": ["src/steady_ns_solver.cpp:1117-1163", "src/rom_interfaceform.cpp:383-435", "src/rom_interfaceform.cpp:608-701", "include/rom_interfaceform.hpp:88-108"]}
{"id": "C133", "title": "The steady flow solve returns a state that solves the equations to the tolerances, or says that it does not", "statement": "Solving the steady flow equations starts from the state in the restart file if one is asked for, and from small random numbers otherwise. It takes correction steps until the residual is below the larger of the relative tolerance times the initial residual and the absolute tolerance, or the allowed number of steps is used, and returns the last state together with whether it has converged. Unless the boundary conditions fix the pressure, the pressures returned add up to zero, and subtracting their mean changes neither the velocities nor the residual. A solution is added to the snapshots only if it has converged. Restarting from a saved state that solves the equations returns that state. For linear equations one step with an exact linear solver is enough.", "quantifier": "for all numbers of subdomains, sizes, operators, convection forms, interface forms, right-hand sides, tolerances, iteration limits, linear solvers and restart files", "why_tests_cant": "A test solves one flow with one tolerance and compares with a reference. That the reported convergence is about the state returned - after reordering, removing the mean of the pressure and copying back - concerns every arrangement of subdomains and every way the iteration can end.", "anchors": ["src/steady_ns_solver.cpp:644-736", "src/stokes_solver.cpp:795-815", "src/multiblock_solver.cpp:560-580"]}
{"id": "C134", "title": "The nonlinear reduced solve returns the lift of a reduced state that solves the reduced equations, with the configured solver", "statement": "The reduced solve of the steady flow equations starts from the projection of the restart state, or from random numbers of the configured amplitude. It runs the configured nonlinear solver with the configured linear solver and preconditioner until the residual of the reduced equations is below the tolerances, and returns the combination of the basis vectors with the reduced solution; if the tolerances are not met within the allowed iterations, the caller can tell. Restarted from a state the bases represent and that solves the reduced equations, it returns that state. Solvers that are not known are refused.", "quantifier": "for all layouts and sizes of orthonormal bases, reduced operators, right-hand sides, tolerances, iteration limits, restart states and configurations", "why_tests_cant": "A test runs one configuration, without preconditioner, that converges. Which configurations give a result at all, and what is returned when the iteration stops early, only shows when all are considered.", "anchors": ["src/rom_handler.cpp:331-362", "src/rom_handler.cpp:634-711", "src/steady_ns_solver.cpp:757-792"]}
{"id": "C135", "title": "The file of quadrature points gives the positions of the points of each component's rule", "statement": "After training quadrature rules, the user can ask for the positions of the points (PrintEQPCoords / SaveEQPCoords). The file then holds the number of components and, for every component and no other name, a table with one row per sample of the trained rule in the order of the rule, whose columns are the physical coordinates of that point. The contents depend only on the rules and meshes, in space and in the plane. The file is written once, by the first process, only for flow solvers with component-wise trained rules, and only if every component has its rule; a rule without samples gives an empty table.", "quantifier": "all spatial dimensions up to three, all numbers of components with distinct names, all rules within the mesh, all meshes, operator types, processes and contents of the memory", "why_tests_cant": "the third column of a plane problem is memory that usually happens to be harmless, so a test that compares a file with a stored one cannot tell; an empty rule does not come up in the examples", "anchors": ["src/main_workflow.cpp:705-753", "src/steady_ns_solver.cpp:1426-1474", "src/rom_nonlinearform.cpp:1521-1562"]}
{"id": "C136", "title": "The Schur complement solve gives the solution of the Stokes equations", "statement": "When Solve_obsolete of the Stokes solver returns, the state it leaves in the solution vector satisfies the discrete momentum equations of all subdomains to the tolerance of the velocity solver and the discrete divergence equations; with exact inner solvers both equations hold exactly. When no boundary condition fixes the pressure, the returned pressures have mean zero and the divergence equations hold up to the mean of their right-hand side, which is zero for compatible data. The solve does not return if one of its inner solves has not converged.", "quantifier": "all numbers and sizes of subdomains, all matrices with an injective velocity block (and no force of constant pressures in the second case), all right-hand sides, previous contents of the solution vector, velocity and pressure solvers and tolerances", "why_tests_cant": "a test compares with a manufactured solution on one mesh, within discretization error; it cannot tell a solve that has stopped early from a converged one, nor cover all matrices and solvers", "anchors": ["src/stokes_solver.cpp:816-941", "include/stokes_solver.hpp:16-73"]}
{"id": "C137", "title": "The global configuration of a component-wise problem is read as it is stored", "statement": "Reading the global configuration file gives exactly what it stores: the component names under their numbers, the component type, translation and rotation of each subdomain, the number of each subdomain among those of its type, the reference ports with the descriptions the file has of them, and every port with its two subdomains, attributes and reference. A port built from a description connects the two components it names at the attributes it names, with the second component placed by its six numbers; an unknown component or another number of values gives no port. A file whose tables do not have the expected shape is refused.", "quantifier": "all numbers of components, subdomains, reference ports and ports, all names, types, placements and attributes, all numbers of columns of the tables, all component meshes", "why_tests_cant": "tests read a few files written by the accompanying scripts; files of another shape are not tried, and reading past the end of a table usually goes unnoticed", "anchors": ["src/component_topology_handler.cpp:199-314", "src/component_topology_handler.cpp:347-380", "src/component_topology_handler.cpp:745-791"]}
{"id": "C138", "title": "Each sample runs with its own parameter values, whatever ran before, and has its own files", "statement": "Before sample s is solved, the configuration holds, at every option named in sample_generation/parameters, the value of that parameter at the point of the sampling grid that s stands for (equally spaced, equally spaced logarithms, or integers and file names numbered by them), and every other option is as the user gave it. The configuration of a sample is the same whatever samples the same process ran before it; with random sampling nothing of an earlier draw is left. An index that is not the index of a sample is refused, and so are parameters that name the same option or one an option inside the other. The solution files of the samples of a run are all different, also if each sample asks for its own prefix.", "quantifier": "all lists of parameters of the three types, all grids, all configurations, all sequences of samples, all draws, all directories, prefixes and file offsets", "why_tests_cant": "tests look at the parameters of one sample; leftovers of earlier samples, collisions of options and file names are questions about all sequences of samples and all keys", "anchors": ["src/sample_generator.cpp:158-179", "src/parameter.cpp:21-127", "src/random_sample_generator.cpp:59-65", "src/main_workflow.cpp:144-210"]}
{"id": "C139", "title": "Comparison of a solution with another is the relative L2 error per variable, and snapshots carry the right names", "statement": "Copying a solution into the solver or comparing one with it stops the program unless the blocks have the same sizes, and otherwise copies every entry. The relative error reported for a variable is the square root of the integral over all subdomains of the squared difference divided by that of the squared solution, whether the variable is a scalar or a vector; it is zero exactly when the fields agree at the integration points, and |e| when the test solution is (1+e) times the solution. The error fields saved for visualization are test minus solution. The snapshots of a solution are its blocks, each under the name of the component of its subdomain and, with a basis for each variable, the name of its variable; with one basis for all variables a snapshot is the variables of the subdomain one after the other.", "quantifier": "for all numbers of subdomains and variables, block sizes, spaces and quadrature rules with nonnegative weights, solutions and memory contents", "why_tests_cant": "a test compares a few solutions of a few sizes; sums over subdomains, the unused memory of error fields and all block layouts cannot be enumerated", "anchors": ["src/multiblock_solver.cpp:374-379", "src/multiblock_solver.cpp:422-427", "src/multiblock_solver.cpp:599-606", "src/multiblock_solver.cpp:618-650", "src/multiblock_solver.cpp:694-718", "src/multiblock_solver.cpp:749-776"]}
{"id": "C140", "title": "A direct solve solves the assembled system", "statement": "With solver/direct_solve the solution of every solver, and with model_reduction/linear_solver_type: direct that of every reduced system, solves the system that was assembled, for every right-hand side and every choice of the interior penalty parameters: the type of matrix declared to the direct solver fits the matrix. The declared type fits exactly when it is unsymmetric or the matrix is symmetric. With sigma (alpha) = -1 the Poisson, elasticity and viscous matrices assembled over all interfaces are symmetric, and so are the flow system and that of a time step.", "quantifier": "for all numbers and sizes of subdomains, ports, faces, element matrices, quadrature rules, coefficients, penalties, symmetric subdomain forms, right-hand sides and solutions", "why_tests_cant": "a test solves a few systems with the default sigma; a wrong declaration gives no error but the solution of another system, and only for unsymmetric matrices", "anchors": ["src/poisson_solver.cpp:587-593", "src/linelast_solver.cpp:284-298", "src/advdiff_solver.cpp:230-236", "src/stokes_solver.cpp:467-496", "src/steady_ns_solver.cpp:686-694", "src/unsteady_ns_solver.cpp:149-167", "src/rom_handler.cpp:335-362", "src/rom_handler.cpp:1046-1064"]}
{"id": "C141", "title": "The warnings before assembly say whether a Dirichlet condition is missing", "statement": "Before assembly the solvers warn that there is no Dirichlet condition exactly when assembly imposes none on any subdomain, and give no other warning once a problem is set; before that they warn that coefficients are missing.", "quantifier": "for all problems, boundary attributes, subdomains and previous states of the solver", "why_tests_cant": "a test looks at solutions and not at warnings; without a Dirichlet condition the system is singular and a solver may return anything", "anchors": ["src/poisson_solver.cpp:521-549", "src/poisson_solver.cpp:551-584", "src/stokes_solver.cpp:1056-1080", "src/stokes_solver.cpp:1082-1146", "src/linelast_solver.cpp:585"]}
