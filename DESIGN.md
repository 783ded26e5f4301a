# Formal model of scaleupROM: design

The code under /repo is read as text and never built or run.  Everything below is a Rocq/Coq 8.16.1
development in `rocq/theories`; `properties.jsonl` holds the English properties, `MANIFEST.json` maps each to
theorem names, `seeded/LOG.jsonl` records the mutation tests.

## 1. Conventions of the model

* **Outcomes.**  A C++ function that can stop the program or run into undefined behaviour is modelled as a
  function into `outcome A := Ok a | Abort | UB` (`Outcome.v`).  `Abort` is a failed `assert`,
  `mfem_error` or `exit(-1)`; `UB` is an out-of-bounds access, null dereference, use after free, double free,
  division by zero or (where the property is about it) signed overflow.  The build the repository configures by
  default (no `CMAKE_BUILD_TYPE`, no `NDEBUG`) keeps assertions, and that is the build modelled.
* **Integers.**  `int` is unbounded `Z`/`nat` unless the property is about overflow.  Every definition that does
  this says so.  C++ `/` and `%` truncate toward zero: `Z.quot`/`Z.rem`.
* **Reals.**  `double` is replaced by `Q`, `Z` or an arbitrary commutative ring/field (Section parameters
  discharged when the Section closes, so no axiom).  Rounding is therefore *not* modelled; identities are exact.
* **Vectors and matrices.**  Either lists (when layout in memory is the point) or functions `nat -> K` with
  explicit sizes (when only the algebra matters).
* **Loops** are structural recursion or folds in source order; unbounded loops are a transition relation or
  fuelled recursion with the out-of-fuel case visible in the statement.
* **Layout.**  For each area: `Model.v` (definitions only, each citing the lines it models), `Spec.v` (independent
  specification), `Proofs.v`, `Examples.v` (non-vacuity witnesses), `Properties.v` (only `Theorem … exact lemma`
  and `Print Assumptions`).

## 2. Trusted base

1. The Coq 8.16.1 kernel (`coqc`, re-checked by `coqchk`).
2. What `Print Assumptions` prints for each theorem; see section 5.
3. The reading of the C++ text: no tool ties the model to the code.  Every definition cites its lines.
4. External libraries (MFEM, libROM, HDF5, yaml-cpp, MPI, MUMPS/hypre) are modelled by the contract that the
   calling code relies on, stated at the definition.

## 3. Plan per property (written before the proofs)

| id | model | method |
|----|-------|--------|
| C01 | `DistributeSamples`, `IsMyJob` over lists of Z | partial sums closed form; induction over ranks |
| C02 | both `GetSampleIndex` overloads | mixed-radix codec round trip by induction over parameters |
| C03 | same | refuted by witness; positive: rejected exactly when the linear value leaves the range |
| C04 | `GenerateSamples` loop as step relation with solver oracle | invariant + termination measure; refuted for >= 2 processes (self-loop state) |
| C05 | `GetInteger`, `SetParam` over Z and Q | truncating division bounds |
| C06 | same | refuted by witness; positive under divisibility |
| C07 | `operator<` of `PortTag`, `BasisTag` | strict total order proof with lexicographic strings |
| C08 | `BasisTag::print` | refuted by witness; injective when no component name contains `_` |
| C09 | snapshot store as state machine | refinement to "filter of history by tag" |
| C10 | `SaveSnapshotPorts` | invariant over histories |
| C11 | `CollectSnapshotsByPort` offsets | induction over file list |
| C12 | YAML tree, `FindNodeFromDict`, set/get | structural induction over paths |
| C13 | `OverwriteOption` tokeniser | fold over items, `_refuted` for accepted malformed forms |
| C14 | `LookUpFromDict` | list induction |
| C15 | `TimeProfiler` state machine | invariant over event lists |
| C16 | HDF5 dense/tensor/array codecs as list layouts | index arithmetic, all sizes |
| C17 | CSR/Block codecs | same |
| C18 | `ReadSparseMatrixFromHDF` with buffer capacities | refuted by witness; positive if nnz >= rows+1 |
| C19 | `EQPElement::Save/Load` with typed dataset names | round trip + abort on mismatch |
| C20 | `Inf` code | div/mod |
| C21 | `UpdateBdrAttributes` | list induction to spec `first occurrences` |
| C22 | `BuildInterfaceInfos` | fold invariant |
| C23 | `ReadComponentsFromFile` counting | fold invariant |
| C24 | `ReadPortsFromFile` attributes | max + counter |
| C25 | port data file codec | round trip |
| C26 | vertex matching | loop invariant over greedy search |
| C27 | boundary attribute maps | last-write-wins fold |
| C28 | `SetBlock`, `CopyMatrix` | column-major index arithmetic |
| C29–C32 | `linalg_utils` products over a commutative ring | finite sums; C32 refuted |
| C33 | Gram-Schmidt over a field with a norm oracle | loop invariant on orthogonality and span |
| C34, C35 | block index and offsets | div/mod, prefix sums |
| C36, C37 | projection and lifting over a ring | finite sums |
| C38 | block index used by projections | refuted for variable ordering |
| C39 | allocation state machine | refuted (double free) / invariant |
| C40 | `AppendReferenceBasis` | column append |
| C41, C42 | slices of lists | permutation lemmas |
| C43 | boundary type arrays | list induction |
| C44 | `AssembleROMMat` | fold = sum specification |
| C45 | collection selection | refuted for interval > 1; positive |
| C46, C47 | file-system state machine | round trip / refuted |
| C48 | block sweeps over a module with block solver oracle | induction over block rows |
| C49 | interface accumulation | fold = sum |
| C50–C53 | EQP sampling, layout, caching, ownership | list induction, heap state machine |
| C54, C55, C58 | integrators over a commutative ring | finite-sum algebra, `ring` |
| C56, C57 | unsteady time loop as state machine | induction over steps; refuted for stale restart |
| C59 | offsets in both orderings | refuted for variable-major; positive for subdomain-major |
| C60 | pressure mean over Q | list sums |
| C61, C62 | Stokes boundary bookkeeping | refuted by witness; positive under guards |
| C63 | offsets | prefix sums |
| C64–C66 | problem tables and solver set-up | state machine over call sequences |
| C67–C69 | workflow helpers | list induction |
| C70 | random generator indices | direct |
| C71–C77 | configuration, component and port readers | fold invariants; witnesses for unchecked lengths and names |
| C78, C79 | Gram-Schmidt against a skew basis, line search | witness; descent invariant over the trial points |
| C80–C83 | ROM handler: loading, sizes, solves, errors | state machine invariants; witnesses for reloads |
| C84, C85 | component files, smoother operators | round trip; witness of stale inverses |
| C86–C90 | EQP systems and nonlinear interface integrators | finite sums, derivative of the flux, quadrature rules as lists |
| C91–C93 | Navier-Stokes operators, linearized unsteady steps | block algebra; derivative identities over the reals |
| C94, C95 | complementary flux, boundary conditions of every solver | sums over boundary elements; state machine over calls |
| C96, C97 | snapshot collection, basis sizes | file-system state machine, list induction |
| C98 | reduced time integration | invariant over steps; orthogonality of the residual |
| C99–C101 | drivers from training to a reduced run | file-system state machine with named provenance |
| C102 | supremizer training and loading | orthonormalization theorem of C33, append theorem of C40, back substitution |
| C103, C104 | basis visualization, element type check | prefix sums; list induction |
| C105, C106 | interface integrators: interior-face agreement, interior penalty form | loop invariants on block entries; finite-sum algebra over the reals |
| C107, C108 | weak boundary values and normal flux: matrix against right-hand side | loop invariants; finite-sum algebra |
| C109, C110 | marker selection in mixed forms; convection boundary data | list induction; scaling identity, counterexample |
| C111 | component elements against projected full systems (Poisson, Stokes, elasticity) | simulation: assembly over forms, markers, ports; linearity of the projection; counterexamples |
| C112 | advection-diffusion operator over all call sequences | invariant over executions; linearity of assembly, finite sums |
| C113, C114 | flow of a problem: computed, saved, loaded; lifetimes | invariant over executions; round trip; counterexamples |
| C115 | linear solves and snapshots | case analysis under a contract of the solver |
| C116 | flow drawn against flow used | invariant over executions; counterexamples |
| C117 | nonlinear term: full order and hyper-reduced | loops to sums over parts; counterexample |
| C118 | files of rules | injectivity of names; invariants over writes and reads; counterexample |
| C119 | a mesh split along its attributes | invariants over the numbering of faces; counting sides; builds on C22 |
| C120 | points of an interface | geometry of the two sides, ring identities |
| C121 | fields on the whole mesh | loop invariants over disjoint writes |
| C122 | interfaces between placed components | orientation from vertex maps; affine maps and isometries; builds on C26 |
| C123 | misplaced subdomains | counterexample |
| C124 | loading component meshes | invariants over the list of files; counterexamples |
| C125 | convection tensors and their files | loop invariants over groups of a file; composes C16 |
| C126 | lifetime of reduced nonlinear data | invariants over arbitrary call sequences; counterexamples |
| C127 | files of global reduced operators | loop invariants; counterexample |
| C128 | time-dependent data of unsteady runs | refinement to the run with frozen linear data, composed with C93's scheme; counterexample |
| C129 | CFL number and NaN check | loop invariants; counterexample |
| C130 | initial condition of unsteady runs | invariants over arbitrary call sequences; counterexample |
| C131 | nonlinear conjugate gradient minimization | induction over the iterations with the line search of C108 |
| C132 | training of the quadrature rules of ports | refinement of the training to the pairs of states in a history of sampling runs; error bound of the evaluation summed over ports |
| C133 | full-order steady flow solve | induction over the iterations with the whole history; invariance of the operator under constant pressures; composition with the reorderings of C41 and the files of C46 |
| C134 | nonlinear reduced solve | the same iteration composed with projection and lift of C36; counterexamples |
| C135 | positions of quadrature points | loop invariants over rows and columns of the table; induction over components; independence of the memory; counterexamples |
| C136 | Schur complement solve | algebra of sums; uniqueness by injectivity; composition with the reorderings of C41; counterexample |
| C137 | global configuration file | file described by its entries; loops over rows by pointwise equality; counterexamples for all short tables |
| C138 | parameters and files of samples | commutation and idempotence of assignments in the configuration tree; induction over earlier samples; injectivity of decimal numerals; counterexamples |
| C139 | comparison, copy and snapshots of solutions | loops over blocks by invariants; linearity of the fields; sums of nonnegative terms; views of the same data under two layouts; counterexample for all layouts |
| C140 | direct solves | unit vectors against a mirrored triangle (equivalence); symmetry of sums over ports, faces and integrators by exchange of sums, on top of C49 and C106; counterexample for all sigma and penalties |
| C141 | warnings before assembly | null tests against the terms of C95: a term for each boundary on each subdomain, none if and only if all coefficients are null; runs after another problem |

Nothing in the list is "not applicable"; floating-point rounding, MPI progress, HDF5/OS failures and
finite-element theory are outside the model.

## 4. What is modelled and what is not

### 4.1 Areas

Every `*Model.v` holds definitions only; the comment of each definition cites the lines it stands for.  The text below is
the head of each model file: what it covers and how it simplifies.

* **AdvModel**: Model of the advection-diffusion solver (src/advdiff_solver.cpp): where its velocity comes from, what it assembles, what it draws. Simplifications: the Stokes solver is its solution and whether its iterations converged ([flows]); its variables are velocity and pressure. Coefficients and Stokes solvers are kept in lists of cells, a deleted one being [None]. What MFEM's [DiffusionIntegrator] and [ConvectionIntegrator] yield on an element is written out with quadrature points, the shape functions being numbered by the degrees of freedom of the subdomain; the other integrators are those of BupModel. Warnings and timers are left out.
* **AsmModel**: Assembling subdomains from component meshes: the geometry of ports. Modelled: [SetupComponents], the placement of the component meshes ([SetupMeshes]), the interfaces of the reference ports ([SetupReferenceInterfaces]) and, through [SplitModel], the transformations that the forms integrate with. Ports themselves are [CompModel.build_port] and [CompModel.setup_ports]. Meshes are two-dimensional (triangles and quadrilaterals) and straight; the faces are MFEM's as in [SplitModel]. Simplified: a mesh with nodes is given by its vertices; the copy of a component mesh made for a subdomain has the same numbering.
* **BcModel**: Model of the boundary conditions of the solvers: [AddBCFunction], [SetParameterizedProblem], the integrators they lead to, the complementary flux of the flow solvers. Simplifications: a coefficient is the function it was made of; [mfem_warning] is dropped; leaked coefficients are not tracked. A boundary element is its attribute and its quadrature points: position, weight, weighted normal; area and fluxes use the same rule (stokes_solver.cpp:1377, 1410, 1436). The complementary flux, global in the program, is part of the state of the flow solver; [None] is a NaN or an infinity, which the comparison with the threshold does not stop.
* **BupModel**: Model of the two ways to the reduced system of the linear solvers: assembling the subdomains and projecting, or projecting the elements of components, boundaries and reference ports and assembling those. Simplifications: an integrator is its constructor call; what it yields on an element or a face is given ([numerics]), as the matrix added to the global one, entries being exact reals. A subdomain is a copy of its component: as many elements, faces and degrees of freedom; its place ([AtSub]) may influence what integrators yield. Monolithic copies, preconditioners and solvers are left out, as are the warnings of [SanityCheckOnCoeffs].
* **BvisModel**: Model of the visualization of basis vectors (src/rom_handler.cpp:958-1011) and of the check of element types of the Navier-Stokes solver (src/steady_ns_solver.cpp:449-454). Simplifications: as in RomModel; the name <prefix>_<c> of a collection is the position [c] in the result, the name <variable>_basis_<k> of a field is the pair (variable, k); a finite element space is its number of unknowns.
* **CfgfModel**: Model of the reading of the global configuration file of a component-wise problem (class [ComponentTopologyHandler]), and of the construction of a port from its description. Definitions only. Simplifications: strings are stored faithfully (see CompModel.v); a description goes through a YAML node unchanged; the groups are those the reader opens; [int] overflow is not modelled.
* **CgoModel**: Model of the nonlinear conjugate gradient minimization of the ROM (class [CGOptimizer]); its line search is [LinalgModel.brent]. Simplifications: real numbers. What is not a number is [None]: dividing by zero makes a step or a direction [None], and the line search with such a step or direction is [UB], because no trial value is then larger than another, so the search runs to the end of its record and beyond (lines 827-843). An operator is a function, with the product by its transposed gradient.
* **ClkModel**: Model of the data of an unsteady flow run: the clocks of the coefficients, the right-hand side they are assembled into, the initial condition, and what watches over the run (CFL number, check for NaN). Simplifications: the value of a coefficient at a time is an abstract field ([D]); the linear forms and the nonlinear forms are functions of the present values of the coefficients they hold (their integrals are the subject of other files); of a double precision number it is kept whether it is a number, infinities are numbers too large to matter and are left out.
* **CmprModel**: Model of handing solutions over: copying, comparing, and cutting them into snapshots (src/multiblock_solver.cpp). Definitions only.
* **CompModel**: Component-wise configurations: subdomains made from reference components, ports, boundaries. Modelled: [ComponentTopologyHandler::ReadComponentsFromFile] (numbering), [ReadBoundariesFromFile], [ReadPortsFromFile] (attributes and maps), [SetupBdrAttributes], [SetupPorts], [SetupReferencePorts], [ReadPortDatasFromFile], [WritePortDataToFile], [BuildPortDataFromInput], the mesh transformations. Simplified: a component is its list of boundary attributes and its list of boundary elements (attribute and vertices); vertex coordinates are exact rationals and those of component 2 are given after the transformation; a port file is a list of records (one per group); open handles, printed messages and [int] overflow are not modelled. String attributes are assumed to be stored faithfully: src/hdf5_utils.cpp:48-84 hands the address of a [std::string] to HDF5 as if it were a [char*], which works only where the first word of a [std::string] is its data pointer.
* **ConfigModel**: Model of the configuration tree (include/input_parser.hpp, src/input_parser.cpp). Definitions only. yaml-cpp itself is not in /repo. Its documented behaviour used here: [operator[]] with a string key on a map searches the key; on a null node it makes an empty map; on a sequence it converts the sequence into a map keyed by the decimal indices; on a scalar it throws [BadSubscript] (nothing in the code catches it: [Abort]). Node handles share the tree, so [operator[]] and assignment through a handle change the tree. Simplified: [operator[]] on a map also inserts an undefined value for a missing key; undefined values are skipped by look-up, size and iteration, so they are dropped here.
* **DgModel**: Model of the linear discontinuous Galerkin integrators: the interface integrators of src/interfaceinteg.cpp (diffusion, vector diffusion, normal flux, elasticity), the face integrators of src/dg_bilinear.cpp and src/dg_mixed_bilin.cpp, the boundary right-hand sides of src/dg_linear.cpp and the choice of boundary faces of [MixedBilinearFormDGExtension]. Simplifications: entries are exact reals. What MFEM computes at an integration point (shape functions, their derivatives, adjugate and determinant of the Jacobian, the normal of the first face, coefficients) is data; vectors of such values are functions of the index. Matrices that are assembled have a size, and an access outside of it is undefined. [*jmats(0,1)] (a null reference that is formed on every call) is only undefined when it is accessed.
* **DirModel**: Model of the direct solves: which type of matrix each solver declares to MUMPS, and what MUMPS then solves. MUMPS and its wrapper [MUMPSSolver] are external. What is assumed of them: with a symmetric type only the entries on and below the diagonal are handed over ([MUMPSSolver::SetOperator]) and stand for both triangles; the vector returned by [Mult] solves the system with that matrix. That [SYMMETRIC_POSITIVE_DEFINITE] also asks for positive pivots is left out. Entries are exact reals; a row or column is a pair of subdomain (or variable) and degree of freedom, numbered by [CreateMonolithic] in the order of the pairs.
* **DriveModel**: Model of the drivers of the training, building and running modes (src/main_workflow.cpp) together with the refusals of the solver classes they call. Vectors, operators, bases and elements are abstract; what is modelled is which stage reads and writes which file, which calls stop the program, and what a run reports. Definitions only.
* **EqcModel**: Model of the file with the positions of the quadrature points of a trained rule (classes [ROMNonlinearForm] and [SteadyNSSolver], [PrintEQPCoords]). Definitions only. Simplifications: real numbers; the mapping of an element is a function of the element and of the point of its rule, of [dim] values. The file is its root group.
* **EqpItfModel**: Model of hyper-reduced interface terms: src/rom_interfaceform.cpp:63-380. See EqpModel.v for what is abstracted.
* **EqpModel**: Model of hyper-reduction: src/rom_nonlinearform.cpp and src/rom_interfaceform.cpp (training system, samples, evaluation). Simplifications: entries are exact reals. An element, interior face or boundary element is what the code obtains from it: its degrees of freedom, the kind of finite element, the degree-of-freedom transformation and the values of the integrator at a quadrature point. libROM's nonnegative least-squares solver is left out: its solution is an argument. The values of freshly allocated storage are arguments ([junk]). Printing and timers are left out.
* **EqpOwnModel**: Model of who owns the sample lists of hyper-reduced forms: include/rom_nonlinearform.hpp, include/rom_interfaceform.hpp. A sample list ([EQPElement]) lives at an address and is given a new address by every allocation; [None] is freed memory. Its contents are of any type [A]; reading a list from a file is an update whose contents come from the file.
* **HdfModel**: Model of the HDF5 readers and writers (src/hdf5_utils.cpp, include/hdf5_utils.hpp, src/linalg_utils.cpp:365-423, src/hyperreduction_integ.cpp:13-88). Definitions only. The HDF5 library is not in /repo. A group is a list of named attributes and a list of named links; creating a link or an attribute under an existing name fails, opening a missing one fails. A dataset is its extents and its elements in row-major order. [H5Dread]/[H5Dwrite] with [H5S_ALL] move all elements. Simplified: a link name is one path segment; a read with an element class other than the stored one (which HDF5 converts) is outside the model and marked [UB]; open handles and file modes are not modelled.
* **IntegFastItfModel**: Hyper-reduced interface terms of the Lax-Friedrichs flux with precomputed coefficients.
* **IntegFastModel**: Hyper-reduced forms with precomputed coefficients: precomputation, evaluation, Jacobians.
* **IntegModel**: Model of the nonlinear integrators: src/hyperreduction_integ.cpp (convection, inviscid flux), src/nonlinear_integ.cpp (Temam forms) and src/interfaceinteg.cpp (Temam and Lax-Friedrichs interface fluxes). Simplifications: entries are exact reals. A vector is a function of the index, a matrix a function of row and column; only indices within the sizes the code sets are meaningful, and the sizes are arguments of the loops. What MFEM computes at an integration point (shape functions, derivatives, Jacobians, normals, coefficients) is data. MFEM's dense kernels are given by the sums they compute. Timers are left out.
* **ItfModel**: Model of src/interface_form.cpp: assembly over the interfaces between subdomains. Simplifications: entries are exact reals; sparse matrices are their values ([skip_zeros] only affects which zeros are stored); meshes, elements and transformations are what the integrators and the tables of degrees of freedom make of a face. Timers are left out.
* **ItrModel**: Model of the training of the quadrature rules of reference ports: src/steady_ns_solver.cpp:1117-1163, src/rom_interfaceform.cpp:383-435, 608-701. Simplifications: see EqpModel.v and SnapshotModel.v. A snapshot matrix is made of the columns the sample generator holds; its number of rows is the length of the first. libROM's solver is a function of the system it is given. The processes share the faces of a port as [tn_split] says. Storage that is not initialized comes from [tn_junk]. A rule is its list of samples (who owns it: EqpOwnModel.v).
* **LinalgModel**: Dense linear algebra of src/linalg_utils.cpp over the exact reals. Simplifications: [double] is [R] (no rounding, no NaN: a division by zero is [UB]); sizes are [nat]; row indices and the [int] arguments of [SetBlock] are [Z]. Memory returned by [new double[n]] is an explicit argument [junk], so that nothing may depend on it.
* **MbModel**: Model of src/multiblock_solver.cpp: vectors of several variables on several subdomains, boundary types, assembly of the ROM matrix, visualization, solution files; and of the offsets the solvers set up. Simplifications: sizes are [nat]; entries are exact reals; a sparse matrix is its values (whether an entry is stored is not kept); an HDF5 file is the solution data set and the two attributes the code writes.
* **NeqModel**: Model of the nonlinear term of the Navier-Stokes solver and of its hyper-reduction: src/steady_ns_solver.cpp. Simplifications: an integrator is its constructor call, the constants [zeta_coeff] and [minus_zeta] being fixed; what it yields at a quadrature point of an element or a face is given ([nnum]), entries being exact reals. A rule is its list of samples: forms of subdomains share those of their component by pointer in the code, by value here. Who owns them, precomputed coefficients, leaked integrators, printing and the processes other than the first are left out.
* **NsModel**: Model of the operators of the steady Navier-Stokes solver (src/steady_ns_solver.cpp): full order, tensor ROM, hyper-reduced ROM. Simplifications: timers and the copy of the Jacobian to hypre are left out; the nonlinear forms and the interface form enter as functions, they are modelled elsewhere; [Finalize] keeps zero entries.
* **NsTensorModel**: Model of the reduced convection tensor and of the full-order operator (src/steady_ns_solver.cpp). Simplifications: the nonlinear form of one component is a loop over its elements, each with its degrees of freedom and integration points; true and local degrees of freedom coincide (serial, conforming); sparse matrices are their values, for the matrices summed here are new ones.
* **ProbModel**: Model of src/parameterized_problem.cpp: the predefined problems, their parameters and their functions. Simplifications: the doubles of namespace [function_factory] are cells named by their C++ name, the entries of its vectors and matrices by name and index; floating point is exact; a pointer to a function is a name out of [sfun] or [vfun]; the complementary flux ([flow_problem::del_u], [flow_problem::x0]), which the solver sets, is an argument.
* **ProfilerModel**: Model of the time profiler (include/etc.hpp). Definitions only. Clock readings are integers.
* **RomModel**: Model of the ROM handler (src/rom_handler.cpp): block layout, reduced bases, projection, lifting, ownership. Simplifications: sizes and indices are [nat] ([int] overflow is not modelled here); entries are exact reals; MFEM's [Mult], [MultTranspose], [SetSubMatrix] are taken as specified; the file a basis is read from is represented by the matrix the reader returned.
* **SamplingModel**: Model of sample distribution, sample indices, parameter values and the sample generation loop. Definitions only; no proofs.
* **SchurModel**: Model of the Stokes solve by the Schur complement of the velocities (classes [SchurOperator] and [StokesSolver]). Definitions only. Simplifications: real numbers; the iterative solvers of MFEM are functions of the right-hand side and of the initial guess, with the result and whether it has converged. The multigrid preconditioner is part of these functions; printing is left out.
* **SmoothModel**: Model of src/block_smoother.cpp: block Gauss-Seidel and block Jacobi. Simplifications: entries are exact reals, so the checks for NaN are left out; the inverse of a dense matrix ([DenseMatrix::Invert]) is a parameter.
* **SnapshotModel**: Model of the snapshot bookkeeping of the sample generator. Definitions only.
* **SparModel**: Model of the parameters and of the files of one sample (src/parameter.cpp, src/sample_generator.cpp). Definitions only.
* **SplitModel**: Splitting a two-dimensional mesh into subdomains: [SubMeshTopologyHandler] from the mesh to the ports, the transformations of an interface, and the transfer of fields to the whole mesh. Modelled: the constructor (decomposition mode, one subdomain per attribute, element and face maps), [BuildFaceMap2D], the parent faces of the boundary elements, [GetInterfaceTransformations], [TransferToGlobal]. [BuildInterfaceInfos] is [TopoModel.build_interface_infos]. Of MFEM (not part of the repository) modelled as documented by the library: faces of a 2-D mesh are numbered in the order in which the elements use them; the first element that uses a face is its element 1 with orientation 0, the second has orientation 1 if it runs through the two vertices in the other order; a submesh takes the elements with the wanted attributes in order, numbers their vertices in the order of use, and its boundary elements are its faces with one element only, in the order of the faces. Not modelled: three-dimensional meshes, curved elements, the refinement itself (the model takes the mesh before and after it), the orders of the degrees of freedom inside an element.
* **StdyModel**: Model of the solution of steady flow problems: the full order solve (class [SteadyNSSolver]) and the nonlinear reduced solve (class [MFEMROMHandler]), with the iteration of MFEM. Simplifications: real numbers. The correction of an iteration (of Newton's method with a linear solver, or of L-BFGS) is a function of the iterates so far. Allocation is left out, except that a missing right-hand side or preconditioner is one.
* **SupModel**: Model of the supremizer enrichment of the velocity basis: src/rom_handler.cpp:169-196, src/stokes_solver.cpp:942-1008 and 1290-1363. Simplifications: as in RomModel (exact reals, [nat] sizes); one process; the supremizer file of a component is the matrix last written into it ([None]: no such file); the divergence form of a component enters as its matrix; a value in the configuration that is not an integer is not modelled.
* **TagsModel**: Model of basis tags, port tags and ordered maps keyed by them. Definitions only.
* **TenModel**: The convection tensors of the steady Navier-Stokes solver: building, saving, loading, handing them to the subdomains and releasing them, with the hyper-reduced forms as far as their lifetime is concerned. Allocations are numbered in the order they are made; nothing is released before the destructor, which is a separate function. Simplified: what a call computes for the linear part of the ROM is one value of type [M]; the content of the hyper-reduced forms and of their files is [NeqModel]; a component name is one path segment of a file.
* **TopoModel**: Splitting a mesh into subdomains: attribute lists, interfaces, ports. Modelled: [TopologyHandler::UpdateAttributes/UpdateBdrAttributes], the boundary attributes of the submeshes ([BuildSubMeshBoundary2D]), [BuildInterfaceInfos], [FindParentInterfaceInfo], the encoding of (local face, orientation) in one [int]. Not modelled: the MFEM mesh itself. A submesh is reduced to its list of boundary elements, each with the parent face it lies on and the parent element next to it (what [parent_face_map] with [GetBdrFace], and [parent_elem_map] with [GetBdrElementAdjacentElement], return). [int] overflow of attributes is not modelled.
* **UnsteadyModel**: Model of the time integration of src/unsteady_ns_solver.cpp: initial condition, steps, schedules, restart files. Simplifications: entries are exact reals, so the check for NaN (hpp:117-124) never fires; the CFL number and the timers, which change nothing, are left out; the direct solver is a function of its right-hand side; of the output for visualization the step, the time and the solution are kept; a snapshot is the solution handed to the sample generator.
* **UromModel**: Model of the reduced time integration of src/unsteady_ns_solver.cpp: assembly of the reduced system and [SolveROM]. Simplifications: as in [UnsteadyModel]; timers are left out; the linear solver of the ROM handler is a function of its right-hand side.
* **WarnModel**: Model of the warnings that the solvers give before they assemble: which coefficients are missing. The text of a warning is its constructor; a warning given again at the next step is not counted again. Coefficients for the right-hand side are never null once they are in the list, so the null tests on them look at the list only.
* **WorkModel**: Model of the driver of the four modes (src/main_workflow.cpp) and of the parts of the sample generator that turn saved samples into bases. Definitions only.

### 4.2 Lines cited, file by file

Ranges of at least nine lines that no definition cites are listed; smaller gaps are includes, blank lines, destructors of
plain members and comments.  What the gaps hold is said in 4.3.

| file | lines | cited | not cited |
|---|---|---|---|
| bin/main.cpp | 46 | 0 | all |
| include/advdiff_solver.hpp | 66 | 20 | 1-19, 40-66 |
| include/block_smoother.hpp | 83 | 24 | 1-15, 40-83 |
| include/component_topology_handler.hpp | 187 | 50 | 1-19, 63-78, 86-187 |
| include/dg_bilinear.hpp | 41 | 0 | declarations only |
| include/dg_linear.hpp | 129 | 0 | declarations only |
| include/dg_mixed_bilin.hpp | 130 | 0 | declarations only |
| include/etc.hpp | 151 | 96 | 1-16, 20-30, 59-77 |
| include/hdf5_utils.hpp | 266 | 157 | 1-37, 70-85, 89-98, 236-266 |
| include/hyperreduction_integ.hpp | 234 | 25 | 1-32, 58-234 |
| include/input_parser.hpp | 193 | 86 | 1-14, 35-97, 120-133, 185-193 |
| include/interface_form.hpp | 160 | 5 | 1-141, 147-160 |
| include/interfaceinteg.hpp | 416 | 0 | declarations only |
| include/linalg_utils.hpp | 241 | 77 | 1-48, 119-202, 210-241 |
| include/linelast_solver.hpp | 107 | 6 | 1-63, 70-107 |
| include/main_workflow.hpp | 38 | 0 | declarations only |
| include/multiblock_solver.hpp | 269 | 4 | 1-269 |
| include/navier_solver.hpp | 460 | 0 | declarations only |
| include/nonlinear_integ.hpp | 86 | 0 | declarations only |
| include/parameter.hpp | 82 | 70 | 1-12 |
| include/parameterized_problem.hpp | 454 | 71 | 1-211, 266-410, 428-454 |
| include/poisson_solver.hpp | 107 | 6 | 1-56, 63-107 |
| include/random_sample_generator.hpp | 36 | 0 | declarations only |
| include/rom_element_collection.hpp | 118 | 0 | declarations only |
| include/rom_handler.hpp | 298 | 71 | 1-45, 114-139, 143-298 |
| include/rom_interfaceform.hpp | 149 | 30 | 1-77, 109-149 |
| include/rom_nonlinearform.hpp | 249 | 88 | 1-91, 195-249 |
| include/sample_generator.hpp | 150 | 20 | 1-22, 30-59, 71-150 |
| include/steady_ns_solver.hpp | 215 | 57 | 1-57, 88-133, 161-215 |
| include/stokes_solver.hpp | 221 | 30 | 1-59, 73-121, 130-140, 148-221 |
| include/topology_handler.hpp | 209 | 0 | declarations only |
| include/unsteady_ns_solver.hpp | 132 | 23 | 1-36, 44-85, 90-116 |
| src/advdiff_solver.cpp | 277 | 230 | 1-12, 49-76 |
| src/block_smoother.cpp | 242 | 144 | 1-17, 52-69, 170-184, 203-242 |
| src/component_topology_handler.cpp | 1011 | 860 | 1-28, 72-101, 148-159, 381-402, 924-936, 986-1011 |
| src/dg_bilinear.cpp | 229 | 214 | 1-12 |
| src/dg_linear.cpp | 541 | 462 | 1-15, 389-436 |
| src/dg_mixed_bilin.cpp | 316 | 273 | 1-38 |
| src/etc.cpp | 31 | 16 | 1-14 |
| src/hdf5_utils.cpp | 579 | 473 | 1-47, 85-97, 144-175 |
| src/hyperreduction_integ.cpp | 790 | 554 | 1-12, 89-194, 242-285, 396-424, 534-545, 674-695 |
| src/input_parser.cpp | 102 | 49 | 1-48 |
| src/interface_form.cpp | 536 | 427 | 1-12, 367-397, 438-489 |
| src/interfaceinteg.cpp | 2209 | 1967 | 1-85, 1647-1710, 1982-2052 |
| src/linalg_utils.cpp | 957 | 845 | 1-13, 102-124, 235-243, 322-364 |
| src/linelast_solver.cpp | 585 | 350 | 1-70, 218-239, 267-293, 487-584 |
| src/main_workflow.cpp | 753 | 653 | 1-51, 70-92, 211-224 |
| src/multiblock_solver.cpp | 776 | 629 | 1-82, 240-258, 668-682 |
| src/navier_solver.cpp | 1178 | 0 | all |
| src/nonlinear_integ.cpp | 323 | 294 | 1-19 |
| src/parameter.cpp | 135 | 77 | 1-13, 70-84, 97-106, 120-129 |
| src/parameterized_problem.cpp | 1500 | 1221 | 1-19, 29-37, 85-93, 146-154, 207-215, 222-238, 250-258, 264-274, 291-302, 312-386 |
| src/poisson_solver.cpp | 593 | 464 | 1-58, 127-156, 255-280 |
| src/random_sample_generator.cpp | 65 | 30 | 1-32 |
| src/rom_element_collection.cpp | 252 | 206 | 1-45 |
| src/rom_handler.cpp | 1134 | 936 | 1-18, 28-46, 155-168, 1012-1065, 1089-1134 |
| src/rom_interfaceform.cpp | 891 | 795 | 1-38, 767-805, 816-825 |
| src/rom_nonlinearform.cpp | 1564 | 1298 | 1-13, 793-813, 826-871, 1011-1040, 1048-1070, 1121-1168, 1180-1202, 1255-1273, 1498-1520 |
| src/sample_generator.cpp | 606 | 522 | 1-12, 72-80, 371-384, 525-558 |
| src/steady_ns_solver.cpp | 1474 | 1346 | 1-21, 50-62, 153-161, 189-198, 414-448, 565-575 |
| src/stokes_solver.cpp | 1448 | 1246 | 1-89, 191-221, 395-406, 434-466 |
| src/topology_handler.cpp | 457 | 325 | 1-30, 121-169, 255-286, 314-326 |
| src/unsteady_ns_solver.cpp | 605 | 498 | 1-14, 55-81, 168-191, 410-440 |

### 4.3 Not modelled

* **Rounding, overflow of sizes, performance, output to the screen.**  Timers are modelled (C15) but not their use in the solvers.
* **src/navier_solver.cpp, include/navier_solver.hpp**: not part of the build (CMakeLists.txt does not list them).
* **External libraries.**  MFEM's meshes, spaces, forms, quadrature tables and iterative solvers; libROM's POD and nonnegative least
  squares; HDF5 and yaml-cpp below the calls used; MUMPS and hypre.  They enter as parameters with the postcondition the code relies on.
* **Face and interface integrators** are modelled from the shape function values on (C105-C110, C41-C43); shape functions, Jacobians, mapped
  integration points and coefficients at the points are parameters, and in the solver models the assembled values enter as data.
* **Visualization** (`SaveVisualization`, `InitVisualization`, ParaView collections) except basis visualization (C103).
* **Mode dispatch** in bin/main.cpp, `PrintEQPCoords`, `SaveEQPCoords`.
* **Threads and MPI.**  Work distribution over ranks is modelled (C01, C04, C15); collective communication inside MFEM is not.
* **String attributes** (src/hdf5_utils.cpp:48-84): the code passes the address of a `std::string` object where characters are expected;
  the model takes what is written to be what is read.
* **Snapshot files**: the name libROM gives a file (`<prefix>_<tag>_snapshot`) is taken from its documentation.
* **Meshes.**  Three-dimensional and curved meshes and uniform refinement; two-dimensional meshes are modelled from vertices and elements on (C119-C121).

## 5. Print Assumptions

No axiom is declared in the development.  What `Print Assumptions` lists is one of these axioms of the standard library:

* `D` = `ClassicalDedekindReals.sig_forall_dec`, `N` = `ClassicalDedekindReals.sig_not_dec` (the real numbers of Coq.Reals);
* `F` = `FunctionalExtensionality.functional_extensionality_dep`;
* `C` = `Classical_Prop.classic`.

`-` is "Closed under the global context".

| property | theorem: assumptions |
|---|---|
| C01 | `C01_every_sample_has_one_process`: - |
| C02 | `C02_index_codec`: - |
| C03 | `C03_out_of_grid_rejected_refuted`: -; `C03_linear_range_checked_partial`: -; `C03_linear_index_rejected_refuted`: - |
| C04 | `C04_single_process_partial`: -; `C04_multi_process_termination_refuted`: - |
| C05 | `C05_integer_in_range`: -; `C05_linear_in_range`: D F; `C05_log_in_range`: C D F N; `C05_random_in_range`: C D F N; `C05_filenames_enumerate`: - |
| C06 | `C06_integer_reaches_maximum_refuted`: -; `C06_maximum_size_refuted`: -; `C06_integer_grid_partial`: - |
| C07 | `C07_port_tag_order`: -; `C07_basis_tag_order`: -; `C07_port_tag_map`: -; `C07_basis_tag_map`: - |
| C08 | `C08_printed_name_identifies_refuted`: -; `C08_printed_name_identifies_plain_components_partial`: -; `C08_printed_name_identifies_one_mode_partial`: - |
| C09 | `C09_store_returns_what_was_saved`: -; `C09_solver_history_store`: -; `C09_solver_history_is_saved`: - |
| C10 | `C10_port_records_designate_their_columns`: - |
| C11 | `C11_collected_files`: - |
| C12 | `C12_set_then_get`: -; `C12_set_leaves_unrelated`: -; `C12_set_accepted`: -; `C12_absent_gives_fallback_refuted`: -; `C12_optional_read_partial`: -; `C12_read_does_not_modify_refuted`: -; `C12_read_changes_only_prefixes_partial`: -; `C12_read_through_maps_partial`: -; `C12_array_roundtrip_refuted`: -; `C12_array_roundtrip_partial`: - |
| C13 | `C13_overrides_left_to_right`: -; `C13_last_assignment_wins`: -; `C13_malformed_items_stop`: -; `C13_empty_value_stops_refuted`: -; `C13_empty_key_rejected_refuted`: - |
| C14 | `C14_look_up_first_match`: -; `C14_look_up_entry`: - |
| C15 | `C15_protocol`: -; `C15_report`: - |
| C16 | `C16_dense_round_trip`: -; `C16_tensor_round_trip`: -; `C16_vector_round_trip`: -; `C16_int_array_round_trip`: -; `C16_real_array_round_trip`: -; `C16_array2d_round_trip`: -; `C16_empty_refuted`: - |
| C17 | `C17_sparse_round_trip`: -; `C17_matrix_blocks_round_trip`: -; `C17_block_matrix_round_trip`: -; `C17_block_matrix_other_offsets`: - |
| C18 | `C18_csr_round_trip_partial`: -; `C18_csr_overflow`: -; `C18_csr_round_trip_refuted`: - |
| C19 | `C19_sample_points_round_trip`: - |
| C20 | `C20_code_decodes`: -; `C20_decoding_is_lossless`: -; `C20_orientation_replaced`: -; `C20_segment_orientation`: - |
| C21 | `C21_attribute_list`: - |
| C22 | `C22_one_port_per_interface_partial`: -; `C22_internal_boundary_refuted`: - |
| C23 | `C23_instances_numbered`: - |
| C24 | `C24_port_attributes`: -; `C24_ports_fit_their_reference`: -; `C24_fitting_ports_are_accepted`: - |
| C25 | `C25_port_file_round_trip`: - |
| C26 | `C26_built_port`: - |
| C27 | `C27_boundary_attributes`: -; `C27_complete_configuration_accepted`: - |
| C28 | `C28_set_block_matrix`: D; `C28_set_block_vector`: D; `C28_copy_matrix`: D; `C28_outside_of_target_is_rejected`: -; `C28_vector_outside_of_target_is_rejected`: -; `C28_range_larger_than_block_refuted`: D F |
| C29 | `C29_extraction`: D; `C29_mult_sub_matrix`: D F; `C29_mult_transpose_sub_matrix`: D F; `C29_add_mult_transpose_sub_matrix`: D F; `C29_misfits_are_rejected`: D; `C29_empty_selection_refuted`: D |
| C30 | `C30_rtap`: D; `C30_addw_rtap`: D; `C30_sparse_rtap`: D; `C30_addw_rtap_sparse`: D; `C30_ctab`: D; `C30_sub_rtap`: D F; `C30_sub_rtap_sparse`: D F; `C30_target_of_other_size_refuted`: D F |
| C31 | `C31_contraction`: D F; `C31_scaled_contraction`: D F; `C31_bilinear`: D F; `C31_product_with_last_index`: D F; `C31_transposed_products`: D F; `C31_other_axis_is_rejected`: D; `C31_tangent`: D F |
| C32 | `C32_middle_index_refuted`: D F; `C32_middle_index_partial`: D F |
| C33 | `C33_gram_schmidt`: D F N; `C33_prefix_spans`: D F N; `C33_succeeds_iff_independent`: D F N; `C33_orthonormalize`: D F N; `C33_heights_must_agree`: D F N |
| C34 | `C34_block_of_unknown`: -; `C34_unknown_of_block`: -; `C34_order`: -; `C34_default_variable_refuted`: - |
| C35 | `C35_full_order_offsets`: -; `C35_rom_offsets`: - |
| C36 | `C36_projection`: D; `C36_lifting`: D; `C36_round_trip`: D F |
| C37 | `C37_galerkin`: D F; `C37_stokes`: D F |
| C38 | `C38_component_partial`: D; `C38_interface_partial`: D; `C38_variable_partial`: D; `C38_variable_ordering_refuted`: D; `C38_reference_component`: D; `C38_reference_interface`: D; `C38_reference_missing_operator_refuted`: D |
| C39 | `C39_freed_once_partial`: -; `C39_load_over_operator_refuted`: - |
| C40 | `C40_append`: D |
| C41 | `C41_sort_by_variables`: D; `C41_sort_by_subdomains`: D; `C41_inverse`: D |
| C42 | `C42_extract`: D; `C42_insert`: D; `C42_get_put_laws`: D; `C42_bad_variable`: - |
| C43 | `C43_problem_types`: -; `C43_single_type`: -; `C43_markers`: - |
| C44 | `C44_rom_matrix`: D F |
| C45 | `C45_save_selected`: -; `C45_bad_selection`: -; `C45_save_step_partial`: -; `C45_save_step_refuted`: - |
| C46 | `C46_round_trip`: -; `C46_saves`: -; `C46_only_matching`: - |
| C47 | `C47_timed_partial`: -; `C47_timed_refuted`: D |
| C48 | `C48_sweeps`: D F; `C48_solution_kept`: D F; `C48_jacobi`: D F |
| C49 | `C49_matrices`: D F; `C49_vectors`: D F; `C49_matrix_vector`: D F; `C49_gradient`: D F; `C49_port_matrices`: D F; `C49_mixed_vector_refuted`: D F |
| C50 | `C50_samples`: D F; `C50_domain_samples`: D F; `C50_places`: - |
| C51 | `C51_system`: D F; `C51_interface_system`: D F |
| C52 | `C52_mult`: D F; `C52_gradient`: D F; `C52_interface_mult`: D F; `C52_interface_gradient`: D F |
| C53 | `C53_reference_forms`: -; `C53_shared_partial`: -; `C53_shared_refuted`: -; `C53_interface_forms`: -; `C53_interface_load_refuted`: - |
| C54 | `C54_mult`: D F N; `C54_gradient`: D F N; `C54_interface`: D F N; `C54_interface_gradient`: D F N; `C54_wind_refuted`: D F; `C54_stale_refuted`: D F N; `C54_offset_refuted`: D F N |
| C55 | `C55_convection`: D F; `C55_convection_point`: D F; `C55_wind_refuted`: D F; `C55_inviscid`: D F; `C55_inviscid_point`: D F; `C55_temam`: D F; `C55_temam_face`: D F; `C55_temam_interface`: D F; `C55_lax_friedrichs_face`: D F N; `C55_lax_friedrichs_point`: D F N; `C55_lax_friedrichs_interface`: D F N; `C55_lax_friedrichs_interface_point`: D F N; `C55_at_rest_refuted`: D F N |
| C56 | `C56_files`: D F; `C56_restart_partial`: D F; `C56_restart_refuted`: D F |
| C57 | `C57_schedule`: D F; `C57_visualization`: D F |
| C58 | `C58_operator`: D F; `C58_tangent`: D F; `C58_pattern`: D F; `C58_pattern_refuted`: D F |
| C59 | `C59_operator`: D F; `C59_layouts`: -; `C59_tangent`: D F; `C59_variable_refuted`: D |
| C60 | `C60_solution`: D F; `C60_idempotent`: D F; `C60_reduced`: D F; `C60_reduced_refuted`: D F |
| C61 | `C61_partial`: -; `C61_refuted`: D F N; `C61_order_refuted`: D F |
| C62 | `C62_problem`: D F N; `C62_calls`: -; `C62_refuted`: - |
| C63 | `C63_flow_layouts`: -; `C63_by_variable`: - |
| C64 | `C64_accepted`: D F; `C64_rejected`: D F; `C64_unknown`: D F; `C64_by_index`: D F; `C64_single_run`: D F; `C64_index_refuted`: D F; `C64_poisson0`: C D F N; `C64_poisson_component`: C D F N; `C64_poisson_spiral`: C D F N; `C64_viscosity`: D F; `C64_channel`: D F N; `C64_component_flow`: D F N; `C64_backward_step`: D F N; `C64_step_pressure`: D F N; `C64_lid`: D F N; `C64_force`: D F N; `C64_concentration`: C D F N; `C64_material`: C D F N; `C64_displacement`: D F N; `C64_lcantilever`: D F N; `C64_cantilever`: D F N; `C64_cantilever_refuted`: D F N; `C64_frame_wind`: D F N; `C64_train`: D F N; `C64_train_refuted`: D F N |
| C65 | `C65_sides`: D F; `C65_fresh_refuted`: D F |
| C66 | `C66_poisson_partial`: -; `C66_poisson_refuted`: D F; `C66_stokes_partial`: D F N; `C66_stokes_refuted`: D F N; `C66_stokes_nan_refuted`: D F N; `C66_linelast_partial`: -; `C66_linelast_refuted`: D F; `C66_linelast_traction_refuted`: D F |
| C67 | `C67_files`: -; `C67_never_empty`: -; `C67_ports`: - |
| C68 | `C68_tags`: -; `C68_once`: -; `C68_advdiff_refuted`: - |
| C69 | `C69_fraction_partial`: D F; `C69_beyond_refuted`: D F |
| C70 | `C70_random_index_codec`: - |
| C71 | `C71_short_arrays_refuted`: -; `C71_short_arrays_out_of_bounds`: - |
| C72 | `C72_unknown_component_refuted`: - |
| C73 | `C73_fitting_port_refuted`: -; `C73_fitting_port_built_partial`: - |
| C74 | `C74_inverse_2d`: D F N; `C74_distance_2d`: D F N; `C74_inverse_3d`: D F |
| C75 | `C75_rotation_applied_refuted`: D F N; `C75_rotation_2d_partial`: D F N |
| C76 | `C76_unknown_type_refuted`: -; `C76_unknown_type_is_undefined`: - |
| C77 | `C77_first_definition`: - |
| C78 | `C78_skew_basis_refuted`: D F N |
| C79 | `C79_line_search_descends`: D F; `C79_line_search_stays_in_record_partial`: D F; `C79_overrun_refuted`: D F |
| C80 | `C80_loading`: D; `C80_reload_after_append_refuted`: D |
| C81 | `C81_basis_sizes`: -; `C81_unused_component_stops`: - |
| C82 | `C82_no_leak_partial`: -; `C82_leaks_refuted`: - |
| C83 | `C83_relative_error`: D F N |
| C84 | `C84_elements_partial`: -; `C84_load_returns_saved`: -; `C84_port_names`: -; `C84_elements_refuted`: - |
| C85 | `C85_set_operator_refuted`: D F; `C85_same_diagonal_partial`: - |
| C86 | `C86_training_accuracy`: D F |
| C87 | `C87_weak_forms`: D F |
| C88 | `C88_element`: D F; `C88_face`: D F; `C88_interface`: D F; `C88_boundary`: D F |
| C89 | `C89_interface`: D F N; `C89_face`: D F N; `C89_boundary`: D F N; `C89_flux`: D F N; `C89_sides`: D F N |
| C90 | `C90_elements`: D F; `C90_faces`: D F N; `C90_interfaces`: D F N |
| C91 | `C91_operator`: D F; `C91_tangent`: D F; `C91_corner_refuted`: D F |
| C92 | `C92_form`: D F; `C92_tensor`: D F; `C92_projection`: D F |
| C93 | `C93_scheme`: D F |
| C94 | `C94_balanced`: D F N; `C94_component`: D F N; `C94_open`: D F N; `C94_flat_refuted`: D F N; `C94_unset_refuted`: D F N; `C94_order_refuted`: D F N |
| C95 | `C95_poisson`: -; `C95_given`: D F N; `C95_stokes`: D F N; `C95_linelast`: -; `C95_linelast_refuted`: D F; `C95_linelast_zero_refuted`: D F |
| C96 | `C96_collect`: -; `C96_roundtrip`: -; `C96_unsampled`: - |
| C97 | `C97_bases`: -; `C97_files`: -; `C97_size`: -; `C97_sizes`: - |
| C98 | `C98_run`: D F; `C98_matrix`: D F; `C98_equations`: D F; `C98_galerkin`: D F; `C98_equations_refuted`: D F; `C98_forms_refuted`: D F |
| C99 | `C99_pipeline`: D F; `C99_only`: D F; `C99_inputs`: D F |
| C100 | `C100_built`: D F; `C100_built_refuted`: D F; `C100_refused_refuted`: D F |
| C101 | `C101_solution`: D F; `C101_error`: D F; `C101_report`: D F; `C101_value`: D F; `C101_full_order`: D F; `C101_system_refuted`: D F; `C101_reduced_refuted`: D F |
| C102 | `C102_number`: -; `C102_unified`: D F N; `C102_trained`: D F N; `C102_succeeds`: D F N; `C102_too_many_refuted`: D F N; `C102_load`: D; `C102_refuses`: D; `C102_stable`: D F N; `C102_other_velocity_refuted`: D F N |
| C103 | `C103_fields`: D; `C103_separate_never`: -; `C103_separate_refuted`: D |
| C104 | `C104_submesh`: -; `C104_first_partial`: -; `C104_components_refuted`: - |
| C105 | `C105_vector_diffusion`: D F; `C105_normal_flux`: D F; `C105_refused`: D F; `C105_unit_coefficient_refuted`: D F |
| C106 | `C106_diffusion`: D F; `C106_vector_diffusion`: D F; `C106_elasticity`: D F; `C106_symmetric`: D F; `C106_nonnegative`: D F; `C106_consistent`: D F; `C106_constants`: D F; `C106_either_side`: D F |
| C107 | `C107_matrix`: D F; `C107_consistent`: D F |
| C108 | `C108_interface`: D F; `C108_boundary`: D F; `C108_stress`: D F |
| C109 | `C109_faces`: -; `C109_short_marker`: - |
| C110 | `C110_temam`: D F; `C110_friedrichs_square`: D F; `C110_friedrichs_refuted`: D F |
| C111 | `C111_poisson`: D F; `C111_stokes`: D F; `C111_elasticity`: D F; `C111_elasticity_projection`: D F; `C111_elasticity_refuted`: D F; `C111_components_refuted`: D |
| C112 | `C112_operator`: D F; `C112_built`: D; `C112_functions`: D |
| C113 | `C113_computed`: D; `C113_stored`: D; `C113_roundtrip`: D; `C113_parameters_refuted`: D F; `C113_converged_refuted`: D |
| C114 | `C114_alive`: D; `C114_stale_refuted`: D; `C114_leak_refuted`: D |
| C115 | `C115_fresh`: D; `C115_solved`: D |
| C116 | `C116_flow`: D; `C116_skipped_refuted`: D; `C116_override_refuted`: D |
| C117 | `C117_full`: D F; `C117_reduced`: D F; `C117_exact`: D F; `C117_trained`: D F; `C117_dirichlet_refuted`: D F |
| C118 | `C118_roundtrip`: -; `C118_again`: D; `C118_duplicate`: -; `C118_base_file`: -; `C118_operator_refuted`: D |
| C119 | `C119_subdomains`: -; `C119_interfaces`: -; `C119_attributes`: -; `C119_mode`: - |
| C120 | `C120_same_points`: D F; `C120_not_itself`: D |
| C121 | `C121_transfer`: - |
| C122 | `C122_same_points`: D F N; `C122_placements`: D F N |
| C123 | `C123_misplaced_refuted`: D F N |
| C124 | `C124_loaded`: -; `C124_refused_partial`: -; `C124_missing_file_refuted`: -; `C124_no_nodes_refuted`: -; `C124_one_dimension_refuted`: - |
| C125 | `C125_tensors_follow_names`: -; `C125_missing_component`: - |
| C126 | `C126_never_twice`: -; `C126_all_released`: -; `C126_workflows`: -; `C126_no_handler_refuted`: -; `C126_other_level_refuted`: -; `C126_loaded_again_refuted`: -; `C126_built_without_refuted`: - |
| C127 | `C127_same_name`: -; `C127_other_name_refuted`: - |
| C128 | `C128_frozen`: D F; `C128_constant_partial`: D F; `C128_pulsating_refuted`: D F N |
| C129 | `C129_cfl`: D F; `C129_check_partial`: D F; `C129_unnoticed_refuted`: D F |
| C130 | `C130_initial_partial`: D; `C130_lifetime`: D; `C130_velocity_only_refuted`: D |
| C131 | `C131_iterations`: D F N; `C131_at_rest`: D F N; `C131_solution_refuted`: D F N; `C131_flag_refuted`: D F N |
| C132 | `C132_trained`: D F; `C132_unsampled`: D F; `C132_evaluated`: D F |
| C133 | `C133_solution`: D F N; `C133_converged`: D F N; `C133_restart`: D F N; `C133_linear`: D F N |
| C134 | `C134_solution`: D F N; `C134_restart`: D F N; `C134_preconditioner`: D F N; `C134_preconditioner_refuted`: D F N; `C134_unconverged_refuted`: D F N; `C134_names`: D F N |
| C135 | `C135_positions`: D; `C135_space`: D; `C135_plane_refuted`: D; `C135_guarded`: D; `C135_other_ranks`: D; `C135_empty_refuted`: D |
| C136 | `C136_momentum`: D F; `C136_solution`: D F; `C136_pressure_refuted`: D F |
| C137 | `C137_components`: -; `C137_mismatch`: -; `C137_ports`: -; `C137_description`: -; `C137_unknown`: -; `C137_short_refuted`: D; `C137_short`: -; `C137_dropped_refuted`: D |
| C138 | `C138_parameters`: C D F N; `C138_history`: C D F N; `C138_random`: C D F N; `C138_same_key_refuted`: C D F N; `C138_nested_key_refuted`: C D F N; `C138_beyond_refuted`: C D F N; `C138_paths`: -; `C138_files`: - |
| C139 | `C139_layout`: D F N; `C139_error`: D F N; `C139_zero`: D F N; `C139_scaled`: D F N; `C139_uncompared_refuted`: D F N; `C139_snapshots`: D; `C139_unified_snapshots`: D |
| C140 | `C140_exact`: D F; `C140_unsymmetric`: D; `C140_poisson`: D F; `C140_elasticity`: D F; `C140_velocity`: D F; `C140_flow`: D F; `C140_sigma_refuted`: D F; `C140_reduced`: D F; `C140_reduced_default_refuted`: D F; `C140_projected`: D F; `C140_reduced_poisson`: D F; `C140_reduced_elasticity`: D F; `C140_reduced_stokes`: D F; `C140_alpha_refuted`: D F; `C140_flow_sigma_refuted`: D F |
| C141 | `C141_poisson`: -; `C141_stokes`: D F N; `C141_new`: D; `C141_held_refuted`: D F; `C141_elasticity_refuted`: D F |

## 6. Where the code does not do what the property says

Each row is a property that is false of the faithful model in part; the named theorem exhibits a run.  The notes say what is
proved instead.

| property | refuting theorems | note |
|---|---|---|
| C03 | `C03_out_of_grid_rejected_refuted`, `C03_linear_index_rejected_refuted` | False of the code: multi-index [0,5] on a 2x3 grid is accepted and aliases [1,2]; linear index 7 of 6 is accepted. The partial theorem states what is checked. |
| C04 | `C04_multi_process_termination_refuted` | Holds for one process (all solver answers). False for two or more processes: `continue` at src/main_workflow.cpp:157 does not advance s, so no rank finishes. |
| C06 | `C06_integer_reaches_maximum_refuted`, `C06_maximum_size_refuted` | False: truncating division misses the maximum (0..10 with 4 samples ends at 9) and SetMaximumSize always leaves an integer unvisited; partial theorem gives the divisibility condition, distinctness and the size of the gap. |
| C08 | `C08_printed_name_identifies_refuted` | False in general ('a_vel'+'' vs 'a'+'vel'); holds when component names have no '_', and within one run (all tags separated by variable or none, variable names without '_'). |
| C12 | `C12_absent_gives_fallback_refuted`, `C12_read_does_not_modify_refuted`, `C12_array_roundtrip_refuted` | Set/get and the frame condition hold. Two clauses are false: an optional read below a scalar throws instead of giving the fallback, and a read below a list or null node converts it to a map; an empty list cannot be read back. yaml-cpp behaviour (operator[], conversions) is modelled from its documentation. |
| C13 | `C13_empty_value_stops_refuted`, `C13_empty_key_rejected_refuted` | Left-to-right application, last wins, malformed items stop. False clauses: 'a==' (empty value) is accepted; '=b' (empty key) replaces the whole configuration. YAML parsing of a value is a parameter. |
| C16 | `C16_empty_refuted` | Every non-empty size, including the row-major layout of the file. Refuted for empty matrices, tensors and 2D arrays (entry (0,0) is read to find the element type). HDF5 itself is modelled as named datasets; element conversion is not modelled. |
| C18 | `C18_csr_round_trip_refuted` | False: whenever there are fewer entries than rows+1 the row-pointer buffer overflows. Partial theorem covers the remaining matrices. libROM's HDFDatabase is modelled from its documentation. |
| C22 | `C22_internal_boundary_refuted` | Holds for shared faces that carry no boundary element of the parent mesh; a shared face that carries one gets no port (refuted). Mesh splitting itself is MFEM's. |
| C28 | `C28_range_larger_than_block_refuted` | Proved for ranges inside target and block; anything outside of the target is rejected. False as stated in one respect: a range larger than the block is accepted (next row or out-of-bounds read), see the refuted theorem. |
| C29 | `C29_empty_selection_refuted` | Proved for non-empty selections (repetitions and any order allowed) and at least one column; the empty selection reads element 0 of an empty array (refuted). |
| C30 | `C30_target_of_other_size_refuted` | All variants proved: dense, sparse, weighted, selected rows, ComputeCtAB. Weights exist only in AddwRtAP. Dense selected-rows target of a different size keeps stale numbers (refuted). |
| C32 | `C32_middle_index_refuted` | False of the code (pointer into x is not advanced); true for vectors with equal entries. |
| C34 | `C34_default_variable_refuted` | Bijection, inverse and order proved for all sizes and both orderings; refuted for the default argument: omitting the variable aborts. |
| C38 | `C38_variable_ordering_refuted`, `C38_reference_missing_operator_refuted` | Proved for the domain-first ordering or non-separate variables (partial) and for the reference versions; refuted for the variable-first ordering, and for missing operators in the reference versions. |
| C39 | `C39_load_over_operator_refuted` | Proved for sequences that load at most once and first; refuted otherwise: loading over an existing operator frees it twice. |
| C45 | `C45_save_step_refuted` | Saving without a step proved to save exactly the selected subdomains. Saving a step proved only if all subdomains are selected; refuted otherwise: a null collection is used. |
| C47 | `C47_timed_refuted` | Proved with saving on and a file name given; refuted with saving off or with the default name: the program stops. |
| C49 | `C49_mixed_vector_refuted` | Sparse matrices are modelled by their values; integrators, finite element spaces and meshes are parameters. Applying a mixed form is an empty function in the code, shown as a refutation. |
| C53 | `C53_shared_refuted`, `C53_interface_load_refuted` | Proved for reference forms and interface forms. Forms that borrow samples: safe if the reference forms are not updated or deleted afterwards (partial); otherwise refuted. Reading samples for a non-existing interface integrator is out of bounds (refuted). |
| C54 | `C54_wind_refuted`, `C54_stale_refuted`, `C54_offset_refuted` | Proved: the vector for domain, interior face and boundary face samples of a form, the gradient when the flux is differentiable and no two-sided face follows a one-sided use, and the port vectors when the variable starts at row zero of the bases; the interface gradient is proved per point. Refuted: a given wind is ignored by the precomputed convection, the gradient on a two-sided face depends on the last use of the integrator, and port precomputation ignores the row offset of the variable. |
| C55 | `C55_wind_refuted`, `C55_at_rest_refuted` | Exact for convection (without a given wind), inviscid flux, Temam element/face/interface (with the exact quadratic remainder) and Lax-Friedrichs face, boundary and interface wherever the two speeds differ or the velocities agree and do not vanish. False with a given wind (the matrix ignores it) and, for Lax-Friedrichs, at rest: the derivative is zero there but the assembled matrix is not a number. |
| C56 | `C56_restart_refuted` | Restart is proved for the initial file and for every saved step at which visualization is due (every step with the default interval); in other steps the file holds an older solution (refuted). C56_files gives the exact content of every restart file. |
| C58 | `C58_pattern_refuted` | Operator values, exact quadratic expansion and derivative of the tensor ROM for every layout, and that the linear matrix must store each entry with a nonzero convective derivative. Refuted without that: the Jacobian is accumulated in the finalized pattern of the linear matrix, and the run aborts on an entry that is not stored. |
| C59 | `C59_variable_refuted` | Values and gradient of the hyper-reduced ROM for one basis per subdomain, for the ordering by subdomain, and in general whenever block 2m is as large as the velocity of subdomain m. Refuted for the ordering by variable with other sizes: the offsets of the interface form are taken from every other block. |
| C60 | `C60_reduced_refuted` | Proved for full-order runs, and for reduced runs whose pressure bases are orthonormal and contain the constant (C60_reduced). Refuted for other reduced bases (C60_reduced_refuted): the reduced run leaves a pressure with a nonzero sum. |
| C61 | `C61_refuted`, `C61_order_refuted` | Proved when the problem's boundary list and the mesh's agree in order (or the problem has one entry for all). Refuted otherwise: a write behind the end of the list (lid driven cavity on a mesh with four boundaries) and the wrong boundary left out (component flow on a mesh with another order). |
| C62 | `C62_refuted` | Proved after setting any problem, and after any sequence of calls of which one concerns a boundary of the mesh. Refuted for solvers on which no effective call was made. |
| C64 | `C64_index_refuted`, `C64_cantilever_refuted`, `C64_train_refuted` | For all 17 problem classes and every sequence of settings: which sequences are accepted, unknown names stop the program, by-index equals by-name, and the functions handed to the solver are the documented formulas in the last values set. Refuted: by-index on elasticity problems is undefined (parameter count never set); the cantilever's fixed end and the train's sides with switches off do not depend on the parameters alone. |
| C65 | `C65_fresh_refuted` | Proved for every sequence of settings with at least one setting; refuted for a problem on which no parameter was set yet (all four sides Dirichlet). |
| C66 | `C66_poisson_refuted`, `C66_stokes_refuted`, `C66_stokes_nan_refuted`, `C66_linelast_refuted`, `C66_linelast_traction_refuted` | Poisson and flow: right-hand side, boundary functions, viscosity, pressure treatment and enforced conditions are those of the last problem, for every history, provided the problem is accepted on a new solver. Elasticity: types, material and given functions are replaced. Refuted: stale natural types with problems for all boundaries, order-dependent acceptance of flow problems, a stale centre that is not a number, loads that add up, tractions that stay. |
| C68 | `C68_advdiff_refuted` | Exactly one tag per component and variable, component-major, for every configuration; distinct as printed and covering every tag of a topology. Refuted: with separate variable bases the advection-diffusion solver is accepted by the driver but has no variables here, so the run aborts. |
| C69 | `C69_beyond_refuted` | Monotone fraction, 1 at full size, for sizes up to the number of singular values. Refuted beyond: a larger basis size reports coverage 0. |
| C71 | `C71_short_arrays_refuted` | False: the arrays' lengths are not compared. |
| C72 | `C72_unknown_component_refuted` | False: comp_name2idx[name] inserts index 0. |
| C73 | `C73_fitting_port_refuted` | False: the greedy search may take a vertex another one needs; true when port vertices are at least two tolerances apart. |
| C75 | `C75_rotation_applied_refuted` | False in three dimensions; in two dimensions the images of points on the axes are stated. |
| C76 | `C76_unknown_type_refuted` | False: any out-of-range type is an out-of-range access. |
| C78 | `C78_skew_basis_refuted` | False of the code: one sweep of projections does not suffice for a skew basis. |
| C79 | `C79_overrun_refuted` | Descent proved for every objective. Memory safety: exact criterion proved, and an overrun exhibited (objective non-increasing along the direction). |
| C80 | `C80_reload_after_append_refuted` | Loading and immediate reloading proved; refuted after appending: the vectors are dropped, their number is not. |
| C82 | `C82_leaks_refuted` | Proved for at most one solve (and one operator with the direct solver); refuted otherwise. |
| C84 | `C84_elements_refuted` | Proved for components with a boundary and distinct port names; refuted otherwise: a component without boundary is saved but stops the program when loaded; component names with ':' can make two port names equal, which stops the program. |
| C85 | `C85_set_operator_refuted` | False of the code: SetOperator keeps the inverses and layout of the old matrix (and a default-built smoother has no blocks). Proved for matrices with the same diagonal blocks. |
| C91 | `C91_corner_refuted` | C91_operator and C91_tangent cover the operators the solver builds (no lower right block). C91_corner_refuted shows that with such a block the operator applies it but the gradient leaves it out. |
| C94 | `C94_flat_refuted`, `C94_unset_refuted`, `C94_order_refuted` | Proved for every geometry when the lists agree in order: acceptance implies balance, the component flow correction is exact, open problems are not corrected. Velocities that are not numbers are modelled as None. Refuted: flat inflow sides (0/0 passes the check), unset centre in the first open problem of a run, net flux accepted when the lists differ in order. |
| C95 | `C95_linelast_refuted`, `C95_linelast_zero_refuted` | Proved for Poisson, Stokes and (in full DG mode) elasticity on every mesh. Refuted: elasticity without full DG puts the displacement only into the right-hand side, and its zero-type boundaries are left free. |
| C98 | `C98_equations_refuted`, `C98_forms_refuted` | Proved: the run, the assembled matrices, the equations of each step (when the pressure is shifted, under the condition that shifting changes no equation), the orthogonality of the full-order residual. Refuted: without that condition the shift violates the momentum equation (C98_equations_refuted); with the tensor treatment of the nonlinear term the run reads absent data (C98_forms_refuted). |
| C100 | `C100_built_refuted`, `C100_refused_refuted` | Proved for linear solvers and for steady flow with tensors and the base flux; refuted in general: hyper-reduced steady flow with no saved elements builds but can never run (C100_built_refuted), and the Lax-Friedrichs flux on submeshes reads component spaces that do not exist (C100_refused_refuted). |
| C101 | `C101_system_refuted`, `C101_reduced_refuted` | Proved, except that asking a full-order run to save the reduced system uses an absent handler (C101_system_refuted) and asking for the reduced full-order solution with one basis for both variables stops the run (C101_reduced_refuted). |
| C102 | `C102_too_many_refuted`, `C102_other_velocity_refuted` | Two parts are false of the code: a number of supremizers above the number of pressure vectors reads beyond the pressure basis (C102_too_many_refuted), and supremizers trained for fewer velocity vectors are accepted although the enriched basis is not orthonormal (C102_other_velocity_refuted). All else is proved. |
| C103 | `C103_separate_refuted` | Proved for a basis shared by the variables. False for separate bases: the run never succeeds (C103_separate_never) and reads beyond the velocity basis (C103_separate_refuted). |
| C104 | `C104_components_refuted` | Proved for split meshes. With components only as many subdomains as there are components are looked at, and with more components than subdomains the list of meshes is left (C104_components_refuted). |
| C105 | `C105_unit_coefficient_refuted` | Proved for vector diffusion and normal flux. C105_unit_coefficient_refuted: the constructors that take no coefficient leave the coefficient pointer empty, and integrating then dereferences it. |
| C110 | `C110_friedrichs_refuted` | The Temam data are the integral. C110_friedrichs_refuted: the Lax-Friedrichs data carry the face weight twice, so they grow with its square (C110_friedrichs_square). |
| C111 | `C111_elasticity_refuted`, `C111_components_refuted` | proved for the Poisson and Stokes solvers, and for elasticity with the full DG form, displacement or traction conditions and no more components than subdomains; without the full DG form (the default) the elasticity elements add boundary terms that the full-order matrix lacks, and components that outnumber the subdomains index the Lame coefficients out of range (witnesses) |
| C113 | `C113_parameters_refuted`, `C113_converged_refuted` | C113_parameters_refuted: with save_flow and load_flow both on, the flow of the first problem is saved and then loaded for every later set of parameters (the file is not tied to parameters). C113_converged_refuted: the result of the Stokes solve is not looked at, an unconverged flow is saved and used. |
| C114 | `C114_stale_refuted`, `C114_leak_refuted` | C114_stale_refuted: setting the next problem deletes the coefficients the operators of the previous one refer to; assembling again without building is undefined. C114_leak_refuted: a Stokes solver replaced by the next one, and a function replaced by another, are never deleted. |
| C116 | `C116_skipped_refuted`, `C116_override_refuted` | C116_skipped_refuted: domain_offset/domain_interval leave some collections uncreated, the advection-diffusion solver asserts that all exist although saving them would work. C116_override_refuted: a function given after a flow was obtained is used, but the old flow is drawn. |
| C117 | `C117_dirichlet_refuted` | The last claim holds where every boundary is open or a wall (C117_trained). It fails where a velocity is given (C117_dirichlet_refuted): the rule used there was trained on the integrand without data. |
| C118 | `C118_operator_refuted` | The last claim holds for files of the convective operator (C118_base_file). A file of the flux operator is accepted by the convective operator, whose integrand then uses the rule of another integrand (C118_operator_refuted). |
| C123 | `C123_misplaced_refuted` | False: nothing compares the two tables. |
| C124 | `C124_missing_file_refuted`, `C124_no_nodes_refuted`, `C124_one_dimension_refuted` | Missing meshes, meshes without nodes and one-dimensional meshes end in the use of a null pointer (C124_*_refuted); what is accepted is right (C124_loaded) and different nodes are refused (C124_refused_partial). |
| C126 | `C126_no_handler_refuted`, `C126_other_level_refuted`, `C126_loaded_again_refuted`, `C126_built_without_refuted` | Proved: no double release for any sequence of calls as long as elements are assembled only at the component level; complete release if each member is set at most once, which the workflows do. Refuted in general: null handler in the destructor when use_rom is set but InitROMHandler was not called; double free when elements are assembled at the global level; leak when elements are loaded twice or when use_rom is off. |
| C127 | `C127_other_name_refuted` | Proved when nothing else is saved in between. Refuted: the tensors go to the file of the configured prefix whatever name is given, so saving under a second name replaces the tensors of the first. |
| C128 | `C128_pulsating_refuted` | The statement is false of the code: the right-hand side is assembled once, before the run (stokes_solver.cpp:372-394), and SetTime (unsteady_ns_solver.cpp:390-401) only turns the clocks. C128_frozen says exactly what is computed; C128_pulsating_refuted is the counterexample; C128_constant_partial holds when the data do not vary. |
| C129 | `C129_unnoticed_refuted` | The CFL part is proved. The NaN check looks at Min and Max, which start from the first entry and compare; MFEM's serial reductions are modelled from knowledge of MFEM (its source is not in the repository). |
| C130 | `C130_velocity_only_refuted` | False for a problem that gives only the initial velocity (ic_ptr of size one is ignored); proved otherwise. |
| C131 | `C131_solution_refuted`, `C131_flag_refuted` | Proved for runs that return: descent of the objective, clamped conjugate directions, first iterate that meets a tolerance, and the flag if it was down before. Refuted: a run that starts at a point with zero gradient (the solution, for one) divides by zero and its line search overruns its record; the flag is never lowered, so a second run of the same optimizer that has not converged still says it has. |
| C134 | `C134_preconditioner_refuted`, `C134_unconverged_refuted` | Proved for Newton's iteration: start, stopping rule, lift, restart (C134_solution, C134_restart). Refuted: with any preconditioner configured the steady flow solver never gives a reduced result, because it passes none and NonlinearSolve asserts there is one (C134_preconditioner, C134_preconditioner_refuted); a solve that used all its iterations returns like a converged one, nothing tells the caller (C134_unconverged_refuted). The iterations of the other solver, cg, are those of C131, which is undefined when restarted at a solution (C131_at_rest). |
| C135 | `C135_plane_refuted`, `C135_empty_refuted` | Proved: number, order and coordinates of the tables, no other tables, who writes and when, independence of the memory in space. Refuted: in the plane the third column is uninitialised memory (the local array x[3] is only set in its first two entries, all three are written); a rule without samples dereferences a null matrix instead of giving an empty table. |
| C136 | `C136_pressure_refuted` | Proved: momentum to the tolerance of the velocity solver for any pressure solver; both equations, the mean of the pressures and the defect of incompatible data for exact inner solvers. Refuted: the convergence of the pressure solve is not checked (the check is commented out), so a run can return a state that violates the divergence equations. The iterative solvers and the multigrid preconditioner of MFEM and Hypre are functions with assumed soundness; floating point is not modelled. |
| C137 | `C137_short_refuted`, `C137_dropped_refuted` | Proved: the contents of all lists and descriptions, the numbering, the construction from descriptions, the refusal of unequal numbers of types and places. Refuted: the numbers of columns are not checked, so a table of places with fewer than six columns is read past its end (shown for all such files); ports are dropped silently if the file lists no reference ports. Strings are assumed to be stored faithfully and a description to pass through its YAML node unchanged. |
| C138 | `C138_same_key_refuted`, `C138_nested_key_refuted`, `C138_beyond_refuted` | Proved for parameters that name separate options. Refuted: two parameters naming the same option are accepted and grid points become the same computation (C138_same_key_refuted); nested options stop the program at the second sample only (C138_nested_key_refuted); indices beyond the last sample are accepted (C138_beyond_refuted). Texts of numbers and snprintf are parameters of the model; what the solver of a sample does to the configuration is not modelled. |
| C139 | `C139_uncompared_refuted` | partial: with visualize_error but without a comparison (and always while generating samples) the error fields saved are uninitialised memory (C139_uncompared_refuted). ComputeLpError is external and taken as the quadrature sum it documents; a solution with zero norm is excluded (the quotient is 0/0). |
| C140 | `C140_sigma_refuted`, `C140_reduced_default_refuted`, `C140_alpha_refuted`, `C140_flow_sigma_refuted` | partial: with any discretization/interface/sigma (alpha) other than -1 the Poisson, elasticity and Stokes matrices are unsymmetric but still declared symmetric, and the direct solve silently solves another system (C140_sigma_refuted, C140_alpha_refuted, C140_flow_sigma_refuted, for all parameters and penalties); reduced systems are declared spd by default, also those of advection-diffusion and Navier-Stokes (C140_reduced_default_refuted), while projections of symmetric systems are solved exactly (C140_projected and its instances). MUMPS is external: assumed to read the lower triangle of matrices declared symmetric and to solve what it reads; pivoting of indefinite matrices declared positive definite is not modelled. |
| C141 | `C141_held_refuted`, `C141_elasticity_refuted` | partial: the Poisson and flow solvers warn exactly when no Dirichlet condition is imposed (C141_poisson, C141_stokes), under the hypotheses of C95 and when every boundary is on some subdomain; a problem for all boundaries set after one whose boundaries are natural imposes nothing and gives no warning (C141_held_refuted, a consequence of C66); the elasticity solver never warns (C141_elasticity_refuted). Printing is not modelled: a warning is a value. |

Properties that are `partial` for another reason (`_partial` theorems):


Seen while reading, outside the stated properties: `ROMLinearElement`'s destructor does not delete `mass`; copying `MatrixBlocks` leads to a
double free; `ReadBoundariesFromFile` leaks its map; the result of `ComponentBdrAttrCheck` is ignored; when a component file lists one
name twice, the mesh read first is overwritten and never deleted (component_topology_handler.cpp:131); subdomain attributes with gaps give
empty submeshes (`SplitExamples.sx_gap`); `TrainEQP` leaks the sample generator; `if (pres_dbc) delete ortho_p_prec` is inverted;
`AdvDiffSolver::GetFlowField` leaks; so does `MultiBlockSolver::SolveROM` its view of the solution; `delete romMat_hypre, mumps;`
(rom_handler.cpp:1053) deletes only the first.

## 7. Mutation tests

`seeded/LOG.jsonl` holds 1253 attempts: a realistic bug is put into one definition in a scratch copy and the theorems are
re-proved with their own scripts; the theorems whose proofs break are listed.  10 attempts survived at first and led to a
tightened or additional theorem, named in the line.  Attempts per model: AdvModel 38, AsmModel 24, BcModel 52, BupModel 35, BvisModel 19, CfgfModel 21, CgoModel 21, ClkModel 26, CmprModel 19, CompModel 33, ConfigModel 4, DgModel 54, DirModel 21, DriveModel 48, EqcModel 19, EqpItfModel 11, EqpModel 32, EqpOwnModel 12, HdfModel 12, IntegFastItfModel 3, IntegFastModel 29, IntegModel 39, ItfModel 26, ItrModel 28, LinalgModel 40, MbModel 41, NeqModel 60, NsModel 26, NsTensorModel 24, ProbModel 67, ProfilerModel 4, RomModel 40, SamplingModel 11, SchurModel 14, SmoothModel 16, SnapshotModel 6, SparModel 21, SplitModel 36, StdyModel 28, SupModel 28, TagsModel 4, TenModel 30, TopoModel 13, UnsteadyModel 35, UromModel 35, WorkModel 48.
