{"id": "C01", "title": "Local DOF numbers are a bijection with (entity, slot) pairs", "statement": "After a function space is created, the numbers 0..local_size()-1 are each listed by get_local_dof_numbers for exactly one (dimension, entity) and at exactly one position; no listed number is >= local_size().", "quantifier": "every well-formed triangle/quadrilateral grid, every element family whose reference elements partition their DOFs over sub-entities, every rank", "why_tests_cant": "A test fixes a grid and an element; the numbering depends on the order in which arbitrary cells meet arbitrary shared entities.", "anchors": ["src/function.rs:assign_dofs", "src/function.rs:FunctionSpaceTrait::get_local_dof_numbers", "src/function.rs:FunctionSpaceTrait::local_size"]}
{"id": "C02", "title": "cell_dofs lists one distinct in-range DOF per basis function", "statement": "For every cell, cell_dofs returns exactly element.dim() numbers, all < local_size(), pairwise distinct; no slot keeps its initial placeholder value by accident.", "quantifier": "every well-formed grid, every element family with a DOF partition, every cell", "why_tests_cant": "Placeholders (0) coincide with a legitimate DOF number, so a missed slot is invisible on most grids.", "anchors": ["src/function.rs:assign_dofs", "src/function.rs:FunctionSpaceTrait::cell_dofs"]}
{"id": "C03", "title": "Cells see the same DOFs on a shared entity, and share nothing else", "statement": "If two cells contain the same vertex/edge, the DOFs each sees on it through cell_dofs are the DOFs of that entity (get_local_dof_numbers); conversely a DOF number that appears in the cell_dofs of two cells belongs to an entity contained in both.", "quantifier": "every well-formed grid and element family, every pair of cells", "why_tests_cant": "Ranges over all pairs of cells in all grids.", "anchors": ["src/function.rs:assign_dofs", "src/function.rs:FunctionSpaceTrait::cell_dofs", "src/function.rs:FunctionSpaceTrait::get_local_dof_numbers"]}
{"id": "C04", "title": "Discontinuous spaces never couple cells", "statement": "With an element that puts all its DOFs on the cell interior, different cells have disjoint cell_dofs and local_size() = sum of element dimensions over the cells.", "quantifier": "every well-formed grid, every element family with interior DOFs only", "why_tests_cant": "Ranges over all grids and degrees.", "anchors": ["src/function.rs:assign_dofs"]}
{"id": "C05", "title": "Space dimension is the sum of per-entity DOF counts", "statement": "local_size() equals the sum over mesh entities that belong to at least one cell of the number of DOFs the element puts on that entity (number of vertices for P1, vertices plus edges for P2 on triangles, number of cells for DP0).", "quantifier": "every well-formed grid and element family", "why_tests_cant": "Counts on a few meshes do not exclude double counting on others.", "anchors": ["src/function.rs:assign_dofs", "src/function.rs:FunctionSpaceTrait::local_size"]}
{"id": "C06", "title": "cell_dofs is total exactly on the cells of the grid", "statement": "cell_dofs(c) is Some exactly when c is the local index of a cell, and None for every other number; building the DOF map of a well-formed grid of topological dimension <= 2 never panics, and for topological dimension > 2 it always panics.", "quantifier": "every number c, every grid", "why_tests_cant": "Ranges over all indices and grids.", "anchors": ["src/function.rs:FunctionSpaceTrait::cell_dofs", "src/function.rs:assign_dofs"]}
{"id": "C07", "title": "A shared edge DOF is the same geometric point in both cells", "statement": "When two cells share an edge, the position along the edge of the k-th DOF of that edge is the same whichever of the two cells is used to interpret it, so functions in a continuous space are single valued on edges.", "quantifier": "every pair of cells sharing an edge, every number of DOFs per edge", "why_tests_cant": "Needs a mesh in which two neighbours run along the edge in opposite reference directions and a degree >= 3; the repository tests stop at degree 2.", "anchors": ["src/function.rs:assign_dofs (zip of e_dofs with edofs_d[e])", "src/shapes.rs:screen_triangles"]}
{"id": "C08", "title": "Global DOF numbers of owned DOFs form a bijection with 0..global_size", "statement": "Across all processes, the DOFs whose ownership() is Owned receive the global numbers 0..global_size()-1, each exactly once, in contiguous increasing blocks by rank.", "quantifier": "every number of processes, every consistent distributed grid, every message schedule", "why_tests_cant": "Ranges over process counts, partitions and interleavings.", "anchors": ["src/function.rs:FunctionSpace::new", "src/function.rs:FunctionSpaceTrait::global_dof_index", "src/function.rs:FunctionSpaceTrait::ownership"]}
{"id": "C09", "title": "Ghost DOFs agree with their owner", "statement": "If ownership(i) on a process is Ghost(p,l) then p is another process, l is the local number of that same DOF on p, p owns it, and global_dof_index(i) here equals global_dof_index(l) on p.", "quantifier": "every process, every ghost DOF, every consistent distributed grid", "why_tests_cant": "Ranges over partitions and message schedules.", "anchors": ["src/function.rs:FunctionSpace::new"]}
{"id": "C10", "title": "All processes agree on global_size", "statement": "global_size() is the same number on all processes and equals the number of DOFs owned over all processes; a DOF is Owned exactly on the process that owns its entity.", "quantifier": "every number of processes, every consistent distributed grid", "why_tests_cant": "Ranges over process counts and partitions.", "anchors": ["src/function.rs:FunctionSpace::new", "src/function.rs:FunctionSpaceTrait::global_size"]}
{"id": "C11", "title": "On one process the numbering is the identity", "statement": "With a single process, is_serial() holds, global_size() = local_size(), global_dof_index(i) = i and ownership(i) = Owned for all i, and no message is exchanged.", "quantifier": "every grid and element family on one process", "why_tests_cant": "Ranges over all grids.", "anchors": ["src/function.rs:FunctionSpace::new", "src/function.rs:FunctionSpaceTrait::is_serial"]}
{"id": "C12", "title": "Creating a distributed space terminates with the same result in every schedule (buffering MPI)", "statement": "If sends complete without waiting for the receiver, then in every interleaving no process blocks for ever, every receive gets the message intended for it, and every process ends with the same space in all schedules.", "quantifier": "every number of processes, every consistent distributed grid, every interleaving of the processes", "why_tests_cant": "The set of interleavings is unbounded.", "anchors": ["src/function.rs:FunctionSpace::new"]}
{"id": "C13", "title": "Creating a distributed space does not rely on message buffering", "statement": "FunctionSpace::new completes on an MPI implementation whose standard sends wait for the matching receive (which the MPI standard permits).", "quantifier": "every number of processes, every schedule with synchronous sends", "why_tests_cant": "Test messages are small enough to be buffered eagerly.", "anchors": ["src/function.rs:FunctionSpace::new (WaitGuard dropped immediately: lines 173-207)"]}
{"id": "C14", "title": "Cell colouring is a partition of the cells by type", "statement": "cell_colouring() has an entry for every cell type of the grid; every cell is in exactly one colour class, in the entry of its own type, exactly once; the entries of all types have the same number of classes.", "quantifier": "every well-formed grid and element family", "why_tests_cant": "Ranges over all grids.", "anchors": ["src/function.rs:FunctionSpaceTrait::cell_colouring"]}
{"id": "C15", "title": "Cells of one colour share no DOF", "statement": "Two different cells in the same colour class (also in the classes of two different types with the same number) share no mesh entity that carries DOFs, hence have disjoint cell_dofs.", "quantifier": "every well-formed grid and element family, every pair of cells", "why_tests_cant": "A violation only shows as a rare data race in parallel assembly.", "anchors": ["src/function.rs:FunctionSpaceTrait::cell_colouring"]}
{"id": "C16", "title": "Colouring uses at most one colour more than the largest number of conflicting cells", "statement": "The number of colour classes is at most 1 + the largest number of other cells any cell conflicts with; a space with interior DOFs only gets exactly one class; every class is non-empty for some type.", "quantifier": "every well-formed grid and element family", "why_tests_cant": "Ranges over all grids.", "anchors": ["src/function.rs:FunctionSpaceTrait::cell_colouring"]}
{"id": "C17", "title": "Options read back what was last set, and nothing else changes", "statement": "After any sequence of setter calls, each getter returns the value of the last setter call for exactly that key (or the documented default if none), for the supported cell types and pairs.", "quantifier": "every history of setter calls, every supported key", "why_tests_cant": "Ranges over all call histories.", "anchors": ["src/boundary_assemblers.rs:BoundaryAssemblerOptions"]}
{"id": "C18", "title": "Setting a quadrature degree takes effect for every cell type", "statement": "After set_regular_quadrature_degree(t, n), get_regular_quadrature_degree(t) returns Some(n) for every reference cell type t (same for the singular degrees).", "quantifier": "every cell type, every history", "why_tests_cant": "Tests only use triangles and quadrilaterals.", "anchors": ["src/boundary_assemblers.rs:BoundaryAssemblerOptions::set_regular_quadrature_degree (entry().and_modify)"]}
{"id": "C19", "title": "Batches tile the work for every positive batch size", "statement": "For every positive batch size the batches are non-empty, no larger than the batch size, and their concatenation in order is the original list; the arithmetic never overflows a 64-bit usize for lists that fit in memory, even for batch_size = usize::MAX.", "quantifier": "every list of cells or cell pairs, every positive batch size", "why_tests_cant": "Ranges over all lengths and batch sizes.", "anchors": ["src/boundary_assemblers.rs:make_cell_blocks", "src/boundary_assemblers.rs:assemble_nonsingular_part (471-491)", "src/boundary_assemblers.rs:BoundaryAssemblerOptions::set_batch_size"]}
{"id": "C20", "title": "Assembly terminates for every batch size the options accept", "statement": "set_batch_size accepts any usize, and assembly then terminates.", "quantifier": "every batch size", "why_tests_cant": "A hang is not an assertion failure; the repository only uses 128.", "anchors": ["src/boundary_assemblers.rs:make_cell_blocks (596-603)", "src/boundary_assemblers.rs:assemble_nonsingular_part (471-491)", "src/boundary_assemblers.rs:BoundaryAssemblerOptions::set_batch_size"]}
{"id": "C21", "title": "The assembled matrices do not depend on the batch size", "statement": "For two positive batch sizes, the list of singular triplets is identical element by element, and the dense matrix is identical entry by entry even with non-associative (floating point) addition.", "quantifier": "every pair of positive batch sizes, every addition operation; every pair of spaces on one conforming grid (singular part), every pair of serial spaces on grids with the same single cell type (dense matrix)", "why_tests_cant": "Ranges over batch sizes and grids.", "anchors": ["src/boundary_assemblers.rs:assemble_singular_part", "src/boundary_assemblers.rs:assemble_nonsingular_part"]}
{"id": "C22", "title": "Singular assembly visits every touching pair of cells exactly once", "statement": "The singular part treats each ordered pair (test cell, trial cell) with an owned test cell and at least one common vertex exactly once, and no other pair.", "quantifier": "every well-formed grid, every vertex numbering", "why_tests_cant": "Ranges over all meshes and numberings.", "anchors": ["src/boundary_assemblers.rs:make_cell_blocks", "src/boundary_assemblers.rs:get_pairs_if_smallest"]}
{"id": "C23", "title": "Every touching pair gets the quadrature rule of its own adjacency", "statement": "On a conforming grid the rule used for a pair of cells is the rule for exactly the cell types of the pair and exactly the local vertex numbers that coincide, with the test points and tables on the test side; the look-up never fails.", "quantifier": "every conforming grid of triangles and quadrilaterals, every touching pair", "why_tests_cant": "Ranges over all relative orientations of neighbouring cells.", "anchors": ["src/boundary_assemblers.rs:assemble_singular_part (259-362)", "src/boundary_assemblers.rs:get_singular_quadrature_rule", "src/boundary_assemblers.rs:get_pairs_if_smallest"]}
{"id": "C24", "title": "Singular assembly does not panic on any grid accepted by the grid builder", "statement": "assemble_singular returns for every grid of triangles or quadrilaterals, conforming or not.", "quantifier": "every grid", "why_tests_cant": "Tests use conforming grids only.", "anchors": ["src/boundary_assemblers.rs:assemble_singular_part (357: pair_indices[..])"]}
{"id": "C25", "title": "Sparse assembly is independent of the thread schedule, bit for bit", "statement": "The rows, cols and data produced by the parallel reduction are the same lists for every way rayon splits and joins the work, and rows, cols and data always have equal length.", "quantifier": "every reduction tree, every list of blocks", "why_tests_cant": "Schedules cannot be enumerated by tests.", "anchors": ["src/boundary_assemblers.rs:assemble_singular_part (364-392)", "src/boundary_assemblers/helpers.rs:SparseMatrixData::add"]}
{"id": "C26", "title": "Singular triplets are inside the matrix and fill the reserved capacity exactly", "statement": "All row indices are < test_space.global_size(), all column indices < trial_space.global_size(); each batch pushes exactly pairs * dim(test) * dim(trial) triplets, the capacity reserved for it.", "quantifier": "every grid, every pair of spaces on it", "why_tests_cant": "Ranges over all grids and spaces.", "anchors": ["src/boundary_assemblers.rs:assemble_batch_singular", "src/boundary_assemblers/helpers.rs:SparseMatrixData::new_known_size"]}
{"id": "C27", "title": "assemble_singular returns the singular part of the operator", "statement": "The matrix returned by assemble_singular is the matrix of all singular contributions, whatever their size.", "quantifier": "every grid and every scaling of it", "why_tests_cant": "Needs a grid so small that all entries are below an absolute threshold.", "anchors": ["src/boundary_assemblers.rs:assemble_singular (130-145)"]}
{"id": "C28", "title": "Spaces on different grids have no singular part", "statement": "If the two spaces are defined on different grid objects, assemble_singular returns an empty matrix of the right shape and every pair of cells is treated by the non-singular rule.", "quantifier": "every pair of spaces on different grids", "why_tests_cant": "Ranges over all pairs of spaces.", "anchors": ["src/boundary_assemblers.rs:assemble_singular_part (240-243)", "src/boundary_assemblers.rs:neighbours", "src/boundary_assemblers/helpers.rs:equal_grids"]}
{"id": "C29", "title": "Distributed singular assembly neither loses nor repeats a pair", "statement": "If every process stores all the cells touching its owned cells, the processes' singular contributions together contain each ordered pair of touching cells exactly once, with the global DOF numbers of the two cells.", "quantifier": "every number of processes, every partition with a vertex-complete ghost layer", "why_tests_cant": "Ranges over partitions.", "anchors": ["src/boundary_assemblers.rs:make_cell_blocks (579)", "src/boundary_assemblers.rs:assemble_batch_singular"]}
{"id": "C30", "title": "Parallel dense assembly is free of data races", "statement": "No two tasks that may run at the same time write (or read) the same entry of the output.", "quantifier": "every grid, batch size, schedule", "why_tests_cant": "Races are schedule dependent.", "anchors": ["src/boundary_assemblers.rs:assemble_nonsingular_part", "src/boundary_assemblers.rs:assemble_batch_nonadjacent (766)", "src/boundary_assemblers/helpers.rs:RawData2D", "src/function.rs:cell_colouring"]}
{"id": "C31", "title": "Dense assembly gives the same bits in every schedule", "statement": "For every interleaving of the individual loads and stores of the parallel tasks the final output equals that of the sequential execution, with no assumption on the addition (so also for floating point).", "quantifier": "every interleaving, every addition operation", "why_tests_cant": "Schedules cannot be enumerated by tests.", "anchors": ["src/boundary_assemblers.rs:assemble_nonsingular_part", "src/boundary_assemblers.rs:assemble_batch_nonadjacent"]}
{"id": "C32", "title": "Every pair of cells contributes exactly once to the dense matrix", "statement": "Entry (i,j) of the assembled matrix is the sum over all pairs of cells and all pairs of basis functions with test DOF i and trial DOF j of the quadrature approximation of the pair: the singular rule if the cells touch, the tensor rule otherwise. Nothing is counted twice or left out.", "quantifier": "every pair of spaces on grids with the same single cell type, every entry, exact arithmetic", "why_tests_cant": "Ranges over all grids and spaces.", "anchors": ["src/boundary_assemblers.rs:assemble_into_memory", "src/boundary_assemblers.rs:assemble_nonsingular_part", "src/boundary_assemblers.rs:assemble_singular_part", "src/boundary_assemblers.rs:neighbours"]}
{"id": "C33", "title": "assemble_into_memory adds to the given memory and rejects bad input before writing", "statement": "assemble_into_memory adds the matrix to the previous contents (column-major), never replaces them; if the length is wrong or a space is distributed it panics before any entry is written. assemble equals assemble_into_memory on zeros.", "quantifier": "every output buffer, every pair of spaces", "why_tests_cant": "Ranges over buffers.", "anchors": ["src/boundary_assemblers.rs:assemble_into_memory", "src/boundary_assemblers.rs:assemble"]}
{"id": "C34", "title": "Unchecked writes stay inside the output", "statement": "Every raw-pointer write during dense assembly is to an index < output.len().", "quantifier": "every grid, every pair of spaces", "why_tests_cant": "An out-of-bounds write may go unnoticed.", "anchors": ["src/boundary_assemblers.rs:assemble_batch_nonadjacent (763-768)", "src/boundary_assemblers.rs:assemble_into_memory (212)"]}
{"id": "C35", "title": "Dense assembly works for spaces on grids with different cell types", "statement": "assemble(trial, test) returns for a test space on a triangle grid and a trial space on a quadrilateral grid (both of the same Rust type, with default options).", "quantifier": "every pair of such spaces", "why_tests_cant": "No repository test mixes cell types.", "anchors": ["src/boundary_assemblers.rs:assemble_nonsingular_part (501-502 against 698-699, 464)"]}
{"id": "C36", "title": "The non-singular local matrix is the tensor quadrature formula", "statement": "After set_trial_cell(s) and set_test_cell(t) with t in the batch, assemble fills local_mat[a,b] with the double sum over test and trial points of integrand * trial_weight * trial_jdet * test_weight * test_jdet for cells t and s, independent of anything assembled before and of the old contents of local_mat.", "quantifier": "every history of set/assemble calls, every batch, every pair of cells", "why_tests_cant": "Caching bugs depend on call history.", "anchors": ["src/boundary_assemblers/cell_pair_assemblers.rs:NonsingularCellPairAssemblerWithTestCaching"]}
{"id": "C37", "title": "The singular local matrix is the pairwise quadrature formula", "statement": "After set_test_cell(t), set_trial_cell(s), assemble fills local_mat[a,b] with the sum over the rule's points of integrand * weight * test_jdet * trial_jdet for cells t and s, independent of anything assembled before.", "quantifier": "every history of set/assemble calls, every pair of cells", "why_tests_cant": "Stale-state bugs depend on call history.", "anchors": ["src/boundary_assemblers/cell_pair_assemblers.rs:SingularCellPairAssembler"]}
{"id": "C38", "title": "Integrands only read tabulated data that exists", "statement": "For all Laplace and Helmholtz operators, the unchecked reads of kernel, table, normal and Jacobian data made by the integrand are inside the arrays allocated for the operator.", "quantifier": "all eight operators, every quadrature point and basis function", "why_tests_cant": "Out-of-bounds unchecked reads may go unnoticed.", "anchors": ["src/boundary_assemblers/integrands.rs:BoundaryIntegrand", "src/laplace.rs", "src/helmholtz.rs", "src/boundary_assemblers/cell_pair_assemblers.rs"]}
{"id": "C39", "title": "Assembly is linear in the integrand", "statement": "Assembling a sum of integrands gives the sum of the matrices and assembling a scalar multiple gives the multiple; in particular the Helmholtz hypersingular matrix is the curl-curl matrix minus k^2 times the normal-normal matrix for every k.", "quantifier": "all integrands, scalars, grids and spaces, exact arithmetic", "why_tests_cant": "Ranges over all operators and meshes.", "anchors": ["src/boundary_assemblers/integrands.rs:BoundaryIntegrandSum", "src/boundary_assemblers/integrands.rs:BoundaryIntegrandTimesScalar", "src/helmholtz.rs:hypersingular"]}
{"id": "C40", "title": "Symmetry relations between operators on non-touching cells", "statement": "For a symmetric kernel and equal test/trial spaces, the non-singular part of the single layer and hypersingular matrices is symmetric, and, for a kernel whose gradient is antisymmetric, that of the adjoint double layer is the transpose of that of the double layer.", "quantifier": "every grid, every space, exact arithmetic", "why_tests_cant": "Ranges over all grids.", "anchors": ["src/boundary_assemblers/integrands/single_layer.rs", "src/boundary_assemblers/integrands/double_layer.rs", "src/boundary_assemblers/integrands/adjoint_double_layer.rs", "src/boundary_assemblers/integrands/hypersingular.rs"]}
{"id": "C41", "title": "The Laplace hypersingular matrix annihilates constants", "statement": "If the basis functions of the trial element sum to a constant (their tabulated derivatives sum to zero), every row of the Laplace hypersingular matrix sums to zero, singular part included, and every row of the Helmholtz hypersingular matrix sums to -k^2 times the sum of that row of its normal-normal part; the same for columns and the test element.", "quantifier": "every grid, every such element, exact arithmetic", "why_tests_cant": "Ranges over all meshes.", "anchors": ["src/laplace.rs:hypersingular", "src/boundary_assemblers/integrands/hypersingular.rs"]}
{"id": "C42", "title": "Regular sphere has the announced number of points and cells", "statement": "regular_sphere(L) adds exactly 2 + 4^(L+1) points and 8 * 4^L cells (so the reserved capacity is exact), with ids 0..n-1, every cell index being an existing point.", "quantifier": "every refinement level", "why_tests_cant": "Tests cover small levels.", "anchors": ["src/shapes.rs:regular_sphere"]}
{"id": "C43", "title": "Regular sphere is a closed oriented surface", "statement": "In regular_sphere(L) every edge of every cell belongs to exactly one other cell, which runs along it in the opposite direction; the three vertices of a cell are different; two different cells never have the same three vertices (the grid is conforming).", "quantifier": "every refinement level", "why_tests_cant": "Ranges over all levels.", "anchors": ["src/shapes.rs:regular_sphere"]}
{"id": "C44", "title": "Regular sphere vertices are on the unit sphere and cells face outwards", "statement": "All points added by regular_sphere(L) have Euclidean norm 1 (the normalisation never divides by 0), and the vertices of every cell are ordered counter-clockwise seen from outside.", "quantifier": "every refinement level, real arithmetic", "why_tests_cant": "Ranges over all levels.", "anchors": ["src/shapes.rs:regular_sphere (79-88)"]}
{"id": "C45", "title": "regular_sphere works for every geometry degree", "statement": "regular_sphere(L, degree) gives each cell the number of points that a triangle of the given degree needs.", "quantifier": "every degree", "why_tests_cant": "The repository tests only use degree 1.", "anchors": ["src/shapes.rs:regular_sphere (25-30, 105-107)"]}
{"id": "C46", "title": "Screen grids cover [0,1]^2", "statement": "The grids created by screen_triangles(n) and screen_quadrilaterals(n) cover the unit square as documented.", "quantifier": "every n > 0", "why_tests_cant": "No test looks at coordinates.", "anchors": ["src/shapes.rs:screen_triangles (137-142)", "src/shapes.rs:screen_quadrilaterals (195-200)"]}
{"id": "C47", "title": "Screen grids are conforming, consistently oriented tilings of a square", "statement": "For every n > 0 screen_triangles(n) / screen_quadrilaterals(n) number their points and cells 0,1,2,... without gaps, use only existing points, any two different cells share nothing, one vertex or one edge, all cells have the same orientation, and cell areas add up to the area of the square spanned by the points; n = 0 panics.", "quantifier": "every n > 0", "why_tests_cant": "Ranges over all n.", "anchors": ["src/shapes.rs:screen_triangles", "src/shapes.rs:screen_quadrilaterals"]}
{"id": "C48", "title": "Assembly on the built-in shapes never fails the adjacency look-up", "statement": "On every grid made by the shape functions, every touching pair of cells finds its singular quadrature rule.", "quantifier": "every refinement level and every number of cells", "why_tests_cant": "Ranges over all levels.", "anchors": ["src/shapes.rs", "src/boundary_assemblers.rs:assemble_singular_part"]}
{"id": "C49", "title": "Python function spaces never use or free a released grid or family", "statement": "For every sequence of creating and deleting function spaces, in any order and sharing grids and families in any way, the Rust grid and family a live space refers to are alive, nothing is freed twice, and nothing stays allocated once all spaces using it are gone.", "quantifier": "every history of successful creations and deletions", "why_tests_cant": "Ranges over histories.", "anchors": ["python/bempp/function_space.py:FunctionSpace.__del__", "python/bempp/function_space.py:function_space"]}
{"id": "C50", "title": "Options given to a Python assembler are frozen", "statement": "After an options object has been given to an assembler, every setter on it raises and all its values stay the same, for any later sequence of calls; setting an unknown key raises instead of being ignored.", "quantifier": "every history of calls", "why_tests_cant": "Ranges over histories.", "anchors": ["python/bempp/assembly/boundary.py:BoundaryAssemblerOptions", "python/bempp/assembly/boundary.py:BoundaryAssembler"]}
{"id": "C51", "title": "Creating a distributed space completes whatever the eager limit of the MPI implementation", "statement": "FunctionSpace::new completes on an MPI implementation that buffers messages up to some size and hands larger ones over directly, as all common implementations do.", "quantifier": "every eager limit, every consistent distributed grid, every interleaving", "why_tests_cant": "Test grids have few ghosts, so their messages are below any limit.", "anchors": ["src/function.rs:FunctionSpace::new (173-207)"]}
{"id": "C52", "title": "Dense assembly works on grids that mix triangles and quadrilaterals", "statement": "assemble(trial, test) returns a matrix for spaces on grids that contain both triangles and quadrilaterals, for which all the quadrature rules exist, and makes no unchecked access outside an array.", "quantifier": "every pair of spaces on such grids", "why_tests_cant": "The existing tests assemble on single type grids only, and an out-of-bounds unchecked read need not make a test fail.", "anchors": ["src/boundary_assemblers.rs:assemble_nonsingular_part (497-513)", "src/boundary_assemblers.rs:assemble_batch_nonadjacent (689-705)"]}
{"id": "C53", "title": "The cells of the regular sphere tessellate the sphere", "statement": "For regular_sphere(L), every ray from the origin meets a cell; two cells met by the same ray are met in the same point, which lies on a vertex or edge common to both; all points are different. So the radial projections of the cells tile the unit sphere, without gaps and without folds.", "quantifier": "every refinement level, real arithmetic", "why_tests_cant": "Ranges over all levels and all directions; tests check counts and norms at most.", "anchors": ["src/shapes.rs:regular_sphere (59-101)"]}
{"id": "C54", "title": "Failed creations of Python function spaces leave nothing allocated", "statement": "After any sequence of creating function spaces, some of which raise an exception, and deleting those that were created, nothing stays allocated once the last space is gone.", "quantifier": "every history, including creations that raise", "why_tests_cant": "Ranges over histories; tests do not look at the memory of the library.", "anchors": ["python/bempp/function_space.py:function_space (131-144)"]}
{"id": "C55", "title": "A Python function space uses the element family it is given", "statement": "The native space made by function_space(grid, family) uses an element family of the kind, degree and continuity of `family`.", "quantifier": "every family, every history", "why_tests_cant": "The tests use Lagrange families only.", "anchors": ["python/bempp/function_space.py:recreate_element_family (147-150)"]}
{"id": "C56", "title": "Python assemblers made without options always use the defaults", "statement": "create_laplace_assembler(op) makes an assembler with the default options, and the options it uses stay the defaults, whatever other assemblers and options have been or will be made and set, although all these assemblers share one options object.", "quantifier": "every history of calls", "why_tests_cant": "Ranges over histories; a shared mutable default argument goes wrong only for particular histories.", "anchors": ["python/bempp/assembly/boundary.py:create_laplace_assembler (177-189)", "python/bempp/assembly/boundary.py:BoundaryAssembler.__init__ (113-120)"]}
{"id": "C57", "title": "Setters of Python options take effect or raise", "statement": "A setter of BoundaryAssemblerOptions that returns has set exactly its own value; one that raises has changed nothing; it returns if the options are not in use, the cell types are triangles or quadrilaterals and the value fits into usize; no call changes another options object.", "quantifier": "every history of calls, every value", "why_tests_cant": "Ranges over histories and values.", "anchors": ["python/bempp/assembly/boundary.py:BoundaryAssemblerOptions (46-107)", "src/bindings/boundary_assemblers.rs (52-124)"]}
{"id": "C58", "title": "Copies from the library into Python buffers are complete and in bounds", "statement": "get_local_dof_numbers, cell_dofs and the arrays of a sparse matrix are read by Python from a buffer in which every entry has been written by the library, nothing was written outside the buffer, and the contents are those of the library's array.", "quantifier": "every length", "why_tests_cant": "An out-of-bounds write by one need not be noticed by a test.", "anchors": ["python/bempp/function_space.py:get_local_dof_numbers, cell_dofs (72-90)", "python/bempp/assembly/boundary.py:_convert_to_scipy (22-32)", "src/bindings/space.rs (91-106, 159-165)", "src/bindings/matrices.rs (77-138)"]}
{"id": "C59", "title": "A distributed space has the DOFs of the space on the whole grid, renumbered", "statement": "For a grid distributed over any number of processes, the global size of a function space is that of the space on the whole grid on one process, and there is one renumbering of the global DOFs so that, on every process and every cell stored there, the global indices of the cell's DOFs, in order, are the renumbered DOFs of that cell of the whole grid.", "quantifier": "every number of processes, every partition, every local numbering, every element family", "why_tests_cant": "Ranges over partitions; the tests compare a few grids on a few processes at most.", "anchors": ["src/function.rs:FunctionSpace::new (106-237)", "src/function.rs:assign_dofs (365-445)"]}
{"id": "C60", "title": "Renumbering the grid only renumbers the matrix", "statement": "If the vertices, edges and cells of the grids are given other numbers, with the order of the vertices inside each cell unchanged, then in exact arithmetic dense assembly gives the same entries at renumbered positions: there is one renumbering of the test DOFs and one of the trial DOFs, given by the DOFs of corresponding cells, that map one matrix to the other.", "quantifier": "every grid of one cell type, every renumbering, every element family, every operator, every schedule", "why_tests_cant": "Ranges over all renumberings of all grids; the tests assemble on a fixed grid.", "anchors": ["src/boundary_assemblers.rs:assemble (158-173)", "src/function.rs:assign_dofs (365-445)", "src/boundary_assemblers.rs:neighbours (794-821)"]}
{"id": "C61", "title": "Each constructor assembles the operator it is named after", "statement": "For each of the eight constructors in laplace and helmholtz, the integrand evaluated at a pair of points is the textbook one: Green's function, normal derivative at the trial point, minus the derivative along the test normal, product of surface curls; for the Helmholtz hypersingular operator with minus the square of the wavenumber times the product of the normals. The kernel has the given wavenumber, and kernel and tables have the derivatives that are needed.", "quantifier": "every kernel, wavenumber, pair of points and functions, every arithmetic", "why_tests_cant": "Tests compare the matrix of some operators on one grid with stored values.", "anchors": ["src/laplace.rs (34-78)", "src/helmholtz.rs (44-107)", "src/boundary_assemblers/integrands.rs"]}
{"id": "C62", "title": "Real and complex assembly agree", "statement": "In every arithmetic, also rounded, a map of scalars that respects the operations, applied to the kernel and the basis functions, is applied to every entry of the matrix. In particular, where the Helmholtz Green's function with wavenumber zero is the Laplace one, the Helmholtz operators with wavenumber zero give the Laplace matrices; where the Green's functions for opposite wavenumbers are conjugate, they give conjugate matrices.", "quantifier": "every operator, every space, every options, every schedule, every such map", "why_tests_cant": "Ranges over all operators and spaces; tests compare stored matrices of single operators.", "anchors": ["src/helmholtz.rs (44-107)", "src/laplace.rs (34-78)", "src/boundary_assemblers.rs:assemble (158-173)"]}
{"id": "C63", "title": "The array assembled in Python holds the matrix of the operator", "statement": "BoundaryAssembler.assemble(trial, test) with float32 or float64 spaces and assembler of the same type returns an array with test.global_size rows and trial.global_size columns, whose element [i, j] is the entry of the matrix for test DOF i and trial DOF j, and which has no other elements; with differing types it raises before native code runs.", "quantifier": "every pair of spaces on grids of one cell type, every operator, every schedule", "why_tests_cant": "The memory order and the order of the two spaces only show for rectangular, non-symmetric matrices; the Python tests look at one matrix.", "anchors": ["python/bempp/assembly/boundary.py:BoundaryAssembler.assemble (127-141)", "src/bindings/boundary_assemblers.rs:boundary_assembler_assemble_into_memory (330-348)", "src/boundary_assemblers.rs:assemble_into_memory (176-214)"]}
{"id": "C64", "title": "The dtype of a Python function space can be read", "statement": "FunctionSpace.dtype is the data type of the element family the space was made with.", "quantifier": "every data type that function_space accepts", "why_tests_cant": "The Python tests use float32 and float64 only.", "anchors": ["python/bempp/function_space.py:_dtypes, _rtypes (12-21), dtype (105-108)"]}
{"id": "C65", "title": "assemble_singular_correction works from Python", "statement": "BoundaryAssembler.assemble_singular_correction returns a matrix for spaces and an assembler of the same data type.", "quantifier": "every operator, every pair of spaces", "why_tests_cant": "No test calls it.", "anchors": ["python/bempp/assembly/boundary.py:assemble_singular_correction (157-169)", "src/bindings/boundary_assemblers.rs"]}
{"id": "C66", "title": "FunctionSpace.ownership never raises", "statement": "For every DOF of a space made in Python, ownership returns Owned(); the branch that calls library functions which do not exist is never taken.", "quantifier": "every grid, element family and DOF of a space on one process", "why_tests_cant": "Ranges over all DOFs of all spaces.", "anchors": ["python/bempp/function_space.py:ownership (95-103)", "src/bindings/space.rs:space_is_owned (185-187)", "src/function.rs:FunctionSpace::new (106-237)"]}
{"id": "C67", "title": "The order of the additions into an entry is fixed by the grid and the elements", "statement": "For every pair of spaces there is, for each entry of the matrix, one list of the pairs of basis functions that contribute to it, each exactly once, such that every assembly adds the values of these pairs in this order, whatever the number type, operator, quadrature, batch size, number of threads and schedule. In particular the result is bitwise reproducible.", "quantifier": "every arithmetic (also non-associative), operator, options, schedule; all spaces on grids of one cell type", "why_tests_cant": "Tests run one schedule and compare with a tolerance.", "anchors": ["src/boundary_assemblers.rs:assemble_into_memory (176-214)", "src/boundary_assemblers.rs:assemble_nonsingular_part (396-521)", "src/boundary_assemblers.rs:assemble_singular_part (234-393)"]}
{"id": "C68", "title": "Relations between data carry over to the matrices", "statement": "If a relation between two number types is respected by the operations and holds between the quadrature data, cell geometry, basis functions, kernel values and factors of two assemblies on the same DOFs, then both return and it holds between all entries of the two matrices. (Intervals that enclose the data give intervals that enclose the matrix; larger nonnegative data give larger matrices; single and double precision see the same operations.)", "quantifier": "every relation, every two arithmetics, operators with related integrands, options with different batch sizes, schedules", "why_tests_cant": "Quantifies over arithmetics and relations.", "anchors": ["src/boundary_assemblers.rs:assemble (158-173)", "src/boundary_assemblers.rs:assemble_into_memory (176-214)", "src/boundary_assemblers/integrands.rs", "src/boundary_assemblers/cell_pair_assemblers.rs"]}
{"id": "C69", "title": "create_laplace_assembler raises for operators and types that do not exist", "statement": "create_laplace_assembler raises a Python exception for operator types and data types it does not support and never ends the interpreter.", "quantifier": "every operator type and data type, after every history of calls", "why_tests_cant": "A test that ends the interpreter cannot report; the Python tests create supported assemblers only.", "anchors": ["python/bempp/assembly/boundary.py:create_laplace_assembler (177-189)", "src/bindings/boundary_assemblers.rs:laplace_boundary_assembler_new (127-166)"]}
{"id": "C70", "title": "The single layer matrix has no negative entries", "statement": "In any arithmetic whose additions and multiplications keep the sign (so also rounded), the matrix of the single layer operator has no negative entry if the Green's function, the basis functions at the quadrature points, the weights and the determinants are not negative.", "quantifier": "every such arithmetic, space on grids of one cell type, options, schedule", "why_tests_cant": "Tests check stored matrices on single grids.", "anchors": ["src/boundary_assemblers.rs:assemble (158-173)", "src/boundary_assemblers/integrands/single_layer.rs", "src/laplace.rs (34-39)"]}
{"id": "C71", "title": "Rounding errors of an assembled entry have an explicit bound", "statement": "If every operation has a relative error of at most u (standard model of floating point arithmetic without overflow and underflow, real or complex), each entry of the matrix that assemble computes differs from the entry in exact arithmetic by at most ((1-u)^-N - 1) times the entry computed from absolute values, where N is the number of roundings in the integrand plus the number of points of the rules plus the number of contributions to the entry, whatever the threads, batches and schedules; errors of the given data enter N.", "quantifier": "every u < 1, arithmetic with such errors, operator, space on grids of one cell type, options, legal schedule", "why_tests_cant": "Tests compare with stored values up to a fixed tolerance on tiny grids; a worst case bound quantifies over all roundings.", "anchors": ["src/boundary_assemblers.rs:assemble (158-173)", "src/boundary_assemblers.rs:assemble_batch_singular (610-685)", "src/boundary_assemblers.rs:assemble_batch_nonadjacent (689-773)", "src/boundary_assemblers/integrands.rs", "src/boundary_assemblers/cell_pair_assemblers.rs"]}
{"id": "C72", "title": "Single layer entries have small relative errors", "statement": "If the Green's function, the basis functions at the quadrature points, the weights and the determinants are not negative, every entry of the single layer matrix has a relative error of at most (1-u)^-N - 1, with N as for the general bound: there is no cancellation.", "quantifier": "every u < 1, arithmetic with relative errors of at most u, space on grids of one cell type, options, legal schedule", "why_tests_cant": "Tests use absolute or loose tolerances on single matrices.", "anchors": ["src/boundary_assemblers.rs:assemble (158-173)", "src/boundary_assemblers/integrands/single_layer.rs", "src/laplace.rs (34-39)"]}
{"id": "C73", "title": "The serial space is the parallel space on one process", "statement": "LocalFunctionSpace::new on a grid whose entities are all owned gives the same answers as FunctionSpace::new on one process: is_serial, sizes, cell_dofs, get_local_dof_numbers, global_dof_index and ownership of existing DOFs. On several processes its local tables and colouring are still those of the process, for every rank; its global sizes count every ghost again.", "quantifier": "every two-dimensional grid and element family; every number of processes, distribution and buffering behaviour", "why_tests_cant": "Tests of serial spaces look at single grids; independence of the rank and the agreement of two implementations concern all grids and distributions.", "anchors": ["src/function/function_space/serial.rs:LocalFunctionSpace (16-180)", "src/function/function_space/common.rs:assign_dofs (17-96)", "src/function.rs:FunctionSpace::new (106-237)"]}
{"id": "C74", "title": "Dense assembly on grids with triangles and quadrilaterals is right or does not return", "statement": "On a grid with triangles and quadrilaterals, if assemble returns a matrix, the entry of two cells that do not touch is the value of the tensor product of the quadrature rules of the two cell types.", "quantifier": "every pair of spaces on grids with two cell types, operator, options and schedule", "why_tests_cant": "There is no test on mixed grids; the argument order of the two cell types is invisible on grids with one type.", "anchors": ["src/boundary_assemblers.rs:assemble_nonsingular_part (396-521)", "src/boundary_assemblers.rs:assemble_batch_nonadjacent (689-773)"]}
{"id": "C75", "title": "The matrix of continuous functions follows from that of discontinuous functions", "statement": "If two spaces on one grid have the same functions on every cell and one of them is discontinuous, the matrix assembled for the continuous space is P' D Q, D the matrix assembled for the discontinuous one and P, Q the identification of DOFs with the same place in the same cell: each entry is the sum of the entries of the DOFs that are identified with it. The same holds for the matrix of touching pairs.", "quantifier": "every grid with one cell type, pair of element families, operator, options and schedule; exact arithmetic", "why_tests_cant": "The disabled test dp1_vs_p1 compares one grid and degree up to a tolerance; that no pair of cells is lost, counted twice or added to another entry concerns all grids.", "anchors": ["src/boundary_assemblers.rs:assemble (158-173)", "src/boundary_assemblers.rs:assemble_singular_part (234-393)", "src/boundary_assemblers.rs:assemble_nonsingular_part (396-521)", "tests/mixed_assembly.rs.bak"]}
{"id": "C76", "title": "The matrix on part of a grid is part of the matrix", "statement": "If the grids of the test and trial space consist of some of the cells of larger grids, with any other numbers, and are the same part or do not touch, the entries of the assembled matrix are the entries of the matrix of the larger grids at the same DOFs, for all DOFs whose cells all belong to the part. For discontinuous spaces these are all entries.", "quantifier": "every grid with one cell type, part of it, element families, operator, options and schedules; exact arithmetic", "why_tests_cant": "Tests on sub-grids are disabled and concern one grid; locality of the entries concerns all grids and parts.", "anchors": ["src/boundary_assemblers.rs:assemble (158-173)", "src/boundary_assemblers.rs:assemble_singular_part (234-393)", "src/boundary_assemblers.rs:assemble_nonsingular_part (396-521)", "src/boundary_assemblers.rs:neighbours (794-821)", "tests/mixed_assembly.rs.bak"]}
{"id": "C77", "title": "Moving, reflecting or scaling the grid multiplies the matrices with a known factor", "statement": "In exact arithmetic, if the grid is rotated, reflected, translated and scaled by s, every assembled matrix is multiplied with a factor that depends on the operator only: with mu the factor of the Green's function (1/s for Laplace; for Helmholtz with the wavenumber divided by s), mu s^4 for the single layer operator, mu s^3 (times -1 for a reflection) for the double and the adjoint double layer operator and mu s^2 for the hypersingular operator, touching cells included. Without scaling and reflection nothing changes.", "quantifier": "every similarity, operator of the modules laplace and helmholtz, space on grids of one cell type, options, schedule; any number of processes for the singular part", "why_tests_cant": "Tests use one sphere and one screen; a missing or extra power of a determinant or a wrong sign of a normal shows only by comparing grids.", "anchors": ["src/boundary_assemblers.rs:assemble (158-173)", "src/boundary_assemblers.rs:assemble_singular_part (234-393)", "src/boundary_assemblers/integrands.rs", "src/boundary_assemblers/cell_pair_assemblers.rs", "src/laplace.rs (34-78)", "src/helmholtz.rs (44-107)"]}
{"id": "C78", "title": "Dimensions of spaces on the built-in shapes", "statement": "On regular_sphere(L) the continuous Lagrange space of degree p >= 1 has global_size p^2 * 4^(L+1) + 2, on screen_triangles(n) and screen_quadrilaterals(n) it has (p n + 1)^2, and a discontinuous space has (number of cells) * (dimension of the element), on every process and however the grid is distributed. The sphere has 4^(L+1) + 2 vertices, 12 * 4^L edges and 8 * 4^L cells, the screens (n+1)^2 vertices, 3 n^2 + 2 n or 2 n (n+1) edges, and 2 n^2 or n^2 cells.", "quantifier": "every level or number of cells, degree, distribution of the grid on processes", "why_tests_cant": "A test can check some levels and degrees; users size their vectors with these formulas for all of them.", "anchors": ["src/shapes.rs:regular_sphere, screen_triangles, screen_quadrilaterals", "src/function.rs:new (106-237)", "src/function.rs:global_size"]}
{"id": "C79", "title": "Assembly never fails on the built-in shapes", "statement": "For every grid made by regular_sphere, screen_triangles or screen_quadrilaterals on one process and every continuous (degree >= 1) or discontinuous element, FunctionSpace::new returns a space; and for every two such spaces on the same grid, every operator of the modules laplace and helmholtz and any sequence of calls of the setters of the options, assemble and assemble_singular return a matrix, of global_size(test) times global_size(trial) entries, provided that the batch size is positive and the quadrature crates have rules for the numbers of points in the options.", "quantifier": "every shape, degree, operator, history of setters, schedule of the threads", "why_tests_cant": "The failures to exclude (missing rules for a way in which cells touch, entries outside of the matrix, empty colours, unwraps) depend on all pairs of cells of all grids.", "anchors": ["src/shapes.rs", "src/function.rs:new (106-237)", "src/boundary_assemblers.rs:assemble (158-173)", "src/boundary_assemblers.rs:assemble_singular (122-155)"]}
{"id": "C80", "title": "Degrees at which continuous spaces are continuous on the built-in shapes", "statement": "A DOF on an edge stands for one point of the surface, whichever of the cells that list it is asked, exactly when the cells run along their common edges in the same direction or have at most one DOF there. So continuous Lagrange spaces of degree up to 2 are single-valued on every grid and those of any degree on screen_quadrilaterals(n), while those of degree 3 and more are not on regular_sphere(L) for any L, nor on screen_triangles(n) for n >= 2: some DOF number stands for two different points, as cell_dofs applies no permutation.", "quantifier": "every grid, level or number of cells, degree", "why_tests_cant": "The tests use low degrees; for which degrees and shapes the values agree across edges concerns all shapes.", "anchors": ["src/function.rs:assign_dofs", "src/function.rs:cell_dofs", "src/shapes.rs:regular_sphere, screen_triangles, screen_quadrilaterals"]}
{"id": "C81", "title": "Refinement levels of the sphere are nested", "statement": "The points of regular_sphere(L) are the first points of regular_sphere(L+1), with the same numbers, followed by one new point for every edge; cell k is replaced by the cells 4k to 4k+3, the first three at its vertices and the last in the middle. The new point of an edge is the midpoint of the arc between its ends, and the rays from the origin that meet cell k are those that meet one of its four cells.", "quantifier": "every level; the geometry in exact real arithmetic", "why_tests_cant": "A test can look at some levels; users who prolong or restrict functions between levels use the numbering at all of them.", "anchors": ["src/shapes.rs:regular_sphere (19-114)"]}
{"id": "C82", "title": "Memory reserved by regular_sphere is in proportion to the grid", "statement": "The capacity reserved for the new cells of a refinement suffices for them and is at most a fixed multiple of their number.", "quantifier": "every refinement level", "why_tests_cant": "Capacities are not observable in the result; that they outgrow the grid shows at levels that tests do not reach.", "anchors": ["src/shapes.rs:61"]}
{"id": "C83", "title": "The number of colours does not grow with the grid", "statement": "On regular_sphere(L) six vertices have four cells and all others six. The cell colouring of a continuous or discontinuous space has at most 13 colours on regular_sphere(L) and screen_triangles(n) and at most 9 on screen_quadrilaterals(n), so dense assembly runs in at most 169 or 81 parallel phases, whatever the refinement; for continuous spaces it has at least 6 colours (4 for L = 0), 6 and 4 for L >= 1 and n >= 2.", "quantifier": "every level or number of cells, degree", "why_tests_cant": "A test can count colours on some grids; that parallel phases stay few when the grid is refined concerns all of them.", "anchors": ["src/boundary_assemblers.rs:assemble_nonsingular_part (396-521)", "src/function.rs:cell_colouring", "src/shapes.rs:regular_sphere, screen_triangles, screen_quadrilaterals"]}
{"id": "C84", "title": "The singular part grows in proportion to the number of cells", "statement": "There are 104 * 4^L - 48 ordered pairs of cells with a common vertex on regular_sphere(L), 26 n^2 - 32 n + 10 on screen_triangles(n) and (3n - 2)^2 on screen_quadrilaterals(n), and the singular part has exactly that number of triplets times the dimensions of the two elements. The memory for these pairs is the only one, besides that for the cells, whose size limits assembly: it suffices that 26 times the number of cells is below the word size.", "quantifier": "every level or number of cells, two spaces, operator, options, schedule", "why_tests_cant": "A test can count triplets on some grids; the formula holds on all.", "anchors": ["src/boundary_assemblers.rs:assemble_singular_part (234-393)", "src/shapes.rs:regular_sphere, screen_triangles, screen_quadrilaterals"]}
{"id": "C85", "title": "Native objects are alive while Python needs them", "statement": "In every program that makes options, assemblers and sparse matrices from Python and gives them up in any order, catching exceptions, no native function is called on memory that has been freed and nothing is freed twice: the options a native assembler refers to are allocated as long as the assembler is in use and are those of its Python object, a native assembler is allocated exactly while its Python object exists, and the native matrix of assemble_singular is freed after it has been copied (unless the copies cannot be allocated).", "quantifier": "every sequence of calls and collections of Python objects", "why_tests_cant": "Use after free depends on the order in which objects are given up and may go unnoticed in a run.", "anchors": ["python/bempp/assembly/boundary.py:BoundaryAssemblerOptions (46-107), BoundaryAssembler (110-174), _convert_to_scipy (22-32)", "src/bindings/boundary_assemblers.rs:33-49, 127-166"]}
{"id": "C86", "title": "No native memory is left once all Python objects are gone", "statement": "After all options, assemblers and matrices made from Python have been collected, only the objects the module itself holds are allocated.", "quantifier": "every sequence of calls and collections of Python objects", "why_tests_cant": "Leaks are not visible in results.", "anchors": ["python/bempp/assembly/boundary.py:BoundaryAssemblerOptions (46-107)", "src/bindings/boundary_assemblers.rs:41-49"]}
{"id": "C87", "title": "The mesh width of the sphere is known and the surface tends to the sphere", "statement": "The longest edge of regular_sphere(L) has length sqrt(6 / (4^L + 2)), attained by the three edges of the cell 4^L - 1; so the mesh width halves, up to a factor that tends to one, with each level. All points of all cells are inside the unit ball at a distance of at least sqrt(4^L / (4^L + 2)) from the origin, which is attained at the middle of that cell.", "quantifier": "every level, every edge and every point of every cell; exact real arithmetic", "why_tests_cant": "Convergence of a method is measured against the mesh width at all levels; a test measures some.", "anchors": ["src/shapes.rs:regular_sphere (19-114)"]}
{"id": "C88", "title": "The grids of the sphere are quasi-uniform and shape regular", "statement": "The shortest edge of regular_sphere(L) has exactly the length 2 sin(pi / 2^(L+2)) (an edge of the octahedron halved L times), the squares of the lengths of two edges of the same grid are never further apart than by a factor 5/2, and no angle of a cell has a cosine above 4/5 or below -4/5, whatever the level.", "quantifier": "every level, every cell and pair of edges; exact real arithmetic", "why_tests_cant": "Constants that do not depend on the level concern all levels at once.", "anchors": ["src/shapes.rs:regular_sphere (19-114)"]}
{"id": "C89", "title": "The grids of the sphere have the symmetry of the octahedron", "statement": "Each of the 48 maps that permute the axes and change signs of coordinates sends every point of regular_sphere(L) to a point and the corners of every cell to the corners of a cell.", "quantifier": "every level, every symmetry; exact real arithmetic", "why_tests_cant": "The loop handles cells one after the other and chooses a direction for each edge; that the result depends on none of this at any level cannot be tested level by level.", "anchors": ["src/shapes.rs:regular_sphere (19-114)"]}
{"id": "C90", "title": "Floating point does not spoil the sphere", "statement": "regular_sphere(L) computed with rounding: the cells are the same as in exact arithmetic; the squared norms of the points stay within 16 rounding errors of 1 at every level (errors do not accumulate); each point differs from the exact one by at most 2 L times 8 rounding errors; as long as 400 L 2^L <= 2^(bits of the mantissa) all edges have lengths between 1/2^L and 2.75/2^L (no cell degenerates) and all cells face outwards.", "quantifier": "every level, every way to round with bounded relative error", "why_tests_cant": "A test sees one level on one machine; whether errors of midpoints of midpoints accumulate and when cells collapse or flip is a statement about all levels and all roundings.", "anchors": ["src/shapes.rs:regular_sphere (50-114)"]}
{"id": "C91", "title": "The sphere is a closed surface whose volume grows with the level", "statement": "The area vectors of the cells of regular_sphere(L) add up to zero for any positions of the vertices, so the enclosed volume (sum of the signed tetrahedra over the cells) is the same computed from any point; it is 4/3 for the octahedron and grows strictly with each refinement.", "quantifier": "every level; every position of the vertices for the first part, exact real arithmetic for the second", "why_tests_cant": "Sums over all cells at all levels; a test computes a few.", "anchors": ["src/shapes.rs:regular_sphere (19-114)"]}
{"id": "C92", "title": "Area and volume of the sphere are related as for a ball", "statement": "The area of regular_sphere(L) is at least three times its volume and at most sqrt(1 + 2/4^L) times that.", "quantifier": "every level; exact real arithmetic", "why_tests_cant": "Ranges over all levels.", "anchors": ["src/shapes.rs:regular_sphere (19-114)"]}
{"id": "C93", "title": "The sparse matrix returned in Python has the entries of the native singular part", "statement": "BoundaryAssembler.assemble_singular in Python returns a scipy matrix with one row per test and one column per trial degree of freedom, whose arrays fit together, and whose entry (i, j) is the sum of the contributions of all pairs of touching cells at (i, j); if no contribution exceeds 1e-10 it has no entries. The conversion copies each array exactly and never reads memory that was not written.", "quantifier": "every operator, options, spaces, scalars, reduction order and number of processes; every native sparse matrix for the conversion", "why_tests_cant": "Tests compare one matrix on one grid; the claim is about every matrix, including rows without entries and the matrix without any.", "anchors": ["python/bempp/assembly/boundary.py:_convert_to_scipy (22-32)", "python/bempp/assembly/boundary.py:assemble_singular (143-155)", "src/bindings/matrices.rs:6-20, 53-137", "src/boundary_assemblers.rs:assemble_singular (122-155)"]}
{"id": "C94", "title": "Rounding leaves the screens exact tilings by rectangles and right-angled triangles", "statement": "With every coordinate of screen_triangles(n) and screen_quadrilaterals(n) computed in floating point arithmetic, the cells still tile a square without gaps or overlaps, meet only in common faces, quadrilaterals are exact rectangles, triangles are exactly right-angled with legs along the axes, all normals point along the third axis, the sides differ from 1/(n+1) by a relative error of at most about 6 n u, and each coordinate has a relative error of at most about 3 u.", "quantifier": "every n with 4 (n+1) < 2^p for mantissas of p bits (two million cells a side in f32), every rounding with relative error at most u", "why_tests_cant": "Tests see a few screens; whether rounded points can coincide or cells overlap depends on n.", "anchors": ["src/shapes.rs:screen_triangles (120-172)", "src/shapes.rs:screen_quadrilaterals (178-223)"]}
{"id": "C95", "title": "The dense matrix is the singular part plus the regular part, and has the values of the singular part on discontinuous spaces", "statement": "assemble = assemble_singular_part + the sum over the pairs of cells that do not touch, entry by entry, in exact arithmetic. In any arithmetic, if all degrees of freedom are inside cells, every entry of assemble is the value of exactly one pair of basis functions added once to zero, no two entries of assemble_singular are at the same position, and each entry of assemble_singular is the entry of assemble at the same position.", "quantifier": "every operator, options, pair of spaces on grids of one cell type, reduction order and scalars", "why_tests_cant": "The Python tests compare dense[i, j] with the sparse entries on the eight triangles of the coarsest sphere up to a tolerance.", "anchors": ["src/boundary_assemblers.rs:assemble_singular (122-155)", "src/boundary_assemblers.rs:assemble (158-173)", "src/boundary_assemblers.rs:assemble_into_memory (176-214)", "python/test/test_boundary_assembler.py:test_assemble_singular"]}
{"id": "C96", "title": "Volume and area of the sphere tend to those of the ball", "statement": "At every level of regular_sphere the solid angles of the cells, seen from the origin, add up to 4 pi, so the cells cover the sphere exactly once; the enclosed volume V and the area A satisfy 4 pi (1 - 9/(4 (4^L + 2))) < 3 V <= A < 4 pi, and V and A tend to 4 pi / 3 and 4 pi, with an error that falls like the square of the mesh width.", "quantifier": "all refinement levels", "why_tests_cant": "Tests look at a few levels; the limit and the rate are statements about all of them.", "anchors": ["src/shapes.rs:regular_sphere (19-114)"]}
{"id": "C97", "title": "Matrices have the symmetry of the grid", "statement": "If a rigid motion maps the grid to itself, cell onto cell with the order of the vertices, and leaves the Green's function unchanged, then the matrix returned by assemble has the same entry for a test and a trial basis function as for their images, for every Laplace and Helmholtz operator. On every level of regular_sphere this applies to the eight turns that keep the third axis up to its direction: each cell has an image cell, and functions with the same local numbers on image cells have the same entries. On level 0 every cell is the image of every other, so all eight cells have the same block. (The remaining turns of the octahedron map cells to cells (C89) but change the order of their vertices.)", "quantifier": "all levels, operators, degrees and spaces, options, reduction orders, and Green's functions that depend on the distance; exact arithmetic, flat triangles", "why_tests_cant": "A test compares some entries of one small matrix; the symmetry rests on the order in which refinement writes the vertices of every new cell, at every level.", "anchors": ["src/shapes.rs:regular_sphere (19-114)", "src/boundary_assemblers.rs:assemble (158-173)", "src/boundary_assemblers.rs:assemble_into_memory (176-214)", "src/function.rs:assign_dofs (365-445)"]}
{"id": "C98", "title": "Matrices of nested spaces", "statement": "If on every cell the basis functions of the test and the trial space are combinations, with coefficients P and Q, of the basis functions of larger spaces on the same grids, then the matrix returned by assemble for the small spaces is P^T M Q, M the matrix it returns for the large spaces with the same operator and options; the matrices of pairs of touching cells are related in the same way. In particular the matrix for continuous functions is P^T M Q with M the matrix for discontinuous functions, an entry for piecewise constants is the sum of a block of entries for discontinuous functions of a higher degree, and the sum of all entries is the same whenever the rows of P and Q add up to one.", "quantifier": "all operators, grids, elements, options, reduction orders; exact arithmetic", "why_tests_cant": "A test compares two matrices on one grid; that assembly is a Galerkin projection is a statement about all spaces and all coefficient matrices.", "anchors": ["src/boundary_assemblers.rs:assemble (158-173)", "src/boundary_assemblers.rs:assemble_into_memory (176-214)", "src/boundary_assemblers.rs:assemble_singular_part (234-393)", "src/boundary_assemblers.rs:assemble_batch_singular (610-685)", "src/boundary_assemblers.rs:assemble_batch_nonadjacent (689-773)"]}
{"id": "C99", "title": "A kernel that does not depend on the points measures the surface", "statement": "For a kernel with constant value and gradient, on flat cells, with rules whose weights add up to the size of the reference cell, u^T M w is, for coefficients u, w of functions that are constant on each cell, the sum over all pairs of cells of u on the one, w on the other, the product of the two areas and the value of the integrand for the two normals: every pair of cells contributes once, whether it is near, far or identical. On every level of regular_sphere the entries of a single layer matrix therefore add up to the kernel value times the square of the area (which tends to (4 pi)^2), and the rows of a double layer matrix for piecewise constants, and the columns of an adjoint double layer matrix, add up to zero (no flux of a constant field through a closed surface).", "quantifier": "all operators, spaces with functions that add up to one, options, batch sizes, reduction orders, levels; exact arithmetic", "why_tests_cant": "Tests compare single matrices with stored values; that no pair of cells is dropped, repeated, or given weights or determinants of the wrong cell is a statement about all grids and options.", "anchors": ["src/boundary_assemblers.rs:assemble (158-173)", "src/boundary_assemblers.rs:assemble_into_memory (176-214)", "src/boundary_assemblers.rs:assemble_singular_part (234-393)", "src/boundary_assemblers.rs:assemble_nonsingular_part (396-521)", "src/shapes.rs:regular_sphere (19-114)"]}
{"id": "C100", "title": "On screens the matrices do not change when basis functions are moved along the grid", "statement": "If part of a grid has a copy, put together in the same way and moved by a similarity, then the entry of the copies of two basis functions is that of the functions (times the factor of the operator). On screen_triangles and screen_quadrilaterals this gives: moving a test function and a trial function together by whole squares does not change their entry, for Laplace and Helmholtz, all kinds of operators, near, adjacent and equal cells. Every function of a discontinuous space moves with its cell (block Toeplitz matrix); on continuous spaces every function of a vertex or edge that is not moved to or from the boundary does. A cell can be moved exactly if its corners stay on the screen.", "quantifier": "all sizes of screens, kinds of cells, displacements, standard spaces, options, batch sizes, reduction orders, radial Green's functions; exact arithmetic", "why_tests_cant": "The tests look at a few entries on small grids; that the entry is independent of cell numbers, of the batch or the colour in which a pair is computed and of the order of the connectivity found for adjacent cells is a statement about all grids and pairs.", "anchors": ["src/shapes.rs:screen_triangles (116-174)", "src/shapes.rs:screen_quadrilaterals (176-223)", "src/boundary_assemblers.rs:assemble (158-173)", "src/boundary_assemblers.rs:assemble_singular_part (234-393)", "src/boundary_assemblers.rs:assemble_nonsingular_part (396-521)", "src/boundary_assemblers.rs:get_pairs_if_smallest (774-792)"]}
{"id": "C101", "title": "Exchanging the two spaces transposes the whole matrix", "statement": "If the singular rules treat the two cells alike (the rule for a pair of touching cells seen from the other side has the same points and weights, in any order, with the sides exchanged), then for the single layer and hypersingular operators, and any symmetric integrand and kernel, the matrix of the exchanged spaces is the transpose, singular part included, and so is the sparse matrix of the singular part; with one space for both they are symmetric. The adjoint double layer matrix is the transpose of the double layer matrix of the exchanged spaces. On different grids no condition on rules is needed; on one grid it cannot be dropped. The list of common vertices found for the exchanged pair is the exchanged list in another order, and is looked up as such.", "quantifier": "all grids of one cell type, spaces, options, batch sizes, reduction orders, rules; exact arithmetic", "why_tests_cant": "Tests compare some matrices with their transposes up to a tolerance that hides errors of the rules; whether the assembler itself breaks symmetry, for any grid and connectivity, needs a proof.", "anchors": ["src/boundary_assemblers.rs:assemble_singular_part (234-393)", "src/boundary_assemblers.rs:get_singular_quadrature_rule (524-562)", "src/boundary_assemblers.rs:make_cell_blocks (564-606)", "src/boundary_assemblers.rs:assemble_batch_singular (610-685)", "src/boundary_assemblers.rs:get_pairs_if_smallest (774-792)"]}
{"id": "C102", "title": "The native grid made for a Python grid describes that grid", "statement": "Whatever spaces have been created, have failed to be created or have been deleted, and whatever unused Python grids have been collected: the native grid that a live space uses was made from the data of the space's own Python grid, with each cell type and the scalar type in the numbers of the library and the dimensions, counts and degree unchanged. Making it finds every key in the translation tables, reads only memory that is there, and leaves no data container of ndgrid behind. If ndgrid uses a number for a cell type or scalar type that this library does not know, a KeyError is raised and no native grid is made (the data container is then left behind).", "quantifier": "all histories of spaces and collections, all numberings of types in the two headers without repetition, all grids", "why_tests_cant": "Tests run with one build in which both headers number the types alike, so a wrong or missing entry of a table goes unnoticed; leaks of containers are not observed at all.", "anchors": ["python/bempp/function_space.py:_cells_ndgrid_to_bempp (24-36)", "python/bempp/function_space.py:_dtype_ndgrid_to_bempp (37-40)", "python/bempp/function_space.py:recreate_grid (153-183)", "python/bempp/function_space.py:function_space (131-144)", "src/bindings/ndgrid.rs:single_element_grid_borrowed_create_bempp (18-56)"]}
{"id": "C103", "title": "The native grid of a live space only refers to memory that stays valid", "statement": "Every pointer that recreate_grid hands to the borrowed native grid points to memory that is valid as long as a space uses that grid. (False: the array of entity types is a local numpy array that is dropped when recreate_grid returns, and the container of ndgrid is freed before it returns. What holds: the pointers that stay valid are exactly those into the memory of the Python grid itself, and they do so as long as any space uses it.)", "quantifier": "all histories of spaces and collections, all grids, all choices of ndgrid where the data of a grid are put", "why_tests_cant": "Reads of freed memory usually return the old values, so tests pass.", "anchors": ["python/bempp/function_space.py:recreate_grid (153-183)", "python/bempp/function_space.py:FunctionSpace.__del__ (52-66)", "src/bindings/ndgrid.rs:single_element_grid_borrowed_create_bempp (18-56)"]}
{"id": "C104", "title": "The singular part is the dense matrix without the regular rules", "statement": "In exact arithmetic the singular part is, entry by entry, the matrix that assemble returns when all weights of the regular rules are zero: every pair of touching cells enters with its singular rule, nothing else does, whatever the batch size, schedule and number of threads. It therefore has the structure of the dense matrices on its own: on a grid with other numbers rows and columns are permuted; on a part of a grid it is a submatrix for all functions that live on the part; on screens it does not change when two functions are moved together, on every level of regular_sphere when they are turned together, for Laplace and Helmholtz and all kinds of operators.", "quantifier": "all operators, grids of one cell type, spaces, options, batch sizes, reduction orders; exact arithmetic", "why_tests_cant": "The tests never compare the sparse part with anything but itself in the dense matrix; errors that the regular part compensates, such as a pair that is moved from one part to the other, cannot be seen by them.", "anchors": ["src/boundary_assemblers.rs:assemble_singular (122-155)", "src/boundary_assemblers.rs:assemble (158-173)", "src/boundary_assemblers.rs:assemble_singular_part (234-393)", "src/boundary_assemblers.rs:assemble_nonsingular_part (396-521)", "src/boundary_assemblers.rs:neighbours (794-821)"]}
{"id": "C105", "title": "The singular part has the same triplets in every arithmetic, and bounded rounding errors", "statement": "The rows and columns of the singular part, and the order of its triplets, do not depend on the arithmetic, the batch size, the schedule or the number of threads, and its values only on the singular rules, the geometry and the kernel at their points. If every operation has a relative error of at most u, then each value differs from the exact one by at most (1-u)^-N - 1 times the value computed from absolute values, where N counts the roundings of the integrand and the points of the rule; values of the single layer operator with data that are not negative have this relative error. Real data give the same part in real and in complex arithmetic.", "quantifier": "all operators, all cell types and mixtures of them, every process of any number, all spaces, options, schedules, floating point formats without overflow and underflow", "why_tests_cant": "A test compares a few entries in one format with a tolerance that was chosen to pass; it says nothing about other formats, grids, orders of reduction or processes.", "anchors": ["src/boundary_assemblers.rs:assemble_singular_part (234-393)", "src/boundary_assemblers.rs:assemble_batch_singular (610-685)", "src/boundary_assemblers.rs:get_singular_quadrature_rule (524-562)", "src/boundary_assemblers.rs:make_cell_blocks (564-606)"]}
{"id": "C106", "title": "What a constant kernel gives in the singular part, and on screens", "statement": "For a kernel that does not depend on the points, on flat cells, with rules whose weights add up to the size of the reference cell, the singular part holds exactly the touching pairs of cells: u'Sw for two functions that are constant on each cell is the sum over the touching pairs, each once, of the areas times what the integrand is for the two normals; for constants on the cells the entry of two cells that do not touch is zero. On screen_triangles and screen_quadrilaterals with n squares on each side the entries of the single layer matrix add up to k (n/(n+1))^4 - the square of the area that the screen has, not of the unit square - and those of the singular part to k times the number of touching pairs times the square of the area of a cell; that is at most 13/cells of the whole.", "quantifier": "all operators with constant kernels, grids, spaces whose functions add up to one, options, schedules; all screens; exact arithmetic", "why_tests_cant": "Sums of entries over grids of all sizes; a test has one grid, and a missing, doubled or misplaced pair can be within its tolerance.", "anchors": ["src/boundary_assemblers.rs:assemble_singular_part (234-393)", "src/boundary_assemblers.rs:assemble_batch_singular (610-685)", "src/boundary_assemblers.rs:neighbours (794-821)", "src/shapes.rs:screen_triangles (120-174)", "src/shapes.rs:screen_quadrilaterals (178-223)"]}
{"id": "C107", "title": "DOFs are numbered in the order in which they first appear", "statement": "Going through the cells in the order of the grid's cell iterator, in each cell through its vertices, edges and interior, and on each of them through the DOFs of the element, the local DOF numbers are given out in the order in which DOFs appear for the first time. This determines the numbering. The DOFs of the first cells are always 0, 1, ..., m-1 for some m, so a cell's new DOFs are consecutive; for a discontinuous space the DOFs of the p-th cell are consecutive and start at the sum of the dimensions of the cells before it.", "quantifier": "all grids of triangles, quadrilaterals and mixtures, all cell orders, all conforming element families, all ranks", "why_tests_cant": "Tests compare sizes and cell DOFs of a few small grids; data stored by DOF number (right-hand sides, saved solutions, other programs' matrices) rely on the numbering of every grid.", "anchors": ["src/function.rs:assign_dofs (365-445)", "src/function.rs:get_local_dof_numbers (258-260)", "src/function.rs:cell_dofs (274-280)"]}
{"id": "C108", "title": "Coefficient i belongs to vertex i or to cell i", "statement": "Coefficient i of a continuous piecewise linear function is its value at vertex i, and coefficient i of a piecewise constant function its value on cell i. (False of the code for vertices: on every screen of triangles DOF 2 is at vertex n+2, on every screen of quadrilaterals at vertex n+1, and on every refined sphere DOF 1 is at a vertex that is not one of the six of the octahedron. True for cells, in the order of the iterator, and for vertices exactly when they first appear in the order of their numbers, as on the octahedron.)", "quantifier": "all grids, all screens and spheres", "why_tests_cant": "On the smallest grids (the octahedron, one quadrilateral) both numberings agree, so a test that assumes the wrong one passes.", "anchors": ["src/function.rs:assign_dofs (365-445)", "src/shapes.rs:regular_sphere (19-114)", "src/shapes.rs:screen_triangles (120-174)", "src/shapes.rs:screen_quadrilaterals (178-223)"]}
{"id": "C109", "title": "The cell colouring is the first-fit colouring in the order of the grid, and thereby determined", "statement": "Going through the cells in the order of the grid, the colour of a cell is the smallest number that no earlier cell sharing a DOF with it has; the value of cell_colouring has, for every cell type, one list for each colour with the cells of that type and colour in the order of the grid. There is only one such assignment, so the result depends on nothing but the order of the cells, their types and which pairs of cells share DOFs: two spaces on one grid in which the same pairs share DOFs have equal colourings, in particular continuous Lagrange spaces of any two degrees. On screen_quadrilaterals(n) with continuous elements the colour of the square in column x and row y is x mod 2 + 2 (y mod 2), so there are exactly four colours for n >= 2 and one for n = 1; on screen_triangles(n) there are never more than seven colours and exactly seven for n >= 4.", "quantifier": "all well-formed grids (also with triangles and quadrilaterals together), all well-formed element families with DOFs, all screens of all sizes and all Lagrange degrees >= 1", "why_tests_cant": "Code that uses the colouring for parallel loops depends on the number and the order of colours being reproducible; tests compare a handful of grids, cannot show that the result is independent of the degree, and cannot bound the number of colours for all sizes of screens.", "anchors": ["src/function.rs:281-351", "src/shapes.rs:120-223"]}
{"id": "C110", "title": "A change, or a NaN, in the data of a cell reaches exactly the entries of the DOFs of that cell", "statement": "If two calls of assemble differ in the geometry, basis functions or kernel values of some cells, all entries whose DOFs are on other cells are the same bit for bit, and so are the triplets of assemble_singular_part on every process. If the integrand is not a number at one pair of quadrature points, every entry of the DOFs of the two basis functions is not a number; an entry all of whose own pairs of basis functions have good values is good, whatever happens elsewhere.", "quantifier": "every arithmetic, also rounded; every operator, pair of spaces on grids of one cell type (all types for the singular part), options, schedule", "why_tests_cant": "A test can change one cell of one grid; that no accumulator, shared buffer or stale table carries data from one cell into the entries of others for any grid, batch size and schedule is a noninterference statement.", "anchors": ["src/boundary_assemblers.rs:122-214", "src/boundary_assemblers.rs:234-521", "src/boundary_assemblers.rs:610-773"]}
{"id": "C111", "title": "Cells of the built-in shapes that are not neighbours have a distance of the order of the cell width", "statement": "On regular_sphere at level L, each two points of two cells for which neighbours is false (they have no common vertex) have at least the distance 2/5 / 2^L, and so have each two vertices; with coordinates in floating point arithmetic of n bits at least 3/10 / 2^L as long as 400 L 2^L <= 2^n (double precision up to level 39). On screen_triangles(n) the distance is at least 1 / (sqrt 2 (n+1)), on screen_quadrilaterals(n) at least 1/(n+1); both are attained. Hence the nonsingular part, which skips neighbours, never evaluates a kernel at equal or arbitrarily close points.", "quantifier": "every level, every number of cells, every pair of cells, every pair of points of the cells", "why_tests_cant": "That a surface does not come near itself anywhere is a statement about uncountably many pairs of points for every level; tests evaluate kernels at quadrature points of a few levels and an infinite value at a higher one would go unnoticed.", "anchors": ["src/shapes.rs:19-223", "src/boundary_assemblers.rs:749-773", "src/boundary_assemblers.rs:794-821"]}
{"id": "C112", "title": "Matrices are linear in the kernel and depend continuously on the wavenumber, with known rates", "statement": "In exact arithmetic the matrix of an operator is linear in the parts of the Green's function that its integrand uses, and two Green's functions that differ by at most B give matrices that differ, entry by entry, by at most the matrix of B computed from absolute values. For the Helmholtz Green's function exp(ikr)/(4 pi r) the entries of the single layer matrix for wavenumbers k and k' differ by at most |k - k'|/(4 pi) times the entry for kernel 1; the entries of the two double layer matrices by at most |k^2 - k'^2|/(8 pi) times it; those of the hypersingular matrix by the corresponding sum of three such terms. All four are locally Lipschitz continuous in k, and for k -> 0 the matrices tend to those of the Laplace operators. If basis functions, weights and determinants are not negative, no entry of the single layer matrix for any wavenumber is larger than that for Laplace.", "quantifier": "every wavenumber (not negative for the double layer and hypersingular operators), every pair of spaces on grids of one cell type, options, schedule", "why_tests_cant": "The tests compare matrices for a single wavenumber with stored numbers; continuity, limits and bounds for all wavenumbers and grids are statements about uncountably many runs, and a wrong power of the wavenumber or a part of the kernel taken from the wrong row is not visible at one value.", "anchors": ["src/helmholtz.rs:44-107", "src/laplace.rs:34-78", "src/boundary_assemblers.rs:158-214", "src/boundary_assemblers/integrands.rs:1-317"]}
{"id": "C113", "title": "The accuracy of the entries does not get worse with refinement", "statement": "On the spheres and screens of `shapes`, a DOF belongs to exactly the cells that contain its entity: four or six cells for the vertices of a sphere, at most six triangles or four quadrilaterals, and one cell in a discontinuous space, at every refinement level. The number of terms summed into the entry (i, j) of a matrix is the product of the numbers of cells of the test DOF i and the trial DOF j, hence at most 36. The bound on the rounding error of an entry is therefore the same for all refinement levels and degrees; with p bits at least p - 12 bits of every entry of the single layer matrix are right if the sums over the points have at most 2^11 - 42 - 7n terms and the data n roundings.", "quantifier": "for all shapes, refinement levels, standard families, DOFs, entries, schedules, batch sizes, arithmetics with relative errors of at most u, and data with n roundings", "why_tests_cant": "A test compares a few entries on coarse grids with a tolerance; it cannot show that no refinement level, DOF or order of the additions loses more digits.", "anchors": ["src/shapes.rs:19-223", "src/boundary_assemblers.rs:158-521", "src/function.rs:365-445", "src/boundary_assemblers/helpers.rs:80-115"]}
{"id": "C114", "title": "The entries of the single layer matrix are bounded from both sides by the kernel and decay with the distance", "statement": "If basis functions, weights and determinants are not negative, each entry (i, j) of a single layer matrix is at least lo and at most hi times the entry for kernel 1, for all bounds lo and hi of the Green's function at the points where it is evaluated for cells of the test DOF i and the trial DOF j. For constants on flat cells the entry for kernel 1 is the product of the areas of the two cells. Hence, for the Laplace kernel on the sphere of refinement level L and cells with areas A and A', the entry is at least A A'/(8 pi), in particular never zero or negative, and for cells that are not neighbours at most 5 2^L A A'/(8 pi); on a screen with n cells per side, where all areas are equal, the entry is at least A^2/(4 pi sqrt 2) and for cells that are not neighbours at most A^2 (n+1)/(4 pi g), g = sqrt(1/2) for triangles and 1 for quadrilaterals. The absolute values of the entries for the Helmholtz kernel have the same upper bounds for every wavenumber k, and entries for k and k' differ by at most |k - k'| A A'/(4 pi).", "quantifier": "for all grids of one cell type, spaces, refinement levels, wavenumbers, entries, options and schedules; for the lower bounds of touching cells: rules whose pairs of points do not coincide", "why_tests_cant": "A test looks at a few entries of a coarse grid; bounds that hold for all entries, levels and wavenumbers, such as those used for compression or preconditioning, cannot be tested, and an entry that takes its kernel values from the wrong pair of cells is within the tolerance of no stored value but also rarely looked at.", "anchors": ["src/boundary_assemblers.rs:158-521", "src/boundary_assemblers/cell_pair_assemblers.rs:1-340", "src/shapes.rs:19-223", "src/laplace.rs:34-78", "src/helmholtz.rs:44-107"]}
{"id": "C115", "title": "Entries for distant cells are the Green's function between the centres of the cells, whichever rules are used", "statement": "For constants on flat cells with areas A and A' whose corners are at most h and h' from their centres and whose centres have the distance a > h + h', the entry of the Laplace single layer matrix is A A'/(4 pi a), with a relative error of at most (h+h')/(a-h-h') if the regular rules are exact for constants and at most (h+h')^2/(a(a-h-h')) if they are exact for linear functions. Matrices computed with different numbers of points, rules and options therefore agree in these entries up to twice that. On the sphere of level L the relative error is at most 64/(3(4^L+2)a^2) for cells with a^2 >= 128/(3(4^L+2)), on a screen with n cells per side at most 40/(9(n+1)^2 a^2) for triangles and 4/((n+1)^2 a^2) for quadrilaterals if this is at most 1/2: second order in the cell width.", "quantifier": "for all pairs of cells that do not touch, all spaces with constants, options, rules with non-negative weights and points in the reference cell, refinement levels and schedules", "why_tests_cant": "Tests compare with numbers stored for one rule and one grid; the order of convergence and the independence of the rule are statements about all rules and levels, and a wrong point, weight or determinant for one of the two cells changes the entries by a first-order amount that a loose tolerance admits.", "anchors": ["src/boundary_assemblers.rs:158-214", "src/boundary_assemblers.rs:396-521", "src/boundary_assemblers.rs:689-773", "src/boundary_assemblers/cell_pair_assemblers.rs:175-340", "src/shapes.rs:19-223", "src/laplace.rs:34-78"]}
{"id": "C116", "title": "On planar grids the double layer matrices vanish, and the Helmholtz hypersingular matrix comes from the single layer matrix", "statement": "An entry of the matrix of the double layer operator, or of its adjoint, is zero if the cells of the test function and of the trial function all lie in one plane. So the matrices on the screens of `shapes` are zero, for Laplace and Helmholtz and all wavenumbers, the sparse matrix that `assemble_singular` returns has no entries, and on the sphere the diagonal blocks (functions of the same triangle) are zero. On grids at one height with normals along the third axis this holds exactly in floating point arithmetic, in `f32`, `f64` and the complex types, up to the sign of the zeros, provided the gradient of the kernel is finite and its third component is zero for points of equal height. Where all normals are equal, as on screens, the Helmholtz hypersingular matrix is the curl part minus k^2 times the single layer matrix for the same wavenumber.", "quantifier": "for all screens and refinement levels, spaces, options, wavenumbers, kernels that depend on the distance, rules and schedules; in floating point for all rules, kernels and data with finite values", "why_tests_cant": "The test suite assembles double layer matrices on closed surfaces only and compares with stored numbers; a normal taken from the wrong cell or a gradient component paired with the wrong component of the normal changes these matrices into something that is not zero for some grids and rules, which no single example can exclude.", "anchors": ["src/boundary_assemblers/integrands/double_layer.rs:23-38", "src/boundary_assemblers/integrands/adjoint_double_layer.rs:23-38", "src/boundary_assemblers/integrands/hypersingular.rs:31-99", "src/boundary_assemblers.rs:122-214", "src/shapes.rs:120-223", "src/laplace.rs:42-63", "src/helmholtz.rs:57-107"]}
{"id": "C117", "title": "The sphere is convex with acute cells, and its double layer matrices have no positive entries", "statement": "At every refinement level all angles of the triangles of `regular_sphere` are less than right angles, and every vertex that is not a corner of a cell is strictly below the plane of the cell: the surface is convex and no two cells lie in one plane. For a kernel whose gradient with respect to the trial point is along the line from the trial point to the test point (as for Laplace) no entry of the double layer matrix or of its adjoint is positive, for spaces whose basis functions are not negative, and the same holds for the values of the singular part. If basis functions and weights are positive and the points are inner points of the cells, every entry is strictly negative unless both functions are on one and the same cell. In any arithmetic, also rounded, an entry is not positive if the derivative in the direction of the normal is not positive at the points used for its cells.", "quantifier": "for all refinement levels, pairs of spaces, options, rules, batch sizes and schedules", "why_tests_cant": "Convexity is a statement about all pairs of cells of all levels; the stored reference matrices have the right signs on one grid, but a child triangle with two corners exchanged, a normal of the wrong cell or a lost minus sign in the adjoint changes the sign only of some entries at some levels.", "anchors": ["src/shapes.rs:19-114", "src/boundary_assemblers/integrands/double_layer.rs:23-38", "src/boundary_assemblers/integrands/adjoint_double_layer.rs:23-38", "src/boundary_assemblers.rs:158-521", "src/laplace.rs:42-63"]}
{"id": "C118", "title": "The entries of the double layer matrices decay with the square of the distance", "statement": "If weights and determinants are not negative, the absolute value of each entry (i, j) of a double layer, adjoint double layer or single layer matrix, real or complex, is at most c times the entry for kernel 1 and the absolute values of the basis functions, for every bound c of the factor of the integrand (kernel value, derivative along the normal of the trial cell, or derivative along the normal of the test cell) at the points used for cells of the two functions. For constants on flat cells with areas A and A' whose points used are at least d apart, the double layer entries of the Laplace equation are at most A A'/(4 pi d^2), those of the Helmholtz equation with wavenumber k at most sqrt(1 + k^2 d^2) A A'/(4 pi d^2). On the sphere of level L the entries for cells that are not neighbours are at most 25 4^L A A'/(16 pi), for the Helmholtz equation sqrt(1 + 4 k^2/(25 4^L)) times that.", "quantifier": "for all grids of one cell type, spaces, refinement levels, wavenumbers, entries, options, rules with non-negative weights and schedules", "why_tests_cant": "A test looks at a few entries of a coarse grid; bounds for all entries, levels and wavenumbers cannot be tested, and an entry that uses a normal or a gradient at the wrong point is of a plausible size in any single example.", "anchors": ["src/boundary_assemblers.rs:158-521", "src/boundary_assemblers/cell_pair_assemblers.rs:1-340", "src/boundary_assemblers/integrands/double_layer.rs:23-38", "src/boundary_assemblers/integrands/adjoint_double_layer.rs:23-38", "src/shapes.rs:19-114", "src/laplace.rs:42-63", "src/helmholtz.rs:57-107"]}
{"id": "C119", "title": "The test suites pass at every size, level and degree, and with every element family", "statement": "Every assertion of tests/test_space.rs and of python/test/test_function_space.py (other than test_grid and test_element, which compare what the space hands back with the grid and family it was given), and those of python/test/test_boundary_assembler.py that compare two results of the library or check the options, holds not only for the arguments used there but in general: the checks of assign_dofs (run_test) for every grid of one process and every element family; the sizes of spaces of degrees 0, 1 and 2 on the sphere of every level and on every screen of triangles; the checks of cell_colouring on every built-in shape, for every family with DOFs on the entities that must not be shared (one colour for discontinuous families); the lengths of get_local_dof_numbers and cell_dofs, the identity global_dof_index(i) = i and ownership for every degree; dense[i, j] = value for every entry of the singular part of every operator on discontinuous spaces of any degrees; and reading back of every degree and batch size that can be set. The program examples/assembly.rs ends, and prints a square of numbers, on every shape, for every standard family, operator and degrees with rules.", "quantifier": "all grids, levels, screen sizes, degrees, element families, operators, option values, and thread schedules", "why_tests_cant": "The suites run these assertions for levels 0 to 3 and degrees up to 4 only, for one colouring test with the wrong family (test_colouring_rt1 makes a continuous Lagrange space), and for one schedule per run.", "anchors": ["tests/test_space.rs:16-295", "python/test/test_function_space.py:8-119", "python/test/test_boundary_assembler.py:11-67", "examples/assembly.rs:9-39", "src/function.rs:106-237", "src/function.rs:281-351", "src/function.rs:365-445"]}
{"id": "C120", "title": "The matrices on the sphere commute with its turns: turned data have turned solutions", "statement": "On the sphere of every level, for the eight turns that keep the vertical axis up to direction: if y is the assembled matrix times x, then the coefficients of the turned y are the matrix times the coefficients of the turned x (on the image of a cell a turned function has the coefficients it had on the cell). So a right-hand side that a turn does not change has a solution that the turn does not change, if there is only one solution. On the octahedron (level 0) the rows of any two functions with the same local number on their cells have the same sum, and the columns; for one function per cell all rows have the same sum and all columns, so that the matrix takes constants to constants.", "quantifier": "for all levels, turns, coefficient vectors, pairs of spaces, operators of both equations, wavenumbers, Green's functions of the distance, rules, options and schedules", "why_tests_cant": "The stored reference matrices show the symmetry on the octahedron for one rule, to the tolerance of the comparison; that products and solutions are symmetric for all levels, spaces and vectors cannot be tested.", "anchors": ["src/shapes.rs:19-114", "src/boundary_assemblers.rs:158-521", "src/boundary_assemblers/cell_pair_assemblers.rs:1-340", "src/function.rs:365-445", "src/laplace.rs:34-78", "src/helmholtz.rs:44-107"]}
{"id": "C121", "title": "The hypersingular matrix is the single layer matrix between surface curls, and its kernel are the constants", "statement": "The Laplace hypersingular matrix that assemble makes is the sum over the three components n of C_n' V D_n, where V is the single layer matrix (assembled with the same options and rules) of spaces whose functions combine with coefficients C_n and D_n to the surface curls of the test and trial functions; the same holds for the sparse matrices of cells that touch, and for Helmholtz with minus the squared wavenumber times the matrix between functions times normals added. For linear functions on flat triangles V can be that of the piecewise constant functions and the coefficients are edges divided by twice the area. Consequently, on every sphere and triangulated screen: if V is positive semidefinite or symmetric, so is the hypersingular matrix; if V is positive definite, the quadratic form of the hypersingular matrix is zero exactly at the constants, which are its whole kernel. The grids of all shapes are connected.", "quantifier": "for all grids, spaces, kernels, wavenumbers, rules, options and schedules; for all levels of the sphere and sizes of the screens", "why_tests_cant": "A test compares the hypersingular matrix with stored numbers on the octahedron; the relation between two operators and the dimension of a kernel for all levels and sizes are statements about infinitely many matrices.", "anchors": ["src/boundary_assemblers/integrands/hypersingular.rs:31-99", "src/laplace.rs:34-78", "src/helmholtz.rs:44-107", "src/boundary_assemblers.rs:122-521", "src/boundary_assemblers/cell_pair_assemblers.rs:1-340", "src/shapes.rs:19-223"]}
{"id": "C122", "title": "Entries of the hypersingular matrix decay with the third power of the distance of the vertices", "statement": "For linear functions on flat triangles, the entry of the Laplace hypersingular matrix for two vertices whose cells are within h and h' of them, with d left of their distance, is at most l l'/(4 pi d) in size, where l is half the length of the edges opposite the vertex in the cells around it; if the cells close up around one of the vertices (the opposite edges form a closed polygon) at most l l' h/(4 pi d^2), and if they do around both at most l l' h h'/(2 pi d^3), for every rule with positive weights inside the cell that is exact for constants. On the sphere of any level all vertices are of this kind, so every entry for vertices more than two longest edges apart is at most 162/(pi (4^level+2)^2 d^3); on a screen of triangles the vertices inside are, and the bounds are 9/(2 pi d k), 9 sqrt 2/(2 pi d^2 k) and 18/(pi d^3 k), with distances counted in steps of 1/k. The same quadrature points for all cells make the leading terms cancel exactly, not only in the limit of exact integration.", "quantifier": "for all grids of flat triangles, rules of the stated kind, vertices, options and schedules; for all levels of the sphere and sizes of the screens", "why_tests_cant": "Tests compare a few entries on the octahedron, where all cells touch or are opposite; a bound for all pairs of vertices on all refinements cannot be tested, and an implementation with a wrong sign in one of the local curls, or with different rules for neighbouring cells, would have entries that decay more slowly without failing on small grids.", "anchors": ["src/boundary_assemblers/integrands/hypersingular.rs:31-57", "src/laplace.rs:34-78", "src/boundary_assemblers.rs:158-521", "src/boundary_assemblers/cell_pair_assemblers.rs:117-340", "src/function.rs:365-445", "src/shapes.rs:19-223"]}
{"id": "C123", "title": "Entries of distant cells are the exact integrals up to an error that falls geometrically with the degree of the regular rule", "statement": "For piecewise constant functions on flat cells whose corners are within h and h' of their centres, with the centres a > h + h' apart and regular rules with non-negative weights and points inside the cell that are exact for polynomials of degree k, the entry of the Laplace single layer matrix differs from the integral of the Green's function over the two cells by at most 2 q^(k+1)/(1-q) times the product of the areas divided by 4 pi a, where q = (h+h')/a. Two assemblers with any such rules differ by no more. On the sphere of any level q is sqrt(32/(3(4^level+2)))/a, on a screen with n squares on a side sqrt(20)/(3(n+1)a) for triangles and sqrt(2)/((n+1)a) for squares. So choosing a rule of higher degree with set_regular_quadrature_degree makes these entries converge, to the integral.", "quantifier": "for all grids of flat triangles or parallelograms, pairs of distant cells, degrees k, rules of the stated kind, options and schedules; for all levels of the sphere and sizes of the screens", "why_tests_cant": "A test compares two rules on one grid up to a tolerance; that every rule of degree k is within a bound of the integral, for all k and all pairs of cells, cannot be tested, and a rule whose points and weights are paired wrongly, or used on the wrong cell, can still be right for constants.", "anchors": ["src/boundary_assemblers.rs:61-65", "src/boundary_assemblers.rs:396-521", "src/boundary_assemblers.rs:689-773", "src/boundary_assemblers/cell_pair_assemblers.rs:117-340", "src/laplace.rs:34-41", "src/shapes.rs:19-223"]}
{"id": "C124", "title": "Entries of distant vertices, for the single layer and the hypersingular operator, are the exact integrals up to an error that falls geometrically with the degree of the regular rule", "statement": "For linear functions of vertices (lagrange 1) on flat triangles, two vertices a apart whose cells are within h and h' of them with h + h' < a, q = (h+h')/a, and regular rules with non-negative weights and points inside the triangle: if the rule is exact for polynomials of degree k+1, the entry of the Laplace single layer matrix differs from the integral of the Green's function times the two functions over the cells around the vertices by at most 2 q^(k+1)/(1-q) times the product of a third of the areas of these cells divided by 4 pi a; if it is exact for degree k, the entry of the hypersingular matrix differs from the integral of the Green's function times the inner product of the surface curls of the two functions by at most 2 q^(k+1)/(1-q) times l l'/(4 pi a), where l is half the length of the edges opposite the vertex. On the sphere h is sqrt(6/(4^level+2)), on a screen of triangles with n squares on a side sqrt(2)/(n+1), for all vertices, and l is at most 3h. So assembly over cells, local numbers, reference curls and signs puts together the integral that defines the operator.", "quantifier": "for all grids of flat triangles, pairs of distant vertices, degrees k, rules of the stated kind, options and schedules; for all levels of the sphere and sizes of the screens", "why_tests_cant": "A test compares entries with stored numbers made with one rule on the octahedron, where no two vertices are far apart; that every entry for distant vertices is the integral it stands for up to a bound, for all rules, cannot be tested.", "anchors": ["src/boundary_assemblers.rs:61-65", "src/boundary_assemblers.rs:396-521", "src/boundary_assemblers.rs:689-773", "src/boundary_assemblers/cell_pair_assemblers.rs:117-340", "src/boundary_assemblers/integrands/hypersingular.rs:31-57", "src/laplace.rs:34-78", "src/function.rs:365-445", "src/shapes.rs:19-223"]}
{"id": "C125", "title": "Entries of functions of any degree with distant supports are the exact integrals up to an error that falls geometrically with the degree of the regular rule", "statement": "For spaces of any element on flat triangles or parallelograms whose functions are polynomials of degree at most d on the reference cell, continuous or not: take functions i and j of the test and trial space, bounded by M and M', that live on cells which do not touch and whose corners are within h and h' of points a > h + h' apart; q = (h+h')/a. If the regular rule has non-negative weights and points inside the cell and is exact for polynomials of degree k+d, entry (i, j) of the Laplace single layer matrix differs from the integral of the Green's function times the two functions by at most 2 q^(k+1)/(1-q) times M times the area of the cells of i times M' times the area of the cells of j divided by 4 pi a. The integral is unique. For discontinuous functions on the sphere of any level q is sqrt(32/(3(4^level+2)))/a with a the distance of the centres of the cells, on a screen with n squares on a side sqrt(20)/(3(n+1)a) for triangles and sqrt(2)/((n+1)a) for squares. For continuous functions on any two of their cells q is three times as large. So higher degrees of the elements need rules that are more exact by the same number, and no more.", "quantifier": "for all grids of flat triangles or parallelograms, elements, degrees d and k, pairs of functions with distant supports, rules of the stated kind, options and schedules; for all levels of the sphere and sizes of the screens", "why_tests_cant": "Tests use constants and linear functions on the octahedron with stored numbers; that every entry for every element is the integral it stands for up to a bound cannot be tested, and an exchange of local numbers or of the test and trial function shows only for functions of higher degree on grids without symmetry.", "anchors": ["src/boundary_assemblers.rs:61-65", "src/boundary_assemblers.rs:396-521", "src/boundary_assemblers.rs:689-773", "src/boundary_assemblers/cell_pair_assemblers.rs:117-340", "src/laplace.rs:34-41", "src/function.rs:106-237", "src/function.rs:365-445", "src/shapes.rs:19-223"]}
{"id": "C126", "title": "Double layer and adjoint double layer entries of functions of any degree with distant supports are the exact integrals of the normal derivative up to an error that falls geometrically with the degree of the regular rule", "statement": "For spaces of any element on flat triangles or parallelograms whose functions are polynomials of degree at most d on the reference cell, continuous or not: take functions i and j of the test and trial space, bounded by M and M', that live on cells which do not touch and whose corners are within h and h' of points a > h + h' apart; q = (h+h')/a. If the regular rule has non-negative weights and points inside the cell and is exact for polynomials of degree k+d+1, entry (i, j) of the Laplace double layer matrix differs from the integral of the two functions times the derivative of the Green's function in the direction of the unit normal of the trial cell, and entry (i, j) of the adjoint double layer matrix from the integral of the two functions times minus the derivative in the direction of the unit normal of the test cell, by at most 6 (1+q) (q/s)^(k+1)/(1-s)^3 times M times the area of the cells of i times M' times the area of the cells of j divided by 4 pi a^2, for every s between q and 1. The integrals are unique. For discontinuous functions on the sphere of any level q is sqrt(32/(3(4^level+2)))/a with a the distance of the centres of the cells. For continuous functions on any two of their cells q is three times as large. So the operators take the normal of the right cell with the right sign, on every pair of cells.", "quantifier": "for all grids of flat triangles or parallelograms, elements, degrees d and k, pairs of functions with distant supports, rules of the stated kind, s between q and 1, options and schedules; for all levels of the sphere", "why_tests_cant": "Tests compare the double layer with stored numbers on the octahedron for constants; that every entry is the integral of the normal derivative up to a bound, for every element, grid and rule, cannot be tested, and the normal of the wrong cell or a sign shows in the sign of some entries only.", "anchors": ["src/boundary_assemblers.rs:61-65", "src/boundary_assemblers.rs:396-521", "src/boundary_assemblers.rs:689-773", "src/boundary_assemblers/cell_pair_assemblers.rs:117-340", "src/boundary_assemblers/integrands/double_layer.rs:23-38", "src/boundary_assemblers/integrands/adjoint_double_layer.rs:23-38", "src/laplace.rs:42-63", "src/function.rs:365-445", "src/shapes.rs:19-114"]}
{"id": "C127", "title": "Hypersingular entries of functions of any degree with distant supports are the exact integrals of their surface curls up to an error that falls geometrically with the degree of the regular rule", "statement": "For spaces of any element on flat triangles or parallelograms, with tabulated derivatives that are the derivatives of the functions and polynomials of degree at most d on the reference cell, continuous or not: take functions i and j of the test and trial space, with surface curls no longer than M and M', that live on cells which do not touch and whose corners are within h and h' of points a > h + h' apart; q = (h+h')/a. If the regular rule has non-negative weights and points inside the cell and is exact for polynomials of degree k+d, entry (i, j) of the Laplace hypersingular matrix differs from the integral of the Green's function times the inner product of the surface curls of the two functions by at most 2 q^(k+1)/(1-q) times M times the area of the cells of i times M' times the area of the cells of j divided by 4 pi a. The surface curl is the product of the unit normal of the cell with the gradient of the function along the cell; the integral is unique. On the sphere of any level and on screens of both cell types, for continuous or discontinuous functions on any two cells whose centres are a apart, q is 3 sqrt(32/(3(4^level+2)))/a and 3 sqrt(s)/((n+1)a) with s = 20/9 for triangles and 2 for quadrilaterals: cells that share a degree of freedom touch, so a function lives within three cell radii of the centre of any of its cells.", "quantifier": "for all grids of flat triangles or parallelograms, elements, degrees d and k, pairs of functions with distant supports, rules of the stated kind, options and schedules; for all levels of the sphere and sizes of screens", "why_tests_cant": "Tests compare the hypersingular operator with stored numbers on the octahedron for linear functions; that every entry is the integral of the curls up to a bound, for every element, grid and rule, cannot be tested, and an exchanged derivative or edge of a cell leaves the matrix symmetric and plausible.", "anchors": ["src/boundary_assemblers.rs:61-65", "src/boundary_assemblers.rs:396-521", "src/boundary_assemblers.rs:689-773", "src/boundary_assemblers/cell_pair_assemblers.rs:117-340", "src/boundary_assemblers/integrands/hypersingular.rs:31-57", "src/laplace.rs:66-78", "src/function.rs:106-237", "src/function.rs:365-445", "src/shapes.rs:19-223"]}
{"id": "C128", "title": "Real and imaginary parts of Helmholtz single layer entries of functions of any degree with distant supports are the exact integrals up to an error that falls geometrically with the degree of the regular rule", "statement": "For spaces of any element on flat triangles or parallelograms whose functions are real polynomials of degree at most d on the reference cell, continuous or not, and any real wavenumber k: take functions i and j of the test and trial space, bounded by M and M', that live on cells which do not touch and whose corners are within h and h' of points a > h + h' apart; q = (h+h')/a. If the regular rule has non-negative weights and points inside the cell and is exact for polynomials of degree n+d, the real part of entry (i, j) of the Helmholtz single layer matrix differs from the integral of cos(kr)/(4 pi r) times the two functions, and the imaginary part from the integral of sin(kr)/(4 pi r) times the two functions, by at most 2 s^(n+1)/(1-q) exp(|k|(a+h+h')/s) times M times the area of the cells of i times M' times the area of the cells of j divided by 4 pi a, for every s < 1 not below q. The integrals are unique. On the sphere of any level and on screens of both cell types, for any two cells whose centres are a apart, q is 3 sqrt(32/(3(4^level+2)))/a and 3 sqrt(s)/((m+1)a) with s = 20/9 for triangles and 2 for quadrilaterals. So for every wavenumber refining the rule converges to the entry of the boundary integral operator, with real and imaginary part in their places.", "quantifier": "for all wavenumbers, grids of flat triangles or parallelograms, elements, degrees d and n, pairs of functions with distant supports, rules of the stated kind, s from q up to 1, options and schedules; for all levels of the sphere and sizes of screens", "why_tests_cant": "Tests compare the Helmholtz operators with stored numbers for one wavenumber on the octahedron; that every entry is the integral up to a bound, for every wavenumber, element, grid and rule, cannot be tested, and an oscillating kernel can agree with a wrong one at one wavenumber.", "anchors": ["src/boundary_assemblers.rs:61-65", "src/boundary_assemblers.rs:396-521", "src/boundary_assemblers.rs:689-773", "src/boundary_assemblers/cell_pair_assemblers.rs:117-340", "src/boundary_assemblers/integrands/single_layer.rs", "src/helmholtz.rs:44-55", "src/function.rs:365-445", "src/shapes.rs:19-223"]}
{"id": "C129", "title": "Real and imaginary parts of Helmholtz double layer and adjoint double layer entries of functions of any degree with distant supports are the exact integrals of the normal derivative up to an error that falls geometrically with the degree of the regular rule", "statement": "For spaces of any element on flat triangles or parallelograms whose functions are real polynomials of degree at most d on the reference cell, continuous or not, and any real wavenumber k: take functions i and j of the test and trial space, bounded by M and M', that live on cells which do not touch and whose corners are within h and h' of points a > h + h' apart; q = (h+h')/a. If the regular rule has non-negative weights and points inside the cell and is exact for polynomials of degree n+d+1, the real and the imaginary part of entry (i, j) of the Helmholtz double layer matrix differ from the integral of the two functions times the derivative of cos(kr)/(4 pi r) and sin(kr)/(4 pi r) in the direction of the unit normal of the trial cell, and those of the adjoint double layer matrix from the integral of the two functions times minus the derivative in the direction of the unit normal of the test cell, by at most 6 (1+q) s^(n+1)/(1-s)^3 exp(2|k|(a+h+h')/s) times M times the area of the cells of i times M' times the area of the cells of j divided by 4 pi a^2, for every s < 1 with s^2 not below q. The integrals are unique. On the sphere of any level, for continuous or discontinuous functions on any two cells whose centres are a apart, q is 3 sqrt(32/(3(4^level+2)))/a.", "quantifier": "for all wavenumbers, grids of flat triangles or parallelograms, elements, degrees d and n, pairs of functions with distant supports, rules of the stated kind, s from the root of q up to 1, options and schedules; for all levels of the sphere", "why_tests_cant": "Tests compare the Helmholtz double layers with stored numbers for one wavenumber on the octahedron; that every entry is the integral of the normal derivative up to a bound, for every wavenumber, element, grid and rule, cannot be tested, and the normal of the wrong cell or exchanged parts show at some entries and wavenumbers only.", "anchors": ["src/boundary_assemblers.rs:61-65", "src/boundary_assemblers.rs:396-521", "src/boundary_assemblers.rs:689-773", "src/boundary_assemblers/cell_pair_assemblers.rs:117-340", "src/boundary_assemblers/integrands/double_layer.rs:23-38", "src/boundary_assemblers/integrands/adjoint_double_layer.rs:23-38", "src/helmholtz.rs:56-86", "src/function.rs:365-445", "src/shapes.rs:19-114"]}
{"id": "C130", "title": "Real and imaginary parts of Helmholtz hypersingular entries of functions of any degree with distant supports are the exact integrals of curls and normals up to an error that falls geometrically with the degree of the regular rule", "statement": "For spaces of any element on flat triangles or parallelograms, with tabulated values and derivatives that are those of real functions, both polynomials of degree at most d on the reference cell, continuous or not, and any real wavenumber k: take functions u and v of the test and trial space with entry (i, j), bounded by B and B', with surface curls no longer than M and M', that live on cells which do not touch and whose corners are within h and h' of points a > h + h' apart; q = (h+h')/a. If the regular rule has non-negative weights and points inside the cell and is exact for polynomials of degree n+d, the real and the imaginary part of entry (i, j) of the Helmholtz hypersingular matrix differ from the integrals of cos(kr)/(4 pi r) and sin(kr)/(4 pi r) times (curl u . curl v - k^2 (normal . normal') u v) by at most 2 s^(n+1)/(1-q) exp(|k|(a+h+h')/s) (M M' + k^2 B B') times the area of the cells of i times the area of the cells of j divided by 4 pi a, for every s < 1 not below q. The integrals are unique. On the sphere of any level and on screens of both cell types, for any two cells whose centres are a apart, q is 3 sqrt(32/(3(4^level+2)))/a and 3 sqrt(s)/((m+1)a) with s = 20/9 for triangles and 2 for quadrilaterals. So the two terms have the right signs and the right power of the wavenumber, for every wavenumber.", "quantifier": "for all wavenumbers, grids of flat triangles or parallelograms, elements, degrees d and n, pairs of functions with distant supports, rules of the stated kind, s from q up to 1, options and schedules; for all levels of the sphere and sizes of screens", "why_tests_cant": "Tests compare the Helmholtz hypersingular operator with stored numbers for one wavenumber on the octahedron; that every entry is the integral up to a bound, for every wavenumber, element, grid and rule, cannot be tested, and a wrong power of the wavenumber or sign of one term can agree at one wavenumber.", "anchors": ["src/boundary_assemblers.rs:61-65", "src/boundary_assemblers.rs:396-521", "src/boundary_assemblers.rs:689-773", "src/boundary_assemblers/cell_pair_assemblers.rs:117-340", "src/boundary_assemblers/integrands/hypersingular.rs:31-57", "src/boundary_assemblers/integrands/hypersingular.rs:83-99", "src/boundary_assemblers/integrands.rs:244-317", "src/helmholtz.rs:88-107", "src/function.rs:365-445", "src/shapes.rs:19-223"]}
{"id": "C131", "title": "Entries of functions with distant supports computed in floating point are the exact integrals up to the rounding error and the error of the rule", "statement": "On regular_sphere of any level and the screens, with continuous or discontinuous Lagrange elements: let the data of the floating point assembly (rules, geometry, values of functions and kernel) be within n roundings of exact data with flat cells, functions that are polynomials of degree at most d and a regular rule of degree k+d with non-negative weights and points inside the cell. Take functions i and j, bounded by M and M', with a cell of i and a cell of j whose centres are a apart, further than the reach h of three cells; q = h/a. The entry (i, j) of the single layer matrix that assemble computes with p >= 12 bits, with any schedule of threads, differs from the integral w of the kernel times the two functions by at most 2^(12-p) |w| + (1 + 2^(12-p)) E where E = 2 q^(k+1)/(1-q) times M times the area of the cells of i times M' times the area of the cells of j divided by 4 pi a, if the basis functions are not negative at the points of the rules and 7 n + 42 plus the number of points of the rule for a pair of cells is at most 2048. Without the condition on the signs, and for the double layers (on the sphere) and the hypersingular operator, the error is at most 2^(12-p) times the entry (i, j) of the matrix assembled with the absolute values of kernel, functions and normals in place of their values, plus the bound of the error of the rule in C125, C126 and C127 (with 8 n + 45 and 11 n + 50 in place of 7 n + 42).", "quantifier": "for all levels of the sphere and sizes of screens, degrees of elements, numbers of bits from 12, rounding of data, degrees of rules, pairs of functions with distant supports, options and schedules", "why_tests_cant": "Tests compare some entries with stored numbers in double precision to a tolerance; that the computed number is the mathematical integral within a bound, for every level, degree, precision and order of the additions, cannot be tested because the exact integral is not computable by the library.", "anchors": ["src/boundary_assemblers.rs:61-65", "src/boundary_assemblers.rs:396-521", "src/boundary_assemblers.rs:610-773", "src/boundary_assemblers/cell_pair_assemblers.rs:117-340", "src/boundary_assemblers/integrands/single_layer.rs", "src/boundary_assemblers/integrands/double_layer.rs:23-38", "src/boundary_assemblers/integrands/adjoint_double_layer.rs:23-38", "src/laplace.rs:34-63", "src/function.rs:365-445", "src/shapes.rs:19-223"]}
{"id": "C132", "title": "Real and imaginary parts of Helmholtz entries of functions with distant supports computed in complex floating point are the exact integrals up to the rounding error and the error of the rule", "statement": "On regular_sphere of any level and the screens, with continuous or discontinuous Lagrange elements and any real wavenumber k: let the data of the complex floating point assembly (rules, geometry, values of functions and kernel, and for the hypersingular operator the factor -k^2) be within n complex roundings (relative error below 8 times 2^-p) of exact data with flat cells, functions that are polynomials of degree at most d and a regular rule with non-negative weights and points inside the cell that is exact for polynomials of degree m+d (m+d+1 for the double layers). Take functions i and j with a cell of i and a cell of j whose centres are further apart than the reach of three cells. The real and the imaginary part of entry (i, j) of the single layer, double layer, adjoint double layer (on the sphere) and hypersingular matrix that assemble computes with p >= 15 bits for each part, with any schedule of threads, differ from the integrals of the real and the imaginary part of the kernel by at most 2^(15-p) times the entry (i, j) of the matrix assembled with the absolute values of kernel, functions and normals in place of their values, plus the bound of the error of the rule in C128, C129 and C130, if 7 n + 42 (8 n + 45 for the double layers, 11 n + 51 for the hypersingular operator) plus the number of points of the rule for a pair of cells is at most 2048.", "quantifier": "for all wavenumbers, levels of the sphere and sizes of screens, degrees of elements, numbers of bits from 15, rounding of data, degrees of rules, pairs of functions with distant supports, options and schedules", "why_tests_cant": "Tests compare complex entries with stored numbers for one wavenumber to a tolerance; that both parts of the computed number are the mathematical integrals within a bound, for every wavenumber, level, degree, precision and order of the additions, cannot be tested because the exact integrals are not computable by the library.", "anchors": ["src/boundary_assemblers.rs:61-65", "src/boundary_assemblers.rs:396-521", "src/boundary_assemblers.rs:610-773", "src/boundary_assemblers/cell_pair_assemblers.rs:117-340", "src/boundary_assemblers/integrands/double_layer.rs:23-38", "src/boundary_assemblers/integrands/adjoint_double_layer.rs:23-38", "src/boundary_assemblers/integrands/hypersingular.rs:31-57", "src/boundary_assemblers/integrands/hypersingular.rs:83-99", "src/helmholtz.rs:44-107", "src/function.rs:365-445", "src/shapes.rs:19-223"]}
{"id": "C133", "title": "The only rigid maps that send the grid of the sphere to itself are the 48 symmetries of the octahedron, at every level", "statement": "For every level L, a map of space that keeps distances (any combination of rotations, reflections and translations) sends the corners of every cell of regular_sphere(L) to the corners of a cell if and only if it permutes the axes and changes signs of coordinates. The six orders and three signs are determined by the map, so there are exactly 48 such maps. In particular no refinement adds a symmetry: no level is mapped to itself by a rotation about an axis by an angle that is not a multiple of 90 degrees such as arccos(3/5), nor by a translation. If the order of the vertices of the cells is to be kept as well, as C97 needs, exactly the eight turns that keep the third axis up to its direction are left, at every level.", "quantifier": "every level, every map of space that keeps distances; exact real arithmetic", "why_tests_cant": "Symmetries of a given list can be tested for a given level, but that there is no further rigid map among the infinitely many, at any level, cannot; code that exploits or breaks symmetry (group-reduced matrices, choice of a rotated right-hand side as an independent test) relies on the exact group.", "anchors": ["src/shapes.rs:regular_sphere (19-114)"]}
{"id": "C134", "title": "The only rigid maps that send a screen to itself are the symmetries of the square, 16 for quadrilaterals and 8 for triangles, at every size", "statement": "For every number n > 0 of cells per side, a map of space that keeps distances sends the corners of every cell of screen_quadrilaterals(n) to the corners of a cell if and only if it is one of 16 maps: exchange x and y or not, replace x by a - x or not, y by a - y or not, and z by -z or not, where a = n/(n+1) is the side of the square that the screen covers. For screen_triangles(n) it is one of the 8 of them that reflect both of x and y or neither, because all diagonals point in the same direction. The choices are determined by the map. In particular the quarter turn about the centre of the square is a symmetry of all screens of quadrilaterals and of no screen of triangles, and no screen is symmetric about the centre (1/2, 1/2) of the documented unit square. If the order of the vertices of the cells is to be kept as well, as C97 needs, only the identity and the reflection in the plane of the screen are left.", "quantifier": "every number of cells per side, both cell types, every map of space that keeps distances; exact real arithmetic", "why_tests_cant": "Symmetries from a given list can be tested for a given size, but that there is no further rigid map among the infinitely many, for any size, cannot; users who reduce a problem by symmetry or check a matrix against a reflected one rely on the exact group, and expect the same one for both cell types.", "anchors": ["src/shapes.rs:screen_triangles (120-174)", "src/shapes.rs:screen_quadrilaterals (178-223)"]}
{"id": "C135", "title": "With symmetric quadrature rules, entries of cells that do not touch have all symmetries of the sphere grid and of the screens", "statement": "On regular_sphere of any level, with piecewise constants and the Laplace single layer operator, or the Helmholtz single layer operator with any real wavenumber: if the regular rule does not change when two corners of the reference triangle are exchanged (points and weights, in any order), then for each of the 48 symmetries of the octahedron, reflections and third turns included, the entry of two cells that do not touch is equal to the entry of the two cells that they are mapped to. The symmetry may change the order of the vertices of the cells, so C97, which holds for any rule but only for the eight turns that keep the order (C133), does not give this. The same holds on screen_triangles of any size for the symmetries of the square (C134), which except for the identity and the reflection in its plane all change the order of the vertices; and on screen_quadrilaterals of any size, if the regular rule does not change when the reference square is reflected in its diagonal or in a middle line. The condition on the rule is needed: with the rule that has one point in the second corner of the triangle, exchanging x and y changes an entry of the Laplace single layer matrix on every screen_triangles(n) with n >= 3.", "quantifier": "for all wavenumbers, levels of the sphere and sizes of screens, symmetries of the octahedron and of the square, pairs of cells that do not touch, symmetric rules, numberings of the DOFs, options and schedules; exact real arithmetic", "why_tests_cant": "A test can compare a few entries for one level and rule; that all entries of cells that do not touch have all symmetries for every level and every symmetric rule cannot be tested. Users who reduce a problem by symmetry, or compare an assembled matrix with its image, need to know that the order in which the code numbers the vertices of a cell does not show in these entries.", "anchors": ["src/boundary_assemblers.rs:396-521", "src/boundary_assemblers.rs:689-773", "src/boundary_assemblers/cell_pair_assemblers.rs:117-340", "src/shapes.rs:19-223"]}
