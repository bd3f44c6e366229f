{
 "claims": [
  {
   "property": "C01",
   "status": "proved",
   "theorems": [
    "C01_local_numbers_bijective"
   ],
   "note": "For all well-formed grids and element families, via an invariant of the assign_dofs loop."
  },
  {
   "property": "C02",
   "status": "proved",
   "theorems": [
    "C02_cell_dofs_distinct_in_range"
   ],
   "note": ""
  },
  {
   "property": "C03",
   "status": "proved",
   "theorems": [
    "C03_cell_dofs_of_entity",
    "C03_shared_dof_shared_entity"
   ],
   "note": ""
  },
  {
   "property": "C04",
   "status": "proved",
   "theorems": [
    "C04_discontinuous"
   ],
   "note": ""
  },
  {
   "property": "C05",
   "status": "proved",
   "theorems": [
    "C05_dimension",
    "C05_dimension_lagrange"
   ],
   "note": "Includes the closed formula for Lagrange elements of every degree on one cell type."
  },
  {
   "property": "C06",
   "status": "proved",
   "theorems": [
    "C06_total",
    "C06_tdim3_panics"
   ],
   "note": ""
  },
  {
   "property": "C07",
   "status": "partial",
   "theorems": [
    "C07_shared_edge_points",
    "C07_edge_points_refuted"
   ],
   "note": "REFUTED for two or more DOFs per edge: on screen_triangles(2) with degree 3 elements a shared DOF is at two different points of the edge. What holds instead: C07_shared_edge_points characterises exactly when the points agree (same direction, or the midpoint), so in particular with at most one DOF per edge."
  },
  {
   "property": "C14",
   "status": "proved",
   "theorems": [
    "C14_colouring_partition",
    "C14_zero_dimension_panics"
   ],
   "note": "For spaces whose element on the first cell type has at least one DOF; otherwise cell_colouring panics (second theorem)."
  },
  {
   "property": "C15",
   "status": "proved",
   "theorems": [
    "C15_same_colour_no_shared_dof"
   ],
   "note": "Also across the entries of different cell types."
  },
  {
   "property": "C16",
   "status": "proved",
   "theorems": [
    "C16_colour_bound",
    "C16_interior_one_colour"
   ],
   "note": ""
  },
  {
   "property": "C08",
   "status": "proved",
   "theorems": [
    "C08_global_numbering"
   ],
   "note": "For every buffering behaviour of the message passing."
  },
  {
   "property": "C09",
   "status": "proved",
   "theorems": [
    "C09_ghosts_agree_with_owner"
   ],
   "note": ""
  },
  {
   "property": "C10",
   "status": "proved",
   "theorems": [
    "C10_global_size"
   ],
   "note": ""
  },
  {
   "property": "C11",
   "status": "proved",
   "theorems": [
    "C11_serial_identity"
   ],
   "note": ""
  },
  {
   "property": "C12",
   "status": "proved",
   "theorems": [
    "C12_buffered_creation"
   ],
   "note": "Interleavings of point-to-point messages with unlimited buffering."
  },
  {
   "property": "C13",
   "status": "partial",
   "theorems": [
    "C13_synchronous_refuted",
    "C13_synchronous_never_completes"
   ],
   "note": "REFUTED: with synchronous sends the requests of all processes wait for each other. What holds instead: no process ever returns for any grid on two or more processes (second theorem), completion needs buffering (C12)."
  },
  {
   "property": "C51",
   "status": "partial",
   "theorems": [
    "C51_every_limit_refuted",
    "C51_above_limit_never_completes",
    "C51_below_limit_completes"
   ],
   "note": "REFUTED: for every eager limit there is a two-process grid on which creation deadlocks. What holds instead: it completes if no process has more ghosts than the limit with any one owner, and deadlocks if a set of processes exceeds it among themselves."
  },
  {
   "property": "C17",
   "status": "proved",
   "theorems": [
    "C17_options_history"
   ],
   "note": ""
  },
  {
   "property": "C18",
   "status": "partial",
   "theorems": [
    "C18_set_takes_effect_refuted",
    "C18_unsupported_types_ignored"
   ],
   "note": "REFUTED: the setters use and_modify, so a degree for a cell type without default is silently dropped, in every history. What holds instead: C17 for triangles and quadrilaterals."
  },
  {
   "property": "C19",
   "status": "proved",
   "theorems": [
    "C19_batches_tile"
   ],
   "note": "The number of usize values is a parameter; overflow would be a panic in the model."
  },
  {
   "property": "C20",
   "status": "partial",
   "theorems": [
    "C20_termination_refuted",
    "C20_batch_zero_never_ends",
    "C20_dense_never_ends",
    "C20_sparse_never_ends",
    "C20_singular_never_ends"
   ],
   "note": "REFUTED: batch size 0 is accepted and the loops then never end; dense and sparse assembly on any grid with (owned) cells never end with it. What holds instead: C19 and C21 for every positive batch size."
  },
  {
   "property": "C22",
   "status": "proved",
   "theorems": [
    "C22_touching_pairs_once"
   ],
   "note": ""
  },
  {
   "property": "C23",
   "status": "proved",
   "theorems": [
    "C23_right_rule",
    "C23_duffy_rule"
   ],
   "note": ""
  },
  {
   "property": "C24",
   "status": "partial",
   "theorems": [
    "C24_nonconforming_refuted",
    "C24_panics_exactly_without_rule"
   ],
   "note": "REFUTED: two quadrilaterals sharing two opposite corners make the look-up panic. What holds instead: it panics exactly when some touching pair has a vertex coincidence pattern without a rule; on conforming grids never (C23)."
  },
  {
   "property": "C36",
   "status": "proved",
   "theorems": [
    "C36_tensor_formula",
    "C36_other_cells_refused"
   ],
   "note": "Every arithmetic (no laws assumed), every history of calls. Geometry maps, tabulation and kernel values come from external crates and are arbitrary functions."
  },
  {
   "property": "C37",
   "status": "proved",
   "theorems": [
    "C37_pairwise_formula"
   ],
   "note": "As C36."
  },
  {
   "property": "C38",
   "status": "proved",
   "theorems": [
    "C38_reads_inside",
    "C38_arrays",
    "C38_operators_fit",
    "C38_derivatives_needed"
   ],
   "note": "Reads are checked against the shape of the arrays, which is stricter than the allocation."
  },
  {
   "property": "C21",
   "status": "proved",
   "theorems": [
    "C21_dense_batch_size",
    "C21_singular_batch_size"
   ],
   "note": "No law of the addition is assumed. The dense part is for grids with one cell type (for others see C35, C52)."
  },
  {
   "property": "C25",
   "status": "proved",
   "theorems": [
    "C25_every_reduction"
   ],
   "note": "Any spaces, any options, failures included."
  },
  {
   "property": "C26",
   "status": "proved",
   "theorems": [
    "C26_inside",
    "C26_capacity",
    "C26_triplets"
   ],
   "note": "Spaces of one process of any distributed creation, on a conforming grid. The third theorem also gives the values."
  },
  {
   "property": "C27",
   "status": "partial",
   "theorems": [
    "C27_refuted",
    "C27_threshold"
   ],
   "note": "REFUTED: if all contributions have modulus at most 1e-10 the returned matrix is empty, e.g. the single layer operator on a screen of micrometre size. What holds instead: all triplets are returned if at least one of them is above the threshold, none otherwise."
  },
  {
   "property": "C28",
   "status": "proved",
   "theorems": [
    "C28_no_singular_part",
    "C28_all_regular"
   ],
   "note": "The identity of grid objects is modelled as an id. The second theorem is in exact arithmetic and for grids with one cell type."
  },
  {
   "property": "C30",
   "status": "proved",
   "theorems": [
    "C30_race_free"
   ],
   "note": "Every state reachable by interleaving loads and stores."
  },
  {
   "property": "C31",
   "status": "proved",
   "theorems": [
    "C31_one_outcome",
    "C31_every_schedule",
    "C31_sequential_schedule"
   ],
   "note": "No law of the addition is assumed."
  },
  {
   "property": "C32",
   "status": "proved",
   "theorems": [
    "C32_entries",
    "C32_values_determined"
   ],
   "note": "Exact arithmetic."
  },
  {
   "property": "C33",
   "status": "proved",
   "theorems": [
    "C33_rejected",
    "C33_added",
    "C33_assemble_is_on_zeros",
    "C33_assemble_refuses"
   ],
   "note": ""
  },
  {
   "property": "C34",
   "status": "proved",
   "theorems": [
    "C34_writes_inside"
   ],
   "note": ""
  },
  {
   "property": "C35",
   "status": "partial",
   "theorems": [
    "C35_refuted",
    "C35_missing_type"
   ],
   "note": "REFUTED: the cell types are swapped in the call of assemble_batch_nonadjacent, so assembly never returns when a type of one grid is missing in the other, whatever the operator, options and rules (second theorem). What holds instead: C32 for equal types."
  },
  {
   "property": "C52",
   "status": "partial",
   "theorems": [
    "C52_refuted"
   ],
   "note": "REFUTED: with the swapped cell types a local matrix of the wrong shape is filled and the tables are read outside their bounds through unchecked accesses. What holds instead: C32 for grids with one cell type, C26 for the singular part on any conforming grid."
  },
  {
   "property": "C39",
   "status": "proved",
   "theorems": [
    "C39_dense_sum",
    "C39_dense_multiple",
    "C39_singular_sum",
    "C39_singular_multiple",
    "C39_helmholtz_hypersingular"
   ],
   "note": "Exact arithmetic."
  },
  {
   "property": "C40",
   "status": "proved",
   "theorems": [
    "C40_transpose",
    "C40_symmetric",
    "C40_adjoint"
   ],
   "note": "Exact arithmetic; the kernel's symmetry is a hypothesis because green_kernels is external."
  },
  {
   "property": "C41",
   "status": "proved",
   "theorems": [
    "C41_rows",
    "C41_columns",
    "C41_helmholtz_rows",
    "C41_helmholtz_columns"
   ],
   "note": "Exact arithmetic; that the basis functions sum to a constant is a hypothesis because ndelement is external."
  },
  {
   "property": "C42",
   "status": "proved",
   "theorems": [
    "C42_sphere_built",
    "C42_sphere_counts",
    "C42_types"
   ],
   "note": "For any number type; degree 1 (see C45). Also proved: 12*4^L edges (Euler characteristic 2), all points used."
  },
  {
   "property": "C43",
   "status": "proved",
   "theorems": [
    "C43_closed_surface"
   ],
   "note": "For any number type."
  },
  {
   "property": "C44",
   "status": "proved",
   "theorems": [
    "C44_unit_points_outward_normals"
   ],
   "note": "Over the real numbers (standard library axioms of Reals)."
  },
  {
   "property": "C45",
   "status": "partial",
   "theorems": [
    "C45_degree_refuted",
    "C45_only_degree_one"
   ],
   "note": "REFUTED: every degree other than 1 panics, at every level (second theorem): add_cell gets three vertices but a cell of degree d needs (d+1)(d+2)/2 points. What holds instead: C42-C44 for degree 1."
  },
  {
   "property": "C46",
   "status": "partial",
   "theorems": [
    "C46_unit_square_refuted",
    "C47_triangles_tile",
    "C47_quadrilaterals_tile"
   ],
   "note": "REFUTED: the coordinates are divided by ncells+1 instead of ncells, so (1,1,0) is in no cell. What holds instead: the cells cover exactly the square with side n/(n+1), for every n > 0."
  },
  {
   "property": "C47",
   "status": "proved",
   "theorems": [
    "C47_triangles_topology",
    "C47_quadrilaterals_topology",
    "C47_types",
    "C47_no_cells",
    "C47_triangles_tile",
    "C47_quadrilaterals_tile",
    "C47_triangles_area",
    "C47_quadrilaterals_area"
   ],
   "note": "Geometry over the real numbers; the square is the one with side n/(n+1), see C46. Overlap is also excluded point by point."
  },
  {
   "property": "C48",
   "status": "proved",
   "theorems": [
    "C48_rules_exist",
    "C48_lookup_succeeds"
   ],
   "note": "Grids on one process; distributed grids are made by ndgrid."
  },
  {
   "property": "C53",
   "status": "proved",
   "theorems": [
    "C53_tessellation",
    "C53_points_differ"
   ],
   "note": "Over the real numbers (standard library axioms of Reals)."
  },
  {
   "property": "C49",
   "status": "proved",
   "theorems": [
    "C49_no_dangling",
    "C49_live_spaces",
    "C49_creation_succeeds",
    "C49_shared_grid",
    "C49_nothing_unused",
    "C49_nothing_left",
    "C49_monitor",
    "C49_monitor_free",
    "C49_monitor_attributes",
    "C49_kinds"
   ],
   "note": "Against the functions of src/bindings as written (the module is disabled at this commit). Safety also for histories with failing creations. CPython's own reference counting is assumed: __del__ runs once, after the last use."
  },
  {
   "property": "C50",
   "status": "proved",
   "theorems": [
    "C50_frozen",
    "C50_assembler_options",
    "C50_unknown_type_raises",
    "C50_unknown_pair_raises"
   ],
   "note": "The attribute _read_only is assumed not to be assigned by user code."
  },
  {
   "property": "C54",
   "status": "partial",
   "theorems": [
    "C54_no_leak_refuted",
    "C49_nothing_unused"
   ],
   "note": "REFUTED: function_space counts a reference to the grid before it makes the family; if that raises, the count is never decreased and the native grid is never freed. What holds instead: nothing is left if no creation fails, or creations fail only because of the grid."
  },
  {
   "property": "C55",
   "status": "partial",
   "theorems": [
    "C55_family_refuted",
    "C55_always_lagrange",
    "C55_lagrange_family"
   ],
   "note": "REFUTED: recreate_element_family always makes a Lagrange family. What holds instead: degree and continuity agree, and Lagrange families are reproduced."
  },
  {
   "property": "C56",
   "status": "proved",
   "theorems": [
    "C56_default_options"
   ],
   "note": "User code is assumed to reach the shared default object only as the options of an assembler."
  },
  {
   "property": "C57",
   "status": "proved",
   "theorems": [
    "C57_setter_effect",
    "C57_setter_succeeds",
    "C57_others_unchanged",
    "C57_raising_changes_nothing",
    "C50_unknown_type_raises",
    "C50_unknown_pair_raises"
   ],
   "note": ""
  },
  {
   "property": "C58",
   "status": "proved",
   "theorems": [
    "C58_copies",
    "C58_cell_dofs"
   ],
   "note": "The size functions and the copying functions are called on the same unchanged object."
  },
  {
   "property": "C29",
   "status": "proved",
   "theorems": [
    "C29_pairs",
    "C29_same_as_one_process",
    "C29_sum"
   ],
   "note": "The second theorem gives equality, up to renumbering, with the triplets computed on one process. For partitions without a vertex-complete ghost layer the first says exactly which pairs are missing. The value of a pair does not depend on the local numbering of cells."
  },
  {
   "property": "C59",
   "status": "proved",
   "theorems": [
    "C59_numbering"
   ],
   "note": ""
  },
  {
   "property": "C60",
   "status": "proved",
   "theorems": [
    "C60_renumbered_grid"
   ],
   "note": "Exact arithmetic: in floating point the order of the additions changes with the numbering."
  },
  {
   "property": "C61",
   "status": "proved",
   "theorems": [
    "C61_laplace",
    "C61_helmholtz"
   ],
   "note": "The Green's functions themselves (green_kernels) are parameters. How the integrand enters the matrix is C32, C36 and C37."
  },
  {
   "property": "C62",
   "status": "proved",
   "theorems": [
    "C62_change_of_scalars",
    "C62_wavenumber_zero",
    "C62_opposite_wavenumber"
   ],
   "note": "Every arithmetic. What is said about the Green's functions (green_kernels) is a hypothesis. For wavenumber zero, terms with factor zero must vanish, as they do for finite numbers."
  },
  {
   "property": "C63",
   "status": "proved",
   "theorems": [
    "C63_array",
    "C63_singular",
    "C63_types",
    "C63_native_outcomes"
   ],
   "note": "Exact arithmetic for the entries, as in C32. Python is assumed to run with assertions on."
  },
  {
   "property": "C64",
   "status": "partial",
   "theorems": [
    "C64_refuted",
    "C64_real",
    "C64_complex"
   ],
   "note": "REFUTED: the table used by dtype has no complex types, so reading the dtype of a complex space raises KeyError, and so does every assembly with one; what holds instead: the dtype of a space can be read if and only if it is float32 or float64."
  },
  {
   "property": "C65",
   "status": "partial",
   "theorems": [
    "C65_refuted",
    "C65_always"
   ],
   "note": "REFUTED: the library has no function boundary_assembler_assemble_singular_correction, so every call raises; what holds instead: every call raises without running native assembly code."
  },
  {
   "property": "C66",
   "status": "proved",
   "theorems": [
    "C66_ownership",
    "C66_other_process"
   ],
   "note": "For DOFs of other processes, which spaces made in Python do not have, it would raise."
  },
  {
   "property": "C67",
   "status": "proved",
   "theorems": [
    "C67_order_of_additions"
   ],
   "note": "The singular triplets of a pair of cells are added after all regular ones, in the order of the reduction; the order is a function of the grid object and the elements."
  },
  {
   "property": "C68",
   "status": "proved",
   "theorems": [
    "C68_transfer",
    "C68_transfer_matrix",
    "C68_integrands"
   ],
   "note": ""
  },
  {
   "property": "C69",
   "status": "partial",
   "theorems": [
    "C69_refuted",
    "C69_outcome",
    "C69_others_safe"
   ],
   "note": "REFUTED: the native function panics for complex data types and for the Maxwell operators, and a panic in a function called from C ends the process; what holds instead: it returns exactly for the four Laplace operators with float32 or float64, raises exactly for types outside the table, and no other call on options ends the interpreter."
  },
  {
   "property": "C70",
   "status": "proved",
   "theorems": [
    "C70_single_layer_sign"
   ],
   "note": "Floating point operations keep the sign as long as no NaN arises; this is the hypothesis closed_signs."
  },
  {
   "property": "C71",
   "status": "proved",
   "theorems": [
    "C71_rounding_error",
    "C71_growth",
    "C71_real_numbers",
    "C71_complex_numbers",
    "C71_floats",
    "C71_complex_arithmetic"
   ],
   "note": "Without overflow and underflow: every operation satisfies the standard model with unit u."
  },
  {
   "property": "C72",
   "status": "proved",
   "theorems": [
    "C72_single_layer_accuracy"
   ],
   "note": ""
  },
  {
   "property": "C73",
   "status": "proved",
   "theorems": [
    "C73_one_process",
    "C73_local_tables",
    "C73_ghosts_counted_again"
   ],
   "note": "serial.rs is not part of the module tree at this commit."
  },
  {
   "property": "C74",
   "status": "partial",
   "theorems": [
    "C74_refuted",
    "C74_different_dimensions",
    "C74_continuous"
   ],
   "note": "REFUTED: the call at src/boundary_assemblers.rs:501-502 swaps the two cell types, so piecewise constant spaces get geometry maps for the wrong types; what holds instead: when the elements of the two types differ in dimension (continuous Lagrange functions of any degree) and a triangle and a quadrilateral do not touch, no matrix is ever returned."
  },
  {
   "property": "C75",
   "status": "proved",
   "theorems": [
    "C75_glued_matrix",
    "C75_glued_singular_part",
    "C75_identification"
   ],
   "note": "That the elements have the same functions on each cell is a hypothesis on the element crate."
  },
  {
   "property": "C76",
   "status": "proved",
   "theorems": [
    "C76_parts",
    "C76_discontinuous"
   ],
   "note": ""
  },
  {
   "property": "C77",
   "status": "proved",
   "theorems": [
    "C77_laplace",
    "C77_helmholtz",
    "C77_laplace_singular",
    "C77_helmholtz_singular",
    "C77_laplace_rigid",
    "C77_helmholtz_rigid"
   ],
   "note": "How positions, normals, Jacobians and the Green's function transform is a hypothesis on the external crates."
  },
  {
   "property": "C78",
   "status": "proved",
   "theorems": [
    "C78_sphere",
    "C78_triangles",
    "C78_quadrilaterals",
    "C78_discontinuous",
    "C78_entities"
   ],
   "note": "Distributions of the grid are those of C59 (ndgrid's partitioning is assumed to be one)."
  },
  {
   "property": "C79",
   "status": "proved",
   "theorems": [
    "C79_spaces",
    "C79_assembled",
    "C79_setting",
    "C79_sizes"
   ],
   "note": "Existence of the quadrature rules asked for is a hypothesis on the external crate; twice the square of the number of cells is below the word size."
  },
  {
   "property": "C80",
   "status": "proved",
   "theorems": [
    "C80_criterion",
    "C80_low_degree",
    "C80_quadrilaterals",
    "C80_sphere",
    "C80_triangles",
    "C80_two_triangles",
    "C80_double_point"
   ],
   "note": "Edge DOFs are taken at equally spaced points in the reference direction of the edge; sharpens the refutation of C07 to all levels, sizes and degrees."
  },
  {
   "property": "C81",
   "status": "proved",
   "theorems": [
    "C81_nested",
    "C81_midpoints",
    "C81_cones"
   ],
   "note": ""
  },
  {
   "property": "C82",
   "status": "partial",
   "theorems": [
    "C82_reserved_refuted",
    "C82_enough_from_level_4"
   ],
   "note": "REFUTED: 8 * 6^level at src/shapes.rs:61 is too small for the first four refinements and exceeds every multiple of the number of new cells later; what holds instead: it suffices exactly from the fifth refinement on, and the capacities of the builder are exact (C42)."
  },
  {
   "property": "C83",
   "status": "proved",
   "theorems": [
    "C83_valences",
    "C83_colours",
    "C83_colours_least"
   ],
   "note": ""
  },
  {
   "property": "C84",
   "status": "proved",
   "theorems": [
    "C84_pairs",
    "C84_triplets",
    "C84_linear_memory"
   ],
   "note": "Existence of the quadrature rules asked for is a hypothesis on the external crate, as in C79."
  },
  {
   "property": "C85",
   "status": "proved",
   "theorems": [
    "C85_never_wild",
    "C85_options_outlive_assemblers",
    "C85_assemblers_freed",
    "C85_matrices_freed",
    "C85_options_passed",
    "C85_use_succeeds",
    "C85_assemble_succeeds",
    "C85_kept",
    "C85_monitor"
   ],
   "note": ""
  },
  {
   "property": "C86",
   "status": "partial",
   "theorems": [
    "C86_no_leak_refuted",
    "C86_options_accumulate",
    "C86_default_options_clean"
   ],
   "note": "REFUTED: BoundaryAssemblerOptions has no __del__ and boundary_assembler_options_t_free is never called, so every options object ever made stays allocated; what holds instead: assemblers and matrices are freed (C85), and a program that only uses the default options leaves nothing else."
  },
  {
   "property": "C87",
   "status": "proved",
   "theorems": [
    "C87_longest_edge",
    "C87_attained",
    "C87_near_sphere",
    "C87_near_sphere_attained"
   ],
   "note": "Exact real arithmetic instead of floating point."
  },
  {
   "property": "C88",
   "status": "proved",
   "theorems": [
    "C88_shortest_edge",
    "C88_attained",
    "C88_shortest_bound",
    "C88_ratio",
    "C88_angles"
   ],
   "note": "Exact real arithmetic instead of floating point (see C90). The shortest edge is exact; the bounds on ratio and angles hold at all levels but are not claimed to be the best."
  },
  {
   "property": "C89",
   "status": "proved",
   "theorems": [
    "C89_cells",
    "C89_points",
    "C89_isometries",
    "C89_inverses",
    "C89_different"
   ],
   "note": "Exact real arithmetic instead of floating point. Orders and orientation of the corners are not compared."
  },
  {
   "property": "C90",
   "status": "proved",
   "theorems": [
    "C90_same_cells",
    "C90_norms",
    "C90_points",
    "C90_bits",
    "C90_bits_points",
    "C90_bits_edges",
    "C90_bits_outward"
   ],
   "note": "Standard model of floating point arithmetic (every add, mul, div and sqrt has a relative error of at most u; no overflow or underflow; signs and the constants 0, 1, 1/2 exact). The bounds for n bits need 400 L 2^L <= 2^n, that is level 39 for f64 and 11 for f32."
  },
  {
   "property": "C91",
   "status": "proved",
   "theorems": [
    "C91_normals_cancel",
    "C91_any_origin",
    "C91_volume_grows",
    "C91_octahedron"
   ],
   "note": "The first two for any positions of the vertices (so also for points computed in floating point); the growth in exact real arithmetic."
  },
  {
   "property": "C92",
   "status": "proved",
   "theorems": [
    "C92_area_volume"
   ],
   "note": "Exact real arithmetic. For the limits see C96."
  },
  {
   "property": "C93",
   "status": "proved",
   "theorems": [
    "C93_matrix",
    "C93_same_arrays",
    "C93_defined",
    "C93_from_aij"
   ],
   "note": "from_aij of rlst and the constructor of scipy are not modelled beyond their interface: from_aij is assumed to add triplets at the same place when it accepts them (a refusal aborts the process), and the constructor to raise when the arrays do not fit together."
  },
  {
   "property": "C94",
   "status": "proved",
   "theorems": [
    "C94_triangles",
    "C94_quadrilaterals",
    "C94_coordinates",
    "C94_bits"
   ],
   "note": "Standard model of floating point arithmetic: each conversion of an integer and each division has a relative error of at most u."
  },
  {
   "property": "C95",
   "status": "proved",
   "theorems": [
    "C95_sum",
    "C95_single_values",
    "C95_same_values"
   ],
   "note": "C95_sum in exact arithmetic; the other two in any arithmetic, up to the addition to zero, which leaves every number unchanged (in IEEE arithmetic -0 becomes +0)."
  },
  {
   "property": "C96",
   "status": "proved",
   "theorems": [
    "C96_solid_angles",
    "C96_bounds",
    "C96_limits"
   ],
   "note": "Exact real arithmetic; the solid angle of a triangle is the formula of van Oosterom and Strackee, not an integral."
  },
  {
   "property": "C97",
   "status": "proved",
   "theorems": [
    "C97_automorphism_laplace",
    "C97_automorphism_helmholtz",
    "C97_cells",
    "C97_other_turns",
    "C97_laplace",
    "C97_helmholtz",
    "C97_octahedron"
   ],
   "note": "Exact arithmetic. The geometry map of ndgrid is assumed to be that of flat triangles (flat_cells), the Green's function to depend on the distance (radial); both are met by the examples."
  },
  {
   "property": "C98",
   "status": "proved",
   "theorems": [
    "C98_matrix",
    "C98_singular_part",
    "C98_blocks",
    "C98_total",
    "C98_instances"
   ],
   "note": "Exact arithmetic. That one space contains another is a hypothesis on the tabulated values and derivatives (ndelement is external); it is proved for continuous in discontinuous spaces and for constants in spaces whose functions add up to one."
  },
  {
   "property": "C99",
   "status": "proved",
   "theorems": [
    "C99_matrix",
    "C99_entries",
    "C99_sphere_single",
    "C99_sphere_limit",
    "C99_sphere_double",
    "C99_sphere_rows",
    "C99_sphere_adjoint"
   ],
   "note": "Exact arithmetic. The geometry map of ndgrid is assumed to be that of flat cells (flat_faces, flat_cells), the weights of the external rules to add up to the size of the reference cell (full_weights, triangle_weights); both are met by the example."
  },
  {
   "property": "C100",
   "status": "proved",
   "theorems": [
    "C100_copies_laplace",
    "C100_copies_helmholtz",
    "C100_cells",
    "C100_functions",
    "C100_discontinuous",
    "C100_laplace",
    "C100_helmholtz"
   ],
   "note": "Exact arithmetic. The geometry map of ndgrid is assumed to be that of flat cells (flat_screen), the Green's function to depend on the distance (radial); both are met by the examples."
  },
  {
   "property": "C101",
   "status": "proved",
   "theorems": [
    "C101_transpose",
    "C101_symmetric",
    "C101_adjoint",
    "C101_rules_matter"
   ],
   "note": "Exact arithmetic. That the external Duffy rules treat the two cells alike is a hypothesis (symmetric_rules), as is that geometry and basis functions at a point depend on that point only; both are met by the example, and C101_rules_matter shows that the first is needed."
  },
  {
   "property": "C102",
   "status": "proved",
   "theorems": [
    "C102_translated",
    "C102_no_bad_read",
    "C102_nothing_left",
    "C102_unknown_type",
    "C102_unknown_dtype"
   ],
   "note": "The numberings of the headers and the data of ndgrid are parameters; proper_headers asks that numbers are not repeated, that those of the library fit into a byte and that cdata is about types there are; met by the example."
  },
  {
   "property": "C103",
   "status": "partial",
   "theorems": [
    "C103_refuted",
    "C103_readable"
   ],
   "note": "REFUTED: the pointer to the entity types is to a local numpy array (python/bempp/function_space.py:156-165) that is dropped when recreate_grid returns, and pointers into cdata.internal_storage are freed at line 180; what holds instead: for every live space exactly the pointers into the memory of its Python grid can be read. Whether ndgrid keeps or copies what it is given is outside the repository; the function is named borrowed."
  },
  {
   "property": "C104",
   "status": "proved",
   "theorems": [
    "C104_switched_off",
    "C104_renumbered_grid",
    "C104_parts",
    "C104_screen_laplace",
    "C104_screen_helmholtz",
    "C104_sphere_laplace",
    "C104_sphere_helmholtz"
   ],
   "note": "Exact arithmetic. About the entries that assemble_singular_part returns; assemble_singular returns these, or the empty matrix if none is larger than 1e-10 (C27). Geometry and Green's functions as in C97 and C100."
  },
  {
   "property": "C105",
   "status": "proved",
   "theorems": [
    "C105_transfer",
    "C105_change_of_scalars",
    "C105_rounding_error",
    "C105_single_layer_accuracy"
   ],
   "note": "The standard model of floating point arithmetic (no overflow or underflow), shown to hold for mantissas of p bits in C71_floats and C71_complex_arithmetic. How well the external rules, geometry and kernels are computed is a hypothesis (n roundings). About assemble_singular_part on each process."
  },
  {
   "property": "C106",
   "status": "proved",
   "theorems": [
    "C106_singular_part",
    "C106_entries",
    "C106_screen",
    "C106_share"
   ],
   "note": "Exact arithmetic. The geometry map of ndgrid is assumed to be that of flat cells (flat_faces, flat_screen), the weights of the external rules to add up to the size of the reference cell (full_weights, area_weights); both are met by the example. About the entries that assemble_singular_part returns (see C27 for assemble_singular)."
  },
  {
   "property": "C107",
   "status": "proved",
   "theorems": [
    "C107_order",
    "C107_listed",
    "C107_determined",
    "C107_prefix",
    "C107_discontinuous"
   ],
   "note": "Local numbers on one process; that global numbers follow rank and local number is C08. The order of the cell iterator and of sub-entities in a cell is data of the grid."
  },
  {
   "property": "C108",
   "status": "partial",
   "theorems": [
    "C108_vertices_refuted",
    "C108_shapes_refuted",
    "C108_vertices",
    "C108_octahedron",
    "C108_one_quadrilateral",
    "C108_vertex_order",
    "C108_constants"
   ],
   "note": "REFUTED: on the screens (but one quadrilateral) and on refined spheres DOF numbers of continuous piecewise linear functions are not vertex numbers; what holds instead: they follow the first appearances of the vertices (C108_vertex_order) and agree with vertex numbers exactly when the vertices first appear in order (C108_vertices); for piecewise constants the p-th cell has DOF p (C108_constants)."
  },
  {
   "property": "C109",
   "status": "proved",
   "theorems": [
    "C109_first_fit",
    "C109_unique",
    "C109_determined",
    "C109_same_conflicts",
    "C109_same_lowest",
    "C109_lagrange_lowest",
    "C109_quadrilaterals",
    "C109_triangles"
   ],
   "note": "The colouring equals the classes of the unique first-fit assignment; equal conflicts or equal lowest dimension of entities with DOFs give equal colourings; explicit colours on quadrilateral screens, at most seven and for n >= 4 exactly seven colours on triangle screens."
  },
  {
   "property": "C110",
   "status": "proved",
   "theorems": [
    "C110_changes_stay_local",
    "C110_singular_part",
    "C110_bad_numbers_show",
    "C110_good_entries"
   ],
   "note": "In any arithmetic. Which numbers are bad is a parameter: additions of and multiplications from the left with one must be bad again, as for NaN. That the values of untouched pairs are good is a hypothesis on the integrand."
  },
  {
   "property": "C111",
   "status": "proved",
   "theorems": [
    "C111_sphere",
    "C111_sphere_vertices",
    "C111_rounded_sphere",
    "C111_rounded_vertices",
    "C111_triangles",
    "C111_quadrilaterals",
    "C111_triangles_attained",
    "C111_quadrilaterals_attained"
   ],
   "note": "Distances in exact arithmetic between points with exact weights on the cells; the vertices of the sphere are the exact ones (2/5 2^-L) or those of floating point arithmetic with mantissas of n bits without overflow (3/10 2^-L as long as 400 L 2^L <= 2^n). The bounds for the screens are attained; those for the sphere are not claimed to be."
  },
  {
   "property": "C112",
   "status": "proved",
   "theorems": [
    "C112_linear_in_kernel",
    "C112_kernel_change",
    "C112_first_gradient",
    "C112_second_gradient",
    "C112_zero",
    "C112_single_layer",
    "C112_double_layers",
    "C112_hypersingular",
    "C112_continuous",
    "C112_laplace_limit",
    "C112_dominated",
    "C112_positive_change"
   ],
   "note": "Exact arithmetic (any with an absolute value for the general bound; the real and complex numbers for the wavenumber). The formulas of the Green's functions are those of the crate green-kernels, which is not in the repository; both conventions for the derivatives (first or second point) are covered, and that parts 1-3 are the derivatives of part 0 is proved. Determinants of cells are assumed not to be zero."
  },
  {
   "property": "C113",
   "status": "proved",
   "theorems": [
    "C113_cells_of_dof",
    "C113_sphere",
    "C113_cells",
    "C113_terms",
    "C113_terms_bounded",
    "C113_error",
    "C113_accuracy",
    "C113_digits"
   ],
   "note": "Standard families: Lagrange elements of any degree and discontinuous elements. Data (kernel, geometry, basis, rules) within n roundings of exact data, as in C71 and C72; relative accuracy for the single layer operator with non-negative data."
  },
  {
   "property": "C114",
   "status": "proved",
   "theorems": [
    "C114_two_sided",
    "C114_constants",
    "C114_sphere",
    "C114_sphere_positive",
    "C114_screens",
    "C114_wave_change",
    "C114_sphere_waves",
    "C114_screen_waves"
   ],
   "note": "Exact arithmetic (real and complex numbers), flat cells, rules with points in the reference cell and weights that add up to its area (properties of the external crates, as hypotheses). The lower bound for cells that touch needs rules whose pairs of points do not coincide, since the kernel is taken to be 0 for coinciding points, as green-kernels does. Bounds from above only for cells that are not neighbours."
  },
  {
   "property": "C115",
   "status": "proved",
   "theorems": [
    "C115_centres",
    "C115_rules",
    "C115_sphere",
    "C115_screens"
   ],
   "note": "Exact arithmetic, flat cells, the Laplace single layer operator and one constant function per cell. That the rules are exact for constants or linear functions and have points in the reference cell and non-negative weights is a hypothesis on the external crates. Rounding errors come on top (C72, C113)."
  },
  {
   "property": "C116",
   "status": "proved",
   "theorems": [
    "C116_entries",
    "C116_level",
    "C116_binary",
    "C116_complex",
    "C116_limit",
    "C116_formats",
    "C116_helmholtz",
    "C116_plane",
    "C116_sphere",
    "C116_screens",
    "C116_hypersingular",
    "C116_screen_hypersingular"
   ],
   "note": "Entries and level grids: any arithmetic with zeros closed under sums, negatives and products with finite numbers, among them IEEE 754 as specified in the standard library (SpecFloat) and complex pairs over it; that the external geometry gives equal heights and normals with two zero components, and that the external kernel is finite with a third component zero, are hypotheses. Planes, sphere, screens and hypersingular operator: exact arithmetic, flat cells, kernels with a gradient along the line through the points."
  },
  {
   "property": "C117",
   "status": "proved",
   "theorems": [
    "C117_acute",
    "C117_convex",
    "C117_surface",
    "C117_entries",
    "C117_binary",
    "C117_real",
    "C117_sphere",
    "C117_strict",
    "C117_singular"
   ],
   "note": "Sphere: exact real arithmetic, flat cells, rules with points in the reference triangle and non-negative weights (hypotheses on the external crates). That the gradient which green-kernels returns is that with respect to the trial point, from the trial to the test point, is a hypothesis (`repelling`); it agrees with the signs of the reference values in tests/compare_to_bempp_cl.rs. Entries: any arithmetic with signs, among them IEEE 754."
  },
  {
   "property": "C118",
   "status": "proved",
   "theorems": [
    "C118_majorant",
    "C118_constants",
    "C118_laplace",
    "C118_helmholtz",
    "C118_steepest",
    "C118_sphere",
    "C118_sphere_waves"
   ],
   "note": "Exact arithmetic (any with an absolute value), non-negative weights and determinants; Laplace and Helmholtz: flat cells with normals of length one and one constant function per cell; the Green's functions are those of C112, whose formulas are proved to be the derivatives. Rounding errors come on top (C72, C113)."
  },
  {
   "property": "C119",
   "status": "proved",
   "theorems": [
    "C119_dofs",
    "C119_dofs_shapes",
    "C119_sizes",
    "C119_colouring",
    "C119_one_colour",
    "C119_python",
    "C119_singular",
    "C119_options",
    "C119_example",
    "C119_dofs_meaning",
    "C119_sizes_meaning",
    "C119_colouring_meaning",
    "C119_one_colour_meaning",
    "C119_python_meaning",
    "C119_singular_meaning",
    "C119_never_waits"
   ],
   "note": "The tests are transcribed as programs (Tests.v) in which a failed assertion is a panic; the theorems say that they return, and the ..._meaning theorems what is true if and only if they do, so that no assertion is left out. The comparisons with stored numbers of bempp-cl (tests/compare_to_bempp_cl.rs, test_single_layer_sphere0_dp0) are not covered: they depend on quadrature rules of other crates. C119_singular is about the triplets the sparse matrix is made of (C93 covers the conversion)."
  },
  {
   "property": "C120",
   "status": "proved",
   "theorems": [
    "C120_laplace",
    "C120_helmholtz",
    "C120_solutions",
    "C120_octahedron",
    "C120_constants"
   ],
   "note": "Exact arithmetic and flat cells, as C97, of which it is a consequence; only the eight turns that keep the order of the vertices of the cells (C97_other_turns). That the equation has at most one solution is a hypothesis of C120_solutions."
  },
  {
   "property": "C121",
   "status": "proved",
   "theorems": [
    "C121_laplace",
    "C121_near",
    "C121_helmholtz",
    "C121_spaces",
    "C121_edges",
    "C121_form",
    "C121_connected",
    "C121_sphere",
    "C121_screen"
   ],
   "note": "Exact arithmetic; flat triangles and linear functions (geometry and elements come from other crates) for the statements about forms and kernels. That V is definite is a hypothesis: it depends on the quadrature rules; C121_example_definite shows rules and a kernel for which it is true on every level. Screens of quadrilaterals are shown to be connected, but the curls of bilinear functions are not constant and the statements about forms are for triangles."
  },
  {
   "property": "C122",
   "status": "proved",
   "theorems": [
    "C122_decay",
    "C122_sphere_rims",
    "C122_sphere",
    "C122_screen"
   ],
   "note": "Exact arithmetic; flat triangles, linear functions and the Newton potential (geometry, elements and Green's function come from other crates), rules with nonnegative weights and points inside the cell that are exact for constants. Entries of vertices whose cells touch or are near are not bounded here."
  },
  {
   "property": "C123",
   "status": "proved",
   "theorems": [
    "C123_monomials",
    "C123_unique",
    "C123_integral",
    "C123_rules",
    "C123_sphere",
    "C123_screens"
   ],
   "note": "Exact arithmetic; flat cells, piecewise constant functions and the Newton potential (geometry, elements and Green's function come from other crates), rules with nonnegative weights and points inside the cell; their degree of exactness is a hypothesis (the rules come from another crate; the function called set_regular_quadrature_degree sets a number of points). Entries of cells that touch or are near are not covered."
  },
  {
   "property": "C124",
   "status": "proved",
   "theorems": [
    "C124_unique",
    "C124_hats",
    "C124_curls",
    "C124_sphere",
    "C124_screens"
   ],
   "note": "Exact arithmetic; flat triangles, linear functions and the Newton potential (geometry, elements and Green's function come from other crates), rules with nonnegative weights and points inside the cell; their degree of exactness is a hypothesis (the rules come from another crate). Entries of vertices whose cells touch or are near are not covered."
  },
  {
   "property": "C125",
   "status": "proved",
   "theorems": [
    "C125_entries",
    "C125_unique",
    "C125_sphere",
    "C125_screens",
    "C125_continuous_sphere",
    "C125_continuous_screens"
   ],
   "note": "Exact arithmetic; flat cells and the Newton potential (geometry, elements and Green's function come from other crates): that the tabulated element functions are polynomials of degree d, and the degree of exactness of the rules, are hypotheses, shown to hold for linear and bilinear functions in the examples. Entries of functions whose cells touch or are near are not covered."
  },
  {
   "property": "C126",
   "status": "proved",
   "theorems": [
    "C126_double",
    "C126_adjoint",
    "C126_double_unique",
    "C126_adjoint_unique",
    "C126_sphere_double",
    "C126_sphere_adjoint",
    "C126_continuous_double",
    "C126_continuous_adjoint"
   ],
   "note": "Exact arithmetic; flat cells and the derivatives of the Newton potential with either sign convention (geometry, elements and Green's function come from other crates): that the tabulated element functions are polynomials of degree d, and the degree of exactness of the rules, are hypotheses, shown to hold for linear functions, continuous or not, in the examples. Entries of functions whose cells touch or are near are not covered; on flat screens both matrices vanish (C116)."
  },
  {
   "property": "C127",
   "status": "proved",
   "theorems": [
    "C127_entries",
    "C127_unique",
    "C127_curl",
    "C127_sphere",
    "C127_screens"
   ],
   "note": "Exact arithmetic; flat cells and the Newton potential (geometry, elements and Green's function come from other crates): that the tabulated derivatives are derivatives and polynomials of degree d, and the degree of exactness of the rules, are hypotheses, shown to hold for continuous linear and bilinear functions in the examples. Entries of functions whose cells touch or are near are not covered."
  },
  {
   "property": "C128",
   "status": "proved",
   "theorems": [
    "C128_entries",
    "C128_unique",
    "C128_sphere",
    "C128_screens"
   ],
   "note": "Exact arithmetic; flat cells and the Green's function exp(ikr)/(4 pi r) (geometry, elements and Green's function come from other crates): that the tabulated element functions are real polynomials of degree d, and the degree of exactness of the rules, are hypotheses, shown to hold for continuous linear and bilinear functions in the examples. Entries of functions whose cells touch or are near are not covered; the double layers are in C129 and the hypersingular operator in C130."
  },
  {
   "property": "C129",
   "status": "proved",
   "theorems": [
    "C129_double",
    "C129_adjoint",
    "C129_double_unique",
    "C129_adjoint_unique",
    "C129_sphere_double",
    "C129_sphere_adjoint"
   ],
   "note": "Exact arithmetic; flat cells and the derivatives of exp(ikr)/(4 pi r) with either sign convention (geometry, elements and Green's function come from other crates): that the tabulated element functions are real polynomials of degree d, and the degree of exactness of the rules, are hypotheses, shown to hold for continuous linear functions in the example. Entries of functions whose cells touch or are near are not covered; the hypersingular operator is in C130; on flat screens both matrices vanish (C116)."
  },
  {
   "property": "C130",
   "status": "proved",
   "theorems": [
    "C130_entries",
    "C130_unique",
    "C130_sphere",
    "C130_screens"
   ],
   "note": "Exact arithmetic; flat cells and the Green's function exp(ikr)/(4 pi r) (geometry, elements and Green's function come from other crates): that the tabulated values and derivatives are those of real functions and polynomials of degree d, and the degree of exactness of the rules, are hypotheses, shown to hold for continuous linear and bilinear functions in the examples. Entries of functions whose cells touch or are near are not covered."
  },
  {
   "property": "C131",
   "status": "proved",
   "theorems": [
    "C131_sphere",
    "C131_screens",
    "C131_signed",
    "C131_screens_signed",
    "C131_double",
    "C131_adjoint",
    "C131_hypersingular",
    "C131_screens_hypersingular"
   ],
   "note": "Rounding to p bits with exponents that are not bounded (no overflow or underflow). Data within n roundings of exact data, as in C71 and C113; flat cells, the Green's function 1/(4 pi r), the element functions and the degree of exactness of the rules belong to other crates and are hypotheses on the exact data, shown to hold for continuous linear and bilinear functions in the examples. Entries of functions whose cells touch or are near are not covered; the reach is three times the largest radius of a cell."
  },
  {
   "property": "C132",
   "status": "proved",
   "theorems": [
    "C132_sphere",
    "C132_screens",
    "C132_double",
    "C132_adjoint",
    "C132_hypersingular",
    "C132_screens_hypersingular"
   ],
   "note": "Rounding of the real and imaginary parts to p bits with exponents that are not bounded (no overflow or underflow); complex products and quotients by the schoolbook formulas. Data within n roundings of exact data, as in C71; flat cells, the Green's function exp(ikr)/(4 pi r), the element functions and the degree of exactness of the rules belong to other crates and are hypotheses on the exact data, shown to hold for continuous linear and bilinear functions in the examples. Entries of functions whose cells touch or are near are not covered."
  },
  {
   "property": "C133",
   "status": "proved",
   "theorems": [
    "C133_only",
    "C133_once",
    "C133_rotation",
    "C133_translation",
    "C133_order"
   ],
   "note": "Exact real arithmetic instead of floating point. Cells are compared as sets of corners; orders of the corners are compared in C133_order only."
  },
  {
   "property": "C134",
   "status": "proved",
   "theorems": [
    "C134_only",
    "C134_once",
    "C134_quarter",
    "C134_unit_square",
    "C134_order"
   ],
   "note": "Exact real arithmetic instead of floating point. Cells are compared as sets of corners: orders and orientation of the corners are compared in C134_order only. The side of the square is n/(n+1), as the code has it (C46)."
  },
  {
   "property": "C135",
   "status": "proved",
   "theorems": [
    "C135_sphere",
    "C135_screens",
    "C135_sphere_helmholtz",
    "C135_screens_helmholtz",
    "C135_quadrilaterals",
    "C135_quadrilaterals_helmholtz",
    "C135_rule_needed"
   ],
   "note": "Exact real arithmetic; flat cells and the Green's functions 1/(4 pi r) and exp(ikr)/(4 pi r) (geometry and Green's functions come from other crates). The symmetry of the rule is a hypothesis (rules come from another crate), shown to hold for the midpoints of the edges (with the centre for quadrilaterals) in the examples and not for every rule. Entries of cells that touch are not covered: they use other rules, of which no symmetry is assumed."
  }
 ]
}