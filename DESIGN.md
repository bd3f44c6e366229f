# Design of the formal model of bempp-rs

The model lives in `rocq/theories` (logical name `Verif`).  It is written in
Gallina with the Coq standard library only.  Everything is executable: code
that can panic, read out of bounds through an unchecked access, or loop for
ever returns a value of

    res A := Ok a | Panic | UB | Hang

so that "does not panic", "does no undefined behaviour" and "terminates" are
part of what is proved and not assumptions.

## Layers and files

| layer | Rust code | model |
|---|---|---|
| error monad, vectors, loops | – | `Base.v` |
| reference cells, grids, elements (external crates: interface only) | `ndelement`, `ndgrid` traits as used by this crate | `Topology.v` |
| DOF map | `function.rs:365-445` `assign_dofs` | `DofMap.v` |
| distributed space | `function.rs:106-237` `FunctionSpace::new` | `Process.v` (processes and channels), `Space.v` |
| accessors, colouring | `function.rs:240-362` | `Space.v`, `Colouring.v` |
| options | `boundary_assemblers.rs:32-100` | `Options.v` |
| test suites (without the comparisons with stored numbers) | `tests/test_space.rs`, `python/test/*.py` | `Tests.v` |
| batching loops | `boundary_assemblers.rs:471-491, 594-603` | `Batch.v` |
| adjacency of cells, cell blocks | `boundary_assemblers.rs:251-297, 355-362, 564-606, 775-821` | `Adjacency.v` |
| integrands and their array accesses | `integrands.rs`, `integrands/*.rs` | `Integrand.v` |
| local assembly | `cell_pair_assemblers.rs` | `CellPair.v` |
| global assembly | `boundary_assemblers.rs:118-521, 610-773`, `helpers.rs` | `Assembly.v` |
| thread interleavings, parallel reduction | rayon `par_iter().sum()`, `reduce` | `Interleave.v` |
| operators | `laplace.rs`, `helmholtz.rs` | `Operators.v` |
| shapes | `shapes.rs` | `Shapes.v` (proofs in `Sphere*.v`, `Screen*.v`) |
| Python layer | `python/bempp/*.py`, `src/bindings/*.rs` in part | `Python.v`, `PythonAssembly.v` |

Each layer has a model file (definitions only, each with a comment citing file
and lines), a proof file (`…Facts.v`), and the property theorems are in
`Properties*.v` files that contain nothing but the statements, their one-line
proofs, non-vacuity examples and `Print Assumptions`.  The vocabulary used in
the statements that is not model code (what a shared entity is, what a Galerkin
sum is, …) is in the `Spec*.v` files.

## Externals

The following are not part of the repository and enter the model as data or as
parameters (record fields quantified in each theorem), never as axioms:

* `ndgrid` grids: an arbitrary record of topology tables (`grid`).  Theorems
  assume the decidable well-formedness predicate `wf_grid` (entity numbers in
  range, connectivity tables mutually consistent, …).  A concrete builder
  `grid_of_cells` (vertex lists to tables) is provided and proved to meet
  `wf_grid`, so that the hypothesis is not vacuous and the shape theorems can be
  linked with the DOF and assembly theorems.
* `ndelement` elements: `dim`, `entity_dofs`; well-formed if the lists over all
  sub-entities partition `0..dim`.  `tabulate` is a parameter.
* `ndelement::reference_cell` data for triangles and quadrilaterals is copied
  (vertex counts, edge lists).
* `bempp_quadrature` / `simplex_rule` rules, geometry maps, Green kernels:
  parameters.  A rule is any list of points and weights; a geometry map is any
  function from cells to buffers of the right length; a kernel is any function
  of a source and a target point.
* Scalars: an arbitrary type with arbitrary operations.  Theorems on bits
  (determinism, batch independence) assume no law at all.  Theorems on values
  assume the laws of a commutative ring (`ring_theory`), i.e. exact arithmetic.
* MPI: processes with FIFO channels per (sender, receiver) pair; a predicate on
  messages says which sends are buffered and which wait for the receiver (all,
  none, or those above a limit).
* CPython: an object's `__del__` runs once and after its last use; private
  attributes are not assigned by user code; a panic in a function called from C
  aborts the process.
* rayon: `map().sum()` runs the tasks in any interleaving of their loads and
  stores; `reduce` combines the blocks in any tree shape, respecting order.

Further simplifications, repeated at the definitions: grid identity
(`std::ptr::eq` of the grids) is the field `g_id`; a table made for another
number of points than it is read with is a panic; all phases of the dense
assembly are computed before the first one is run (the tasks do not read the
output except to add to it); the examples use exact rationals (`Qc`), whose
library files load `Coq.ssr`.

## Properties

| id | modelled by | how proved |
|---|---|---|
| C01 | `assign_dofs` as a fold over cells, dimensions, sub-entities | invariant of the fold: a list of tags (dimension, entity, slot), one per number, inverse to the entity table |
| C02, C03 | same | invariant: `cell_dofs[c][local]` equals the entity table for visited sub-entities; partition of the element's DOFs |
| C04 | same | corollary of C01-C03 for elements with interior DOFs only |
| C05 | same | counting via the bijection of C01 |
| C06 | `cell_dofs`, `assign_dofs` with explicit panics | the fold returns `Ok` under `wf_grid`; `Panic` for tdim > 2 |
| C07 | DOF positions along an edge as seen by a cell | proved for at most one DOF per edge and for cells running along the edge in the same direction; refuted otherwise with `screen_triangles(2)` and a degree 3 element |
| C08-C10 | `FunctionSpace::new` for all ranks | prefix sums of owned counts; ghost replies looked up in the owner's table |
| C11 | the process of rank 0 of 1 | computation: no communication events |
| C12 | processes with scripts, FIFO channels, buffered sends | generic theorem: matching scripts with a topological time stamp never get stuck and deliver the expected messages; instantiated to `FunctionSpace::new` |
| C13 | same with synchronous sends | refuted: for every number of processes >= 2 no schedule completes |
| C14-C16 | `cell_colouring` | invariant of the fold over cells |
| C17, C18 | options as finite maps | induction over histories; refuted for unsupported types |
| C19, C20 | `while` loops with fuel; the number of `usize` values is a parameter `wmod` and an overflowing addition is a panic | strong induction; batch size 0 refuted: `Hang` for every fuel, and `Hang` for `assemble`, `assemble_into_memory` and `assemble_singular` on every grid with cells (`AssemblyTermination.v`) |
| C21 | `assemble_into_memory`, `assemble_singular_part` | C19 and C31: the additions are the same up to a permutation of non-conflicting ones; the blocks concatenate to the same list |
| C22 | `make_cell_blocks`, `get_pairs_if_smallest` | permutation proof: the pair is emitted at its smallest common vertex only |
| C23 | `possible_pairs`, `pair_indices`, table construction | finite case analysis on reference cells plus induction over type pairs |
| C24 | same | refuted: two quadrilaterals sharing two diagonal vertices; two triangles with the same vertices |
| C25 | reduction trees | induction over trees: append is associative |
| C26 | `assemble_singular_part` | C22, C23 and C37 through the loops over blocks and pairs: the list of triplets is in bijection with the labels (owned test cell, touching trial cell, functions) |
| C27 | `assemble_singular` with threshold | refuted with entries below the threshold (rational arithmetic); what is returned is characterised |
| C28 | `equal_grids` (object identity as an id) | computation; C32 for the dense part |
| C29, C59 | one local grid per rank with maps to the whole grid (`SpecDistributed.v`); `FunctionSpace::new` and `assemble_singular_part` on every rank and on one process with the whole grid | C08-C10 give each shared DOF one number on all ranks; every number comes from a slot of an entity of the whole grid; the labels of C26 are moved along the maps, each owned cell belongs to one rank, and values agree because geometry, rules and tables agree |
| C60 | two serial grids and an isomorphism between them (`SpecRenumber.v`); whole dense assembly on both | C59 with one process gives the renumbering of the DOFs; values of pairs agree as in C29; the sums of C32 are reindexed (exact arithmetic) |
| C61 | `laplace.rs`, `helmholtz.rs` | computation against the forms of `SpecOperators.v`, which do not use the integrand types |
| C62 | whole dense assembly with two types of scalars | C68 for the graph of the map; C61 for the operators |
| C67 | whole dense assembly, addition left open | the phases of C31 and the triplets of C26, in order, as lists of marks that do not mention numbers; the effect of the list on one address is the sum over its marks for this address |
| C68 | two dense assemblies with different numbers | C67 gives both the same order; induction over the list, over the quadrature points and over the integrand |
| C70 | same | C68 for equality of two numbers that are not negative |
| C71 | same, with rounded numbers, exact numbers and absolute values | relations indexed by a number of roundings, which each operation increases (`graded_matrix`), along the order of C67; exact numbers and bounds are one arithmetic of pairs, whose parts C62 separates; arithmetics with mantissas of p bits and complex numbers from them satisfy the hypotheses |
| C72 | same, single layer | C71; C68 shows that the matrix of absolute values is the exact matrix |
| C30, C31 | load/store steps of tasks | colouring gives disjoint footprints; disjoint footprints commute |
| C32 | whole dense assembly | regrouping of sums over colours, batches and blocks into the sum over all pairs of cells |
| C33 | `assemble_into_memory`, `assemble` | the result is a list of additions, independent of the memory, applied to it |
| C34 | load/store steps of tasks | bounds from C02 and C11 |
| C35 | argument order of `assemble_batch_nonadjacent` | refuted: the element of a missing type is looked up, for all operators, options and rules |
| C52 | same | refuted by computation: `UB` on grids with a triangle and a quadrilateral |
| C74 | same | refuted by computation for piecewise constant functions; from a returned matrix every read of the tables is recovered (tasks cover all pairs, every integrand reads both tables), which bounds the dimensions of the elements |
| C75 | `glues`, `glued_entry` (SpecBroken) on top of `assemble` and `assemble_singular_part` | the identification comes from the DOF map invariant (a DOF of a discontinuous space belongs to one place of one cell); the sums over cells and local DOFs are exchanged with the sums over identified DOFs |
| C76 | `part_of`, `placed`, `supported` (SpecParts) | entities of the part inject into those of the whole grid, so tables, adjacency, shared dimension and values of pairs of cells agree; cells outside the part contribute nothing to supported DOFs |
| C77 | `similar_cell`, `similar_green`, `similarity_factor` (SpecSimilar) | each integrand times the fourth power of the scale is the factor times the old integrand (scalar products are preserved, curls scale with the Jacobian); sums over points, pairs of cells and triplets carry the factor through |
| C78 | no new model; `partition` (SpecDistributed), counts of Shapes and Topology | the edge list of a screen has the same elements as an explicit list without repetitions of horizontal, vertical and slanted edges; every entity belongs to a cell; the counts go through C05 and C59 |
| C79 | `made_on`, `standard`, `rules_exist` (SpecShapeSpaces) on top of `assemble`, `assemble_singular` | the hypotheses of the assembly theorems follow from C06, C11, C17, C43, C47 and C48; what remains assumed is that the quadrature crate has the rules and that twice the square of the number of cells is below the word size |
| C80 | `edge_dof`, `single_valued`, `double_point` (SpecEdges) on top of `assign_dofs` and the shapes | C01 and C03 give the position of a number on its edge, C07 the points; quadrilaterals run along edges from the lower to the higher vertex; on the sphere an invariant over the levels gives two cells `[u; v; w]` and `[z; w; v]` |
| C81 | `quartered` (SpecNested), `regular_sphere` at two levels | the last refinement step is split off the loop; the number of the new point of an edge is its place in the edge list; cones by the weights of C53 |
| C82 | `new_cells_capacity` (Shapes) | 6^2 > 2 * 4^2, so the ratio is unbounded; small levels by computation |
| C83 | `exactly`, `cell_at_vertex` (SpecCounts), `cell_colouring` | numbers of cells at vertices as an invariant of refinement (old vertices keep theirs, a midpoint gets three cells from each of two); cells around a cell by inclusion and exclusion on the sphere and by offsets in the square on the screens; then the bound of C16 from above and pairwise conflicts at a vertex with C15 from below |
| C84 | `touching_pair` (SpecCounts), `assemble_singular_part` | the same counts summed over the cells; the triplets are labelled by C26 |
| C87, C88 | `chord2`, `edge_ends`, `corners_of`, `point_of`, `cosine2_at_most` (SpecWidth), `regular_sphere real_numbers` | one refinement step maps an interval of `1 - <p, q>` over all edges to another one (`new_lo`, `new_hi`); the upper end solves the recursion exactly and is attained because the middle child of an equilateral cell is equilateral; for the shortest edge, the segment between two middles is longer than half the third side (determinant of the inner products), so the shortest edge is an edge of the octahedron halved once per level, a half-angle recursion |
| C89 | `octahedral`, `cells_mapped` (SpecSymmetry) | the four cells of a cell are known from its corners alone (C81), normalised midpoints commute with isometries that permute coordinates; induction over the levels from the octahedron |
| C91, C92 | `cell_normal`, `cell_area`, `cell_volume`, `volume`, `area` (SpecVolume) | the list of directed edges is a permutation of its reversal, so the cross products of the ends cancel; the determinants of the children are explicit multiples of that of the cell, with factors above 1/2; height of a cell from the determinant of the inner products, which the bounds of C87 and C88 turn into the factor |
| C96 | `solid_angle`, `total_angle` (SpecSolid) | with half the lengths of the sums of corners as coordinates, the product of the complex numbers (1 + sum of cosines, determinant) of the four children is a positive multiple of that of the cell, so the angles add up (they are between 0 and a right angle, which excludes a full turn); a cell has less area than its solid angle because its plane is far enough from the origin, given the ratio of edges of C88, and sin t < t; atan t < t bounds the solid angle by the volume |
| C94 | coordinates of the screens computed with rounded conversions and divisions (SpecFloatScreen) | rounded coordinates increase strictly, because consecutive numerators differ by more than four roundings; a screen with any increasing coordinates is the image of the even one under a piecewise linear bijection that keeps the weights in each cell, so the tiling (C47) carries over |
| C90 | `relative`, `rounded`, `distance` (SpecFloatSphere): `regular_sphere` over an arithmetic that rounds the result of each operation; `fl n` of SpecRounding | a rounded midpoint is the direction of the sum of the rounded ends, each component times a factor within 8 rounding errors; so norms never accumulate; the error `e` of a level becomes `e / sqrt(1 - w/2 - e) + g` where `w` is the mesh width of C87, which solves to a bound linear in the level because the widths are summable; edges and determinants (at least `4^-L` by induction) by perturbation |
| C36, C37 | assembler objects as state machines | induction over histories |
| C38 | integrands over checked reads | case analysis on operators; the sizes of the arrays as functions of the number of points (LocalArrays) |
| C39 | dense and singular assembly for a family of integrands | every local value is linear in the integrand; the regrouping of C32 carries this to the matrices |
| C40 | matrix minus the triplet sums of its singular part | swapping the nested sums; the part beyond the triplets is the sum over pairs that do not touch |
| C41 | whole Laplace and Helmholtz hypersingular matrices | both local formulas are combinations of the two derivatives of the trial function; Helmholtz by the split of C39 |
| C42, C43 | refinement loop with `edge_points` map | the loop computes the four children of each cell, where the midpoint of an edge is numbered by the position of the edge in the list of edges; invariant: directed edges without duplicates and closed under reversal, distinct vertex sets |
| C44, C53 | refinement over `R` | invariant: unit norm, positive determinant of every cell, every vector is in the cone of some cell, and the weights of a vector as a combination of vertices do not depend on the cell; the weights on the refined cells are an explicit function of those on the coarse cells |
| C45 | number of nodes passed to `add_cell` | refuted for all degrees but 1 |
| C46, C47 | screen loops; coordinates | the loops build enumerated lists; the weight of a vertex at a point is its nodal function, in whichever cell it is computed; C46 refuted, the extent n/(n+1) proved; the areas of the cells add up to (n/(n+1))^2 (`ScreenArea.v`) |
| C48 | shapes + C23 | conformity of the shapes |
| C51 | processes with an eager limit | sets of processes waiting for each other are an invariant; below the limit C12 applies |
| C73 | `LocalFunctionSpace` (serial.rs) next to `FunctionSpace::new` | the DOF map is the same for every rank (relation between two runs of `assign_dofs`); C11 on one process; owned and ghost DOFs add up by C10 |
| C49, C54 | native heap with addresses, attributes of Python objects, outcome `Return / Raise / Abort / Undefined` | induction over histories; invariant: the count of each grid is the number of live spaces using it plus the number of creations that failed after counting it; C54 refuted by computation |
| C55 | kind of the native family | refuted by computation; what is used is read off the invariant of C49 |
| C50, C56, C57 | options objects, assemblers holding references to native options | induction over histories; invariant: an object is read only exactly if it was given to an assembler, and keeps the keys of the default options |
| C58 | writes through raw pointers into a buffer of undefined entries | induction over the array |
| C63 | Python `assemble` with data types, numpy array in column order, native `assemble_into_memory` | C32 on an array of zeros; positions of a column-ordered array |
| C64, C65 | tables of data types, table of library functions that exist | refuted by computation; case analysis over the types |
| C69 | `create_laplace_assembler`, native constructor | refuted by computation; case analysis, with the default options existing in every history |
| C85, C86 | native heap with options, assemblers that refer to options, and matrices (PythonLife); Python objects are collected only when nothing refers to them | induction over programs; invariant: addresses are unique, each Python assembler has its native one and its options, and the other way round; C86 refuted for every number of options |
| C93 | arrays of a sparse matrix, the functions of `matrices.rs` that hand them out, `_convert_to_scipy`; `from_aij` is an oracle assumed to add triplets at the same place, the constructor of scipy raises if the arrays do not fit together (PythonSparse) | copies fill buffers of the size asked for (C58); the triplets are inside the matrix (C26), so the assumption applies; the matrix without entries is checked directly; the assumption is met by `by_rows` |
| C95 | nothing new | C95_sum from C32 and C26 by algebra; on spaces whose DOFs are inside cells a DOF has one cell and one place (C04), so the list of additions to an entry (C67) has one element, and the labels of the triplets (C26) determine their positions |
| C97 | nothing new; `flat_cells` states what the geometry map of flat triangles is, `radial` what a Green's function of the distance is | the matrix on the grid as seen through the automorphism is, by C60, the matrix with renumbered DOFs and, by C77, the same matrix; the order of vertices by induction over the levels, the children of an image being the images of the children; the octahedron by cases |
| C98 | nothing new; `restricted` (a global basis function on a cell) and `contained` are the specification | the value of a pair of cells (C36, C37) is one bilinear form in the functions of the two cells, whatever the spaces; the sum over pairs and local functions is rewritten with the coefficients, sums are exchanged |
| C99 | nothing new; `face_value` is the integrand for constant kernel and functions, `flat_faces`, `full_weights` state what is assumed of the external geometry and rules | the bilinear form of a pair of cells (C98) is evaluated at the functions that are one, for either rule; coefficients that are constant on the cells are pulled out of the sums over local functions; on the sphere with the areas of C96 and the normals that cancel (C91) |
| C100 | nothing new; `copied` says that a set of cells has copies put together in the same way, `moved_cell`, `moved_function` are stated with the corners of the cells (not their numbers), `flat_screen` and `radial` state what is assumed of the external geometry and the Green's function | a matrix entry is a sum over the places of the two functions (C28); copying gives a bijection of the places, keeps types, adjacency, numbers of shared sub-entities and hence the rule; the form of a pair scales as in C77. On screens the cells of a square are found by arithmetic, sharing of vertices, edges and cells is reduced to equality of corners |
| C101 | nothing new; `exchanged`, `symmetric_rules` say that a rule seen from the other cell has the same points in any order, `pointwise_geometry`, `pointwise_basis` that the data at a point depend on that point only | the sorted lists of common vertices of (t, s) and (s, t) are permutations of each other with the sides exchanged (`adjacency_swap`), so the rules looked up are exchanged rules; the sum over the points is reordered, the integrands are exchanged as in C40, and with equal singular parts the transposition of the rest (C40) becomes that of the whole; a run with one-sided rules gives a matrix that is not symmetric |
| C102, C103 | `recreate_grid` line by line: the two dictionaries (later entries replace earlier ones), the array of bytes, ten pointers into grid memory, data container or local array, the freeing of both; histories of C49 extended by the memory and by the collection of unused Python grids; the numberings of the headers and where ndgrid puts its arrays are parameters | which steps of `function_space` and `__del__` make native grids is read off compositionally (`keeps_grids`); invariant: no container or local array is left, every native grid on the heap has a record that describes its Python grid and points where `given_pointer` says, grids of live spaces are not collected; C103 refuted by a history with two spaces |
| C104 | nothing new; `regular_off` sets the weights of the regular rules to zero, `filled` writes out a sparse matrix by columns | a pair of cells that do not touch has value zero when the weights are zero (`off_tensor`), one that touches has the value of its singular rule as before, so the sums that `assembled` and `near_entries` give for the two matrices have the same terms (`switched_off`); the hypotheses of C60, C76, C97 and C100 do not mention the regular weights, so their theorems apply to the matrix without regular rules |
| C105 | nothing new; `near_externals`, `near_kernel` are the hypotheses of C68 and C71 without the regular rules, `related_parts` compares two sparse matrices | the pairs come in an order that depends on the types of cells, the degrees and the batch size only through the table of rules, whose keys are the same (`singular_part_ordered`, `two_parts`), so triplets correspond one to one; the values of a pair are related by the fold of the touching case of C68 and C71 (`near_transfer`, `near_graded`); exact values and bounds are the two components of one assembly with pairs of numbers (`near_scalars`) |
| C106 | nothing new; `touching_pairs`, `touching_count` and `area_weights` are vocabulary (`SpecShare.v`) | the entries of the singular part are those of the matrix restricted to the pairs that touch (`near_entries`); per pair the sum is that of C99 (`cell_sum`), over pairs it is put in the order of any list of the touching pairs (`pairs_total`); on screens the determinants are `1 / (n + 1)^2` by the corners of C100 (`screen_area_ratio`) and the touching pairs are counted in C84 |
| C107 | nothing new; `cells_walk` (the DOFs in the order in which they are met) and `appears_before` are vocabulary (`SpecFirst.v`) | a second invariant of the loop of `assign_dofs`: the entity table lists exactly the DOFs met so far, and their numbers are in the order of first appearance (`Met`); a strictly increasing map of `0..s-1` into itself is the identity, so nothing else is possible; discontinuous spaces meet no DOF twice, so numbers are positions |
| C108 | nothing new | refuted on all screens and refined spheres from the first cell; the exact condition from C107 with one DOF per vertex |
| C109 | `Colouring.v` (src/function.rs:281-351) against `SpecFit.v` (`first_fit`, `classes_of`, `lowest_dofs`), which look only at the order of the cells and the DOFs they share. | The invariant of the loop over cells (`ci_first` in `ColouringFacts.v`) says that every smaller colour is taken by an earlier touching cell; uniqueness by induction on the prefix of the order; for quadrilateral screens the parity colouring is shown to be a first fit for every n; for triangle screens the earlier touching cells of a cell are listed (at most six), and a corner of 36 cells whose colours do not depend on n >= 6 shows that the seventh colour is used (n = 4, 5 computed). |
| C110 | `untouched`, `spoiled`, `absorbing` (SpecReach) over two runs of `assemble` or `assemble_singular_part` | noninterference: the order of additions of C67 lists exactly the pairs of basis functions of an entry, and the value of a pair is a function of the data of its two cells; for the singular part the aligned triplets of C105; a bad number is absorbed by every sum it enters |
| C111 | `cells_distance` (SpecApart) over `neighbours`, `regular_sphere` in exact arithmetic and in floating point arithmetic of C90, and the screens | the hat function of the vertices of a cell, extended to the whole sphere by the cones of C46, is 1 on the cell and 0 on cells without a common vertex; it changes along segments with slope at most 49/20 2^L because each segment is cut by finitely many planes into pieces inside one cone (HatFunctions); floating point vertices are near the exact ones (C90). On screens three families of strips (x, y, x - y) separate cells without a common vertex (ApartScreen) |
| C112 | `waves`, `newton` (SpecWaves: the Green's functions with real arithmetic) given to the constructors `helmholtz_*`, `laplace_*`, over `assemble` | the quadrature formulas are linear in the parts of the kernel that the integrand uses (KernelResults); the bound from absolute values is C68 with the relation `norm x <= y`; the rates come from a mean value inequality for curves in the plane, applied to exp(it) and (it - 1)exp(it) (WaveKernel); the hypersingular operator is split by C39; the limit by C62 at wavenumber zero; without negative data the matrix of absolute values is the matrix (C72) |
| C113 | `assign_dofs`, `regular_sphere`, `screen_*`, `assemble` | a DOF belongs to the cells containing its entity (C02-C04), all of which share a vertex; the number of cells at a vertex is C83 on spheres and counted from the cell lists on screens (DigitsFacts); terms of an entry are pairs of such cells; then the bounds of C71 and C72 with 36 for the number of terms (DigitsResults) |
| C114 | `assemble` with the single layer integrand, `regular_sphere`, `screen_*` | the entry is a sum of products of non-negative numbers with kernel values at the points of `evaluated` (SpecDecay), a relation that does not mention the assembly code; the two sums are compared term by term (DecayResults); constants on flat cells as in C99; the points are convex combinations of corners (DecayPoints), in a ball of radius 1 or a unit square and for cells that are not neighbours at least the distance of C111 apart; Helmholtz from C112 (DecayWaves) |
| C115 | `assemble` with the single layer integrand for cells that do not touch, `regular_sphere`, `screen_*` | centre, area, radius and moments of rules are defined in SpecMoments without the assembly code; the entry is one tensor sum (MomentResults, `single_entry`, `regular_sum`); 1/\|z+w\| minus its expansion of first order in w is bounded by k²/(a²(a-k)) with \|w\| <= k < a = \|z\| (`expansion`, from an identity between lengths, no derivatives); the linear part is summed exactly by the rule (`affine_total`); the points are convex combinations of corners (`near_centre`); radii on the shapes from C87 and coordinates (MomentShapes), where far cells cannot touch |
| C116 | `double_layer`, `adjoint_double_layer` and `hypersingular` integrands over `assemble` and `assemble_singular`; `binary` (SpecPlanes) is IEEE 754 arithmetic from SpecFloat as a scalar type | the points used for a pair of cells are defined by `used_points` (SpecPlanes); if the normal derivative is zero there, all terms of the entry are zeros, in whatever order they are added (`zeros`, PlaneResults, from the order of additions of C67); SFadd, SFmul and SFopp on zeros and finite numbers, and the limits of the two formats, with their range as an example (PlaneFloats); in a plane the difference of two points is orthogonal to the normal (PlaneExact); equal normals make the integrand of the normal part that of the single layer operator, then C39 (PlaneHyper) |
| C117 | `regular_sphere` over the reals; `double_layer` and `adjoint_double_layer` integrands over `assemble` and `assemble_singular_part` | no angle of the spherical triangles is obtuse (`square_at`), which refinement preserves, so the flat triangles are acute; across an edge over which a direction lies the height of the planes in that direction grows, hence the highest plane is that of the cell containing the direction (`highest_cone`, with the tiling of C44), and every vertex is below all other planes (`below_planes`, ConvexSphere); the normal derivative is a positive multiple of the height of one point above the plane of the other cell (ConvexResults); signs of sums and products in any arithmetic (ConvexSigns) and in IEEE 754 (ConvexFloats) |
| C118 | `assemble` with the `single_layer`, `double_layer`, `adjoint_double_layer` integrands and the normal part of the hypersingular one; `regular_sphere` | term by term, with `valued` arithmetics (C71): the integrand is a factor times the two basis functions, so sums of absolute values are compared with the single layer matrix for kernel 1 (`majorant`, FarResults), which is the product of the areas for constants on flat cells (C99); the derivative of the Green's function along a unit normal by the Cauchy-Schwarz inequality, decreasing in the distance (FarKernel); distances of cells of the sphere from C111 |
| C119 | the tests themselves: `tests/test_space.rs`, `python/test/test_function_space.py:8-119`, `python/test/test_boundary_assembler.py:11-67` (`Tests.v`) | the loops of assertions are programs over the model in which a failed assertion is a panic; that they return follows from C01, C02, C05, C11 (a process alone sends and receives nothing, so `fs_new 0 1` is evaluated directly), C14-C16, C58, C95; cells that share an entity with DOFs share a DOF, cells that share an edge share a vertex; the options test by evaluation of the session symbolically. The suites are also replayed by computation with their own arguments, and shown to fail on grids with ghosts and on spaces they are not for. `examples/assembly.rs` likewise, from C79. What each test asserts is proved equivalent to its passing (TestsMeaning) |
| C120 | `assemble` on `regular_sphere`, all four operators of both equations | product of a matrix and a vector, turned coefficients: SpecOrbit; the renumberings of the DOFs that C97 gives for a turn make the matrix invariant, so sums over a row are sums over the row of the image (OrbitResults, `commutes_numbers`, `sums_numbers`); every DOF is on a cell, so turned coefficients are determined; the eight turns take every cell of the octahedron to every other (`octahedron_transitive`) |
| C121 | `assemble`, `assemble_singular`, hypersingular and single layer operators of both equations; `regular_sphere`, `screen_triangles`, `screen_quadrilaterals` | surface curl, normal times function, combinations: SpecCurls; linear functions, flat triangles, forms, kernels, connected grids: SpecDefinite; the integrand of a pair of cells is a sum of three single layer integrands, so entries are triple products (CurlResults, on top of the exact entries of C30); restricted functions of one cell add up to one (CurlSpaces); the three edges of a proper triangle span its plane, so a linear function without curl is constant on each cell, and on all cells by a chain of cells (DefiniteResults); connectedness by induction over the refinements (`quartered_connected`) and over rows (`square_chain`), acute triangles are proper (C117) (DefiniteShapes) |
| C122 | `assemble` with the Laplace hypersingular operator; `regular_sphere`, `screen_triangles` | edges opposite a vertex, closed rims: SpecRims; the entry is a sum over the cells around the two vertices of products of opposite edges and means of the Newton potential over the points of the rule (RimResults, on top of the exact entries of C30 and the curls of C121); the potential with one or both points moved to the vertices adds up to zero over a closed rim, since all cells use the same rule; what is left is a difference or a mixed difference, bounded by the mean value theorem (RimKernel); directed edges come in opposite pairs on the sphere and around the vertices inside a screen, with at most six cells at a vertex (RimShapes) |
| C123 | `assemble` with the Laplace single layer operator and the regular rules chosen by `set_regular_quadrature_degree`; `regular_sphere`, screens | degree of a rule, integrals by antiderivatives over the reference cell and for pairs of points as uniform limits, unique (SpecDegree, DegreeIntegrals); the reciprocal distance is expanded in Legendre polynomials: the coefficients are bounded by turning a complex number, the remainder by the differential equation of the generating function and the mean value theorem (LegendreSeries); the partial sums are polynomials of degree k in either point, on which rules of degree k agree with the integral (DegreeResults, DegreeExact); radii and distances of cells of the shapes are those of C115 (DegreeShapes); rules of degree two as examples (DegreeExamples) |
| C124 | `assemble` with the Laplace single layer and hypersingular operators on spaces of the vertices; `regular_sphere`, `screen_triangles` | hat functions, their curls and the integrals over the cells around two vertices (SpecPatches), unique; the expansion of C123 about two arbitrary points, here the vertices, times functions that are linear on each cell: rules of degree k + 1 (for the curls, which are constant on each cell, k) agree with the integral on the partial sums (PatchKernel); the sum over pairs of cells of the local entries is the sum over the cells around the vertices, by C03 and C30 (PatchResults); reaches and opposite edges on the shapes are those of C122 (PatchShapes) |
| C125 | `assemble` with the Laplace single layer operator on spaces of any element; `regular_sphere`, `screen_triangles`, `screen_quadrilaterals` | polynomials, the functions of a space on a cell, supports and the integral over the supports (SpecPieces), unique; any kernel near polynomials times a polynomial is integrated by rules of matching degree (PieceKernel, with the expansion of C123); the sum over local numbers is the product of the pieces, the sum over pairs of cells that over the supports (PieceResults); discontinuous functions have one cell (by C03), reaches are those of C115 (PieceShapes); linear functions on the sphere and bilinear functions on screens (PieceExamples); cells with a common degree of freedom touch, so continuous functions live within three radii of a centre (ContinuousShapes, with SwirlShapes; ContinuousExamples) |
| C126 | `assemble` with the Laplace double layer and adjoint double layer operators on spaces of any element; `regular_sphere` | the unit normal of a cell, the derivative of a kernel along a direction and the integrals of both operators over the supports (SpecFluxes), unique; the third power of the reciprocal distance is near polynomials by products of truncated series (FluxKernel, from the expansion of C123), the derivative is this power times an affine function (FluxResults, with the vocabulary of C125); the sphere as in C125 (FluxShapes); linear functions on opposite cells of the sphere (FluxExamples); continuous functions as in C125 (ContinuousShapes, ContinuousExamples) |
| C127 | `assemble` with the Laplace hypersingular operator on spaces of any element; `regular_sphere`, `screen_triangles`, `screen_quadrilaterals` | elements with derivatives, the surface curl of a function on a cell and the integral of a kernel times the inner product of two curls over the supports (SpecSwirls), unique, and equal to the unit normal times the gradient; the entry is a sum over the coordinates of single layer sums with the curls as functions (SwirlResults, with the bounds of C125); cells sharing a degree of freedom touch, so a function lives within three radii of the centre of any of its cells (SwirlShapes, with the radii of C123); continuous linear functions on the sphere and bilinear functions on screens (SwirlExamples) |
| C128 | `assemble` over complex numbers with the Helmholtz single layer operator on spaces of any element; `regular_sphere`, `screen_triangles`, `screen_quadrilaterals` | the integrals of C125 with the real and the imaginary part of the kernel as kernel; cos(kr)/r and sin(kr)/r are near polynomials: the series of the cosine and sine times the Legendre series of 1/r, cut at the total degree, with an exponential as majorant (EchoKernel); entries of any real kernel near polynomials are near the integrals, and a complex matrix is the matrix of the real part plus i times the matrix of the imaginary part (EchoResults, with C112 and C62); spheres and screens as in C127 (EchoShapes); continuous linear functions on the sphere and bilinear functions on screens (EchoExamples) |
| C129 | `assemble` over complex numbers with the Helmholtz double layer and adjoint double layer operators on spaces of any element; `regular_sphere` | the integrals of C126 with the real and the imaginary part of the derivatives of the kernel; the derivatives are (cos z + z sin z)/r^3 and (sin z - z cos z)/r^3 with z = kr, times an affine function; the series in z^2 times the expansion of 1/r^3 of C126, cut at the total degree, are polynomials near these (DriftKernel); entries and the two parts of the complex matrix as in C128 (DriftResults); the sphere as in C128 (DriftShapes); continuous linear functions on opposite cells of the sphere (DriftExamples) |
| C130 | `assemble` over complex numbers with the Helmholtz hypersingular operator on spaces of any element; `regular_sphere`, `screen_triangles`, `screen_quadrilaterals` | the inner product of the surface curls of C127 minus the square of the wavenumber times the inner product of the unit normals of C126 times the functions, and the integral of a kernel times this (SpecSurges), unique; for flat cells an entry is the sum over quadrature points of this product, a polynomial of degree d; the kernels and the two parts of the complex matrix as in C128 (SurgeResults); spheres and screens (SurgeShapes); continuous linear and bilinear functions (SurgeExamples) |
| C131 | `assemble` in floating point and over real numbers with the four Laplace operators on standard spaces of `regular_sphere`, `screen_triangles` and `screen_quadrilaterals` | the rounding error of C113 (relative for the single layer of non-negative functions, relative to the matrix of absolute values otherwise) and the quadrature error of C125, C126 and C127 for the same entry of the exact assembly, with the triangle inequality (BudgetResults); continuous linear and bilinear functions with 53 bits (BudgetExamples) |
| C132 | `assemble` in complex floating point and over complex numbers with the four Helmholtz operators on standard spaces of `regular_sphere`, `screen_triangles` and `screen_quadrilaterals` | complex operations made of rounded real ones are rounded with relative error below `8 * 2^-p` (RoundingModels, `complex_unit`), so the rounding error of an entry is relative to the matrix of absolute values; each part is no larger than the modulus; the quadrature error of C128, C129 and C130 for the same entry of the exact assembly, with the triangle inequality (TollResults); continuous linear and bilinear functions (TollExamples) |
| C133 | `regular_sphere` over the real numbers; `rigid` (SpecCensus), `cells_mapped` and `octahedral` (SpecSymmetry) | a rigid map that sends cells to cells permutes the points and does not lower the number of cells at a point; the six points of the octahedron have four cells and all others six (C83), so the six are permuted; opposite ones stay opposite, which fixes the inner products with the axes and so the map (CensusResults); in the triangle in the middle of a cell the vertices are opposite to those of the cell in the same order, so a map that keeps the order on one level keeps it on the level before, down to the octahedron (CornerOrderResults) |
| C134 | `screen_triangles`, `screen_quadrilaterals` with the points as real numbers (`screen_positions`); `rigid` (SpecCensus), `screen_mapped` and `square_map` (SpecFrame) | cells are put in terms of the numerators of their corners; a rigid map that sends cells to cells sends the corners of the square to points of the square, and only opposite corners are as far apart as they are, so the corners are permuted; the distances to the corners fix the first two coordinates and the square of the third; in a triangle, no edge falls, so both coordinates are reflected or neither; the other direction maps each cell; with the order of the vertices the steps along the edges of the first cell leave no choice but the sign of z (FrameResults) |
| C135 | `assemble` for the Laplace and Helmholtz single layers on `regular_sphere`, `screen_triangles` and `screen_quadrilaterals`; `symmetric_simplex` and `symmetric_square` (SpecRuleSymmetry), `octahedral` (SpecSymmetry), `square_map` (SpecFrame), `flat_cells`, `flat_screen` | the entry of two cells that do not touch is the double sum over the nodes of the rule times both area factors (as for C123); a sum over the nodes of a symmetric rule does not depend on the order of the corners, for two exchanges that generate all orders; rigid maps keep distances and area factors and commute with the affine maps of the cells; the images do not touch; real and imaginary parts of a complex matrix are real matrices for the parts of the kernel, which depend on the distance only (RuleSymmetryResults, RuleSymmetryScreen, RuleSymmetryWaves); an order of the four corners of a square with the diagonals on the diagonals is made of two reflections (RuleSymmetryQuads); for the rule with one point in a corner two entries are computed (RuleSymmetryNeeded) |
| C66 | `ownership` in Python and the ownership of C08-C13 | a space on one process owns all its DOFs |

## Not modelled

Overflow, underflow and NaN except in C110 (spreading of values that are not numbers),
C116 (zeros of IEEE 754 arithmetic) and C117 (signs); other results are for an arbitrary addition, for
exact arithmetic, or in C71, C72 and C105 for relative errors;  allocation failure; the internals of ndgrid, ndelement, rlst,
green-kernels, bempp-quadrature, mpi, rayon; the numerical accuracy of the
quadrature rules; `src/bindings` (disabled in `lib.rs`) beyond the allocation,
options, copying and assembly functions that C49, C50, C54-C58, C63-C66, C69, C85, C86, C93, C102 and C103 need; the parallel grid distribution made by ndgrid; files that are not part of
the module tree (`src/function/function_space/*` except
`serial.rs` and `common.rs`, see C73;
`src/boundary_assemblers/assemblers.rs`).

## Checks of the model against stored numbers

`ReferenceExamples.v` holds the matrices that `tests/compare_to_bempp_cl.rs` compares with
(computed by bempp-cl).  No theorem uses them.  By computation: in the model's numbering of
the cells of the octahedron the entries depend on the number of common vertices only, to
10^-16; the single layer is positive (C70), the double layers are zero on the diagonal and
negative elsewhere (C117), and transposes of each other for cells that do not touch (C40);
in the model's numbering of the DOFs, after the permutation in the test, the hypersingular
matrix has three values and rows that add up to zero (C41); rows have equal sums (C120).
Other numberings do not fit.  The same file shows what the comparisons cannot see: test and
trial space exchanged, and the double layer operator exchanged with its adjoint, pass all
of these tests.

## Trusted base

Coq 8.16.1 kernel (and `coqchk`); the fidelity of the model definitions to the
cited lines; the interface assumptions on external crates listed above.
`Print Assumptions` is printed under every property theorem.  What it lists:

- `C44_unit_points_outward_normals`, `C53_tessellation`, `C53_points_differ`,
  `C71_complex_numbers`, `C71_complex_arithmetic`, `C81_midpoints`, `C81_cones`,
  all of C87 and C88, all of C133, all of C135, all of C134 except `C134_once`, `C89_cells`, `C89_points`, `C90_norms`, `C90_points`,
  `C91_volume_grows`, `C91_octahedron`, `C92_area_volume`, `C47_triangles_area`, `C47_quadrilaterals_area`,
  `C97_cells`, `C97_other_turns`, `C97_laplace`, `C97_helmholtz`, `C97_octahedron`, all of C120 except `C120_solutions`, `C121_edges`, `C121_form`, `C121_sphere`, `C121_screen`, `C122_sphere_rims`,
  `C99_sphere_single`, `C99_sphere_double`, `C99_sphere_rows`, `C99_sphere_adjoint`,
  `C100_laplace`, `C100_helmholtz`, `C106_screen`, `C111_sphere`, `C111_sphere_vertices`,
  `C111_triangles`, `C111_quadrilaterals`, `C111_triangles_attained`, `C111_quadrilaterals_attained`,
  `C112_first_gradient`, `C112_second_gradient`, `C112_zero`, `C112_dominated`, `C114_sphere`, `C114_sphere_positive`,
  `C114_screens`, `C114_sphere_waves`, `C114_screen_waves`, `C127_curl`, all of C115, `C116_sphere`, `C116_screens`, `C116_screen_hypersingular`, `C117_acute`, `C117_convex`, `C117_surface`, `C117_sphere`, `C117_strict`, `C117_singular`, `C118_laplace`, `C118_helmholtz`, `C118_steepest`, `C118_sphere`, `C118_sphere_waves`, and of C104 the four theorems about screens
  and spheres:
  `ClassicalDedekindReals.sig_forall_dec`, `ClassicalDedekindReals.sig_not_dec`,
  `FunctionalExtensionality.functional_extensionality_dep` (the real numbers of
  the standard library);
- `C46_unit_square_refuted`, `C47_triangles_tile`, `C47_quadrilaterals_tile`,
  `C71_rounding_error`, `C71_growth`, `C71_real_numbers`,
  `C72_single_layer_accuracy`, `C105_rounding_error`, `C105_single_layer_accuracy`, `C89_isometries`, `C89_inverses`, `C134_once`,
  `C89_different`, `C91_normals_cancel`, `C91_any_origin`, `C106_share`, `C112_kernel_change`, `C113_error`, `C113_accuracy`,
  `C114_two_sided`, `C114_constants`, `C116_plane`, `C117_real`, `C118_majorant`, `C118_constants`, `C123_monomials`, all of C94: `ClassicalDedekindReals.sig_forall_dec`,
  `FunctionalExtensionality.functional_extensionality_dep`;
- `C71_floats`, `C90_bits`, `C90_bits_points`, `C90_bits_edges`,
  `C90_bits_outward`, all of C96, `C99_sphere_limit`, `C111_rounded_sphere`, `C111_rounded_vertices`, `C112_single_layer`, `C112_double_layers`,
  `C112_hypersingular`, `C112_continuous`, `C112_laplace_limit`, `C112_positive_change`, `C113_digits`, `C114_wave_change`, `C122_decay`, `C122_sphere`, `C122_screen`, all of C132, all of C131, all of C130, all of C129, all of C128, all of C127 except `C127_curl`, all of C126, all of C125, all of C124, all of C123 except `C123_monomials`: all three and `Classical_Prop.classic`;
- every other theorem: closed under the global context.
