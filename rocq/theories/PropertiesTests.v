(** * Property C119: the test suites pass for all sizes, levels, degrees and families *)
From Coq Require Import ZArith.
From Verif Require Import Base Topology DofMap SpecDof DofExamples Process Space Colouring Shapes SpecShapes ShapesExamples Python PythonAssembly Options Scalar Integrand CellPair Operators
  SpecLocal LocalExamples Interleave Assembly SpecAssembly AssemblyExamples SpecAlgebra AlgebraExamples BrokenExamples SpecOptions SpecShapeSpaces Tests SpecTests TestsResults TestsMeaning TestsExamples.

(** C119: [run_test] of tests/test_space.rs passes on every grid of one process with
    every family of elements, in particular on the built-in shapes. *)
Theorem C119_dofs : forall g fam, wf_grid g -> wf_family (g_types g 2) fam -> unshared g -> run_test g fam = Ok tt.
Proof. exact run_test_passes. Qed.
Print Assumptions C119_dofs.

Theorem C119_dofs_shapes : forall G fam, shape_grid G -> wf_family (g_types G 2) fam -> run_test G fam = Ok tt.
Proof. exact shape_run_test. Qed.
Print Assumptions C119_dofs_shapes.

(** The tests of the sizes pass on spheres of every level and on every screen of
    triangles. *)
Theorem C119_sizes : forall G, shape_grid G -> g_types G 2 = [Triangle] -> test_lagrange0 G = Ok tt /\ test_lagrange1 G = Ok tt /\ test_lagrange2 G = Ok tt.
Proof. exact shape_lagrange0. Qed.
Print Assumptions C119_sizes.

(** The tests of the colouring pass on all shapes: no common entity of dimension [d] for
    elements with DOFs there, and no common edge for elements with DOFs on the vertices. *)
Theorem C119_colouring : forall G t fam d, shape_grid G -> g_types G 2 = [t] -> wf_family [t] fam ->
  dofs_on t fam d \/ (d = 1 /\ dofs_on t fam 0) -> test_colouring G t fam d = Ok tt.
Proof. exact shape_colouring. Qed.
Print Assumptions C119_colouring.

Theorem C119_one_colour : forall G t n, shape_grid G -> g_types G 2 = [t] -> 0 < n t -> test_colouring_one G t (interior_only n) = Ok tt.
Proof. exact shape_one_colour. Qed.
Print Assumptions C119_one_colour.

(** python/test/test_function_space.py, for every degree. *)
Theorem C119_python : forall G p, shape_grid G -> g_types G 2 = [Triangle] -> 1 <= p ->
  test_local_numbers G p = Ok tt /\ test_cell_dofs G p = Ok tt /\ test_global G p = Ok tt /\ test_ownership G p = Ok tt.
Proof. exact shape_python. Qed.
Print Assumptions C119_python.

(** [test_assemble_singular] passes for all discontinuous spaces and all assemblers, in
    any arithmetic in which adding a number to zero gives a close number, whatever the
    threads do. *)
Theorem C119_singular : forall (T R : Type) (S : scalar T R) (X : externals R) rt rt' wmod close (a : typed (operator T R * options)) (trial test : typed (fspace T R)) deg pts ct,
  legal_runtime (s_add S) rt -> legal_runtime (s_add S) rt' -> (forall v, close (s_add S (s_zero S) v) v = true) ->
  ty_dtype a = F32 \/ ty_dtype a = F64 -> ty_dtype trial = ty_dtype a -> ty_dtype test = ty_dtype a ->
  dense_setting X wmod (fst (ty_native a)) (snd (ty_native a)) deg pts ct (ty_native test) (ty_native trial) ->
  interior_family [ct] (fs_family (ty_native test)) -> interior_family [ct] (fs_family (ty_native trial)) ->
  test_singular S X rt rt' wmod close a trial test = PyReturn tt.
Proof. exact singular_passes. Qed.
Print Assumptions C119_singular.

(** [test_create_assembler] passes in any session, for all values that are not the
    defaults. *)
Theorem C119_options : forall op v n s, op <> ElectricFieldOp -> op <> MagneticFieldOp ->
  (0 <= v < 2 ^ 64)%Z -> (0 <= n < 2 ^ 64)%Z -> v <> 37%Z -> v <> 4%Z -> test_create_assembler op v n s = true.
Proof. exact create_passes. Qed.
Print Assumptions C119_options.

(** What the tests assert: they pass if and only if the following holds, for any grid,
    family and result. *)
Theorem C119_dofs_meaning : forall g fam, run_test g fam = Ok tt <->
  exists dm, assign_dofs 0 g fam = Ok dm /\ (forall o, In o (dm_owner dm) -> ow_rank o = 0) /\
    (forall d, In d (dm_cells dm) -> NoDup d /\ forall n, In n d -> n < dm_size dm) /\
    forall l d n, In l (dm_ents dm) -> In d l -> In n d -> n < dm_size dm.
Proof. exact run_test_means. Qed.
Print Assumptions C119_dofs_meaning.

(** Creating a space on one process never waits: it returns, or it panics as it does
    when an entity belongs to another process. *)
Theorem C119_never_waits : forall g fam dm, assign_dofs 0 g fam = Ok dm ->
  (exists sp, new_serial g fam = Ok sp) \/ new_serial g fam = Panic.
Proof. exact serial_never_waits. Qed.
Print Assumptions C119_never_waits.

Example C119_one_ghost : let g := grid_of_cells 0 Triangle 3 [[0; 1; 2]] in
  (exists sp, new_serial g (lagrange 1) = Ok sp) /\
  new_serial (with_ownership g (fun d e => if (d =? 0) && (e =? 1) then Ghost 1 0 else Owned)) (lagrange 1) = Panic.
Proof. exact one_ghost. Qed.

Theorem C119_sizes_meaning : forall g fam n, test_dofmap g fam n = Ok tt <-> exists sp, new_serial g fam = Ok sp /\ local_size sp = n /\ global_size sp = n.
Proof. exact test_dofmap_means. Qed.
Print Assumptions C119_sizes_meaning.

Theorem C119_colouring_meaning : forall g t fam d, test_colouring g t fam d = Ok tt <->
  exists sp col classes, new_serial g fam = Ok sp /\ cell_colouring g fam = Ok col /\ assoc ct_eqb t col = Some classes /\ classes_ok g t classes /\
    forall l c c', In l classes -> In c l -> In c' l -> c <> c' ->
      entity_exists g 2 c = true /\ entity_exists g 2 c' = true /\ forall e, In e (g_sub g c d) -> ~ In e (g_sub g c' d).
Proof. exact test_colouring_means. Qed.
Print Assumptions C119_colouring_meaning.

Theorem C119_one_colour_meaning : forall g t fam, test_colouring_one g t fam = Ok tt <->
  exists sp col classes, new_serial g fam = Ok sp /\ cell_colouring g fam = Ok col /\ assoc ct_eqb t col = Some classes /\ classes_ok g t classes /\ length classes = 1.
Proof. exact test_one_means. Qed.
Print Assumptions C119_one_colour_meaning.

Theorem C119_python_meaning : forall g p,
  (test_local_numbers g p = Ok tt <-> exists sp, new_serial g (lagrange p) = Ok sp /\
     (forall i, i < g_count g Point -> exists l, get_local_dof_numbers (sp_dofmap sp) 0 i = Ok l /\ length l = 1) /\
     (forall i, i < g_count g Interval -> exists l, get_local_dof_numbers (sp_dofmap sp) 1 i = Ok l /\ length l = p - 1) /\
     (forall i, i < g_count g Triangle -> exists l, get_local_dof_numbers (sp_dofmap sp) 2 i = Ok l /\ length l = (p - 1) * (p - 2) / 2)) /\
  (test_cell_dofs g p = Ok tt <-> exists sp, new_serial g (lagrange p) = Ok sp /\
     forall i, i < g_count g Triangle -> exists l, cell_dofs (sp_dofmap sp) i = Ok (Some l) /\ length l = (p + 1) * (p + 2) / 2) /\
  (test_global g p = Ok tt <-> exists sp, new_serial g (lagrange p) = Ok sp /\ local_size sp = global_size sp /\
     forall i, i < local_size sp -> global_dof_index sp i = Ok i) /\
  (test_ownership g p = Ok tt <-> exists sp, new_serial g (lagrange p) = Ok sp /\ local_size sp = global_size sp /\
     forall i, i < local_size sp -> exists o, ownership_of sp i = Ok o /\ is_owned o = true).
Proof. exact python_means. Qed.
Print Assumptions C119_python_meaning.

Theorem C119_singular_meaning : forall (T R : Type) (S : scalar T R) (X : externals R) rt rt' wmod close (a : typed (operator T R * options)) (trial test : typed (fspace T R)),
  test_singular S X rt rt' wmod close a trial test = PyReturn tt <->
  exists mat dense, py_assemble_singular S X rt wmod a trial test = PyReturn mat /\ py_assemble S X rt' wmod a trial test = PyReturn dense /\
    forall shape rows cols data, mat = CsrFromAij shape rows cols data ->
      forall i j v, In (i, j, v) (combine (combine rows cols) data) -> exists x, nd_get dense i j = PyReturn x /\ close x v = true.
Proof. exact @singular_means. Qed.
Print Assumptions C119_singular_meaning.

(** examples/assembly.rs prints a square of numbers on every shape, for every standard
    family, every operator and all degrees that the external crates have rules for. *)
Theorem C119_example : forall (T R : Type) (S : scalar T R) (X : externals R) rt wmod (O : operator T R) G t fam components basis regular singular,
  shape_grid G -> g_types G 2 = [t] -> standard fam -> (forall u, 0 < components u) -> shipped S O -> proper_rules X ->
  rules_exist X t (after [SetRegular t regular; SetSingular (t, t) singular]) -> 128 < wmod -> 2 * ent_count G 2 * ent_count G 2 <= wmod ->
  legal_runtime (s_add S) rt ->
  exists printed sp, example_assembly S X rt wmod O G t fam components basis regular singular = Ok printed /\
    new_serial G fam = Ok sp /\ length printed = global_size sp /\ forall i row, nth_error printed i = Some row -> length row = global_size sp.
Proof. exact @example_passes. Qed.
Print Assumptions C119_example.

(** The tests with the arguments they have in the repository. *)
Example C119_replayed :
  on_grid (screen_triangles 8) Triangle (fun G => [run_test G (interior_only (fun _ => 1)); run_test G (interior_only (fun _ => 6));
    run_test G (lagrange 2); run_test G (lagrange 3); run_test G (interior_only (fun _ => 3))]) = repeat (Ok tt) 5 /\
  on_grid (regular_sphere no_numbers 2 1) Triangle (fun G => [test_lagrange0 G; test_lagrange1 G; test_lagrange2 G;
    test_colouring G Triangle (lagrange 1) 0; test_colouring_one G Triangle (interior_only (fun _ => 1)); test_colouring G Triangle (lagrange 1) 1]) = repeat (Ok tt) 6.
Proof. exact replayed_rust. Qed.

Example C119_replayed_python :
  on_grid (regular_sphere no_numbers 1 1) Triangle (fun G => [test_local_numbers G 1; test_local_numbers G 4; test_cell_dofs G 3; test_global G 2; test_ownership G 2])
    = repeat (Ok tt) 5 /\
  test_create_assembler SingleLayerOp 3 4 loaded = true.
Proof. exact replayed_python. Qed.

(** Other families meet the hypotheses, and the tests can fail. *)
Example C119_edges : (forall t, surface_type t -> wf_family [t] on_edges) /\ forall t, dofs_on t on_edges 1.
Proof. exact (conj on_edges_wf on_edges_dofs). Qed.

Example C119_failing :
  run_test (with_ownership screen2 (fun d e => match d, e with 0, 3 => Ghost 1 7 | _, _ => Owned end)) (lagrange 1) = Panic /\
  test_dofmap screen2 (lagrange 2) (g_count screen2 Point) = Panic /\
  test_colouring screen2 Triangle (interior_only (fun _ => 1)) 0 = Panic /\
  test_colouring screen2 Triangle on_edges 0 = Panic /\
  test_colouring screen2 Triangle on_edges 1 = Ok tt /\
  test_colouring_one screen2 Triangle (lagrange 1) = Panic /\
  test_create_assembler SingleLayerOp 37 4 loaded = false /\ test_create_assembler SingleLayerOp 4 4 loaded = false.
Proof. exact failing. Qed.

Example C119_sparse_dense :
  let a := mkTyped F64 (laplace_hypersingular demo_green, demo_options) in let dp1 := mkTyped F64 screen2_dp1 in let p1 := mkTyped F64 screen2_linear in
  legal_runtime (s_add qc_scalar) demo_rt /\ (forall v, qc_close (s_add qc_scalar (s_zero qc_scalar) v) v = true) /\
  dense_setting demo_externals 256 (fst (ty_native a)) (snd (ty_native a)) (fun _ _ => 2) (fun _ => 2) Triangle (ty_native dp1) (ty_native dp1) /\
  interior_family [Triangle] (fs_family (ty_native dp1)) /\
  test_singular qc_scalar demo_externals demo_rt demo_rt 256 qc_close a dp1 dp1 = PyReturn tt /\
  test_singular qc_scalar demo_externals demo_rt demo_rt 256 qc_close a p1 p1 = PyRaise.
Proof. exact sparse_dense_example. Qed.

(** The example on the octahedron and on eight triangles. *)
Example C119_printed :
  printed_sizes (on_octahedron (fun G => example_assembly qc_scalar demo_externals demo_rt 256 (laplace_single_layer demo_green) G Triangle (lagrange 1) (fun _ => 1) p1_basis 2 2))
    = repeat 6 6 /\
  printed_sizes (example_assembly qc_scalar demo_externals demo_rt 256 (laplace_single_layer demo_green) screen2 Triangle (lagrange 1) (fun _ => 1) p1_basis 2 2) = repeat 9 9 /\
  shape_grid screen2 /\ standard (lagrange 1) /\ shipped qc_scalar (laplace_single_layer demo_green) /\ proper_rules demo_externals /\
  rules_exist demo_externals Triangle (after [SetRegular Triangle 2; SetSingular (Triangle, Triangle) 2]).
Proof. exact printed_example. Qed.
