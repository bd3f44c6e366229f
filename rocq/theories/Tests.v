(** * Tests: the test suites of the repository as programs

    Transcription of tests/test_space.rs, python/test/test_function_space.py and of
    the part of python/test/test_boundary_assembler.py that does not compare with
    stored numbers, with the grid, the element family and the degree as arguments.
    A failed assertion panics; a test that passes returns. *)
From Coq Require Import ZArith.
From Verif Require Import Base Topology DofMap Process Space Colouring Python PythonAssembly Options Scalar Integrand CellPair Operators
  Interleave Assembly.

(** [assert!]. E.g. tests/test_space.rs:24-41. *)
Definition check (b : bool) : res unit := if b then Ok tt else Panic.

(** [for x in l { ... }], where the body only has assertions.
    E.g. tests/test_space.rs:22-41. *)
Definition for_each {A : Type} (f : A -> res unit) (l : list A) : res unit := foldM (fun _ x => f x) l tt.

(** [run_test] and [run_test_rt], tests/test_space.rs:16-42 and 44-70, which differ in
    the element family only. *)
Definition run_test (g : grid) (fam : family) : res unit :=
  dm <- assign_dofs 0 g fam ;;
  _ <- for_each (fun o => check (ow_rank o =? 0)) (dm_owner dm) ;;
  _ <- for_each (fun d =>
         for_each (fun ix =>
           _ <- check (snd ix <? dm_size dm) ;;
           for_each (fun m => check (negb (snd ix =? m))) (skipn (fst ix + 1) d)) (enumerate d)) (dm_cells dm) ;;
  for_each (fun i => for_each (fun j => for_each (fun k => check (k <? dm_size dm)) j) i) (dm_ents dm).

(** [FunctionSpace::new] with the communicator [self_comm] (tests/test_space.rs:140-144):
    a process that waits for a message waits for ever. *)
Definition new_serial (g : grid) (fam : family) : res space :=
  dm <- assign_dofs 0 g fam ;;
  match fs_new 0 1 dm with
  | Ret sp => Ok sp
  | Crash => Panic
  | _ => Hang
  end.

(** [test_dofmap_lagrange0], [..1] and [..2], tests/test_space.rs:137-179, where
    [entities] is the number they compare with; and [test_create_space_dp0], [..p1],
    [..p2], python/test/test_function_space.py:8-41. *)
Definition test_dofmap (g : grid) (fam : family) (entities : nat) : res unit :=
  sp <- new_serial g fam ;;
  _ <- check (local_size sp =? global_size sp) ;;
  _ <- check (local_size sp =? entities) ;;
  check (is_serial 1).

(** tests/test_space.rs:137-149. *)
Definition test_lagrange0 (g : grid) : res unit := test_dofmap g (interior_only (fun _ => 1)) (g_count g Triangle).
(** tests/test_space.rs:152-164. *)
Definition test_lagrange1 (g : grid) : res unit := test_dofmap g (lagrange 1) (g_count g Point).
(** tests/test_space.rs:166-179. *)
Definition test_lagrange2 (g : grid) : res unit := test_dofmap g (lagrange 2) (g_count g Point + g_count g Interval).

(** The first part of the three tests of colourings, tests/test_space.rs:188-205,
    228-244 and 255-271: the classes have as many members as there are cells, and no
    two classes have one in common. *)
Definition test_classes (g : grid) (t : cell_type) (colouring : list (list nat)) : res unit :=
  _ <- check (sum_list (map (@length nat) colouring) =? g_count g t) ;;
  for_each (fun ic => for_each (fun jc =>
    if fst ic =? fst jc then Ok tt
    else for_each (fun cell0 => for_each (fun cell1 => check (negb (cell0 =? cell1))) (snd jc)) (snd ic))
    (enumerate colouring)) (enumerate colouring).

(** The last part, lines 206-218 ([d] is 0) and 272-294 ([d] is 1): cells of one class
    have no sub-entity of dimension [d] in common.  The index [cells[*cell0]] of line
    210 and the [unwrap] of line 278 are the test for the existence of the cell. *)
Definition test_apart (g : grid) (d : nat) (colouring : list (list nat)) : res unit :=
  for_each (fun ci => for_each (fun cell0 => for_each (fun cell1 =>
    if cell0 =? cell1 then Ok tt
    else
      _ <- check (entity_exists g 2 cell0) ;;
      _ <- check (entity_exists g 2 cell1) ;;
      for_each (fun e0 => for_each (fun e1 => check (negb (e0 =? e1))) (g_sub g cell1 d)) (g_sub g cell0 d)) ci) ci) colouring.

(** [test_colouring_p1] and [test_colouring_rt1] (the latter also makes a space of
    continuous linear functions, line 253). *)
Definition test_colouring (g : grid) (t : cell_type) (fam : family) (d : nat) : res unit :=
  _ <- new_serial g fam ;;
  col <- cell_colouring g fam ;;
  colouring <- unwrap (assoc ct_eqb t col) ;;
  _ <- test_classes g t colouring ;;
  test_apart g d colouring.

(** [test_colouring_dp0]. tests/test_space.rs:221-246. *)
Definition test_colouring_one (g : grid) (t : cell_type) (fam : family) : res unit :=
  _ <- new_serial g fam ;;
  col <- cell_colouring g fam ;;
  colouring <- unwrap (assoc ct_eqb t col) ;;
  _ <- test_classes g t colouring ;;
  check (length colouring =? 1).

(** ** python/test/test_function_space.py *)

(** [test_get_local_dof_numbers], lines 72-84. *)
Definition test_local_numbers (g : grid) (degree : nat) : res unit :=
  sp <- new_serial g (lagrange degree) ;;
  let size (d i n : nat) := l <- get_local_dof_numbers (sp_dofmap sp) d i ;; dofs <- py_copy l ;; check (length dofs =? n) in
  _ <- for_each (fun i => size 0 i 1) (seq 0 (g_count g Point)) ;;
  _ <- for_each (fun i => size 1 i (degree - 1)) (seq 0 (g_count g Interval)) ;;
  for_each (fun i => size 2 i ((degree - 1) * (degree - 2) / 2)) (seq 0 (g_count g Triangle)).

(** [test_cell_dofs], lines 87-95. *)
Definition test_cell_dofs (g : grid) (degree : nat) : res unit :=
  sp <- new_serial g (lagrange degree) ;;
  for_each (fun i =>
    dofs <- cell_dofs (sp_dofmap sp) i ;;
    l <- (r <- py_cell_dofs dofs ;; unwrap r) ;;
    check (length l =? (degree + 1) * (degree + 2) / 2)) (seq 0 (g_count g Triangle)).

(** [test_global_dofs] and [test_ownership], lines 98-119. *)
Definition test_global (g : grid) (degree : nat) : res unit :=
  sp <- new_serial g (lagrange degree) ;;
  _ <- check (local_size sp =? global_size sp) ;;
  for_each (fun i => n <- global_dof_index sp i ;; check (n =? i)) (seq 0 (local_size sp)).
(** python/test/test_function_space.py:110-119. *)
Definition test_ownership (g : grid) (degree : nat) : res unit :=
  sp <- new_serial g (lagrange degree) ;;
  _ <- check (local_size sp =? global_size sp) ;;
  for_each (fun i => o <- ownership_of sp i ;; check (is_owned o)) (seq 0 (local_size sp)).

(** ** python/test/test_boundary_assembler.py *)

(** [test_assemble_singular], lines 45-67, for any two spaces and any assembler, on the
    triplets the sparse matrix is made of; [close] is [np.isclose], [rt] and
    [rt'] are the behaviours of the threads in the two calls. *)
Definition test_singular {T R : Type} (S : scalar T R) (X : externals R) (rt rt' : runtime T) (wmod : nat) (close : T -> T -> bool)
    (a : typed (operator T R * options)) (trial test : typed (fspace T R)) : py_result unit :=
  py_then (py_assemble_singular S X rt wmod a trial test) (fun mat =>
  py_then (py_assemble S X rt' wmod a trial test) (fun dense =>
  match mat with
  | CsrEmpty _ => PyReturn tt
  | CsrFromAij _ rows cols data =>
      fold_left (fun r ijv =>
        py_then r (fun _ =>
        py_then (nd_get dense (fst (fst ijv)) (snd (fst ijv))) (fun x =>
        if close x (snd ijv) then PyReturn tt else PyRaise)))
        (combine (combine rows cols) data) (PyReturn tt)
  end)).

(** [test_create_assembler], lines 20-42, with any values [v] and [n] instead of 3 and 4
    and in any session.  ([assert o.batch_size != 4] in line 37 compares a method with a
    number and always holds; it is left out.) *)
Definition returns (c : call) (s : session) (k : session -> bool) : bool :=
  match execute c s with Done s' => k s' | _ => false end.
(** [pytest.raises], python/test/test_boundary_assembler.py:20-42. *)
Definition raises (c : call) (s : session) (k : session -> bool) : bool :=
  match execute c s with Raised s' => k s' | _ => false end.
(** The comparisons of python/test/test_boundary_assembler.py:20-42. *)
Definition reads (o : option nat) (z : Z) : bool :=
  match o with Some m => (Z.of_nat m =? z)%Z | None => false end.
(** python/test/test_boundary_assembler.py:20-42. *)
Definition test_create_assembler (op : operator_type) (v n : Z) (s : session) : bool :=
  let o := length (se_options s) in
  returns NewOptions s (fun s =>
  is_some (py_regular_degree s o Triangle) && negb (reads (py_regular_degree s o Triangle) v) &&
  returns (SetRegularDegree o Triangle v) s (fun s =>
  reads (py_regular_degree s o Triangle) v &&
  raises (SetRegularDegree o Interval v) s (fun s =>
  negb (is_some (py_regular_degree s o Interval)) &&
  is_some (py_singular_degree s o Triangle Triangle) && negb (reads (py_singular_degree s o Triangle Triangle) v) &&
  returns (SetSingularDegree o Triangle Triangle v) s (fun s =>
  reads (py_singular_degree s o Triangle Triangle) v &&
  raises (SetSingularDegree o Interval Interval v) s (fun s =>
  returns (SetBatchSize o n) s (fun s =>
  reads (py_batch_size s o) n &&
  returns (CreateLaplaceAssembler (Some o) op F64) s (fun _ => true))))))).

(** ** examples/assembly.rs *)

(** [main], lines 9-39, with any grid of cells of type [t], any element family (its
    number of components and its tabulated values), operator and degrees: the entries
    that are printed, row by row. *)
Definition example_assembly {T R : Type} (S : scalar T R) (X : externals R) (rt : runtime T) (wmod : nat) (O : operator T R)
    (g : grid) (t : cell_type) (fam : family) (components : cell_type -> nat) (basis : cell_type -> list R -> nat -> nat -> nat -> nat -> T)
    (regular singular : nat) : res (list (list T)) :=
  sp <- new_serial g fam ;;
  let space := mkFspace T R g fam 1 sp components basis in
  let options := set_singular_quadrature_degree (t, t) singular (set_regular_quadrature_degree t regular default_options) in
  matrix <- assemble S X rt wmod O options space space ;;
  mapM (fun i => mapM (fun j => vget matrix (i + global_size sp * j)) (seq 0 (global_size sp))) (seq 0 (global_size sp)).
