(** * Assembly of matrices

    Model of [BoundaryAssembler::assemble_singular], [assemble],
    [assemble_into_memory], [assemble_singular_part], [assemble_nonsingular_part] and
    of the batch functions, src/boundary_assemblers.rs:118-522 and 608-773. *)
From Verif Require Import Base Topology DofMap Colouring Space Options Batch Adjacency
  Scalar Integrand CellPair Operators Interleave.

(** ** Interface to external crates *)

(** [bempp_quadrature::types::NumericalQuadratureDefinition]; the casts from [f64] to
    [T::Real] (src/boundary_assemblers.rs:424-426, 429-433) are part of it. *)
Record quadrature (R : Type) : Type := mkQuadrature { qd_points : list R; qd_weights : list R }.
Arguments mkQuadrature {R}.
Arguments qd_points {R}.
Arguments qd_weights {R}.

(** [TestTrialNumericalQuadratureDefinition].
    Returned to src/boundary_assemblers.rs:541-561. *)
Record pair_quadrature (R : Type) : Type := mkPairQuadrature {
  pq_test : list R;
  pq_trial : list R;
  pq_weights : list R
}.
Arguments mkPairQuadrature {R}.
Arguments pq_test {R}.
Arguments pq_trial {R}.
Arguments pq_weights {R}.

(** Quadrature rules, Duffy rules, and [grid.geometry_map(cell_type, points)] as a
    function of the cell.
    src/boundary_assemblers.rs:419, 434 (rules), 543-553 (Duffy rules), 645-646,
    724-725 (maps). *)
Record externals (R : Type) : Type := mkExternals {
  x_simplex : cell_type -> nat -> option (quadrature R);
  x_duffy : duffy -> nat -> vpairs -> nat -> option (pair_quadrature R);
  x_geometry : grid -> cell_type -> list R -> nat -> cell_map R
}.
Arguments x_simplex {R}.
Arguments x_duffy {R}.
Arguments x_geometry {R}.

(** A function space as the assembler sees it: [FunctionSpace], src/function.rs:73-88,
    the number of processes of its communicator, and the tabulation of its elements
    ([ndelement]): derivative, point, function, component. *)
Record fspace (T R : Type) : Type := mkFspace {
  fs_grid : grid;
  fs_family : family;
  fs_processes : nat;
  fs_space : space;
  fs_components : cell_type -> nat;
  fs_basis : cell_type -> list R -> nat -> nat -> nat -> nat -> T
}.
Arguments fs_grid {T R}.
Arguments fs_family {T R}.
Arguments fs_processes {T R}.
Arguments fs_space {T R}.
Arguments fs_components {T R}.
Arguments fs_basis {T R}.

(** The scheduler: how the tasks of a phase are interleaved and how results are
    joined. For src/boundary_assemblers.rs:364-392 and 494-515. *)
Record runtime (T : Type) : Type := mkRuntime {
  rt_par : list (list (@op T)) -> list T -> res (list T);
  rt_reduce : forall A : Type, A -> (A -> A -> A) -> list A -> A
}.
Arguments rt_par {T}.
Arguments rt_reduce {T} r {A}.

(** It does what rayon promises. For src/boundary_assemblers.rs:364-392 and 494-515. *)
Definition legal_runtime {T : Type} (add : T -> T -> T) (rt : runtime T) : Prop :=
  (forall tasks memory, outcome add tasks memory (rt_par rt tasks memory)) /\
  (forall (A : Type) (identity : A) join l, reduces identity join l (rt_reduce rt identity join l)).

(** [SparseMatrixData], helpers.rs:77-86; [sm_reserved] is the capacity asked for. *)
Record sparse (T : Type) : Type := mkSparse {
  sm_data : list T;
  sm_rows : list nat;
  sm_cols : list nat;
  sm_shape : nat * nat;
  sm_reserved : nat
}.
Arguments mkSparse {T}.
Arguments sm_data {T}.
Arguments sm_rows {T}.
Arguments sm_cols {T}.
Arguments sm_shape {T}.
Arguments sm_reserved {T}.

(** helpers.rs:90-97, 99-106, 108-114 (the debug assertions on the shapes are left
    out: they hold, as all shapes are that of the operator). *)
Definition sparse_new {T : Type} (shape : nat * nat) : sparse T := mkSparse [] [] [] shape 0.
(** [new_known_size], helpers.rs:99-106. *)
Definition sparse_known {T : Type} (shape : nat * nat) (size : nat) : sparse T := mkSparse [] [] [] shape size.
(** [add], helpers.rs:108-114. *)
Definition sparse_add {T : Type} (a b : sparse T) : sparse T :=
  mkSparse (sm_data a ++ sm_data b) (sm_rows a ++ sm_rows b) (sm_cols a ++ sm_cols b) (sm_shape a) (sm_reserved a).

(** [CsrMatrix::new] of an empty matrix or [CsrMatrix::from_aij] ([rlst]), which adds
    up the triplets. src/boundary_assemblers.rs:139-154. *)
Inductive csr (T : Type) : Type :=
| CsrEmpty (shape : nat * nat)
| CsrFromAij (shape : nat * nat) (rows cols : list nat) (data : list T).
Arguments CsrEmpty {T}.
Arguments CsrFromAij {T}.

(** What [assemble_into_memory] does to its argument: it panics before the first
    write, leaving the memory as it was, or it goes on, with the given result.
    src/boundary_assemblers.rs:176-214. *)
Inductive attempt (T : Type) : Type :=
| Rejected (memory : list T)
| Ran (r : res (list T)).
Arguments Rejected {T}.
Arguments Ran {T}.

Section Assembly.
Context {T R : Type} (S : scalar T R) (X : externals R).

(** [space.element(t)], src/function.rs:254-256: indexing the [HashMap] of
    src/function.rs:122-125. *)
Definition fs_element (fs : fspace T R) (t : cell_type) : res element :=
  unwrap (assoc ct_eqb t (map (fun t => (t, fs_family fs t)) (g_types (fs_grid fs) 2))).

(** The points copied into an array [2, npts], src/boundary_assemblers.rs:308-317,
    327-336, 420-428, 435-445. *)
Definition copy_points (npts : nat) (points : list R) : res (list R) := mapM (vget points) (seq 0 (2 * npts)).

(** [tabulate_array_shape] and [tabulate] ([ndelement]), as called at
    src/boundary_assemblers.rs:318-323, 337-342, 452-464: the table has room for
    [npts] points.  What the external crate does with another number of points is
    not modelled (a panic here). *)
Definition tabulate (fs : fspace T R) (t : cell_type) (derivs npts : nat) (points : list R) : res (array T) :=
  el <- fs_element fs t ;;
  let shape := [(derivs + 1) * (derivs + 2) / 2; npts; el_dim el; fs_components fs t] in
  if length points =? 2 * npts
  then Ok (mkArray shape (table4 ((derivs + 1) * (derivs + 2) / 2) npts (el_dim el) (fs_components fs t) (fs_basis fs t points)))
  else Panic.

(** [grid.geometry_map(t, points)]. src/boundary_assemblers.rs:645-646, 724-725. *)
Definition geometry_map (g : grid) (t : cell_type) (points : list R) : evaluator R :=
  mkEvaluator (length points / 2) (x_geometry X g t points).

(** [local_mat.col_iter()] with [col.iter()].
    src/boundary_assemblers.rs:675-676, 763-764. *)
Definition columns (a : array T) : list (list T) :=
  match a_shape a with
  | [m; n] => map (fun j => firstn m (skipn (m * j) (a_data a))) (seq 0 n)
  | _ => []
  end.

(** [izip!(trial_dofs, local_mat.col_iter())] with [izip!(test_dofs, col.iter())],
    src/boundary_assemblers.rs:675-676, 763-764: test DOF, trial DOF, entry. *)
Definition entries (test_dofs trial_dofs : list nat) (m : array T) : list (nat * nat * T) :=
  flat_map (fun tc => map (fun de => (fst de, fst tc, snd de)) (combine test_dofs (snd tc)))
    (combine trial_dofs (columns m)).

(** ** Singular part *)

(** What is computed for one singular rule: [qweights], [trial_points],
    [trial_tables], [test_points], [test_tables].
    src/boundary_assemblers.rs:250-254, 325, 344-350. *)
Record rule : Type := mkRule {
  ru_weights : list R;
  ru_trial_points : list R;
  ru_trial_table : array T;
  ru_test_points : list R;
  ru_test_table : array T
}.

(** src/boundary_assemblers.rs:300-351. *)
Definition make_rule (O : operator T R) (trial test : fspace T R) (test_t trial_t : cell_type) (pairs : vpairs) (degree : nat)
  : res rule :=
  q <- get_singular_quadrature_rule (x_duffy X) test_t trial_t pairs degree ;;
  let npts := length (pq_weights q) in
  trial_points <- copy_points npts (pq_trial q) ;;
  trial_table <- tabulate trial trial_t (op_table_derivs O) npts trial_points ;;
  test_points <- copy_points npts (pq_test q) ;;
  test_table <- tabulate test test_t (op_table_derivs O) npts test_points ;;
  Ok (mkRule (pq_weights q) trial_points trial_table test_points test_table).

(** [output.rows.push(..); output.cols.push(..); output.data.push(..)],
    src/boundary_assemblers.rs:677-679. *)
Definition push_entry (test trial : fspace T R) (out : sparse T) (e : nat * nat * T) : res (sparse T) :=
  let '(test_dof, trial_dof, v) := e in
  i <- global_dof_index (fs_space test) test_dof ;;
  j <- global_dof_index (fs_space trial) trial_dof ;;
  Ok (mkSparse (sm_data out ++ [v]) (sm_rows out ++ [i]) (sm_cols out ++ [j]) (sm_shape out) (sm_reserved out)).

(** One round of the loop at src/boundary_assemblers.rs:667-682. *)
Definition singular_pair (test trial : fspace T R) (st : singular_assembler * array T * sparse T) (p : nat * nat)
  : res (singular_assembler * array T * sparse T) :=
  let '(a, m, out) := st in
  a1 <- singular_set_test (fst p) a ;;
  a2 <- singular_set_trial (snd p) a1 ;;
  ' am <- singular_assemble S a2 m ;;
  test_dofs <- cell_dofs_unchecked (sp_dofmap (fs_space test)) (fst p) ;;
  trial_dofs <- cell_dofs_unchecked (sp_dofmap (fs_space trial)) (snd p) ;;
  out' <- foldM (push_entry test trial) (entries test_dofs trial_dofs (snd am)) out ;;
  Ok (fst am, snd am, out').

(** [assemble_batch_singular], src/boundary_assemblers.rs:610-685. *)
Definition assemble_batch_singular (O : operator T R) (shape : nat * nat) (trial_t test_t : cell_type) (trial test : fspace T R)
    (pairs : list (nat * nat)) (ru : rule) : res (sparse T) :=
  trial_el <- fs_element trial trial_t ;;
  test_el <- fs_element test test_t ;;
  let npts := length (ru_weights ru) in
  let g := fs_grid test in
  if negb ((g_gdim g =? 3) && (g_tdim g =? 2)) then Panic
  else
    let su := mkSetup (op_integrand O) (op_kernel O) (geometry_map g trial_t (ru_trial_points ru))
                (ru_test_table ru) (ru_trial_table ru) in
    let a := singular_new S npts (op_deriv_size O) su (geometry_map g test_t (ru_test_points ru)) (ru_weights ru) in
    let m := new_array (s_zero S) [el_dim test_el; el_dim trial_el] in
    st <- foldM (singular_pair test trial) pairs
            (a, m, sparse_known shape (length pairs * el_dim trial_el * el_dim test_el)) ;;
    Ok (snd st).

(** One block, src/boundary_assemblers.rs:364-380. *)
Definition singular_block (O : operator T R) (shape : nat * nat) (trial test : fspace T R) (st : rule_state rule)
    (block : nat * list (nat * nat)) : res (sparse T) :=
  trial_t <- vget (rs_trial st) (fst block) ;;
  test_t <- vget (rs_test st) (fst block) ;;
  ru <- vget (rs_data st) (fst block) ;;
  assemble_batch_singular O shape trial_t test_t trial test (snd block) ru.

(** [assemble_singular_part], src/boundary_assemblers.rs:234-393. *)
Definition assemble_singular_part (rt : runtime T) (wmod : nat) (O : operator T R) (o : options) (shape : nat * nat)
    (trial test : fspace T R) : res (sparse T) :=
  if negb (equal_grids (fs_grid test) (fs_grid trial)) then Ok (sparse_new shape)
  else if negb ((fst shape =? global_size (fs_space test)) && (snd shape =? global_size (fs_space trial))) then Panic
  else
    st <- singular_rules (make_rule O trial test) o (g_types (fs_grid test) 2) ;;
    blocks <- singular_blocks wmod st o (fs_grid test) ;;
    parts <- mapM (singular_block O shape trial test st) blocks ;;
    Ok (rt_reduce rt (sparse_new shape) sparse_add parts).

(** [assemble_singular], src/boundary_assemblers.rs:122-155. *)
Definition assemble_singular (rt : runtime T) (wmod : nat) (O : operator T R) (o : options) (trial test : fspace T R) : res (csr T) :=
  let shape := (global_size (fs_space test), global_size (fs_space trial)) in
  m <- assemble_singular_part rt wmod O o shape trial test ;;
  if (length (sm_data m) =? 0) || (length (filter (s_large S) (sm_data m)) =? 0)
  then Ok (CsrEmpty (sm_shape m))
  else Ok (CsrFromAij (sm_shape m) (sm_rows m) (sm_cols m) (sm_data m)).

(** ** Non-singular part *)

(** [*output.data.add(test_dof + output.shape[0] * trial_dof) += entry],
    src/boundary_assemblers.rs:765-767. *)
Definition entry_op (rows : nat) (e : nat * nat * T) : @op T :=
  let '(test_dof, trial_dof, v) := e in (test_dof + rows * trial_dof, v).

(** One round of the loop over test cells, src/boundary_assemblers.rs:753-770. *)
Definition nonsingular_pair (rows : nat) (test trial : fspace T R) (trial_cell : nat) (trial_dofs : list nat)
    (st : nonsingular_assembler * array T * list (@op T)) (test_cell : nat)
  : res (nonsingular_assembler * array T * list (@op T)) :=
  let '(a, m, ops) := st in
  skip <- neighbours (fs_grid test) (fs_grid trial) test_cell trial_cell ;;
  if (skip : bool) then Ok st
  else
    a1 <- nonsingular_set_test test_cell a ;;
    ' am <- nonsingular_assemble S a1 m ;;
    test_dofs <- cell_dofs_unchecked (sp_dofmap (fs_space test)) test_cell ;;
    Ok (fst am, snd am, ops ++ map (entry_op rows) (entries test_dofs trial_dofs (snd am))).

(** One round of the loop over trial cells, src/boundary_assemblers.rs:750-771. *)
Definition nonsingular_trial (rows : nat) (test trial : fspace T R) (test_cells : list nat)
    (st : nonsingular_assembler * array T * list (@op T)) (trial_cell : nat)
  : res (nonsingular_assembler * array T * list (@op T)) :=
  let '(a, m, ops) := st in
  a1 <- nonsingular_set_trial trial_cell a ;;
  trial_dofs <- cell_dofs_unchecked (sp_dofmap (fs_space trial)) trial_cell ;;
  foldM (nonsingular_pair rows test trial trial_cell trial_dofs) test_cells (a1, m, ops).

(** [assemble_batch_nonadjacent], src/boundary_assemblers.rs:689-773: the writes to the
    output in the order in which they are made (no value depends on the output), and
    the number returned. *)
Definition assemble_batch_nonadjacent (O : operator T R) (shape : nat * nat) (trial_t test_t : cell_type)
    (trial : fspace T R) (trial_cells : list nat) (test : fspace T R) (test_cells : list nat)
    (trial_points trial_weights test_points test_weights : list R) (trial_table test_table : array T)
  : res (list (@op T) * nat) :=
  let npts_test := length test_weights in
  let npts_trial := length trial_weights in
  let test_grid := fs_grid test in
  let trial_grid := fs_grid trial in
  if negb ((g_gdim test_grid =? 3) && (g_tdim test_grid =? 2) && (g_gdim trial_grid =? 3) && (g_tdim trial_grid =? 2)) then Panic
  else
    let su := mkSetup (op_integrand O) (op_kernel O) (geometry_map trial_grid trial_t trial_points) test_table trial_table in
    a <- nonsingular_new S npts_test npts_trial (op_deriv_size O) test_cells su (geometry_map test_grid test_t test_points)
           test_weights trial_weights ;;
    test_el <- fs_element test test_t ;;
    trial_el <- fs_element trial trial_t ;;
    let m := new_array (s_zero S) [el_dim test_el; el_dim trial_el] in
    st <- foldM (nonsingular_trial (fst shape) test trial test_cells) trial_cells (a, m, []) ;;
    Ok (snd st, 1).

(** A pair of cell types, src/boundary_assemblers.rs:419-464: the quadrature rules and
    the tables.  The trial table is tabulated at the test points (line 464). *)
Record regular_data : Type := mkRegular {
  re_test_points : list R;
  re_test_weights : list R;
  re_trial_points : list R;
  re_trial_weights : list R;
  re_test_table : array T;
  re_trial_table : array T
}.

(** src/boundary_assemblers.rs:416-464. *)
Definition regular_rule (O : operator T R) (test trial : fspace T R) (test_t trial_t : cell_type) (npts_test npts_trial : nat)
  : res regular_data :=
  q_test <- unwrap (x_simplex X test_t npts_test) ;;
  qpoints_test <- copy_points npts_test (qd_points q_test) ;;
  q_trial <- unwrap (x_simplex X trial_t npts_trial) ;;
  qpoints_trial <- copy_points npts_trial (qd_points q_trial) ;;
  test_table <- tabulate test test_t (op_table_derivs O) npts_test qpoints_test ;;
  trial_table <- tabulate trial trial_t (op_table_derivs O) npts_trial qpoints_test ;;
  Ok (mkRegular qpoints_test (qd_weights q_test) qpoints_trial (qd_weights q_trial) test_table trial_table).

(** A pair of colours, src/boundary_assemblers.rs:468-516: the tasks that run in
    parallel.  The first cell type of the call (line 501) is that of the test cells,
    but the first parameter (line 698) is that of the trial cells. *)
Definition nonsingular_phase (wmod : nat) (O : operator T R) (o : options) (shape : nat * nat) (trial test : fspace T R)
    (test_t trial_t : cell_type) (re : regular_data) (colours : list nat * list nat) : res (list (list (@op T))) :=
  tasks <- dense_tasks wmod (o_batch_size o) (fst colours) (snd colours) ;;
  done <- mapM (fun task =>
      assemble_batch_nonadjacent O shape test_t trial_t trial (snd task) test (fst task)
        (re_trial_points re) (re_trial_weights re) (re_test_points re) (re_test_weights re)
        (re_trial_table re) (re_test_table re)) tasks ;;
  if sum_list (map snd done) =? length tasks then Ok (map fst done) else Panic.

(** A pair of cell types, src/boundary_assemblers.rs:416-519. *)
Definition nonsingular_types (wmod : nat) (O : operator T R) (o : options) (shape : nat * nat) (trial test : fspace T R)
    (trial_colouring test_colouring : colour_map) (ts : cell_type * cell_type) : res (list (list (list (@op T)))) :=
  let (test_t, trial_t) := ts in
  npts_test <- unwrap (assoc ct_eqb test_t (o_quadrature_degrees o)) ;;
  npts_trial <- unwrap (assoc ct_eqb trial_t (o_quadrature_degrees o)) ;;
  re <- regular_rule O test trial test_t trial_t npts_test npts_trial ;;
  test_classes <- unwrap (assoc ct_eqb test_t test_colouring) ;;
  match test_classes with
  | [] => Ok []
  | _ =>
      trial_classes <- unwrap (assoc ct_eqb trial_t trial_colouring) ;;
      mapM (nonsingular_phase wmod O o shape trial test test_t trial_t re) (list_prod test_classes trial_classes)
  end.

(** [assemble_nonsingular_part], src/boundary_assemblers.rs:396-521: the phases in
    their order, each the list of its tasks.  All phases are computed before the
    first is run; that makes no difference when none of them panics. *)
Definition nonsingular_phases (wmod : nat) (O : operator T R) (o : options) (shape : nat * nat) (trial test : fspace T R)
    (trial_colouring test_colouring : colour_map) : res (list (list (list (@op T)))) :=
  if negb (is_serial (fs_processes trial) && is_serial (fs_processes test)) then Panic
  else if negb ((fst shape =? global_size (fs_space test)) && (snd shape =? global_size (fs_space trial))) then Panic
  else
    phases <- mapM (nonsingular_types wmod O o shape trial test trial_colouring test_colouring)
                (list_prod (g_types (fs_grid test) 2) (g_types (fs_grid trial) 2)) ;;
    Ok (concat phases).

(** A triplet is added to the output, src/boundary_assemblers.rs:211-213. *)
Definition add_triplet (rows : nat) (memory : list T) (x : nat * nat * T) : res (list T) :=
  let '(i, j, v) := x in
  old <- vget memory (i + rows * j) ;;
  vset memory (i + rows * j) (s_add S old v).

(** [assemble_into_memory], src/boundary_assemblers.rs:176-214. *)
Definition assemble_into_memory (rt : runtime T) (wmod : nat) (O : operator T R) (o : options) (trial test : fspace T R)
    (output : list T) : attempt T :=
  if negb (length output =? global_size (fs_space test) * global_size (fs_space trial)) then Rejected output
  else if negb (is_serial (fs_processes trial) && is_serial (fs_processes test)) then Rejected output
  else
    Ran (
      test_colouring <- cell_colouring (fs_grid test) (fs_family test) ;;
      trial_colouring <- cell_colouring (fs_grid trial) (fs_family trial) ;;
      let shape := (global_size (fs_space test), global_size (fs_space trial)) in
      phases <- nonsingular_phases wmod O o shape trial test trial_colouring test_colouring ;;
      memory <- foldM (fun m tasks => rt_par rt tasks m) phases output ;;
      s <- assemble_singular_part rt wmod O o shape trial test ;;
      foldM (add_triplet (fst shape)) (combine (combine (sm_rows s) (sm_cols s)) (sm_data s)) memory).

(** [assemble], src/boundary_assemblers.rs:158-173. *)
Definition assemble (rt : runtime T) (wmod : nat) (O : operator T R) (o : options) (trial test : fspace T R) : res (list T) :=
  if negb (is_serial (fs_processes trial) && is_serial (fs_processes test)) then Panic
  else
    match assemble_into_memory rt wmod O o trial test
            (repeat (s_zero S) (global_size (fs_space test) * global_size (fs_space trial))) with
    | Rejected _ => Panic
    | Ran r => r
    end.

End Assembly.
