(** * Assemblers for one pair of cells

    Model of src/boundary_assemblers/cell_pair_assemblers.rs. *)
From Verif Require Import Base Scalar Integrand.

(** Interface to the external crates.  A cell under a [GeometryMap] with some
    quadrature points ([ndgrid]): component [i] of the mapped point, of the normal
    and of the Jacobian at point number [p], and the determinant.
    As used at cell_pair_assemblers.rs:89-107, 234-235, 273-281. *)
Record cell_map (R : Type) : Type := mkCellMap {
  cm_point : nat -> nat -> R;
  cm_normal : nat -> nat -> R;
  cm_jacobian : nat -> nat -> R;
  cm_jdet : nat -> R
}.
Arguments mkCellMap {R}.
Arguments cm_point {R}.
Arguments cm_normal {R}.
Arguments cm_jacobian {R}.
Arguments cm_jdet {R}.

(** A [GeometryMap]: the number of points it was made with, and its cells.
    As kept at cell_pair_assemblers.rs:26-27, 165. *)
Record evaluator (R : Type) : Type := mkEvaluator { ev_npts : nat; ev_cell : nat -> cell_map R }.
Arguments mkEvaluator {R}.
Arguments ev_npts {R}.
Arguments ev_cell {R}.

(** [GreenKernelEvalType] and the number of values per pair of points in three
    dimensions ([green_kernels]).
    src/laplace.rs:37, 45, 54, 69, src/helmholtz.rs:50, 63, 76, 95. *)
Inductive eval_type : Set := Value | ValueDeriv.
(** The same places; [deriv_size] of src/laplace.rs:38, 46, 61, 76 has to agree with
    it. *)
Definition components (e : eval_type) : nat := match e with Value => 1 | ValueDeriv => 4 end.

(** [KernelEvaluator], helpers.rs:8-17: component [i] of the kernel for a source and a
    target point. *)
Record kernel (T R : Type) : Type := mkKernel {
  kn_type : eval_type;
  kn_value : nat -> R * R * R -> R * R * R -> T
}.
Arguments mkKernel {T R}.
Arguments kn_type {T R}.
Arguments kn_value {T R}.

(** The points in an array of coordinates. As read by the kernels, helpers.rs:20-40. *)
Fixpoint points3 {R : Type} (l : list R) : list (R * R * R) :=
  match l with
  | x :: y :: z :: t => (x, y, z) :: points3 t
  | _ => []
  end.

(** [assemble_st], helpers.rs:31-39: the array [components, sources, targets]; an
    output of another length is a panic. *)
Definition assemble_st {T R : Type} (K : kernel T R) (sources targets : list R) (result : array T) : res (array T) :=
  let data := flat_map (fun t => flat_map (fun s =>
      map (fun i => kn_value K i s t) (seq 0 (components (kn_type K)))) (points3 sources)) (points3 targets) in
  if length data =? length (a_data result) then Ok (fill result data) else Panic.

(** [assemble_pairwise_st], helpers.rs:20-28: the array [components, points]. *)
Definition assemble_pairwise_st {T R : Type} (K : kernel T R) (sources targets : list R) (result : array T) : res (array T) :=
  let data := flat_map (fun st =>
      map (fun i => kn_value K i (fst st) (snd st)) (seq 0 (components (kn_type K))))
      (combine (points3 sources) (points3 targets)) in
  if (length sources =? length targets) && (length data =? length (a_data result)) then Ok (fill result data) else Panic.

(** [GeometryMap::points] writes the [3 * npts] coordinates.
    cell_pair_assemblers.rs:89-90, 100-101, 234, 274-275. *)
Definition write_points {R : Type} (ev : evaluator R) (c : nat) (out : array R) : res (array R) :=
  if length (a_data out) =? 3 * ev_npts ev
  then Ok (fill out (table2 3 (ev_npts ev) (fun i p => cm_point (ev_cell ev c) p i))) else Panic.

(** [GeometryMap::jacobians_dets_normals].
    cell_pair_assemblers.rs:91-96, 102-107, 235, 276-281. *)
Definition write_normals {R : Type} (ev : evaluator R) (c : nat) (out : array R) : res (array R) :=
  if length (a_data out) =? 3 * ev_npts ev
  then Ok (fill out (table2 3 (ev_npts ev) (fun i p => cm_normal (ev_cell ev c) p i))) else Panic.
(** The same call writes these, cell_pair_assemblers.rs:91-96, 102-107, 235, 276-281.
    *)
Definition write_jacobians {R : Type} (ev : evaluator R) (c : nat) (out : array R) : res (array R) :=
  if length (a_data out) =? 6 * ev_npts ev
  then Ok (fill out (table2 6 (ev_npts ev) (fun i p => cm_jacobian (ev_cell ev c) p i))) else Panic.
(** And these, cell_pair_assemblers.rs:91-96, 102-107, 235, 276-281. *)
Definition write_jdets {R : Type} (ev : evaluator R) (c : nat) (out : list R) : res (list R) :=
  if length out =? ev_npts ev then Ok (map (cm_jdet (ev_cell ev c)) (seq 0 (ev_npts ev))) else Panic.

(** The arrays of one cell: mapped points, normals, Jacobians, determinants.
    cell_pair_assemblers.rs:31-38, 169-176. *)
Record cell_arrays (R : Type) : Type := mkArrays {
  ca_pts : array R;
  ca_normals : array R;
  ca_jacobians : array R;
  ca_jdets : list R
}.
Arguments mkArrays {R}.
Arguments ca_pts {R}.
Arguments ca_normals {R}.
Arguments ca_jacobians {R}.
Arguments ca_jdets {R}.

Section Assemblers.
Context {T R : Type} (S : scalar T R).

(** cell_pair_assemblers.rs:73-80, 246-252, 208-220. *)
Definition new_arrays (npts : nat) : cell_arrays R :=
  mkArrays (new_array (r_zero S) [3; npts]) (new_array (r_zero S) [3; npts])
           (new_array (r_zero S) [6; npts]) (repeat (r_zero S) npts).

(** [points] then [jacobians_dets_normals], cell_pair_assemblers.rs:89-96, 100-107,
    234-235, 274-281. *)
Definition write_arrays (ev : evaluator R) (c : nat) (a : cell_arrays R) : res (cell_arrays R) :=
  pts <- write_points ev c (ca_pts a) ;;
  j <- write_jacobians ev c (ca_jacobians a) ;;
  d <- write_jdets ev c (ca_jdets a) ;;
  n <- write_normals ev c (ca_normals a) ;;
  Ok (mkArrays pts n j d).

(** [AssemblerGeometry::new], helpers.rs:127-139. *)
Definition geometry_of (a : cell_arrays R) : geometry R := mkGeometry (ca_normals a) (ca_jacobians a) (ca_jdets a).

(** What is given to either assembler and not changed by it.
    cell_pair_assemblers.rs:24-42, 163-182. *)
Record setup : Type := mkSetup {
  su_integrand : integrand T;
  su_kernel : kernel T R;
  su_trial_ev : evaluator R;
  su_test_table : array T;
  su_trial_table : array T
}.

(** [for (trial_i, col) in local_mat.col_iter_mut().enumerate() { for (test_i, entry)
    in col.iter_mut().enumerate() { .. } }], cell_pair_assemblers.rs:129-131 and
    305-307: every entry is computed from zero by [f] and stored. *)
Definition fill_matrix (f : nat -> nat -> res T) (local_mat : array T) : res (array T) :=
  match a_shape local_mat with
  | [m; n] =>
      cols <- mapM (fun trial_i => mapM (fun test_i => f test_i trial_i) (seq 0 m)) (seq 0 n) ;;
      Ok (fill local_mat (concat cols))
  | _ => Panic
  end.

(** ** Neighbouring cells *)

(** [SingularCellPairAssembler], cell_pair_assemblers.rs:17-42. *)
Record singular_assembler : Type := mkSingular {
  sa_setup : setup;
  sa_test_ev : evaluator R;
  sa_k : array T;
  sa_test : cell_arrays R;
  sa_trial : cell_arrays R;
  sa_weights : list R;
  sa_test_cell : nat;
  sa_trial_cell : nat
}.

(** [SingularCellPairAssembler::new], cell_pair_assemblers.rs:54-85. *)
Definition singular_new (npts deriv_size : nat) (su : setup) (test_ev : evaluator R) (weights : list R) : singular_assembler :=
  mkSingular su test_ev (new_array (s_zero S) [deriv_size; npts]) (new_arrays npts) (new_arrays npts) weights 0 0.

(** cell_pair_assemblers.rs:87-97. *)
Definition singular_set_test (c : nat) (a : singular_assembler) : res singular_assembler :=
  t <- write_arrays (sa_test_ev a) c (sa_test a) ;;
  Ok (mkSingular (sa_setup a) (sa_test_ev a) (sa_k a) t (sa_trial a) (sa_weights a) c (sa_trial_cell a)).

(** cell_pair_assemblers.rs:98-108. *)
Definition singular_set_trial (c : nat) (a : singular_assembler) : res singular_assembler :=
  t <- write_arrays (su_trial_ev (sa_setup a)) c (sa_trial a) ;;
  Ok (mkSingular (sa_setup a) (sa_test_ev a) (sa_k a) (sa_test a) t (sa_weights a) (sa_test_cell a) c).

(** One round of the loop at cell_pair_assemblers.rs:132-149. *)
Definition singular_term (a : singular_assembler) (k : array T) (test_i trial_i : nat) (entry : T) (iw : nat * R) : res T :=
  let (index, wt) := iw in
  v <- evaluate_singular S (su_integrand (sa_setup a)) (su_test_table (sa_setup a)) (su_trial_table (sa_setup a))
         index test_i trial_i k (geometry_of (sa_test a)) (geometry_of (sa_trial a)) ;;
  dt <- uget (ca_jdets (sa_test a)) index ;;
  ds <- uget (ca_jdets (sa_trial a)) index ;;
  Ok (s_add S entry (s_mul S v (s_cast S (r_mul S wt (r_mul S dt ds))))).

(** [assemble], cell_pair_assemblers.rs:109-152. *)
Definition singular_assemble (a : singular_assembler) (local_mat : array T) : res (singular_assembler * array T) :=
  k <- assemble_pairwise_st (su_kernel (sa_setup a)) (a_data (ca_pts (sa_test a))) (a_data (ca_pts (sa_trial a))) (sa_k a) ;;
  m <- fill_matrix (fun test_i trial_i =>
         foldM (singular_term a k test_i trial_i) (enumerate (sa_weights a)) (s_zero S)) local_mat ;;
  Ok (mkSingular (sa_setup a) (sa_test_ev a) k (sa_test a) (sa_trial a) (sa_weights a) (sa_test_cell a) (sa_trial_cell a), m).

(** ** Cells that do not touch *)

(** [NonsingularCellPairAssemblerWithTestCaching], cell_pair_assemblers.rs:156-182. *)
Record nonsingular_assembler : Type := mkNonsingular {
  na_setup : setup;
  na_k : array T;
  na_tests : list (cell_arrays R);
  na_trial : cell_arrays R;
  na_test_weights : list R;
  na_trial_weights : list R;
  na_test_cell : nat;
  na_trial_cell : nat;
  na_test_indices : list (nat * nat)
}.

(** The loop at cell_pair_assemblers.rs:224-236. *)
Definition cache_cell (ev : evaluator R) (st : list (nat * nat) * list (cell_arrays R)) (x : nat * (nat * cell_arrays R))
  : res (list (nat * nat) * list (cell_arrays R)) :=
  let '(i, (cell, arrays)) := x in
  a <- write_arrays ev cell arrays ;;
  Ok (assoc_insert Nat.eqb cell i (fst st), snd st ++ [a]).

(** [new], cell_pair_assemblers.rs:194-259. *)
Definition nonsingular_new (npts_test npts_trial deriv_size : nat) (test_cells : list nat) (su : setup)
    (test_ev : evaluator R) (test_weights trial_weights : list R) : res nonsingular_assembler :=
  let blank := map (fun _ => new_arrays npts_test) test_cells in
  st <- foldM (cache_cell test_ev) (enumerate (combine test_cells blank)) ([], []) ;;
  Ok (mkNonsingular su (new_array (s_zero S) [deriv_size; npts_test; npts_trial]) (snd st) (new_arrays npts_trial)
        test_weights trial_weights 0 0 (fst st)).

(** cell_pair_assemblers.rs:269-271: indexing a [HashMap] panics without the key. *)
Definition nonsingular_set_test (c : nat) (a : nonsingular_assembler) : res nonsingular_assembler :=
  i <- unwrap (assoc Nat.eqb c (na_test_indices a)) ;;
  Ok (mkNonsingular (na_setup a) (na_k a) (na_tests a) (na_trial a) (na_test_weights a) (na_trial_weights a)
        i (na_trial_cell a) (na_test_indices a)).

(** cell_pair_assemblers.rs:272-282. *)
Definition nonsingular_set_trial (c : nat) (a : nonsingular_assembler) : res nonsingular_assembler :=
  t <- write_arrays (su_trial_ev (na_setup a)) c (na_trial a) ;;
  Ok (mkNonsingular (na_setup a) (na_k a) (na_tests a) t (na_test_weights a) (na_trial_weights a)
        (na_test_cell a) c (na_test_indices a)).

(** One round of the loop over trial points, cell_pair_assemblers.rs:319-335. *)
Definition nonsingular_term (a : nonsingular_assembler) (test : cell_arrays R) (k : array T)
    (test_i trial_i test_index : nat) (test_integrand : T) (entry : T) (iw : nat * R) : res T :=
  let (trial_index, trial_wt) := iw in
  v <- evaluate_nonsingular S (su_integrand (na_setup a)) (su_test_table (na_setup a)) (su_trial_table (na_setup a))
         test_index trial_index test_i trial_i k (geometry_of test) (geometry_of (na_trial a)) ;;
  ds <- uget (ca_jdets (na_trial a)) trial_index ;;
  Ok (s_add S entry (s_mul S (s_mul S v (s_cast S (r_mul S trial_wt ds))) test_integrand)).

(** One round of the loop over test points, cell_pair_assemblers.rs:308-336. *)
Definition nonsingular_row (a : nonsingular_assembler) (test : cell_arrays R) (k : array T)
    (test_i trial_i : nat) (entry : T) (iw : nat * R) : res T :=
  let (test_index, test_wt) := iw in
  dt <- uget (ca_jdets test) test_index ;;
  foldM (nonsingular_term a test k test_i trial_i test_index (s_cast S (r_mul S test_wt dt)))
    (enumerate (na_trial_weights a)) entry.

(** [assemble], cell_pair_assemblers.rs:283-339. *)
Definition nonsingular_assemble (a : nonsingular_assembler) (local_mat : array T) : res (nonsingular_assembler * array T) :=
  test <- uget (na_tests a) (na_test_cell a) ;;
  k <- assemble_st (su_kernel (na_setup a)) (a_data (ca_pts test)) (a_data (ca_pts (na_trial a))) (na_k a) ;;
  m <- fill_matrix (fun test_i trial_i =>
         foldM (nonsingular_row a test k test_i trial_i) (enumerate (na_test_weights a)) (s_zero S)) local_mat ;;
  Ok (mkNonsingular (na_setup a) k (na_tests a) (na_trial a) (na_test_weights a) (na_trial_weights a)
        (na_test_cell a) (na_trial_cell a) (na_test_indices a), m).

End Assemblers.
