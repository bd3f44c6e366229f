(** * Property C95: the dense matrix and the singular part *)
From Verif Require Import Base Topology DofMap SpecDof Process Space SpecSpace Options Scalar Integrand CellPair Operators SpecLocal LocalExamples
  Interleave Assembly SpecAssembly AssemblyExamples SpecAlgebra AlgebraExamples SpecOrder BrokenExamples SplitResults SplitExamples.

(** C95. In exact arithmetic each entry of the dense matrix is the entry of the sparse
    singular part plus the sum of the regular values of the pairs of cells that do not
    touch. *)
Theorem C95_sum : forall (T R : Type) (S : scalar T R) (X : externals R) rt wmod (O : operator T R) o deg pts ct (test trial : fspace T R),
  exact S -> legal_runtime (s_add S) rt -> dense_setting X wmod O o deg pts ct test trial ->
  exists m s far,
    assemble S X rt wmod O o trial test = Ok m /\
    assemble_singular_part S X rt wmod O o (global_size (fs_space test), global_size (fs_space trial)) trial test = Ok s /\
    (forall t s a b, t < ent_count (fs_grid test) 2 -> s < ent_count (fs_grid trial) 2 ->
      (touching test trial t s -> far t s a b = s_zero S) /\
      (~ touching test trial t s -> regular_value S X O pts test trial t s a b (far t s a b))) /\
    forall i j, i < global_size (fs_space test) -> j < global_size (fs_space trial) ->
      nth_error m (i + global_size (fs_space test) * j) = Some (s_add S (sparse_entry S s i j) (matrix_entry S far test trial i j)).
Proof. exact (@exact_split_matrix). Qed.
Print Assumptions C95_sum.

(** In any arithmetic, on discontinuous spaces: each entry belongs to one pair of basis
    functions and is the value of that pair, added once to zero. *)
Theorem C95_single_values : forall (T R : Type) (S : scalar T R) (X : externals R) rt wmod (O : operator T R) o deg pts ct (test trial : fspace T R),
  legal_runtime (s_add S) rt -> dense_setting X wmod O o deg pts ct test trial ->
  interior_family [ct] (fs_family test) -> interior_family [ct] (fs_family trial) ->
  exists m, assemble S X rt wmod O o trial test = Ok m /\
    length m = global_size (fs_space test) * global_size (fs_space trial) /\
    (forall i j, i < global_size (fs_space test) -> j < global_size (fs_space trial) -> exists t s a b, contributes test trial i j ((t, s), (a, b))) /\
    forall i j t s a b, contributes test trial i j ((t, s), (a, b)) ->
      exists v, pair_value S X O deg pts test trial t s a b v /\
        nth_error m (i + global_size (fs_space test) * j) = Some (s_add S (s_zero S) v).
Proof. exact (@single_values). Qed.
Print Assumptions C95_single_values.

(** In any arithmetic, on discontinuous spaces: the sparse matrix has no two entries at
    the same position and the dense matrix has its values. *)
Theorem C95_same_values : forall (T R : Type) (S : scalar T R) (X : externals R) rt rt' wmod (O : operator T R) o deg pts ct (test trial : fspace T R),
  legal_runtime (s_add S) rt -> legal_runtime (s_add S) rt' -> dense_setting X wmod O o deg pts ct test trial ->
  interior_family [ct] (fs_family test) -> interior_family [ct] (fs_family trial) ->
  forall shape rows cols data, assemble_singular S X rt' wmod O o trial test = Ok (CsrFromAij shape rows cols data) ->
  exists m, assemble S X rt wmod O o trial test = Ok m /\
    NoDup (combine rows cols) /\ length rows = length data /\ length cols = length data /\
    forall i j v, In ((i, j), v) (combine (combine rows cols) data) ->
      i < global_size (fs_space test) /\ j < global_size (fs_space trial) /\
      nth_error m (i + global_size (fs_space test) * j) = Some (s_add S (s_zero S) v).
Proof. exact (@single_triplets). Qed.
Print Assumptions C95_same_values.

(** Non-vacuity: linear functions on eight triangles; 450 of the 576 entries of the
    matrix of the discontinuous space are in the singular part. *)
Example C95_example :
  exact qc_scalar /\ legal_runtime (s_add qc_scalar) demo_rt /\ (forall x, s_add qc_scalar (s_zero qc_scalar) x = x) /\
  dense_setting demo_externals 256 (laplace_hypersingular demo_green) demo_options (fun _ _ => 2) (fun _ => 2) Triangle screen2_linear screen2_linear /\
  dense_setting demo_externals 256 (laplace_hypersingular demo_green) demo_options (fun _ _ => 2) (fun _ => 2) Triangle screen2_dp1 screen2_dp1 /\
  interior_family [Triangle] (fs_family screen2_dp1) /\
  exists m shape rows cols data v,
    assemble qc_scalar demo_externals demo_rt 256 (laplace_hypersingular demo_green) demo_options screen2_dp1 screen2_dp1 = Ok m /\
    assemble_singular qc_scalar demo_externals demo_rt 256 (laplace_hypersingular demo_green) demo_options screen2_dp1 screen2_dp1
      = Ok (CsrFromAij shape rows cols data) /\
    length m = 576 /\ length data = 450 /\ In v data /\ v <> s_zero qc_scalar.
Proof. exact split_examples. Qed.
