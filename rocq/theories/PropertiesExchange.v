(** * Property C101: exchanging the two spaces transposes the whole matrix *)
From Coq Require Import QArith Qcanon.
From Verif Require Import Base Topology DofMap SpecDof Process Space SpecSpace Options Adjacency SpecAdjacency Scalar Integrand CellPair Operators SpecLocal LocalExamples
  Interleave Assembly SpecAssembly AssemblyExamples SpecAlgebra AlgebraExamples SpecExchange ExchangeResults ExchangeExamples.

Local Open Scope nat_scope.

(** C101. In exact arithmetic, if the singular rules treat the two cells alike, the
    matrix of the exchanged spaces is the transpose, singular part included, for
    symmetric integrands and kernels.  Spaces on different grids need no rules. *)
Theorem C101_transpose : forall (T R : Type) (S : scalar T R) (X : externals R) rt wmod (O : operator T R) o deg pts ct (test trial : fspace T R),
  exact S -> exact_cast S ->
  legal_runtime (s_add S) rt -> dense_setting X wmod O o deg pts ct test trial ->
  (g_id (fs_grid test) = g_id (fs_grid trial) -> exchange_setting X deg test trial) ->
  symmetric_integrand (op_integrand O) -> symmetric_kernel (op_kernel O) ->
  exists m s m' s',
    assemble S X rt wmod O o trial test = Ok m /\
    assemble_singular_part S X rt wmod O o (global_size (fs_space test), global_size (fs_space trial)) trial test = Ok s /\
    assemble S X rt wmod O o test trial = Ok m' /\
    assemble_singular_part S X rt wmod O o (global_size (fs_space trial), global_size (fs_space test)) test trial = Ok s' /\
    transpose (global_size (fs_space test)) (global_size (fs_space trial)) m m' /\
    forall i j, sparse_entry S s i j = sparse_entry S s' j i.
Proof. exact (@symmetric_exchange). Qed.
Print Assumptions C101_transpose.

(** With one space for both, the matrix and its singular part are symmetric. *)
Theorem C101_symmetric : forall (T R : Type) (S : scalar T R) (X : externals R) rt wmod (O : operator T R) o deg pts ct (fs : fspace T R),
  exact S -> exact_cast S ->
  legal_runtime (s_add S) rt -> dense_setting X wmod O o deg pts ct fs fs -> exchange_setting X deg fs fs ->
  symmetric_integrand (op_integrand O) -> symmetric_kernel (op_kernel O) ->
  exists m s,
    assemble S X rt wmod O o fs fs = Ok m /\
    assemble_singular_part S X rt wmod O o (global_size (fs_space fs), global_size (fs_space fs)) fs fs = Ok s /\
    transpose (global_size (fs_space fs)) (global_size (fs_space fs)) m m /\
    forall i j, sparse_entry S s i j = sparse_entry S s j i.
Proof. exact (@symmetric_matrix). Qed.
Print Assumptions C101_symmetric.

(** The adjoint double layer matrix is the transpose of the double layer matrix of the
    exchanged spaces.  The Helmholtz operators are the same operators with another
    Green's function. *)
Theorem C101_adjoint : forall (T R : Type) (S : scalar T R) (X : externals R) rt wmod (G : green) o deg pts ct (test trial : fspace T R),
  exact S -> exact_cast S ->
  legal_runtime (s_add S) rt -> dense_setting X wmod (laplace_adjoint_double_layer G) o deg pts ct test trial ->
  (g_id (fs_grid test) = g_id (fs_grid trial) -> exchange_setting X deg test trial) ->
  antisymmetric_gradient S (mkKernel ValueDeriv G) ->
  exists m s m' s',
    assemble S X rt wmod (laplace_adjoint_double_layer G) o trial test = Ok m /\
    assemble_singular_part S X rt wmod (laplace_adjoint_double_layer G) o (global_size (fs_space test), global_size (fs_space trial)) trial test = Ok s /\
    assemble S X rt wmod (laplace_double_layer G) o test trial = Ok m' /\
    assemble_singular_part S X rt wmod (laplace_double_layer G) o (global_size (fs_space trial), global_size (fs_space test)) test trial = Ok s' /\
    transpose (global_size (fs_space test)) (global_size (fs_space trial)) m m' /\
    forall i j, sparse_entry S s i j = sparse_entry S s' j i.
Proof. exact (@adjoint_exchange). Qed.
Print Assumptions C101_adjoint.

(** The condition on the rules cannot be dropped. *)
Theorem C101_rules_matter : exists (X : externals Qc) rt wmod (O : operator Qc Qc) o deg pts ct fs m i j x y,
  exact qc_scalar /\ exact_cast qc_scalar /\ legal_runtime (s_add qc_scalar) rt /\ dense_setting X wmod O o deg pts ct fs fs /\
  pointwise_geometry X (fs_grid fs) /\ pointwise_basis fs /\ symmetric_integrand (op_integrand O) /\ symmetric_kernel (op_kernel O) /\
  assemble qc_scalar X rt wmod O o fs fs = Ok m /\ i < global_size (fs_space fs) /\ j < global_size (fs_space fs) /\
  nth_error m (i + global_size (fs_space fs) * j) = Some x /\ nth_error m (j + global_size (fs_space fs) * i) = Some y /\ x <> y.
Proof. exact rules_matter. Qed.
Print Assumptions C101_rules_matter.

Example C101_hypotheses_met :
  exact qc_scalar /\ exact_cast qc_scalar /\ legal_runtime (s_add qc_scalar) demo_rt /\
  (forall O, fitting O -> dense_setting (sided_externals true) 256 O demo_options (fun _ _ => 2) (fun _ => 2) Triangle screen2_linear screen2_linear) /\
  exchange_setting (sided_externals true) (fun _ _ => 2) screen2_linear screen2_linear /\
  symmetric_kernel (mkKernel Value demo_green) /\ antisymmetric_gradient qc_scalar (mkKernel ValueDeriv demo_green) /\
  exists m, assemble qc_scalar (sided_externals true) demo_rt 256 (laplace_single_layer demo_green) demo_options screen2_linear screen2_linear = Ok m /\
    nth (1 + 9 * 5) m 0%Qc <> 0%Qc.
Proof. exact exchange_examples. Qed.
