(** * Properties C39-C41: relations between matrices *)
From Verif Require Import Base Topology DofMap Space Options Scalar Integrand CellPair Operators SpecLocal
  Interleave Assembly SpecAssembly SpecAlgebra AlgebraResults AlgebraSums LocalExamples AssemblyExamples AlgebraExamples.

(** C39: the matrix of a sum of integrands is the sum of the matrices. *)
Theorem C39_dense_sum : forall (T R : Type) (S : scalar T R) (X : externals R) rt wmod (O : operator T R) f g o deg pts ct test trial,
  exact S ->
  legal_runtime (s_add S) rt -> dense_setting X wmod (with_integrand O (Sum f g)) o deg pts ct test trial ->
  exists m0 m1 m,
    assemble S X rt wmod (with_integrand O f) o trial test = Ok m0 /\
    assemble S X rt wmod (with_integrand O g) o trial test = Ok m1 /\
    assemble S X rt wmod (with_integrand O (Sum f g)) o trial test = Ok m /\
    entrywise (s_add S) m0 m1 m.
Proof. exact (@exact_dense_sum). Qed.
Print Assumptions C39_dense_sum.

(** The matrix of a multiple is the multiple. *)
Theorem C39_dense_multiple : forall (T R : Type) (S : scalar T R) (X : externals R) rt wmod (O : operator T R) c f o deg pts ct test trial,
  exact S ->
  legal_runtime (s_add S) rt -> dense_setting X wmod (with_integrand O (TimesScalar c f)) o deg pts ct test trial ->
  exists m0 m,
    assemble S X rt wmod (with_integrand O f) o trial test = Ok m0 /\
    assemble S X rt wmod (with_integrand O (TimesScalar c f)) o trial test = Ok m /\
    m = map (s_mul S c) m0.
Proof. exact (@exact_dense_multiple). Qed.
Print Assumptions C39_dense_multiple.

(** The same for the singular parts, on any number of processes. *)
Theorem C39_singular_sum : forall (T R : Type) (S : scalar T R) (X : externals R) rt wmod (O : operator T R) f g o deg test trial,
  exact S ->
  legal_runtime (s_add S) rt -> singular_setting X wmod (with_integrand O (Sum f g)) o deg test trial ->
  exists m0 m1 m,
    assemble_singular_part S X rt wmod (with_integrand O f) o (global_size (fs_space test), global_size (fs_space trial)) trial test = Ok m0 /\
    assemble_singular_part S X rt wmod (with_integrand O g) o (global_size (fs_space test), global_size (fs_space trial)) trial test = Ok m1 /\
    assemble_singular_part S X rt wmod (with_integrand O (Sum f g)) o (global_size (fs_space test), global_size (fs_space trial)) trial test = Ok m /\
    sm_rows m0 = sm_rows m /\ sm_rows m1 = sm_rows m /\ sm_cols m0 = sm_cols m /\ sm_cols m1 = sm_cols m /\
    entrywise (s_add S) (sm_data m0) (sm_data m1) (sm_data m).
Proof. exact (@exact_singular_sum). Qed.
Print Assumptions C39_singular_sum.

Theorem C39_singular_multiple : forall (T R : Type) (S : scalar T R) (X : externals R) rt wmod (O : operator T R) c f o deg test trial,
  exact S ->
  legal_runtime (s_add S) rt -> singular_setting X wmod (with_integrand O (TimesScalar c f)) o deg test trial ->
  exists m0 m,
    assemble_singular_part S X rt wmod (with_integrand O f) o (global_size (fs_space test), global_size (fs_space trial)) trial test = Ok m0 /\
    assemble_singular_part S X rt wmod (with_integrand O (TimesScalar c f)) o (global_size (fs_space test), global_size (fs_space trial)) trial test = Ok m /\
    sm_rows m = sm_rows m0 /\ sm_cols m = sm_cols m0 /\ sm_data m = map (s_mul S c) (sm_data m0).
Proof. exact (@exact_singular_multiple). Qed.
Print Assumptions C39_singular_multiple.

(** The Helmholtz hypersingular matrix is the curl part minus k^2 times the normal
    part. *)
Theorem C39_helmholtz_hypersingular : forall (T R : Type) (S : scalar T R) (X : externals R) rt wmod (G : R -> green) k o deg pts ct (test trial : fspace T R),
  exact S -> exact_cast S ->
  legal_runtime (s_add S) rt -> dense_setting X wmod (helmholtz_hypersingular S G k) o deg pts ct test trial ->
  exists curl_part normal_part m,
    assemble S X rt wmod (laplace_hypersingular (G k)) o trial test = Ok curl_part /\
    assemble S X rt wmod (mkOperator HypersingularNormalNormal (mkKernel ValueDeriv (G k)) 4 1) o trial test = Ok normal_part /\
    assemble S X rt wmod (helmholtz_hypersingular S G k) o trial test = Ok m /\
    entrywise (fun x y => s_sub S x (s_mul S (s_mul S (s_cast S k) (s_cast S k)) y)) curl_part normal_part m.
Proof. exact (@exact_helmholtz_hypersingular). Qed.
Print Assumptions C39_helmholtz_hypersingular.

(** C40: without the singular parts, swapping the spaces transposes the matrix, for
    symmetric integrands and kernels. *)
Theorem C40_transpose : forall (T R : Type) (S : scalar T R) (X : externals R) rt wmod (O : operator T R) o deg pts ct test trial,
  exact S ->
  legal_runtime (s_add S) rt -> dense_setting X wmod O o deg pts ct test trial ->
  symmetric_integrand (op_integrand O) -> symmetric_kernel (op_kernel O) ->
  exists m s m' s',
    assemble S X rt wmod O o trial test = Ok m /\
    assemble_singular_part S X rt wmod O o (global_size (fs_space test), global_size (fs_space trial)) trial test = Ok s /\
    assemble S X rt wmod O o test trial = Ok m' /\
    assemble_singular_part S X rt wmod O o (global_size (fs_space trial), global_size (fs_space test)) test trial = Ok s' /\
    transposed_beyond S (global_size (fs_space test)) (global_size (fs_space trial)) m s m' s'.
Proof. exact (@exact_transpose). Qed.
Print Assumptions C40_transpose.

(** With one space for both, the matrix without its singular part is symmetric. *)
Theorem C40_symmetric : forall (T R : Type) (S : scalar T R) (X : externals R) rt wmod (O : operator T R) o deg pts ct fs,
  exact S ->
  legal_runtime (s_add S) rt -> dense_setting X wmod O o deg pts ct fs fs ->
  symmetric_integrand (op_integrand O) -> symmetric_kernel (op_kernel O) ->
  exists m s,
    assemble S X rt wmod O o fs fs = Ok m /\
    assemble_singular_part S X rt wmod O o (global_size (fs_space fs), global_size (fs_space fs)) fs fs = Ok s /\
    forall i j, i < global_size (fs_space fs) -> j < global_size (fs_space fs) ->
      exists x y, nth_error m (i + global_size (fs_space fs) * j) = Some x /\ nth_error m (j + global_size (fs_space fs) * i) = Some y /\
        s_sub S x (sparse_entry S s i j) = s_sub S y (sparse_entry S s j i).
Proof. exact (@exact_symmetric). Qed.
Print Assumptions C40_symmetric.

(** Without the singular parts, the adjoint double layer matrix is the transpose of
    the double layer matrix of the swapped spaces. *)
Theorem C40_adjoint : forall (T R : Type) (S : scalar T R) (X : externals R) rt wmod (G : green) o deg pts ct (test trial : fspace T R),
  exact S ->
  legal_runtime (s_add S) rt -> dense_setting X wmod (laplace_adjoint_double_layer G) o deg pts ct test trial ->
  antisymmetric_gradient S (mkKernel ValueDeriv G) ->
  exists m s m' s',
    assemble S X rt wmod (laplace_adjoint_double_layer G) o trial test = Ok m /\
    assemble_singular_part S X rt wmod (laplace_adjoint_double_layer G) o (global_size (fs_space test), global_size (fs_space trial)) trial test = Ok s /\
    assemble S X rt wmod (laplace_double_layer G) o test trial = Ok m' /\
    assemble_singular_part S X rt wmod (laplace_double_layer G) o (global_size (fs_space trial), global_size (fs_space test)) test trial = Ok s' /\
    transposed_beyond S (global_size (fs_space test)) (global_size (fs_space trial)) m s m' s'.
Proof. exact (@exact_adjoint). Qed.
Print Assumptions C40_adjoint.

(** C41: the rows of the Laplace hypersingular matrix sum to zero, singular part
    included. *)
Theorem C41_rows : forall (T R : Type) (S : scalar T R) (X : externals R) rt wmod (G : green) o deg pts ct (test trial : fspace T R),
  exact S ->
  legal_runtime (s_add S) rt -> dense_setting X wmod (laplace_hypersingular G) o deg pts ct test trial -> sums_to_constant S trial ->
  exists m, assemble S X rt wmod (laplace_hypersingular G) o trial test = Ok m /\
    forall i, i < global_size (fs_space test) -> row_sum S (global_size (fs_space test)) (global_size (fs_space trial)) m i (s_zero S).
Proof. exact (@exact_rows). Qed.
Print Assumptions C41_rows.

(** So do the columns, by the same property of the test functions. *)
Theorem C41_columns : forall (T R : Type) (S : scalar T R) (X : externals R) rt wmod (G : green) o deg pts ct (test trial : fspace T R),
  exact S ->
  legal_runtime (s_add S) rt -> dense_setting X wmod (laplace_hypersingular G) o deg pts ct test trial -> sums_to_constant S test ->
  exists m, assemble S X rt wmod (laplace_hypersingular G) o trial test = Ok m /\
    forall j, j < global_size (fs_space trial) -> column_sum S (global_size (fs_space test)) m j (s_zero S).
Proof. exact (@exact_columns). Qed.
Print Assumptions C41_columns.

(** The rows of the Helmholtz hypersingular matrix sum to minus the square of the wave
    number times the sums of the rows of its normal-normal part. *)
Theorem C41_helmholtz_rows : forall (T R : Type) (S : scalar T R) (X : externals R) rt wmod (G : R -> green) k o deg pts ct (test trial : fspace T R),
  exact S -> exact_cast S -> legal_runtime (s_add S) rt ->
  dense_setting X wmod (helmholtz_hypersingular S G k) o deg pts ct test trial -> sums_to_constant S trial ->
  exists normal_part m,
    assemble S X rt wmod (mkOperator HypersingularNormalNormal (mkKernel ValueDeriv (G k)) 4 1) o trial test = Ok normal_part /\
    assemble S X rt wmod (helmholtz_hypersingular S G k) o trial test = Ok m /\
    forall i, i < global_size (fs_space test) -> exists v,
      row_sum S (global_size (fs_space test)) (global_size (fs_space trial)) normal_part i v /\
      row_sum S (global_size (fs_space test)) (global_size (fs_space trial)) m i (s_neg S (s_mul S (s_mul S (s_cast S k) (s_cast S k)) v)).
Proof. exact (@exact_helmholtz_rows). Qed.
Print Assumptions C41_helmholtz_rows.

(** The same for the columns. *)
Theorem C41_helmholtz_columns : forall (T R : Type) (S : scalar T R) (X : externals R) rt wmod (G : R -> green) k o deg pts ct (test trial : fspace T R),
  exact S -> exact_cast S -> legal_runtime (s_add S) rt ->
  dense_setting X wmod (helmholtz_hypersingular S G k) o deg pts ct test trial -> sums_to_constant S test ->
  exists normal_part m,
    assemble S X rt wmod (mkOperator HypersingularNormalNormal (mkKernel ValueDeriv (G k)) 4 1) o trial test = Ok normal_part /\
    assemble S X rt wmod (helmholtz_hypersingular S G k) o trial test = Ok m /\
    forall j, j < global_size (fs_space trial) -> exists v,
      column_sum S (global_size (fs_space test)) normal_part j v /\
      column_sum S (global_size (fs_space test)) m j (s_neg S (s_mul S (s_mul S (s_cast S k) (s_cast S k)) v)).
Proof. exact (@exact_helmholtz_columns). Qed.
Print Assumptions C41_helmholtz_columns.

(** Non-vacuity: settings on [screen_triangles(2)], where a row of the hypersingular
    matrix is not zero and the double layer matrix is not symmetric. *)
Example C39_C41_hypotheses_met :
  exact qc_scalar /\ exact_cast qc_scalar /\ legal_runtime (s_add qc_scalar) demo_rt /\
  dense_setting demo_externals 256 demo_op demo_options (fun _ _ => 2) (fun _ => 2) Triangle screen2_p1 screen2_dp0 /\
  symmetric_integrand (op_integrand demo_op) /\ symmetric_kernel (op_kernel demo_op) /\
  dense_setting demo_externals 256 (laplace_adjoint_double_layer demo_green) demo_options (fun _ _ => 2) (fun _ => 2) Triangle screen2_linear screen2_linear /\
  antisymmetric_gradient qc_scalar (mkKernel ValueDeriv demo_green) /\
  dense_setting demo_externals 256 (laplace_hypersingular demo_green) demo_options (fun _ _ => 2) (fun _ => 2) Triangle screen2_linear screen2_linear /\
  sums_to_constant qc_scalar screen2_linear /\
  (exists m, assemble qc_scalar demo_externals demo_rt 256 (laplace_hypersingular demo_green) demo_options screen2_linear screen2_linear = Ok m /\ exists j x, nth_error m (1 + 9 * j) = Some x /\ x <> s_zero qc_scalar) /\
  (exists m, assemble qc_scalar demo_externals demo_rt 256 (laplace_double_layer demo_green) demo_options screen2_linear screen2_linear = Ok m /\ nth_error m (1 + 9 * 5) <> nth_error m (5 + 9 * 1)).
Proof. exact algebra_examples. Qed.
