(** * Property C75: continuous functions from discontinuous ones *)
From Verif Require Import Base Topology DofMap Process Space SpecSpace Options Scalar Integrand CellPair Operators SpecLocal LocalExamples
  Interleave Assembly SpecAssembly AssemblyExamples SpecAlgebra AlgebraExamples SpecBroken BrokenResults BrokenExamples.

(** C75. In exact arithmetic the matrix of a continuous space is P' D Q, where D is the
    matrix of the discontinuous space with the same functions on the cells and P, Q
    identify the DOFs that have the same place in the same cell. *)
Theorem C75_glued_matrix : forall (T R : Type) (S : scalar T R) (X : externals R) rt wmod (O : operator T R) o deg pts ct (test trial dtest dtrial : fspace T R),
  exact S -> legal_runtime (s_add S) rt -> dense_setting X wmod O o deg pts ct test trial ->
  serial_space dtest -> serial_space dtrial -> broken test dtest -> broken trial dtrial ->
  exists m dm e p q,
    assemble S X rt wmod O o trial test = Ok m /\ assemble S X rt wmod O o dtrial dtest = Ok dm /\
    glues test dtest p /\ glues trial dtrial q /\
    (forall k l, k < global_size (fs_space dtest) -> l < global_size (fs_space dtrial) ->
      nth_error dm (k + global_size (fs_space dtest) * l) = Some (e k l)) /\
    forall i j, i < global_size (fs_space test) -> j < global_size (fs_space trial) ->
      nth_error m (i + global_size (fs_space test) * j) =
        Some (glued_entry S p q (global_size (fs_space dtest)) (global_size (fs_space dtrial)) e i j).
Proof. exact (@exact_glued_matrix). Qed.
Print Assumptions C75_glued_matrix.

(** The same for the matrix of the pairs of cells that touch. *)
Theorem C75_glued_singular_part : forall (T R : Type) (S : scalar T R) (X : externals R) rt wmod (O : operator T R) o deg pts ct (test trial dtest dtrial : fspace T R),
  exact S -> legal_runtime (s_add S) rt -> dense_setting X wmod O o deg pts ct test trial ->
  serial_space dtest -> serial_space dtrial -> broken test dtest -> broken trial dtrial ->
  exists m dm p q,
    assemble_singular_part S X rt wmod O o (global_size (fs_space test), global_size (fs_space trial)) trial test = Ok m /\
    assemble_singular_part S X rt wmod O o (global_size (fs_space dtest), global_size (fs_space dtrial)) dtrial dtest = Ok dm /\
    glues test dtest p /\ glues trial dtrial q /\
    forall i j, sparse_entry S m i j =
      glued_entry S p q (global_size (fs_space dtest)) (global_size (fs_space dtrial)) (sparse_entry S dm) i j.
Proof. exact (@exact_glued_near). Qed.
Print Assumptions C75_glued_singular_part.

(** The identification of DOFs is determined by the two spaces. *)
Theorem C75_identification : forall (T R : Type) (cont disc : fspace T R) p p', serial_space disc -> fs_grid disc = fs_grid cont ->
  glues cont disc p -> glues cont disc p' -> forall k, k < global_size (fs_space disc) -> p k = p' k.
Proof. exact (@glues_unique). Qed.
Print Assumptions C75_identification.

(** Non-vacuity: linear functions on eight triangles, continuous and discontinuous. *)
Example C75_example :
  exact qc_scalar /\ legal_runtime (s_add qc_scalar) demo_rt /\
  dense_setting demo_externals 256 (laplace_hypersingular demo_green) demo_options (fun _ _ => 2) (fun _ => 2) Triangle screen2_linear screen2_linear /\
  serial_space screen2_dp1 /\ broken screen2_linear screen2_dp1 /\
  dofs_at screen2_linear 1 <> dofs_at screen2_dp1 1 /\
  exists m d x,
    assemble qc_scalar demo_externals demo_rt 256 (laplace_hypersingular demo_green) demo_options screen2_linear screen2_linear = Ok m /\
    assemble qc_scalar demo_externals demo_rt 256 (laplace_hypersingular demo_green) demo_options screen2_dp1 screen2_dp1 = Ok d /\
    length m = 81 /\ length d = 576 /\ In x m /\ x <> s_zero qc_scalar.
Proof. exact broken_examples. Qed.
