(** * Property C98: the matrix of a space from the matrix of a larger space *)
From Coq Require Import QArith Qcanon.
From Verif Require Import Base Topology DofMap SpecDof Process Space SpecSpace Options Scalar Integrand CellPair Operators SpecLocal LocalExamples
  Interleave Assembly SpecAssembly AssemblyExamples SpecAlgebra AlgebraExamples SpecBroken BrokenExamples SpecGalerkin GalerkinResults GalerkinExamples.

Local Open Scope nat_scope.

(** C98. In exact arithmetic, if the basis functions of the test and trial spaces are
    combinations, with coefficients P and Q, of the basis functions of other spaces on
    the same grids, their matrix is P' M Q, M the matrix of the other spaces. *)
Theorem C98_matrix : forall (T R : Type) (S : scalar T R) (X : externals R) rt wmod (O : operator T R) o deg pts ct (test trial ftest ftrial : fspace T R) P Q,
  exact S -> legal_runtime (s_add S) rt -> dense_setting X wmod O o deg pts ct test trial -> dense_setting X wmod O o deg pts ct ftest ftrial ->
  contained S test ftest P -> contained S trial ftrial Q ->
  exists m fm e, assemble S X rt wmod O o trial test = Ok m /\ assemble S X rt wmod O o ftrial ftest = Ok fm /\
    (forall k l, k < global_size (fs_space ftest) -> l < global_size (fs_space ftrial) ->
      nth_error fm (k + global_size (fs_space ftest) * l) = Some (e k l)) /\
    forall i j, i < global_size (fs_space test) -> j < global_size (fs_space trial) ->
      nth_error m (i + global_size (fs_space test) * j) =
        Some (projected S P Q (global_size (fs_space ftest)) (global_size (fs_space ftrial)) e i j).
Proof. exact (@exact_projected). Qed.
Print Assumptions C98_matrix.

(** The same for the matrix of the pairs of cells that touch. *)
Theorem C98_singular_part : forall (T R : Type) (S : scalar T R) (X : externals R) rt wmod (O : operator T R) o deg pts ct (test trial ftest ftrial : fspace T R) P Q,
  exact S -> legal_runtime (s_add S) rt -> dense_setting X wmod O o deg pts ct test trial -> dense_setting X wmod O o deg pts ct ftest ftrial ->
  contained S test ftest P -> contained S trial ftrial Q ->
  exists m fm,
    assemble_singular_part S X rt wmod O o (global_size (fs_space test), global_size (fs_space trial)) trial test = Ok m /\
    assemble_singular_part S X rt wmod O o (global_size (fs_space ftest), global_size (fs_space ftrial)) ftrial ftest = Ok fm /\
    forall i j, i < global_size (fs_space test) -> j < global_size (fs_space trial) -> sparse_entry S m i j =
      projected S P Q (global_size (fs_space ftest)) (global_size (fs_space ftrial)) (sparse_entry S fm) i j.
Proof. exact (@exact_projected_near). Qed.
Print Assumptions C98_singular_part.

(** Entries for functions that are constant on the cells are sums of blocks of entries
    for functions that add up to one on each cell. *)
Theorem C98_blocks : forall (T R : Type) (S : scalar T R) (X : externals R) rt wmod (O : operator T R) o deg pts ct (test trial ftest ftrial : fspace T R) one,
  exact S -> (forall x, s_mul S one x = x) -> legal_runtime (s_add S) rt ->
  dense_setting X wmod O o deg pts ct test trial -> dense_setting X wmod O o deg pts ct ftest ftrial ->
  fs_grid ftest = fs_grid test -> fs_grid ftrial = fs_grid trial ->
  constants S one test -> constants S one trial -> adds_to_one S one ftest -> adds_to_one S one ftrial ->
  interior_family (g_types (fs_grid test) 2) (fs_family test) -> interior_family (g_types (fs_grid trial) 2) (fs_family trial) ->
  interior_family (g_types (fs_grid ftest) 2) (fs_family ftest) -> interior_family (g_types (fs_grid ftrial) 2) (fs_family ftrial) ->
  exists m fm e, assemble S X rt wmod O o trial test = Ok m /\ assemble S X rt wmod O o ftrial ftest = Ok fm /\
    (forall k l, k < global_size (fs_space ftest) -> l < global_size (fs_space ftrial) ->
      nth_error fm (k + global_size (fs_space ftest) * l) = Some (e k l)) /\
    forall t s i j, t < ent_count (fs_grid test) 2 -> s < ent_count (fs_grid trial) 2 -> In i (dofs_at test t) -> In j (dofs_at trial s) ->
      nth_error m (i + global_size (fs_space test) * j) =
        Some (total S (dofs_at ftest t) (fun k => total S (dofs_at ftrial s) (fun l => e k l))).
Proof. exact (@exact_blocks). Qed.
Print Assumptions C98_blocks.

(** If the rows of P and Q add up to one, the sums of all entries are equal. *)
Theorem C98_total : forall (T R : Type) (S : scalar T R) (X : externals R) rt wmod (O : operator T R) o deg pts ct (test trial ftest ftrial : fspace T R) P Q one,
  exact S -> (forall x, s_mul S one x = x) -> legal_runtime (s_add S) rt ->
  dense_setting X wmod O o deg pts ct test trial -> dense_setting X wmod O o deg pts ct ftest ftrial ->
  contained S test ftest P -> contained S trial ftrial Q ->
  (forall k, k < global_size (fs_space ftest) -> total S (seq 0 (global_size (fs_space test))) (P k) = one) ->
  (forall l, l < global_size (fs_space ftrial) -> total S (seq 0 (global_size (fs_space trial))) (Q l) = one) ->
  exists m fm c e, assemble S X rt wmod O o trial test = Ok m /\ assemble S X rt wmod O o ftrial ftest = Ok fm /\
    (forall i j, i < global_size (fs_space test) -> j < global_size (fs_space trial) ->
      nth_error m (i + global_size (fs_space test) * j) = Some (c i j)) /\
    (forall k l, k < global_size (fs_space ftest) -> l < global_size (fs_space ftrial) ->
      nth_error fm (k + global_size (fs_space ftest) * l) = Some (e k l)) /\
    total S (seq 0 (global_size (fs_space test))) (fun i => total S (seq 0 (global_size (fs_space trial))) (fun j => c i j)) =
    total S (seq 0 (global_size (fs_space ftest))) (fun k => total S (seq 0 (global_size (fs_space ftrial))) (fun l => e k l)).
Proof. exact (@exact_total). Qed.
Print Assumptions C98_total.

(** Spaces that contain others: the relation is reflexive and transitive, continuous
    functions are discontinuous functions, and functions that add up to one on each cell
    give the constants. *)
Theorem C98_instances : forall (T R : Type) (S : scalar T R), exact S -> exists one, (forall x, s_mul S one x = x) /\
  (forall fs : fspace T R, contained S fs fs (fun k i => if k =? i then one else s_zero S)) /\
  (forall (A B C : fspace T R) P Q, contained S A B P -> contained S B C Q ->
    contained S A C (fun k i => total S (seq 0 (global_size (fs_space B))) (fun j => s_mul S (Q k j) (P j i)))) /\
  (forall (cont disc : fspace T R), serial_space cont -> serial_space disc -> broken cont disc -> exists p, glues cont disc p /\
    contained S cont disc (fun k i => if p k =? i then one else s_zero S) /\
    forall k, k < global_size (fs_space disc) -> total S (seq 0 (global_size (fs_space cont))) (fun i => if p k =? i then one else s_zero S) = one) /\
  (forall (coarse fine : fspace T R), serial_space coarse -> serial_space fine -> fs_grid fine = fs_grid coarse ->
    constants S one coarse -> adds_to_one S one fine -> interior_family (g_types (fs_grid fine) 2) (fs_family fine) ->
    contained S coarse fine (fun k i => if same_cell coarse fine k i then one else s_zero S)).
Proof. exact (@exact_instances). Qed.
Print Assumptions C98_instances.

(** Non-vacuity: constants, continuous and discontinuous linear functions on eight
    triangles; an entry for the constants that is not zero. *)
Example C98_example :
  exact qc_scalar /\ (forall x, s_mul qc_scalar 1%Qc x = x) /\ legal_runtime (s_add qc_scalar) demo_rt /\
  dense_setting demo_externals 256 (laplace_adjoint_double_layer demo_green) demo_options (fun _ _ => 2) (fun _ => 2) Triangle screen2_constants screen2_constants /\
  dense_setting demo_externals 256 (laplace_adjoint_double_layer demo_green) demo_options (fun _ _ => 2) (fun _ => 2) Triangle screen2_linear screen2_linear /\
  dense_setting demo_externals 256 (laplace_adjoint_double_layer demo_green) demo_options (fun _ _ => 2) (fun _ => 2) Triangle screen2_dp1 screen2_dp1 /\
  constants qc_scalar 1%Qc screen2_constants /\ adds_to_one qc_scalar 1%Qc screen2_dp1 /\ broken screen2_linear screen2_dp1 /\
  interior_family [Triangle] (fs_family screen2_constants) /\ interior_family [Triangle] (fs_family screen2_dp1) /\
  (exists P, contained qc_scalar screen2_linear screen2_dp1 P) /\
  exists m, assemble qc_scalar demo_externals demo_rt 256 (laplace_adjoint_double_layer demo_green) demo_options screen2_constants screen2_constants = Ok m /\ nth 17 m 0%Qc <> 0%Qc.
Proof. exact galerkin_examples. Qed.
