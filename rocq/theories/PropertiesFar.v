(** * Property C118: the size of the entries of the double layer matrices *)
From Coq Require Import Reals.
From Verif Require Import Base Topology DofMap SpecDof Process Space SpecSpace Options SpecOptions Adjacency SpecAdjacency Scalar Integrand CellPair Operators SpecLocal SpecOperators Interleave Assembly SpecAssembly AssemblyResults
  SpecTransfer SpecScalars SpecAlgebra SpecRounding SpecDigits SpecBroken SpecGalerkin SpecMeasure Shapes SpecShapes SpecSphere SpecWidth SpecTurns SpecGauss GaussResults
  SpecWaves SpecDecay DecayExamples SpecPlanes SpecFar FarResults FarKernel FarShapes FarExamples ApartSharp.

Local Open Scope R_scope.

(** Every entry is at most the largest absolute value of the kernel factor at the points
    that are used for the two functions, times the entry of the single layer matrix for
    kernel 1 and the absolute values of the basis functions. *)
Theorem C118_majorant : forall (T : Type) (E : scalar T R) (norm : T -> R), valued E norm -> forall (X : externals R) wmod (O : operator T R) o deg pts ct test trial,
  dense_setting X wmod O o deg pts ct test trial -> product_integrand (op_integrand O) -> positive_externals (Rle 0) X ->
  forall rt rt', legal_runtime (s_add E) rt -> legal_runtime Rplus rt' ->
  exists m w, assemble E X rt wmod O o trial test = Ok m /\ assemble reals X rt' wmod (laplace_single_layer ones) o (absolute_space norm trial) (absolute_space norm test) = Ok w /\
  forall i j, (i < global_size (fs_space test))%nat -> (j < global_size (fs_space trial))%nat ->
    exists v u, nth_error m (i + global_size (fs_space test) * j) = Some v /\ nth_error w (i + global_size (fs_space test) * j) = Some u /\
      forall c, (forall t s x p y q, carried test i t -> carried trial j s -> used_points X deg pts test trial t s x p y q ->
        norm (factor E (op_integrand O) (fun n => kn_value (op_kernel O) n (SpecLocal.position x p) (SpecLocal.position y q)) x p y q) <= c) -> norm v <= c * u.
Proof. exact @majorant. Qed.
Print Assumptions C118_majorant.

(** Constants on flat cells: the largest value times the product of the areas. *)
Theorem C118_constants : forall (T : Type) (E : scalar T R) (norm : T -> R), valued E norm -> forall (X : externals R) wmod (O : operator T R) o deg pts ct test trial,
  dense_setting X wmod O o deg pts ct test trial -> product_integrand (op_integrand O) -> positive_externals (Rle 0) X ->
  constants E (s_cast E 1) test -> constants E (s_cast E 1) trial ->
  interior_family (g_types (fs_grid test) 2) (fs_family test) -> interior_family (g_types (fs_grid trial) 2) (fs_family trial) ->
  forall mu det det' n n', flat_faces reals X (fs_grid test) ct det n -> flat_faces reals X (fs_grid trial) ct det' n' -> full_weights reals X ct deg pts mu ->
  forall rt, legal_runtime (s_add E) rt ->
  exists m, assemble E X rt wmod O o trial test = Ok m /\
  forall t s i j, (t < ent_count (fs_grid test) 2)%nat -> (s < ent_count (fs_grid trial) 2)%nat -> In i (dofs_at test t) -> In j (dofs_at trial s) ->
    exists v, nth_error m (i + global_size (fs_space test) * j) = Some v /\
      forall c, (forall x p y q, used_points X deg pts test trial t s x p y q ->
        norm (factor E (op_integrand O) (fun k => kn_value (op_kernel O) k (SpecLocal.position x p) (SpecLocal.position y q)) x p y q) <= c) ->
      norm v <= c * ((mu * det t) * (mu * det' s)).
Proof. exact @constants_majorant. Qed.
Print Assumptions C118_constants.

(** The double layer operator of the Laplace equation and its adjoint: cells at distance
    [d] ... *)
Theorem C118_laplace : forall (X : externals R) wmod kd e o deg pts ct, kd = Double \/ kd = Adjoint -> Rabs e = 1 -> positive_externals (Rle 0) X ->
  forall mu det det' n n', full_weights reals X ct deg pts mu ->
  forall rt (test trial : fspace R R), legal_runtime Rplus rt -> dense_setting X wmod (laplace_operator kd (newton e)) o deg pts ct test trial ->
  constants reals 1 test -> constants reals 1 trial ->
  interior_family (g_types (fs_grid test) 2) (fs_family test) -> interior_family (g_types (fs_grid trial) 2) (fs_family trial) ->
  flat_faces reals X (fs_grid test) ct det n -> flat_faces reals X (fs_grid trial) ct det' n' ->
  (forall c, (c < ent_count (fs_grid test) 2)%nat -> unit_length (n c)) -> (forall c, (c < ent_count (fs_grid trial) 2)%nat -> unit_length (n' c)) ->
  exists m, assemble reals X rt wmod (laplace_operator kd (newton e)) o trial test = Ok m /\
  forall t s i j, (t < ent_count (fs_grid test) 2)%nat -> (s < ent_count (fs_grid trial) 2)%nat -> In i (dofs_at test t) -> In j (dofs_at trial s) ->
    exists v, nth_error m (i + global_size (fs_space test) * j) = Some v /\
      forall d, 0 < d -> (forall x y, evaluated X deg pts test trial t s x y -> d <= SpecWaves.distance x y) ->
        Rabs v <= (mu * det t) * (mu * det' s) / (4 * PI * (d * d)).
Proof. exact laplace_decay. Qed.
Print Assumptions C118_laplace.

(** ... and of the Helmholtz equation. *)
Theorem C118_helmholtz : forall (X : externals R) wmod kd e o deg pts ct, kd = Double \/ kd = Adjoint -> Rabs e = 1 -> positive_externals (Rle 0) X ->
  forall mu det det' n n', full_weights reals X ct deg pts mu ->
  forall rt k (test trial : fspace (R * R) R), legal_runtime (s_add complexes) rt -> dense_setting X wmod (helmholtz_operator complexes kd (waves e) k) o deg pts ct test trial ->
  constants complexes (s_cast complexes 1) test -> constants complexes (s_cast complexes 1) trial ->
  interior_family (g_types (fs_grid test) 2) (fs_family test) -> interior_family (g_types (fs_grid trial) 2) (fs_family trial) ->
  flat_faces reals X (fs_grid test) ct det n -> flat_faces reals X (fs_grid trial) ct det' n' ->
  (forall c, (c < ent_count (fs_grid test) 2)%nat -> unit_length (n c)) -> (forall c, (c < ent_count (fs_grid trial) 2)%nat -> unit_length (n' c)) ->
  exists m, assemble complexes X rt wmod (helmholtz_operator complexes kd (waves e) k) o trial test = Ok m /\
  forall t s i j, (t < ent_count (fs_grid test) 2)%nat -> (s < ent_count (fs_grid trial) 2)%nat -> In i (dofs_at test t) -> In j (dofs_at trial s) ->
    exists v, nth_error m (i + global_size (fs_space test) * j) = Some v /\
      forall d, 0 < d -> (forall x y, evaluated X deg pts test trial t s x y -> d <= SpecWaves.distance x y) ->
        cnorm v <= steepest k d * ((mu * det t) * (mu * det' s)).
Proof. exact helmholtz_decay. Qed.
Print Assumptions C118_helmholtz.

(** The bound of the Helmholtz equation is that of the Laplace equation for wavenumber 0,
    and it decreases with the distance. *)
Theorem C118_steepest : (forall d, 0 < d -> steepest 0 d = 1 / (4 * PI * (d * d))) /\ (forall k d r, 0 < d -> d <= r -> steepest k r <= steepest k d).
Proof. exact (conj steepest_laplace steepest_mono). Qed.
Print Assumptions C118_steepest.

(** The sphere: cells that are not neighbours. *)
Theorem C118_sphere : forall (X : externals R) level id wmod kd e o deg pts b, regular_sphere real_numbers level 1 = Ok b ->
  kd = Double \/ kd = Adjoint -> Rabs e = 1 -> positive_externals (Rle 0) X -> flat_cells X (built_grid id Triangle b) b -> triangle_weights X -> inside_rules X Triangle ->
  forall rt (test trial : fspace R R), fs_grid test = built_grid id Triangle b -> fs_grid trial = built_grid id Triangle b -> legal_runtime Rplus rt ->
  dense_setting X wmod (laplace_operator kd (newton e)) o deg pts Triangle test trial -> constants reals 1 test -> constants reals 1 trial ->
  interior_family (g_types (fs_grid test) 2) (fs_family test) -> interior_family (g_types (fs_grid trial) 2) (fs_family trial) ->
  exists m, assemble reals X rt wmod (laplace_operator kd (newton e)) o trial test = Ok m /\
  forall t s i j p q r p' q' r', neighbours (built_grid id Triangle b) (built_grid id Triangle b) t s = Ok false ->
    corners_of b t p q r -> corners_of b s p' q' r' -> In i (dofs_at test t) -> In j (dofs_at trial s) ->
    exists v, nth_error m (i + global_size (fs_space test) * j) = Some v /\ Rabs v <= 25 * 4 ^ level * (triangle_area p q r * triangle_area p' q' r' / (16 * PI)).
Proof. exact sphere_double. Qed.
Print Assumptions C118_sphere.

Theorem C118_sphere_waves : forall (X : externals R) level id wmod kd e o deg pts b, regular_sphere real_numbers level 1 = Ok b ->
  kd = Double \/ kd = Adjoint -> Rabs e = 1 -> positive_externals (Rle 0) X -> flat_cells X (built_grid id Triangle b) b -> triangle_weights X -> inside_rules X Triangle ->
  forall rt k (test trial : fspace (R * R) R), fs_grid test = built_grid id Triangle b -> fs_grid trial = built_grid id Triangle b -> legal_runtime (s_add complexes) rt ->
  dense_setting X wmod (helmholtz_operator complexes kd (waves e) k) o deg pts Triangle test trial -> constants complexes (s_cast complexes 1) test -> constants complexes (s_cast complexes 1) trial ->
  interior_family (g_types (fs_grid test) 2) (fs_family test) -> interior_family (g_types (fs_grid trial) 2) (fs_family trial) ->
  exists m, assemble complexes X rt wmod (helmholtz_operator complexes kd (waves e) k) o trial test = Ok m /\
  forall t s i j p q r p' q' r', neighbours (built_grid id Triangle b) (built_grid id Triangle b) t s = Ok false ->
    corners_of b t p q r -> corners_of b s p' q' r' -> In i (dofs_at test t) -> In j (dofs_at trial s) ->
    exists v, nth_error m (i + global_size (fs_space test) * j) = Some v /\ cnorm v <= steepest k (2 / 5 / 2 ^ level) * (triangle_area p q r * triangle_area p' q' r').
Proof. exact sphere_double_waves. Qed.
Print Assumptions C118_sphere_waves.

(** The sphere at every level with constants on the cells; cells that are not neighbours
    at level 1. *)
Example C118_example : forall level id e, exists b X (test : fspace R R) deg pts wmod,
  regular_sphere real_numbers level 1 = Ok b /\ fs_grid test = built_grid id Triangle b /\ fs_grid (complex_space test) = built_grid id Triangle b /\
  positive_externals (Rle 0) X /\ flat_cells X (built_grid id Triangle b) b /\ triangle_weights X /\ inside_rules X Triangle /\
  (forall kd, dense_setting X wmod (laplace_operator kd (newton e)) (after [SetBatch 3]) deg pts Triangle test test) /\
  (forall kd k, dense_setting X wmod (helmholtz_operator complexes kd (waves e) k) (after [SetBatch 3]) deg pts Triangle (complex_space test) (complex_space test)) /\
  constants reals 1 test /\ constants complexes (s_cast complexes 1) (complex_space test) /\ interior_family (g_types (fs_grid test) 2) (fs_family test) /\
  flat_faces reals X (fs_grid test) Triangle (long b) (unit_normal reals b) /\ full_weights reals X Triangle deg pts (1 / 2) /\
  (forall c, (c < ent_count (fs_grid test) 2)%nat -> unit_length (unit_normal reals b c)).
Proof. exact sphere_far_example. Qed.
Example C118_not_neighbours : exists b, regular_sphere real_numbers 1 1 = Ok b /\ neighbours (built_grid 1 Triangle b) (built_grid 1 Triangle b) 0 24 = Ok false.
Proof. exact (proj1 apart_example). Qed.
