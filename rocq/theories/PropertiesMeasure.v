(** * Property C99: kernels that do not depend on the points *)
From Coq Require Import Reals.
From Verif Require Import Base Topology DofMap SpecDof Process Space SpecSpace Options SpecOptions Scalar Integrand CellPair Operators Adjacency SpecAdjacency SpecLocal SpecOperators
  Interleave Assembly SpecAssembly SpecAlgebra SpecRounding SpecShapeSpaces SpecGalerkin SpecMeasure MeasureResults
  Shapes SpecShapes SpecSphere SpecWidth SpecTurns SpecVolume SpecGauss AssemblyResults GaussResults GaussExamples.

Local Open Scope nat_scope.

(** C99. In exact arithmetic, for a kernel that does not depend on the points, on flat cells, with rules
    whose weights add up to the size of the reference cell: the form of two functions that are constant
    on each cell is the sum over all pairs of cells of the products of the areas with what the integrand
    is for the two normals.  Every pair of cells is counted once, whichever rule is used for it. *)
Theorem C99_matrix : forall (T R : Type) (S : scalar T R) (X : externals R) rt wmod (O : operator T R) o deg pts ct (test trial : fspace T R) one mu k det det' n n',
  exact S -> exact_cast S -> (forall x, s_mul S one x = x) -> legal_runtime (s_add S) rt -> dense_setting X wmod O o deg pts ct test trial ->
  adds_to_one S one test -> adds_to_one S one trial -> flat_faces S X (fs_grid test) ct det n -> flat_faces S X (fs_grid trial) ct det' n' ->
  full_weights S X ct deg pts mu -> constant_kernel O k ->
  exists m e, assemble S X rt wmod O o trial test = Ok m /\
    (forall i j, i < global_size (fs_space test) -> j < global_size (fs_space trial) -> nth_error m (i + global_size (fs_space test) * j) = Some (e i j)) /\
    forall u w U W, piecewise test u U -> piecewise trial w W ->
      SpecAssembly.total S (seq 0 (global_size (fs_space test))) (fun i => SpecAssembly.total S (seq 0 (global_size (fs_space trial))) (fun j => s_mul S (s_mul S (u i) (e i j)) (w j))) =
      SpecAssembly.total S (seq 0 (ent_count (fs_grid test) 2)) (fun t => SpecAssembly.total S (seq 0 (ent_count (fs_grid trial) 2)) (fun s =>
        s_mul S (s_mul S (U t) (measure S O k (s_mul S mu (det t)) (s_mul S mu (det' s)) (n t) (n' s))) (W s))).
Proof. exact exact_measured. Qed.
Print Assumptions C99_matrix.

(** The entries for the constants on the cells. *)
Theorem C99_entries : forall (T R : Type) (S : scalar T R) (X : externals R) rt wmod (O : operator T R) o deg pts ct (test trial : fspace T R) one mu k det det' n n',
  exact S -> exact_cast S -> (forall x, s_mul S one x = x) -> legal_runtime (s_add S) rt -> dense_setting X wmod O o deg pts ct test trial ->
  constants S one test -> constants S one trial ->
  interior_family (g_types (fs_grid test) 2) (fs_family test) -> interior_family (g_types (fs_grid trial) 2) (fs_family trial) ->
  flat_faces S X (fs_grid test) ct det n -> flat_faces S X (fs_grid trial) ct det' n' ->
  full_weights S X ct deg pts mu -> constant_kernel O k ->
  exists m, assemble S X rt wmod O o trial test = Ok m /\
    forall t s i j, t < ent_count (fs_grid test) 2 -> s < ent_count (fs_grid trial) 2 -> In i (dofs_at test t) -> In j (dofs_at trial s) ->
      nth_error m (i + global_size (fs_space test) * j) = Some (measure S O k (s_mul S mu (det t)) (s_mul S mu (det' s)) (n t) (n' s)).
Proof. exact exact_measured_entries. Qed.
Print Assumptions C99_entries.

(** On the sphere the entries of the single layer matrix add up to the square of the area ... *)
Theorem C99_sphere_single : forall (T : Type) (S : scalar T R) (X : externals R) level id wmod (b : builder vec) calls tf sf (test trial : fspace T R) rt one (O : operator T R) k,
  exact S -> exact_cast S -> real_cast S -> (forall x, s_mul S one x = x) -> regular_sphere real_numbers level 1 = Ok b -> standard tf -> standard sf ->
  made_on (built_grid id Triangle b) tf test -> made_on (built_grid id Triangle b) sf trial -> adds_to_one S one test -> adds_to_one S one trial ->
  flat_cells X (built_grid id Triangle b) b -> triangle_weights X -> proper_rules X -> rules_exist X Triangle (after calls) ->
  (0 < get_batch_size (after calls) < wmod)%nat ->
  (2 * ent_count (built_grid id Triangle b) 2 * ent_count (built_grid id Triangle b) 2 <= wmod)%nat -> legal_runtime (s_add S) rt ->
  shipped S O -> constant_kernel O k -> op_integrand O = SingleLayer -> exists m e,
    assemble S X rt wmod O (after calls) trial test = Ok m /\
    (forall i j, (i < global_size (fs_space test))%nat -> (j < global_size (fs_space trial))%nat ->
      nth_error m (i + global_size (fs_space test) * j) = Some (e i j)) /\
    SpecAssembly.total S (seq 0 (global_size (fs_space test))) (fun i => SpecAssembly.total S (seq 0 (global_size (fs_space trial))) (fun j => e i j)) =
      s_mul S (k 0%nat) (s_mul S (s_cast S (area b)) (s_cast S (area b))).
Proof. exact sphere_single. Qed.
Print Assumptions C99_sphere_single.

(** ... which tends to that of the unit sphere. *)
Theorem C99_sphere_limit : forall eps k0, (0 < eps)%R -> exists N, forall level, (N <= level)%nat ->
  forall (X : externals R) id wmod (b : builder vec) calls tf sf (test trial : fspace R R) rt (O : operator R R) k,
  regular_sphere real_numbers level 1 = Ok b -> standard tf -> standard sf ->
  made_on (built_grid id Triangle b) tf test -> made_on (built_grid id Triangle b) sf trial -> adds_to_one reals 1%R test -> adds_to_one reals 1%R trial ->
  flat_cells X (built_grid id Triangle b) b -> triangle_weights X -> proper_rules X -> rules_exist X Triangle (after calls) ->
  (0 < get_batch_size (after calls) < wmod)%nat ->
  (2 * ent_count (built_grid id Triangle b) 2 * ent_count (built_grid id Triangle b) 2 <= wmod)%nat -> legal_runtime (s_add reals) rt ->
  shipped reals O -> constant_kernel O k -> op_integrand O = SingleLayer -> k 0%nat = k0 -> exists m e,
    assemble reals X rt wmod O (after calls) trial test = Ok m /\
    (forall i j, (i < global_size (fs_space test))%nat -> (j < global_size (fs_space trial))%nat ->
      nth_error m (i + global_size (fs_space test) * j) = Some (e i j)) /\
    (Rabs (SpecAssembly.total reals (seq 0 (global_size (fs_space test))) (fun i => SpecAssembly.total reals (seq 0 (global_size (fs_space trial))) (fun j => e i j)) - k0 * (4 * PI * (4 * PI))) < eps)%R.
Proof. exact single_limit. Qed.
Print Assumptions C99_sphere_limit.

(** The law of Gauss: no flux of a constant field through the sphere, for the double layer ... *)
Theorem C99_sphere_double : forall (T : Type) (S : scalar T R) (X : externals R) level id wmod (b : builder vec) calls tf sf (test trial : fspace T R) rt one (O : operator T R) k,
  exact S -> exact_cast S -> real_cast S -> (forall x, s_mul S one x = x) -> regular_sphere real_numbers level 1 = Ok b -> standard tf -> standard sf ->
  made_on (built_grid id Triangle b) tf test -> made_on (built_grid id Triangle b) sf trial -> adds_to_one S one test -> adds_to_one S one trial ->
  flat_cells X (built_grid id Triangle b) b -> triangle_weights X -> proper_rules X -> rules_exist X Triangle (after calls) ->
  (0 < get_batch_size (after calls) < wmod)%nat ->
  (2 * ent_count (built_grid id Triangle b) 2 * ent_count (built_grid id Triangle b) 2 <= wmod)%nat -> legal_runtime (s_add S) rt ->
  shipped S O -> constant_kernel O k -> op_integrand O = DoubleLayer -> exists m e,
    assemble S X rt wmod O (after calls) trial test = Ok m /\
    (forall i j, (i < global_size (fs_space test))%nat -> (j < global_size (fs_space trial))%nat ->
      nth_error m (i + global_size (fs_space test) * j) = Some (e i j)) /\
    forall u U, piecewise test u U ->
      SpecAssembly.total S (seq 0 (global_size (fs_space test))) (fun i => SpecAssembly.total S (seq 0 (global_size (fs_space trial))) (fun j => s_mul S (u i) (e i j))) = s_zero S.
Proof. exact sphere_double. Qed.
Print Assumptions C99_sphere_double.

(** ... (for the constants: every row adds up to zero) ... *)
Theorem C99_sphere_rows : forall (T : Type) (S : scalar T R) (X : externals R) level id wmod (b : builder vec) calls tf sf (test trial : fspace T R) rt one (O : operator T R) k,
  exact S -> exact_cast S -> real_cast S -> (forall x, s_mul S one x = x) -> regular_sphere real_numbers level 1 = Ok b -> standard tf -> standard sf ->
  made_on (built_grid id Triangle b) tf test -> made_on (built_grid id Triangle b) sf trial -> adds_to_one S one test -> adds_to_one S one trial ->
  flat_cells X (built_grid id Triangle b) b -> triangle_weights X -> proper_rules X -> rules_exist X Triangle (after calls) ->
  (0 < get_batch_size (after calls) < wmod)%nat ->
  (2 * ent_count (built_grid id Triangle b) 2 * ent_count (built_grid id Triangle b) 2 <= wmod)%nat -> legal_runtime (s_add S) rt ->
  shipped S O -> constant_kernel O k -> op_integrand O = DoubleLayer ->
  constants S one test -> interior_family [Triangle] tf ->
  exists m e,
    assemble S X rt wmod O (after calls) trial test = Ok m /\
    (forall i j, (i < global_size (fs_space test))%nat -> (j < global_size (fs_space trial))%nat ->
      nth_error m (i + global_size (fs_space test) * j) = Some (e i j)) /\
    forall t i, (t < ent_count (built_grid id Triangle b) 2)%nat -> In i (dofs_at test t) ->
      SpecAssembly.total S (seq 0 (global_size (fs_space trial))) (fun j => e i j) = s_zero S.
Proof. exact sphere_double_rows. Qed.
Print Assumptions C99_sphere_rows.

(** ... and the adjoint double layer. *)
Theorem C99_sphere_adjoint : forall (T : Type) (S : scalar T R) (X : externals R) level id wmod (b : builder vec) calls tf sf (test trial : fspace T R) rt one (O : operator T R) k,
  exact S -> exact_cast S -> real_cast S -> (forall x, s_mul S one x = x) -> regular_sphere real_numbers level 1 = Ok b -> standard tf -> standard sf ->
  made_on (built_grid id Triangle b) tf test -> made_on (built_grid id Triangle b) sf trial -> adds_to_one S one test -> adds_to_one S one trial ->
  flat_cells X (built_grid id Triangle b) b -> triangle_weights X -> proper_rules X -> rules_exist X Triangle (after calls) ->
  (0 < get_batch_size (after calls) < wmod)%nat ->
  (2 * ent_count (built_grid id Triangle b) 2 * ent_count (built_grid id Triangle b) 2 <= wmod)%nat -> legal_runtime (s_add S) rt ->
  shipped S O -> constant_kernel O k -> op_integrand O = AdjointDoubleLayer -> exists m e,
    assemble S X rt wmod O (after calls) trial test = Ok m /\
    (forall i j, (i < global_size (fs_space test))%nat -> (j < global_size (fs_space trial))%nat ->
      nth_error m (i + global_size (fs_space test) * j) = Some (e i j)) /\
    forall w W, piecewise trial w W ->
      SpecAssembly.total S (seq 0 (global_size (fs_space test))) (fun i => SpecAssembly.total S (seq 0 (global_size (fs_space trial))) (fun j => s_mul S (e i j) (w j))) = s_zero S.
Proof. exact sphere_adjoint. Qed.
Print Assumptions C99_sphere_adjoint.

(** Non-vacuity: constants and continuous linear functions on every level of the sphere,
    kernel with value 3 and gradient (1, 2, 3). *)
Example C99_example : forall level id, exists b X (test trial : fspace R R),
  regular_sphere real_numbers level 1 = Ok b /\ standard (interior_only (fun _ => 1%nat)) /\ standard (lagrange 1) /\
  made_on (built_grid id Triangle b) (interior_only (fun _ => 1%nat)) test /\ made_on (built_grid id Triangle b) (lagrange 1) trial /\
  adds_to_one reals 1%R test /\ adds_to_one reals 1%R trial /\ constants reals 1%R test /\ interior_family [Triangle] (interior_only (fun _ => 1%nat)) /\
  flat_cells X (built_grid id Triangle b) b /\ triangle_weights X /\ proper_rules X /\
  rules_exist X Triangle (after [SetBatch 3]) /\ get_batch_size (after [SetBatch 3]) = 3%nat /\ legal_runtime (s_add reals) (sequential (s_add reals)) /\
  exact reals /\ exact_cast reals /\ real_cast reals /\
  forall kd, shipped reals (laplace_operator kd steady_green) /\ constant_kernel (laplace_operator kd steady_green) (fun i => match i with 0 => 3%R | _ => INR i end).
Proof. exact gauss_example. Qed.
