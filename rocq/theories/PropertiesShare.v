(** * Property C106: constant kernels in the singular part, and on screens *)
From Coq Require Import Reals.
From Verif Require Import Base Topology DofMap SpecDof Process Space SpecSpace Options SpecOptions Scalar Integrand CellPair Operators Adjacency SpecAdjacency SpecLocal SpecOperators
  Interleave Assembly SpecAssembly SpecAlgebra SpecBroken SpecRounding SpecShapeSpaces SpecGalerkin SpecMeasure SpecCounts AssemblyResults
  Shapes SpecShapes SpecSphere SpecScreen SpecWidth SpecTurns SpecGauss SpecShift SpecToeplitz GaussExamples SpecShare ShareResults ShareScreen ShareExamples.

Local Open Scope nat_scope.

(** C106. In exact arithmetic, for a kernel that does not depend on the points, on flat cells, with rules
    whose weights add up to the size of the reference cell: the form of two functions that are constant on
    each cell, taken with the singular part, is the sum over the touching pairs of cells only, each once,
    of the products of the areas with what the integrand is for the two normals. *)
Theorem C106_singular_part : forall (T R : Type) (S : scalar T R) (X : externals R) rt wmod (O : operator T R) o deg pts ct (test trial : fspace T R) one mu k det det' n n',
  exact S -> exact_cast S -> (forall x, s_mul S one x = x) -> legal_runtime (s_add S) rt -> dense_setting X wmod O o deg pts ct test trial ->
  adds_to_one S one test -> adds_to_one S one trial -> flat_faces S X (fs_grid test) ct det n -> flat_faces S X (fs_grid trial) ct det' n' ->
  full_weights S X ct deg pts mu -> constant_kernel O k ->
  exists m, assemble_singular_part S X rt wmod O o (global_size (fs_space test), global_size (fs_space trial)) trial test = Ok m /\
    forall u w U W l, piecewise test u U -> piecewise trial w W -> touching_pairs test trial l ->
      total S (seq 0 (global_size (fs_space test))) (fun i => total S (seq 0 (global_size (fs_space trial))) (fun j => s_mul S (s_mul S (u i) (sparse_entry S m i j)) (w j))) =
      total S l (fun p => s_mul S (s_mul S (U (fst p)) (measure S O k (s_mul S mu (det (fst p))) (s_mul S mu (det' (snd p))) (n (fst p)) (n' (snd p)))) (W (snd p))).
Proof. exact exact_near_measured. Qed.
Print Assumptions C106_singular_part.

(** The entries for the constants on the cells. *)
Theorem C106_entries : forall (T R : Type) (S : scalar T R) (X : externals R) rt wmod (O : operator T R) o deg pts ct (test trial : fspace T R) one mu k det det' n n',
  exact S -> exact_cast S -> (forall x, s_mul S one x = x) -> legal_runtime (s_add S) rt -> dense_setting X wmod O o deg pts ct test trial ->
  constants S one test -> constants S one trial ->
  interior_family (g_types (fs_grid test) 2) (fs_family test) -> interior_family (g_types (fs_grid trial) 2) (fs_family trial) ->
  flat_faces S X (fs_grid test) ct det n -> flat_faces S X (fs_grid trial) ct det' n' ->
  full_weights S X ct deg pts mu -> constant_kernel O k ->
  exists m, assemble_singular_part S X rt wmod O o (global_size (fs_space test), global_size (fs_space trial)) trial test = Ok m /\
    forall t s i j, t < ent_count (fs_grid test) 2 -> s < ent_count (fs_grid trial) 2 -> In i (dofs_at test t) -> In j (dofs_at trial s) ->
      (touching test trial t s -> sparse_entry S m i j = measure S O k (s_mul S mu (det t)) (s_mul S mu (det' s)) (n t) (n' s)) /\
      (~ touching test trial t s -> sparse_entry S m i j = s_zero S).
Proof. exact exact_near_entries. Qed.
Print Assumptions C106_entries.

(** On a screen with [n] squares on each side, the entries of the single layer matrix add up to the value
    of the kernel times the square of the area [(n / (n + 1))^2] that the screen has, and those of the
    singular part to the number of touching pairs times the square of the area of a cell. *)
Theorem C106_screen : forall (T : Type) (S : scalar T R) (X : externals R) n id wmod t (b : builder (nat * nat)) calls tf sf (test trial : fspace T R) rt one (O : operator T R) k,
  exact S -> exact_cast S -> real_cast S -> (forall x, s_mul S one x = x) -> screen n t b -> standard tf -> standard sf ->
  made_on (built_grid id t b) tf test -> made_on (built_grid id t b) sf trial -> adds_to_one S one test -> adds_to_one S one trial ->
  flat_screen n X (built_grid id t b) b -> area_weights X t -> proper_rules X -> rules_exist X t (after calls) ->
  0 < get_batch_size (after calls) < wmod ->
  2 * ent_count (built_grid id t b) 2 * ent_count (built_grid id t b) 2 <= wmod -> legal_runtime (s_add S) rt ->
  shipped S O -> constant_kernel O k -> op_integrand O = SingleLayer -> exists m e sm,
    assemble S X rt wmod O (after calls) trial test = Ok m /\
    (forall i j, i < global_size (fs_space test) -> j < global_size (fs_space trial) ->
      nth_error m (i + global_size (fs_space test) * j) = Some (e i j)) /\
    assemble_singular_part S X rt wmod O (after calls) (global_size (fs_space test), global_size (fs_space trial)) trial test = Ok sm /\
    total S (seq 0 (global_size (fs_space test))) (fun i => total S (seq 0 (global_size (fs_space trial))) (fun j => e i j)) =
      s_mul S (k 0) (s_cast S ((INR n / INR (n + 1)) ^ 4)%R) /\
    total S (seq 0 (global_size (fs_space test))) (fun i => total S (seq 0 (global_size (fs_space trial))) (fun j => sparse_entry S sm i j)) =
      s_mul S (k 0) (s_cast S (INR (touching_count t n) * (reference_area t / INR (n + 1) ^ 2) ^ 2)%R).
Proof. exact screen_totals. Qed.
Print Assumptions C106_screen.

(** The second number is at most 13 divided by the number of cells of the first. *)
Theorem C106_share : forall t n, 0 < n -> t = Triangle \/ t = Quadrilateral ->
  (INR (touching_count t n) * (reference_area t / INR (n + 1) ^ 2) ^ 2 <= 13 / (INR (n * n) / reference_area t) * (INR n / INR (n + 1)) ^ 4)%R.
Proof. exact near_share. Qed.
Print Assumptions C106_share.

(** Non-vacuity: constants on both kinds of screens of every size, kernel with value 3 and gradient
    (1, 2, 3); 16 of the 16 pairs of quadrilaterals and 50 of the 64 pairs of triangles touch on the
    screens with two squares on each side. *)
Example C106_example : forall n t id, 0 < n -> t = Triangle \/ t = Quadrilateral -> exists b X (test trial : fspace R R),
  screen n t b /\ standard (interior_only (fun _ => 1)) /\
  made_on (built_grid id t b) (interior_only (fun _ => 1)) test /\ made_on (built_grid id t b) (interior_only (fun _ => 1)) trial /\
  constants reals 1%R test /\ constants reals 1%R trial /\ adds_to_one reals 1%R test /\ adds_to_one reals 1%R trial /\
  interior_family (g_types (fs_grid test) 2) (fs_family test) /\ interior_family (g_types (fs_grid trial) 2) (fs_family trial) /\
  flat_screen n X (built_grid id t b) b /\ area_weights X t /\ proper_rules X /\
  rules_exist X t (after [SetBatch 3]) /\ get_batch_size (after [SetBatch 3]) = 3 /\ legal_runtime (s_add reals) (sequential (s_add reals)) /\
  exact reals /\ exact_cast reals /\ real_cast reals /\
  forall kd, shipped reals (laplace_operator kd steady_green) /\ constant_kernel (laplace_operator kd steady_green) (fun i => match i with 0 => 3%R | _ => INR i end).
Proof. exact share_example. Qed.
Example C106_counts : touching_count Quadrilateral 2 = 16 /\ touching_count Triangle 2 = 50 /\ touching_count Quadrilateral 10 = 784 /\ touching_count Triangle 10 = 2290.
Proof. repeat split; reflexivity. Qed.
