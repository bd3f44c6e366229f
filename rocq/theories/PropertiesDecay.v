(** * Property C114: the size of the entries of the single layer matrix *)
From Coq Require Import Reals.
From Verif Require Import Base Topology DofMap SpecDof Process Space SpecSpace Options SpecOptions Adjacency SpecAdjacency Scalar Integrand CellPair Operators SpecLocal Interleave Assembly SpecAssembly AssemblyResults
  SpecTransfer SpecScalars SpecAlgebra SpecRounding SpecDigits SpecBroken SpecGalerkin SpecMeasure Shapes SpecShapes SpecSphere SpecScreen SpecWidth SpecTurns SpecGauss SpecShift SpecToeplitz SpecShare WaveLimits
  SpecWaves SpecDecay DecayResults DecayShapes DecayScreen DecayWaves DecayExamples ApartSharp.

Local Open Scope R_scope.

(** Without negative basis functions, weights and determinants, each entry is between
    the bounds of the kernel at the points where it is evaluated for cells of the two
    functions, times the entry for kernel 1. *)
Theorem C114_two_sided : forall (X : externals R) wmod (O : operator R R) o deg pts ct test trial,
  dense_setting X wmod O o deg pts ct test trial -> op_integrand O = SingleLayer ->
  positive_externals (Rle 0) X -> positive_basis (Rle 0) X test -> positive_basis (Rle 0) X trial -> forall rt, legal_runtime Rplus rt ->
  exists m w, assemble reals X rt wmod O o trial test = Ok m /\ assemble reals X rt wmod (with_kernel O ones) o trial test = Ok w /\
  forall i j, (i < global_size (fs_space test))%nat -> (j < global_size (fs_space trial))%nat ->
    exists v u, nth_error m (i + global_size (fs_space test) * j) = Some v /\ nth_error w (i + global_size (fs_space test) * j) = Some u /\
      (forall lo, (forall t s x y, carried test i t -> carried trial j s -> evaluated X deg pts test trial t s x y -> lo <= kn_value (op_kernel O) 0 x y) -> lo * u <= v) /\
      (forall hi, (forall t s x y, carried test i t -> carried trial j s -> evaluated X deg pts test trial t s x y -> kn_value (op_kernel O) 0 x y <= hi) -> v <= hi * u).
Proof. exact two_sided. Qed.
Print Assumptions C114_two_sided.

(** Constants on flat cells: the product of the areas. *)
Theorem C114_constants : forall (X : externals R) wmod (O : operator R R) o deg pts ct test trial,
  dense_setting X wmod O o deg pts ct test trial -> op_integrand O = SingleLayer ->
  positive_externals (Rle 0) X -> positive_basis (Rle 0) X test -> positive_basis (Rle 0) X trial ->
  forall rt mu det det' n n', legal_runtime Rplus rt -> constants reals 1 test -> constants reals 1 trial ->
  interior_family (g_types (fs_grid test) 2) (fs_family test) -> interior_family (g_types (fs_grid trial) 2) (fs_family trial) ->
  flat_faces reals X (fs_grid test) ct det n -> flat_faces reals X (fs_grid trial) ct det' n' -> full_weights reals X ct deg pts mu ->
  exists m, assemble reals X rt wmod O o trial test = Ok m /\
  forall t s i j, (t < ent_count (fs_grid test) 2)%nat -> (s < ent_count (fs_grid trial) 2)%nat -> In i (dofs_at test t) -> In j (dofs_at trial s) ->
    exists v, nth_error m (i + global_size (fs_space test) * j) = Some v /\
      (forall lo, (forall x y, evaluated X deg pts test trial t s x y -> lo <= kn_value (op_kernel O) 0 x y) -> lo * ((mu * det t) * (mu * det' s)) <= v) /\
      (forall hi, (forall x y, evaluated X deg pts test trial t s x y -> kn_value (op_kernel O) 0 x y <= hi) -> v <= hi * ((mu * det t) * (mu * det' s))).
Proof. exact constants_between. Qed.
Print Assumptions C114_constants.

(** The sphere: cells that are not neighbours ... *)
Theorem C114_sphere : forall (X : externals R) level id wmod e o deg pts b test trial,
  regular_sphere real_numbers level 1 = Ok b -> fs_grid test = built_grid id Triangle b -> fs_grid trial = built_grid id Triangle b ->
  dense_setting X wmod (laplace_single_layer (newton e)) o deg pts Triangle test trial ->
  positive_externals (Rle 0) X -> positive_basis (Rle 0) X test -> positive_basis (Rle 0) X trial -> constants reals 1 test -> constants reals 1 trial ->
  interior_family (g_types (fs_grid test) 2) (fs_family test) -> interior_family (g_types (fs_grid trial) 2) (fs_family trial) ->
  flat_cells X (built_grid id Triangle b) b -> triangle_weights X -> inside_rules X Triangle -> forall rt, legal_runtime Rplus rt ->
  exists m, assemble reals X rt wmod (laplace_single_layer (newton e)) o trial test = Ok m /\
  forall t s i j p q r p' q' r', neighbours (built_grid id Triangle b) (built_grid id Triangle b) t s = Ok false ->
    corners_of b t p q r -> corners_of b s p' q' r' -> In i (dofs_at test t) -> In j (dofs_at trial s) ->
    exists v, nth_error m (i + global_size (fs_space test) * j) = Some v /\
      triangle_area p q r * triangle_area p' q' r' / (8 * PI) <= v <= 5 * 2 ^ level * (triangle_area p q r * triangle_area p' q' r' / (8 * PI)).
Proof. exact sphere_far. Qed.
Print Assumptions C114_sphere.

(** ... and all cells: no entry is zero. *)
Theorem C114_sphere_positive : forall (X : externals R) level id wmod e o deg pts b test trial,
  regular_sphere real_numbers level 1 = Ok b -> fs_grid test = built_grid id Triangle b -> fs_grid trial = built_grid id Triangle b ->
  dense_setting X wmod (laplace_single_layer (newton e)) o deg pts Triangle test trial ->
  positive_externals (Rle 0) X -> positive_basis (Rle 0) X test -> positive_basis (Rle 0) X trial -> constants reals 1 test -> constants reals 1 trial ->
  interior_family (g_types (fs_grid test) 2) (fs_family test) -> interior_family (g_types (fs_grid trial) 2) (fs_family trial) ->
  flat_cells X (built_grid id Triangle b) b -> triangle_weights X -> inside_rules X Triangle -> forall rt, legal_runtime Rplus rt ->
  exists m, assemble reals X rt wmod (laplace_single_layer (newton e)) o trial test = Ok m /\
  forall t s i j p q r p' q' r', separate_points X deg pts test trial t s ->
    corners_of b t p q r -> corners_of b s p' q' r' -> In i (dofs_at test t) -> In j (dofs_at trial s) ->
    exists v, nth_error m (i + global_size (fs_space test) * j) = Some v /\ triangle_area p q r * triangle_area p' q' r' / (8 * PI) <= v /\ 0 < v.
Proof. exact sphere_positive. Qed.
Print Assumptions C114_sphere_positive.

(** Screens. *)
Theorem C114_screens : forall (X : externals R) n id wmod ct e o deg pts b test trial,
  screen n ct b -> fs_grid test = built_grid id ct b -> fs_grid trial = built_grid id ct b -> flat_screen n X (built_grid id ct b) b -> area_weights X ct -> inside_rules X ct ->
  dense_setting X wmod (laplace_single_layer (newton e)) o deg pts ct test trial ->
  positive_externals (Rle 0) X -> positive_basis (Rle 0) X test -> positive_basis (Rle 0) X trial -> constants reals 1 test -> constants reals 1 trial ->
  interior_family (g_types (fs_grid test) 2) (fs_family test) -> interior_family (g_types (fs_grid trial) 2) (fs_family trial) -> forall rt, legal_runtime Rplus rt ->
  exists m, assemble reals X rt wmod (laplace_single_layer (newton e)) o trial test = Ok m /\
  forall t s i j, (t < length (cells_of b))%nat -> (s < length (cells_of b))%nat -> In i (dofs_at test t) -> In j (dofs_at trial s) ->
    let area := reference_area ct / (INR (n + 1) * INR (n + 1)) in
    exists v, nth_error m (i + global_size (fs_space test) * j) = Some v /\
      (separate_points X deg pts test trial t s -> area * area / (4 * PI * sqrt 2) <= v) /\
      (neighbours (built_grid id ct b) (built_grid id ct b) t s = Ok false -> area * area / (4 * PI * sqrt 2) <= v <= area * area * INR (n + 1) / (4 * PI * gap ct)).
Proof. exact screen_between. Qed.
Print Assumptions C114_screens.

(** The Helmholtz equation: the change of an entry with the wavenumber is bounded by the
    areas of the cells, and the bounds from above are those of the Laplace equation. *)
Theorem C114_wave_change : forall (X : externals R) wmod o deg pts ct (test trial : fspace R R) (test' trial' : fspace (R * R) R) rt e k k' mu det det' n n',
  positive_externals (Rle 0) X -> positive_basis (Rle 0) X test -> positive_basis (Rle 0) X trial ->
  mapped_space embed_real test test' -> mapped_space embed_real trial trial' -> legal_runtime (s_add complexes) rt -> nonzero_determinants X ->
  dense_setting X wmod (laplace_single_layer (newton e)) o deg pts ct test trial -> constants reals 1 test -> constants reals 1 trial ->
  interior_family (g_types (fs_grid test) 2) (fs_family test) -> interior_family (g_types (fs_grid trial) 2) (fs_family trial) ->
  flat_faces reals X (fs_grid test) ct det n -> flat_faces reals X (fs_grid trial) ct det' n' -> full_weights reals X ct deg pts mu ->
  exists m m', assemble complexes X rt wmod (helmholtz_single_layer (waves e) k) o trial' test' = Ok m /\
    assemble complexes X rt wmod (helmholtz_single_layer (waves e) k') o trial' test' = Ok m' /\
    forall t s i j, (t < ent_count (fs_grid test) 2)%nat -> (s < ent_count (fs_grid trial) 2)%nat -> In i (dofs_at test t) -> In j (dofs_at trial s) ->
      exists x x', nth_error m (i + global_size (fs_space test) * j) = Some x /\ nth_error m' (i + global_size (fs_space test) * j) = Some x' /\
        cnorm (s_sub complexes x x') <= Rabs (k - k') / (4 * PI) * ((mu * det t) * (mu * det' s)).
Proof. exact constants_change. Qed.
Print Assumptions C114_wave_change.

Theorem C114_sphere_waves : forall (X : externals R) level id wmod e k o deg pts b (test trial : fspace R R) (test' trial' : fspace (R * R) R) rt,
  regular_sphere real_numbers level 1 = Ok b -> fs_grid test = built_grid id Triangle b -> fs_grid trial = built_grid id Triangle b ->
  dense_setting X wmod (laplace_single_layer (newton e)) o deg pts Triangle test trial ->
  positive_externals (Rle 0) X -> positive_basis (Rle 0) X test -> positive_basis (Rle 0) X trial -> constants reals 1 test -> constants reals 1 trial ->
  interior_family (g_types (fs_grid test) 2) (fs_family test) -> interior_family (g_types (fs_grid trial) 2) (fs_family trial) ->
  flat_cells X (built_grid id Triangle b) b -> triangle_weights X -> inside_rules X Triangle ->
  mapped_space embed_real test test' -> mapped_space embed_real trial trial' -> legal_runtime (s_add complexes) rt -> nonzero_determinants X ->
  exists m, assemble complexes X rt wmod (helmholtz_single_layer (waves e) k) o trial' test' = Ok m /\
  forall t s i j p q r p' q' r', neighbours (built_grid id Triangle b) (built_grid id Triangle b) t s = Ok false ->
    corners_of b t p q r -> corners_of b s p' q' r' -> In i (dofs_at test t) -> In j (dofs_at trial s) ->
    exists x, nth_error m (i + global_size (fs_space test) * j) = Some x /\ cnorm x <= 5 * 2 ^ level * (triangle_area p q r * triangle_area p' q' r' / (8 * PI)).
Proof. exact sphere_waves. Qed.
Print Assumptions C114_sphere_waves.

Theorem C114_screen_waves : forall (X : externals R) n id wmod ct e k o deg pts b (test trial : fspace R R) (test' trial' : fspace (R * R) R) rt,
  screen n ct b -> fs_grid test = built_grid id ct b -> fs_grid trial = built_grid id ct b -> flat_screen n X (built_grid id ct b) b -> area_weights X ct -> inside_rules X ct ->
  dense_setting X wmod (laplace_single_layer (newton e)) o deg pts ct test trial ->
  positive_externals (Rle 0) X -> positive_basis (Rle 0) X test -> positive_basis (Rle 0) X trial -> constants reals 1 test -> constants reals 1 trial ->
  interior_family (g_types (fs_grid test) 2) (fs_family test) -> interior_family (g_types (fs_grid trial) 2) (fs_family trial) ->
  mapped_space embed_real test test' -> mapped_space embed_real trial trial' -> legal_runtime (s_add complexes) rt -> nonzero_determinants X ->
  exists m, assemble complexes X rt wmod (helmholtz_single_layer (waves e) k) o trial' test' = Ok m /\
  forall t s i j, (t < length (cells_of b))%nat -> (s < length (cells_of b))%nat -> In i (dofs_at test t) -> In j (dofs_at trial s) ->
    neighbours (built_grid id ct b) (built_grid id ct b) t s = Ok false ->
    let area := reference_area ct / (INR (n + 1) * INR (n + 1)) in
    exists x, nth_error m (i + global_size (fs_space test) * j) = Some x /\ cnorm x <= area * area * INR (n + 1) / (4 * PI * gap ct).
Proof. exact screen_waves. Qed.
Print Assumptions C114_screen_waves.

(** The sphere at every level with constants on the cells, rules with points at 1/4 and
    1/3; cells that are not neighbours at level 1; screens of every size. *)
Example C114_hypotheses_met_sphere : forall level id e, exists b X (test : fspace R R) deg pts wmod,
  regular_sphere real_numbers level 1 = Ok b /\ fs_grid test = built_grid id Triangle b /\
  dense_setting X wmod (laplace_single_layer (newton e)) (after [SetBatch 3]) deg pts Triangle test test /\
  positive_externals (Rle 0) X /\ positive_basis (Rle 0) X test /\ constants reals 1 test /\ interior_family (g_types (fs_grid test) 2) (fs_family test) /\
  flat_cells X (built_grid id Triangle b) b /\ triangle_weights X /\ inside_rules X Triangle /\
  mapped_space embed_real test (complex_space test) /\ nonzero_determinants X /\
  (forall c, (c < length (cells_of b))%nat -> separate_points X deg pts test test c c /\ exists p q r, corners_of b c p q r).
Proof. exact sphere_decay_example. Qed.
Example C114_not_neighbours : exists b, regular_sphere real_numbers 1 1 = Ok b /\ neighbours (built_grid 1 Triangle b) (built_grid 1 Triangle b) 0 24 = Ok false.
Proof. exact (proj1 apart_example). Qed.
Example C114_hypotheses_met_screens : forall n t id e, (0 < n)%nat -> t = Triangle \/ t = Quadrilateral -> exists b X (test : fspace R R) deg pts wmod,
  screen n t b /\ fs_grid test = built_grid id t b /\ flat_screen n X (built_grid id t b) b /\ area_weights X t /\ inside_rules X t /\
  dense_setting X wmod (laplace_single_layer (newton e)) (after [SetBatch 3]) deg pts t test test /\
  positive_externals (Rle 0) X /\ positive_basis (Rle 0) X test /\ constants reals 1 test /\ interior_family (g_types (fs_grid test) 2) (fs_family test) /\
  mapped_space embed_real test (complex_space test) /\ nonzero_determinants X.
Proof. exact screen_decay_example. Qed.
