(** * C123: the degree of the regular rules and the entries of distant cells *)
From Coq Require Import Reals.
From Verif Require Import Base Topology DofMap Process Space SpecSpace Options SpecOptions Adjacency SpecAdjacency Scalar Integrand CellPair Operators SpecLocal Interleave Assembly SpecAssembly
  SpecTransfer SpecAlgebra SpecRounding RoundingModels SpecBroken SpecDof SpecGalerkin SpecMeasure Shapes SpecShapes SpecSphere SpecScreen SpecWidth SpecTurns SpecShift SpecToeplitz SpecShare SpecWaves SpecDecay SpecMoments
  SpecDegree DegreeIntegrals DegreeResults DegreeExact DegreeShapes DegreeExamples.

Local Open Scope R_scope.

(** The integrals of monomials. *)
Theorem C123_monomials : forall t i j, t = Triangle \/ t = Quadrilateral -> cell_integral t (fun x y => x ^ i * y ^ j) (monomial_integral t i j).
Proof. exact monomial_integrals. Qed.
Print Assumptions C123_monomials.

(** There is only one integral of a function over a cell, and over two cells. *)
Theorem C123_unique : (forall t f v w, cell_integral t f v -> cell_integral t f w -> v = w) /\
  (forall t p q r p' q' r' K v w, t = Triangle \/ t = Quadrilateral -> surface_integral t p q r p' q' r' K v -> surface_integral t p q r p' q' r' K w -> v = w).
Proof. exact (conj cell_integral_unique surface_integral_unique). Qed.
Print Assumptions C123_unique.

(** Regular rules that are exact for polynomials of degree [k], constants on flat cells: the
    entry is the integral of the kernel over the two cells up to a share of the leading
    term that falls like a power of the ratio of the radii to the distance of the centres. *)
Theorem C123_integral : forall (X : externals R) wmod e o deg pts ct (test trial : fspace R R) rt k,
  dense_setting X wmod (laplace_single_layer (newton e)) o deg pts ct test trial -> positive_externals (Rle 0) X -> constants reals 1 test -> constants reals 1 trial ->
  interior_family (g_types (fs_grid test) 2) (fs_family test) -> interior_family (g_types (fs_grid trial) 2) (fs_family trial) ->
  ct = Triangle \/ ct = Quadrilateral -> inside_rules X ct -> exact_to X ct (pts ct) k -> legal_runtime Rplus rt ->
  exists m, assemble reals X rt wmod (laplace_single_layer (newton e)) o trial test = Ok m /\
  forall t s i j p q r p' q' r' h h', (t < ent_count (fs_grid test) 2)%nat -> (s < ent_count (fs_grid trial) 2)%nat -> List.In i (dofs_at test t) -> List.In j (dofs_at trial s) -> ~ touching test trial t s ->
    (forall points, flat_cell points p q r (x_geometry X (fs_grid test) ct points t)) -> (forall points, flat_cell points p' q' r' (x_geometry X (fs_grid trial) ct points s)) ->
    radius ct p q r h -> radius ct p' q' r' h' ->
    let a := distance (centre ct p q r) (centre ct p' q' r') in h + h' < a ->
    exists v w, nth_error m (i + global_size (fs_space test) * j) = Some v /\ surface_integral ct p q r p' q' r' (newton e 0) w /\
      Rabs (v - w) <= 2 * (((h + h') / a) ^ (k + 1) / (1 - (h + h') / a)) * (cell_area ct p q r * cell_area ct p' q' r' / (4 * PI * a)).
Proof. exact integral_entries. Qed.
Print Assumptions C123_integral.

(** Two assemblers with rules of degree [k] differ by no more. *)
Theorem C123_rules : forall (X X' : externals R) wmod wmod' e o o' deg deg' pts pts' ct (test trial : fspace R R) rt rt' k,
  dense_setting X wmod (laplace_single_layer (newton e)) o deg pts ct test trial -> dense_setting X' wmod' (laplace_single_layer (newton e)) o' deg' pts' ct test trial ->
  positive_externals (Rle 0) X -> positive_externals (Rle 0) X' -> constants reals 1 test -> constants reals 1 trial ->
  interior_family (g_types (fs_grid test) 2) (fs_family test) -> interior_family (g_types (fs_grid trial) 2) (fs_family trial) ->
  ct = Triangle \/ ct = Quadrilateral -> inside_rules X ct -> inside_rules X' ct -> exact_to X ct (pts ct) k -> exact_to X' ct (pts' ct) k -> legal_runtime Rplus rt -> legal_runtime Rplus rt' ->
  exists m m', assemble reals X rt wmod (laplace_single_layer (newton e)) o trial test = Ok m /\ assemble reals X' rt' wmod' (laplace_single_layer (newton e)) o' trial test = Ok m' /\
  forall t s i j p q r p' q' r' h h', (t < ent_count (fs_grid test) 2)%nat -> (s < ent_count (fs_grid trial) 2)%nat -> List.In i (dofs_at test t) -> List.In j (dofs_at trial s) -> ~ touching test trial t s ->
    (forall points, flat_cell points p q r (x_geometry X (fs_grid test) ct points t)) -> (forall points, flat_cell points p' q' r' (x_geometry X (fs_grid trial) ct points s)) ->
    (forall points, flat_cell points p q r (x_geometry X' (fs_grid test) ct points t)) -> (forall points, flat_cell points p' q' r' (x_geometry X' (fs_grid trial) ct points s)) ->
    radius ct p q r h -> radius ct p' q' r' h' ->
    let a := distance (centre ct p q r) (centre ct p' q' r') in h + h' < a ->
    exists v v', nth_error m (i + global_size (fs_space test) * j) = Some v /\ nth_error m' (i + global_size (fs_space test) * j) = Some v' /\
      Rabs (v - v') <= 2 * (((h + h') / a) ^ (k + 1) / (1 - (h + h') / a)) * (cell_area ct p q r * cell_area ct p' q' r' / (4 * PI * a)).
Proof. exact degree_entries. Qed.
Print Assumptions C123_rules.

(** The sphere, *)
Theorem C123_sphere : forall (X : externals R) level id wmod e o deg pts (b : builder vec) (test trial : fspace R R) k,
  regular_sphere real_numbers level 1 = Ok b -> fs_grid test = built_grid id Triangle b -> fs_grid trial = built_grid id Triangle b ->
  dense_setting X wmod (laplace_single_layer (newton e)) o deg pts Triangle test trial ->
  positive_externals (Rle 0) X -> constants reals 1 test -> constants reals 1 trial ->
  interior_family (g_types (fs_grid test) 2) (fs_family test) -> interior_family (g_types (fs_grid trial) 2) (fs_family trial) ->
  flat_cells X (built_grid id Triangle b) b -> inside_rules X Triangle ->
  exact_to X Triangle (pts Triangle) k -> forall rt, legal_runtime Rplus rt ->
  exists m, assemble reals X rt wmod (laplace_single_layer (newton e)) o trial test = Ok m /\
  forall t s i j p q r p' q' r', corners_of b t p q r -> corners_of b s p' q' r' -> List.In i (dofs_at test t) -> List.In j (dofs_at trial s) ->
    let a := distance (centre Triangle p q r) (centre Triangle p' q' r') in let ratio := sqrt (32 / (3 * (4 ^ level + 2))) / a in sqrt (32 / (3 * (4 ^ level + 2))) < a ->
    exists v w, nth_error m (i + global_size (fs_space test) * j) = Some v /\ surface_integral Triangle p q r p' q' r' (newton e 0) w /\
      Rabs (v - w) <= 2 * (ratio ^ (k + 1) / (1 - ratio)) * (triangle_area p q r * triangle_area p' q' r' / (4 * PI * a)).
Proof. exact sphere_integral. Qed.
Print Assumptions C123_sphere.

(** and screens. *)
Theorem C123_screens : forall (X : externals R) n id wmod ct e o deg pts (b : builder (nat * nat)) (test trial : fspace R R) k,
  screen n ct b -> fs_grid test = built_grid id ct b -> fs_grid trial = built_grid id ct b ->
  dense_setting X wmod (laplace_single_layer (newton e)) o deg pts ct test trial ->
  positive_externals (Rle 0) X -> constants reals 1 test -> constants reals 1 trial ->
  interior_family (g_types (fs_grid test) 2) (fs_family test) -> interior_family (g_types (fs_grid trial) 2) (fs_family trial) ->
  flat_screen n X (built_grid id ct b) b -> inside_rules X ct ->
  exact_to X ct (pts ct) k -> forall rt, legal_runtime Rplus rt ->
  exists m, assemble reals X rt wmod (laplace_single_layer (newton e)) o trial test = Ok m /\
  forall t s i j p q r p' q' r', corner b t 0 p -> corner b t 1 q -> corner b t 2 r -> corner b s 0 p' -> corner b s 1 q' -> corner b s 2 r' -> List.In i (dofs_at test t) -> List.In j (dofs_at trial s) ->
    let a := distance (centre ct (screen_position n p) (screen_position n q) (screen_position n r)) (centre ct (screen_position n p') (screen_position n q') (screen_position n r')) in
    let area := reference_area ct / (INR (n + 1) * INR (n + 1)) in let reach := sqrt (spread ct / 2) / INR (n + 1) in reach < a ->
    exists v w, nth_error m (i + global_size (fs_space test) * j) = Some v /\ surface_integral ct (screen_position n p) (screen_position n q) (screen_position n r) (screen_position n p') (screen_position n q') (screen_position n r') (newton e 0) w /\
      Rabs (v - w) <= 2 * ((reach / a) ^ (k + 1) / (1 - reach / a)) * (area * area / (4 * PI * a)).
Proof. exact screen_integral. Qed.
Print Assumptions C123_screens.

(** Rules of degree two with three and with seven points on the sphere, *)
Example C123_sphere_example : forall level id e, (2 <= level)%nat -> exists b X (test : fspace R R) deg deg' pts pts' wmod,
  regular_sphere real_numbers level 1 = Ok b /\ fs_grid test = built_grid id Triangle b /\
  dense_setting X wmod (laplace_single_layer (newton e)) (after [SetBatch 3; SetRegular Triangle (few Triangle)]) deg pts Triangle test test /\
  dense_setting X wmod (laplace_single_layer (newton e)) (after [SetBatch 3; SetRegular Triangle (many Triangle)]) deg' pts' Triangle test test /\
  positive_externals (Rle 0) X /\ constants reals 1 test /\ interior_family (g_types (fs_grid test) 2) (fs_family test) /\
  flat_cells X (built_grid id Triangle b) b /\ inside_rules X Triangle /\ exact_to X Triangle (pts Triangle) 2 /\ exact_to X Triangle (pts' Triangle) 2 /\
  exists t s p q r p' q' r', corners_of b t p q r /\ corners_of b s p' q' r' /\
    sqrt (32 / (3 * (4 ^ level + 2))) < distance (centre Triangle p q r) (centre Triangle p' q' r').
Proof. exact sphere_degree_example. Qed.

(** and with other numbers of points on screens of triangles or squares. *)
Example C123_screen_example : forall n t id e, (4 <= n)%nat -> t = Triangle \/ t = Quadrilateral -> exists b X (test : fspace R R) deg deg' pts pts' wmod,
  screen n t b /\ fs_grid test = built_grid id t b /\ flat_screen n X (built_grid id t b) b /\ inside_rules X t /\ exact_to X t (pts t) 2 /\ exact_to X t (pts' t) 2 /\
  dense_setting X wmod (laplace_single_layer (newton e)) (after [SetBatch 3; SetRegular t (few t)]) deg pts t test test /\
  dense_setting X wmod (laplace_single_layer (newton e)) (after [SetBatch 3; SetRegular t (many t)]) deg' pts' t test test /\
  positive_externals (Rle 0) X /\ constants reals 1 test /\ interior_family (g_types (fs_grid test) 2) (fs_family test) /\
  exists c s p q r p' q' r', corner b c 0 p /\ corner b c 1 q /\ corner b c 2 r /\ corner b s 0 p' /\ corner b s 1 q' /\ corner b s 2 r' /\
    let a := distance (centre t (screen_position n p) (screen_position n q) (screen_position n r)) (centre t (screen_position n p') (screen_position n q') (screen_position n r')) in
    sqrt (spread t / 2) / INR (n + 1) < a.
Proof. exact screen_degree_example. Qed.
