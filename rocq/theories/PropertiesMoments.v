(** * C115: entries for distant cells *)
From Coq Require Import Reals.
From Verif Require Import Base Topology DofMap Process Space SpecSpace Options SpecOptions Adjacency SpecAdjacency Scalar Integrand CellPair Operators SpecLocal Interleave Assembly SpecAssembly
  SpecTransfer SpecAlgebra SpecRounding RoundingModels SpecBroken SpecDof SpecGalerkin SpecMeasure Shapes SpecShapes SpecSphere SpecScreen SpecWidth SpecTurns SpecShift SpecToeplitz SpecShare SpecWaves SpecDecay SpecMoments
  MomentResults MomentShapes MomentExamples.

Local Open Scope R_scope.

(** Constants on flat cells whose centres are further apart than the sum of the radii: the
    entry is the Green's function between the centres times the areas, with a relative
    error of first order in the radii for rules that are exact for constants, and of
    second order for rules that are exact for linear functions. *)
Theorem C115_centres : forall (X : externals R) wmod e o deg pts ct test trial,
  dense_setting X wmod (laplace_single_layer (newton e)) o deg pts ct test trial -> positive_externals (Rle 0) X -> constants reals 1 test -> constants reals 1 trial ->
  interior_family (g_types (fs_grid test) 2) (fs_family test) -> interior_family (g_types (fs_grid trial) 2) (fs_family trial) ->
  forall rt, ct = Triangle \/ ct = Quadrilateral -> inside_rules X ct -> exact_constants X ct -> legal_runtime Rplus rt ->
  exists m, assemble reals X rt wmod (laplace_single_layer (newton e)) o trial test = Ok m /\
  forall t s i j p q r p' q' r' h h', (t < ent_count (fs_grid test) 2)%nat -> (s < ent_count (fs_grid trial) 2)%nat -> List.In i (dofs_at test t) -> List.In j (dofs_at trial s) -> ~ touching test trial t s ->
    (forall points, flat_cell points p q r (x_geometry X (fs_grid test) ct points t)) -> (forall points, flat_cell points p' q' r' (x_geometry X (fs_grid trial) ct points s)) ->
    radius ct p q r h -> radius ct p' q' r' h' ->
    let a := distance (centre ct p q r) (centre ct p' q' r') in h + h' < a ->
    exists v, nth_error m (i + global_size (fs_space test) * j) = Some v /\
      relatively_near ((h + h') / (a - (h + h'))) (cell_area ct p q r * cell_area ct p' q' r' / (4 * PI * a)) v /\
      (exact_linear X ct -> relatively_near ((h + h') * (h + h') / (a * (a - (h + h')))) (cell_area ct p q r * cell_area ct p' q' r' / (4 * PI * a)) v).
Proof. exact far_entries. Qed.
Print Assumptions C115_centres.

(** Two assemblers, with other rules and options: the entries differ by at most twice that. *)
Theorem C115_rules : forall (X X' : externals R) wmod wmod' e o o' deg deg' pts pts' ct (test trial : fspace R R) rt rt',
  dense_setting X wmod (laplace_single_layer (newton e)) o deg pts ct test trial -> dense_setting X' wmod' (laplace_single_layer (newton e)) o' deg' pts' ct test trial ->
  positive_externals (Rle 0) X -> positive_externals (Rle 0) X' -> constants reals 1 test -> constants reals 1 trial ->
  interior_family (g_types (fs_grid test) 2) (fs_family test) -> interior_family (g_types (fs_grid trial) 2) (fs_family trial) ->
  ct = Triangle \/ ct = Quadrilateral -> inside_rules X ct -> inside_rules X' ct -> exact_linear X ct -> exact_linear X' ct -> legal_runtime Rplus rt -> legal_runtime Rplus rt' ->
  exists m m', assemble reals X rt wmod (laplace_single_layer (newton e)) o trial test = Ok m /\ assemble reals X' rt' wmod' (laplace_single_layer (newton e)) o' trial test = Ok m' /\
  forall t s i j p q r p' q' r' h h', (t < ent_count (fs_grid test) 2)%nat -> (s < ent_count (fs_grid trial) 2)%nat -> List.In i (dofs_at test t) -> List.In j (dofs_at trial s) -> ~ touching test trial t s ->
    (forall points, flat_cell points p q r (x_geometry X (fs_grid test) ct points t)) -> (forall points, flat_cell points p' q' r' (x_geometry X (fs_grid trial) ct points s)) ->
    (forall points, flat_cell points p q r (x_geometry X' (fs_grid test) ct points t)) -> (forall points, flat_cell points p' q' r' (x_geometry X' (fs_grid trial) ct points s)) ->
    radius ct p q r h -> radius ct p' q' r' h' ->
    let a := distance (centre ct p q r) (centre ct p' q' r') in h + h' < a ->
    exists v v', nth_error m (i + global_size (fs_space test) * j) = Some v /\ nth_error m' (i + global_size (fs_space test) * j) = Some v' /\
      Rabs (v - v') <= 2 * ((h + h') * (h + h') / (a * (a - (h + h')))) * (cell_area ct p q r * cell_area ct p' q' r' / (4 * PI * a)).
Proof. exact rules_agree. Qed.
Print Assumptions C115_rules.

(** The sphere, *)
Theorem C115_sphere : forall (X : externals R) level id wmod e o deg pts b test trial,
  regular_sphere real_numbers level 1 = Ok b -> fs_grid test = built_grid id Triangle b -> fs_grid trial = built_grid id Triangle b ->
  dense_setting X wmod (laplace_single_layer (newton e)) o deg pts Triangle test trial -> positive_externals (Rle 0) X -> constants reals 1 test -> constants reals 1 trial ->
  interior_family (g_types (fs_grid test) 2) (fs_family test) -> interior_family (g_types (fs_grid trial) 2) (fs_family trial) ->
  flat_cells X (built_grid id Triangle b) b -> inside_rules X Triangle -> exact_linear X Triangle -> forall rt, legal_runtime Rplus rt ->
  exists m, assemble reals X rt wmod (laplace_single_layer (newton e)) o trial test = Ok m /\
  forall t s i j p q r p' q' r', corners_of b t p q r -> corners_of b s p' q' r' -> List.In i (dofs_at test t) -> List.In j (dofs_at trial s) ->
    let a := distance (centre Triangle p q r) (centre Triangle p' q' r') in 128 / (3 * (4 ^ level + 2)) <= a * a ->
    exists v, nth_error m (i + global_size (fs_space test) * j) = Some v /\
      relatively_near (64 / (3 * (4 ^ level + 2)) / (a * a)) (triangle_area p q r * triangle_area p' q' r' / (4 * PI * a)) v.
Proof. exact sphere_distant. Qed.
Print Assumptions C115_sphere.

(** and screens. *)
Theorem C115_screens : forall (X : externals R) n id wmod ct e o deg pts b test trial,
  screen n ct b -> fs_grid test = built_grid id ct b -> fs_grid trial = built_grid id ct b ->
  dense_setting X wmod (laplace_single_layer (newton e)) o deg pts ct test trial -> positive_externals (Rle 0) X -> constants reals 1 test -> constants reals 1 trial ->
  interior_family (g_types (fs_grid test) 2) (fs_family test) -> interior_family (g_types (fs_grid trial) 2) (fs_family trial) ->
  flat_screen n X (built_grid id ct b) b -> inside_rules X ct -> exact_linear X ct -> forall rt, legal_runtime Rplus rt ->
  exists m, assemble reals X rt wmod (laplace_single_layer (newton e)) o trial test = Ok m /\
  forall t s i j p q r p' q' r', corner b t 0 p -> corner b t 1 q -> corner b t 2 r -> corner b s 0 p' -> corner b s 1 q' -> corner b s 2 r' -> List.In i (dofs_at test t) -> List.In j (dofs_at trial s) ->
    let a := distance (centre ct (screen_position n p) (screen_position n q) (screen_position n r)) (centre ct (screen_position n p') (screen_position n q') (screen_position n r')) in
    let area := reference_area ct / (INR (n + 1) * INR (n + 1)) in 2 * spread ct / (INR (n + 1) * INR (n + 1)) <= a * a ->
    exists v, nth_error m (i + global_size (fs_space test) * j) = Some v /\ relatively_near (spread ct / (INR (n + 1) * INR (n + 1)) / (a * a)) (area * area / (4 * PI * a)) v.
Proof. exact screen_distant. Qed.
Print Assumptions C115_screens.

(** From level 2 on there are cells of the sphere that are far enough from each other, *)
Example C115_sphere_example : forall level id e, (2 <= level)%nat -> exists b X (test : fspace R R) deg pts wmod,
  regular_sphere real_numbers level 1 = Ok b /\ fs_grid test = built_grid id Triangle b /\
  dense_setting X wmod (laplace_single_layer (newton e)) (after [SetBatch 3]) deg pts Triangle test test /\
  positive_externals (Rle 0) X /\ constants reals 1 test /\ interior_family (g_types (fs_grid test) 2) (fs_family test) /\
  flat_cells X (built_grid id Triangle b) b /\ inside_rules X Triangle /\ exact_linear X Triangle /\
  exists t s p q r p' q' r', corners_of b t p q r /\ corners_of b s p' q' r' /\
    128 / (3 * (4 ^ level + 2)) <= distance (centre Triangle p q r) (centre Triangle p' q' r') * distance (centre Triangle p q r) (centre Triangle p' q' r').
Proof. exact sphere_moment_example. Qed.

(** and of a screen with at least four squares on a side. *)
Example C115_screen_example : forall n t id e, (4 <= n)%nat -> t = Triangle \/ t = Quadrilateral -> exists b X (test : fspace R R) deg pts wmod,
  screen n t b /\ fs_grid test = built_grid id t b /\ flat_screen n X (built_grid id t b) b /\ inside_rules X t /\ exact_linear X t /\
  dense_setting X wmod (laplace_single_layer (newton e)) (after [SetBatch 3]) deg pts t test test /\
  positive_externals (Rle 0) X /\ constants reals 1 test /\ interior_family (g_types (fs_grid test) 2) (fs_family test) /\
  exists c s p q r p' q' r', corner b c 0 p /\ corner b c 1 q /\ corner b c 2 r /\ corner b s 0 p' /\ corner b s 1 q' /\ corner b s 2 r' /\
    let a := distance (centre t (screen_position n p) (screen_position n q) (screen_position n r)) (centre t (screen_position n p') (screen_position n q') (screen_position n r')) in
    2 * spread t / (INR (n + 1) * INR (n + 1)) <= a * a.
Proof. exact screen_moment_example. Qed.
