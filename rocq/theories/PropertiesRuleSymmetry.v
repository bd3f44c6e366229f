(** * C135: entries of cells that do not touch and all symmetries of the grid *)
From Coq Require Import Reals Permutation.
From Verif Require Import Base Topology DofMap Process Space SpecSpace Options SpecOptions Adjacency SpecAdjacency Scalar Integrand CellPair Operators SpecLocal Interleave Assembly SpecAssembly
  AssemblyResults SpecTransfer SpecScalars SpecAlgebra SpecRounding RoundingModels SpecBroken SpecDof SpecGalerkin SpecMeasure Shapes SpecShapes SpecSphere SpecScreen SpecWidth SpecSymmetry SpecTurns SpecShift SpecToeplitz SpecShare SpecWaves WaveLimits SpecFrame SpecDecay SpecMoments
  SpecDegree DecayExamples SpecRuleSymmetry RuleSymmetryResults RuleSymmetryExamples RuleSymmetryScreen RuleSymmetryWaves RuleSymmetryQuads RuleSymmetryNeeded.

Local Open Scope R_scope.

(** With a regular rule that has the symmetry of the triangle, the entry of two cells that do not touch is
    the entry of their images, for all symmetries of the octahedron and also if the order of the vertices changes. *)
Theorem C135_sphere : forall (X : externals R) level id wmod e o deg pts (b : builder vec) (test trial : fspace R R),
  regular_sphere real_numbers level 1 = Ok b -> fs_grid test = built_grid id Triangle b -> fs_grid trial = built_grid id Triangle b ->
  dense_setting X wmod (laplace_single_layer (newton e)) o deg pts Triangle test trial -> constants reals 1 test -> constants reals 1 trial ->
  interior_family (g_types (fs_grid test) 2) (fs_family test) -> interior_family (g_types (fs_grid trial) 2) (fs_family trial) ->
  flat_cells X (built_grid id Triangle b) b -> symmetric_simplex X (pts Triangle) -> forall rt, legal_runtime Rplus rt ->
  exists m, assemble reals X rt wmod (laplace_single_layer (newton e)) o trial test = Ok m /\
  forall k f g h t s i j p q r p' q' r', corners_of b t p q r -> corners_of b s p' q' r' -> ~ touching test trial t s -> List.In i (dofs_at test t) -> List.In j (dofs_at trial s) ->
    forall t1 s1 i1 j1 p1 q1 r1 p1' q1' r1', corners_of b t1 p1 q1 r1 -> corners_of b s1 p1' q1' r1' ->
    Permutation [p1; q1; r1] (map (octahedral k f g h) [p; q; r]) -> Permutation [p1'; q1'; r1'] (map (octahedral k f g h) [p'; q'; r']) ->
    List.In i1 (dofs_at test t1) -> List.In j1 (dofs_at trial s1) ->
    exists v, nth_error m (i + global_size (fs_space test) * j) = Some v /\ nth_error m (i1 + global_size (fs_space test) * j1) = Some v.
Proof. exact sphere_entries_moved. Qed.
Print Assumptions C135_sphere.

(** The same for the screens of triangles and the symmetries of the square. *)
Theorem C135_screens : forall (X : externals R) n id wmod e o deg pts (b : builder (nat * nat)) (test trial : fspace R R),
  screen n Triangle b -> fs_grid test = built_grid id Triangle b -> fs_grid trial = built_grid id Triangle b ->
  dense_setting X wmod (laplace_single_layer (newton e)) o deg pts Triangle test trial -> constants reals 1 test -> constants reals 1 trial ->
  interior_family (g_types (fs_grid test) 2) (fs_family test) -> interior_family (g_types (fs_grid trial) 2) (fs_family trial) ->
  flat_screen n X (built_grid id Triangle b) b -> symmetric_simplex X (pts Triangle) -> forall rt, legal_runtime Rplus rt ->
  exists m, assemble reals X rt wmod (laplace_single_layer (newton e)) o trial test = Ok m /\
  forall swap f g h t s i j p q r p' q' r', corner b t 0 p -> corner b t 1 q -> corner b t 2 r -> corner b s 0 p' -> corner b s 1 q' -> corner b s 2 r' ->
    ~ touching test trial t s -> List.In i (dofs_at test t) -> List.In j (dofs_at trial s) ->
    forall t1 s1 i1 j1 p1 q1 r1 p1' q1' r1', corner b t1 0 p1 -> corner b t1 1 q1 -> corner b t1 2 r1 -> corner b s1 0 p1' -> corner b s1 1 q1' -> corner b s1 2 r1' ->
    Permutation (map (screen_position n) [p1; q1; r1]) (map (square_map (INR n / INR (n + 1)) swap f g h) (map (screen_position n) [p; q; r])) ->
    Permutation (map (screen_position n) [p1'; q1'; r1']) (map (square_map (INR n / INR (n + 1)) swap f g h) (map (screen_position n) [p'; q'; r'])) ->
    List.In i1 (dofs_at test t1) -> List.In j1 (dofs_at trial s1) ->
    exists v, nth_error m (i + global_size (fs_space test) * j) = Some v /\ nth_error m (i1 + global_size (fs_space test) * j1) = Some v.
Proof. exact screen_entries_moved. Qed.
Print Assumptions C135_screens.

(** The Helmholtz single layer operator with any real wavenumber. *)
Theorem C135_sphere_helmholtz : forall (X : externals R) level id wmod e kappa o deg pts (b : builder vec) (test trial : fspace R R) (test' trial' : fspace (R * R) R),
  regular_sphere real_numbers level 1 = Ok b -> fs_grid test = built_grid id Triangle b -> fs_grid trial = built_grid id Triangle b ->
  dense_setting X wmod (laplace_single_layer (newton e)) o deg pts Triangle test trial -> mapped_space embed_real test test' -> mapped_space embed_real trial trial' -> constants reals 1 test -> constants reals 1 trial ->
  interior_family (g_types (fs_grid test) 2) (fs_family test) -> interior_family (g_types (fs_grid trial) 2) (fs_family trial) ->
  flat_cells X (built_grid id Triangle b) b -> symmetric_simplex X (pts Triangle) -> forall rt, legal_runtime (s_add complexes) rt ->
  exists m, assemble complexes X rt wmod (helmholtz_single_layer (waves e) kappa) o trial' test' = Ok m /\
  forall k f g h t s i j p q r p' q' r', corners_of b t p q r -> corners_of b s p' q' r' -> ~ touching test trial t s -> List.In i (dofs_at test t) -> List.In j (dofs_at trial s) ->
    forall t1 s1 i1 j1 p1 q1 r1 p1' q1' r1', corners_of b t1 p1 q1 r1 -> corners_of b s1 p1' q1' r1' ->
    Permutation [p1; q1; r1] (map (octahedral k f g h) [p; q; r]) -> Permutation [p1'; q1'; r1'] (map (octahedral k f g h) [p'; q'; r']) ->
    List.In i1 (dofs_at test t1) -> List.In j1 (dofs_at trial s1) ->
    exists v, nth_error m (i + global_size (fs_space test) * j) = Some v /\ nth_error m (i1 + global_size (fs_space test) * j1) = Some v.
Proof. exact sphere_waves_moved. Qed.
Print Assumptions C135_sphere_helmholtz.

Theorem C135_screens_helmholtz : forall (X : externals R) n id wmod e kappa o deg pts (b : builder (nat * nat)) (test trial : fspace R R) (test' trial' : fspace (R * R) R),
  screen n Triangle b -> fs_grid test = built_grid id Triangle b -> fs_grid trial = built_grid id Triangle b ->
  dense_setting X wmod (laplace_single_layer (newton e)) o deg pts Triangle test trial -> mapped_space embed_real test test' -> mapped_space embed_real trial trial' -> constants reals 1 test -> constants reals 1 trial ->
  interior_family (g_types (fs_grid test) 2) (fs_family test) -> interior_family (g_types (fs_grid trial) 2) (fs_family trial) ->
  flat_screen n X (built_grid id Triangle b) b -> symmetric_simplex X (pts Triangle) -> forall rt, legal_runtime (s_add complexes) rt ->
  exists m, assemble complexes X rt wmod (helmholtz_single_layer (waves e) kappa) o trial' test' = Ok m /\
  forall swap f g h t s i j p q r p' q' r', corner b t 0 p -> corner b t 1 q -> corner b t 2 r -> corner b s 0 p' -> corner b s 1 q' -> corner b s 2 r' ->
    ~ touching test trial t s -> List.In i (dofs_at test t) -> List.In j (dofs_at trial s) ->
    forall t1 s1 i1 j1 p1 q1 r1 p1' q1' r1', corner b t1 0 p1 -> corner b t1 1 q1 -> corner b t1 2 r1 -> corner b s1 0 p1' -> corner b s1 1 q1' -> corner b s1 2 r1' ->
    Permutation (map (screen_position n) [p1; q1; r1]) (map (square_map (INR n / INR (n + 1)) swap f g h) (map (screen_position n) [p; q; r])) ->
    Permutation (map (screen_position n) [p1'; q1'; r1']) (map (square_map (INR n / INR (n + 1)) swap f g h) (map (screen_position n) [p'; q'; r'])) ->
    List.In i1 (dofs_at test t1) -> List.In j1 (dofs_at trial s1) ->
    exists v, nth_error m (i + global_size (fs_space test) * j) = Some v /\ nth_error m (i1 + global_size (fs_space test) * j1) = Some v.
Proof. exact screen_waves_moved. Qed.
Print Assumptions C135_screens_helmholtz.

(** Screens of quadrilaterals and rules with the symmetry of the square. *)
Theorem C135_quadrilaterals : forall (X : externals R) n id wmod e o deg pts (b : builder (nat * nat)) (test trial : fspace R R),
  screen n Quadrilateral b -> fs_grid test = built_grid id Quadrilateral b -> fs_grid trial = built_grid id Quadrilateral b ->
  dense_setting X wmod (laplace_single_layer (newton e)) o deg pts Quadrilateral test trial -> constants reals 1 test -> constants reals 1 trial ->
  interior_family (g_types (fs_grid test) 2) (fs_family test) -> interior_family (g_types (fs_grid trial) 2) (fs_family trial) ->
  flat_screen n X (built_grid id Quadrilateral b) b -> symmetric_square X (pts Quadrilateral) -> forall rt, legal_runtime Rplus rt ->
  exists m, assemble reals X rt wmod (laplace_single_layer (newton e)) o trial test = Ok m /\
  forall swap f g h t s i j p q r z p' q' r' z', corner b t 0 p -> corner b t 1 q -> corner b t 2 r -> corner b t 3 z -> corner b s 0 p' -> corner b s 1 q' -> corner b s 2 r' -> corner b s 3 z' ->
    ~ touching test trial t s -> List.In i (dofs_at test t) -> List.In j (dofs_at trial s) ->
    forall t1 s1 i1 j1 p1 q1 r1 z1 p1' q1' r1' z1', corner b t1 0 p1 -> corner b t1 1 q1 -> corner b t1 2 r1 -> corner b t1 3 z1 -> corner b s1 0 p1' -> corner b s1 1 q1' -> corner b s1 2 r1' -> corner b s1 3 z1' ->
    Permutation (map (screen_position n) [p1; q1; r1; z1]) (map (square_map (INR n / INR (n + 1)) swap f g h) (map (screen_position n) [p; q; r; z])) ->
    Permutation (map (screen_position n) [p1'; q1'; r1'; z1']) (map (square_map (INR n / INR (n + 1)) swap f g h) (map (screen_position n) [p'; q'; r'; z'])) ->
    List.In i1 (dofs_at test t1) -> List.In j1 (dofs_at trial s1) ->
    exists v, nth_error m (i + global_size (fs_space test) * j) = Some v /\ nth_error m (i1 + global_size (fs_space test) * j1) = Some v.
Proof. exact quad_entries_moved. Qed.
Print Assumptions C135_quadrilaterals.

Theorem C135_quadrilaterals_helmholtz : forall (X : externals R) n id wmod e kappa o deg pts (b : builder (nat * nat)) (test trial : fspace R R) (test' trial' : fspace (R * R) R),
  screen n Quadrilateral b -> fs_grid test = built_grid id Quadrilateral b -> fs_grid trial = built_grid id Quadrilateral b ->
  dense_setting X wmod (laplace_single_layer (newton e)) o deg pts Quadrilateral test trial -> mapped_space embed_real test test' -> mapped_space embed_real trial trial' -> constants reals 1 test -> constants reals 1 trial ->
  interior_family (g_types (fs_grid test) 2) (fs_family test) -> interior_family (g_types (fs_grid trial) 2) (fs_family trial) ->
  flat_screen n X (built_grid id Quadrilateral b) b -> symmetric_square X (pts Quadrilateral) -> forall rt, legal_runtime (s_add complexes) rt ->
  exists m, assemble complexes X rt wmod (helmholtz_single_layer (waves e) kappa) o trial' test' = Ok m /\
  forall swap f g h t s i j p q r z p' q' r' z', corner b t 0 p -> corner b t 1 q -> corner b t 2 r -> corner b t 3 z -> corner b s 0 p' -> corner b s 1 q' -> corner b s 2 r' -> corner b s 3 z' ->
    ~ touching test trial t s -> List.In i (dofs_at test t) -> List.In j (dofs_at trial s) ->
    forall t1 s1 i1 j1 p1 q1 r1 z1 p1' q1' r1' z1', corner b t1 0 p1 -> corner b t1 1 q1 -> corner b t1 2 r1 -> corner b t1 3 z1 -> corner b s1 0 p1' -> corner b s1 1 q1' -> corner b s1 2 r1' -> corner b s1 3 z1' ->
    Permutation (map (screen_position n) [p1; q1; r1; z1]) (map (square_map (INR n / INR (n + 1)) swap f g h) (map (screen_position n) [p; q; r; z])) ->
    Permutation (map (screen_position n) [p1'; q1'; r1'; z1']) (map (square_map (INR n / INR (n + 1)) swap f g h) (map (screen_position n) [p'; q'; r'; z'])) ->
    List.In i1 (dofs_at test t1) -> List.In j1 (dofs_at trial s1) ->
    exists v, nth_error m (i + global_size (fs_space test) * j) = Some v /\ nth_error m (i1 + global_size (fs_space test) * j1) = Some v.
Proof. exact quad_waves_moved. Qed.
Print Assumptions C135_quadrilaterals_helmholtz.

(** The symmetry of the rule is needed: with one point in the second corner of the triangle, the exchange of the
    coordinates changes an entry on every screen with at least three cells per side. *)
Theorem C135_rule_needed : forall n id e, (3 <= n)%nat -> exists b X (test : fspace R R) deg pts wmod m,
  screen n Triangle b /\ fs_grid test = built_grid id Triangle b /\
  dense_setting X wmod (laplace_single_layer (newton e)) (after [SetBatch 3; SetRegular Triangle 1]) deg pts Triangle test test /\
  constants reals 1 test /\ interior_family (g_types (fs_grid test) 2) (fs_family test) /\ flat_screen n X (built_grid id Triangle b) b /\
  x_simplex X Triangle (pts Triangle) = Some (mkQuadrature [1; 0] [1 / 2]) /\ legal_runtime Rplus (sequential Rplus) /\
  assemble reals X (sequential Rplus) wmod (laplace_single_layer (newton e)) (after [SetBatch 3; SetRegular Triangle 1]) test test = Ok m /\
  exists t s i j p q r p' q' r', corner b t 0 p /\ corner b t 1 q /\ corner b t 2 r /\ corner b s 0 p' /\ corner b s 1 q' /\ corner b s 2 r' /\
    ~ touching test test t s /\ List.In i (dofs_at test t) /\ List.In j (dofs_at test s) /\
  exists t1 s1 i1 j1 p1 q1 r1 p1' q1' r1', corner b t1 0 p1 /\ corner b t1 1 q1 /\ corner b t1 2 r1 /\ corner b s1 0 p1' /\ corner b s1 1 q1' /\ corner b s1 2 r1' /\
    Permutation (map (screen_position n) [p1; q1; r1]) (map (square_map (INR n / INR (n + 1)) true false false false) (map (screen_position n) [p; q; r])) /\
    Permutation (map (screen_position n) [p1'; q1'; r1']) (map (square_map (INR n / INR (n + 1)) true false false false) (map (screen_position n) [p'; q'; r'])) /\
    List.In i1 (dofs_at test t1) /\ List.In j1 (dofs_at test s1) /\
    exists v v', nth_error m (i + global_size (fs_space test) * j) = Some v /\ nth_error m (i1 + global_size (fs_space test) * j1) = Some v' /\ v <> v'.
Proof. exact second_corner_differs. Qed.
Print Assumptions C135_rule_needed.

(** Not every rule has the symmetry. *)
Example C135_rule_example : forall X, x_simplex X Triangle 1 = Some (mkQuadrature [1 / 2; 0] [1 / 2]) -> ~ symmetric_simplex X 1.
Proof. exact one_point_not. Qed.

(** The hypotheses are met on every level from the second. *)
Example C135_example : forall level id e, (2 <= level)%nat -> exists b X (test : fspace R R) deg pts wmod,
  regular_sphere real_numbers level 1 = Ok b /\ fs_grid test = built_grid id Triangle b /\
  dense_setting X wmod (laplace_single_layer (newton e)) (after [SetBatch 3; SetRegular Triangle 3]) deg pts Triangle test test /\
  constants reals 1 test /\ interior_family (g_types (fs_grid test) 2) (fs_family test) /\ flat_cells X (built_grid id Triangle b) b /\ symmetric_simplex X (pts Triangle) /\
  exists t s p q r p' q' r', corners_of b t p q r /\ corners_of b s p' q' r' /\ ~ touching test test t s.
Proof. exact sphere_rule_example. Qed.

(** The hypotheses are met on screens with at least three cells per side. *)
Example C135_screens_example : forall n id e, (3 <= n)%nat -> exists b X (test : fspace R R) deg pts wmod,
  screen n Triangle b /\ fs_grid test = built_grid id Triangle b /\
  dense_setting X wmod (laplace_single_layer (newton e)) (after [SetBatch 3; SetRegular Triangle 3]) deg pts Triangle test test /\
  constants reals 1 test /\ interior_family (g_types (fs_grid test) 2) (fs_family test) /\ flat_screen n X (built_grid id Triangle b) b /\ symmetric_simplex X (pts Triangle) /\
  exists t s p q r p' q' r', corner b t 0 p /\ corner b t 1 q /\ corner b t 2 r /\ corner b s 0 p' /\ corner b s 1 q' /\ corner b s 2 r' /\ ~ touching test test t s.
Proof. exact screen_rule_example. Qed.

Example C135_quadrilaterals_example : forall n id e, (3 <= n)%nat -> exists b X (test : fspace R R) deg pts wmod,
  screen n Quadrilateral b /\ fs_grid test = built_grid id Quadrilateral b /\
  dense_setting X wmod (laplace_single_layer (newton e)) (after [SetBatch 3; SetRegular Quadrilateral 5]) deg pts Quadrilateral test test /\
  constants reals 1 test /\ interior_family (g_types (fs_grid test) 2) (fs_family test) /\ flat_screen n X (built_grid id Quadrilateral b) b /\ symmetric_square X (pts Quadrilateral) /\
  exists t s p q r z p' q' r' z', corner b t 0 p /\ corner b t 1 q /\ corner b t 2 r /\ corner b t 3 z /\ corner b s 0 p' /\ corner b s 1 q' /\ corner b s 2 r' /\ corner b s 3 z' /\ ~ touching test test t s.
Proof. exact quad_rule_example. Qed.

(** Every real space has a complex counterpart. *)
Example C135_complex_example : forall fs : fspace R R, mapped_space embed_real fs (complex_space fs).
Proof. exact complex_mapped. Qed.
