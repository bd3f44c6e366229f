(** * Properties C78 and C79: spaces and matrices on the built-in shapes *)
From Verif Require Import Base BaseFacts Topology TopologyFacts DofMap SpecDof DofExamples Process Space SpecSpace Shapes SpecShapes ShapesExamples DimensionResults
  Options SpecOptions Adjacency SpecAdjacency Scalar Integrand CellPair Operators SpecLocal LocalExamples Interleave Assembly SpecAssembly AssemblyExamples
  SpecDistributed SpecShapeSpaces ShapeSpacesResults ShapeSpacesExamples.

(** C78: [global_size] of the continuous space of degree [p] on the sphere, however
    the grid is distributed. *)
Theorem C78_sphere : forall R L b i p N g M dm eager sp r,
  regular_sphere R L 1 = Ok b -> 1 <= p ->
  partition N (built_grid i Triangle b) g M -> wf_dist N g (lagrange p) -> dofmaps N g (lagrange p) dm -> creates N eager dm sp -> r < N ->
  global_size (sp r) = p * p * 4 ^ (L + 1) + 2.
Proof. exact sphere_dimension. Qed.
Print Assumptions C78_sphere.

(** ... and on the screens. *)
Theorem C78_triangles : forall n b i p N g M dm eager sp r,
  screen_triangles n = Ok b -> 1 <= p ->
  partition N (built_grid i Triangle b) g M -> wf_dist N g (lagrange p) -> dofmaps N g (lagrange p) dm -> creates N eager dm sp -> r < N ->
  global_size (sp r) = (p * n + 1) * (p * n + 1).
Proof. exact triangles_dimension. Qed.
Print Assumptions C78_triangles.

Theorem C78_quadrilaterals : forall n b i p N g M dm eager sp r,
  screen_quadrilaterals n = Ok b -> 1 <= p ->
  partition N (built_grid i Quadrilateral b) g M -> wf_dist N g (lagrange p) -> dofmaps N g (lagrange p) dm -> creates N eager dm sp -> r < N ->
  global_size (sp r) = (p * n + 1) * (p * n + 1).
Proof. exact quads_dimension. Qed.
Print Assumptions C78_quadrilaterals.

(** Discontinuous spaces. *)
Theorem C78_discontinuous : forall fam N g M dm eager sp r,
  (forall t, wf_family [t] fam) -> (forall t, interior_family [t] fam) -> wf_dist N g fam -> dofmaps N g fam dm -> creates N eager dm sp -> r < N ->
  (forall R L b i, regular_sphere R L 1 = Ok b -> partition N (built_grid i Triangle b) g M -> global_size (sp r) = 8 * 4 ^ L * el_dim (fam Triangle)) /\
  (forall n b i, screen_triangles n = Ok b -> partition N (built_grid i Triangle b) g M -> global_size (sp r) = 2 * n * n * el_dim (fam Triangle)) /\
  (forall n b i, screen_quadrilaterals n = Ok b -> partition N (built_grid i Quadrilateral b) g M -> global_size (sp r) = n * n * el_dim (fam Quadrilateral)).
Proof. exact discontinuous_dimension. Qed.
Print Assumptions C78_discontinuous.

(** The numbers of vertices, edges and cells behind these. *)
Theorem C78_entities :
  (forall R L b i, regular_sphere R L 1 = Ok b -> ent_count (built_grid i Triangle b) 0 = 4 ^ (L + 1) + 2 /\
     ent_count (built_grid i Triangle b) 1 = 12 * 4 ^ L /\ ent_count (built_grid i Triangle b) 2 = 8 * 4 ^ L) /\
  (forall n b i, screen_triangles n = Ok b -> ent_count (built_grid i Triangle b) 0 = (n + 1) * (n + 1) /\
     ent_count (built_grid i Triangle b) 1 = 3 * n * n + 2 * n /\ ent_count (built_grid i Triangle b) 2 = 2 * n * n) /\
  (forall n b i, screen_quadrilaterals n = Ok b -> ent_count (built_grid i Quadrilateral b) 0 = (n + 1) * (n + 1) /\
     ent_count (built_grid i Quadrilateral b) 1 = 2 * n * (n + 1) /\ ent_count (built_grid i Quadrilateral b) 2 = n * n).
Proof. exact entity_counts. Qed.
Print Assumptions C78_entities.

(** Non-vacuity: every shape on every number of processes, and some computed sizes. *)
Example C78_hypotheses_met :
  (forall G N fam owner, shape_grid G -> standard fam -> 0 < N -> (forall d e, owner d e < N) ->
    partition N G (replicate G owner) (fun _ _ e => e) /\ wf_dist N (replicate G owner) fam /\
    exists dm sp, dofmaps N (replicate G owner) fam dm /\ creates N buffered dm sp) /\
  sizes (regular_sphere no_numbers 0 1) Triangle = [6; 18; 38; 66] /\ sizes (regular_sphere no_numbers 1 1) Triangle = [18; 66; 146; 258] /\
  sizes (screen_triangles 2) Triangle = [9; 25; 49; 81] /\ sizes (screen_quadrilaterals 2) Quadrilateral = [9; 25; 49; 81].
Proof. exact (conj dimension_example computed_sizes). Qed.

(** C79: on one process there is a space for every shape and every family. *)
Theorem C79_spaces : forall (T R : Type) G fam components basis,
  shape_grid G -> standard fam -> (forall t, 0 < components t) ->
  exists fs : fspace T R, made_on G fam fs /\ fs_components fs = components /\ fs_basis fs = basis.
Proof. exact spaces_exist. Qed.
Print Assumptions C79_spaces.

(** Every operator is assembled for every two of these spaces, after any setting of
    the options for which there are rules; nothing fails. *)
Theorem C79_assembled : forall (T R : Type) (S : scalar T R) (X : externals R) wmod (O : operator T R) calls G tf sf test trial t rt,
  shape_grid G -> standard tf -> standard sf -> made_on G tf test -> made_on G sf trial ->
  g_types G 2 = [t] -> shipped S O -> proper_rules X -> rules_exist X t (after calls) ->
  0 < get_batch_size (after calls) < wmod -> 2 * ent_count G 2 * ent_count G 2 <= wmod -> legal_runtime (s_add S) rt ->
  (exists m, assemble S X rt wmod O (after calls) trial test = Ok m /\ length m = global_size (fs_space test) * global_size (fs_space trial)) /\
  exists sm, assemble_singular S X rt wmod O (after calls) trial test = Ok sm.
Proof. exact shapes_assemble. Qed.
Print Assumptions C79_assembled.

(** The hypotheses of the other properties of matrices (C32 and the like) hold. *)
Theorem C79_setting : forall (T R : Type) (S : scalar T R) (X : externals R) wmod (O : operator T R) calls G tf sf test trial t,
  shape_grid G -> standard tf -> standard sf -> made_on G tf test -> made_on G sf trial ->
  g_types G 2 = [t] -> shipped S O -> proper_rules X -> rules_exist X t (after calls) ->
  0 < get_batch_size (after calls) < wmod -> 2 * ent_count G 2 * ent_count G 2 <= wmod ->
  exists deg pts, dense_setting X wmod O (after calls) deg pts t test trial.
Proof. exact made_dense. Qed.
Print Assumptions C79_setting.

(** The sizes of the matrices. *)
Theorem C79_sizes : forall (T R : Type) G fam (fs : fspace T R), shape_grid G -> standard fam -> made_on G fam fs ->
  (forall Rn L b i p, G = built_grid i Triangle b -> regular_sphere Rn L 1 = Ok b -> 1 <= p -> fam = lagrange p -> global_size (fs_space fs) = p * p * 4 ^ (L + 1) + 2) /\
  (forall n b i p, G = built_grid i Triangle b -> screen_triangles n = Ok b -> 1 <= p -> fam = lagrange p -> global_size (fs_space fs) = (p * n + 1) * (p * n + 1)) /\
  (forall n b i p, G = built_grid i Quadrilateral b -> screen_quadrilaterals n = Ok b -> 1 <= p -> fam = lagrange p -> global_size (fs_space fs) = (p * n + 1) * (p * n + 1)) /\
  (forall n, fam = interior_only n -> global_size (fs_space fs) = ent_count G 2 * n (hd Point (g_types G 2))).
Proof. exact made_size. Qed.
Print Assumptions C79_sizes.

Example C79_hypotheses_met : let calls := [SetRegular Triangle 2; SetSingular (Triangle, Triangle) 2; SetBatch 3] in
  shape_grid screen2 /\ standard (lagrange 2) /\ standard (interior_only (fun _ => 1)) /\
  made_on screen2 (lagrange 2) (make_space screen2 (lagrange 2)) /\ made_on screen2 (interior_only (fun _ => 1)) screen2_dp0 /\
  g_types screen2 2 = [Triangle] /\ shipped qc_scalar demo_op /\ proper_rules demo_externals /\ rules_exist demo_externals Triangle (after calls) /\
  0 < get_batch_size (after calls) < 256 /\ 2 * ent_count screen2 2 * ent_count screen2 2 <= 256 /\ legal_runtime (s_add qc_scalar) demo_rt /\
  global_size (fs_space (make_space screen2 (lagrange 2))) = 25 /\ global_size (fs_space screen2_dp0) = 8.
Proof. exact shapes_example. Qed.
