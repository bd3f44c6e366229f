(** * Properties C83 and C84: numbers of colours and of singular contributions on the built-in shapes *)
From Verif Require Import Base Topology DofMap SpecDof DofExamples Process Space SpecSpace Colouring SpecColour Shapes SpecShapes ShapesExamples
  Options SpecOptions Adjacency SpecAdjacency Scalar Integrand CellPair Operators SpecLocal LocalExamples Interleave Assembly SpecAssembly AssemblyExamples
  SpecShapeSpaces ShapeSpacesExamples SpecCounts CountsResults CountsExamples.

(** C83: six vertices of the sphere have four cells, all others six. *)
Theorem C83_valences : forall R L b i v, regular_sphere R L 1 = Ok b -> v < 2 + 4 ^ (L + 1) ->
  exactly (if v <? 6 then 4 else 6) (cell_at_vertex (built_grid i Triangle b) v).
Proof. exact sphere_valences. Qed.
Print Assumptions C83_valences.

(** The number of colours does not grow with refinement. *)
Theorem C83_colours :
  (forall R L b i fam col K, regular_sphere R L 1 = Ok b -> standard fam -> cell_colouring (built_grid i Triangle b) fam = Ok col -> class_count col K -> K <= 13) /\
  (forall n b i fam col K, screen_triangles n = Ok b -> standard fam -> cell_colouring (built_grid i Triangle b) fam = Ok col -> class_count col K -> K <= 13) /\
  (forall n b i fam col K, screen_quadrilaterals n = Ok b -> standard fam -> cell_colouring (built_grid i Quadrilateral b) fam = Ok col -> class_count col K -> K <= 9).
Proof. exact shape_colours. Qed.
Print Assumptions C83_colours.

(** Continuous spaces need at least as many colours as cells meet at a vertex. *)
Theorem C83_colours_least :
  (forall R L b i p col K, regular_sphere R L 1 = Ok b -> 1 <= p -> cell_colouring (built_grid i Triangle b) (lagrange p) = Ok col -> class_count col K ->
     (if L =? 0 then 4 else 6) <= K) /\
  (forall n b i p col K, screen_triangles n = Ok b -> 2 <= n -> 1 <= p -> cell_colouring (built_grid i Triangle b) (lagrange p) = Ok col -> class_count col K -> 6 <= K) /\
  (forall n b i p col K, screen_quadrilaterals n = Ok b -> 2 <= n -> 1 <= p -> cell_colouring (built_grid i Quadrilateral b) (lagrange p) = Ok col -> class_count col K -> 4 <= K).
Proof. exact shape_colours_least. Qed.
Print Assumptions C83_colours_least.

Example C83_hypotheses_met :
  colours (regular_sphere no_numbers 0 1) Triangle = [4; 4; 1] /\ colours (regular_sphere no_numbers 2 1) Triangle = [9; 9; 1] /\
  colours (screen_triangles 1) Triangle = [2; 2; 1] /\ colours (screen_triangles 5) Triangle = [7; 7; 1] /\
  colours (screen_quadrilaterals 1) Quadrilateral = [1; 1; 1] /\ colours (screen_quadrilaterals 5) Quadrilateral = [4; 4; 1].
Proof. exact computed_colours. Qed.

(** C84: the number of touching pairs of cells. *)
Theorem C84_pairs :
  (forall R L b i, regular_sphere R L 1 = Ok b -> exactly (104 * 4 ^ L - 48) (touching_pair (built_grid i Triangle b))) /\
  (forall n b i, screen_triangles n = Ok b -> exactly (26 * n * n + 10 - 32 * n) (touching_pair (built_grid i Triangle b))) /\
  (forall n b i, screen_quadrilaterals n = Ok b -> exactly ((3 * n - 2) * (3 * n - 2)) (touching_pair (built_grid i Quadrilateral b))).
Proof. exact shape_pairs. Qed.
Print Assumptions C84_pairs.

(** The singular part has that number of triplets for every two basis functions. *)
Theorem C84_triplets : forall (T R : Type) (S : scalar T R) (X : externals R) wmod (O : operator T R) calls G tf sf test trial t rt k,
  shape_grid G -> standard tf -> standard sf -> made_on G tf test -> made_on G sf trial ->
  g_types G 2 = [t] -> shipped S O -> proper_rules X -> rules_exist X t (after calls) ->
  0 < get_batch_size (after calls) < wmod -> 26 * ent_count G 2 <= wmod -> legal_runtime (s_add S) rt -> exactly k (touching_pair G) ->
  exists m, assemble_singular_part S X rt wmod O (after calls) (global_size (fs_space test), global_size (fs_space trial)) trial test = Ok m /\
    length (sm_data m) = k * el_dim (tf t) * el_dim (sf t) /\
    length (sm_rows m) = k * el_dim (tf t) * el_dim (sf t) /\ length (sm_cols m) = k * el_dim (tf t) * el_dim (sf t).
Proof. exact (@singular_total). Qed.
Print Assumptions C84_triplets.

(** Assembly needs room for 13 pairs per cell only. *)
Theorem C84_linear_memory : forall (T R : Type) (S : scalar T R) (X : externals R) wmod (O : operator T R) calls G tf sf test trial t rt,
  shape_grid G -> standard tf -> standard sf -> made_on G tf test -> made_on G sf trial ->
  g_types G 2 = [t] -> shipped S O -> proper_rules X -> rules_exist X t (after calls) ->
  0 < get_batch_size (after calls) < wmod -> 26 * ent_count G 2 <= wmod -> legal_runtime (s_add S) rt ->
  (exists m, assemble S X rt wmod O (after calls) trial test = Ok m /\ length m = global_size (fs_space test) * global_size (fs_space trial)) /\
  exists sm, assemble_singular S X rt wmod O (after calls) trial test = Ok sm.
Proof. exact (@linear_memory). Qed.
Print Assumptions C84_linear_memory.

Example C84_hypotheses_met : let calls := [SetRegular Triangle 2; SetSingular (Triangle, Triangle) 2; SetBatch 3] in
  shape_grid screen2 /\ standard (lagrange 2) /\ standard (interior_only (fun _ => 1)) /\
  made_on screen2 (lagrange 2) (make_space screen2 (lagrange 2)) /\ made_on screen2 (interior_only (fun _ => 1)) screen2_dp0 /\
  g_types screen2 2 = [Triangle] /\ shipped qc_scalar demo_op /\ proper_rules demo_externals /\ rules_exist demo_externals Triangle (after calls) /\
  0 < get_batch_size (after calls) < 256 /\ 26 * ent_count screen2 2 <= 256 /\ legal_runtime (s_add qc_scalar) demo_rt /\ exactly 50 (touching_pair screen2) /\
  triplet_count = 50 * 6 * 1.
Proof. exact counts_example. Qed.
