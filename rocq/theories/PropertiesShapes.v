(** * Properties C42-C48 and C53: the built-in shapes *)
From Coq Require Import Reals.
From Verif Require Import Base Topology Shapes SpecShapes SphereResults SpecSphere SphereTiling SpecScreen DofExamples Options Adjacency SpecAdjacency ShapesResults ShapesExamples.

(** C42: numbers of points, cells and edges; the points and cells are numbered
    without gaps and all points are used. *)
Theorem C42_sphere_built : forall R L, exists b, regular_sphere R L 1 = Ok b.
Proof. exact sphere_exists. Qed.
Print Assumptions C42_sphere_built.

Theorem C42_sphere_counts : forall R L b, regular_sphere R L 1 = Ok b ->
  map fst (b_points b) = seq 0 (2 + 4 ^ (L + 1)) /\ map fst (b_cells b) = seq 0 (8 * 4 ^ L) /\
  sphere_point_capacity L = length (b_points b) /\ sphere_cell_capacity L = length (b_cells b) /\
  (forall c v, In c (cells_of b) -> In v c -> v < length (b_points b)) /\
  (forall v, v < length (b_points b) -> exists c, In c (cells_of b) /\ In v c) /\
  (forall id, ent_count (built_grid id Triangle b) 1 = 12 * 4 ^ L).
Proof. exact sphere_counts. Qed.
Print Assumptions C42_sphere_counts.

(** ... and the grid has no cells of another type. *)
Theorem C42_types : forall R L b id u, regular_sphere R L 1 = Ok b ->
  g_count (built_grid id Triangle b) u = match u with Point => 2 + 4 ^ (L + 1) | Interval => 12 * 4 ^ L | Triangle => 8 * 4 ^ L | _ => 0 end.
Proof. exact sphere_types. Qed.
Print Assumptions C42_types.

(** C43: closed, oriented, conforming. *)
Theorem C43_closed_surface : forall R L b, regular_sphere R L 1 = Ok b ->
  (forall c, In c (cells_of b) -> length c = 3 /\ NoDup c) /\
  (forall i c u v, nth_error (cells_of b) i = Some c -> In (u, v) (directed_edges c) ->
     exists j c', j <> i /\ nth_error (cells_of b) j = Some c' /\ In (v, u) (directed_edges c') /\
       forall k d, nth_error (cells_of b) k = Some d -> In u d -> In v d -> k = i \/ k = j) /\
  (forall id, wf_grid (built_grid id Triangle b) /\ conforming (built_grid id Triangle b)).
Proof. exact sphere_closed. Qed.
Print Assumptions C43_closed_surface.

(** Non-vacuity: one refinement. *)
Example C42_C43_level_one : exists b, regular_sphere no_numbers 1 1 = Ok b /\ length (b_points b) = 18 /\ length (b_cells b) = 32 /\
  firstn 8 (cells_of b) = [[0; 8; 7]; [1; 6; 8]; [2; 7; 6]; [6; 7; 8]; [0; 7; 10]; [2; 9; 7]; [3; 10; 9]; [9; 10; 7]] /\
  In (8, 7) (directed_edges [0; 8; 7]) /\ In (7, 8) (directed_edges [6; 7; 8]) /\
  ent_count (built_grid 0 Triangle b) 1 = 48.
Proof. exact sphere1. Qed.

(** C45 is false: every degree other than 1 panics. *)
Theorem C45_degree_refuted : exists level degree, forall R, regular_sphere R level degree = Panic.
Proof. exact sphere_degree_refuted. Qed.
Print Assumptions C45_degree_refuted.

Theorem C45_only_degree_one : forall R L degree, degree <> 1 -> regular_sphere R L degree = Panic.
Proof. exact sphere_other_degree. Qed.
Print Assumptions C45_only_degree_one.

(** C47: numbering and topology of the screens. *)
Theorem C47_triangles_topology : forall n, 0 < n -> exists b, screen_triangles n = Ok b /\
  map fst (b_points b) = seq 0 ((n + 1) * (n + 1)) /\ map fst (b_cells b) = seq 0 (2 * n * n) /\
  NoDup (points_of b) /\
  (forall c v, In c (cells_of b) -> In v c -> v < length (b_points b)) /\
  (forall id, wf_grid (built_grid id Triangle b) /\ conforming (built_grid id Triangle b)).
Proof. exact triangles_topology. Qed.
Print Assumptions C47_triangles_topology.

Theorem C47_quadrilaterals_topology : forall n, 0 < n -> exists b, screen_quadrilaterals n = Ok b /\
  map fst (b_points b) = seq 0 ((n + 1) * (n + 1)) /\ map fst (b_cells b) = seq 0 (n * n) /\
  NoDup (points_of b) /\
  (forall c v, In c (cells_of b) -> In v c -> v < length (b_points b)) /\
  (forall id, wf_grid (built_grid id Quadrilateral b) /\ conforming (built_grid id Quadrilateral b)).
Proof. exact quads_topology. Qed.
Print Assumptions C47_quadrilaterals_topology.

Theorem C47_types : forall n id u, 0 < n ->
  (exists b, screen_triangles n = Ok b /\ g_count (built_grid id Triangle b) Triangle = 2 * n * n /\
     (u <> Point -> u <> Interval -> u <> Triangle -> g_count (built_grid id Triangle b) u = 0)) /\
  (exists b, screen_quadrilaterals n = Ok b /\ g_count (built_grid id Quadrilateral b) Quadrilateral = n * n /\
     (u <> Point -> u <> Interval -> u <> Quadrilateral -> g_count (built_grid id Quadrilateral b) u = 0)).
Proof. exact screen_types. Qed.
Print Assumptions C47_types.

Theorem C47_no_cells : screen_triangles 0 = Panic /\ screen_quadrilaterals 0 = Panic.
Proof. exact screen_zero. Qed.
Print Assumptions C47_no_cells.

Example C47_small_screens : exists b, screen_quadrilaterals 2 = Ok b /\
  cells_of b = [[0; 1; 3; 4]; [1; 2; 4; 5]; [3; 4; 6; 7]; [4; 5; 7; 8]] /\ length (b_points b) = 9.
Proof. exact quads2_example. Qed.

(** C48: on the built-in shapes every touching pair has a rule, and the look-up of
    the rules succeeds. *)
Theorem C48_rules_exist : forall g t s, shape_grid g -> t < ent_count g 2 -> s < ent_count g 2 -> touch g t s -> has_rule g t s.
Proof. exact shape_rules. Qed.
Print Assumptions C48_rules_exist.

Theorem C48_lookup_succeeds : forall D (make : cell_type -> cell_type -> vpairs -> nat -> res D) wmod o g deg,
  shape_grid g -> has_degrees o (g_types g 2) deg ->
  (forall t s p, In t (g_types g 2) -> In s (g_types g 2) -> In p (possible_pairs t s) -> exists d, make t s p (deg t s) = Ok d) ->
  0 < get_batch_size o -> get_batch_size o < wmod -> pairs_fit wmod g ->
  exists st blocks, singular_rules make o (g_types g 2) = Ok st /\ singular_blocks wmod st o g = Ok blocks.
Proof. exact shape_lookup. Qed.
Print Assumptions C48_lookup_succeeds.

Example C48_hypotheses_met : shape_grid screen2 /\ has_degrees default_options (g_types screen2 2) (fun _ _ => 4) /\
  pairs_fit 256 screen2 /\ touch screen2 0 1.
Proof. exact screen2_lookup. Qed.

(** ** Geometry, over the real numbers *)
Local Open Scope R_scope.

(** C44: all points have distance 1 from the origin; the normal that belongs to the
    order of the vertices points outwards. *)
Theorem C44_unit_points_outward_normals : forall L, exists b : builder vec,
  regular_sphere real_numbers L 1 = Ok b /\
  (forall p, In p (points_of b) -> inner p p = 1) /\
  (forall c i j k p q r, In c (cells_of b) -> c = [i; j; k] ->
     nth_error (points_of b) i = Some p -> nth_error (points_of b) j = Some q -> nth_error (points_of b) k = Some r ->
     forall x, In x [p; q; r] -> 0 < inner x (normal p q r)).
Proof. exact sphere_points_and_normals. Qed.
Print Assumptions C44_unit_points_outward_normals.

(** C53: every ray from the origin meets a cell, and if it meets two cells then in the
    same point of a common face; all points are different. *)
Theorem C53_tessellation : forall L, exists b : builder vec,
  regular_sphere real_numbers L 1 = Ok b /\
  (forall x, exists i c w, nth_error (cells_of b) i = Some c /\ in_cone (points_of b) c w x) /\
  (forall i j c c' w w' x, nth_error (cells_of b) i = Some c -> nth_error (cells_of b) j = Some c' ->
     in_cone (points_of b) c w x -> in_cone (points_of b) c' w' x ->
     (forall v, w v = w' v) /\ (forall v, w v <> 0 -> In v c /\ In v c')).
Proof. exact sphere_tessellation. Qed.
Print Assumptions C53_tessellation.

Theorem C53_points_differ : forall L, exists b : builder vec,
  regular_sphere real_numbers L 1 = Ok b /\ NoDup (points_of b).
Proof. exact sphere_points_differ. Qed.
Print Assumptions C53_points_differ.

Example C44_level_one : exists b : builder vec, regular_sphere real_numbers 1 1 = Ok b /\
  nth_error (points_of b) 6 = Some (edge_midpoint real_numbers (1, 0, 0) (0, 1, 0)) /\
  edge_midpoint real_numbers (1, 0, 0) (0, 1, 0) = (/ sqrt 2, / sqrt 2, 0) /\
  inner (1, 0, 0) (normal (0, 0, 1) (1, 0, 0) (0, 1, 0)) = 1.
Proof. exact sphere_geometry1. Qed.

Example C53_octahedron : exists b : builder vec, regular_sphere real_numbers 0 1 = Ok b /\
  (exists w, in_cone (points_of b) [0; 1; 2]%nat w (1, 1, 1) /\ w 0%nat = 1) /\
  (exists w, in_cone (points_of b) [0; 1; 2]%nat w (1, 1, 0) /\ w 0%nat = 0) /\
  (exists w, in_cone (points_of b) [5; 2; 1]%nat w (1, 1, 0) /\ w 5%nat = 0) /\
  (forall w, ~ in_cone (points_of b) [5; 2; 1]%nat w (1, 1, 1)).
Proof. exact octahedron_directions. Qed.

(** C46 is false: [(1, 1, 0)] is not in any cell. *)
Theorem C46_unit_square_refuted : exists n b bq p,
  screen_triangles n = Ok b /\ screen_quadrilaterals n = Ok bq /\ in_square 1 p /\
  (forall c w, In c (cells_of b) -> ~ in_triangle (screen_positions n b) c w p) /\
  (forall c w, In c (cells_of bq) -> ~ in_quadrilateral (screen_positions n bq) c w p).
Proof. exact unit_square_refuted. Qed.
Print Assumptions C46_unit_square_refuted.

(** C46 (what holds), C47: the triangles tile the square with side n / (n + 1): a point
    is in some cell exactly if it is in the square, in two cells only as a point of a
    common face; twice the area of each cell is 1 / (n + 1)^2, with the normal along
    the third axis. *)
Theorem C47_triangles_tile : forall n b, screen_triangles n = Ok b ->
  (forall x, (exists c w, In c (cells_of b) /\ in_triangle (screen_positions n b) c w x) <-> in_square (INR n / INR (n + 1)) x) /\
  (forall c c' w w' x, In c (cells_of b) -> In c' (cells_of b) ->
     in_triangle (screen_positions n b) c w x -> in_triangle (screen_positions n b) c' w' x ->
     (forall v, w v = w' v) /\ forall v, w v <> 0 -> In v c /\ In v c') /\
  (forall c i j k p q r, In c (cells_of b) -> c = [i; j; k] ->
     nth_error (screen_positions n b) i = Some p -> nth_error (screen_positions n b) j = Some q -> nth_error (screen_positions n b) k = Some r ->
     normal p q r = (0, 0, / INR (n + 1) * / INR (n + 1))).
Proof. exact triangles_tile. Qed.
Print Assumptions C47_triangles_tile.

Theorem C47_quadrilaterals_tile : forall n b, screen_quadrilaterals n = Ok b ->
  (forall x, (exists c w, In c (cells_of b) /\ in_quadrilateral (screen_positions n b) c w x) <-> in_square (INR n / INR (n + 1)) x) /\
  (forall c c' w w' x, In c (cells_of b) -> In c' (cells_of b) ->
     in_quadrilateral (screen_positions n b) c w x -> in_quadrilateral (screen_positions n b) c' w' x ->
     (forall v, w v = w' v) /\ forall v, w v <> 0 -> In v c /\ In v c') /\
  (forall c i j k l p q r s, In c (cells_of b) -> c = [i; j; k; l] ->
     nth_error (screen_positions n b) i = Some p -> nth_error (screen_positions n b) j = Some q ->
     nth_error (screen_positions n b) k = Some r -> nth_error (screen_positions n b) l = Some s ->
     vsub q p = (/ INR (n + 1), 0, 0) /\ vsub r p = (0, / INR (n + 1), 0) /\ vsub s p = (/ INR (n + 1), / INR (n + 1), 0)).
Proof. exact quads_tile. Qed.
Print Assumptions C47_quadrilaterals_tile.

Example C47_screen2 : screen_triangles 2 = Ok screen2_builder /\
  nth_error (cells_of screen2_builder) 0 = Some [0; 1; 4]%nat /\
  nth_error (screen_positions 2 screen2_builder) 4 = Some (INR 1 / INR 3, INR 1 / INR 3, 0) /\
  in_square (INR 2 / INR (2 + 1)) (2 / 9, 1 / 9, 0) /\
  exists w, in_triangle (screen_positions 2 screen2_builder) [0; 1; 4]%nat w (2 / 9, 1 / 9, 0) /\ w 0%nat = 1 / 3 /\ w 4%nat = 1 / 3.
Proof. exact screen2_geometry. Qed.
