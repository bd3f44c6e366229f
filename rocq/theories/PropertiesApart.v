(** * Property C111: cells that are not neighbours have a distance *)
From Coq Require Import Reals.
From Verif Require Import Base Topology Shapes SpecShapes SpecSphere SpecScreen SpecWidth SpecRounding RoundingModels SpecFloatSphere SpecApart Adjacency
  ApartResults ApartScreen ApartSharp.

Local Open Scope R_scope.

(** The sphere: each two points of cells that are not neighbours. *)
Theorem C111_sphere : forall L b id i j, regular_sphere real_numbers L 1 = Ok b ->
  neighbours (built_grid id Triangle b) (built_grid id Triangle b) i j = Ok false ->
  cells_distance (in_triangle (points_of b)) (cells_of b) i j (2 / 5 / 2 ^ L).
Proof. exact sphere_neighbours. Qed.
Print Assumptions C111_sphere.

(** Each two vertices of the sphere, of one cell or not. *)
Theorem C111_sphere_vertices : forall L b, regular_sphere real_numbers L 1 = Ok b -> forall i j p q,
  i <> j -> nth_error (points_of b) i = Some p -> nth_error (points_of b) j = Some q -> 2 / 5 / 2 ^ L <= distance p q.
Proof. exact vertices_apart. Qed.
Print Assumptions C111_sphere_vertices.

(** The sphere in floating point arithmetic with mantissas of [n] bits. *)
Theorem C111_rounded_sphere : forall n L b id i j, (7 <= n)%nat -> 400 * (INR L * 2 ^ L) <= 2 ^ n -> regular_sphere (rounded (fl n)) L 1 = Ok b ->
  neighbours (built_grid id Triangle b) (built_grid id Triangle b) i j = Ok false ->
  cells_distance (in_triangle (points_of b)) (cells_of b) i j (3 / 10 / 2 ^ L).
Proof. exact rounded_neighbours. Qed.
Print Assumptions C111_rounded_sphere.

Theorem C111_rounded_vertices : forall n L b i j p q, (7 <= n)%nat -> 400 * (INR L * 2 ^ L) <= 2 ^ n -> regular_sphere (rounded (fl n)) L 1 = Ok b ->
  i <> j -> nth_error (points_of b) i = Some p -> nth_error (points_of b) j = Some q -> 3 / 10 / 2 ^ L <= distance p q.
Proof. exact rounded_vertices. Qed.
Print Assumptions C111_rounded_vertices.

(** The screens ... *)
Theorem C111_triangles : forall n b id i j, screen_triangles n = Ok b ->
  neighbours (built_grid id Triangle b) (built_grid id Triangle b) i j = Ok false ->
  cells_distance (in_triangle (screen_positions n b)) (cells_of b) i j (sqrt (1 / 2) / INR (n + 1)).
Proof. exact triangles_neighbours. Qed.
Print Assumptions C111_triangles.

Theorem C111_quadrilaterals : forall n b id i j, screen_quadrilaterals n = Ok b ->
  neighbours (built_grid id Quadrilateral b) (built_grid id Quadrilateral b) i j = Ok false ->
  cells_distance (in_quadrilateral (screen_positions n b)) (cells_of b) i j (1 / INR (n + 1)).
Proof. exact quads_neighbours. Qed.
Print Assumptions C111_quadrilaterals.

(** ... where no better bound holds. *)
Theorem C111_triangles_attained : forall n b id, (2 <= n)%nat -> screen_triangles n = Ok b -> exists i j c d w w' x y,
  neighbours (built_grid id Triangle b) (built_grid id Triangle b) i j = Ok false /\ nth_error (cells_of b) i = Some c /\ nth_error (cells_of b) j = Some d /\
  in_triangle (screen_positions n b) c w x /\ in_triangle (screen_positions n b) d w' y /\ distance x y = sqrt (1 / 2) / INR (n + 1).
Proof. exact triangles_attained. Qed.
Print Assumptions C111_triangles_attained.

Theorem C111_quadrilaterals_attained : forall n b id, (3 <= n)%nat -> screen_quadrilaterals n = Ok b -> exists i j c d w w' x y,
  neighbours (built_grid id Quadrilateral b) (built_grid id Quadrilateral b) i j = Ok false /\ nth_error (cells_of b) i = Some c /\ nth_error (cells_of b) j = Some d /\
  in_quadrilateral (screen_positions n b) c w x /\ in_quadrilateral (screen_positions n b) d w' y /\ distance x y = 1 / INR (n + 1).
Proof. exact quads_attained. Qed.
Print Assumptions C111_quadrilaterals_attained.

(** Opposite cells of the sphere at level 1; the levels of C90 for other cases. *)
Example C111_hypotheses_met :
  (exists b, regular_sphere real_numbers 1 1 = Ok b /\ neighbours (built_grid 1 Triangle b) (built_grid 1 Triangle b) 0 24 = Ok false) /\
  (exists b, regular_sphere (rounded (fl 53)) 1 1 = Ok b /\ neighbours (built_grid 1 Triangle b) (built_grid 1 Triangle b) 0 24 = Ok false) /\
  (7 <= 53)%nat /\ 400 * (INR 1 * 2 ^ 1) <= 2 ^ 53.
Proof. exact apart_example. Qed.
