(** * Properties C87 and C88: size and form of the cells of the sphere *)
From Coq Require Import Reals Lra.
From Verif Require Import Base BaseFacts Topology Shapes SpecShapes SpecSphere ShapesResults SpecWidth WidthResults SphereShort.

Local Open Scope R_scope.

(** C87: the longest edge at level [L] has the square [6 / (4 ^ L + 2)] ... *)
Theorem C87_longest_edge : forall L b p q, regular_sphere real_numbers L 1 = Ok b -> edge_ends b p q -> chord2 p q <= 6 / (4 ^ L + 2).
Proof. exact longest_edge. Qed.
Print Assumptions C87_longest_edge.

(** ... which the three edges of the cell [4 ^ L - 1] have. *)
Theorem C87_attained : forall L b, regular_sphere real_numbers L 1 = Ok b -> exists p q r,
  corners_of b (4 ^ L - 1) p q r /\ chord2 p q = 6 / (4 ^ L + 2) /\ chord2 q r = 6 / (4 ^ L + 2) /\ chord2 r p = 6 / (4 ^ L + 2).
Proof. exact middle_equilateral. Qed.
Print Assumptions C87_attained.

(** The points of the cells are inside the unit sphere and near it ... *)
Theorem C87_near_sphere : forall L b k p q r s t o, regular_sphere real_numbers L 1 = Ok b -> corners_of b k p q r -> weights s t o ->
  4 ^ L / (4 ^ L + 2) <= inner (point_of p q r s t o) (point_of p q r s t o) <= 1.
Proof. exact near_sphere. Qed.
Print Assumptions C87_near_sphere.

(** ... and no better bound holds. *)
Theorem C87_near_sphere_attained : forall L b, regular_sphere real_numbers L 1 = Ok b -> exists p q r,
  corners_of b (4 ^ L - 1) p q r /\
  inner (point_of p q r (1 / 3) (1 / 3) (1 / 3)) (point_of p q r (1 / 3) (1 / 3) (1 / 3)) = 4 ^ L / (4 ^ L + 2).
Proof. exact near_sphere_attained. Qed.
Print Assumptions C87_near_sphere_attained.

(** There are cells and edges at each level. *)
Example C87_some_cell : forall L, exists b p q r, regular_sphere real_numbers L 1 = Ok b /\ corners_of b (4 ^ L - 1) p q r /\ edge_ends b p q.
Proof. exact some_cell. Qed.

(** C88: the shortest edge at level [L] is a side of a regular polygon with [2 ^ (L + 2)]
    corners on the unit circle ... *)
Theorem C88_shortest_edge : forall L b p q, regular_sphere real_numbers L 1 = Ok b -> edge_ends b p q ->
  4 * (sin (PI / 2 ^ (L + 2)) * sin (PI / 2 ^ (L + 2))) <= chord2 p q.
Proof. exact shortest. Qed.
Print Assumptions C88_shortest_edge.

Theorem C88_attained : forall L b, regular_sphere real_numbers L 1 = Ok b -> exists p q, edge_ends b p q /\
  chord2 p q = 4 * (sin (PI / 2 ^ (L + 2)) * sin (PI / 2 ^ (L + 2))).
Proof. exact shortest_attained. Qed.
Print Assumptions C88_attained.

Theorem C88_shortest_bound : forall L b p q, regular_sphere real_numbers L 1 = Ok b -> edge_ends b p q -> 2 / 4 ^ L <= chord2 p q.
Proof. exact shortest_rational. Qed.
Print Assumptions C88_shortest_bound.

(** ... which is not much shorter than the longest one ... *)
Theorem C88_ratio : forall L b p q p' q', regular_sphere real_numbers L 1 = Ok b -> edge_ends b p q -> edge_ends b p' q' ->
  2 * chord2 p q <= 5 * chord2 p' q'.
Proof. exact ratio_sharp. Qed.
Print Assumptions C88_ratio.

(** ... and the angles of the cells keep away from zero and from two right angles. *)
Theorem C88_angles : forall L b k p q r, regular_sphere real_numbers L 1 = Ok b -> corners_of b k p q r ->
  cosine2_at_most (16 / 25) (vsub q p) (vsub r p) /\ cosine2_at_most (16 / 25) (vsub r q) (vsub p q) /\ cosine2_at_most (16 / 25) (vsub p r) (vsub q r).
Proof. exact angles_sharp. Qed.
Print Assumptions C88_angles.

(** The bound on cosines separates: it fails for directions that are too close. *)
Example C88_bound_separates : cosine2_at_most (16 / 25) (1, 0, 0) (1, 1, 0) /\ ~ cosine2_at_most (16 / 25) (3, 2, 0) (1, 0, 0).
Proof. exact cosine_bound_sharp. Qed.
