(** * Specification vocabulary for the shapes *)
From Verif Require Import Base Topology Shapes.

(** The edges of a cell in the direction in which its boundary is traversed, for a
    cell whose vertices are listed in cyclic order. *)
Definition directed_edges (c : list nat) : list (nat * nat) := combine c (tl c ++ firstn 1 c).

(** The cells of a builder, in the order in which they were added. *)
Definition cells_of {P : Type} (b : builder P) : list (list nat) := map snd (b_cells b).

(** The points. *)
Definition points_of {P : Type} (b : builder P) : list P := map snd (b_points b).

(** The grids made on one process. *)
Inductive shape_grid : grid -> Prop :=
| shape_sphere : forall R level id b, regular_sphere R level 1 = Ok b -> shape_grid (built_grid id Triangle b)
| shape_triangles : forall n id b, screen_triangles n = Ok b -> shape_grid (built_grid id Triangle b)
| shape_quadrilaterals : forall n id b, screen_quadrilaterals n = Ok b -> shape_grid (built_grid id Quadrilateral b).
