(** * Specification vocabulary for solid angles *)
From Coq Require Import Reals.
From Verif Require Import Base Topology Shapes SpecShapes SpecSphere SpecVolume.

Local Open Scope R_scope.

(** The solid angle of a triangle with corners on the unit sphere, seen from the origin
    (A. van Oosterom and J. Strackee, IEEE Trans. Biomed. Eng. 30, 1983), which is the
    area of the part of the sphere over it. *)
Definition solid_angle (p q r : vec) : R := 2 * atan (inner p (cross q r) / (1 + inner p q + inner q r + inner r p)).
Definition cell_angle (pos : nat -> vec) (c : list nat) : R :=
  match c with [u; v; w] => solid_angle (pos u) (pos v) (pos w) | _ => 0 end.

(** Of all cells of a grid of triangles together. *)
Definition total_angle (b : builder vec) : R := total (cell_angle (position (points_of b))) (cells_of b).
