(** * Specification vocabulary for the volume and the area of a closed surface *)
From Coq Require Import Reals.
From Verif Require Import Base Topology Shapes SpecShapes SpecSphere.

Local Open Scope R_scope.

Definition total {A : Type} (f : A -> R) (l : list A) : R := fold_right (fun a t => f a + t) 0 l.
Definition vtotal {A : Type} (f : A -> vec) (l : list A) : vec := fold_right (fun a t => vadd (f a) t) origin l.

(** For positions [pos] of the vertices: the normal of a triangle (twice as long as its
    area), its area, and the signed volume of the tetrahedron over it with tip [o]. *)
Definition cell_normal (pos : nat -> vec) (c : list nat) : vec :=
  match c with [u; v; w] => normal (pos u) (pos v) (pos w) | _ => origin end.
Definition cell_area (pos : nat -> vec) (c : list nat) : R := sqrt (inner (cell_normal pos c) (cell_normal pos c)) / 2.
Definition cell_volume (o : vec) (pos : nat -> vec) (c : list nat) : R :=
  match c with [u; v; w] => inner (vsub (pos u) o) (cross (vsub (pos v) o) (vsub (pos w) o)) / 6 | _ => 0 end.

(** Area of a grid of triangles, and the volume it encloses. *)
Definition area (b : builder vec) : R := total (cell_area (position (points_of b))) (cells_of b).
Definition volume (b : builder vec) : R := total (cell_volume origin (position (points_of b))) (cells_of b).
