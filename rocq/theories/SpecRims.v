(** * Specification vocabulary: the rim of the cells around a vertex *)
From Coq Require Import Reals.
From Verif Require Import Base Topology Shapes SpecShapes SpecSphere SpecWaves SpecDefinite.

Local Open Scope R_scope.

(** The edge opposite vertex [z] of a triangle, against the direction of the boundary; the
    zero vector for triangles without this vertex. *)
Definition edge_opposite (V : nat -> vec) (z : nat) (c : list nat) : vec :=
  match c with
  | [u; v; w] =>
      if z =? u then vsub (V v) (V w) else if z =? v then vsub (V w) (V u) else if z =? w then vsub (V u) (V v) else origin
  | _ => origin
  end.

(** The edges opposite [z] in the cells around it add up to zero, as the sides of a
    polygon do. *)
Definition closed_rim (g : grid) (V : nat -> vec) (z : nat) : Prop :=
  fold_right vadd origin (map (edge_opposite V z) (vertex_lists g)) = origin.

(** Half of the sum of their lengths. *)
Definition half_rim (g : grid) (V : nat -> vec) (z : nat) : R :=
  fold_right Rplus 0 (map (fun c => distance (edge_opposite V z c) origin) (vertex_lists g)) / 2.

(** The cells around [z] are within [h] of it. *)
Definition reach (g : grid) (V : nat -> vec) (z : nat) (h : R) : Prop :=
  forall c u, In c (vertex_lists g) -> In z c -> In u c -> distance (V u) (V z) <= h.
