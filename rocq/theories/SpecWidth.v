(** * Specification vocabulary for the size and form of the cells of the sphere *)
From Coq Require Import Reals.
From Verif Require Import Base Topology Shapes SpecShapes SpecSphere.

Local Open Scope R_scope.

(** The square of the distance of two points. *)
Definition chord2 (p q : vec) : R := inner (vsub p q) (vsub p q).

(** [p] and [q] are the ends of an edge of some cell. *)
Definition edge_ends (b : builder vec) (p q : vec) : Prop :=
  exists c u v, In c (cells_of b) /\ In (u, v) (directed_edges c) /\
    nth_error (points_of b) u = Some p /\ nth_error (points_of b) v = Some q.

(** [p], [q], [r] are the corners of cell number [k], in the order of the cell. *)
Definition corners_of (b : builder vec) (k : nat) (p q r : vec) : Prop :=
  exists u v w, nth_error (cells_of b) k = Some [u; v; w] /\
    nth_error (points_of b) u = Some p /\ nth_error (points_of b) v = Some q /\ nth_error (points_of b) w = Some r.

(** The point of a triangle with given weights. *)
Definition point_of (p q r : vec) (s t o : R) : vec := vadd (vscale s p) (vadd (vscale t q) (vscale o r)).
Definition weights (s t o : R) : Prop := 0 <= s /\ 0 <= t /\ 0 <= o /\ s + t + o = 1.

(** The square of the cosine of the angle between two directions is at most [k]. *)
Definition cosine2_at_most (k : R) (x y : vec) : Prop := inner x y * inner x y <= k * (inner x x * inner y y).
