(** * Specification vocabulary: the size of the entries of the single layer matrix *)
From Coq Require Import Reals.
From Verif Require Import Base Topology DofMap Space Adjacency SpecAdjacency Scalar Integrand CellPair Operators SpecLocal Assembly SpecAssembly
  Shapes SpecShapes SpecSphere SpecWidth.

(** The pairs of points at which the kernel is evaluated for test cell [t] and trial
    cell [s]: the pairs of the Duffy rule if the cells touch, each point of the one cell
    with each point of the other if not. *)
Inductive evaluated {T R : Type} (X : externals R) (deg : cell_type -> cell_type -> nat) (pts : cell_type -> nat) (test trial : fspace T R) (t s : nat) :
    R * R * R -> R * R * R -> Prop :=
| evaluated_touching : forall pairs kind dim q p, touching test trial t s ->
    adjacency (fs_grid test) t s pairs -> duffy_for (g_ctype (fs_grid test) t) (g_ctype (fs_grid test) s) = Some kind -> shared_dimension (fs_grid test) t s dim ->
    x_duffy X kind dim pairs (deg (g_ctype (fs_grid test) t) (g_ctype (fs_grid test) s)) = Some q -> p < length (pq_weights q) ->
    evaluated X deg pts test trial t s
      (SpecLocal.position (x_geometry X (fs_grid test) (g_ctype (fs_grid test) t) (pq_test q) t) p)
      (SpecLocal.position (x_geometry X (fs_grid test) (g_ctype (fs_grid test) s) (pq_trial q) s) p)
| evaluated_distant : forall qt qs p p', ~ touching test trial t s ->
    x_simplex X (g_ctype (fs_grid test) t) (pts (g_ctype (fs_grid test) t)) = Some qt ->
    x_simplex X (g_ctype (fs_grid trial) s) (pts (g_ctype (fs_grid trial) s)) = Some qs ->
    p < length (qd_weights qt) -> p' < length (qd_weights qs) ->
    evaluated X deg pts test trial t s
      (SpecLocal.position (x_geometry X (fs_grid test) (g_ctype (fs_grid test) t) (qd_points qt) t) p)
      (SpecLocal.position (x_geometry X (fs_grid trial) (g_ctype (fs_grid trial) s) (qd_points qs) s) p').

Local Open Scope R_scope.

(** The point is in the reference cell. *)
Definition inside (t : cell_type) (x y : R) : Prop :=
  match t with Triangle => 0 <= x /\ 0 <= y /\ x + y <= 1 | _ => 0 <= x <= 1 /\ 0 <= y <= 1 end.

(** The points of the rules are in the reference cell. *)
Definition inside_rules (X : externals R) (t : cell_type) : Prop :=
  (forall n q p, x_simplex X t n = Some q -> (p < length (qd_weights q))%nat -> inside t (nth (2 * p) (qd_points q) 0) (nth (2 * p + 1) (qd_points q) 0)) /\
  (forall kind dim pairs n q p, duffy_for t t = Some kind -> x_duffy X kind dim pairs n = Some q -> (p < length (pq_weights q))%nat ->
    inside t (nth (2 * p) (pq_test q) 0) (nth (2 * p + 1) (pq_test q) 0) /\ inside t (nth (2 * p) (pq_trial q) 0) (nth (2 * p + 1) (pq_trial q) 0)).

(** The area of the triangle with the given corners. *)
Definition triangle_area (p q r : vec) : R := sqrt (inner (normal p q r) (normal p q r)) / 2.

(** No point of one cell coincides with the point of the other in a pair of points
    of the rules. *)
Definition separate_points {T : Type} (X : externals R) (deg : cell_type -> cell_type -> nat) (pts : cell_type -> nat) (test trial : fspace T R) (t s : nat) : Prop :=
  forall x y, evaluated X deg pts test trial t s x y -> x <> y.

(** The least distance of cells of a screen that are not neighbours, in sides of the
    squares. *)
Definition gap (t : cell_type) : R := match t with Triangle => sqrt (1 / 2) | _ => 1 end.
