(** * Specification vocabulary: cells seen from far away *)
From Coq Require Import Reals.
From Verif Require Import Base Topology DofMap Space Scalar Integrand CellPair Operators SpecLocal Adjacency SpecAdjacency Assembly SpecAssembly
  Shapes SpecShapes SpecSphere SpecWidth SpecShare SpecWaves.

Local Open Scope R_scope.

(** Both coordinates of the centre of the reference cell. *)
Definition middle (t : cell_type) : R := match t with Triangle => 1 / 3 | _ => 1 / 2 end.

(** The centre and the area of the triangle with corners [p], [q], [r], or of the
    parallelogram with corners [p], [q], [r] and [q + r - p]. *)
Definition centre (t : cell_type) (p q r : vec) : vec :=
  match t with Triangle => vscale (1 / 3) (vadd p (vadd q r)) | _ => vscale (1 / 2) (vadd q r) end.
Definition cell_area (t : cell_type) (p q r : vec) : R := reference_area t * sqrt (inner (normal p q r) (normal p q r)).

(** No corner is further than [h] from the centre. *)
Definition radius (t : cell_type) (p q r : vec) (h : R) : Prop :=
  distance p (centre t p q r) <= h /\ distance q (centre t p q r) <= h /\ distance r (centre t p q r) <= h.

(** The sum of the weights times a coordinate of the points. *)
Definition moment (q : quadrature R) (k : nat) : R :=
  fold_right Rplus 0 (map (fun j => nth j (qd_weights q) 0 * nth (2 * j + k) (qd_points q) 0) (seq 0 (length (qd_weights q)))).

(** The regular rules are exact for constants, and for linear functions. *)
Definition exact_constants (X : externals R) (t : cell_type) : Prop :=
  forall n q, x_simplex X t n = Some q -> fold_right Rplus 0 (qd_weights q) = reference_area t.
Definition exact_linear (X : externals R) (t : cell_type) : Prop :=
  exact_constants X t /\
  forall n q, x_simplex X t n = Some q -> moment q 0 = reference_area t * middle t /\ moment q 1 = reference_area t * middle t.

(** [v] differs from [u] by at most the share [e] of [u]. *)
Definition relatively_near (e u v : R) : Prop := Rabs (v - u) <= e * u.

(** Twice the square of the sum of the radii of two cells of a screen, in sides of the
    squares. *)
Definition spread (t : cell_type) : R := match t with Triangle => 40 / 9 | _ => 4 end.
