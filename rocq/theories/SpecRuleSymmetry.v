(** * Specification vocabulary: rules with the symmetry of the triangle *)
From Coq Require Import Reals Permutation.
From Verif Require Import Base Topology Scalar Integrand CellPair Operators Assembly.

Local Open Scope R_scope.

(** The points of a rule with their weights. *)
Definition rule_nodes (q : quadrature R) : list (R * R * R) :=
  map (fun jw => (nth (2 * fst jw) (qd_points q) 0, nth (2 * fst jw + 1) (qd_points q) 0, snd jw)) (enumerate (qd_weights q)).

(** The rule with [n] points on the triangle does not change when two corners of the reference triangle are exchanged:
    the second with the third, or the first with the second. *)
Definition symmetric_simplex (X : externals R) (n : nat) : Prop :=
  forall q, x_simplex X Triangle n = Some q ->
    Permutation (map (fun z => let '(x, y, w) := z in (y, x, w)) (rule_nodes q)) (rule_nodes q) /\
    Permutation (map (fun z => let '(x, y, w) := z in (1 - x - y, y, w)) (rule_nodes q)) (rule_nodes q).

(** The rule with [n] points on the quadrilateral does not change when the reference square is reflected in its
    diagonal or in the line halfway between its first and second corner. *)
Definition symmetric_square (X : externals R) (n : nat) : Prop :=
  forall q, x_simplex X Quadrilateral n = Some q ->
    Permutation (map (fun z => let '(x, y, w) := z in (y, x, w)) (rule_nodes q)) (rule_nodes q) /\
    Permutation (map (fun z => let '(x, y, w) := z in (1 - x, y, w)) (rule_nodes q)) (rule_nodes q).
