(** * Specification vocabulary: rules on triangles, real coordinates *)
From Coq Require Import Reals.
From Verif Require Import Base Topology DofMap Space Scalar Integrand CellPair Operators Adjacency SpecAdjacency Assembly.

Local Open Scope R_scope.

(** The weights of the rules add up to the area of the reference triangle, those for two
    triangles to its square. *)
Definition triangle_weights (X : externals R) : Prop :=
  (forall n q, x_simplex X Triangle n = Some q -> fold_right Rplus 0 (qd_weights q) = 1 / 2) /\
  (forall dim pairs n q, x_duffy X TriangleDuffy dim pairs n = Some q -> fold_right Rplus 0 (pq_weights q) = 1 / 4).

(** The cast of real numbers respects sums and products. *)
Definition real_cast {T : Type} (S : scalar T R) : Prop :=
  r_mul S = Rmult /\ forall a b, s_cast S (a + b) = s_add S (s_cast S a) (s_cast S b).
