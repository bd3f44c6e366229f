(** * Specification vocabulary: touching pairs of cells, sizes of the cells of screens *)
From Coq Require Import Reals.
From Verif Require Import Base Topology DofMap Space Scalar Integrand CellPair Operators Adjacency SpecAdjacency Assembly SpecAssembly.

(** The pairs of a test cell and a trial cell that touch, each of them once. *)
Definition touching_pairs {T R : Type} (test trial : fspace T R) (l : list (nat * nat)) : Prop :=
  NoDup l /\ forall t s, In (t, s) l <-> t < ent_count (fs_grid test) 2 /\ s < ent_count (fs_grid trial) 2 /\ touching test trial t s.

(** The number of touching pairs on a screen with [n] squares on each side. *)
Definition touching_count (t : cell_type) (n : nat) : nat :=
  match t with Triangle => 26 * n * n + 10 - 32 * n | _ => (3 * n - 2) * (3 * n - 2) end.

Local Open Scope R_scope.

(** The area of the reference cell. *)
Definition reference_area (t : cell_type) : R := match t with Triangle => 1 / 2 | _ => 1 end.

(** The weights of the rules for cells of one type add up to the area of the reference cell,
    those for two such cells to its square. *)
Definition area_weights (X : externals R) (t : cell_type) : Prop :=
  (forall n q, x_simplex X t n = Some q -> fold_right Rplus 0 (qd_weights q) = reference_area t) /\
  (forall kind dim pairs n q, duffy_for t t = Some kind -> x_duffy X kind dim pairs n = Some q ->
    fold_right Rplus 0 (pq_weights q) = reference_area t * reference_area t).
