(** * Specification vocabulary: matrices and turned functions *)
From Verif Require Import Base Topology DofMap Space Scalar Assembly SpecAssembly SpecAlgebra SpecAutomorphism.

(** [y] is the matrix [m], with [rows] rows and [cols] columns, times [x]. *)
Definition product {T R : Type} (S : scalar T R) (rows cols : nat) (m : list T) (x y : nat -> T) : Prop :=
  forall i, i < rows -> exists e, (forall j, j < cols -> entry_at rows m i j = Some (e j)) /\
    y i = total S (seq 0 cols) (fun j => s_mul S (e j) (x j)).

(** The function with coefficients [x'] has on cell [tau c] the coefficients that the
    function with coefficients [x] has on cell [c]. *)
Definition turned {T R : Type} (fs : fspace T R) (tau : nat -> nat) (x x' : nat -> T) : Prop :=
  forall c a i i', c < ent_count (fs_grid fs) 2 -> nth_error (dofs_at fs c) a = Some i -> nth_error (dofs_at fs (tau c)) a = Some i' -> x' i' = x i.

(** Turning both sides of a product gives a product, and every function can be turned. *)
Definition commutes {T R : Type} (S : scalar T R) (test trial : fspace T R) (m : list T) (tau : nat -> nat) : Prop :=
  (forall x x' y y', turned trial tau x x' -> turned test tau y y' ->
     product S (global_size (fs_space test)) (global_size (fs_space trial)) m x y ->
     product S (global_size (fs_space test)) (global_size (fs_space trial)) m x' y') /\
  (forall x, exists x', turned trial tau x x') /\ (forall y, exists y', turned test tau y y').

(** The equation with the right-hand side [y] has not more than one solution. *)
Definition at_most_one {T R : Type} (S : scalar T R) (rows cols : nat) (m : list T) (y : nat -> T) : Prop :=
  forall x x', product S rows cols m x y -> product S rows cols m x' y -> forall j, j < cols -> x j = x' j.

(** The rows of the functions with the same local number on two cells have the same
    sum, and their columns. *)
Definition like_sums {T R : Type} (S : scalar T R) (test trial : fspace T R) (m : list T) (c c' : nat) : Prop :=
  (forall a i i', nth_error (dofs_at test c) a = Some i -> nth_error (dofs_at test c') a = Some i' ->
     exists v, row_sum S (global_size (fs_space test)) (global_size (fs_space trial)) m i v /\
               row_sum S (global_size (fs_space test)) (global_size (fs_space trial)) m i' v) /\
  (forall a j j', nth_error (dofs_at trial c) a = Some j -> nth_error (dofs_at trial c') a = Some j' ->
     exists v, column_sum S (global_size (fs_space test)) m j v /\ column_sum S (global_size (fs_space test)) m j' v).
