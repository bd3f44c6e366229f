(** * Specification vocabulary: continuous and discontinuous functions

    A space of continuous functions and the space of discontinuous functions with the
    same functions on each cell. *)
From Verif Require Import Base Topology DofMap SpecDof Process Space SpecSpace Scalar Assembly SpecAssembly.

(** [disc] has the basis functions of [cont] on each cell of the same grid, but all its
    DOFs belong to the interior of cells ([Continuity::Discontinuous]). *)
Record broken {T R : Type} (cont disc : fspace T R) : Prop := {
  bk_grid : fs_grid disc = fs_grid cont;
  bk_dim : forall t, In t (g_types (fs_grid cont) 2) -> el_dim (fs_family disc t) = el_dim (fs_family cont t);
  bk_components : fs_components disc = fs_components cont;
  bk_basis : fs_basis disc = fs_basis cont;
  bk_interior : interior_family (g_types (fs_grid cont) 2) (fs_family disc)
}.

(** [p] sends each DOF of [disc] to the DOF of [cont] that has the same place in the
    same cell, and misses none. *)
Definition glues {T R : Type} (cont disc : fspace T R) (p : nat -> nat) : Prop :=
  (forall c, c < ent_count (fs_grid cont) 2 -> dofs_at cont c = map p (dofs_at disc c)) /\
  (forall k, k < global_size (fs_space disc) -> p k < global_size (fs_space cont)) /\
  (forall i, i < global_size (fs_space cont) -> exists k, k < global_size (fs_space disc) /\ p k = i).

(** Entry [(i, j)] of the product P' E Q, P and Q the 0-1 matrices of [p] and [q]. *)
Definition glued_entry {T R : Type} (S : scalar T R) (p q : nat -> nat) (rows cols : nat) (e : nat -> nat -> T) (i j : nat) : T :=
  total S (seq 0 rows) (fun k => total S (seq 0 cols) (fun l => if (p k =? i) && (q l =? j) then e k l else s_zero S)).
