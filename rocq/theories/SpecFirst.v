(** * Specification vocabulary: the order in which DOFs first appear

    Only the grid and the element are looked at: nothing here depends on how
    DOF numbers are computed. *)
From Verif Require Import Base Topology DofMap SpecDof.

(** The DOFs a reader meets when going through one cell: its vertices, then its
    edges, then its interior, each in the order of the reference cell, and on
    each of them the DOFs of the element in order.  A DOF is named by the
    dimension and number of its entity and its position on the entity. *)
Definition cell_walk (g : grid) (fam : family) (c : nat) : list (nat * nat * nat) :=
  flat_map (fun d =>
    flat_map (fun ie => map (fun k => (d, snd ie, k)) (seq 0 (el_ndofs (fam (g_ctype g c)) d (fst ie))))
             (enumerate (g_sub g c d)))
    (seq 0 3).

(** The same for a list of cells, one after the other. *)
Definition cells_walk (g : grid) (fam : family) (cells : list nat) : list (nat * nat * nat) :=
  flat_map (cell_walk g fam) cells.

(** [a] appears in [l], and for the first time before [b] does (if [b] ever
    does). *)
Definition appears_before {A : Type} (l : list A) (a b : A) : Prop :=
  exists l1 l2, l = l1 ++ a :: l2 /\ ~ In b (l1 ++ [a]).

(** Number of DOFs of the first [p] cells met, when no DOF is shared. *)
Definition dofs_before (g : grid) (fam : family) (p : nat) : nat :=
  sum_list (map (fun c => el_dim (fam (g_ctype g c))) (firstn p (g_iter g 2))).

(** The vertices of the cells, one cell after the other. *)
Definition vertices_met (g : grid) : list nat := flat_map (fun c => g_sub g c 0) (g_iter g 2).

(** Every entity belongs to a cell. *)
Definition all_used (g : grid) : Prop := forall d e, d <= 2 -> e < ent_count g d -> exists c, contains g c d e.

(** DOF [v] is the DOF of vertex [v], for every vertex. *)
Definition numbered_as_vertices (dm : dofmap) : Prop := forall v n, listed dm 0 v 0 n -> n = v.
