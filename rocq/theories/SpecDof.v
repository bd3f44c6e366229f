(** * Specification vocabulary for DOF maps

    Independent of how the DOF map is computed: everything is phrased with what
    a user can observe ([get_local_dof_numbers], [cell_dofs], the grid and the
    element). *)
From Verif Require Import Base Topology DofMap.

(** DOF number [n] is listed at position [k] for entity [e] of dimension [d]. *)
Definition listed (dm : dofmap) (d e k n : nat) : Prop :=
  exists l, get_local_dof_numbers dm d e = Ok l /\ nth_error l k = Some n.

(** Cell [c] of the grid contains entity [e] of dimension [d]. *)
Definition contains (g : grid) (c d e : nat) : Prop :=
  c < ent_count g 2 /\ d <= 2 /\ In e (g_sub g c d).

(** [e] is the [i]-th sub-entity of dimension [d] of cell [c]. *)
Definition sub_at (g : grid) (c d i e : nat) : Prop :=
  c < ent_count g 2 /\ d <= 2 /\ nth_error (g_sub g c d) i = Some e.

(** [cell_dofs] of cell [c] is [l]. *)
Definition has_cell_dofs (dm : dofmap) (c : nat) (l : list nat) : Prop :=
  cell_dofs dm c = Ok (Some l).

(** [N d e] is the number of DOFs the element puts on entity [(d, e)] (nothing on
    entities outside all cells). *)
Definition dof_count (g : grid) (fam : family) (N : nat -> nat -> nat) : Prop :=
  (forall c d i e, sub_at g c d i e -> N d e = el_ndofs (fam (g_ctype g c)) d i) /\
  (forall d e, (forall c, ~ contains g c d e) -> N d e = 0).

(** Sum of [N] over all entities of the grid. *)
Definition sum_entities (g : grid) (N : nat -> nat -> nat) : nat :=
  sum_list (map (fun d => sum_list (map (N d) (seq 0 (ent_count g d)))) (seq 0 3)).

(** The family puts all its DOFs in the interior of the cells. *)
Definition interior_family (types : list cell_type) (fam : family) : Prop :=
  forall t d i, In t types -> d < 2 -> el_ndofs (fam t) d i = 0.

(** Barycentric weight (numerator over [m + 1]) of vertex [v] in the [k]-th of
    [m] equally spaced points of local edge [i] of cell [c], counted in the
    reference direction of that local edge. *)
Definition edge_point_weight (g : grid) (c i m k v : nat) : nat :=
  match nth_error (ref_edges (g_ctype g c)) i with
  | None => 0
  | Some (a, b) =>
      (if nth a (g_sub g c 0) 0 =? v then m - k else 0) +
      (if nth b (g_sub g c 0) 0 =? v then k + 1 else 0)
  end.

(** Start vertex of local edge [i] of cell [c] in its reference direction. *)
Definition edge_start (g : grid) (c i : nat) : nat :=
  match nth_error (ref_edges (g_ctype g c)) i with
  | None => 0
  | Some (a, _) => nth a (g_sub g c 0) 0
  end.
