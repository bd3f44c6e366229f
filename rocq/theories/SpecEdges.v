(** * Specification vocabulary for points of edge DOFs

    With [edge_point_weight] of SpecDof: which points of the surface a DOF on an
    edge stands for, seen from each of the cells that list it. *)
From Verif Require Import Base Topology DofMap SpecDof.

(** Cell [c] lists the number [n] for the [k]-th of the [m] basis functions the
    element attaches to local edge [i]. *)
Definition edge_dof (g : grid) (fam : family) (dm : dofmap) (n c i m k : nat) : Prop :=
  exists e row l x, sub_at g c 1 i e /\ has_cell_dofs dm c row /\ el_edofs (fam (g_ctype g c)) 1 i = Some l /\
    length l = m /\ nth_error l k = Some x /\ nth_error row x = Some n.

(** All cells that list a number for a basis function of an edge see it at the
    same point of the surface. *)
Definition single_valued (g : grid) (fam : family) (dm : dofmap) : Prop :=
  forall n c i m k c' i' m' k', edge_dof g fam dm n c i m k -> edge_dof g fam dm n c' i' m' k' ->
  m = m' /\ forall v, edge_point_weight g c i m k v = edge_point_weight g c' i' m' k' v.

(** Some number stands for two different points. *)
Definition double_point (g : grid) (fam : family) (dm : dofmap) : Prop :=
  exists n c i c' i' m k v, edge_dof g fam dm n c i m k /\ edge_dof g fam dm n c' i' m k /\
  edge_point_weight g c i m k v <> edge_point_weight g c' i' m k v.
