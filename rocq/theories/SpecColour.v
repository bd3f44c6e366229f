(** * Specification vocabulary for colourings *)
From Verif Require Import Base Topology DofMap SpecDof Colouring.

(** Cell [c] is in class [k] of the entry of type [t]. *)
Definition in_class (col : colour_map) (t : cell_type) (k c : nat) : Prop :=
  exists classes l, assoc ct_eqb t col = Some classes /\ nth_error classes k = Some l /\ In c l.

(** Two cells share a DOF. *)
Definition conflict (dm : dofmap) (c c' : nat) : Prop :=
  exists l l' n, has_cell_dofs dm c l /\ has_cell_dofs dm c' l' /\ In n l /\ In n l'.

(** All entries have [K] classes. *)
Definition class_count (col : colour_map) (K : nat) : Prop :=
  forall t classes, assoc ct_eqb t col = Some classes -> length classes = K.

(** No cell shares DOFs with more than [M] other cells. *)
Definition conflicts_bounded (g : grid) (dm : dofmap) (M : nat) : Prop :=
  forall c L, c < ent_count g 2 -> NoDup L -> (forall c', In c' L -> c' <> c /\ conflict dm c c') ->
    length L <= M.

(** The element on the first cell type of the grid has at least one DOF. *)
Definition head_dim_pos (g : grid) (fam : family) : Prop :=
  forall t0, nth_error (g_types g 2) 0 = Some t0 -> 0 < el_dim (fam t0).
