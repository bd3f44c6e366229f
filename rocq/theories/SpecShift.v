(** * Specification vocabulary: parts of a grid that look alike *)
From Verif Require Import Base Topology DofMap SpecDof Space Scalar Integrand CellPair Operators SpecLocal Assembly SpecAssembly SpecSimilar.

(** Sub-entity [k] of dimension [d] of cell [c] is sub-entity [k'] of cell [c']. *)
Definition share (g : grid) (c c' d k k' : nat) : Prop :=
  exists e, nth_error (g_sub g c d) k = Some e /\ nth_error (g_sub g c' d) k' = Some e.

(** The cells in [D] have copies in the grid, put together in the same way: cell [c] is
    copied to [tau c]. *)
Record copied (g : grid) (D : nat -> Prop) (tau : nat -> nat) : Prop := {
  cp_cell : forall c, D c -> c < ent_count g 2;
  cp_lt : forall c, D c -> tau c < ent_count g 2;
  cp_type : forall c, D c -> g_ctype g (tau c) = g_ctype g c;
  cp_share : forall c c' d k k', D c -> D c' -> d <= 2 -> (share g c c' d k k' <-> share g (tau c) (tau c') d k k')
}.

(** DOF [i] has a basis function on cell [c]. *)
Definition lives_on {T R : Type} (fs : fspace T R) (i c : nat) : Prop :=
  c < ent_count (fs_grid fs) 2 /\ In i (dofs_at fs c).

(** DOF [i'] is the copy of DOF [i]: they have the same local number in some cell and
    its copy, and [i'] has no basis function on other cells than copies. *)
Definition copy_of {T R : Type} (fs : fspace T R) (tau : nat -> nat) (i i' : nat) : Prop :=
  (exists c a, c < ent_count (fs_grid fs) 2 /\ nth_error (dofs_at fs c) a = Some i /\ nth_error (dofs_at fs (tau c)) a = Some i') /\
  forall c', lives_on fs i' c' -> exists c, lives_on fs i c /\ tau c = c'.

(** The copies of the cells have their geometry after a motion of space with linear
    part [scale] times [A]. *)
Definition moved_copies {T R : Type} (S : scalar T R) (move : R * R * R -> R * R * R) (A : nat -> nat -> T) (scale sign : T) (g : grid)
    (X : externals R) (D : nat -> Prop) (tau : nat -> nat) : Prop :=
  forall t points c, D c -> similar_cell S move A scale sign (x_geometry X g t points c) (x_geometry X g t points (tau c)).
