(** * Specification vocabulary: grids that are mapped to themselves *)
From Verif Require Import Base Topology DofMap Space Scalar Integrand CellPair Operators SpecLocal SpecOperators Assembly SpecAssembly SpecSimilar.

(** The externals that see, in the place of every cell [c], cell [L 2 c]. *)
Definition seen_through {R : Type} (L : nat -> nat -> nat) (X : externals R) : externals R :=
  mkExternals R (x_simplex X) (x_duffy X) (fun g t points c => x_geometry X g t points (L 2 c)).

(** Cell [L 2 c] has the geometry of cell [c] after a motion of space with linear part
    [A]; [one] is the unit of the scalars. *)
Definition moved_cells {T R : Type} (S : scalar T R) (move : R * R * R -> R * R * R) (A : nat -> nat -> T) (one : T) (g : grid) (X : externals R)
    (L : nat -> nat -> nat) : Prop :=
  forall t points c, c < ent_count g 2 -> similar_cell S move A one one (x_geometry X g t points c) (x_geometry X g t points (L 2 c)).

(** Entry [(i, j)] of a matrix with [rows] rows, stored by columns. *)
Definition entry_at {T : Type} (rows : nat) (m : list T) (i j : nat) : option T := nth_error m (i + rows * j).

(** The basis functions on two cells have the same entry as the functions with the same
    local numbers on the images of the cells. *)
Definition same_on_images {T R : Type} (test trial : fspace T R) (m : list T) (tau : nat -> nat) : Prop :=
  forall c c' a a' i j i' j', c < ent_count (fs_grid test) 2 -> c' < ent_count (fs_grid trial) 2 ->
    nth_error (dofs_at test c) a = Some i -> nth_error (dofs_at trial c') a' = Some j ->
    nth_error (dofs_at test (tau c)) a = Some i' -> nth_error (dofs_at trial (tau c')) a' = Some j' ->
    exists x, entry_at (global_size (fs_space test)) m i j = Some x /\ entry_at (global_size (fs_space test)) m i' j' = Some x.
