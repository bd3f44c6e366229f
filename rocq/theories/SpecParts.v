(** * Specification vocabulary: spaces on a part of a grid *)
From Verif Require Import Base Topology DofMap SpecDof Process Space SpecSpace Scalar Integrand CellPair Operators Assembly SpecAssembly SpecDistributed.

(** The grid of [part] consists of some cells of the grid of [whole], with other
    numbers: entity [e] of dimension [d] is entity [L d e] of the whole grid.  The
    spaces have the same elements and the cells the same geometry. *)
Record part_of {T R : Type} (X : externals R) (whole part : fspace T R) (L : nat -> nat -> nat) : Prop := {
  po_inside : inside 1 (fs_grid whole) (fun _ => fs_grid part) (fun _ => L);
  po_types : g_types (fs_grid part) 2 = g_types (fs_grid whole) 2;
  po_family : fs_family part = fs_family whole;
  po_components : fs_components part = fs_components whole;
  po_basis : fs_basis part = fs_basis whole;
  po_geometry : forall c t points, c < ent_count (fs_grid part) 2 ->
    x_geometry X (fs_grid part) t points c = x_geometry X (fs_grid whole) t points (L 2 c)
}.

(** Either the test and the trial space are on one part of one grid, or they are on
    two grids whose cells do not touch in the whole grid. *)
Definition placed {T R : Type} (wtest wtrial test trial : fspace T R) (L M : nat -> nat -> nat) : Prop :=
  (g_id (fs_grid test) = g_id (fs_grid trial) /\ g_id (fs_grid wtest) = g_id (fs_grid wtrial) /\
     forall c, c < ent_count (fs_grid test) 2 -> M 2 c = L 2 c) \/
  (g_id (fs_grid test) <> g_id (fs_grid trial) /\
     forall t s, t < ent_count (fs_grid test) 2 -> s < ent_count (fs_grid trial) 2 -> ~ touching wtest wtrial (L 2 t) (M 2 s)).

(** [f] sends each DOF of [part] to the DOF of [whole] at the same place. *)
Definition embeds {T R : Type} (whole part : fspace T R) (L : nat -> nat -> nat) (f : nat -> nat) : Prop :=
  (forall c, c < ent_count (fs_grid part) 2 -> dofs_at whole (L 2 c) = map f (dofs_at part c)) /\
  (forall i, i < global_size (fs_space part) -> f i < global_size (fs_space whole)) /\
  (forall i j, i < global_size (fs_space part) -> j < global_size (fs_space part) -> f i = f j -> i = j).

(** All the cells of the whole grid that have DOF [n] belong to the part. *)
Definition supported {T R : Type} (whole part : fspace T R) (L : nat -> nat -> nat) (n : nat) : Prop :=
  forall C, C < ent_count (fs_grid whole) 2 -> In n (dofs_at whole C) -> exists c, c < ent_count (fs_grid part) 2 /\ L 2 c = C.
