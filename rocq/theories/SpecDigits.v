(** * Specification vocabulary: cells of a DOF and terms of an entry *)
From Coq Require Import Reals.
From Verif Require Import Base Topology DofMap SpecDof Process Space Assembly SpecAssembly.

(** DOF [i] belongs to cell [c]. *)
Definition carried {T R : Type} (fs : fspace T R) (i c : nat) : Prop := c < ent_count (fs_grid fs) 2 /\ In i (dofs_at fs c).

(** There are at most [k] objects with the property. *)
Definition at_most {A : Type} (k : nat) (P : A -> Prop) : Prop :=
  forall l, NoDup l -> (forall x, In x l -> P x) -> length l <= k.

(** How many cells a DOF of the built-in shapes may belong to. *)
Inductive cells_per_dof : cell_type -> family -> nat -> Prop :=
| cells_triangles : forall p, 1 <= p -> cells_per_dof Triangle (lagrange p) 6
| cells_quadrilaterals : forall p, 1 <= p -> cells_per_dof Quadrilateral (lagrange p) 4
| cells_discontinuous : forall t n, cells_per_dof t (interior_only n) 1.

(** A relative error of [e]. *)
Definition within_part (e x y : R) : Prop := (Rabs (x - y) <= e * y)%R.
