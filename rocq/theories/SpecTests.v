(** * Specification vocabulary: what the tests are run on *)
From Verif Require Import Base Topology DofMap SpecDof.

(** A grid on one process: nothing is a ghost. *)
Definition unshared (g : grid) : Prop := forall c d i e p x, sub_at g c d i e -> g_own g d e <> Ghost p x.

(** The elements have DOFs on all sub-entities of dimension [d]. *)
Definition dofs_on (t : cell_type) (fam : family) (d : nat) : Prop :=
  d <= 2 /\ forall i, i < ref_count t d -> 0 < el_ndofs (fam t) d i.

(** The classes hold as many cells as there are, and no cell twice in different classes. *)
Definition classes_ok (g : grid) (t : cell_type) (classes : list (list nat)) : Prop :=
  sum_list (map (@length nat) classes) = g_count g t /\
  forall k k' l l' c, k <> k' -> nth_error classes k = Some l -> nth_error classes k' = Some l' -> In c l -> ~ In c l'.
