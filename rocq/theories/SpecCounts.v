(** * Specification vocabulary: how many *)
From Verif Require Import Base Topology SpecAdjacency.

(** There are exactly [k] objects with the property. *)
Definition exactly {A : Type} (k : nat) (P : A -> Prop) : Prop :=
  exists l, NoDup l /\ (forall x, In x l <-> P x) /\ length l = k.

(** Cell [c] has the vertex [v]. *)
Definition cell_at_vertex (g : grid) (v c : nat) : Prop := c < ent_count g 2 /\ In v (g_sub g c 0).

(** A pair of cells with a common vertex (a cell and itself included). *)
Definition touching_pair (g : grid) (p : nat * nat) : Prop :=
  fst p < ent_count g 2 /\ snd p < ent_count g 2 /\ touch g (fst p) (snd p).
