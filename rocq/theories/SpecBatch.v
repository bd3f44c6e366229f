(** * Specification vocabulary for batches *)
From Verif Require Import Base Batch.

(** [bs] cuts [l] into non-empty pieces of at most [n] elements, in order. *)
Definition tiles {A : Type} (n : nat) (l : list A) (bs : list (list A)) : Prop :=
  concat bs = l /\ forall b, In b bs -> 0 < length b <= n.

(** A list that fits in memory: its length is at most half the number of addresses
    (Rust: an allocation has at most isize::MAX bytes). *)
Definition fits {A : Type} (wmod : nat) (l : list A) : Prop := 2 * length l <= wmod.
