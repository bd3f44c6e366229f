(** * Specification vocabulary for the spaces of serial.rs *)
From Verif Require Import Base Topology DofMap Process Space SpecSpace.

(** Number of DOFs of a space whose ownership is [Ghost]. *)
Definition ghost_count (sp : space) : nat :=
  length (filter (fun i => match ownership_of sp i with Ok (Ghost _ _) => true | _ => false end) (seq 0 (local_size sp))).
