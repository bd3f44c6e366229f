(** * Specification vocabulary for the symmetry of the sphere *)
From Coq Require Import Reals Permutation.
From Verif Require Import Base Topology Shapes SpecShapes SpecSphere SpecWidth.

Local Open Scope R_scope.

(** The six permutations of the axes and the eight changes of signs: together the 48
    symmetries of the octahedron. *)
Definition permuted (k : nat) (p : vec) : vec :=
  let '(x, y, z) := p in
  match k with
  | 0%nat => (x, y, z)
  | 1%nat => (y, z, x)
  | 2%nat => (z, x, y)
  | 3%nat => (y, x, z)
  | 4%nat => (x, z, y)
  | _ => (z, y, x)
  end.
Definition mirrored (a b c : bool) (p : vec) : vec :=
  let '(x, y, z) := p in (if a then - x else x, if b then - y else y, if c then - z else z).
Definition octahedral (k : nat) (a b c : bool) (p : vec) : vec := mirrored a b c (permuted k p).

(** The image of every cell is a cell. *)
Definition cells_mapped (b : builder vec) (T : vec -> vec) : Prop :=
  forall k p q r, corners_of b k p q r -> exists k' p' q' r', corners_of b k' p' q' r' /\ Permutation [p'; q'; r'] [T p; T q; T r].

(** A turn about the third axis that is not one of them. *)
Definition turned (p : vec) : vec := let '(x, y, z) := p in (3 / 5 * x - 4 / 5 * y, 4 / 5 * x + 3 / 5 * y, z).
