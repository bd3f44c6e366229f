(** * Specification vocabulary: cells and functions of a screen moved along the grid *)
From Coq Require Import Reals ZArith.
From Verif Require Import Base Topology DofMap Space Scalar Integrand CellPair Operators Assembly SpecAssembly Shapes SpecShapes SpecSphere SpecScreen SpecSymmetry SpecTurns SpecAutomorphism SpecShift.

(** The two kinds of screens. *)
Inductive screen (n : nat) : cell_type -> builder (nat * nat) -> Prop :=
| screen_of_triangles : forall b, screen_triangles n = Ok b -> screen n Triangle b
| screen_of_quadrilaterals : forall b, screen_quadrilaterals n = Ok b -> screen n Quadrilateral b.

(** The [k]th corner of cell [c], as the pair of its numerators. *)
Definition corner (b : builder (nat * nat)) (c k : nat) (p : nat * nat) : Prop :=
  exists vs v, nth_error (cells_of b) c = Some vs /\ nth_error vs k = Some v /\ nth_error (points_of b) v = Some p.

Definition moved_point (dx dy : Z) (p q : nat * nat) : Prop :=
  Z.of_nat (fst q) = (Z.of_nat (fst p) + dx)%Z /\ Z.of_nat (snd q) = (Z.of_nat (snd p) + dy)%Z.

(** Cell [c'] is cell [c] moved by [dx] squares to the right and [dy] squares up:
    corner by corner, in order. *)
Definition moved_cell (b : builder (nat * nat)) (dx dy : Z) (c c' : nat) : Prop :=
  c < length (cells_of b) /\ c' < length (cells_of b) /\
  forall k, (forall p, corner b c k p -> exists q, corner b c' k q /\ moved_point dx dy p q) /\
    (forall q, corner b c' k q -> exists p, corner b c k p /\ moved_point dx dy p q).

(** Function [i'] is function [i] moved: same local number in a cell and the moved
    cell, and the cells of the one are those of the other moved. *)
Definition moved_function {T R : Type} (b : builder (nat * nat)) (fs : fspace T R) (dx dy : Z) (i i' : nat) : Prop :=
  (exists c c' a, moved_cell b dx dy c c' /\ nth_error (dofs_at fs c) a = Some i /\ nth_error (dofs_at fs c') a = Some i') /\
  (forall c, lives_on fs i c -> exists c', moved_cell b dx dy c c') /\
  (forall c', lives_on fs i' c' -> exists c, moved_cell b dx dy c c').

(** The entry of two functions is the entry of the two functions moved together. *)
Definition same_when_moved {T R : Type} (b : builder (nat * nat)) (test trial : fspace T R) (m : list T) : Prop :=
  forall dx dy i j i' j', moved_function b test dx dy i i' -> moved_function b trial dx dy j j' ->
    exists x, entry_at (global_size (fs_space test)) m i j = Some x /\ entry_at (global_size (fs_space test)) m i' j' = Some x.

(** Moving by [d] along one axis does not change whether a coordinate [x] is at the end
    of the screen: either it is not moved, or it is inside before and after. *)
Definition alike (n : nat) (d : Z) (x : nat) : Prop :=
  d = 0%Z \/ (0 < x < n /\ (0 < Z.of_nat x + d < Z.of_nat n)%Z).

(** Corner [k] is a corner of sub-entity [e] of dimension [d] (not the cell itself). *)
Definition corner_of_entity (t : cell_type) (d e k : nat) : Prop :=
  match d with
  | 0 => k = e
  | 1 => exists u v, nth_error (ref_edges t) e = Some (u, v) /\ (k = u \/ k = v)
  | _ => False
  end.

(** The geometry of the cells of a screen: flat, given by the first three corners. *)
Definition flat_screen (n : nat) (X : externals R) (g : grid) (b : builder (nat * nat)) : Prop :=
  forall t points c p q r, corner b c 0 p -> corner b c 1 q -> corner b c 2 r ->
    flat_cell points (screen_position n p) (screen_position n q) (screen_position n r) (x_geometry X g t points c).
