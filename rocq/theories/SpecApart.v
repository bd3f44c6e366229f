(** * Specification vocabulary for the distance of cells *)
From Coq Require Import Reals.
From Verif Require Import Base Topology Shapes SpecShapes SpecSphere SpecScreen SpecWidth SpecFloatSphere.

Local Open Scope R_scope.

(** Cells without a common vertex. *)
Definition apart (c d : list nat) : Prop := forall v, In v c -> ~ In v d.

(** Each point of cell number [i] has at least the distance [h] to each point of cell
    number [j]; [points c w x]: [x] is the point of cell [c] with weights [w]. *)
Definition cells_distance (points : list nat -> (nat -> R) -> vec -> Prop) (cells : list (list nat)) (i j : nat) (h : R) : Prop :=
  forall c d w w' x y, nth_error cells i = Some c -> nth_error cells j = Some d -> points c w x -> points d w' y -> h <= distance x y.
