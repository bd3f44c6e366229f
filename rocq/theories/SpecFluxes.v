(** * Specification vocabulary: integrals of normal derivatives of the kernel *)
From Coq Require Import Reals.
From Verif Require Import Base Topology Space Scalar CellPair Operators SpecLocal Assembly SpecAssembly Shapes SpecSphere SpecTurns SpecWaves SpecDecay SpecDigits SpecMoments SpecDegree SpecPieces.

Local Open Scope R_scope.

(** The normal of length one of a cell given by three corners. *)
Definition cell_direction (T : vec * vec * vec) : vec :=
  vscale (1 / scaling T) (normal (first_corner T) (second_corner T) (third_corner T)).

(** The derivative of a kernel in the direction [n]: components 1 to 3 of the kernel are its
    derivatives in the directions of the axes. *)
Definition directional (G : nat -> vec -> vec -> R) (n : vec) (x y : vec) : R :=
  let '(n1, n2, n3) := n in G 1%nat x y * n1 + G 2%nat x y * n2 + G 3%nat x y * n3.

(** The integral of function [i] of the test space, function [j] of the trial space and a kernel
    that depends on the cells. *)
Definition cells_integral (ct : cell_type) (test trial : fspace R R) (F F' : nat -> R -> R -> R) (P P' : nat -> vec * vec * vec) (kernel : nat -> nat -> vec -> vec -> R) (i j : nat) (value : R) : Prop :=
  exists v, (forall t s, In t (support test i) -> In s (support trial j) ->
      pair_integral ct (fun x y x' y' => kernel t s (point_in (P t) x y) (point_in (P' s) x' y') * (piece test F i t x y * piece trial F' j s x' y')) (v t s)) /\
    value = fold_right Rplus 0 (map (fun t => fold_right Rplus 0 (map (fun s => scaling (P t) * scaling (P' s) * v t s) (support trial j))) (support test i)).

(** The double layer: the derivative in the direction of the normal of the trial cell. *)
Definition double_integral ct test trial F F' P P' G :=
  cells_integral ct test trial F F' P P' (fun t s => directional G (cell_direction (P' s))).

(** The adjoint double layer: minus the derivative in the direction of the normal of the test cell. *)
Definition adjoint_integral ct test trial F F' P P' G :=
  cells_integral ct test trial F F' P P' (fun t s x y => - directional G (cell_direction (P t)) x y).
