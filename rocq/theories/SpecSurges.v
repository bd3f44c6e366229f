(** * Specification vocabulary: integrals of the Helmholtz hypersingular operator *)
From Coq Require Import Reals.
From Verif Require Import Base Topology Space Scalar CellPair Operators SpecLocal Assembly SpecAssembly Shapes SpecSphere SpecTurns SpecWaves SpecDecay SpecDigits SpecMoments SpecDegree SpecPieces SpecFluxes SpecSwirls.

Local Open Scope R_scope.

(** The inner product of the surface curls of function [i] of the test space on cell [t] and
    function [j] of the trial space on cell [s], minus the square of the wavenumber times the
    inner product of the unit normals of the cells times the functions. *)
Definition surge (test trial : fspace R R) (F F1 F2 F' F1' F2' : nat -> R -> R -> R) (P P' : nat -> vec * vec * vec) (kappa : R) (i j t s : nat) (x y x' y' : R) : R :=
  inner (piece_swirl test F1 F2 P i t x y) (piece_swirl trial F1' F2' P' j s x' y') -
  kappa * kappa * inner (cell_direction (P t)) (cell_direction (P' s)) * (piece test F i t x y * piece trial F' j s x' y').

(** The integral of a kernel times this. *)
Definition surges_integral (ct : cell_type) (test trial : fspace R R) (F F1 F2 F' F1' F2' : nat -> R -> R -> R) (P P' : nat -> vec * vec * vec) (kappa : R) (kernel : vec -> vec -> R) (i j : nat) (value : R) : Prop :=
  exists v, (forall t s, In t (support test i) -> In s (support trial j) ->
      pair_integral ct (fun x y x' y' => kernel (point_in (P t) x y) (point_in (P' s) x' y') * surge test trial F F1 F2 F' F1' F2' P P' kappa i j t s x y x' y') (v t s)) /\
    value = fold_right Rplus 0 (map (fun t => fold_right Rplus 0 (map (fun s => scaling (P t) * scaling (P' s) * v t s) (support trial j))) (support test i)).
