(** * Specification vocabulary: integrals of a kernel times surface curls of functions of any degree *)
From Coq Require Import Reals.
From Verif Require Import Base Topology Space Scalar CellPair Operators SpecLocal Assembly SpecAssembly Shapes SpecSphere SpecTurns SpecWaves SpecDecay SpecDigits SpecMoments SpecDegree SpecPieces.

Local Open Scope R_scope.

(** The tabulated derivatives of the element in the directions of the reference cell are the
    derivatives [F1 a], [F2 a] of the functions [F a]; these are polynomials of degree at most
    [d]. *)
Definition element_slopes (fs : fspace R R) (ct : cell_type) (d : nat) (F F1 F2 : nat -> R -> R -> R) : Prop :=
  forall a, (a < el_dim (fs_family fs ct))%nat -> polynomial d (F1 a) /\ polynomial d (F2 a) /\
    (forall x y, derivable_pt_lim (fun z => F a z y) x (F1 a x y)) /\ (forall x y, derivable_pt_lim (fun z => F a x z) y (F2 a x y)) /\
    forall points p, fs_basis fs ct points 0 p a 0 = F a (nth (2 * p) points 0) (nth (2 * p + 1) points 0) /\
      fs_basis fs ct points 1 p a 0 = F1 a (nth (2 * p) points 0) (nth (2 * p + 1) points 0) /\
      fs_basis fs ct points 2 p a 0 = F2 a (nth (2 * p) points 0) (nth (2 * p + 1) points 0).

(** The surface curl of a function on a cell, from its derivatives in the two directions of the
    reference cell. *)
Definition swirl (T : vec * vec * vec) (s1 s2 : R) : vec :=
  vscale (1 / scaling T) (vsub (vscale s1 (vsub (third_corner T) (first_corner T))) (vscale s2 (vsub (second_corner T) (first_corner T)))).

(** The surface curl of function [i] of the space on cell [t]. *)
Definition piece_swirl (fs : fspace R R) (F1 F2 : nat -> R -> R -> R) (P : nat -> vec * vec * vec) (i t : nat) (x y : R) : vec :=
  swirl (P t) (piece fs F1 i t x y) (piece fs F2 i t x y).

(** The integral of a kernel times the inner product of the curls of function [i] of a space and
    function [j] of a space. *)
Definition swirls_integral (ct : cell_type) (test trial : fspace R R) (F1 F2 F1' F2' : nat -> R -> R -> R) (P P' : nat -> vec * vec * vec) (kernel : vec -> vec -> R) (i j : nat) (value : R) : Prop :=
  exists v, (forall t s, In t (support test i) -> In s (support trial j) ->
      pair_integral ct (fun x y x' y' => kernel (point_in (P t) x y) (point_in (P' s) x' y') * inner (piece_swirl test F1 F2 P i t x y) (piece_swirl trial F1' F2' P' j s x' y')) (v t s)) /\
    value = fold_right Rplus 0 (map (fun t => fold_right Rplus 0 (map (fun s => scaling (P t) * scaling (P' s) * v t s) (support trial j))) (support test i)).
