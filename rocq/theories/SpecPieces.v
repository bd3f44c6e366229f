(** * Specification vocabulary: the functions of a space on the cells, and integrals *)
From Coq Require Import Reals.
From Verif Require Import Base Topology Space Scalar CellPair Operators SpecLocal Assembly SpecAssembly Shapes SpecSphere SpecTurns SpecWaves SpecDecay SpecDigits SpecMoments SpecDegree.

Local Open Scope R_scope.

(** Polynomials of degree at most [d] in two variables. *)
Definition polynomial (d : nat) (f : R -> R -> R) : Prop :=
  exists c : nat -> nat -> R, forall x y,
    f x y = fold_right Rplus 0 (map (fun i => fold_right Rplus 0 (map (fun j => c i j * (x ^ i * y ^ j)) (seq 0 (d + 1 - i)))) (seq 0 (d + 1))).

(** [F a] is function number [a] of the element on cells of type [ct]; the functions are
    polynomials of degree at most [d]. *)
Definition element_functions (fs : fspace R R) (ct : cell_type) (d : nat) (F : nat -> R -> R -> R) : Prop :=
  forall a, (a < el_dim (fs_family fs ct))%nat -> polynomial d (F a) /\
    forall points p, fs_basis fs ct points 0 p a 0 = F a (nth (2 * p) points 0) (nth (2 * p + 1) points 0).

(** Function number [i] of the space on cell [t], as a function on the reference cell. *)
Definition piece (fs : fspace R R) (F : nat -> R -> R -> R) (i t : nat) (x y : R) : R :=
  fold_right Rplus 0 (map (fun ak => if snd ak =? i then F (fst ak) x y else 0) (enumerate (dofs_at fs t))).

(** Cells given by three corners. *)
Definition first_corner (T : vec * vec * vec) : vec := fst (fst T).
Definition second_corner (T : vec * vec * vec) : vec := snd (fst T).
Definition third_corner (T : vec * vec * vec) : vec := snd T.
Definition point_in (T : vec * vec * vec) (x y : R) : vec :=
  vadd (first_corner T) (vadd (vscale x (vsub (second_corner T) (first_corner T))) (vscale y (vsub (third_corner T) (first_corner T)))).
Definition scaling (T : vec * vec * vec) : R :=
  sqrt (inner (normal (first_corner T) (second_corner T) (third_corner T)) (normal (first_corner T) (second_corner T) (third_corner T))).
Definition flat_grid (X : externals R) (g : grid) (ct : cell_type) (P : nat -> vec * vec * vec) : Prop :=
  forall t, (t < ent_count g 2)%nat -> forall points, flat_cell points (first_corner (P t)) (second_corner (P t)) (third_corner (P t)) (x_geometry X g ct points t).

(** The cells on which function [i] does not vanish, their area, and a ball around them. *)
Definition support (fs : fspace R R) (i : nat) : list nat := filter (fun t => memb i (dofs_at fs t)) (seq 0 (ent_count (fs_grid fs) 2)).
Definition support_area (fs : fspace R R) (ct : cell_type) (P : nat -> vec * vec * vec) (i : nat) : R :=
  fold_right Rplus 0 (map (fun t => cell_area ct (first_corner (P t)) (second_corner (P t)) (third_corner (P t))) (support fs i)).
Definition supported_in (fs : fspace R R) (ct : cell_type) (P : nat -> vec * vec * vec) (i : nat) (c : vec) (h : R) : Prop :=
  forall t, In t (support fs i) ->
    distance (point_in (P t) 0 0) c <= h /\ distance (point_in (P t) 1 0) c <= h /\ distance (point_in (P t) 0 1) c <= h /\ (ct = Quadrilateral -> distance (point_in (P t) 1 1) c <= h).

(** The integral of a kernel times function [i] of a space and function [j] of a space. *)
Definition functions_integral (ct : cell_type) (test trial : fspace R R) (F F' : nat -> R -> R -> R) (P P' : nat -> vec * vec * vec) (kernel : vec -> vec -> R) (i j : nat) (value : R) : Prop :=
  exists v, (forall t s, In t (support test i) -> In s (support trial j) ->
      pair_integral ct (fun x y x' y' => kernel (point_in (P t) x y) (point_in (P' s) x' y') * (piece test F i t x y * piece trial F' j s x' y')) (v t s)) /\
    value = fold_right Rplus 0 (map (fun t => fold_right Rplus 0 (map (fun s => scaling (P t) * scaling (P' s) * v t s) (support trial j))) (support test i)).
