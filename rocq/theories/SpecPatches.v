(** * Specification vocabulary: functions and integrals on the cells around a vertex *)
From Coq Require Import Reals.
From Verif Require Import Base Topology Shapes SpecShapes SpecSphere SpecWaves SpecDecay SpecDefinite SpecDegree SpecRims.

Local Open Scope R_scope.

(** The point of the triangle with vertices [c] that belongs to the point [(x, y)] of the
    reference triangle, and twice the area of the triangle. *)
Definition point_of (V : nat -> vec) (c : list nat) (x y : R) : vec :=
  match c with [u; v; w] => vadd (V u) (vadd (vscale x (vsub (V v) (V u))) (vscale y (vsub (V w) (V u)))) | _ => origin end.
Definition density (V : nat -> vec) (c : list nat) : R :=
  match c with [u; v; w] => sqrt (inner (normal (V u) (V v) (V w)) (normal (V u) (V v) (V w))) | _ => 0 end.

(** The linear function that is one at vertex [z] and zero at the others, and its surface
    curl. *)
Definition hat (z : nat) (c : list nat) (x y : R) : R :=
  match c with [u; v; w] => if z =? u then 1 - x - y else if z =? v then x else if z =? w then y else 0 | _ => 0 end.
Definition hat_curl (V : nat -> vec) (z : nat) (c : list nat) : vec := vscale (/ density V c) (edge_opposite V z c).

(** The cells around a vertex, and their area. *)
Definition around (g : grid) (z : nat) : list (list nat) := filter (memb z) (vertex_lists g).
Definition patch_area (g : grid) (V : nat -> vec) (z : nat) : R := fold_right Rplus 0 (map (fun c => density V c / 2) (around g z)).

(** The sum over the pairs of a cell around [z] and a cell around [z']. *)
Definition patch_sum (g : grid) (z z' : nat) (f : list nat -> list nat -> R) : R :=
  fold_right Rplus 0 (map (fun c => fold_right Rplus 0 (map (f c) (around g z'))) (around g z)).

(** The integral of a kernel times the functions of [z] and [z'], and of the kernel times
    the product of their curls. *)
Definition hats_integral (g : grid) (V : nat -> vec) (kernel : vec -> vec -> R) (z z' : nat) (value : R) : Prop :=
  exists v, (forall c c', In c (around g z) -> In c' (around g z') ->
      pair_integral Triangle (fun x y x' y' => kernel (point_of V c x y) (point_of V c' x' y') * (hat z c x y * hat z' c' x' y')) (v c c')) /\
    value = patch_sum g z z' (fun c c' => density V c * density V c' * v c c').
Definition curls_integral (g : grid) (V : nat -> vec) (kernel : vec -> vec -> R) (z z' : nat) (value : R) : Prop :=
  exists v, (forall c c', In c (around g z) -> In c' (around g z') ->
      pair_integral Triangle (fun x y x' y' => kernel (point_of V c x y) (point_of V c' x' y')) (v c c')) /\
    value = patch_sum g z z' (fun c c' => inner (hat_curl V z c) (hat_curl V z' c') * (density V c * density V c' * v c c')).
