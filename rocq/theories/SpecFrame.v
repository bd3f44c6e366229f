(** * Specification for the isometries of the screens *)
From Coq Require Import Reals Permutation.
From Verif Require Import Base Shapes SpecShapes SpecSphere SpecScreen.

Local Open Scope R_scope.

(** The positions of the vertices of a cell. *)
Definition cell_positions (n : nat) (b : builder (nat * nat)) (c : nat) (ps : list vec) : Prop :=
  exists vs, nth_error (cells_of b) c = Some vs /\ Forall2 (fun v p => nth_error (screen_positions n b) v = Some p) vs ps.

(** The image of every cell is a cell. *)
Definition screen_mapped (n : nat) (b : builder (nat * nat)) (T : vec -> vec) : Prop :=
  forall c ps, cell_positions n b c ps -> exists c' ps', cell_positions n b c' ps' /\ Permutation ps' (map T ps).

(** The image of every cell is a cell with the order of its vertices. *)
Definition screen_mapped_in_order (n : nat) (b : builder (nat * nat)) (T : vec -> vec) : Prop :=
  forall c ps, cell_positions n b c ps -> exists c', cell_positions n b c' (map T ps).

(** The symmetries of the square with corners [(0, 0, 0)] and [(a, a, 0)]: exchange the first two coordinates or
    not, reflect each of them or not, and reflect the third coordinate or not. *)
Definition square_map (a : R) (swap f g h : bool) (p : vec) : vec :=
  let '(x, y, z) := p in let u := if swap then y else x in let v := if swap then x else y in
  (if f then a - u else u, if g then a - v else v, if h then - z else z).
