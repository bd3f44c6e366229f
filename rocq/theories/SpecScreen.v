(** * Specification vocabulary for the geometry of the screens *)
From Coq Require Import Reals.
From Verif Require Import Base Shapes SpecShapes SpecSphere.

Local Open Scope R_scope.

(** The coordinates of a point that is kept as the pair of its numerators. *)
Definition screen_position (ncells : nat) (p : nat * nat) : vec :=
  (INR (fst p) / INR (screen_denominator ncells), INR (snd p) / INR (screen_denominator ncells), 0).

Definition screen_positions (ncells : nat) (b : builder (nat * nat)) : list vec :=
  map (screen_position ncells) (points_of b).

(** [x] is the point of the triangle [c] with barycentric coordinates [w]. *)
Definition in_triangle (pts : list vec) (c : list nat) (w : nat -> R) (x : vec) : Prop :=
  in_cone pts c w x /\ fold_right Rplus 0 (map w c) = 1.

(** [x] is the point of the quadrilateral [c] with reference coordinates [(s, t)];
    [w] are the values of the bilinear functions of the vertices. *)
Definition in_quadrilateral (pts : list vec) (c : list nat) (w : nat -> R) (x : vec) : Prop :=
  exists s t, 0 <= s <= 1 /\ 0 <= t <= 1 /\
    map w c = [(1 - s) * (1 - t); s * (1 - t); (1 - s) * t; s * t] /\
    (forall v, ~ In v c -> w v = 0) /\ x = combination pts w c.

(** The square with corners [(0, 0, 0)] and [(a, a, 0)]. *)
Definition in_square (a : R) (x : vec) : Prop :=
  exists u v, x = (u, v, 0) /\ 0 <= u <= a /\ 0 <= v <= a.
