(** * Specification vocabulary for the geometry of the sphere *)
From Coq Require Import Reals.
From Verif Require Import Base Shapes.

Local Open Scope R_scope.

(** The real numbers as scalar type. *)
Definition real_numbers : real_ops := mkRealOps R 0 1 (1 / 2) Ropp Rplus Rmult Rdiv sqrt.

Definition vec : Type := (R * R * R)%type.
Definition origin : vec := (0, 0, 0).
Definition vadd (p q : vec) : vec := let '(a, b, c) := p in let '(x, y, z) := q in (a + x, b + y, c + z).
Definition vscale (s : R) (p : vec) : vec := let '(a, b, c) := p in (s * a, s * b, s * c).
Definition vsub (p q : vec) : vec := let '(a, b, c) := p in let '(x, y, z) := q in (a - x, b - y, c - z).
Definition inner (p q : vec) : R := let '(a, b, c) := p in let '(x, y, z) := q in a * x + b * y + c * z.
Definition cross (p q : vec) : vec :=
  let '(a, b, c) := p in let '(x, y, z) := q in (b * z - c * y, c * x - a * z, a * y - b * x).

(** The normal of a triangle whose vertices are counter-clockwise when seen from its
    tip. *)
Definition normal (p q r : vec) : vec := cross (vsub q p) (vsub r p).

(** The position of a vertex (every vertex is below the number of points). *)
Definition position (pts : list vec) (v : nat) : vec := nth v pts origin.

(** The sum of the positions of the vertices [c] with weights [w]. *)
Fixpoint combination (pts : list vec) (w : nat -> R) (c : list nat) : vec :=
  match c with
  | [] => origin
  | v :: c' => vadd (vscale (w v) (position pts v)) (combination pts w c')
  end.

(** [x] is in the cone of cell [c], with weights [w]: the ray from the origin through
    [x] meets the cell. *)
Definition in_cone (pts : list vec) (c : list nat) (w : nat -> R) (x : vec) : Prop :=
  (forall v, 0 <= w v) /\ (forall v, ~ In v c -> w v = 0) /\ x = combination pts w c.
