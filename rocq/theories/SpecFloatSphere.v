(** * Specification vocabulary for the sphere in floating point arithmetic *)
From Coq Require Import Reals.
From Verif Require Import Base Topology Shapes SpecShapes SpecSphere SpecWidth SpecRounding.

Local Open Scope R_scope.

(** A way to round with relative errors of at most [u] (no overflow and underflow). *)
Definition relative (u : R) (rnd : R -> R) : Prop := forall x, Rabs (rnd x - x) <= u * Rabs x.

(** The arithmetic that rounds the result of each operation; changes of signs and the
    numbers 0, 1 and 1/2 are exact. *)
Definition rounded (rnd : R -> R) : real_ops :=
  mkRealOps R 0 1 (1 / 2) Ropp (fun x y => rnd (x + y)) (fun x y => rnd (x * y)) (fun x y => rnd (x / y)) (fun x => rnd (sqrt x)).

(** Distance of two points. *)
Definition distance (p q : vec) : R := sqrt (chord2 p q).
