(** * Specification vocabulary for the screens in floating point arithmetic *)
From Coq Require Import Reals.
From Verif Require Import Base Shapes SpecShapes SpecSphere SpecScreen SpecRounding SpecFloatSphere.

Local Open Scope R_scope.

(** The coordinate with numerator [k], [T::from(k).unwrap() / n] with
    [n = T::from(ncells + 1).unwrap()], src/shapes.rs:137-142 and 195-200: integers are
    rounded when they are converted, the quotient is rounded again. *)
Definition rounded_coordinate (rnd : R -> R) (ncells : nat) (k : nat) : R :=
  rnd (rnd (INR k) / rnd (INR (screen_denominator ncells))).

(** The points for given coordinates; the third one is [T::from(0.0)], src/shapes.rs:136. *)
Definition placed (coordinate : nat -> R) (b : builder (nat * nat)) : list vec :=
  map (fun p => (coordinate (fst p), coordinate (snd p), 0)) (points_of b).

(** The square from [lo] to [hi]. *)
Definition in_box (lo hi : R) (x : vec) : Prop :=
  exists u v, x = (u, v, 0) /\ lo <= u <= hi /\ lo <= v <= hi.
