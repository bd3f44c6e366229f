(** * Specification vocabulary for nested levels of the sphere *)
From Verif Require Import Base.

(** Each cell of the coarse level has four consecutive cells of the fine level: one
    at each of its vertices, and one in the middle, with the vertex [m u v] on the
    edge between [u] and [v]. *)
Definition quartered (m : nat -> nat -> nat) (coarse fine : list (list nat)) : Prop :=
  (forall u v, m u v = m v u) /\
  forall k c, nth_error coarse k = Some c -> exists u v w, c = [u; v; w] /\
    nth_error fine (4 * k) = Some [u; m u v; m u w] /\
    nth_error fine (4 * k + 1) = Some [v; m v w; m v u] /\
    nth_error fine (4 * k + 2) = Some [w; m w u; m w v] /\
    nth_error fine (4 * k + 3) = Some [m v w; m w u; m u v].
