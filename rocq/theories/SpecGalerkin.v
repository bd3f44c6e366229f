(** * Specification vocabulary: spaces contained in other spaces *)
From Verif Require Import Base Topology DofMap Process Space Scalar Assembly SpecAssembly.

Section Galerkin.
Context {T R : Type} (S : scalar T R).

(** Basis function [i] of a space on cell [c]: its derivative number [d] (0: value; 1, 2:
    first derivatives) at point number [p] of [points].  It is zero on the cells without
    DOF [i]. *)
Definition restricted (fs : fspace T R) (c i : nat) (points : list R) (d p : nat) : T :=
  total S (enumerate (dofs_at fs c)) (fun ai =>
    if snd ai =? i then fs_basis fs (g_ctype (fs_grid fs) c) points d p (fst ai) 0 else s_zero S).

(** Every basis function of [coarse] is a combination of the basis functions of [fine]:
    function [i] is the sum of [P k i] times function [k]. *)
Definition contained (coarse fine : fspace T R) (P : nat -> nat -> T) : Prop :=
  fs_grid fine = fs_grid coarse /\
  forall c i points d p, c < ent_count (fs_grid coarse) 2 -> i < global_size (fs_space coarse) -> d < 3 -> 2 * (p + 1) <= length points ->
    restricted coarse c i points d p =
      total S (seq 0 (global_size (fs_space fine))) (fun k => s_mul S (P k i) (restricted fine c k points d p)).

(** Entry [(i, j)] of P' E Q. *)
Definition projected (P Q : nat -> nat -> T) (rows cols : nat) (e : nat -> nat -> T) (i j : nat) : T :=
  total S (seq 0 rows) (fun k => total S (seq 0 cols) (fun l => s_mul S (s_mul S (P k i) (e k l)) (Q l j))).

End Galerkin.

(** One constant function on each cell; [one] is the unit of the scalars. *)
Record constants {T R : Type} (S : scalar T R) (one : T) (fs : fspace T R) : Prop := {
  co_dim : forall t, In t (g_types (fs_grid fs) 2) -> el_dim (fs_family fs t) = 1;
  co_value : forall t points p, fs_basis fs t points 0 p 0 0 = one;
  co_derivs : forall t points d p, d = 1 \/ d = 2 -> fs_basis fs t points d p 0 0 = s_zero S
}.

(** The functions of each cell add up to one. *)
Definition adds_to_one {T R : Type} (S : scalar T R) (one : T) (fs : fspace T R) : Prop :=
  forall t points p, In t (g_types (fs_grid fs) 2) ->
    total S (seq 0 (el_dim (fs_family fs t))) (fun b => fs_basis fs t points 0 p b 0) = one /\
    forall d, d = 1 \/ d = 2 -> total S (seq 0 (el_dim (fs_family fs t))) (fun b => fs_basis fs t points d p b 0) = s_zero S.

(** DOF [k] of [fine] and DOF [i] of [coarse] have a cell in common. *)
Definition same_cell {T R : Type} (coarse fine : fspace T R) (k i : nat) : bool :=
  existsb (fun c => memb i (dofs_at coarse c) && memb k (dofs_at fine c)) (seq 0 (ent_count (fs_grid coarse) 2)).
