(** * Specification vocabulary: surface curls that are combinations of other functions *)
From Verif Require Import Base Topology DofMap Process Space Scalar Integrand CellPair Operators SpecLocal Interleave Assembly SpecAssembly SpecGalerkin.

Section Curls.
Context {T R : Type} (S : scalar T R) (X : externals R).

(** The geometry of cell [c] at the points. *)
Definition cell_of (fs : fspace T R) (c : nat) (points : list R) : cell_map R := x_geometry X (fs_grid fs) (g_ctype (fs_grid fs) c) points c.

(** Component [n] of the surface curl of basis function [i] on cell [c], at point number
    [p] of [points]. *)
Definition surface_curl (fs : fspace T R) (c i : nat) (points : list R) (n p : nat) : T :=
  s_div S (curl S (cell_of fs c points) p (fun d => restricted S fs c i points d p) n) (jdet S (cell_of fs c points) p).

(** Component [n] of the normal times basis function [i]. *)
Definition normal_times (fs : fspace T R) (c i : nat) (points : list R) (n p : nat) : T :=
  s_mul S (normal S (cell_of fs c points) p n) (restricted S fs c i points 0 p).

(** The three components of [u] of basis function [i] of [fs] are combinations of the
    values of the basis functions of [fine], with the coefficients [C n k i]. *)
Definition spanned (u : fspace T R -> nat -> nat -> list R -> nat -> nat -> T) (fs fine : fspace T R) (C : nat -> nat -> nat -> T) : Prop :=
  fs_grid fine = fs_grid fs /\
  forall c i points n p, c < ent_count (fs_grid fs) 2 -> i < global_size (fs_space fs) -> n < 3 -> 2 * (p + 1) <= length points ->
    u fs c i points n p = total S (seq 0 (global_size (fs_space fine))) (fun k => s_mul S (C n k i) (restricted S fine c k points 0 p)).

(** Entry [(i, j)] of the sum of C_n' E D_n over the three components. *)
Definition three_products (C D : nat -> nat -> nat -> T) (rows cols : nat) (e : nat -> nat -> T) (i j : nat) : T :=
  total S (seq 0 3) (fun n => projected S (C n) (D n) rows cols e i j).

End Curls.
