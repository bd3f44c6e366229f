(** * Specification vocabulary: linear functions on flat triangles, quadratic forms, connected surfaces *)
From Coq Require Import Reals.
From Verif Require Import Base Topology DofMap SpecDof Process Space Scalar Integrand CellPair Operators SpecLocal Interleave Assembly SpecAssembly
  SpecRounding Shapes SpecShapes SpecSphere SpecWidth SpecSymmetry SpecAutomorphism SpecTurns.

Local Open Scope R_scope.

(** The linear functions on the reference triangle, with their derivatives: function [a]
    is one at corner [a]. *)
Definition linear_functions (fs : fspace R R) : Prop :=
  forall points p a, (a < 3)%nat ->
    fs_basis fs Triangle points 0 p a 0 =
      nth a [1 - nth (2 * p) points 0 - nth (2 * p + 1) points 0; nth (2 * p) points 0; nth (2 * p + 1) points 0] 0 /\
    fs_basis fs Triangle points 1 p a 0 = nth a [-1; 1; 0] 0 /\
    fs_basis fs Triangle points 2 p a 0 = nth a [-1; 0; 1] 0.

(** The cells are the flat triangles with vertices at the positions [V]. *)
Definition flat_triangles (X : externals R) (g : grid) (V : nat -> vec) : Prop :=
  forall c, (c < ent_count g 2)%nat -> exists u v w, g_sub g c 0 = [u; v; w] /\
    forall points, flat_cell points (V u) (V v) (V w) (x_geometry X g Triangle points c).

(** Their vertices are not on a line. *)
Definition proper_triangles (g : grid) (V : nat -> vec) : Prop :=
  forall c u v w, (c < ent_count g 2)%nat -> g_sub g c 0 = [u; v; w] -> normal (V u) (V v) (V w) <> origin.

(** The edge opposite corner [a], in the direction against that of the boundary. *)
Definition opposite (a : nat) (p q r : vec) : vec :=
  match a with 0%nat => vsub q r | 1%nat => vsub r p | _ => vsub p q end.

(** Component [n] of that edge, divided by twice the area. *)
Definition edge_curl (a : nat) (p q r : vec) (n : nat) : R :=
  coordinate n (opposite a p q r) / sqrt (inner (normal p q r) (normal p q r)).

(** The matrix has the entries [e] (column by column). *)
Definition has_entries (n : nat) (m : list R) (e : nat -> nat -> R) : Prop :=
  forall i j, (i < n)%nat -> (j < n)%nat -> nth_error m (i + n * j) = Some (e i j).

(** The quadratic form of a matrix. *)
Definition form (n : nat) (e : nat -> nat -> R) (y : nat -> R) : R :=
  total reals (seq 0 n) (fun k => total reals (seq 0 n) (fun l => y k * e k l * y l)).
Definition semidefinite (n : nat) (e : nat -> nat -> R) : Prop := forall y, 0 <= form n e y.
Definition definite (n : nat) (e : nat -> nat -> R) : Prop :=
  forall y, 0 <= form n e y /\ (form n e y = 0 -> forall k, (k < n)%nat -> y k = 0).

(** The matrix times a vector. *)
Definition times (n : nat) (e : nat -> nat -> R) (y : nat -> R) (i : nat) : R := total reals (seq 0 n) (fun j => e i j * y j).

(** Vertex [v] can be reached from vertex [u] by going from cell to cell over common
    vertices. *)
Inductive chain (cells : list (list nat)) : nat -> nat -> Prop :=
| chain_refl : forall u, chain cells u u
| chain_step : forall u v w c, chain cells u v -> In c cells -> In v c -> In w c -> chain cells u w.

(** All vertices of cells can be reached from each other. *)
Definition connected (cells : list (list nat)) : Prop :=
  forall c d u v, In c cells -> In d cells -> In u c -> In v d -> chain cells u v.

(** The vertices of the cells of a grid. *)
Definition vertex_lists (g : grid) : list (list nat) := map (fun c => g_sub g c 0) (seq 0 (ent_count g 2)).

(** The form is zero exactly at the constant vectors, and these are the vectors that the
    matrix takes to zero. *)
Definition kernel_of_constants (n : nat) (w : nat -> nat -> R) : Prop := forall x,
  (form n w x = 0 <-> exists a, forall i, (i < n)%nat -> x i = a) /\
  ((forall i, (i < n)%nat -> times n w x i = 0) <-> exists a, forall i, (i < n)%nat -> x i = a).

Definition symmetric_entries (n : nat) (e : nat -> nat -> R) : Prop := forall i j, (i < n)%nat -> (j < n)%nat -> e i j = e j i.
