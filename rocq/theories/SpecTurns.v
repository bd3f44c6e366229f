(** * Specification vocabulary: matrices on the sphere and turns of the sphere *)
From Coq Require Import Reals.
From Verif Require Import Base Topology Scalar Integrand CellPair Operators Assembly Shapes SpecShapes SpecSphere SpecWidth SpecSymmetry Space SpecAssembly SpecAutomorphism.

Local Open Scope R_scope.

(** The eight turns of the octahedron that keep the third axis (up to its direction):
    an even number of reversed axes, and an odd number if the first two are swapped. *)
Definition upright (k : nat) (s t o : bool) : Prop :=
  (k = 0%nat /\ xorb s (xorb t o) = false) \/ (k = 3%nat /\ xorb s (xorb t o) = true).

(** The image of every cell is a cell with the corners in the same order. *)
Definition mapped_in_order (b : builder vec) (T : vec -> vec) : Prop :=
  forall k p q r, corners_of b k p q r -> exists k', corners_of b k' (T p) (T q) (T r).

(** Cell number [tau k] is the image of cell number [k]. *)
Definition carries (b : builder vec) (T : vec -> vec) (tau : nat -> nat) : Prop :=
  forall k p q r, corners_of b k p q r -> corners_of b (tau k) (T p) (T q) (T r).

Definition coordinate (i : nat) (p : vec) : R := let '(x, y, z) := p in match i with 0%nat => x | 1%nat => y | _ => z end.

(** The geometry of the flat triangle with the given corners, at the points of the
    reference triangle given by [points] (two coordinates each): position, normal of
    length one, columns of the Jacobian, and ratio of areas. *)
Record flat_cell (points : list R) (p q r : vec) (x : cell_map R) : Prop := {
  fc_point : forall j i, (i < 3)%nat ->
    cm_point x j i = coordinate i p + nth (2 * j) points 0 * coordinate i (vsub q p) + nth (2 * j + 1) points 0 * coordinate i (vsub r p);
  fc_normal : forall j i, (i < 3)%nat -> cm_normal x j i = coordinate i (normal p q r) / sqrt (inner (normal p q r) (normal p q r));
  fc_first : forall j i, (i < 3)%nat -> cm_jacobian x j i = coordinate i (vsub q p);
  fc_second : forall j i, (i < 3)%nat -> cm_jacobian x j (3 + i) = coordinate i (vsub r p);
  fc_area : forall j, cm_jdet x j = sqrt (inner (normal p q r) (normal p q r))
}.

(** The geometry of the grid [g] is that of flat triangles. *)
Definition flat_cells (X : externals R) (g : grid) (b : builder vec) : Prop :=
  forall t points k p q r, corners_of b k p q r -> flat_cell points p q r (x_geometry X g t points k).

(** A Green's function that depends on the distance only, and whose gradient has the
    direction of the line through the points. *)
Definition radial {T : Type} (S : scalar T R) (G : @green T R) : Prop :=
  exists phi psi : R -> T,
    (forall x y, G 0%nat x y = phi (chord2 x y)) /\
    forall i x y, (i < 3)%nat -> G (1 + i)%nat x y = s_mul S (psi (chord2 x y)) (s_cast S (coordinate i (vsub x y))).

(** For every two cells, the functions on the first have the same entries among
    themselves as the functions with the same local numbers on the second. *)
Definition like_blocks {T R : Type} (test trial : fspace T R) (m : list T) : Prop :=
  forall c c' a a' i j i' j', (c < ent_count (fs_grid test) 2)%nat -> (c' < ent_count (fs_grid test) 2)%nat ->
    nth_error (dofs_at test c) a = Some i -> nth_error (dofs_at trial c) a' = Some j ->
    nth_error (dofs_at test c') a = Some i' -> nth_error (dofs_at trial c') a' = Some j' ->
    exists x, entry_at (global_size (fs_space test)) m i j = Some x /\ entry_at (global_size (fs_space test)) m i' j' = Some x.
