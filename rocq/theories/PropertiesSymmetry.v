(** * Property C89: symmetry of the sphere *)
From Coq Require Import Reals.
From Verif Require Import Base BaseFacts Topology Shapes SpecShapes SpecSphere SpecWidth SpecSymmetry SymmetryResults.

Local Open Scope R_scope.

(** C89: each of the 48 symmetries of the octahedron maps cells to cells ... *)
Theorem C89_cells : forall L (b : builder vec) k s t o, regular_sphere real_numbers L 1 = Ok b -> cells_mapped b (octahedral k s t o).
Proof. exact sphere_symmetric. Qed.
Print Assumptions C89_cells.

(** ... and points to points. *)
Theorem C89_points : forall L (b : builder vec) k s t o p, regular_sphere real_numbers L 1 = Ok b -> In p (points_of b) -> In (octahedral k s t o p) (points_of b).
Proof. exact points_symmetric. Qed.
Print Assumptions C89_points.

(** The 48 maps keep inner products, can be undone by one of them and differ. *)
Theorem C89_isometries : forall k s t o p q, inner (octahedral k s t o p) (octahedral k s t o q) = inner p q.
Proof. exact octahedral_isometry. Qed.
Print Assumptions C89_isometries.

Theorem C89_inverses : forall k s t o, exists k' s' t' o', forall p, octahedral k' s' t' o' (octahedral k s t o p) = p.
Proof. exact octahedral_inverse. Qed.
Print Assumptions C89_inverses.

Theorem C89_different : forall k s t o k' s' t' o', (k < 6)%nat -> (k' < 6)%nat ->
  octahedral k s t o (1, 2, 3) = octahedral k' s' t' o' (1, 2, 3) -> k = k' /\ s = s' /\ t = t' /\ o = o'.
Proof. exact octahedral_different. Qed.
Print Assumptions C89_different.

(** A map that is not among them does not map the points of the octahedron to points. *)
Example C89_not_every_map : exists (b : builder vec) p, regular_sphere real_numbers 0 1 = Ok b /\ In p (points_of b) /\ ~ In (turned p) (points_of b).
Proof. exact other_map. Qed.

(** That map keeps inner products too. *)
Example C89_not_every_isometry : forall p q, inner (turned p) (turned q) = inner p q.
Proof. intros [[x y] z] [[x' y'] z']. unfold inner, turned. field. Qed.
