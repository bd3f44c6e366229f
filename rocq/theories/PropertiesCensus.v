(** * Property C133: the isometries of the sphere grid *)
From Coq Require Import Reals.
From Verif Require Import Base Topology Shapes SpecShapes SpecSphere SpecWidth SpecSymmetry SpecTurns SpecWaves SpecCensus CensusResults CornerOrderResults.

Local Open Scope R_scope.

(** C133: the maps of space that keep distances and map cells to cells are the symmetries of the octahedron,
    at every level. *)
Theorem C133_only : forall L (b : builder vec) T, regular_sphere real_numbers L 1 = Ok b ->
  (rigid T /\ cells_mapped b T <-> exists k s t o, forall p, T p = octahedral k s t o p).
Proof. exact sphere_census. Qed.
Print Assumptions C133_only.

(** Each of them is counted once: six orders of the axes and three signs, 48 maps. *)
Theorem C133_once : forall L (b : builder vec) T, regular_sphere real_numbers L 1 = Ok b -> rigid T -> cells_mapped b T ->
  exists k s t o, ((k < 6)%nat /\ forall p, T p = octahedral k s t o p) /\
    forall k' s' t' o', (k' < 6)%nat -> (forall p, T p = octahedral k' s' t' o' p) -> k' = k /\ s' = s /\ t' = t /\ o' = o.
Proof. exact sphere_count. Qed.
Print Assumptions C133_once.

(** No level is symmetric under a rotation by another angle ... *)
Theorem C133_rotation : forall L (b : builder vec), regular_sphere real_numbers L 1 = Ok b -> rigid turned /\ ~ cells_mapped b turned.
Proof. exact turned_not. Qed.
Print Assumptions C133_rotation.

(** ... or under a translation. *)
Theorem C133_translation : forall L (b : builder vec) v, regular_sphere real_numbers L 1 = Ok b -> v <> origin -> rigid (vadd v) /\ ~ cells_mapped b (vadd v).
Proof. exact moved_not. Qed.
Print Assumptions C133_translation.

(** With the order of the vertices, as C97 asks for, exactly the eight turns of C97 are left. *)
Theorem C133_order : forall L (b : builder vec) T, regular_sphere real_numbers L 1 = Ok b ->
  (rigid T /\ mapped_in_order b T <-> exists k s t o, upright k s t o /\ forall p, T p = octahedral k s t o p).
Proof. exact order_census. Qed.
Print Assumptions C133_order.

(** Every level exists and has such maps. *)
Example C133_example : forall L, exists b : builder vec, regular_sphere real_numbers L 1 = Ok b /\
  rigid (octahedral 1 true false false) /\ cells_mapped b (octahedral 1 true false false) /\ octahedral 1 true false false (1, 2, 3) = (- (2), 3, 1).
Proof. exact census_example. Qed.

(** A third of a turn about a diagonal maps cells to cells, but at no level in order; half a turn about the first
    axis does so in order. *)
Example C133_order_example : forall L, exists b : builder vec, regular_sphere real_numbers L 1 = Ok b /\
  cells_mapped b (octahedral 1 false false false) /\ ~ mapped_in_order b (octahedral 1 false false false) /\
  mapped_in_order b (octahedral 0 false true true) /\ octahedral 0 false true true (1, 2, 3) = (1, - (2), - (3)).
Proof. exact order_census_example. Qed.
