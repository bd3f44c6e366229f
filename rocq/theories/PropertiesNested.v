(** * Properties C81 and C82: refinement of the sphere *)
From Coq Require Import Reals.
From Verif Require Import Base BaseFacts Topology Shapes SpecShapes SpecSphere SpecNested NestedResults.

(** C81: each refinement keeps the points and their numbers, appends one point per
    edge and replaces cell [k] by the cells [4 k] to [4 k + 3]. *)
Theorem C81_nested : forall R L b b', regular_sphere R L 1 = Ok b -> regular_sphere R (S L) 1 = Ok b' ->
  exists np m, points_of b' = points_of b ++ np /\ length np = 12 * 4 ^ L /\ length (cells_of b') = 4 * length (cells_of b) /\
    quartered m (cells_of b) (cells_of b') /\
    (forall c u v, In c (cells_of b) -> In (u, v) (directed_edges c) ->
       exists p q x, nth_error (points_of b) u = Some p /\ nth_error (points_of b) v = Some q /\
         nth_error (points_of b') (m u v) = Some x /\ length (points_of b) <= m u v /\
         (x = edge_midpoint R p q \/ x = edge_midpoint R q p)) /\
    (forall c c' u v u' v', In c (cells_of b) -> In c' (cells_of b) -> In (u, v) (directed_edges c) -> In (u', v') (directed_edges c') ->
       m u v = m u' v' -> (u = u' /\ v = v') \/ (u = v' /\ v = u')).
Proof. exact nested_levels. Qed.
Print Assumptions C81_nested.

Example C81_first_levels : forall R, exists b b', regular_sphere R 0 1 = Ok b /\ regular_sphere R 1 1 = Ok b' /\
  nth_error (cells_of b) 0 = Some [0; 1; 2] /\
  firstn 4 (cells_of b') = [[0; 8; 7]; [1; 6; 8]; [2; 7; 6]; [6; 7; 8]].
Proof. exact nested_example. Qed.

(** C82: the memory reserved for the cells of a refinement is neither enough in
    general nor within a fixed multiple of what they take. *)
Theorem C82_reserved_refuted :
  (exists R L b, regular_sphere R (S L) 1 = Ok b /\ new_cells_capacity L < length (cells_of b)) /\
  (forall K, exists L, forall R b, regular_sphere R (S L) 1 = Ok b -> K * length (cells_of b) < new_cells_capacity L).
Proof. exact reserved_refuted. Qed.
Print Assumptions C82_reserved_refuted.

Theorem C82_enough_from_level_4 : forall R L b, regular_sphere R (S L) 1 = Ok b ->
  (length (cells_of b) <= new_cells_capacity L <-> 4 <= L).
Proof. exact reserved_enough. Qed.
Print Assumptions C82_enough_from_level_4.

Local Open Scope R_scope.

(** Over the real numbers the new point of an edge is the midpoint of the arc ... *)
Theorem C81_midpoints : forall L b b', regular_sphere real_numbers L 1 = Ok b -> regular_sphere real_numbers (S L) 1 = Ok b' ->
  exists m, quartered m (cells_of b) (cells_of b') /\
  forall c u v, In c (cells_of b) -> In (u, v) (directed_edges c) ->
  exists (p q x : vec) s, nth_error (points_of b) u = Some p /\ nth_error (points_of b) v = Some q /\ nth_error (points_of b') (m u v) = Some x /\
    0 < s /\ x = vscale s (vadd p q) /\ inner x x = 1.
Proof. exact nested_midpoints. Qed.
Print Assumptions C81_midpoints.

(** ... and the rays that meet a cell are those that meet one of its four cells. *)
Theorem C81_cones : forall L b b' k c, regular_sphere real_numbers L 1 = Ok b -> regular_sphere real_numbers (S L) 1 = Ok b' ->
  nth_error (cells_of b) k = Some c -> forall x,
  ((exists w, in_cone (points_of b) c w x) <->
   (exists j ch w, (j < 4)%nat /\ nth_error (cells_of b') (4 * k + j) = Some ch /\ in_cone (points_of b') ch w x)).
Proof. exact nested_cones. Qed.
Print Assumptions C81_cones.
