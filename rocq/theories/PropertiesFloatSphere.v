(** * Property C90: the sphere in floating point arithmetic *)
From Coq Require Import Reals.
From Verif Require Import Base Topology Shapes SpecShapes SpecSphere SpecWidth SpecRounding RoundingModels SpecFloatSphere FloatSphereNear FloatSphereError FloatSphereResults.

Local Open Scope R_scope.

(** The cells do not depend on the arithmetic. *)
Theorem C90_same_cells : forall R R' L b b', regular_sphere R L 1 = Ok b -> regular_sphere R' L 1 = Ok b' -> cells_of b' = cells_of b.
Proof. exact same_cells. Qed.
Print Assumptions C90_same_cells.

(** Errors in the lengths of the points do not grow with the level. *)
Theorem C90_norms : forall u, 0 <= u < 1 -> forall rnd, relative u rnd -> growth u 16 <= 6 / 5 ->
  forall L (b : builder vec) p, regular_sphere (rounded rnd) L 1 = Ok b -> In p (points_of b) -> / growth u 16 <= inner p p <= growth u 16.
Proof. exact norms_stay. Qed.
Print Assumptions C90_norms.

(** The distance of a point from the exact one grows at most linearly with the level. *)
Theorem C90_points : forall u, 0 <= u < 1 -> forall rnd, relative u rnd ->
  forall L (b b' : builder vec) i p p', (growth u 8 - 1) * (INR L * INR L) <= 1 / 4 ->
  regular_sphere real_numbers L 1 = Ok b -> regular_sphere (rounded rnd) L 1 = Ok b' ->
  nth_error (points_of b) i = Some p -> nth_error (points_of b') i = Some p' -> distance p' p <= 2 * INR L * (growth u 8 - 1).
Proof. exact points_error. Qed.
Print Assumptions C90_points.

(** Numbers with mantissas of [n] bits. *)
Theorem C90_bits : forall n, relative ((/ 2) ^ n) (fl n).
Proof. exact fl_relative. Qed.
Print Assumptions C90_bits.

Theorem C90_bits_points : forall n L, (7 <= n)%nat -> 400 * (INR L * 2 ^ L) <= 2 ^ n -> forall b b' i p p',
  regular_sphere real_numbers L 1 = Ok b -> regular_sphere (rounded (fl n)) L 1 = Ok b' ->
  nth_error (points_of b) i = Some p -> nth_error (points_of b') i = Some p' -> distance p' p <= 18 * INR L / 2 ^ n.
Proof. exact bits_points. Qed.
Print Assumptions C90_bits_points.

(** The cells do not degenerate ... *)
Theorem C90_bits_edges : forall n L, (7 <= n)%nat -> 400 * (INR L * 2 ^ L) <= 2 ^ n -> forall b p q,
  regular_sphere (rounded (fl n)) L 1 = Ok b -> edge_ends b p q -> 1 / 2 ^ L <= distance p q <= 11 / 4 / 2 ^ L.
Proof. exact bits_edges. Qed.
Print Assumptions C90_bits_edges.

(** ... and face outwards. *)
Theorem C90_bits_outward : forall n L, (7 <= n)%nat -> 400 * (INR L * 2 ^ L) <= 2 ^ n -> forall b k p q r,
  regular_sphere (rounded (fl n)) L 1 = Ok b -> corners_of b k p q r -> forall x, In x [p; q; r] -> 0 < inner x (normal p q r).
Proof. exact bits_outward. Qed.
Print Assumptions C90_bits_outward.

(** The hypotheses hold for 53 bits up to level 39 and for 24 bits up to level 11. *)
Example C90_levels : (7 <= 53)%nat /\ 400 * (INR 39 * 2 ^ 39) <= 2 ^ 53 /\ 400 * (INR 11 * 2 ^ 11) <= 2 ^ 24.
Proof. exact double_levels. Qed.

Example C90_hypotheses_met : exists b b' : builder vec, regular_sphere real_numbers 6 1 = Ok b /\ regular_sphere (rounded (fl 24)) 6 1 = Ok b' /\
  (7 <= 24)%nat /\ 400 * (INR 6 * 2 ^ 6) <= 2 ^ 24 /\ 0 <= (/ 2) ^ 24 < 1 /\ relative ((/ 2) ^ 24) (fl 24) /\ growth ((/ 2) ^ 24) 16 <= 6 / 5 /\
  (growth ((/ 2) ^ 24) 8 - 1) * (INR 6 * INR 6) <= 1 / 4.
Proof. exact float_example. Qed.
