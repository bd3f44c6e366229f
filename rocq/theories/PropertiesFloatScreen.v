(** * Property C94: screens in floating point arithmetic *)
From Coq Require Import Reals.
From Verif Require Import Base Topology Shapes SpecShapes SpecSphere SpecScreen SpecRounding SpecFloatSphere SpecFloatScreen FloatScreenResults.
Local Open Scope R_scope.

(** C94: the triangles with rounded points tile a square without gaps and overlaps;
    they are right-angled, with legs along the axes, and keep their orientation. *)
Theorem C94_triangles : forall u rnd n b, 0 <= u < 1 -> relative u rnd -> INR n * (growth u 4 - 1) < 1 -> screen_triangles n = Ok b ->
  let pts := placed (rounded_coordinate rnd n) b in
  (forall x, (exists c w, In c (cells_of b) /\ in_triangle pts c w x) <-> in_square (rounded_coordinate rnd n n) x) /\
  (forall c c' w w' x, In c (cells_of b) -> In c' (cells_of b) -> in_triangle pts c w x -> in_triangle pts c' w' x ->
     (forall v, w v = w' v) /\ forall v, w v <> 0 -> In v c /\ In v c') /\
  (forall c i j k p q r, In c (cells_of b) -> c = [i; j; k] ->
     nth_error pts i = Some p -> nth_error pts j = Some q -> nth_error pts k = Some r ->
     exists a d, 0 < a /\ 0 < d /\ Rabs (a * INR (n + 1) - 1) <= 2 * INR n * (growth u 3 - 1) /\ Rabs (d * INR (n + 1) - 1) <= 2 * INR n * (growth u 3 - 1) /\
       normal p q r = (0, 0, a * d) /\
       (vsub q p = (a, 0, 0) /\ vsub r q = (0, d, 0) \/ vsub q r = (a, 0, 0) /\ vsub r p = (0, d, 0))).
Proof. exact rounded_triangles. Qed.
Print Assumptions C94_triangles.

(** The quadrilaterals are exact rectangles. *)
Theorem C94_quadrilaterals : forall u rnd n b, 0 <= u < 1 -> relative u rnd -> INR n * (growth u 4 - 1) < 1 -> screen_quadrilaterals n = Ok b ->
  let pts := placed (rounded_coordinate rnd n) b in
  (forall x, (exists c w, In c (cells_of b) /\ in_quadrilateral pts c w x) <-> in_square (rounded_coordinate rnd n n) x) /\
  (forall c c' w w' x, In c (cells_of b) -> In c' (cells_of b) -> in_quadrilateral pts c w x -> in_quadrilateral pts c' w' x ->
     (forall v, w v = w' v) /\ forall v, w v <> 0 -> In v c /\ In v c') /\
  (forall c i j k l p q r s, In c (cells_of b) -> c = [i; j; k; l] ->
     nth_error pts i = Some p -> nth_error pts j = Some q -> nth_error pts k = Some r -> nth_error pts l = Some s ->
     exists a d, 0 < a /\ 0 < d /\ Rabs (a * INR (n + 1) - 1) <= 2 * INR n * (growth u 3 - 1) /\ Rabs (d * INR (n + 1) - 1) <= 2 * INR n * (growth u 3 - 1) /\
       vsub q p = (a, 0, 0) /\ vsub r p = (0, d, 0) /\ vsub s r = (a, 0, 0) /\ vsub s q = (0, d, 0)).
Proof. exact rounded_quadrilaterals. Qed.
Print Assumptions C94_quadrilaterals.

(** Each coordinate is exact up to three roundings. *)
Theorem C94_coordinates : forall u, 0 <= u < 1 -> forall rnd, relative u rnd -> forall n k,
  Rabs (rounded_coordinate rnd n k - INR k / INR (n + 1)) <= (growth u 3 - 1) * (INR k / INR (n + 1)).
Proof. exact coordinate_error. Qed.
Print Assumptions C94_coordinates.

(** Numbers with mantissas of [p] bits meet the hypotheses if there are fewer than
    about [2^p / 4] cells along a side. *)
Theorem C94_bits : forall p n, 4 * INR (n + 1) < 2 ^ p -> 0 <= (/ 2) ^ p < 1 /\ INR n * (growth ((/ 2) ^ p) 4 - 1) < 1.
Proof. exact bits_fine. Qed.
Print Assumptions C94_bits.

(** So do the numbers of 24 bits for up to two million cells. *)
Example C94_single : forall n, INR n <= 2 ^ 21 -> 4 * INR (n + 1) < 2 ^ 24.
Proof. exact screen_bits. Qed.

Example C94_hypotheses_met : exists b bq, screen_triangles 3 = Ok b /\ screen_quadrilaterals 3 = Ok bq /\
  0 <= (/ 2) ^ 24 < 1 /\ relative ((/ 2) ^ 24) (fl 24) /\ INR 3 * (growth ((/ 2) ^ 24) 4 - 1) < 1 /\
  nth_error (cells_of b) 0 = Some [0; 1; 5]%nat /\
  nth_error (placed (rounded_coordinate (fl 24) 3) b) 5 = Some (fl 24 (fl 24 (INR 1) / fl 24 (INR (3 + 1))), fl 24 (fl 24 (INR 1) / fl 24 (INR (3 + 1))), 0).
Proof. exact screen_float_example. Qed.
