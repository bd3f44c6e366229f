(** * Properties C91 and C92: volume and area of the sphere *)
From Coq Require Import Reals.
From Verif Require Import Base Topology Shapes SpecShapes SpecSphere ShapesResults SpecVolume VolumeResults SpecScreen ScreenArea.

Local Open Scope R_scope.

(** C91: the normals of the cells add up to zero, wherever the vertices are ... *)
Theorem C91_normals_cancel : forall R L b (pos : nat -> vec), regular_sphere R L 1 = Ok b -> vtotal (cell_normal pos) (cells_of b) = origin.
Proof. exact sphere_normals. Qed.
Print Assumptions C91_normals_cancel.

(** ... so that the enclosed volume can be computed from any point ... *)
Theorem C91_any_origin : forall R L b (pos : nat -> vec) o, regular_sphere R L 1 = Ok b ->
  total (cell_volume o pos) (cells_of b) = total (cell_volume origin pos) (cells_of b).
Proof. exact sphere_volume_shift. Qed.
Print Assumptions C91_any_origin.

(** ... and each refinement encloses more volume. *)
Theorem C91_volume_grows : forall L b b', regular_sphere real_numbers L 1 = Ok b -> regular_sphere real_numbers (S L) 1 = Ok b' -> volume b < volume b'.
Proof. exact volume_grows. Qed.
Print Assumptions C91_volume_grows.

Theorem C91_octahedron : forall b, regular_sphere real_numbers 0 1 = Ok b -> volume b = 4 / 3.
Proof. exact volume_octahedron. Qed.
Print Assumptions C91_octahedron.

(** C92: the area is three times the volume, as for a ball of radius 1, up to a factor
    that tends to 1. *)
Theorem C92_area_volume : forall L b, regular_sphere real_numbers L 1 = Ok b -> 3 * volume b <= area b /\ sqrt (4 ^ L / (4 ^ L + 2)) * area b <= 3 * volume b.
Proof. exact area_volume. Qed.
Print Assumptions C92_area_volume.

(** The grids exist at all levels. *)
Example C91_C92_grids : forall L, exists b b', regular_sphere real_numbers L 1 = Ok b /\ regular_sphere real_numbers (S L) 1 = Ok b'.
Proof. intros L. destruct (sphere_exists real_numbers L) as (b & E), (sphere_exists real_numbers (S L)) as (b' & E'). eauto. Qed.

(** C47: the areas of the cells of a screen add up to the area of the square with side
    n / (n + 1); a quadrilateral is cut into two triangles. *)
Theorem C47_triangles_area : forall n b, screen_triangles n = Ok b ->
  total (cell_area (position (screen_positions n b))) (cells_of b) = (INR n / INR (n + 1)) * (INR n / INR (n + 1)).
Proof. exact triangles_area. Qed.
Print Assumptions C47_triangles_area.

Theorem C47_quadrilaterals_area : forall n b, screen_quadrilaterals n = Ok b ->
  total (fun c => match c with [i; j; k; l] => cell_area (position (screen_positions n b)) [i; j; k] + cell_area (position (screen_positions n b)) [j; l; k] | _ => 0 end) (cells_of b)
  = (INR n / INR (n + 1)) * (INR n / INR (n + 1)).
Proof. exact quads_area. Qed.
Print Assumptions C47_quadrilaterals_area.
