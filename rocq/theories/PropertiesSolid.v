(** * Property C96: the volume and the area of the sphere *)
From Coq Require Import Reals.
From Verif Require Import Base Topology Shapes SpecShapes SpecSphere SpecVolume SpecSolid SolidResults.

Local Open Scope R_scope.

(** C96: at each level the cells cover the sphere once: their solid angles add up to
    [4 * PI] ... *)
Theorem C96_solid_angles : forall L b, regular_sphere real_numbers L 1 = Ok b -> total_angle b = 4 * PI.
Proof. exact solid_angles. Qed.
Print Assumptions C96_solid_angles.

(** ... the volume and the area are less than those of the ball, but not by much ... *)
Theorem C96_bounds : forall L b, regular_sphere real_numbers L 1 = Ok b ->
  4 * PI * (1 - 9 / (4 * (4 ^ L + 2))) < 3 * volume b /\ 3 * volume b <= area b /\ area b < 4 * PI.
Proof. exact volume_area_bounds. Qed.
Print Assumptions C96_bounds.

(** ... and tend to those of the ball. *)
Theorem C96_limits : forall grids : nat -> builder vec, (forall L, regular_sphere real_numbers L 1 = Ok (grids L)) ->
  Un_cv (fun L => volume (grids L)) (4 / 3 * PI) /\ Un_cv (fun L => area (grids L)) (4 * PI).
Proof. exact volume_limit. Qed.
Print Assumptions C96_limits.

(** The grids exist at all levels. *)
Example C96_grids : exists grids : nat -> builder vec, forall L, regular_sphere real_numbers L 1 = Ok (grids L).
Proof. exact (ex_intro _ sphere_level sphere_level_ok). Qed.
