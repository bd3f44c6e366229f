(** * Property C80: points of edge DOFs on the built-in shapes *)
From Verif Require Import Base BaseFacts Topology TopologyFacts DofMap SpecDof DofExamples Shapes SpecShapes SpecEdges EdgesResults EdgesExamples.

(** C80: all cells see an edge DOF at the same point exactly when cells run along
    their common edges in the same direction, or have at most one DOF there. *)
Theorem C80_criterion : forall rank g fam dm,
  wf_grid g -> wf_family (g_types g 2) fam -> assign_dofs rank g fam = Ok dm ->
  (single_valued g fam dm <->
   forall c c' i i' e, sub_at g c 1 i e -> sub_at g c' 1 i' e ->
     edge_start g c i = edge_start g c' i' \/ el_ndofs (fam (g_ctype g c)) 1 i <= 1).
Proof. exact single_valued_iff. Qed.
Print Assumptions C80_criterion.

(** Degrees up to 2 on every grid. *)
Theorem C80_low_degree : forall rank g fam dm,
  wf_grid g -> wf_family (g_types g 2) fam -> assign_dofs rank g fam = Ok dm ->
  (forall t i, In t (g_types g 2) -> el_ndofs (fam t) 1 i <= 1) -> single_valued g fam dm.
Proof. exact single_low_degree. Qed.
Print Assumptions C80_low_degree.

(** Every degree on the screens of quadrilaterals. *)
Theorem C80_quadrilaterals : forall n b fam i rank dm,
  screen_quadrilaterals n = Ok b -> wf_family [Quadrilateral] fam ->
  assign_dofs rank (built_grid i Quadrilateral b) fam = Ok dm -> single_valued (built_grid i Quadrilateral b) fam dm.
Proof. exact quads_single. Qed.
Print Assumptions C80_quadrilaterals.

(** No degree from 3 on works on a sphere, at any refinement level ... *)
Theorem C80_sphere : forall R L b p i rank dm, regular_sphere R L 1 = Ok b -> 3 <= p ->
  assign_dofs rank (built_grid i Triangle b) (lagrange p) = Ok dm -> double_point (built_grid i Triangle b) (lagrange p) dm.
Proof. exact sphere_double. Qed.
Print Assumptions C80_sphere.

(** ... nor on a screen of triangles, unless it has two cells only. *)
Theorem C80_triangles : forall n b p i rank dm, screen_triangles n = Ok b -> 2 <= n -> 3 <= p ->
  assign_dofs rank (built_grid i Triangle b) (lagrange p) = Ok dm -> double_point (built_grid i Triangle b) (lagrange p) dm.
Proof. exact triangles_double. Qed.
Print Assumptions C80_triangles.

Theorem C80_two_triangles : forall b p i rank dm, screen_triangles 1 = Ok b ->
  assign_dofs rank (built_grid i Triangle b) (lagrange p) = Ok dm -> single_valued (built_grid i Triangle b) (lagrange p) dm.
Proof. exact triangles_one_single. Qed.
Print Assumptions C80_two_triangles.

(** A number that stands for two points is what [single_valued] excludes. *)
Theorem C80_double_point : forall g fam dm, double_point g fam dm -> ~ single_valued g fam dm.
Proof. exact double_not_single. Qed.
Print Assumptions C80_double_point.

(** Non-vacuity: the spaces exist on all shapes and for all degrees; degree 4 on
    four quadrilaterals and degree 3 on eight triangles in numbers. *)
Example C80_hypotheses_met : forall p i rank,
  (forall R L, exists b dm, regular_sphere R L 1 = Ok b /\ assign_dofs rank (built_grid i Triangle b) (lagrange p) = Ok dm) /\
  (forall n, n <> 0 -> exists b dm, screen_triangles n = Ok b /\ assign_dofs rank (built_grid i Triangle b) (lagrange p) = Ok dm) /\
  (forall n, n <> 0 -> exists b dm, screen_quadrilaterals n = Ok b /\ assign_dofs rank (built_grid i Quadrilateral b) (lagrange p) = Ok dm).
Proof. exact spaces_on_shapes. Qed.

Example C80_numbers :
  (exists b dm n, screen_quadrilaterals 2 = Ok b /\ assign_dofs 0 (built_grid 0 Quadrilateral b) (lagrange 4) = Ok dm /\
    edge_dof (built_grid 0 Quadrilateral b) (lagrange 4) dm n 0 2 3 2 /\ edge_dof (built_grid 0 Quadrilateral b) (lagrange 4) dm n 1 1 3 2 /\
    map (edge_point_weight (built_grid 0 Quadrilateral b) 0 2 3 2) [0; 1; 2; 3; 4; 5] = [0; 1; 0; 0; 3; 0] /\
    map (edge_point_weight (built_grid 0 Quadrilateral b) 1 1 3 2) [0; 1; 2; 3; 4; 5] = [0; 1; 0; 0; 3; 0]) /\
  (exists b dm n, screen_triangles 2 = Ok b /\ assign_dofs 0 (built_grid 0 Triangle b) (lagrange 3) = Ok dm /\
    edge_dof (built_grid 0 Triangle b) (lagrange 3) dm n 1 0 2 0 /\ edge_dof (built_grid 0 Triangle b) (lagrange 3) dm n 4 2 2 0 /\
    map (edge_point_weight (built_grid 0 Triangle b) 1 0 2 0) [2; 3; 4; 5] = [0; 1; 2; 0] /\
    map (edge_point_weight (built_grid 0 Triangle b) 4 2 2 0) [2; 3; 4; 5] = [0; 2; 1; 0]).
Proof. exact edge_examples. Qed.
