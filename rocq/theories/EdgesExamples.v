(** * Points of edge DOFs: examples *)
From Verif Require Import Base BaseFacts Topology TopologyFacts DofMap DofMapFacts SpecDof DofMapResults DofExamples Shapes SpecShapes ShapesResults DimensionResults SpecEdges EdgesResults.

Lemma spaces_on_shapes p i rank :
  (forall R L, exists b dm, regular_sphere R L 1 = Ok b /\ assign_dofs rank (built_grid i Triangle b) (lagrange p) = Ok dm) /\
  (forall n, n <> 0 -> exists b dm, screen_triangles n = Ok b /\ assign_dofs rank (built_grid i Triangle b) (lagrange p) = Ok dm) /\
  (forall n, n <> 0 -> exists b dm, screen_quadrilaterals n = Ok b /\ assign_dofs rank (built_grid i Quadrilateral b) (lagrange p) = Ok dm).
Proof.
  split; [|split].
  - intros R L. destruct (sphere_surface R L) as (b & E & _). exists b.
    destruct (assign_dofs_total rank (built_grid i Triangle b) (lagrange p) (cn_wf _ _ _ _ _ (sphere_counted R L b i E)) (lagrange_wf_family _ _)) as (dm & H). eauto.
  - intros n Hn. destruct (ScreenFacts.screen_triangles_spec n Hn) as (b & E & _). exists b.
    destruct (assign_dofs_total rank (built_grid i Triangle b) (lagrange p) (cn_wf _ _ _ _ _ (triangles_counted n b i E)) (lagrange_wf_family _ _)) as (dm & H). eauto.
  - intros n Hn. destruct (ScreenFacts.screen_quadrilaterals_spec n Hn) as (b & E & _). exists b.
    destruct (assign_dofs_total rank (built_grid i Quadrilateral b) (lagrange p) (cn_wf _ _ _ _ _ (quads_counted n b i E)) (lagrange_wf_family _ _)) as (dm & H). eauto.
Qed.

Definition quads2 : builder (nat * nat) :=
  Eval vm_compute in match screen_quadrilaterals 2 with Ok b => b | _ => new_builder Quadrilateral 1 end.
Definition quads2_dofs : dofmap :=
  Eval vm_compute in match assign_dofs 0 (built_grid 0 Quadrilateral quads2) (lagrange 4) with Ok dm => dm | _ => mkDofmap [] [] 0 [] end.
Definition screen2_dofs : dofmap :=
  Eval vm_compute in match assign_dofs 0 (built_grid 0 Triangle screen2_builder) (lagrange 3) with Ok dm => dm | _ => mkDofmap [] [] 0 [] end.

(** Degree 4 on four quadrilaterals: the third point of the edge between cells
    0 and 1 has one number and the weights 1 and 3 at the ends 1 and 4, from
    both cells.  Degree 3 on eight triangles: a number that stands for two points. *)
Lemma edge_examples :
  (exists b dm n, screen_quadrilaterals 2 = Ok b /\ assign_dofs 0 (built_grid 0 Quadrilateral b) (lagrange 4) = Ok dm /\
    edge_dof (built_grid 0 Quadrilateral b) (lagrange 4) dm n 0 2 3 2 /\ edge_dof (built_grid 0 Quadrilateral b) (lagrange 4) dm n 1 1 3 2 /\
    map (edge_point_weight (built_grid 0 Quadrilateral b) 0 2 3 2) [0; 1; 2; 3; 4; 5] = [0; 1; 0; 0; 3; 0] /\
    map (edge_point_weight (built_grid 0 Quadrilateral b) 1 1 3 2) [0; 1; 2; 3; 4; 5] = [0; 1; 0; 0; 3; 0]) /\
  (exists b dm n, screen_triangles 2 = Ok b /\ assign_dofs 0 (built_grid 0 Triangle b) (lagrange 3) = Ok dm /\
    edge_dof (built_grid 0 Triangle b) (lagrange 3) dm n 1 0 2 0 /\ edge_dof (built_grid 0 Triangle b) (lagrange 3) dm n 4 2 2 0 /\
    map (edge_point_weight (built_grid 0 Triangle b) 1 0 2 0) [2; 3; 4; 5] = [0; 1; 2; 0] /\
    map (edge_point_weight (built_grid 0 Triangle b) 4 2 2 0) [2; 3; 4; 5] = [0; 2; 1; 0]).
Proof.
  split.
  - exists quads2, quads2_dofs. eexists. split; [vm_compute; reflexivity|]. split; [vm_compute; reflexivity|].
    split; [|split; [|split; vm_compute; reflexivity]].
    + do 4 eexists. split; [split; [vm_compute; lia|split; [lia|vm_compute; reflexivity]]|]. do 4 (split; [vm_compute; reflexivity|]). vm_compute; reflexivity.
    + do 4 eexists. split; [split; [vm_compute; lia|split; [lia|vm_compute; reflexivity]]|]. do 4 (split; [vm_compute; reflexivity|]). vm_compute; reflexivity.
  - exists screen2_builder, screen2_dofs. eexists. split; [vm_compute; reflexivity|]. split; [vm_compute; reflexivity|].
    split; [|split; [|split; vm_compute; reflexivity]].
    + do 4 eexists. split; [split; [vm_compute; lia|split; [lia|vm_compute; reflexivity]]|]. do 4 (split; [vm_compute; reflexivity|]). vm_compute; reflexivity.
    + do 4 eexists. split; [split; [vm_compute; lia|split; [lia|vm_compute; reflexivity]]|]. do 4 (split; [vm_compute; reflexivity|]). vm_compute; reflexivity.
Qed.
