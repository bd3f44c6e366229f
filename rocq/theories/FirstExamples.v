(** * Example for the order of first appearance *)
From Verif Require Import Base BaseFacts Topology TopologyFacts Shapes DofMap SpecDof SpecFirst DimensionResults.

Definition first_screen : builder (nat * nat) := Eval vm_compute in match screen_triangles 2 with Ok b => b | _ => mkBuilder 0 [] [] end.
Definition first_grid : grid := built_grid 0 Triangle first_screen.
Definition first_p1 : dofmap := Eval vm_compute in match assign_dofs 0 first_grid (lagrange 1) with Ok dm => dm | _ => mkDofmap [] [] 0 [] end.
Definition first_p2 : dofmap := Eval vm_compute in match assign_dofs 0 first_grid (lagrange 2) with Ok dm => dm | _ => mkDofmap [] [] 0 [] end.
Definition first_dp1 : dofmap := Eval vm_compute in match assign_dofs 0 first_grid (interior_only (fun _ => 3)) with Ok dm => dm | _ => mkDofmap [] [] 0 [] end.

Lemma first_made : screen_triangles 2 = Ok first_screen. Proof. vm_compute. reflexivity. Qed.

Lemma first_wf : wf_grid first_grid /\ all_used first_grid.
Proof. pose proof (triangles_counted 2 first_screen 0 first_made) as K. split; [apply (cn_wf _ _ _ _ _ K)|exact (cn_used _ _ _ _ _ K)]. Qed.

Lemma first_example :
  wf_grid first_grid /\ all_used first_grid /\ g_types first_grid 2 = [Triangle] /\
  assign_dofs 0 first_grid (lagrange 2) = Ok first_p2 /\
  firstn 9 (cells_walk first_grid (lagrange 2) (g_iter first_grid 2)) =
    [(0, 0, 0); (0, 1, 0); (0, 4, 0); (1, 0, 0); (1, 1, 0); (1, 2, 0); (0, 0, 0); (0, 4, 0); (0, 3, 0)] /\
  listed first_p2 0 4 0 2 /\ listed first_p2 1 2 0 5 /\ listed first_p2 0 3 0 6 /\
  (appears_before (cells_walk first_grid (lagrange 2) (g_iter first_grid 2)) (1, 2, 0) (0, 3, 0)) /\
  ~ (appears_before (cells_walk first_grid (lagrange 2) (g_iter first_grid 2)) (0, 3, 0) (0, 4, 0)).
Proof.
  split; [apply first_wf|]. split; [apply first_wf|]. split; [reflexivity|]. split; [vm_compute; reflexivity|]. split; [vm_compute; reflexivity|].
  assert (Li : forall d e k n l, get_local_dof_numbers first_p2 d e = Ok l -> nth_error l k = Some n -> listed first_p2 d e k n) by (intros; exists l; auto).
  split; [eapply Li; vm_compute; reflexivity|]. split; [eapply Li; vm_compute; reflexivity|]. split; [eapply Li; vm_compute; reflexivity|].
  set (w := cells_walk _ _ _). vm_compute in w. split.
  - exists (firstn 5 w), (skipn 6 w). split; [reflexivity|]. cbn. intuition discriminate.
  - intros (l1 & l2 & E & N). unfold w in E. destruct l1 as [|a [|b [|c l1]]]; simpl in E; try discriminate.
    apply N. injection E as _ _ <- _. right. right. now left.
Qed.

Lemma first_interior_example :
  wf_family (g_types first_grid 2) (interior_only (fun _ => 3)) /\ interior_family (g_types first_grid 2) (interior_only (fun _ => 3)) /\
  assign_dofs 0 first_grid (interior_only (fun _ => 3)) = Ok first_dp1 /\
  nth_error (g_iter first_grid 2) 5 = Some 5 /\ dofs_before first_grid (interior_only (fun _ => 3)) 5 = 15 /\ has_cell_dofs first_dp1 5 [15; 16; 17].
Proof.
  split; [apply interior_only_wf_family|]. split.
  - intros t d i _ Hd. unfold el_ndofs, interior_only. cbn [el_edofs]. destruct (i <? ref_count t d); auto. destruct d as [|[|d]]; try lia; reflexivity.
  - repeat split.
Qed.

Lemma first_vertices_example :
  assign_dofs 0 first_grid (lagrange 1) = Ok first_p1 /\ listed first_p1 0 4 0 2 /\ listed first_p1 0 2 0 4.
Proof.
  split; [vm_compute; reflexivity|]. split; eexists; split; vm_compute; reflexivity.
Qed.

Lemma vertices_refuted : exists g dm v n, wf_grid g /\ all_used g /\ assign_dofs 0 g (lagrange 1) = Ok dm /\ listed dm 0 v 0 n /\ n <> v.
Proof.
  exists first_grid, first_p1, 4, 2. destruct first_wf as (A & B). destruct first_vertices_example as (C & D & _).
  split; [|split; [|split; [|split]]]; auto.
Qed.
