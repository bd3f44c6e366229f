(** * Properties C14-C16: cell colouring *)
From Verif Require Import Base BaseFacts Topology TopologyFacts DofMap SpecDof DofMapResults
  Colouring SpecColour ColouringResults DofExamples ColouringExamples.

(** C14: the colouring has an entry for every cell type, all entries have the same
    number of classes, and every cell is in exactly one class, once, in the entry
    of its type. *)
Theorem C14_colouring_partition : forall g fam,
  wf_grid g -> wf_family (g_types g 2) fam -> head_dim_pos g fam ->
  exists col K, cell_colouring g fam = Ok col /\ map fst col = g_types g 2 /\ class_count col K /\
    (forall c, c < ent_count g 2 -> exists k, k < K /\ in_class col (g_ctype g c) k c) /\
    (forall t k t' k' c, in_class col t k c -> in_class col t' k' c -> t = t' /\ k = k') /\
    (forall t k c, in_class col t k c -> c < ent_count g 2 /\ t = g_ctype g c) /\
    (forall t classes k l, assoc ct_eqb t col = Some classes -> nth_error classes k = Some l -> NoDup l).
Proof. exact colouring_partition. Qed.
Print Assumptions C14_colouring_partition.

(** Where the hypothesis on the dimension fails, the colouring panics. *)
Theorem C14_zero_dimension_panics : forall g fam t0,
  wf_grid g -> wf_family (g_types g 2) fam -> nth_error (g_types g 2) 0 = Some t0 -> el_dim (fam t0) = 0 ->
  cell_colouring g fam = Panic.
Proof. exact colouring_zero_dim. Qed.
Print Assumptions C14_zero_dimension_panics.

(** C15: two cells of one colour, also of different types, share no DOF. *)
Theorem C15_same_colour_no_shared_dof : forall rank g fam dm col t t' k c c',
  wf_grid g -> wf_family (g_types g 2) fam -> assign_dofs rank g fam = Ok dm ->
  cell_colouring g fam = Ok col ->
  in_class col t k c -> in_class col t' k c' -> c <> c' -> ~ conflict dm c c'.
Proof. exact colouring_proper. Qed.
Print Assumptions C15_same_colour_no_shared_dof.

(** C16: at most one class more than the largest number of conflicts of a cell,
    and no class is empty for all types. *)
Theorem C16_colour_bound : forall rank g fam dm col K M,
  wf_grid g -> wf_family (g_types g 2) fam -> assign_dofs rank g fam = Ok dm ->
  cell_colouring g fam = Ok col -> class_count col K ->
  conflicts_bounded g dm M ->
  K <= M + 1 /\ forall k, k < K -> exists t c, in_class col t k c.
Proof. exact colouring_bound. Qed.
Print Assumptions C16_colour_bound.

Theorem C16_interior_one_colour : forall rank g fam dm col K,
  wf_grid g -> wf_family (g_types g 2) fam -> assign_dofs rank g fam = Ok dm ->
  cell_colouring g fam = Ok col -> class_count col K ->
  interior_family (g_types g 2) fam -> 0 < ent_count g 2 -> K = 1.
Proof. exact colouring_interior. Qed.
Print Assumptions C16_interior_one_colour.

(** Non-vacuity: a triangle and a quadrilateral; [screen_triangles(2)]. *)
Example C14_C16_hypotheses_met :
  wf_grid mixed_grid /\ wf_family (g_types mixed_grid 2) (lagrange 1) /\ head_dim_pos mixed_grid (lagrange 1) /\
  cell_colouring mixed_grid (lagrange 1) = Ok [(Triangle, [[]; [1]]); (Quadrilateral, [[0]; []])] /\
  cell_colouring mixed_grid (interior_only (fun _ => 1)) = Ok [(Triangle, [[1]]); (Quadrilateral, [[0]])] /\
  (exists col, cell_colouring screen2 (lagrange 1) = Ok col /\ class_count col 6).
Proof. exact mixed_facts. Qed.
