(** * Properties C107-C108: the order of DOF numbers *)
From Verif Require Import Base BaseFacts Topology TopologyFacts Shapes DofMap SpecDof SpecFirst FirstResults FirstNumbers FirstExamples.

(** C107: DOFs are numbered in the order in which they first appear. *)
Theorem C107_order : forall rank g fam, wf_grid g -> wf_family (g_types g 2) fam -> forall dm, assign_dofs rank g fam = Ok dm ->
  forall d e k n d' e' k' n', listed dm d e k n -> listed dm d' e' k' n' ->
  (n < n' <-> appears_before (cells_walk g fam (g_iter g 2)) (d, e, k) (d', e', k')).
Proof. exact first_order. Qed.
Print Assumptions C107_order.

(** The DOFs are those that appear. *)
Theorem C107_listed : forall rank g fam, wf_grid g -> wf_family (g_types g 2) fam -> forall dm, assign_dofs rank g fam = Ok dm ->
  forall d e k, (exists n, listed dm d e k n) <-> In (d, e, k) (cells_walk g fam (g_iter g 2)).
Proof. exact listed_met. Qed.
Print Assumptions C107_listed.

(** This leaves nothing open: any numbering below the dimension that follows the
    order of first appearance is the one of the DOF map. *)
Theorem C107_determined : forall rank g fam, wf_grid g -> wf_family (g_types g 2) fam -> forall dm, assign_dofs rank g fam = Ok dm ->
  forall num : nat * nat * nat -> nat,
  (forall a, In a (cells_walk g fam (g_iter g 2)) -> num a < dm_size dm) ->
  (forall a b, In a (cells_walk g fam (g_iter g 2)) -> In b (cells_walk g fam (g_iter g 2)) ->
     appears_before (cells_walk g fam (g_iter g 2)) a b -> num a < num b) ->
  forall d e k n, listed dm d e k n -> num (d, e, k) = n.
Proof. exact first_determined. Qed.
Print Assumptions C107_determined.

(** The DOFs of the first cells are always the first numbers. *)
Theorem C107_prefix : forall rank g fam, wf_grid g -> wf_family (g_types g 2) fam -> forall dm, assign_dofs rank g fam = Ok dm ->
  forall pre post, g_iter g 2 = pre ++ post ->
  exists m, forall n, (exists c l, In c pre /\ has_cell_dofs dm c l /\ In n l) <-> n < m.
Proof. exact first_prefix_dofs. Qed.
Print Assumptions C107_prefix.

(** Discontinuous spaces: consecutive blocks, cell by cell. *)
Theorem C107_discontinuous : forall rank g fam dm, wf_grid g -> wf_family (g_types g 2) fam -> assign_dofs rank g fam = Ok dm ->
  interior_family (g_types g 2) fam -> forall p c l k x row,
  nth_error (g_iter g 2) p = Some c -> el_edofs (fam (g_ctype g c)) 2 0 = Some l -> nth_error l k = Some x ->
  has_cell_dofs dm c row -> nth_error row x = Some (dofs_before g fam p + k).
Proof. exact interior_numbers. Qed.
Print Assumptions C107_discontinuous.

Example C107_example :
  wf_grid first_grid /\ all_used first_grid /\ g_types first_grid 2 = [Triangle] /\
  assign_dofs 0 first_grid (lagrange 2) = Ok first_p2 /\
  firstn 9 (cells_walk first_grid (lagrange 2) (g_iter first_grid 2)) =
    [(0, 0, 0); (0, 1, 0); (0, 4, 0); (1, 0, 0); (1, 1, 0); (1, 2, 0); (0, 0, 0); (0, 4, 0); (0, 3, 0)] /\
  listed first_p2 0 4 0 2 /\ listed first_p2 1 2 0 5 /\ listed first_p2 0 3 0 6 /\
  (appears_before (cells_walk first_grid (lagrange 2) (g_iter first_grid 2)) (1, 2, 0) (0, 3, 0)) /\
  ~ (appears_before (cells_walk first_grid (lagrange 2) (g_iter first_grid 2)) (0, 3, 0) (0, 4, 0)).
Proof. exact first_example. Qed.

Example C107_interior_example :
  wf_family (g_types first_grid 2) (interior_only (fun _ => 3)) /\ interior_family (g_types first_grid 2) (interior_only (fun _ => 3)) /\
  assign_dofs 0 first_grid (interior_only (fun _ => 3)) = Ok first_dp1 /\
  nth_error (g_iter first_grid 2) 5 = Some 5 /\ dofs_before first_grid (interior_only (fun _ => 3)) 5 = 15 /\ has_cell_dofs first_dp1 5 [15; 16; 17].
Proof. exact first_interior_example. Qed.

(** C108: coefficient [i] belongs to vertex [i] or to cell [i].  For continuous
    piecewise linear functions this is false of the code ... *)
Theorem C108_vertices_refuted : exists g dm v n, wf_grid g /\ all_used g /\ assign_dofs 0 g (lagrange 1) = Ok dm /\ listed dm 0 v 0 n /\ n <> v.
Proof. exact vertices_refuted. Qed.
Print Assumptions C108_vertices_refuted.

(** ... on every screen of triangles, on every screen of quadrilaterals but the
    smallest, and on every refined sphere. *)
Theorem C108_shapes_refuted : forall rank i dm,
  (forall n b, screen_triangles n = Ok b -> assign_dofs rank (built_grid i Triangle b) (lagrange 1) = Ok dm -> ~ numbered_as_vertices dm) /\
  (forall n b, screen_quadrilaterals n = Ok b -> 2 <= n -> assign_dofs rank (built_grid i Quadrilateral b) (lagrange 1) = Ok dm -> ~ numbered_as_vertices dm) /\
  (forall R L b, regular_sphere R L 1 = Ok b -> 1 <= L -> assign_dofs rank (built_grid i Triangle b) (lagrange 1) = Ok dm -> ~ numbered_as_vertices dm).
Proof. exact shapes_differ. Qed.
Print Assumptions C108_shapes_refuted.

(** It holds exactly when the vertices first appear in their order, *)
Theorem C108_vertices : forall rank g dm t, wf_grid g -> g_types g 2 = [t] -> assign_dofs rank g (lagrange 1) = Ok dm -> all_used g ->
  (numbered_as_vertices dm <-> forall v v', v < v' -> v' < ent_count g 0 -> appears_before (vertices_met g) v v').
Proof. exact vertex_numbers. Qed.
Print Assumptions C108_vertices.

(** as they do on the octahedron and on a single quadrilateral; *)
Theorem C108_octahedron : forall R b i rank dm, regular_sphere R 0 1 = Ok b ->
  assign_dofs rank (built_grid i Triangle b) (lagrange 1) = Ok dm -> numbered_as_vertices dm.
Proof. exact octahedron_numbers. Qed.
Print Assumptions C108_octahedron.

Theorem C108_one_quadrilateral : forall b i rank dm, screen_quadrilaterals 1 = Ok b ->
  assign_dofs rank (built_grid i Quadrilateral b) (lagrange 1) = Ok dm -> numbered_as_vertices dm.
Proof. exact one_quad_numbers. Qed.
Print Assumptions C108_one_quadrilateral.

(** in general the numbers follow the first appearances of the vertices. *)
Theorem C108_vertex_order : forall rank g dm t, wf_grid g -> g_types g 2 = [t] -> assign_dofs rank g (lagrange 1) = Ok dm ->
  forall v v' n n', listed dm 0 v 0 n -> listed dm 0 v' 0 n' -> (n < n' <-> appears_before (vertices_met g) v v').
Proof. exact vertex_order. Qed.
Print Assumptions C108_vertex_order.

(** Piecewise constant functions: the coefficient of the [p]-th cell is number [p]. *)
Theorem C108_constants : forall rank g fam dm, wf_grid g -> wf_family (g_types g 2) fam -> assign_dofs rank g fam = Ok dm ->
  interior_family (g_types g 2) fam -> forall p c, (forall t, In t (g_types g 2) -> el_dim (fam t) = 1) ->
  nth_error (g_iter g 2) p = Some c -> has_cell_dofs dm c [p].
Proof. exact constant_numbers. Qed.
Print Assumptions C108_constants.

Example C108_example : screen_triangles 2 = Ok first_screen /\ assign_dofs 0 first_grid (lagrange 1) = Ok first_p1 /\
  listed first_p1 0 4 0 2 /\ listed first_p1 0 2 0 4.
Proof. exact (conj first_made first_vertices_example). Qed.
