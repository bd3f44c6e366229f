(** * Properties C01-C07: local DOF maps *)
From Verif Require Import Base BaseFacts Topology TopologyFacts Shapes DofMap DofMapFacts SpecDof DofMapResults DofExamples.

(** C01: the numbers [0..local_size) are listed exactly once over all entities. *)
Theorem C01_local_numbers_bijective : forall rank g fam dm,
  wf_grid g -> wf_family (g_types g 2) fam -> assign_dofs rank g fam = Ok dm ->
  (forall n, n < dm_size dm <-> exists d e k, listed dm d e k n) /\
  (forall n d e k d' e' k', listed dm d e k n -> listed dm d' e' k' n -> d = d' /\ e = e' /\ k = k').
Proof. exact local_numbers_bijective. Qed.
Print Assumptions C01_local_numbers_bijective.

(** C02: [cell_dofs] has one distinct number below [local_size] per basis function. *)
Theorem C02_cell_dofs_distinct_in_range : forall rank g fam dm c,
  wf_grid g -> wf_family (g_types g 2) fam -> assign_dofs rank g fam = Ok dm -> c < ent_count g 2 ->
  exists l, has_cell_dofs dm c l /\ length l = el_dim (fam (g_ctype g c)) /\ NoDup l /\
            forall n, In n l -> n < dm_size dm.
Proof. exact cell_dofs_distinct_in_range. Qed.
Print Assumptions C02_cell_dofs_distinct_in_range.

(** C03: the basis functions attached to a sub-entity of a cell get the numbers
    of that entity, in order ... *)
Theorem C03_cell_dofs_of_entity : forall rank g fam dm c d i e l row,
  wf_grid g -> wf_family (g_types g 2) fam -> assign_dofs rank g fam = Ok dm ->
  sub_at g c d i e -> el_edofs (fam (g_ctype g c)) d i = Some l -> has_cell_dofs dm c row ->
  exists ns, get_local_dof_numbers dm d e = Ok ns /\ length ns = length l /\
             forall k x, nth_error l k = Some x -> nth_error row x = nth_error ns k.
Proof. exact cell_dofs_of_entity. Qed.
Print Assumptions C03_cell_dofs_of_entity.

(** ... and cells that share a number share the entity it belongs to. *)
Theorem C03_shared_dof_shared_entity : forall rank g fam dm c c' l l' n,
  wf_grid g -> wf_family (g_types g 2) fam -> assign_dofs rank g fam = Ok dm ->
  has_cell_dofs dm c l -> has_cell_dofs dm c' l' -> In n l -> In n l' ->
  exists d e k, contains g c d e /\ contains g c' d e /\ listed dm d e k n.
Proof. exact shared_dof_shared_entity. Qed.
Print Assumptions C03_shared_dof_shared_entity.

(** C04: spaces with interior DOFs only do not couple cells. *)
Theorem C04_discontinuous : forall rank g fam dm,
  wf_grid g -> wf_family (g_types g 2) fam -> assign_dofs rank g fam = Ok dm ->
  interior_family (g_types g 2) fam ->
  (forall c c' l l' n, has_cell_dofs dm c l -> has_cell_dofs dm c' l' -> In n l -> In n l' -> c = c') /\
  dm_size dm = sum_list (map (fun c => el_dim (fam (g_ctype g c))) (seq 0 (ent_count g 2))).
Proof. exact discontinuous. Qed.
Print Assumptions C04_discontinuous.

(** C05: [local_size] is the sum over the entities of the number of DOFs the
    element puts on them. *)
Theorem C05_dimension : forall rank g fam dm N,
  wf_grid g -> wf_family (g_types g 2) fam -> assign_dofs rank g fam = Ok dm ->
  dof_count g fam N -> dm_size dm = sum_entities g N.
Proof. exact dimension. Qed.
Print Assumptions C05_dimension.

(** C05 for degree [p] Lagrange elements, when every vertex and edge of the grid
    belongs to a cell. *)
Theorem C05_dimension_lagrange : forall rank g p dm t,
  wf_grid g -> g_types g 2 = [t] -> 1 <= p -> assign_dofs rank g (lagrange p) = Ok dm ->
  (forall d e, d <= 2 -> e < ent_count g d -> exists c, contains g c d e) ->
  dm_size dm = ent_count g 0 + (p - 1) * ent_count g 1 + lagrange_interior t p * ent_count g 2.
Proof. exact dimension_lagrange. Qed.
Print Assumptions C05_dimension_lagrange.

(** C06: the DOF map of a well-formed grid is always built, [cell_dofs] is total,
    and [Some] exactly on the cells; topological dimension > 2 panics. *)
Theorem C06_total : forall rank g fam,
  wf_grid g -> wf_family (g_types g 2) fam ->
  exists dm, assign_dofs rank g fam = Ok dm /\
    forall c, (c < ent_count g 2 /\ exists l, cell_dofs dm c = Ok (Some l)) \/
              (ent_count g 2 <= c /\ cell_dofs dm c = Ok None).
Proof. exact dofmap_total. Qed.
Print Assumptions C06_total.

Theorem C06_tdim3_panics : forall rank g fam, 2 < g_tdim g -> assign_dofs rank g fam = Panic.
Proof. exact assign_dofs_tdim_panic. Qed.
Print Assumptions C06_tdim3_panics.

(** C07: the [k]-th of [m] DOFs of a shared edge is the same point seen from both
    cells exactly when the cells run along the edge in the same direction or the
    point is the midpoint. *)
Theorem C07_shared_edge_points : forall g c c' i i' e m k,
  wf_grid g -> sub_at g c 1 i e -> sub_at g c' 1 i' e -> k < m ->
  ((forall v, edge_point_weight g c i m k v = edge_point_weight g c' i' m k v) <->
   (edge_start g c i = edge_start g c' i' \/ m = 2 * k + 1)).
Proof. exact edge_point_same. Qed.
Print Assumptions C07_shared_edge_points.

(** The full statement of C07 is false: on [screen_triangles(2)] with degree 3
    elements a DOF shared by two cells lies at two different points. *)
Theorem C07_edge_points_refuted : exists b dm c c' i i' e k n row row' l l' x x' v,
  screen_triangles 2 = Ok b /\
  wf_grid (built_grid 0 Triangle b) /\ wf_family [Triangle] (lagrange 3) /\
  assign_dofs 0 (built_grid 0 Triangle b) (lagrange 3) = Ok dm /\
  sub_at (built_grid 0 Triangle b) c 1 i e /\ sub_at (built_grid 0 Triangle b) c' 1 i' e /\
  has_cell_dofs dm c row /\ has_cell_dofs dm c' row' /\
  el_edofs (lagrange 3 Triangle) 1 i = Some l /\ el_edofs (lagrange 3 Triangle) 1 i' = Some l' /\
  nth_error l k = Some x /\ nth_error l' k = Some x' /\
  nth_error row x = Some n /\ nth_error row' x' = Some n /\
  edge_point_weight (built_grid 0 Triangle b) c i (length l) k v <>
  edge_point_weight (built_grid 0 Triangle b) c' i' (length l') k v.
Proof. exact edge_points_refuted. Qed.
Print Assumptions C07_edge_points_refuted.

(** Non-vacuity: a grid of eight triangles, degrees 1, 2, 3 and discontinuous. *)
Example C01_C07_hypotheses_met :
  wf_grid screen2 /\ ent_count screen2 0 = 9 /\ ent_count screen2 1 = 16 /\ ent_count screen2 2 = 8 /\
  (forall p, 1 <= p -> wf_family (g_types screen2 2) (lagrange p)) /\
  wf_family (g_types screen2 2) (interior_only (fun _ => 1)) /\
  interior_family (g_types screen2 2) (interior_only (fun _ => 1)) /\
  (forall d e, d <= 2 -> e < ent_count screen2 d -> exists c, contains screen2 c d e) /\
  (exists dm, assign_dofs 0 screen2 (lagrange 2) = Ok dm /\ dm_size dm = 25 /\
              has_cell_dofs dm 1 [0; 2; 6; 7; 8; 4]) /\
  sub_at screen2 0 1 1 1 /\ sub_at screen2 1 1 2 1 /\ edge_start screen2 0 1 = edge_start screen2 1 2.
Proof. exact screen2_facts. Qed.
