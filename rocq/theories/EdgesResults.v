(** * Points of edge DOFs on the built-in shapes: proofs *)
From Verif Require Import Base BaseFacts Topology TopologyFacts DofMap DofMapFacts SpecDof DofMapResults DofExamples Shapes SpecShapes SphereFacts SphereSurface SphereResults
  SpecScreen ScreenFacts ScreenEdges ShapesResults DimensionResults SpecEdges.

Section Grid.
Variables (rank : nat) (g : grid) (fam : family) (dm : dofmap).
Hypotheses (W : wf_grid g) (Fam : wf_family (g_types g 2) fam) (H : assign_dofs rank g fam = Ok dm).

Lemma sub_type c d i e : sub_at g c d i e -> In (g_ctype g c) (g_types g 2) /\ i < ref_count (g_ctype g c) d.
Proof.
  intros (Hc & Hd & Hn). split; [now apply (wf_ctype g W)|].
  rewrite <- (wf_sub_length g W c d Hc Hd). apply nth_error_Some. congruence.
Qed.

Lemma ndofs_edge c i e : sub_at g c 1 i e -> exists l, el_edofs (fam (g_ctype g c)) 1 i = Some l /\ length l = el_ndofs (fam (g_ctype g c)) 1 i.
Proof.
  intros Hs. destruct (sub_type _ _ _ _ Hs) as (Ht & Hi).
  destruct (we_some _ _ (wff_el _ _ Fam _ Ht) 1 i ltac:(lia) Hi) as (l & E). exists l. split; auto. unfold el_ndofs. now rewrite E.
Qed.

Lemma ndofs_uniform c i e c' i' e' : sub_at g c 1 i e -> sub_at g c' 1 i' e' ->
  el_ndofs (fam (g_ctype g c)) 1 i = el_ndofs (fam (g_ctype g c')) 1 i'.
Proof.
  intros Hs Hs'. destruct (sub_type _ _ _ _ Hs) as (Ht & Hi), (sub_type _ _ _ _ Hs') as (Ht' & Hi').
  apply (wff_uniform _ _ Fam); auto.
Qed.

Lemma edge_dof_listed n c i m k : edge_dof g fam dm n c i m k ->
  exists e, sub_at g c 1 i e /\ listed dm 1 e k n /\ m = el_ndofs (fam (g_ctype g c)) 1 i /\ k < m.
Proof.
  intros (e & row & l & x & Hs & Hr & Hl & Lm & Hx & Hn). exists e. split; auto.
  destruct (cell_dofs_of_entity rank g fam dm c 1 i e l row W Fam H Hs Hl Hr) as (ns & Hns & _ & K).
  split; [|split].
  - exists ns. split; auto. rewrite <- (K k x Hx). exact Hn.
  - unfold el_ndofs. now rewrite Hl.
  - subst m. apply nth_error_Some. congruence.
Qed.

Lemma edge_dof_exists c i e k : sub_at g c 1 i e -> k < el_ndofs (fam (g_ctype g c)) 1 i ->
  exists ns n, get_local_dof_numbers dm 1 e = Ok ns /\ nth_error ns k = Some n /\ edge_dof g fam dm n c i (el_ndofs (fam (g_ctype g c)) 1 i) k.
Proof.
  intros Hs Hk. destruct (ndofs_edge c i e Hs) as (l & Hl & Ll).
  destruct (cell_dofs_distinct_in_range rank g fam dm c W Fam H ltac:(apply Hs)) as (row & Hr & _).
  destruct (cell_dofs_of_entity rank g fam dm c 1 i e l row W Fam H Hs Hl Hr) as (ns & Hns & Ln & K).
  destruct (nth_error l k) as [x|] eqn:Ex; [|apply nth_error_None in Ex; lia].
  destruct (nth_error ns k) as [n|] eqn:En; [|apply nth_error_None in En; lia].
  exists ns, n. split; auto. split; auto. exists e, row, l, x. rewrite (K k x Ex). auto 8.
Qed.

(** The spaces that see every edge DOF at one point. *)
Lemma single_valued_iff : single_valued g fam dm <->
  (forall c c' i i' e, sub_at g c 1 i e -> sub_at g c' 1 i' e -> edge_start g c i = edge_start g c' i' \/ el_ndofs (fam (g_ctype g c)) 1 i <= 1).
Proof.
  split.
  - intros S c c' i i' e Hs Hs'. destruct (Nat.leb_spec (el_ndofs (fam (g_ctype g c)) 1 i) 1) as [Hle|Hgt]; [now right|left].
    pose proof (ndofs_uniform _ _ _ _ _ _ Hs Hs') as U.
    destruct (edge_dof_exists c i e 0 Hs ltac:(lia)) as (ns & n & Hns & Hn & D).
    destruct (edge_dof_exists c' i' e 0 Hs' ltac:(lia)) as (ns' & n' & Hns' & Hn' & D').
    assert (n' = n) by congruence. subst n'. destruct (S _ _ _ _ _ _ _ _ _ D D') as (E & Wt). rewrite <- E in Wt.
    destruct (proj1 (edge_point_same g c c' i i' e (el_ndofs (fam (g_ctype g c)) 1 i) 0 W Hs Hs' ltac:(lia)) Wt); auto. lia.
  - intros A n c i m k c' i' m' k' D D'.
    destruct (edge_dof_listed _ _ _ _ _ D) as (e & Hs & Le & Em & Hk), (edge_dof_listed _ _ _ _ _ D') as (e' & Hs' & Le' & Em' & Hk').
    destruct (proj2 (local_numbers_bijective rank g fam dm W Fam H) n 1 e k 1 e' k' Le Le') as (_ & <- & <-).
    pose proof (ndofs_uniform _ _ _ _ _ _ Hs Hs') as U. assert (Mm : m' = m) by congruence. clear Em'. subst m'. split; auto.
    apply (proj2 (edge_point_same g c c' i i' e m k W Hs Hs' Hk)). destruct (A c c' i i' e Hs Hs') as [?|?]; [now left|right; lia].
Qed.

Lemma double_point_at c c' i i' e : sub_at g c 1 i e -> sub_at g c' 1 i' e -> edge_start g c i <> edge_start g c' i' ->
  2 <= el_ndofs (fam (g_ctype g c)) 1 i -> double_point g fam dm.
Proof.
  intros Hs Hs' Hne H2. pose proof (ndofs_uniform _ _ _ _ _ _ Hs Hs') as U.
  destruct (edge_dof_exists c i e 0 Hs ltac:(lia)) as (ns & n & Hns & Hn & D).
  destruct (edge_dof_exists c' i' e 0 Hs' ltac:(lia)) as (ns' & n' & Hns' & Hn' & D'). rewrite <- U in D'.
  assert (n' = n) by congruence. subst n'.
  destruct (shared_edge_ends g c c' i i' e W Hs Hs') as (a & b & a' & b' & va & vb & E & E' & Hva & Hvb & Hv & Hor).
  exists n, c, i, c', i', (el_ndofs (fam (g_ctype g c)) 1 i), 0, va. split; auto. split; auto.
  unfold edge_start in Hne. rewrite E, E' in Hne. unfold edge_point_weight. rewrite E, E'. rewrite Hva in Hne |- *. rewrite Hvb.
  destruct Hor as [[K1 K2]|[K1 K2]]; rewrite K1 in Hne |- *; [congruence|]. rewrite K2.
  rewrite Nat.eqb_refl, (proj2 (Nat.eqb_neq vb va)) by auto. lia.
Qed.

Lemma double_not_single : double_point g fam dm -> ~ single_valued g fam dm.
Proof. intros (n & c & i & c' & i' & m & k & v & D & D' & Hne) S. apply Hne. exact (proj2 (S _ _ _ _ _ _ _ _ _ D D') v). Qed.

(** Cells whose edges all run from the lower to the higher vertex number. *)
Lemma increasing_single :
  (forall c i a b, c < ent_count g 2 -> nth_error (ref_edges (g_ctype g c)) i = Some (a, b) -> nth a (g_sub g c 0) 0 < nth b (g_sub g c 0) 0) ->
  single_valued g fam dm.
Proof.
  intros Inc. apply single_valued_iff. intros c c' i i' e Hs Hs'. left.
  destruct (shared_edge_ends g c c' i i' e W Hs Hs') as (a & b & a' & b' & va & vb & E & E' & Hva & Hvb & Hv & Hor).
  pose proof (Inc c i a b (proj1 Hs) E) as I1. pose proof (Inc c' i' a' b' (proj1 Hs') E') as I2.
  unfold edge_start. rewrite E, E'. destruct Hor as [[K1 K2]|[K1 K2]]; lia.
Qed.
End Grid.

Lemma single_low_degree : forall rank g fam dm,
  wf_grid g -> wf_family (g_types g 2) fam -> assign_dofs rank g fam = Ok dm ->
  (forall t i, In t (g_types g 2) -> el_ndofs (fam t) 1 i <= 1) -> single_valued g fam dm.
Proof.
  intros rank g fam dm W F H L. apply (single_valued_iff rank g fam dm W F H). intros c c' i i' e Hs Hs'. right. apply L. apply (wf_ctype g W), Hs.
Qed.

Lemma lagrange_edge_dofs t p i : el_ndofs (lagrange p t) 1 i = if i <? ref_count t 1 then p - 1 else 0.
Proof. unfold el_ndofs, lagrange. cbn [el_edofs]. destruct (i <? ref_count t 1); auto. apply seq_length. Qed.

(** Two cells of a builder that run along an edge in opposite directions. *)
Lemma opposite_cells id t npts cells c c' r r' i i' x y x' y' :
  valid_cells t npts cells -> nth_error cells c = Some r -> nth_error cells c' = Some r' ->
  nth_error (ref_edges t) i = Some (x, y) -> nth_error (ref_edges t) i' = Some (x', y') ->
  nth x r 0 = nth y' r' 0 -> nth y r 0 = nth x' r' 0 ->
  exists e, sub_at (grid_of_cells id t npts cells) c 1 i e /\ sub_at (grid_of_cells id t npts cells) c' 1 i' e /\
    edge_start (grid_of_cells id t npts cells) c i <> edge_start (grid_of_cells id t npts cells) c' i'.
Proof.
  intros V Hc Hc' Hi Hi' X Y. pose proof (grid_of_cells_wf id t npts cells V) as W.
  assert (N : forall k q, nth_error cells k = Some q -> nth k cells [] = q /\ k < ent_count (grid_of_cells id t npts cells) 2).
  { intros k q Hk. split; [now apply nth_error_nth|].
    assert (Hl : k < length cells) by (apply nth_error_Some; congruence).
    unfold ent_count. cbn [g_types grid_of_cells map sum_list g_count]. destruct V as ([-> | ->] & _); cbn; lia. }
  destruct (N _ _ Hc) as (Nc & Lc), (N _ _ Hc') as (Nc' & Lc').
  exists (index_of (norm_pair (nth x r 0, nth y r 0)) (grid_edges t cells)).
  split; [split; [exact Lc|split; [lia|]]|split; [split; [exact Lc'|split; [lia|]]|]].
  - cbn [g_sub grid_of_cells]. rewrite Nc. unfold cell_edges. rewrite map_map, (map_nth_error _ _ _ Hi). reflexivity.
  - cbn [g_sub grid_of_cells]. rewrite Nc'. unfold cell_edges. rewrite map_map, (map_nth_error _ _ _ Hi'). cbn [fst snd].
    rewrite X, Y. do 2 f_equal. unfold norm_pair. destruct (Nat.leb_spec (nth x' r' 0) (nth y' r' 0)), (Nat.leb_spec (nth y' r' 0) (nth x' r' 0)); auto; try lia.
    f_equal; lia.
  - unfold edge_start. cbn [g_ctype g_sub grid_of_cells]. rewrite Hi, Hi', Nc, Nc', <- Y. intros E.
    destruct (proj2 V r (nth_error_In _ _ Hc)) as (Lr & ND & _).
    destruct (ref_edges_lt t i x y (proj1 V) Hi) as (Hx & Hy & Hxy).
    apply (proj1 (NoDup_nth r 0) ND) in E; lia.
Qed.

Lemma double_on_cells rank id t npts cells fam dm c c' r r' i i' x y x' y' :
  valid_cells t npts cells -> wf_family [t] fam -> assign_dofs rank (grid_of_cells id t npts cells) fam = Ok dm ->
  nth_error cells c = Some r -> nth_error cells c' = Some r' ->
  nth_error (ref_edges t) i = Some (x, y) -> nth_error (ref_edges t) i' = Some (x', y') ->
  nth x r 0 = nth y' r' 0 -> nth y r 0 = nth x' r' 0 -> 2 <= el_ndofs (fam t) 1 i ->
  double_point (grid_of_cells id t npts cells) fam dm.
Proof.
  intros V F H Hc Hc' Hi Hi' X Y H2. destruct (opposite_cells id t npts cells c c' r r' i i' x y x' y' V Hc Hc' Hi Hi' X Y) as (e & S1 & S2 & Hne).
  exact (double_point_at rank _ fam dm (grid_of_cells_wf id t npts cells V) F H c c' i i' e S1 S2 Hne H2).
Qed.

(** The sphere: two cells that run along a common edge in opposite directions. *)
Definition opposed (cells : list (list nat)) : Prop :=
  exists u v w z c c', nth_error cells c = Some [u; v; w] /\ nth_error cells c' = Some [z; w; v].

Lemma mid_sym n es a b : mid n es a b = mid n es b a.
Proof.
  unfold mid. do 2 f_equal. unfold norm_pair. destruct (Nat.leb_spec a b), (Nat.leb_spec b a); auto; try lia. f_equal; lia.
Qed.

Lemma sphere_opposed R L : exists b, regular_sphere R L 1 = Ok b /\ b_points b = enumerate (points_of b) /\ b_cells b = enumerate (cells_of b) /\
  surface (length (points_of b)) (cells_of b) /\ opposed (cells_of b).
Proof.
  destruct (sphere_built R (fun _ cells => opposed cells) L) as (b & E & P & C & _ & _ & SU & O).
  - intros pts cells np SU (u & v & w & z & k & k' & Hk & _) _. destruct cells as [|c cells].
    + destruct k; discriminate.
    + destruct (su_cell _ _ SU c (or_introl eq_refl)) as (a & d & f & -> & _). cbn [flat_map children app].
      set (m := mid _ _). exists a, (m a d), (m a f), (m d f), 0, 3. split; [reflexivity|]. cbn [nth_error]. unfold m.
      now rewrite (mid_sym _ _ f a).
  - exists 0, 1, 2, 5, 0, 4. split; reflexivity.
  - exists b. auto.
Qed.

Lemma sphere_double : forall R L b p i rank dm, regular_sphere R L 1 = Ok b -> 3 <= p ->
  assign_dofs rank (built_grid i Triangle b) (lagrange p) = Ok dm -> double_point (built_grid i Triangle b) (lagrange p) dm.
Proof.
  intros R L b p i rank dm E Hp H. destruct (sphere_opposed R L) as (b' & E' & P & C & SU & u & v & w & z & c & c' & Hc & Hc').
  rewrite E in E'. injection E' as <-.
  unfold built_grid in *. change (map snd (b_cells b)) with (cells_of b) in *. rewrite points_count in *.
  refine (double_on_cells rank i Triangle _ _ (lagrange p) dm c c' _ _ 0 0 1 2 1 2 (surface_valid _ _ SU) (lagrange_wf_family _ _) H Hc Hc' eq_refl eq_refl eq_refl eq_refl _).
  rewrite lagrange_edge_dofs. cbn. lia.
Qed.

Lemma triangles_double : forall n b p i rank dm, screen_triangles n = Ok b -> 2 <= n -> 3 <= p ->
  assign_dofs rank (built_grid i Triangle b) (lagrange p) = Ok dm -> double_point (built_grid i Triangle b) (lagrange p) dm.
Proof.
  intros n b p i rank dm E Hn Hp H. destruct (screen_triangles_spec n ltac:(lia)) as (b' & E' & P & C & Lc). rewrite E in E'. injection E' as <-.
  assert (Ce : cells_of b = triangle_cells n) by (unfold cells_of; now rewrite C, map_snd_enumerate).
  assert (Np : length (b_points b) = (n + 1) * (n + 1)).
  { rewrite P, length_enumerate. apply square_points_length. }
  unfold built_grid in *. change (map snd (b_cells b)) with (cells_of b) in *. rewrite Ce, Np in *.
  destruct (In_nth_error (triangle_cells n) (upper n 0 0)) as (c & Hc); [apply In_triangle_cells; exists 0, 0; repeat split; auto; lia|].
  destruct (In_nth_error (triangle_cells n) (lower n 0 1)) as (c' & Hc'); [apply In_triangle_cells; exists 0, 1; repeat split; auto; lia|].
  refine (double_on_cells rank i Triangle _ _ (lagrange p) dm c c' _ _ 0 2 1 2 0 1 (triangles_valid n) (lagrange_wf_family _ _) H Hc Hc' eq_refl eq_refl _ _ _).
  - cbn [nth upper lower]. unfold id. lia.
  - cbn [nth upper lower]. unfold id. lia.
  - rewrite lagrange_edge_dofs. cbn. lia.
Qed.

Lemma triangles_one_single : forall b p i rank dm, screen_triangles 1 = Ok b ->
  assign_dofs rank (built_grid i Triangle b) (lagrange p) = Ok dm -> single_valued (built_grid i Triangle b) (lagrange p) dm.
Proof.
  intros b p i rank dm E H. pose proof (triangles_counted 1 b i E) as K. pose proof (cn_wf _ _ _ _ _ K) as W.
  apply (single_valued_iff rank _ _ dm W (lagrange_wf_family _ _) H). intros c c' j j' e Hs Hs'. left.
  injection E as <-. destruct Hs as (Hc & _ & Hj), Hs' as (Hc' & _ & Hj').
  assert (Hc2 : c < 2) by exact Hc. assert (Hc2' : c' < 2) by exact Hc'. clear Hc Hc' H W K.
  destruct c as [|[|c]], c' as [|[|c']]; try lia;
  destruct j as [|[|[|j]]]; try (vm_compute in Hj; destruct j; discriminate); destruct j' as [|[|[|j']]]; try (vm_compute in Hj'; destruct j'; discriminate);
  vm_compute in Hj, Hj'; try (exfalso; congruence); vm_compute; reflexivity.
Qed.

Lemma quads_single : forall n b fam i rank dm, screen_quadrilaterals n = Ok b -> wf_family [Quadrilateral] fam ->
  assign_dofs rank (built_grid i Quadrilateral b) fam = Ok dm -> single_valued (built_grid i Quadrilateral b) fam dm.
Proof.
  intros n b fam i rank dm E F H. pose proof (quads_counted n b i E) as K.
  assert (Hn : n <> 0) by (intros ->; discriminate).
  destruct (screen_quadrilaterals_spec n Hn) as (b' & E' & P & C & Lc). rewrite E in E'. injection E' as <-.
  assert (Ce : cells_of b = quad_cells n) by (unfold cells_of; now rewrite C, map_snd_enumerate).
  apply (increasing_single rank _ fam dm (cn_wf _ _ _ _ _ K) F H).
  intros c j x y Hc Hj. rewrite (cn_F _ _ _ _ _ K) in Hc. cbn [g_ctype g_sub built_grid grid_of_cells] in *.
  change (map snd (b_cells b)) with (cells_of b). rewrite Ce.
  assert (Hin : In (nth c (quad_cells n) []) (quad_cells n)) by (apply nth_In; lia).
  apply In_quad_cells in Hin. destruct Hin as (u & v & _ & _ & ->).
  destruct j as [|[|[|[|j]]]]; cbn [ref_edges nth_error] in Hj; try (destruct j; discriminate); injection Hj as <- <-; cbn [nth quad]; lia.
Qed.
