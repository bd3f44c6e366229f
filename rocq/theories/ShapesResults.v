(** * The shapes: results *)
From Coq Require Import Reals Lra.
From Verif Require Import Base BaseFacts Topology TopologyFacts Shapes SpecShapes SphereFacts SphereSurface SphereResults SpecSphere SphereGeometry SphereTiling
  ScreenFacts SpecScreen ScreenGeometry Options Batch Adjacency SpecAdjacency AdjacencyFacts AdjacencyResults.

Local Open Scope nat_scope.

Lemma sphere_surface R L : exists b, regular_sphere R L 1 = Ok b /\
  b_points b = enumerate (points_of b) /\ b_cells b = enumerate (cells_of b) /\
  length (points_of b) = 2 + 4 ^ (L + 1) /\ length (cells_of b) = 8 * 4 ^ L /\
  surface (length (points_of b)) (cells_of b).
Proof.
  destruct (sphere_built R (fun _ _ => True) L ltac:(auto) I) as (b & E & P & C & N1 & N2 & SU & _). exists b. auto 7.
Qed.

Lemma points_count {P : Type} (b : builder P) : length (b_points b) = length (points_of b).
Proof. unfold points_of. now rewrite map_length. Qed.

Lemma sphere_counts : forall R L b, regular_sphere R L 1 = Ok b ->
  map fst (b_points b) = seq 0 (2 + 4 ^ (L + 1)) /\ map fst (b_cells b) = seq 0 (8 * 4 ^ L) /\
  sphere_point_capacity L = length (b_points b) /\ sphere_cell_capacity L = length (b_cells b) /\
  (forall c v, In c (cells_of b) -> In v c -> v < length (b_points b)) /\
  (forall v, v < length (b_points b) -> exists c, In c (cells_of b) /\ In v c) /\
  (forall id, ent_count (built_grid id Triangle b) 1 = 12 * 4 ^ L).
Proof.
  intros R L b E. destruct (sphere_surface R L) as (b' & E' & P & C & N1 & N2 & SU). rewrite E in E'. injection E' as <-.
  assert (Lc : length (b_cells b) = length (cells_of b)) by (unfold cells_of; now rewrite map_length).
  split; [rewrite P, map_fst_enumerate, N1; reflexivity|]. split; [rewrite C, map_fst_enumerate, N2; reflexivity|].
  rewrite points_count. split; [now rewrite N1|]. split; [now rewrite Lc, N2|]. split; [|split].
  - intros c v Hc Hv. apply (proj2 (surface_valid _ _ SU) c Hc). exact Hv.
  - exact (su_used _ _ SU).
  - intros id. change (ent_count (built_grid id Triangle b) 1) with (length (grid_edges Triangle (cells_of b)) + 0).
    pose proof (edge_count _ _ SU) as EC. rewrite N2 in EC. lia.
Qed.

Lemma sphere_exists : forall R L, exists b, regular_sphere R L 1 = Ok b.
Proof. intros R L. destruct (sphere_surface R L) as (b & E & _). eauto. Qed.

Lemma sphere_closed : forall R L b, regular_sphere R L 1 = Ok b ->
  (forall c, In c (cells_of b) -> length c = 3 /\ NoDup c) /\
  (forall i c u v, nth_error (cells_of b) i = Some c -> In (u, v) (directed_edges c) ->
     exists j c', j <> i /\ nth_error (cells_of b) j = Some c' /\ In (v, u) (directed_edges c') /\
       forall k d, nth_error (cells_of b) k = Some d -> In u d -> In v d -> k = i \/ k = j) /\
  (forall id, wf_grid (built_grid id Triangle b) /\ conforming (built_grid id Triangle b)).
Proof.
  intros R L b E. destruct (sphere_surface R L) as (b' & E' & P & C & N1 & N2 & SU). rewrite E in E'. injection E' as <-.
  split; [|split].
  - intros c Hc. destruct (proj2 (surface_valid _ _ SU) c Hc) as (A & B & _). auto.
  - intros i c u v. apply (surface_two_cells _ _ SU).
  - intros id. unfold built_grid. rewrite points_count. split; [apply grid_of_cells_wf, (surface_valid _ _ SU)|apply (surface_conforming _ _ SU)].
Qed.

Lemma sphere_degree_refuted : exists level degree, forall R, regular_sphere R level degree = Panic.
Proof. exists 0, 2. intros R. apply sphere_other_degree. lia. Qed.

(** ** Entities by type *)

Lemma other_types {P : Type} (b : builder P) id t u : u <> Point -> u <> Interval -> u <> t -> g_count (built_grid id t b) u = 0.
Proof. intros H1 H2 H3. cbn. destruct u; try congruence; destruct t; try congruence; reflexivity. Qed.

Lemma sphere_types : forall R L b id u, regular_sphere R L 1 = Ok b ->
  g_count (built_grid id Triangle b) u = match u with Point => 2 + 4 ^ (L + 1) | Interval => 12 * 4 ^ L | Triangle => 8 * 4 ^ L | _ => 0 end.
Proof.
  intros R L b id u E. destruct (sphere_counts R L b E) as (P & C & _ & _ & _ & _ & Ed). specialize (Ed id).
  change (ent_count (built_grid id Triangle b) 1) with (length (grid_edges Triangle (map snd (b_cells b))) + 0) in Ed. rewrite Nat.add_0_r in Ed.
  apply (f_equal (@length nat)) in P, C. rewrite map_length, seq_length in P, C.
  destruct u; try (apply other_types; congruence); [exact P | exact Ed | cbn; rewrite map_length; exact C].
Qed.

(** ** Screens *)

Lemma screen_zero : screen_triangles 0 = Panic /\ screen_quadrilaterals 0 = Panic.
Proof. split; reflexivity. Qed.

Lemma triangles_topology : forall n, 0 < n -> exists b, screen_triangles n = Ok b /\
  map fst (b_points b) = seq 0 ((n + 1) * (n + 1)) /\ map fst (b_cells b) = seq 0 (2 * n * n) /\
  NoDup (points_of b) /\
  (forall c v, In c (cells_of b) -> In v c -> v < length (b_points b)) /\
  (forall id, wf_grid (built_grid id Triangle b) /\ conforming (built_grid id Triangle b)).
Proof.
  intros n Hn. destruct (screen_triangles_spec n ltac:(lia)) as (b & E & P & C & Lc). exists b. split; auto.
  assert (Pts : points_of b = square_points (n + 1)) by (unfold points_of; rewrite P; apply map_snd_enumerate).
  assert (Cs : cells_of b = triangle_cells n) by (unfold cells_of; rewrite C; apply map_snd_enumerate).
  rewrite P, C, !map_fst_enumerate, Lc, square_points_length, length_enumerate, square_points_length, Cs, Pts.
  split; auto. split; auto. split; [|split].
  - apply (NoDup_nth_error (square_points (n + 1))). intros i j Hi Eij. rewrite square_points_length in Hi.
    destruct (number_of _ _ Hi) as (x & y & Hx & Hy & ->). rewrite square_point_at in Eij by auto.
    assert (Hj : j < (n + 1) * (n + 1)) by (rewrite <- square_points_length; apply nth_error_Some; congruence).
    destruct (number_of _ _ Hj) as (x' & y' & Hx' & Hy' & ->). rewrite square_point_at in Eij by auto. congruence.
  - intros c v Hc Hv. now apply (proj2 (triangles_valid n) c Hc).
  - intros id. unfold built_grid. rewrite P, length_enumerate, square_points_length. change (map snd (b_cells b)) with (cells_of b). rewrite Cs.
    split; [apply grid_of_cells_wf, triangles_valid|apply triangles_conforming].
Qed.

Lemma quads_topology : forall n, 0 < n -> exists b, screen_quadrilaterals n = Ok b /\
  map fst (b_points b) = seq 0 ((n + 1) * (n + 1)) /\ map fst (b_cells b) = seq 0 (n * n) /\
  NoDup (points_of b) /\
  (forall c v, In c (cells_of b) -> In v c -> v < length (b_points b)) /\
  (forall id, wf_grid (built_grid id Quadrilateral b) /\ conforming (built_grid id Quadrilateral b)).
Proof.
  intros n Hn. destruct (screen_quadrilaterals_spec n ltac:(lia)) as (b & E & P & C & Lc). exists b. split; auto.
  assert (Pts : points_of b = square_points (n + 1)) by (unfold points_of; rewrite P; apply map_snd_enumerate).
  assert (Cs : cells_of b = quad_cells n) by (unfold cells_of; rewrite C; apply map_snd_enumerate).
  rewrite P, C, !map_fst_enumerate, Lc, square_points_length, length_enumerate, square_points_length, Cs, Pts.
  split; auto. split; auto. split; [|split].
  - apply (NoDup_nth_error (square_points (n + 1))). intros i j Hi Eij. rewrite square_points_length in Hi.
    destruct (number_of _ _ Hi) as (x & y & Hx & Hy & ->). rewrite square_point_at in Eij by auto.
    assert (Hj : j < (n + 1) * (n + 1)) by (rewrite <- square_points_length; apply nth_error_Some; congruence).
    destruct (number_of _ _ Hj) as (x' & y' & Hx' & Hy' & ->). rewrite square_point_at in Eij by auto. congruence.
  - intros c v Hc Hv. now apply (proj2 (quads_valid n) c Hc).
  - intros id. unfold built_grid. rewrite P, length_enumerate, square_points_length. change (map snd (b_cells b)) with (cells_of b). rewrite Cs.
    split; [apply grid_of_cells_wf, quads_valid|apply quads_conforming].
Qed.

Local Open Scope R_scope.

Lemma triangles_tile : forall n b, screen_triangles n = Ok b ->
  (forall x, (exists c w, In c (cells_of b) /\ in_triangle (screen_positions n b) c w x) <-> in_square (INR n / INR (n + 1)) x) /\
  (forall c c' w w' x, In c (cells_of b) -> In c' (cells_of b) ->
     in_triangle (screen_positions n b) c w x -> in_triangle (screen_positions n b) c' w' x ->
     (forall v, w v = w' v) /\ forall v, w v <> 0 -> In v c /\ In v c') /\
  (forall c i j k p q r, In c (cells_of b) -> c = [i; j; k] ->
     nth_error (screen_positions n b) i = Some p -> nth_error (screen_positions n b) j = Some q -> nth_error (screen_positions n b) k = Some r ->
     normal p q r = (0, 0, / INR (n + 1) * / INR (n + 1))).
Proof.
  intros n b E. assert (Hn : (0 < n)%nat) by (destruct n; [discriminate|lia]).
  destruct (screen_triangles_spec n ltac:(lia)) as (b' & E' & P & C & Lc). rewrite E in E'. injection E' as <-.
  assert (Pts : screen_positions n b = map (screen_position n) (square_points (n + 1))) by (unfold screen_positions, points_of; rewrite P; now rewrite map_snd_enumerate).
  assert (Cs : cells_of b = triangle_cells n) by (unfold cells_of; rewrite C; apply map_snd_enumerate). rewrite Pts, Cs. split; [|split].
  - intros x. split.
    + intros (c & w & Hc & I). eapply triangles_inside; eauto.
    + intros (X & Y & -> & HX & HY). apply triangles_cover; auto using square_scaled.
  - intros c c' w w' x Hc Hc' I I'. pose proof (triangles_apart n c c' w w' x Hc Hc' I I') as EW. split; auto.
    intros v Hv. destruct I as ((_ & Z & _) & _), I' as ((_ & Z' & _) & _). split.
    + destruct (in_dec Nat.eq_dec v c) as [|N]; auto. now apply Z in N.
    + destruct (in_dec Nat.eq_dec v c') as [|N]; auto. apply Z' in N. now rewrite <- EW in N.
  - intros c i j k p q r Hc Ec Hp Hq Hr. rewrite <- (triangle_normal n c i j k Hc Ec). unfold position.
    now rewrite (nth_error_nth_Some _ _ _ _ Hp), (nth_error_nth_Some _ _ _ _ Hq), (nth_error_nth_Some _ _ _ _ Hr).
Qed.

Lemma quads_tile : forall n b, screen_quadrilaterals n = Ok b ->
  (forall x, (exists c w, In c (cells_of b) /\ in_quadrilateral (screen_positions n b) c w x) <-> in_square (INR n / INR (n + 1)) x) /\
  (forall c c' w w' x, In c (cells_of b) -> In c' (cells_of b) ->
     in_quadrilateral (screen_positions n b) c w x -> in_quadrilateral (screen_positions n b) c' w' x ->
     (forall v, w v = w' v) /\ forall v, w v <> 0 -> In v c /\ In v c') /\
  (forall c i j k l p q r s, In c (cells_of b) -> c = [i; j; k; l] ->
     nth_error (screen_positions n b) i = Some p -> nth_error (screen_positions n b) j = Some q ->
     nth_error (screen_positions n b) k = Some r -> nth_error (screen_positions n b) l = Some s ->
     vsub q p = (/ INR (n + 1), 0, 0) /\ vsub r p = (0, / INR (n + 1), 0) /\ vsub s p = (/ INR (n + 1), / INR (n + 1), 0)).
Proof.
  intros n b E. assert (Hn : (0 < n)%nat) by (destruct n; [discriminate|lia]).
  destruct (screen_quadrilaterals_spec n ltac:(lia)) as (b' & E' & P & C & Lc). rewrite E in E'. injection E' as <-.
  assert (Pts : screen_positions n b = map (screen_position n) (square_points (n + 1))) by (unfold screen_positions, points_of; rewrite P; now rewrite map_snd_enumerate).
  assert (Cs : cells_of b = quad_cells n) by (unfold cells_of; rewrite C; apply map_snd_enumerate). rewrite Pts, Cs. split; [|split].
  - intros x. split.
    + intros (c & w & Hc & I). eapply quads_inside; eauto.
    + intros (X & Y & -> & HX & HY). apply quads_cover; auto using square_scaled.
  - intros c c' w w' x Hc Hc' I I'. pose proof (quads_apart n c c' w w' x Hc Hc' I I') as EW. split; auto.
    intros v Hv. destruct I as (s & t & _ & _ & _ & Z & _), I' as (s' & t' & _ & _ & _ & Z' & _). split.
    + destruct (in_dec Nat.eq_dec v c) as [|N]; auto. now apply Z in N.
    + destruct (in_dec Nat.eq_dec v c') as [|N]; auto. apply Z' in N. now rewrite <- EW in N.
  - intros c i j k l p q r s Hc Ec Hp Hq Hr Hs. pose proof (quad_square n c i j k l Hc Ec) as Q. unfold position in Q.
    now rewrite (nth_error_nth_Some _ _ _ _ Hp), (nth_error_nth_Some _ _ _ _ Hq), (nth_error_nth_Some _ _ _ _ Hr), (nth_error_nth_Some _ _ _ _ Hs) in Q.
Qed.

Lemma unit_square_refuted : exists n b bq p,
  screen_triangles n = Ok b /\ screen_quadrilaterals n = Ok bq /\ in_square 1 p /\
  (forall c w, In c (cells_of b) -> ~ in_triangle (screen_positions n b) c w p) /\
  (forall c w, In c (cells_of bq) -> ~ in_quadrilateral (screen_positions n bq) c w p).
Proof.
  destruct (screen_triangles_spec 1 ltac:(lia)) as (b & E & _). destruct (screen_quadrilaterals_spec 1 ltac:(lia)) as (bq & Eq & _).
  exists 1%nat, b, bq, (1, 1, 0). split; auto. split; auto. split; [exists 1, 1; repeat split; lra|].
  assert (N : ~ in_square (INR 1 / INR (1 + 1)) (1, 1, 0)).
  { intros (u & v & K & HU & _). apply triple_eq in K. destruct K as (<- & _). cbn in HU. lra. }
  split; intros c w Hc I; apply N.
  - apply (triangles_tile 1 b E). eauto.
  - apply (quads_tile 1 bq Eq). eauto.
Qed.

(** ** All shapes *)
Local Open Scope nat_scope.

Lemma shape_conforming g : shape_grid g -> wf_grid g /\ conforming g.
Proof.
  intros [R L id b E|n id b E|n id b E].
  - apply (sphere_closed R L b E).
  - assert (Hn : 0 < n) by (destruct n; [discriminate|lia]). destruct (triangles_topology n Hn) as (b' & E' & _ & _ & _ & _ & W). rewrite E in E'. injection E' as <-. apply W.
  - assert (Hn : 0 < n) by (destruct n; [discriminate|lia]). destruct (quads_topology n Hn) as (b' & E' & _ & _ & _ & _ & W). rewrite E in E'. injection E' as <-. apply W.
Qed.

Lemma shape_rules : forall g t s, shape_grid g -> t < ent_count g 2 -> s < ent_count g 2 -> touch g t s -> has_rule g t s.
Proof. intros g t s H Ht Hs T. destruct (shape_conforming g H) as (W & C). now apply conforming_has_rule. Qed.

Lemma shape_lookup : forall D (make : cell_type -> cell_type -> vpairs -> nat -> res D) wmod o g deg,
  shape_grid g -> has_degrees o (g_types g 2) deg ->
  (forall t s p, In t (g_types g 2) -> In s (g_types g 2) -> In p (possible_pairs t s) -> exists d, make t s p (deg t s) = Ok d) ->
  0 < get_batch_size o -> get_batch_size o < wmod -> pairs_fit wmod g ->
  exists st blocks, singular_rules make o (g_types g 2) = Ok st /\ singular_blocks wmod st o g = Ok blocks.
Proof.
  intros D make wmod o g deg H HD HM B1 B2 PF. destruct (shape_conforming g H) as (W & C).
  destruct (right_rules_conforming make wmod o g deg W C HD HM B1 B2 PF) as (st & blocks & E1 & E2 & _). eauto.
Qed.

Lemma screen_types : forall n id u, 0 < n ->
  (exists b, screen_triangles n = Ok b /\ g_count (built_grid id Triangle b) Triangle = 2 * n * n /\
     (u <> Point -> u <> Interval -> u <> Triangle -> g_count (built_grid id Triangle b) u = 0)) /\
  (exists b, screen_quadrilaterals n = Ok b /\ g_count (built_grid id Quadrilateral b) Quadrilateral = n * n /\
     (u <> Point -> u <> Interval -> u <> Quadrilateral -> g_count (built_grid id Quadrilateral b) u = 0)).
Proof.
  intros n id u Hn. split.
  - destruct (triangles_topology n Hn) as (b & E & _ & C & _). exists b. apply (f_equal (@length nat)) in C. rewrite map_length, seq_length in C.
    split; [exact E|]. split; [cbn; rewrite map_length; exact C|intros; now apply other_types].
  - destruct (quads_topology n Hn) as (b & E & _ & C & _). exists b. apply (f_equal (@length nat)) in C. rewrite map_length, seq_length in C.
    split; [exact E|]. split; [cbn; rewrite map_length; exact C|intros; now apply other_types].
Qed.
