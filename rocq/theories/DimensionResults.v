(** * Dimensions of spaces on the built-in shapes *)
From Verif Require Import Base BaseFacts Topology TopologyFacts DofMap SpecDof DofMapResults DofExamples Process Space SpecSpace Shapes SpecShapes
  SphereSurface SphereFacts SphereResults ScreenFacts ScreenEdges ShapesResults Options Adjacency SpecAdjacency Scalar Integrand CellPair Operators SpecLocal
  Interleave Assembly SpecAssembly SpecDistributed DistributedResults.

Lemma half_product k : 2 * (k * (k - 1) / 2) = k * (k - 1).
Proof.
  assert (E : exists m, k * (k - 1) = 2 * m).
  { induction k as [|k IH]; [exists 0; reflexivity|]. destruct IH as (m & E). destruct k as [|k]; [exists 0; reflexivity|].
    exists (m + S k). replace (S k - 1) with k in E by lia. replace (S (S k) - 1) with (S k) by lia. lia. }
  destruct E as (m & ->). rewrite (Nat.mul_comm 2 m), Nat.div_mul by lia. lia.
Qed.

Lemma interior_triangle p : 1 <= p -> 2 * lagrange_interior Triangle p = (p - 1) * (p - 2).
Proof. intros H. cbn [lagrange_interior]. replace (p - 2) with (p - 1 - 1) by lia. apply half_product. Qed.

(** The sizes of the DOF maps, for vertex counts V, edges E and cells F. *)
Lemma sphere_size p L : 1 <= p ->
  (2 + 4 ^ (L + 1)) + (p - 1) * (12 * 4 ^ L) + lagrange_interior Triangle p * (8 * 4 ^ L) = p * p * 4 ^ (L + 1) + 2.
Proof.
  intros H. pose proof (interior_triangle p H) as I. set (m := lagrange_interior Triangle p) in *. clearbody m.
  replace (4 ^ (L + 1)) with (4 * 4 ^ L) by (rewrite Nat.add_1_r; reflexivity). set (q := 4 ^ L). clearbody q.
  destruct p as [|k]; [lia|]. replace (S k - 1) with k in * by lia. destruct k as [|k].
  - replace m with 0 by lia. lia.
  - replace (S (S k) - 2) with k in I by lia. replace (m * (8 * q)) with (4 * q * (2 * m)) by lia. rewrite I. lia.
Qed.

Lemma triangles_size p n : 1 <= p ->
  (n + 1) * (n + 1) + (p - 1) * (3 * n * n + 2 * n) + lagrange_interior Triangle p * (2 * n * n) = (p * n + 1) * (p * n + 1).
Proof.
  intros H. pose proof (interior_triangle p H) as I. set (m := lagrange_interior Triangle p) in *. clearbody m.
  destruct p as [|k]; [lia|]. replace (S k - 1) with k in * by lia. destruct k as [|k].
  - replace m with 0 by lia. lia.
  - replace (S (S k) - 2) with k in I by lia. replace (m * (2 * n * n)) with (n * n * (2 * m)) by lia. rewrite I. lia.
Qed.

Lemma quads_size p n : 1 <= p ->
  (n + 1) * (n + 1) + (p - 1) * (2 * n * (n + 1)) + lagrange_interior Quadrilateral p * (n * n) = (p * n + 1) * (p * n + 1).
Proof. intros H. cbn [lagrange_interior]. destruct p as [|k]; [lia|]. replace (S k - 1) with k by lia. lia. Qed.

(** What the grids of the shapes have in common. *)
Record counted (t : cell_type) (g : grid) (V E F : nat) : Prop := {
  cn_wf : wf_grid g;
  cn_conforming : conforming g;
  cn_types : g_types g 2 = [t];
  cn_owned : forall d e, g_own g d e = Owned;
  cn_ctype : forall c, g_ctype g c = t;
  cn_used : forall d e, d <= 2 -> e < ent_count g d -> exists c, contains g c d e;
  cn_V : ent_count g 0 = V;
  cn_E : ent_count g 1 = E;
  cn_F : ent_count g 2 = F
}.

Lemma cells_counted (t : cell_type) i npts cells V E F : t = Triangle \/ t = Quadrilateral ->
  wf_grid (grid_of_cells i t npts cells) -> conforming (grid_of_cells i t npts cells) ->
  (forall v, v < npts -> exists c, In c cells /\ In v c) ->
  npts = V -> length (grid_edges t cells) = E -> length cells = F -> counted t (grid_of_cells i t npts cells) V E F.
Proof.
  intros Ht W C U EV EE EF. constructor; auto.
  - now apply grid_of_cells_used.
  - cbn. lia.
  - cbn. lia.
  - destruct Ht as [-> | ->]; cbn; lia.
Qed.

Lemma sphere_counted R L b i : regular_sphere R L 1 = Ok b ->
  counted Triangle (built_grid i Triangle b) (2 + 4 ^ (L + 1)) (12 * 4 ^ L) (8 * 4 ^ L).
Proof.
  intros E. destruct (sphere_surface R L) as (b' & E' & P & C & N1 & N2 & SU). rewrite E in E'. injection E' as <-.
  unfold built_grid. rewrite points_count. apply cells_counted; auto.
  - apply grid_of_cells_wf, (surface_valid _ _ SU).
  - apply (surface_conforming _ _ SU).
  - exact (su_used _ _ SU).
  - pose proof (edge_count _ _ SU) as EC. unfold cells_of in *. rewrite N2 in EC. lia.
Qed.

Lemma triangles_counted n b i : screen_triangles n = Ok b ->
  counted Triangle (built_grid i Triangle b) ((n + 1) * (n + 1)) (3 * n * n + 2 * n) (2 * n * n).
Proof.
  intros E. assert (Hn : 0 < n) by (destruct n; [discriminate|lia]).
  destruct (screen_triangles_spec n ltac:(lia)) as (b' & E' & P & C & Lc). rewrite E in E'. injection E' as <-.
  assert (Cs : map snd (b_cells b) = triangle_cells n) by (rewrite C; apply map_snd_enumerate).
  unfold built_grid. rewrite P, length_enumerate, square_points_length, Cs. apply cells_counted; auto.
  - apply grid_of_cells_wf, triangles_valid.
  - apply triangles_conforming.
  - now apply triangles_used.
  - now apply triangles_edge_count.
Qed.

Lemma quads_counted n b i : screen_quadrilaterals n = Ok b ->
  counted Quadrilateral (built_grid i Quadrilateral b) ((n + 1) * (n + 1)) (2 * n * (n + 1)) (n * n).
Proof.
  intros E. assert (Hn : 0 < n) by (destruct n; [discriminate|lia]).
  destruct (screen_quadrilaterals_spec n ltac:(lia)) as (b' & E' & P & C & Lc). rewrite E in E'. injection E' as <-.
  assert (Cs : map snd (b_cells b) = quad_cells n) by (rewrite C; apply map_snd_enumerate).
  unfold built_grid. rewrite P, length_enumerate, square_points_length, Cs. apply cells_counted; auto.
  - apply grid_of_cells_wf, quads_valid.
  - apply quads_conforming.
  - now apply quads_used.
  - now apply quads_edge_count.
Qed.

(** A grid as its own part on one process. *)
Lemma whole_partition G : wf_grid G -> (forall d e, g_own G d e = Owned) -> partition 1 G (fun _ => G) (fun _ _ e => e).
Proof.
  intros W O. constructor; [constructor|..]; auto.
  - intros r _ t Ht. exact Ht.
  - intros r c d _ _ _. symmetry. apply map_id.
  - intros r r' d e e' Hr Hr'. lia.
  - intros C HC. exists 0, C. auto.
Qed.
Lemma whole_dist G fam : wf_grid G -> wf_family (g_types G 2) fam -> (forall d e, g_own G d e = Owned) -> wf_dist 1 (fun _ => G) fam.
Proof. intros W F O. constructor; auto. intros r c d i e p x _ _ H. rewrite O in H. discriminate. Qed.

Section Distributed.
Variables (t : cell_type) (G : grid) (V E F : nat).
Hypothesis C : counted t G V E F.

Lemma lagrange_size p dm : 1 <= p -> assign_dofs 0 G (lagrange p) = Ok dm ->
  dm_size dm = V + (p - 1) * E + lagrange_interior t p * F.
Proof.
  intros Hp H. destruct C as [W _ T _ _ U CV CE CF].
  rewrite (dimension_lagrange 0 G p dm t W T Hp H U). now rewrite CV, CE, CF.
Qed.

Lemma interior_size fam dm : wf_family [t] fam -> interior_family [t] fam -> assign_dofs 0 G fam = Ok dm -> dm_size dm = F * el_dim (fam t).
Proof.
  intros Fam I H. destruct C as [W _ T _ CT U CV CE CF]. rewrite <- T in Fam, I.
  destruct (discontinuous 0 G fam dm W Fam H I) as (_ & ->). rewrite CF.
  rewrite (map_ext _ (fun _ => el_dim (fam t))) by (intros; now rewrite CT).
  assert (S : forall k s, sum_list (map (fun _ : nat => el_dim (fam t)) (seq s k)) = k * el_dim (fam t)).
  { induction k; intros s; cbn [seq map sum_list]; [reflexivity|]. unfold sum_list in *. cbn. rewrite IHk. reflexivity. }
  apply S.
Qed.

Lemma global_lagrange p N g M dm eager sp r : 1 <= p -> partition N G g M -> wf_dist N g (lagrange p) -> dofmaps N g (lagrange p) dm ->
  creates N eager dm sp -> r < N -> global_size (sp r) = V + (p - 1) * E + lagrange_interior t p * F.
Proof.
  intros Hp P D H Cr Hr. pose proof (cn_wf _ _ _ _ _ C) as W.
  destruct (assign_dofs_total 0 G (lagrange p) W (lagrange_wf_family _ _)) as (sdm & Hs).
  destruct (distributed_numbering N G g M (lagrange p) dm eager sp sdm P W (lagrange_wf_family _ _) D H Cr Hs) as (_ & _ & GS & _).
  rewrite GS by auto. now apply lagrange_size.
Qed.

Lemma global_interior fam N g M dm eager sp r : wf_family [t] fam -> interior_family [t] fam -> partition N G g M -> wf_dist N g fam -> dofmaps N g fam dm ->
  creates N eager dm sp -> r < N -> global_size (sp r) = F * el_dim (fam t).
Proof.
  intros Fam I P D H Cr Hr. pose proof (cn_wf _ _ _ _ _ C) as W. pose proof (cn_types _ _ _ _ _ C) as T.
  destruct (assign_dofs_total 0 G fam W ltac:(rewrite T; auto)) as (sdm & Hs).
  destruct (distributed_numbering N G g M fam dm eager sp sdm P W ltac:(rewrite T; auto) D H Cr Hs) as (_ & _ & GS & _).
  rewrite GS by auto. now apply interior_size.
Qed.
End Distributed.

Lemma sphere_dimension : forall R L b i p N g M dm eager sp r,
  regular_sphere R L 1 = Ok b -> 1 <= p ->
  partition N (built_grid i Triangle b) g M -> wf_dist N g (lagrange p) -> dofmaps N g (lagrange p) dm -> creates N eager dm sp -> r < N ->
  global_size (sp r) = p * p * 4 ^ (L + 1) + 2.
Proof.
  intros R L b i p N g M dm eager sp r E Hp P D H Cr Hr.
  rewrite (global_lagrange _ _ _ _ _ (sphere_counted R L b i E) p N g M dm eager sp r); auto. now apply sphere_size.
Qed.

Lemma triangles_dimension : forall n b i p N g M dm eager sp r,
  screen_triangles n = Ok b -> 1 <= p ->
  partition N (built_grid i Triangle b) g M -> wf_dist N g (lagrange p) -> dofmaps N g (lagrange p) dm -> creates N eager dm sp -> r < N ->
  global_size (sp r) = (p * n + 1) * (p * n + 1).
Proof.
  intros n b i p N g M dm eager sp r E Hp P D H Cr Hr.
  rewrite (global_lagrange _ _ _ _ _ (triangles_counted n b i E) p N g M dm eager sp r); auto. now apply triangles_size.
Qed.

Lemma quads_dimension : forall n b i p N g M dm eager sp r,
  screen_quadrilaterals n = Ok b -> 1 <= p ->
  partition N (built_grid i Quadrilateral b) g M -> wf_dist N g (lagrange p) -> dofmaps N g (lagrange p) dm -> creates N eager dm sp -> r < N ->
  global_size (sp r) = (p * n + 1) * (p * n + 1).
Proof.
  intros n b i p N g M dm eager sp r E Hp P D H Cr Hr.
  rewrite (global_lagrange _ _ _ _ _ (quads_counted n b i E) p N g M dm eager sp r); auto. now apply quads_size.
Qed.

Lemma discontinuous_dimension : forall fam N g M dm eager sp r,
  (forall t, wf_family [t] fam) -> (forall t, interior_family [t] fam) -> wf_dist N g fam -> dofmaps N g fam dm -> creates N eager dm sp -> r < N ->
  (forall R L b i, regular_sphere R L 1 = Ok b -> partition N (built_grid i Triangle b) g M -> global_size (sp r) = 8 * 4 ^ L * el_dim (fam Triangle)) /\
  (forall n b i, screen_triangles n = Ok b -> partition N (built_grid i Triangle b) g M -> global_size (sp r) = 2 * n * n * el_dim (fam Triangle)) /\
  (forall n b i, screen_quadrilaterals n = Ok b -> partition N (built_grid i Quadrilateral b) g M -> global_size (sp r) = n * n * el_dim (fam Quadrilateral)).
Proof.
  intros fam N g M dm eager sp r Fam I D H Cr Hr. split; [|split].
  - intros R L b i E P. eapply global_interior; eauto using sphere_counted.
  - intros n b i E P. eapply global_interior; eauto using triangles_counted.
  - intros n b i E P. eapply global_interior; eauto using quads_counted.
Qed.

Lemma entity_counts :
  (forall R L b i, regular_sphere R L 1 = Ok b -> ent_count (built_grid i Triangle b) 0 = 4 ^ (L + 1) + 2 /\
     ent_count (built_grid i Triangle b) 1 = 12 * 4 ^ L /\ ent_count (built_grid i Triangle b) 2 = 8 * 4 ^ L) /\
  (forall n b i, screen_triangles n = Ok b -> ent_count (built_grid i Triangle b) 0 = (n + 1) * (n + 1) /\
     ent_count (built_grid i Triangle b) 1 = 3 * n * n + 2 * n /\ ent_count (built_grid i Triangle b) 2 = 2 * n * n) /\
  (forall n b i, screen_quadrilaterals n = Ok b -> ent_count (built_grid i Quadrilateral b) 0 = (n + 1) * (n + 1) /\
     ent_count (built_grid i Quadrilateral b) 1 = 2 * n * (n + 1) /\ ent_count (built_grid i Quadrilateral b) 2 = n * n).
Proof.
  split; [|split].
  - intros R L b i E. destruct (sphere_counted R L b i E). rewrite Nat.add_comm. auto.
  - intros n b i E. destruct (triangles_counted n b i E). auto.
  - intros n b i E. destruct (quads_counted n b i E). auto.
Qed.
