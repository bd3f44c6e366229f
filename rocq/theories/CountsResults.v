(** * Numbers of colours and of singular contributions on the built-in shapes *)
From Verif Require Import Base BaseFacts Topology TopologyFacts DofMap SpecDof DofMapFacts DofMapResults Process Space SpecSpace
  Colouring SpecColour ColouringResults Shapes SpecShapes SphereFacts SphereSurface SphereResults ScreenFacts ScreenEdges ShapesResults DimensionResults
  Options SpecOptions Adjacency SpecAdjacency AdjacencyFacts Scalar Integrand CellPair Operators SpecLocal
  Interleave Assembly SpecAssembly AssemblyRaces AssemblySingular AssemblyDense AssemblyResults SpecShapeSpaces ShapeSpacesResults CountsSphere CountsScreen SpecCounts.

Lemma exactly_unique {A : Type} (P : A -> Prop) k m : exactly k P -> exactly m P -> k = m.
Proof.
  intros (l & N & H & <-) (l' & N' & H' & <-). apply same_set_length; auto. intros x. now rewrite H, H'.
Qed.

(** ** Cells by number *)

Lemma map_nth_seq {A : Type} (l : list A) d : map (fun j => nth j l d) (seq 0 (length l)) = l.
Proof.
  apply nth_error_ext. intros i. destruct (Nat.lt_ge_cases i (length l)) as [H|H].
  - rewrite (map_nth_error _ _ _ (nth_error_seq 0 (length l) i H)). cbn [Nat.add]. symmetry. now apply nth_error_nth'.
  - rewrite (proj2 (nth_error_None _ _)), (proj2 (nth_error_None _ _)); auto. now rewrite map_length, seq_length.
Qed.

Lemma cnt_numbers (P : list nat -> bool) cells : length (filter (fun j => P (nth j cells [])) (seq 0 (length cells))) = cnt P cells.
Proof.
  replace (cnt P cells) with (cnt P (map (fun j => nth j cells []) (seq 0 (length cells)))) by now rewrite map_nth_seq.
  unfold cnt. generalize (seq 0 (length cells)). induction l as [|j l IH]; [reflexivity|].
  cbn [filter map]. destruct (P (nth j cells [])); cbn [length]; congruence.
Qed.

Section Grid.
Context (i : nat) (t : cell_type) (npts : nat) (cells : list (list nat)) (Ht : t = Triangle \/ t = Quadrilateral).
Local Notation G := (grid_of_cells i t npts cells).

Lemma cell_total : ent_count G 2 = length cells.
Proof. destruct Ht as [-> | ->]; cbn; lia. Qed.

Lemma touch_cells c c' : touch G c c' <-> touches (nth c cells []) (nth c' cells []) = true.
Proof. rewrite touches_true. reflexivity. Qed.

Lemma vertex_cells v : exactly (valence cells v) (cell_at_vertex G v).
Proof.
  exists (filter (fun j => memb v (nth j cells [])) (seq 0 (length cells))). split; [apply NoDup_filter, seq_NoDup|]. split; [|apply cnt_numbers].
  intros c. rewrite filter_In, in_seq, memb_In. unfold cell_at_vertex. rewrite cell_total. cbn [g_sub grid_of_cells]. split; intros (A & B); split; auto; lia.
Qed.

Lemma neighbour_cells c : exactly (cnt (touches (nth c cells [])) cells) (fun c' => c' < ent_count G 2 /\ touch G c c').
Proof.
  exists (filter (fun j => touches (nth c cells []) (nth j cells [])) (seq 0 (length cells))). split; [apply NoDup_filter, seq_NoDup|].
  split; [|apply (cnt_numbers (touches (nth c cells [])))].
  intros c'. rewrite filter_In, in_seq, cell_total, touch_cells. split; intros (A & B); split; auto; lia.
Qed.

Lemma pair_cells : exactly (all_touching cells) (touching_pair G).
Proof.
  exists (flat_map (fun c => map (pair c) (filter (fun j => touches (nth c cells []) (nth j cells [])) (seq 0 (length cells)))) (seq 0 (length cells))).
  split; [|split].
  - apply NoDup_flat_map; [apply seq_NoDup| |].
    + intros c _. apply NoDup_map_inj_in; [|apply NoDup_filter, seq_NoDup]. intros x y _ _ E. congruence.
    + intros c c' p _ _ H H'. apply in_map_iff in H, H'. destruct H as (x & <- & _), H' as (y & E & _). congruence.
  - intros (c, c'). unfold touching_pair. cbn [fst snd]. rewrite cell_total, touch_cells, in_flat_map. split.
    + intros (x & Hx & H). apply in_map_iff in H. destruct H as (y & E & Hy). injection E as -> ->. apply filter_In in Hy. rewrite in_seq in *. intuition lia.
    + intros (A & B & C). exists c. split; [apply in_seq; lia|]. apply in_map. apply filter_In. split; [apply in_seq; lia|exact C].
  - rewrite length_flat_map. unfold all_touching.
    replace (map (fun c => cnt (touches c) cells) cells) with (map (fun c => cnt (touches c) cells) (map (fun j => nth j cells []) (seq 0 (length cells)))) by now rewrite map_nth_seq.
    rewrite map_map. f_equal. apply map_ext. intros c.
    rewrite map_length. apply (cnt_numbers (touches (nth c cells []))).
Qed.

Lemma bounded_neighbours M : wf_grid G -> (forall c, In c cells -> cnt (touches c) cells <= M + 1) ->
  forall rank fam dm, wf_family (g_types G 2) fam -> assign_dofs rank G fam = Ok dm -> conflicts_bounded G dm M.
Proof.
  intros W H rank fam dm WF HA c l Hc N HL.
  destruct (neighbour_cells c) as (l' & N' & H' & E').
  assert (C : forall c', In c' l -> In c' l' /\ c' <> c).
  { intros c' Hc'. destruct (HL c' Hc') as (Ne & r & r' & n & Hr & Hr' & I & I'). split; [|exact Ne]. apply H'.
    apply (has_cell_dofs_iff rank G fam dm W WF HA) in Hr. destruct Hr as (_ & ->).
    apply (has_cell_dofs_iff rank G fam dm W WF HA) in Hr'. destruct Hr' as (Hc'' & ->). split; auto.
    destruct (shared_dof rank G fam dm W WF HA c c' n Hc Hc'' I I') as (d & e & (_ & Hd & He) & (_ & _ & He') & _).
    destruct d as [|[|[|d]]]; [exists e; auto| | |lia].
    - apply In_nth_error in He, He'. destruct He as (k & He), He' as (k' & He').
      destruct (shared_edge_ends G c c' k k' e W) as (a & b & a' & b' & va & vb & R1 & R2 & A & B & _ & D); [split; auto..|].
      assert (S : surface_type (g_ctype G c) /\ surface_type (g_ctype G c')) by (split; apply wf_cell_surface; auto).
      destruct S as (S & S'). destruct (ref_edges_lt _ _ _ _ S R1) as (La & Lb & _). destruct (ref_edges_lt _ _ _ _ S' R2) as (La' & Lb' & _).
      rewrite <- (wf_sub_length G W c 0) in La, Lb by (auto; lia). rewrite <- (wf_sub_length G W c' 0) in La', Lb' by (auto; lia).
      exists va. split; [rewrite <- A; now apply nth_In|]. destruct D as [(D & _)|(_ & D)]; rewrite <- D; now apply nth_In.
    - rewrite (wf_sub_cell G W) in He, He' by auto. destruct He as [<-|[]], He' as [<-|[]]. congruence. }
  assert (length (c :: l) <= length l'); [|cbn [length] in *; assert (In (nth c cells []) cells) as Hin by (apply nth_In; now rewrite <- cell_total); specialize (H _ Hin); lia].
  apply NoDup_incl_length.
  - constructor; auto. intros Hin. now apply C in Hin.
  - intros x [<-|Hx]; [|now apply C]. apply H'. split; auto. apply touch_cells, touches_true.
    assert (L := wf_sub_length G W c 0 Hc ltac:(lia)). cbn [g_sub grid_of_cells] in L.
    destruct (nth c cells []) as [|v r] eqn:Er; [|exists v; cbn; auto].
    exfalso. cbn [length] in L. destruct Ht as [-> | ->]; discriminate L.
Qed.

(** Cells at one vertex have different colours. *)
Lemma vertex_colours v : wf_grid G -> forall p col K, 1 <= p -> cell_colouring G (lagrange p) = Ok col -> class_count col K -> valence cells v <= K.
Proof.
  intros W p col K Hp HC HK. assert (WF : wf_family (g_types G 2) (lagrange p)) by apply lagrange_wf_family.
  destruct (assign_dofs_total 0 G (lagrange p) W WF) as (dm & HA).
  assert (Hd : head_dim_pos G (lagrange p)).
  { intros t0 H0. cbn in H0. injection H0 as <-. apply (standard_pos (lagrange p)); auto. now constructor. }
  destruct (colouring_partition G (lagrange p) W WF Hd) as (col' & K' & E & Keys & HK' & Ex & Un & _).
  rewrite HC in E. injection E as <-.
  destruct (vertex_cells v) as (l & N & Hl & <-).
  assert (F : forall c, In c l -> exists k, k < K /\ in_class col t k c).
  { intros c Hc. apply Hl in Hc. destruct Hc as (Hc & _). destruct (Ex c Hc) as (k & Hk & I). exists k. split; [|exact I].
    destruct I as (classes & r & A & _). rewrite <- (HK _ _ A), (HK' _ _ A). exact Hk. }
  assert (C : forall c c', In c l -> In c' l -> conflict dm c c').
  { intros c c' Hc Hc'. apply Hl in Hc, Hc'. destruct Hc as (Hc & Vc), Hc' as (Hc' & Vc').
    assert (S : forall x, x < ent_count G 2 -> In v (g_sub G x 0) -> exists n, nth_error (edof dm 0 v) 0 = Some n /\ In n (nth x (dm_cells dm) [])).
    { intros x Hx Vx. apply In_nth_error in Vx. destruct Vx as (k & Vk). assert (Sx : sub_at G x 0 k v) by (unfold sub_at; auto).
      assert (Lk : k < ref_count t 0) by (change t with (g_ctype G x); rewrite <- (wf_sub_length G W x 0 Hx ltac:(lia)); apply nth_error_Some; congruence).
      assert (El : exists y, el_edofs (lagrange p t) 0 k = Some [y]).
      { destruct p as [|p]; [lia|]. destruct Ht as [-> | ->]; cbn in Lk |- *; do 4 (destruct k as [|k]; [solve [lia | eexists; reflexivity]|]); lia. }
      destruct El as (y & El). destruct (cell_row_entity 0 G (lagrange p) dm W WF HA x 0 k v [y] 0 y Sx El eq_refl) as (n & A & B). exists n. split; auto. eapply nth_error_In; eauto. }
    destruct (S c Hc Vc) as (n & A & B), (S c' Hc' Vc') as (n' & A' & B'). rewrite A in A'. injection A' as <-.
    exists (nth c (dm_cells dm) []), (nth c' (dm_cells dm) []), n. split; [now apply (cell_row 0 G (lagrange p))|]. split; [now apply (cell_row 0 G (lagrange p))|]. auto. }
  (* pairwise different colours *)
  assert (Q : forall m, (forall c, In c m -> In c l) -> NoDup m -> exists ks, length ks = length m /\ NoDup ks /\ forall k, In k ks -> k < K /\ exists c, In c m /\ in_class col t k c).
  { induction m as [|c m IH]; intros Hm Nm; [exists []; split; [reflexivity|]; split; [constructor|intros k []]|].
    inversion Nm as [|? ? N1 N2]; subst. destruct IH as (ks & L1 & L2 & L3); [intros; apply Hm; now right|exact N2|].
    destruct (F c (Hm c (or_introl eq_refl))) as (k & Hk & I). exists (k :: ks). split; [cbn; congruence|]. split.
    - constructor; auto. intros Hin. destruct (L3 k Hin) as (_ & c' & Hc' & I').
      apply (colouring_proper 0 G (lagrange p) dm col t t k c c' W WF HA HC I I'); [intros ->; auto|].
      apply C; apply Hm; cbn; auto.
    - intros k' [<-|Hin]; [split; auto; exists c; cbn; auto|]. destruct (L3 k' Hin) as (A & c' & B & D). split; auto. exists c'. cbn; auto. }
  destruct (Q l (fun _ H => H) N) as (ks & <- & Nk & Hk). rewrite <- (seq_length K 0). apply NoDup_incl_length; auto. intros k H. apply in_seq. destruct (Hk k H). lia.
Qed.

End Grid.

(** ** The shapes *)

Lemma sphere_facts R L b i : regular_sphere R L 1 = Ok b ->
  exists cells, built_grid i Triangle b = grid_of_cells i Triangle (2 + 4 ^ (L + 1)) cells /\ wf_grid (grid_of_cells i Triangle (2 + 4 ^ (L + 1)) cells) /\
    surface (2 + 4 ^ (L + 1)) cells /\ regular (2 + 4 ^ (L + 1)) cells /\ corners cells + 48 = 18 * length cells /\ length cells = 8 * 4 ^ L.
Proof.
  intros E. destruct (sphere_regular R L) as (b' & E' & SU & N1 & N2 & Rg & Co). rewrite E in E'. injection E' as <-.
  exists (cells_of b). rewrite <- N1. split; [unfold built_grid; now rewrite points_count|]. split; [apply grid_of_cells_wf, (surface_valid _ _ SU)|]. auto.
Qed.

Lemma sphere_valences : forall R L b i v, regular_sphere R L 1 = Ok b -> v < 2 + 4 ^ (L + 1) ->
  exactly (if v <? 6 then 4 else 6) (cell_at_vertex (built_grid i Triangle b) v).
Proof.
  intros R L b i v E Hv. destruct (sphere_facts R L b i E) as (cells & -> & W & SU & Rg & _). rewrite <- (Rg v Hv). apply vertex_cells. now left.
Qed.

Lemma sphere_around n cells c : surface n cells -> regular n cells -> In c cells -> cnt (touches c) cells <= 13.
Proof.
  intros SU Rg Hc. destruct (su_cell _ _ SU c Hc) as (a & b & d & -> & B & _). pose proof (touching_cells n cells SU a b d Hc) as H.
  rewrite !Rg in H by lia. destruct (a <? 6), (b <? 6), (d <? 6); lia.
Qed.

Lemma built_triangles n b i : screen_triangles n = Ok b -> n <> 0 /\ built_grid i Triangle b = grid_of_cells i Triangle ((n + 1) * (n + 1)) (triangle_cells n).
Proof.
  intros E. assert (Hn : n <> 0) by (intros ->; discriminate E). destruct (screen_triangles_spec n Hn) as (b' & E' & P & C & _).
  rewrite E in E'. injection E' as <-. split; auto. unfold built_grid. now rewrite P, C, length_enumerate, square_points_length, map_snd_enumerate.
Qed.

Lemma built_quads n b i : screen_quadrilaterals n = Ok b -> n <> 0 /\ built_grid i Quadrilateral b = grid_of_cells i Quadrilateral ((n + 1) * (n + 1)) (quad_cells n).
Proof.
  intros E. assert (Hn : n <> 0) by (intros ->; discriminate E). destruct (screen_quadrilaterals_spec n Hn) as (b' & E' & P & C & _).
  rewrite E in E'. injection E' as <-. split; auto. unfold built_grid. now rewrite P, C, length_enumerate, square_points_length, map_snd_enumerate.
Qed.

Lemma colours_bounded i t npts cells M : t = Triangle \/ t = Quadrilateral -> wf_grid (grid_of_cells i t npts cells) ->
  (forall c, In c cells -> cnt (touches c) cells <= M + 1) ->
  forall fam col K, standard fam -> cell_colouring (grid_of_cells i t npts cells) fam = Ok col -> class_count col K -> K <= M + 1.
Proof.
  intros Ht W H fam col K Hf HC HK. assert (WF : wf_family (g_types (grid_of_cells i t npts cells) 2) fam) by now apply standard_wf.
  destruct (assign_dofs_total 0 _ fam W WF) as (dm & HA).
  apply (colouring_bound 0 _ fam dm col K M W WF HA HC HK). eapply bounded_neighbours; eauto.
Qed.

Lemma shape_colours :
  (forall R L b i fam col K, regular_sphere R L 1 = Ok b -> standard fam -> cell_colouring (built_grid i Triangle b) fam = Ok col -> class_count col K -> K <= 13) /\
  (forall n b i fam col K, screen_triangles n = Ok b -> standard fam -> cell_colouring (built_grid i Triangle b) fam = Ok col -> class_count col K -> K <= 13) /\
  (forall n b i fam col K, screen_quadrilaterals n = Ok b -> standard fam -> cell_colouring (built_grid i Quadrilateral b) fam = Ok col -> class_count col K -> K <= 9).
Proof.
  split; [|split].
  - intros R L b i fam col K E Hf HC HK. destruct (sphere_facts R L b i E) as (cells & Eg & W & SU & Rg & _). rewrite Eg in HC.
    eapply (colours_bounded i Triangle _ cells 12); eauto. intros c Hc. apply (sphere_around _ _ _ SU Rg Hc).
  - intros n b i fam col K E Hf HC HK. destruct (built_triangles n b i E) as (Hn & Eg). rewrite Eg in HC.
    eapply (colours_bounded i Triangle _ _ 12); eauto; [apply grid_of_cells_wf, triangles_valid|]. intros c Hc. now apply triangles_around.
  - intros n b i fam col K E Hf HC HK. destruct (built_quads n b i E) as (Hn & Eg). rewrite Eg in HC.
    eapply (colours_bounded i Quadrilateral _ _ 8); eauto; [apply grid_of_cells_wf, quads_valid|]. intros c Hc. now apply quads_around.
Qed.

(** At least as many colours as cells at a vertex. *)
Lemma valence_at_least cells v l : NoDup l -> (forall c, In c l -> In c cells /\ In v c) -> length l <= valence cells v.
Proof.
  intros N H. unfold valence, cnt. apply NoDup_incl_length; auto. intros c Hc. destruct (H c Hc) as (A & B). apply filter_In. split; auto. now apply memb_In.
Qed.

Lemma shape_colours_least :
  (forall R L b i p col K, regular_sphere R L 1 = Ok b -> 1 <= p -> cell_colouring (built_grid i Triangle b) (lagrange p) = Ok col -> class_count col K ->
     (if L =? 0 then 4 else 6) <= K) /\
  (forall n b i p col K, screen_triangles n = Ok b -> 2 <= n -> 1 <= p -> cell_colouring (built_grid i Triangle b) (lagrange p) = Ok col -> class_count col K -> 6 <= K) /\
  (forall n b i p col K, screen_quadrilaterals n = Ok b -> 2 <= n -> 1 <= p -> cell_colouring (built_grid i Quadrilateral b) (lagrange p) = Ok col -> class_count col K -> 4 <= K).
Proof.
  split; [|split].
  - intros R L b i p col K E Hp HC HK. destruct (sphere_facts R L b i E) as (cells & Eg & W & SU & Rg & _). rewrite Eg in HC.
    assert (V : forall v, v < 2 + 4 ^ (L + 1) -> (if v <? 6 then 4 else 6) <= K).
    { intros v Hv. rewrite <- (Rg v Hv). eapply (vertex_colours i Triangle); eauto. }
    destruct L as [|L]; [exact (V 0 ltac:(lia))|]. apply (V 6). replace (S L + 1) with (2 + L) by lia. rewrite Nat.pow_add_r. cbn [Nat.pow Nat.mul Nat.add].
    pose proof (Nat.pow_nonzero 4 L). lia.
  - intros n b i p col K E Hn Hp HC HK. destruct (built_triangles n b i E) as (_ & Eg). rewrite Eg in HC.
    transitivity (valence (triangle_cells n) (1 * (n + 1) + 1)); [|eapply (vertex_colours i Triangle); eauto; apply grid_of_cells_wf, triangles_valid].
    apply (valence_at_least _ _ [lower n 0 0; upper n 0 0; upper n 1 0; lower n 0 1; lower n 1 1; upper n 1 1]).
    + unfold lower, upper. repeat constructor; cbn [In]; intros H; repeat (destruct H as [H|H]; [injection H; lia|]); exact H.
    + intros c Hc. rewrite In_triangle_cells. cbn [In] in Hc.
      destruct Hc as [<-|[<-|[<-|[<-|[<-|[<-|[]]]]]]]; (split; [first [exists 0, 0; split; [lia|]; split; [lia|]; auto; fail | exists 1, 0; split; [lia|]; split; [lia|]; auto; fail | exists 0, 1; split; [lia|]; split; [lia|]; auto; fail | exists 1, 1; split; [lia|]; split; [lia|]; auto; fail]
        |rewrite ?In_lower, ?In_upper; cbn [Nat.add]; lia]).
  - intros n b i p col K E Hn Hp HC HK. destruct (built_quads n b i E) as (_ & Eg). rewrite Eg in HC.
    transitivity (valence (quad_cells n) (1 * (n + 1) + 1)); [|eapply (vertex_colours i Quadrilateral); eauto; apply grid_of_cells_wf, quads_valid].
    apply (valence_at_least _ _ [quad n 0 0; quad n 1 0; quad n 0 1; quad n 1 1]).
    + unfold quad. repeat constructor; cbn [In]; intros H; repeat (destruct H as [H|H]; [injection H; lia|]); exact H.
    + intros c Hc. rewrite In_quad_cells. cbn [In] in Hc.
      destruct Hc as [<-|[<-|[<-|[<-|[]]]]]; (split; [first [exists 0, 0; split; [lia|]; split; [lia|]; reflexivity | exists 1, 0; split; [lia|]; split; [lia|]; reflexivity | exists 0, 1; split; [lia|]; split; [lia|]; reflexivity | exists 1, 1; split; [lia|]; split; [lia|]; reflexivity]
        |rewrite In_quad; cbn [Nat.add]; lia]).
Qed.

(** ** Singular contributions *)

Lemma shape_pairs :
  (forall R L b i, regular_sphere R L 1 = Ok b -> exactly (104 * 4 ^ L - 48) (touching_pair (built_grid i Triangle b))) /\
  (forall n b i, screen_triangles n = Ok b -> exactly (26 * n * n + 10 - 32 * n) (touching_pair (built_grid i Triangle b))) /\
  (forall n b i, screen_quadrilaterals n = Ok b -> exactly ((3 * n - 2) * (3 * n - 2)) (touching_pair (built_grid i Quadrilateral b))).
Proof.
  split; [|split].
  - intros R L b i E. destruct (sphere_facts R L b i E) as (cells & -> & W & SU & _ & Co & N). pose proof (sphere_touching _ _ SU) as H.
    replace (104 * 4 ^ L - 48) with (all_touching cells) by lia. apply pair_cells. now left.
  - intros n b i E. destruct (built_triangles n b i E) as (Hn & ->). pose proof (triangles_touching n Hn).
    replace (26 * n * n + 10 - 32 * n) with (all_touching (triangle_cells n)) by lia. apply pair_cells. now left.
  - intros n b i E. destruct (built_quads n b i E) as (Hn & ->). rewrite <- (quads_touching n Hn). apply pair_cells. now right.
Qed.

Lemma shape_pairs_linear G : shape_grid G -> exists k, exactly k (touching_pair G) /\ k <= 13 * ent_count G 2.
Proof.
  destruct shape_pairs as (P1 & P2 & P3). intros [R L i b E|n i b E|n i b E].
  - exists (104 * 4 ^ L - 48). split; [now apply (P1 R)|]. rewrite (cn_F _ _ _ _ _ (sphere_counted R L b i E)). lia.
  - exists (26 * n * n + 10 - 32 * n). split; [now apply P2|]. rewrite (cn_F _ _ _ _ _ (triangles_counted n b i E)).
    assert (n <> 0) by (intros ->; discriminate E). nia.
  - exists ((3 * n - 2) * (3 * n - 2)). split; [now apply P3|]. rewrite (cn_F _ _ _ _ _ (quads_counted n b i E)).
    assert (n <> 0) by (intros ->; discriminate E). destruct n as [|n]; [congruence|]. replace (3 * S n - 2) with (3 * n + 1) by lia. nia.
Qed.

Lemma shape_pairs_fit : forall G wmod, shape_grid G -> 26 * ent_count G 2 <= wmod -> pairs_fit wmod G.
Proof.
  intros G wmod Hg H l N Hl. destruct (shape_pairs_linear G Hg) as (k & (m & Nm & Hm & Lm) & Hk).
  assert (length l <= length m); [|lia]. apply NoDup_incl_length; auto. intros (c, c') Hin. apply Hm. now apply Hl.
Qed.

Section Triplets.
Context {T R : Type} (S : scalar T R) (X : externals R).

Lemma singular_size : forall rt wmod (O : operator T R) o deg tf sf G t test trial k, legal_runtime (s_add S) rt ->
  singular_setting X wmod O o deg test trial -> shape_grid G -> standard tf -> standard sf -> made_on G tf test -> made_on G sf trial ->
  g_types G 2 = [t] -> exactly k (touching_pair G) ->
  exists m, assemble_singular_part S X rt wmod O o (global_size (fs_space test), global_size (fs_space trial)) trial test = Ok m /\
    length (sm_data m) = k * el_dim (tf t) * el_dim (sf t) /\
    length (sm_rows m) = k * el_dim (tf t) * el_dim (sf t) /\ length (sm_cols m) = k * el_dim (tf t) * el_dim (sf t).
Proof.
  intros rt wmod O o deg tf sf G t test trial k Lg SS Hg Htf Hsf Mt Ms Ety (l & N & Hl & <-).
  destruct (singular_part_labels S X rt wmod O o deg test trial Lg SS) as (m & ks & E & _ & L1 & L2 & L3 & Nk & Hk & _).
  exists m. split; [exact E|]. rewrite L1, L2, L3.
  destruct (shape_counted G Hg) as (t' & V & E' & F & Ht & [W _ Ty Ow Ct _ _ _ _]). rewrite Ety in Ty. injection Ty as <-.
  pose proof (mo_grid _ _ _ Mt) as Gt. pose proof (mo_grid _ _ _ Ms) as Gs.
  pose proof (made_serial T R G tf test Hg Htf Mt) as St. pose proof (made_serial T R G sf trial Hg Hsf Ms) as Ss.
  assert (Dt : forall c, c < ent_count G 2 -> length (dofs_at test c) = el_dim (tf t)).
  { intros c Hc. rewrite <- Gt in Hc. destruct (dofs_at_spec test c St Hc) as (_ & _ & _ & D & _). rewrite D, (mo_family _ _ _ Mt), Gt, Ct. reflexivity. }
  assert (Ds : forall c, c < ent_count G 2 -> length (dofs_at trial c) = el_dim (sf t)).
  { intros c Hc. rewrite <- Gs in Hc. destruct (dofs_at_spec trial c Ss Hc) as (_ & _ & _ & D & _). rewrite D, (mo_family _ _ _ Ms), Gs, Ct. reflexivity. }
  assert (Len : length ks = length (list_prod l (list_prod (seq 0 (el_dim (tf t))) (seq 0 (el_dim (sf t)))))).
  { apply same_set_length; auto.
    - apply NoDup_list_prod; auto. apply NoDup_list_prod; apply seq_NoDup.
    - intros ((c, c'), (a, b)). rewrite Hk, !in_prod_iff, !in_seq, Hl. unfold singular_label, touching_pair. rewrite Gt. cbn [fst snd]. split.
      + intros (A & B & _ & C & D & D'). rewrite Dt in D by auto. rewrite Ds in D' by auto. intuition lia.
      + intros ((A & B & C) & D & D'). rewrite Dt, Ds by auto. rewrite Ow. intuition lia. }
  rewrite Len, !prod_length, !seq_length. lia.
Qed.

Lemma linear_memory : forall wmod (O : operator T R) calls G tf sf test trial t rt,
  shape_grid G -> standard tf -> standard sf -> made_on G tf test -> made_on G sf trial ->
  g_types G 2 = [t] -> shipped S O -> proper_rules X -> rules_exist X t (after calls) ->
  0 < get_batch_size (after calls) < wmod -> 26 * ent_count G 2 <= wmod -> legal_runtime (s_add S) rt ->
  (exists m, assemble S X rt wmod O (after calls) trial test = Ok m /\ length m = global_size (fs_space test) * global_size (fs_space trial)) /\
  exists sm, assemble_singular S X rt wmod O (after calls) trial test = Ok sm.
Proof.
  intros wmod O calls G tf sf test trial t rt Hg Htf Hsf Mt Ms Ety Sh Pr Re B Cw Lg. apply (shapes_assemble_fit T R S X wmod O calls G tf sf test trial t rt); auto.
  - lia.
  - now apply shape_pairs_fit.
Qed.

Lemma singular_total : forall wmod (O : operator T R) calls G tf sf test trial t rt k,
  shape_grid G -> standard tf -> standard sf -> made_on G tf test -> made_on G sf trial ->
  g_types G 2 = [t] -> shipped S O -> proper_rules X -> rules_exist X t (after calls) ->
  0 < get_batch_size (after calls) < wmod -> 26 * ent_count G 2 <= wmod -> legal_runtime (s_add S) rt -> exactly k (touching_pair G) ->
  exists m, assemble_singular_part S X rt wmod O (after calls) (global_size (fs_space test), global_size (fs_space trial)) trial test = Ok m /\
    length (sm_data m) = k * el_dim (tf t) * el_dim (sf t) /\
    length (sm_rows m) = k * el_dim (tf t) * el_dim (sf t) /\ length (sm_cols m) = k * el_dim (tf t) * el_dim (sf t).
Proof.
  intros wmod O calls G tf sf test trial t rt k Hg Htf Hsf Mt Ms Ety Sh Pr Re B Cw Lg Hk.
  destruct (made_dense_fit T R S X wmod O calls G tf sf test trial t Hg Htf Hsf Mt Ms Ety Sh Pr Re B ltac:(lia) (shape_pairs_fit G wmod Hg Cw)) as (deg & pts & D).
  assert (Eg : g_id (fs_grid test) = g_id (fs_grid trial)) by now rewrite (mo_grid _ _ _ Mt), (mo_grid _ _ _ Ms).
  apply (singular_size rt wmod O (after calls) deg tf sf G t test trial k); auto.
  exact (dense_singular _ wmod O (after calls) deg pts t test trial D Eg).
Qed.

End Triplets.
