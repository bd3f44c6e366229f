(** * Entries of cells that do not touch and the symmetries of the screens of quadrilaterals: proofs *)
From Coq Require Import Reals Lra Psatz Permutation.
From Verif Require Import Base BaseFacts Topology TopologyFacts DofMap Process Space SpecSpace Options SpecOptions Adjacency SpecAdjacency Scalar Integrand CellPair Operators SpecLocal LocalResults SpecOperators
  Interleave Assembly SpecAssembly AssemblyExact AssemblyResults AssemblyTermination SpecTransfer SpecScalars ScalarsResults SpecAlgebra AlgebraFacts SpecRounding RoundingModels RoundingResults SpecBroken BrokenResults SpecDof SpecGalerkin GalerkinResults DistributedResults SpecMeasure Shapes SpecShapes ShapesResults SpecSphere SpecScreen SpecWidth
  SpecSymmetry SymmetryResults SpecTurns TurnResults TurnExamples SpecShift SpecToeplitz ToeplitzResults ToeplitzExamples SpecShare ShareScreen ShareExamples SpecShapeSpaces ShapeSpacesResults SpecWaves WaveResults WaveLimits SpecCensus CensusResults SpecFrame FrameResults SpecDecay DecayResults DecayExamples SpecMoments MomentResults MomentExamples DegreeExamples GaussExamples MomentShapes SpecDegree DegreeResults DecayShapes EchoResults DecayPoints AlgebraResults
  SpecRuleSymmetry RuleSymmetryResults RuleSymmetryScreen RuleSymmetryWaves.

Local Open Scope R_scope.

(** ** Orders of the corners of a parallelogram *)
Inductive same_quad (p q r : vec) : vec -> vec -> vec -> Prop :=
| same_here : same_quad p q r p q r
| same_swap : forall u v w, same_quad p q r u v w -> same_quad p q r u w v
| same_flip : forall u v w z, same_quad p q r u v w -> z = mapped u v w 1 1 -> same_quad p q r v u z.

Lemma vec_ext (u v : vec) : fst (fst u) = fst (fst v) -> snd (fst u) = snd (fst v) -> snd u = snd v -> u = v.
Proof. destruct u as [[? ?] ?], v as [[? ?] ?]. cbn. intros -> -> ->. reflexivity. Qed.

Lemma mapped_coordinates u v w x y : mapped u v w x y =
  (fst (fst u) + x * (fst (fst v) - fst (fst u)) + y * (fst (fst w) - fst (fst u)), snd (fst u) + x * (snd (fst v) - snd (fst u)) + y * (snd (fst w) - snd (fst u)), snd u + x * (snd v - snd u) + y * (snd w - snd u)).
Proof. destruct u as [[? ?] ?], v as [[? ?] ?], w as [[? ?] ?]. unfold mapped. apply vec_ext; cbn; ring. Qed.

Lemma corner_coordinates u v w z : z = mapped u v w 1 1 -> fst (fst z) = fst (fst v) + fst (fst w) - fst (fst u) /\ snd (fst z) = snd (fst v) + snd (fst w) - snd (fst u) /\ snd z = snd v + snd w - snd u.
Proof. intros ->. rewrite mapped_coordinates. cbn [fst snd]. repeat split; ring. Qed.

Lemma perm_quad (p q r s p1 q1 r1 s1 : vec) : Permutation [p1; q1; r1; s1] [p; q; r; s] -> s = mapped p q r 1 1 -> s1 = mapped p1 q1 r1 1 1 -> p <> q -> p <> r -> same_quad p q r p1 q1 r1.
Proof.
  intros Pm Hs Hs1 N1 N2. destruct (corner_coordinates _ _ _ _ Hs) as (E1 & E2 & E3), (corner_coordinates _ _ _ _ Hs1) as (F1 & F2 & F3).
  assert (A1 : same_quad p q r p q r) by constructor. assert (A2 : same_quad p q r p r q) by (now apply same_swap).
  assert (A3 : same_quad p q r q p s) by (now apply (same_flip _ _ _ p q r)). assert (A4 : same_quad p q r q s p) by (now apply same_swap).
  assert (A5 : same_quad p q r r p s) by (apply (same_flip _ _ _ p r q); [exact A2|rewrite mapped_coordinates; apply vec_ext; cbn [fst snd]; lra]). assert (A6 : same_quad p q r r s p) by (now apply same_swap).
  assert (A7 : same_quad p q r s q r) by (apply (same_flip _ _ _ q s p); [exact A4|rewrite mapped_coordinates; apply vec_ext; cbn [fst snd]; lra]). assert (A8 : same_quad p q r s r q) by (now apply same_swap).
  assert (I : In p1 [p; q; r; s]) by (apply (Permutation_in _ Pm); now left).
  destruct I as [<-|[<-|[<-|[<-|[]]]]].
  - apply Permutation_cons_inv, perm_three in Pm. destruct Pm as [(-> & -> & ->)|[(-> & -> & ->)|[(-> & -> & ->)|[(-> & -> & ->)|[(-> & -> & ->)|(-> & -> & ->)]]]]];
      first [assumption|exfalso; apply N1; apply vec_ext; lra|exfalso; apply N2; apply vec_ext; lra].
  - apply (Permutation_cons_app_inv [p] [r; s]), perm_three in Pm. destruct Pm as [(-> & -> & ->)|[(-> & -> & ->)|[(-> & -> & ->)|[(-> & -> & ->)|[(-> & -> & ->)|(-> & -> & ->)]]]]];
      first [assumption|exfalso; apply N1; apply vec_ext; lra|exfalso; apply N2; apply vec_ext; lra].
  - apply (Permutation_cons_app_inv [p; q] [s]), perm_three in Pm. destruct Pm as [(-> & -> & ->)|[(-> & -> & ->)|[(-> & -> & ->)|[(-> & -> & ->)|[(-> & -> & ->)|(-> & -> & ->)]]]]];
      first [assumption|exfalso; apply N1; apply vec_ext; lra|exfalso; apply N2; apply vec_ext; lra].
  - apply (Permutation_cons_app_inv [p; q; r] []), perm_three in Pm. destruct Pm as [(-> & -> & ->)|[(-> & -> & ->)|[(-> & -> & ->)|[(-> & -> & ->)|[(-> & -> & ->)|(-> & -> & ->)]]]]];
      first [assumption|exfalso; apply N1; apply vec_ext; lra|exfalso; apply N2; apply vec_ext; lra].
Qed.

Lemma quad_nodes nodes f p q r p1 q1 r1 : Permutation (map (fun z => let '(x, y, w) := z in (y, x, w)) nodes) nodes -> Permutation (map (fun z => let '(x, y, w) := z in (1 - x, y, w)) nodes) nodes ->
  same_quad p q r p1 q1 r1 -> node_sum nodes f p1 q1 r1 = node_sum nodes f p q r.
Proof.
  intros Sw Ex Sq. induction Sq as [|u v w _ IH|u v w z _ IH Ez]; [reflexivity| |]; rewrite <- IH.
  - unfold node_sum. rewrite <- (total_perm reals 1 reals_ring _ _ _ Sw), total_map. apply total_ext. intros [[x y] c] _. f_equal. f_equal. rewrite !mapped_coordinates. apply vec_ext; cbn [fst snd]; ring.
  - unfold node_sum. rewrite <- (total_perm reals 1 reals_ring _ _ _ Ex), total_map. apply total_ext. intros [[x y] c] _. f_equal. f_equal. destruct (corner_coordinates _ _ _ _ Ez) as (E1 & E2 & E3). rewrite !mapped_coordinates. apply vec_ext; cbn [fst snd]; rewrite ?E1, ?E2, ?E3; ring.
Qed.

Lemma quad_normal p q r p1 q1 r1 : same_quad p q r p1 q1 r1 -> inner (normal p1 q1 r1) (normal p1 q1 r1) = inner (normal p q r) (normal p q r).
Proof.
  intros Sq. induction Sq as [|u v w _ IH|u v w z _ IH Ez]; [reflexivity| |]; rewrite <- IH.
  - rewrite !normal_square. destruct u as [[? ?] ?], v as [[? ?] ?], w as [[? ?] ?]. cbn. ring.
  - subst z. rewrite mapped_coordinates, !normal_square. destruct u as [[? ?] ?], v as [[? ?] ?], w as [[? ?] ?]. cbn. ring.
Qed.

(** ** Entries *)
Theorem quads_moved (X : externals R) wmod e (H0 : @green R R) o deg pts (test trial : fspace R R) rt T :
  dense_setting X wmod (laplace_single_layer (newton e)) o deg pts Quadrilateral test trial -> constants reals 1 test -> constants reals 1 trial ->
  interior_family (g_types (fs_grid test) 2) (fs_family test) -> interior_family (g_types (fs_grid trial) 2) (fs_family trial) ->
  symmetric_square X (pts Quadrilateral) -> legal_runtime Rplus rt -> 
  exists m, assemble reals X rt wmod (laplace_single_layer H0) o trial test = Ok m /\
  (rigid T -> (forall x y, H0 0%nat (T x) (T y) = H0 0%nat x y) -> (forall p q r x y, T (mapped p q r x y) = mapped (T p) (T q) (T r) x y) ->
  forall t s i j p q r p' q' r' t1 s1 i1 j1 p1 q1 r1 p1' q1' r1', (t < ent_count (fs_grid test) 2)%nat -> (s < ent_count (fs_grid trial) 2)%nat -> List.In i (dofs_at test t) -> List.In j (dofs_at trial s) -> ~ touching test trial t s ->
    (t1 < ent_count (fs_grid test) 2)%nat -> (s1 < ent_count (fs_grid trial) 2)%nat -> List.In i1 (dofs_at test t1) -> List.In j1 (dofs_at trial s1) -> ~ touching test trial t1 s1 ->
    (forall points, flat_cell points p q r (x_geometry X (fs_grid test) Quadrilateral points t)) -> (forall points, flat_cell points p' q' r' (x_geometry X (fs_grid trial) Quadrilateral points s)) ->
    (forall points, flat_cell points p1 q1 r1 (x_geometry X (fs_grid test) Quadrilateral points t1)) -> (forall points, flat_cell points p1' q1' r1' (x_geometry X (fs_grid trial) Quadrilateral points s1)) ->
    same_quad (T p) (T q) (T r) p1 q1 r1 -> same_quad (T p') (T q') (T r') p1' q1' r1' ->
    exists v, nth_error m (i + global_size (fs_space test) * j) = Some v /\ nth_error m (i1 + global_size (fs_space test) * j1) = Some v).
Proof.
  intros D Ct Cs It Is Sy L.
  assert (Dr : dense_setting X wmod (laplace_single_layer H0) o deg pts Quadrilateral test trial) by (eapply dense_operator; [|exact D]; apply (shipped_fitting reals), sh_laplace_single).
  destruct (assembled reals 1 reals_ring X rt wmod _ o deg pts Quadrilateral test trial L Dr) as (m & val & E & _ & V & H).
  exists m. split; [exact E|]. intros Rg Mv Af t s i j p q r p' q' r' t1 s1 i1 j1 p1 q1 r1 p1' q1' r1' Ht Hs Hi Hj N Ht1 Hs1 Hi1 Hj1 N1 F1 F2 F3 F4 Pm Pm'.
  assert (Li : forall i t, (t < ent_count (fs_grid test) 2)%nat -> List.In i (dofs_at test t) -> (i < global_size (fs_space test))%nat) by (intros; eapply serial_lt; eauto; apply D).
  assert (Lj : forall i t, (t < ent_count (fs_grid trial) 2)%nat -> List.In i (dofs_at trial t) -> (i < global_size (fs_space trial))%nat) by (intros; eapply serial_lt; eauto; apply D).
  eexists. split; [apply H; eauto|]. rewrite H by eauto. f_equal.
  rewrite (single_entry X wmod e o deg pts Quadrilateral test trial D Ct Cs It Is val t s i j Ht Hs Hi Hj), (single_entry X wmod e o deg pts Quadrilateral test trial D Ct Cs It Is val t1 s1 i1 j1 Ht1 Hs1 Hi1 Hj1).
  pose proof (V t s 0%nat 0%nat Ht Hs) as V1. pose proof (V t1 s1 0%nat 0%nat Ht1 Hs1) as V2.
  destruct (kernel_sum X wmod H0 o deg pts Quadrilateral test trial Dr Ct Cs t s p q r p' q' r' Ht Hs F1 F2 N _ V1) as (qt & qs & A1 & A2 & ->). rewrite A1 in A2. apply (f_equal (fun o => match o with Some z => z | None => qs end)) in A2. subst qs.
  destruct (kernel_sum X wmod H0 o deg pts Quadrilateral test trial Dr Ct Cs t1 s1 p1 q1 r1 p1' q1' r1' Ht1 Hs1 F3 F4 N1 _ V2) as (qt' & qs & B1 & B2 & ->). rewrite B1 in B2. apply (f_equal (fun o => match o with Some z => z | None => qs end)) in B2. subst qs.
  rewrite A1 in B1. apply (f_equal (fun o => match o with Some z => z | None => qt end)) in B1. subst qt'. destruct (Sy qt A1) as (Sw & Ex).
  assert (G : forall u v w u' v' w' d d', total reals (enumerate (qd_weights qt)) (fun pw => total reals (enumerate (qd_weights qt)) (fun qw =>
    H0 0%nat (mapped u v w (nth (2 * fst pw) (qd_points qt) 0) (nth (2 * fst pw + 1) (qd_points qt) 0)) (mapped u' v' w' (nth (2 * fst qw) (qd_points qt) 0) (nth (2 * fst qw + 1) (qd_points qt) 0)) * (snd pw * d * (snd qw * d')))) =
    d * d' * node_sum (rule_nodes qt) (fun x => node_sum (rule_nodes qt) (fun y => H0 0%nat x y) u' v' w') u v w).
  { intros. unfold node_sum, rule_nodes. rewrite total_map, <- real_total_mul. apply total_ext. intros [k a] _. cbn [fst snd]. rewrite total_map.
    replace (d * d' * (total reals (enumerate (qd_weights qt)) (fun a0 => H0 0%nat (mapped u v w (nth (2 * k) (qd_points qt) 0) (nth (2 * k + 1) (qd_points qt) 0)) (mapped u' v' w' (nth (2 * fst a0) (qd_points qt) 0) (nth (2 * fst a0 + 1) (qd_points qt) 0)) * snd a0) * a))
      with (d * d' * a * total reals (enumerate (qd_weights qt)) (fun a0 => H0 0%nat (mapped u v w (nth (2 * k) (qd_points qt) 0) (nth (2 * k + 1) (qd_points qt) 0)) (mapped u' v' w' (nth (2 * fst a0) (qd_points qt) 0) (nth (2 * fst a0 + 1) (qd_points qt) 0)) * snd a0)) by ring.
    rewrite <- real_total_mul. apply total_ext. intros [k' a'] _. cbn [fst snd]. ring. }
  rewrite !G. rewrite (quad_normal _ _ _ _ _ _ Pm), (quad_normal _ _ _ _ _ _ Pm'), !(normal_moved T) by exact Rg. f_equal.
  rewrite (quad_nodes _ _ _ _ _ _ _ _ Sw Ex Pm), (node_moved _ T) by (intros; apply Af). apply node_ext. intros x.
  rewrite (quad_nodes _ _ _ _ _ _ _ _ Sw Ex Pm'), (node_moved _ T) by (intros; apply Af). apply node_ext. intros y. apply Mv.
Qed.

Theorem quad_parts_moved (X : externals R) wmod e kappa o deg pts (test trial : fspace R R) (test' trial' : fspace (R * R) R) rt T :
  dense_setting X wmod (laplace_single_layer (newton e)) o deg pts Quadrilateral test trial -> mapped_space embed_real test test' -> mapped_space embed_real trial trial' -> constants reals 1 test -> constants reals 1 trial ->
  interior_family (g_types (fs_grid test) 2) (fs_family test) -> interior_family (g_types (fs_grid trial) 2) (fs_family trial) ->
  symmetric_square X (pts Quadrilateral) -> legal_runtime (s_add complexes) rt -> 
  exists m, assemble complexes X rt wmod (helmholtz_single_layer (waves e) kappa) o trial' test' = Ok m /\
  (rigid T -> (forall p q r x y, T (mapped p q r x y) = mapped (T p) (T q) (T r) x y) ->
  forall t s i j p q r p' q' r' t1 s1 i1 j1 p1 q1 r1 p1' q1' r1', (t < ent_count (fs_grid test) 2)%nat -> (s < ent_count (fs_grid trial) 2)%nat -> List.In i (dofs_at test t) -> List.In j (dofs_at trial s) -> ~ touching test trial t s ->
    (t1 < ent_count (fs_grid test) 2)%nat -> (s1 < ent_count (fs_grid trial) 2)%nat -> List.In i1 (dofs_at test t1) -> List.In j1 (dofs_at trial s1) -> ~ touching test trial t1 s1 ->
    (forall points, flat_cell points p q r (x_geometry X (fs_grid test) Quadrilateral points t)) -> (forall points, flat_cell points p' q' r' (x_geometry X (fs_grid trial) Quadrilateral points s)) ->
    (forall points, flat_cell points p1 q1 r1 (x_geometry X (fs_grid test) Quadrilateral points t1)) -> (forall points, flat_cell points p1' q1' r1' (x_geometry X (fs_grid trial) Quadrilateral points s1)) ->
    same_quad (T p) (T q) (T r) p1 q1 r1 -> same_quad (T p') (T q') (T r') p1' q1' r1' ->
    exists v, nth_error m (i + global_size (fs_space test) * j) = Some v /\ nth_error m (i1 + global_size (fs_space test) * j1) = Some v).
Proof.
  intros D Mt Ms Ct Cs It Is Sy L. destruct (complex_parts X wmod (newton e) (waves e kappa) o deg pts Quadrilateral test trial test' trial' D Mt Ms rt L) as (m & m1 & m2 & E & E1 & E2 & Hm).
  destruct (quads_moved X wmod e (fun n x y => fst (waves e kappa n x y)) o deg pts test trial (sequential Rplus) T D Ct Cs It Is Sy (sequential_legal Rplus)) as (n1 & N1 & H1).
  destruct (quads_moved X wmod e (fun n x y => snd (waves e kappa n x y)) o deg pts test trial (sequential Rplus) T D Ct Cs It Is Sy (sequential_legal Rplus)) as (n2 & N2 & H2).
  assert (n1 = m1) by congruence. assert (n2 = m2) by congruence. subst n1 n2.
  exists m. split; [exact E|]. intros Rg Af t s i j p q r p' q' r' t1 s1 i1 j1 p1 q1 r1 p1' q1' r1' Ht Hs Hi Hj N Ht1 Hs1 Hi1 Hj1 N' F1 F2 F3 F4 Pm Pm'.
  destruct (H1 Rg ltac:(intros; cbn; now rewrite (waves_moved T)) Af t s i j p q r p' q' r' t1 s1 i1 j1 p1 q1 r1 p1' q1' r1') as (v & V1 & V2); auto.
  destruct (H2 Rg ltac:(intros; cbn; now rewrite (waves_moved T)) Af t s i j p q r p' q' r' t1 s1 i1 j1 p1 q1 r1 p1' q1' r1') as (w & W1 & W2); auto.
  exists (v, w). split; apply Hm; assumption.
Qed.

(** ** Screens *)
Definition corners_at (b : builder (nat * nat)) (c : nat) (p q r s : nat * nat) : Prop := corner b c 0 p /\ corner b c 1 q /\ corner b c 2 r /\ corner b c 3 s.

Lemma quad_same_number n b : screen n Quadrilateral b -> forall i j p, nth_error (points_of b) i = Some p -> nth_error (points_of b) j = Some p -> i = j.
Proof.
  intros Sn i j p Hi Hj. destruct (screen_facts n Quadrilateral b Sn) as (N0 & _). inversion Sn as [|b' Eb Et]; subst.
  destruct (quads_topology n ltac:(lia)) as (b' & E' & _ & _ & ND & _). rewrite Eb in E'. injection E' as <-.
  apply (proj1 (NoDup_nth_error (points_of b)) ND); [apply nth_error_Some; congruence|congruence].
Qed.

Lemma quad_vertices n b c p q r s : screen n Quadrilateral b -> corners_at b c p q r s -> exists a1 a2 a3 a4, nth_error (cells_of b) c = Some [a1; a2; a3; a4] /\
  nth_error (points_of b) a1 = Some p /\ nth_error (points_of b) a2 = Some q /\ nth_error (points_of b) a3 = Some r /\ nth_error (points_of b) a4 = Some s.
Proof.
  intros Sn ((vs & a1 & Ec & V1 & E1) & (vs' & a2 & Ec' & V2 & E2) & (vs'' & a3 & Ec'' & V3 & E3) & (vs4 & a4 & Ec4 & V4 & E4)).
  rewrite Ec in Ec', Ec'', Ec4. injection Ec' as <-. injection Ec'' as <-. injection Ec4 as <-.
  destruct (screen_facts n Quadrilateral b Sn) as (_ & _ & _ & _ & V & _). destruct (proj2 V _ (nth_error_In _ _ Ec)) as (Lv & _).
  destruct vs as [|u1 [|u2 [|u3 [|u4 [|]]]]]; cbn in Lv; try discriminate. cbn in V1, V2, V3, V4. injection V1 as ->. injection V2 as ->. injection V3 as ->. injection V4 as ->. exists a1, a2, a3, a4. auto.
Qed.

Lemma quad_sub n id b c p q r s : screen n Quadrilateral b -> corners_at b c p q r s ->
  forall x, List.In x (g_sub (built_grid id Quadrilateral b) c 0) <-> exists y, List.In y [p; q; r; s] /\ nth_error (points_of b) x = Some y.
Proof.
  intros Sn C x. destruct (quad_vertices n b c p q r s Sn C) as (a1 & a2 & a3 & a4 & Ec & E1 & E2 & E3 & E4).
  unfold built_grid. cbn [grid_of_cells g_sub]. fold (cells_of b). rewrite (nth_error_nth _ _ [] Ec). split.
  - intros [<-|[<-|[<-|[<-|[]]]]]; [exists p|exists q|exists r|exists s]; cbn; auto 10.
  - intros (y & [<-|[<-|[<-|[<-|[]]]]] & Hz); [rewrite (quad_same_number n b Sn _ _ _ Hz E1)|rewrite (quad_same_number n b Sn _ _ _ Hz E2)|rewrite (quad_same_number n b Sn _ _ _ Hz E3)|rewrite (quad_same_number n b Sn _ _ _ Hz E4)]; cbn; auto 10.
Qed.

Lemma quad_parallelogram n b c p q r s : screen n Quadrilateral b -> corners_at b c p q r s ->
  screen_position n s = mapped (screen_position n p) (screen_position n q) (screen_position n r) 1 1 /\ screen_position n p <> screen_position n q /\ screen_position n p <> screen_position n r.
Proof.
  intros Sn C. destruct (quad_vertices n b c p q r s Sn C) as (a1 & a2 & a3 & a4 & Ec & E1 & E2 & E3 & E4). destruct (screen_facts n Quadrilateral b Sn) as (N0 & _).
  assert (A : at_cell n Quadrilateral [screen_position n p; screen_position n q; screen_position n r; screen_position n s]).
  { apply (cell_numerators n N0 Quadrilateral b); [exact Sn|]. exists c, [a1; a2; a3; a4]. split; [exact Ec|]. unfold screen_positions. repeat constructor; now apply map_nth_error. }
  remember [screen_position n p; screen_position n q; screen_position n r; screen_position n s] as ps eqn:El. destruct A as [x y Hx Hy].
  pose proof (f_equal (fun l => nth 0 l (0, 0, 0)) El) as H1. pose proof (f_equal (fun l => nth 1 l (0, 0, 0)) El) as H2. pose proof (f_equal (fun l => nth 2 l (0, 0, 0)) El) as H3. pose proof (f_equal (fun l => nth 3 l (0, 0, 0)) El) as H4. cbn [nth] in H1, H2, H3, H4. apply position_injective in H1. apply position_injective in H2. apply position_injective in H3. apply position_injective in H4. subst p q r s.
  split; [|split; intros Z; apply position_injective in Z; apply pair_equal_spec in Z; destruct Z; lia].
  rewrite mapped_coordinates. unfold screen_position. cbn [fst snd]. rewrite !plus_INR. apply vec_ext; cbn [fst snd]; unfold Rdiv; ring.
Qed.

Lemma quad_image_touching n id (b : builder (nat * nat)) (test trial : fspace R R) T t s p q r z p' q' r' z' t1 s1 p1 q1 r1 z1 p1' q1' r1' z1' :
  screen n Quadrilateral b -> fs_grid test = built_grid id Quadrilateral b -> rigid T ->
  corners_at b t p q r z -> corners_at b s p' q' r' z' -> corners_at b t1 p1 q1 r1 z1 -> corners_at b s1 p1' q1' r1' z1' ->
  Permutation (map (screen_position n) [p1; q1; r1; z1]) (map T (map (screen_position n) [p; q; r; z])) ->
  Permutation (map (screen_position n) [p1'; q1'; r1'; z1']) (map T (map (screen_position n) [p'; q'; r'; z'])) -> touching test trial t1 s1 -> touching test trial t s.
Proof.
  intros Sn Gt Rg A0 B0 C0 D0 Pm Pm' (Id & x & A & B). split; [exact Id|]. rewrite Gt in *.
  apply (quad_sub n id b _ _ _ _ _ Sn C0) in A. apply (quad_sub n id b _ _ _ _ _ Sn D0) in B. destruct A as (y & Iy & Hy), B as (y' & Iy' & Hy'). assert (y' = y) by congruence. subst y'.
  apply (in_map (screen_position n)) in Iy. apply (in_map (screen_position n)) in Iy'. apply (Permutation_in _ Pm) in Iy. apply (Permutation_in _ Pm') in Iy'.
  apply in_map_iff in Iy. apply in_map_iff in Iy'. destruct Iy as (u & Ez & Iz), Iy' as (u' & Ez' & Iz'). assert (u' = u) by (apply (rigid_injective T _ _ Rg); congruence). subst u'.
  apply in_map_iff in Iz. apply in_map_iff in Iz'. destruct Iz as (w & Ew & Iw), Iz' as (w' & Ew' & Iw'). assert (w' = w) by (apply (position_injective n); congruence). subst w'.
  assert (Hz : exists k, nth_error (points_of b) k = Some w). { destruct (quad_vertices n b t p q r z Sn A0) as (a1 & a2 & a3 & a4 & _ & E1 & E2 & E3 & E4). destruct Iw as [<-|[<-|[<-|[<-|[]]]]]; eauto. }
  destruct Hz as (k & Hz). exists k. split; [apply (quad_sub n id b _ _ _ _ _ Sn A0)|apply (quad_sub n id b _ _ _ _ _ Sn B0)]; eauto.
Qed.

Theorem quad_entries_moved : forall (X : externals R) n id wmod e o deg pts (b : builder (nat * nat)) (test trial : fspace R R),
  screen n Quadrilateral b -> fs_grid test = built_grid id Quadrilateral b -> fs_grid trial = built_grid id Quadrilateral b ->
  dense_setting X wmod (laplace_single_layer (newton e)) o deg pts Quadrilateral test trial -> constants reals 1 test -> constants reals 1 trial ->
  interior_family (g_types (fs_grid test) 2) (fs_family test) -> interior_family (g_types (fs_grid trial) 2) (fs_family trial) ->
  flat_screen n X (built_grid id Quadrilateral b) b -> symmetric_square X (pts Quadrilateral) -> forall rt, legal_runtime Rplus rt ->
  exists m, assemble reals X rt wmod (laplace_single_layer (newton e)) o trial test = Ok m /\
  forall swap f g h t s i j p q r z p' q' r' z', corner b t 0 p -> corner b t 1 q -> corner b t 2 r -> corner b t 3 z -> corner b s 0 p' -> corner b s 1 q' -> corner b s 2 r' -> corner b s 3 z' ->
    ~ touching test trial t s -> List.In i (dofs_at test t) -> List.In j (dofs_at trial s) ->
    forall t1 s1 i1 j1 p1 q1 r1 z1 p1' q1' r1' z1', corner b t1 0 p1 -> corner b t1 1 q1 -> corner b t1 2 r1 -> corner b t1 3 z1 -> corner b s1 0 p1' -> corner b s1 1 q1' -> corner b s1 2 r1' -> corner b s1 3 z1' ->
    Permutation (map (screen_position n) [p1; q1; r1; z1]) (map (square_map (INR n / INR (n + 1)) swap f g h) (map (screen_position n) [p; q; r; z])) ->
    Permutation (map (screen_position n) [p1'; q1'; r1'; z1']) (map (square_map (INR n / INR (n + 1)) swap f g h) (map (screen_position n) [p'; q'; r'; z'])) ->
    List.In i1 (dofs_at test t1) -> List.In j1 (dofs_at trial s1) ->
    exists v, nth_error m (i + global_size (fs_space test) * j) = Some v /\ nth_error m (i1 + global_size (fs_space test) * j1) = Some v.
Proof.
  intros X n id wmod e o deg pts b test trial Sn Gt Gs D Ct Cs It Is Fl Sy rt L.
  destruct (quads_moved X wmod e (newton e) o deg pts test trial rt (fun p => p) D Ct Cs It Is Sy L) as (m & Em & _). exists m. split; [exact Em|].
  intros swap f g h t s i j p q r z p' q' r' z' A0 A1 A2 A3 B0 B1 B2 B3 N Hi Hj t1 s1 i1 j1 p1 q1 r1 z1 p1' q1' r1' z1' C0 C1 C2 C3 D0 D1 D2 D3 Pm Pm' Hi1 Hj1.
  set (T := square_map (INR n / INR (n + 1)) swap f g h) in *. assert (Rg : rigid T) by apply square_map_rigid.
  assert (Af : forall p q r x y, T (mapped p q r x y) = mapped (T p) (T q) (T r) x y) by (intros; apply square_map_mapped).
  destruct (quads_moved X wmod e (newton e) o deg pts test trial rt T D Ct Cs It Is Sy L) as (m' & Em' & H). rewrite Em in Em'. injection Em' as <-.
  assert (Lt : forall c k u, corner b c k u -> (c < ent_count (built_grid id Quadrilateral b) 2)%nat).
  { intros c k u (vs & v & Ec & _). rewrite (screen_cell_count n id Quadrilateral b Sn). apply nth_error_Some. congruence. }
  pose proof (conj A0 (conj A1 (conj A2 A3)) : corners_at b t p q r z) as A. pose proof (conj B0 (conj B1 (conj B2 B3)) : corners_at b s p' q' r' z') as B.
  pose proof (conj C0 (conj C1 (conj C2 C3)) : corners_at b t1 p1 q1 r1 z1) as C. pose proof (conj D0 (conj D1 (conj D2 D3)) : corners_at b s1 p1' q1' r1' z1') as DD.
  assert (Q : forall c c1 p q r z p1 q1 r1 z1, corners_at b c p q r z -> corners_at b c1 p1 q1 r1 z1 -> Permutation (map (screen_position n) [p1; q1; r1; z1]) (map T (map (screen_position n) [p; q; r; z])) ->
    same_quad (T (screen_position n p)) (T (screen_position n q)) (T (screen_position n r)) (screen_position n p1) (screen_position n q1) (screen_position n r1)).
  { clear -Sn Rg Af. intros c c1 p q r z p1 q1 r1 z1 A B Pm. destruct (quad_parallelogram n b c p q r z Sn A) as (E1 & N1 & N2), (quad_parallelogram n b c1 p1 q1 r1 z1 Sn B) as (E2 & _).
    apply (perm_quad _ _ _ (T (screen_position n z)) _ _ _ (screen_position n z1)); [exact Pm|rewrite E1; apply Af|exact E2| |]; intros Z; apply (rigid_injective T _ _ Rg) in Z; contradiction. }
  apply (H Rg ltac:(intros; now apply newton_moved) Af t s i j (screen_position n p) (screen_position n q) (screen_position n r) (screen_position n p') (screen_position n q') (screen_position n r')
    t1 s1 i1 j1 (screen_position n p1) (screen_position n q1) (screen_position n r1) (screen_position n p1') (screen_position n q1') (screen_position n r1')); auto; rewrite ?Gt, ?Gs; eauto.
  intros T1. apply N. exact (quad_image_touching n id b test trial T t s p q r z p' q' r' z' t1 s1 p1 q1 r1 z1 p1' q1' r1' z1' Sn Gt Rg A B C DD Pm Pm' T1).
Qed.

Theorem quad_waves_moved : forall (X : externals R) n id wmod e kappa o deg pts (b : builder (nat * nat)) (test trial : fspace R R) (test' trial' : fspace (R * R) R),
  screen n Quadrilateral b -> fs_grid test = built_grid id Quadrilateral b -> fs_grid trial = built_grid id Quadrilateral b ->
  dense_setting X wmod (laplace_single_layer (newton e)) o deg pts Quadrilateral test trial -> mapped_space embed_real test test' -> mapped_space embed_real trial trial' -> constants reals 1 test -> constants reals 1 trial ->
  interior_family (g_types (fs_grid test) 2) (fs_family test) -> interior_family (g_types (fs_grid trial) 2) (fs_family trial) ->
  flat_screen n X (built_grid id Quadrilateral b) b -> symmetric_square X (pts Quadrilateral) -> forall rt, legal_runtime (s_add complexes) rt ->
  exists m, assemble complexes X rt wmod (helmholtz_single_layer (waves e) kappa) o trial' test' = Ok m /\
  forall swap f g h t s i j p q r z p' q' r' z', corner b t 0 p -> corner b t 1 q -> corner b t 2 r -> corner b t 3 z -> corner b s 0 p' -> corner b s 1 q' -> corner b s 2 r' -> corner b s 3 z' ->
    ~ touching test trial t s -> List.In i (dofs_at test t) -> List.In j (dofs_at trial s) ->
    forall t1 s1 i1 j1 p1 q1 r1 z1 p1' q1' r1' z1', corner b t1 0 p1 -> corner b t1 1 q1 -> corner b t1 2 r1 -> corner b t1 3 z1 -> corner b s1 0 p1' -> corner b s1 1 q1' -> corner b s1 2 r1' -> corner b s1 3 z1' ->
    Permutation (map (screen_position n) [p1; q1; r1; z1]) (map (square_map (INR n / INR (n + 1)) swap f g h) (map (screen_position n) [p; q; r; z])) ->
    Permutation (map (screen_position n) [p1'; q1'; r1'; z1']) (map (square_map (INR n / INR (n + 1)) swap f g h) (map (screen_position n) [p'; q'; r'; z'])) ->
    List.In i1 (dofs_at test t1) -> List.In j1 (dofs_at trial s1) ->
    exists v, nth_error m (i + global_size (fs_space test) * j) = Some v /\ nth_error m (i1 + global_size (fs_space test) * j1) = Some v.
Proof.
  intros X n id wmod e kappa o deg pts b test trial test' trial' Sn Gt Gs D Mt Ms Ct Cs It Is Fl Sy rt L.
  destruct (quad_parts_moved X wmod e kappa o deg pts test trial test' trial' rt (fun p => p) D Mt Ms Ct Cs It Is Sy L) as (m & Em & _). exists m. split; [exact Em|].
  intros swap f g h t s i j p q r z p' q' r' z' A0 A1 A2 A3 B0 B1 B2 B3 N Hi Hj t1 s1 i1 j1 p1 q1 r1 z1 p1' q1' r1' z1' C0 C1 C2 C3 D0 D1 D2 D3 Pm Pm' Hi1 Hj1.
  set (T := square_map (INR n / INR (n + 1)) swap f g h) in *. assert (Rg : rigid T) by apply square_map_rigid.
  assert (Af : forall p q r x y, T (mapped p q r x y) = mapped (T p) (T q) (T r) x y) by (intros; apply square_map_mapped).
  destruct (quad_parts_moved X wmod e kappa o deg pts test trial test' trial' rt T D Mt Ms Ct Cs It Is Sy L) as (m' & Em' & H). rewrite Em in Em'. injection Em' as <-.
  assert (Lt : forall c k u, corner b c k u -> (c < ent_count (built_grid id Quadrilateral b) 2)%nat).
  { intros c k u (vs & v & Ec & _). rewrite (screen_cell_count n id Quadrilateral b Sn). apply nth_error_Some. congruence. }
  pose proof (conj A0 (conj A1 (conj A2 A3)) : corners_at b t p q r z) as A. pose proof (conj B0 (conj B1 (conj B2 B3)) : corners_at b s p' q' r' z') as B.
  pose proof (conj C0 (conj C1 (conj C2 C3)) : corners_at b t1 p1 q1 r1 z1) as C. pose proof (conj D0 (conj D1 (conj D2 D3)) : corners_at b s1 p1' q1' r1' z1') as DD.
  assert (Q : forall c c1 p q r z p1 q1 r1 z1, corners_at b c p q r z -> corners_at b c1 p1 q1 r1 z1 -> Permutation (map (screen_position n) [p1; q1; r1; z1]) (map T (map (screen_position n) [p; q; r; z])) ->
    same_quad (T (screen_position n p)) (T (screen_position n q)) (T (screen_position n r)) (screen_position n p1) (screen_position n q1) (screen_position n r1)).
  { clear -Sn Rg Af. intros c c1 p q r z p1 q1 r1 z1 A B Pm. destruct (quad_parallelogram n b c p q r z Sn A) as (E1 & N1 & N2), (quad_parallelogram n b c1 p1 q1 r1 z1 Sn B) as (E2 & _).
    apply (perm_quad _ _ _ (T (screen_position n z)) _ _ _ (screen_position n z1)); [exact Pm|rewrite E1; apply Af|exact E2| |]; intros Z; apply (rigid_injective T _ _ Rg) in Z; contradiction. }
  apply (H Rg Af t s i j (screen_position n p) (screen_position n q) (screen_position n r) (screen_position n p') (screen_position n q') (screen_position n r')
    t1 s1 i1 j1 (screen_position n p1) (screen_position n q1) (screen_position n r1) (screen_position n p1') (screen_position n q1') (screen_position n r1')); auto; rewrite ?Gt, ?Gs; eauto.
  intros T1. apply N. exact (quad_image_touching n id b test trial T t s p q r z p' q' r' z' t1 s1 p1 q1 r1 z1 p1' q1' r1' z1' Sn Gt Rg A B C DD Pm Pm' T1).
Qed.

(** ** Examples *)
Lemma centre_symmetric X : symmetric_square (quadratic X) 5.
Proof.
  intros q H. destruct (quadratic_rule X Quadrilateral 5 q H) as (_ & Hp & Hw).
  assert (Nd : rule_nodes q = [(1 / 2, 0, 1 / 6); (0, 1 / 2, 1 / 6); (1 / 2, 1, 1 / 6); (1, 1 / 2, 1 / 6); (1 / 2, 1 / 2, 1 / 3)]) by (unfold rule_nodes; rewrite Hp, Hw; reflexivity).
  rewrite Nd. cbn [map]. split.
  - eapply perm_trans; [apply perm_swap|]. do 2 apply perm_skip. apply perm_swap.
  - replace (1 - 1 / 2) with (1 / 2) by lra. replace (1 - 0) with 1 by lra. replace (1 - 1) with 0 by lra. apply perm_skip.
    eapply perm_trans; [apply perm_swap|]. eapply perm_trans; [apply perm_skip, perm_swap|]. eapply perm_trans; [apply perm_swap|]. apply Permutation_refl.
Qed.

Theorem quad_rule_example : forall n id e, (3 <= n)%nat -> exists b X (test : fspace R R) deg pts wmod,
  screen n Quadrilateral b /\ fs_grid test = built_grid id Quadrilateral b /\
  dense_setting X wmod (laplace_single_layer (newton e)) (after [SetBatch 3; SetRegular Quadrilateral 5]) deg pts Quadrilateral test test /\
  constants reals 1 test /\ interior_family (g_types (fs_grid test) 2) (fs_family test) /\ flat_screen n X (built_grid id Quadrilateral b) b /\ symmetric_square X (pts Quadrilateral) /\
  exists t s p q r z p' q' r' z', corner b t 0 p /\ corner b t 1 q /\ corner b t 2 r /\ corner b t 3 z /\ corner b s 0 p' /\ corner b s 1 q' /\ corner b s 2 r' /\ corner b s 3 z' /\ ~ touching test test t s.
Proof.
  intros n id e Hn. destruct (screen_exists n Quadrilateral ltac:(lia) (or_intror eq_refl)) as (b & Sn). pose proof (screen_is_shape n id Quadrilateral b Sn) as Sh.
  assert (S1 : standard (interior_only (fun _ => 1%nat))) by (constructor; intros; lia).
  destruct (spaces_exist R R (built_grid id Quadrilateral b) _ (fun _ => 1%nat) unit_basis Sh S1) as (u & Mu & _ & Bu); [intros; lia|].
  assert (Gu : fs_grid u = built_grid id Quadrilateral b) by apply Mu.
  assert (Tu : g_types (fs_grid u) 2 = [Quadrilateral]) by (rewrite Gu; reflexivity).
  set (X := quadratic (even_externals n b)).
  assert (Pr : proper_rules X) by apply quadratic_proper, even_proper.
  set (wmod := (4 + 2 * ent_count (built_grid id Quadrilateral b) 2 * ent_count (built_grid id Quadrilateral b) 2)%nat).
  destruct (made_dense R R reals X wmod (laplace_single_layer (newton e)) [SetBatch 3; SetRegular Quadrilateral (few Quadrilateral)] (built_grid id Quadrilateral b) _ _ u u Quadrilateral Sh S1 S1 Mu Mu eq_refl (sh_laplace_single reals (newton e)) Pr (quadratic_rules _ _ _ (or_introl eq_refl) (even_rules n b Quadrilateral (or_intror eq_refl)) (or_intror eq_refl))) as (deg & pts & D).
  { split; [apply Nat.lt_0_succ|]. change (get_batch_size (after [SetBatch 3; SetRegular Quadrilateral (few Quadrilateral)])) with 3%nat. unfold wmod. lia. }
  { unfold wmod. lia. }
  exists b, X, u, deg, pts, wmod. split; [exact Sn|]. split; [exact Gu|]. split; [exact D|].
  split. { constructor; rewrite ?Bu; auto. - intros t Ht. rewrite Tu in Ht. destruct Ht as [<-|[]]. now rewrite (mo_family _ _ _ Mu). - intros t points d p [-> | ->]; reflexivity. }
  split. { rewrite Tu, (mo_family _ _ _ Mu). intros t d i Ht Hd. destruct Ht as [<-|[]]. unfold el_ndofs, interior_only. cbn [el_edofs]. destruct (i <? _)%nat; [|reflexivity]. destruct d as [|[|d]]; try reflexivity; lia. }
  split; [exact (flat_screen_flat n (built_grid id Quadrilateral b) b)|]. split.
  { assert (En : pts Quadrilateral = 5%nat); [|rewrite En; apply centre_symmetric]. pose proof (dn_simplex _ _ _ _ _ _ _ _ _ D) as Hs. destruct (Hs Quadrilateral (or_introl eq_refl)) as (Hg & _). apply (f_equal (fun o => match o with Some z => z | None => 0%nat end)) in Hg. now rewrite <- Hg. }
  assert (C : forall x k q, (x < n)%nat -> nth_error (offsets Quadrilateral 0) k = Some q -> corner b (number Quadrilateral n x x 0) k ((x + fst q)%nat, (x + snd q)%nat)).
  { intros x k q Hx Eq. apply (corner_at n Quadrilateral b Sn x x 0 k _ Hx Hx); [cbn; lia|]. exists q. auto. }
  pose (O k := nth k (offsets Quadrilateral 0) (0%nat, 0%nat)). pose (P x k := ((x + fst (O k))%nat, (x + snd (O k))%nat)).
  assert (C' : forall x k, (x < n)%nat -> (k < 4)%nat -> corner b (number Quadrilateral n x x 0) k (P x k)).
  { intros x k Hx Hk. apply C; [exact Hx|]. apply nth_error_nth'. exact Hk. }
  exists (number Quadrilateral n 0 0 0), (number Quadrilateral n (n - 1) (n - 1) 0), (P 0%nat 0%nat), (P 0%nat 1%nat), (P 0%nat 2%nat), (P 0%nat 3%nat), (P (n - 1)%nat 0%nat), (P (n - 1)%nat 1%nat), (P (n - 1)%nat 2%nat), (P (n - 1)%nat 3%nat).
  do 8 (split; [apply C'; lia|]). intros (_ & x & A & B). rewrite Gu in A, B.
  apply (quad_sub n id b _ (P 0 0)%nat (P 0 1)%nat (P 0 2)%nat (P 0 3)%nat Sn) in A; [|repeat split; apply C'; lia]. apply (quad_sub n id b _ (P (n - 1) 0)%nat (P (n - 1) 1)%nat (P (n - 1) 2)%nat (P (n - 1) 3)%nat Sn) in B; [|repeat split; apply C'; lia].
  destruct A as (y & Iy & Hy), B as (y' & Iy' & Hy'). assert (y' = y) by congruence. subst y'.
  assert (G : forall k, (k < 4)%nat -> (fst (O k) <= 1)%nat) by (intros [|[|[|[|]]]] Hk; cbn; lia).
  assert (F1 : (fst y <= 1)%nat) by (destruct Iy as [<-|[<-|[<-|[<-|[]]]]]; unfold P; cbn [fst]; [pose proof (G 0%nat)|pose proof (G 1%nat)|pose proof (G 2%nat)|pose proof (G 3%nat)]; lia).
  assert (F2 : (n - 1 <= fst y)%nat) by (destruct Iy' as [<-|[<-|[<-|[<-|[]]]]]; unfold P; cbn [fst]; lia). lia.
Qed.
