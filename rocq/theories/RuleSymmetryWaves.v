(** * Helmholtz entries of cells that do not touch and all symmetries of the grid: proofs *)
From Coq Require Import Reals Lra Psatz Permutation.
From Verif Require Import Base BaseFacts Topology TopologyFacts DofMap Process Space SpecSpace Options SpecOptions Adjacency SpecAdjacency Scalar Integrand CellPair Operators SpecLocal LocalResults SpecOperators
  Interleave Assembly SpecAssembly AssemblyExact AssemblyResults AssemblyTermination SpecTransfer SpecScalars ScalarsResults SpecAlgebra AlgebraFacts SpecRounding RoundingModels RoundingResults SpecBroken BrokenResults SpecDof SpecGalerkin GalerkinResults DistributedResults SpecMeasure Shapes SpecShapes ShapesResults SpecSphere SpecScreen SpecWidth
  SpecSymmetry SymmetryResults SpecTurns TurnResults TurnExamples SpecShift SpecToeplitz ToeplitzResults SpecShare SpecWaves WaveResults WaveLimits SpecCensus CensusResults SpecFrame FrameResults SpecDecay DecayResults SpecMoments MomentResults MomentShapes SpecDegree DegreeResults DecayShapes EchoResults DecayPoints AlgebraResults
  SpecRuleSymmetry RuleSymmetryResults RuleSymmetryScreen.

Local Open Scope R_scope.

Lemma kernel_sum (X : externals R) wmod (H0 : @green R R) o deg pts ct (test trial : fspace R R) (D : dense_setting X wmod (laplace_single_layer H0) o deg pts ct test trial)
  (Ct : constants reals 1 test) (Cs : constants reals 1 trial) t s p q r p' q' r' (Ht : (t < ent_count (fs_grid test) 2)%nat) (Hs : (s < ent_count (fs_grid trial) 2)%nat)
  (Ft : forall points, flat_cell points p q r (x_geometry X (fs_grid test) ct points t)) (Fs : forall points, flat_cell points p' q' r' (x_geometry X (fs_grid trial) ct points s)) (Nt : ~ touching test trial t s) v : pair_value reals X (laplace_single_layer H0) deg pts test trial t s 0 0 v -> exists qt qs,
  x_simplex X ct (pts ct) = Some qt /\ x_simplex X ct (pts ct) = Some qs /\
  v = total reals (enumerate (qd_weights qt)) (fun pw => total reals (enumerate (qd_weights qs)) (fun qw =>
    H0 0%nat (mapped p q r (nth (2 * fst pw) (qd_points qt) 0) (nth (2 * fst pw + 1) (qd_points qt) 0)) (mapped p' q' r' (nth (2 * fst qw) (qd_points qs) 0) (nth (2 * fst qw + 1) (qd_points qs) 0))
    * (snd pw * sqrt (inner (normal p q r) (normal p q r)) * (snd qw * sqrt (inner (normal p' q' r') (normal p' q' r')))))).
Proof.
  pose proof (test_ctype X wmod H0 o deg pts ct test trial D t Ht) as type_t. pose proof (trial_ctype X wmod H0 o deg pts ct test trial D s Hs) as type_s.
  intros [(C & _)|(_ & qt & qs & A1 & A2 & ->)]; [contradiction|]. rewrite type_t in A1. rewrite type_s in A2. exists qt, qs. split; [exact A1|]. split; [exact A2|].
  rewrite (tensor_total reals 1 reals_ring). apply total_ext. intros pw _. apply total_ext. intros qw _.
  unfold tensor_term. cbn [laplace_single_layer op_integrand op_kernel kn_value integrand_value s_mul s_cast r_mul reals].
  rewrite type_t, type_s. rewrite (flat_position _ p q r _ (fst pw) (Ft _)), (flat_position _ p' q' r' _ (fst qw) (Fs _)), (fc_area _ _ _ _ _ (Ft _)), (fc_area _ _ _ _ _ (Fs _)), (co_value _ _ _ Ct), (co_value _ _ _ Cs).
  unfold mapped. ring.
Qed.

Theorem kernel_moved (X : externals R) wmod e (H0 : @green R R) o deg pts (test trial : fspace R R) rt T :
  dense_setting X wmod (laplace_single_layer (newton e)) o deg pts Triangle test trial -> constants reals 1 test -> constants reals 1 trial ->
  interior_family (g_types (fs_grid test) 2) (fs_family test) -> interior_family (g_types (fs_grid trial) 2) (fs_family trial) ->
  symmetric_simplex X (pts Triangle) -> legal_runtime Rplus rt -> 
  exists m, assemble reals X rt wmod (laplace_single_layer H0) o trial test = Ok m /\
  (rigid T -> (forall x y, H0 0%nat (T x) (T y) = H0 0%nat x y) -> (forall p q r x y, T (mapped p q r x y) = mapped (T p) (T q) (T r) x y) ->
  forall t s i j p q r p' q' r' t1 s1 i1 j1 p1 q1 r1 p1' q1' r1', (t < ent_count (fs_grid test) 2)%nat -> (s < ent_count (fs_grid trial) 2)%nat -> List.In i (dofs_at test t) -> List.In j (dofs_at trial s) -> ~ touching test trial t s ->
    (t1 < ent_count (fs_grid test) 2)%nat -> (s1 < ent_count (fs_grid trial) 2)%nat -> List.In i1 (dofs_at test t1) -> List.In j1 (dofs_at trial s1) -> ~ touching test trial t1 s1 ->
    (forall points, flat_cell points p q r (x_geometry X (fs_grid test) Triangle points t)) -> (forall points, flat_cell points p' q' r' (x_geometry X (fs_grid trial) Triangle points s)) ->
    (forall points, flat_cell points p1 q1 r1 (x_geometry X (fs_grid test) Triangle points t1)) -> (forall points, flat_cell points p1' q1' r1' (x_geometry X (fs_grid trial) Triangle points s1)) ->
    Permutation [p1; q1; r1] [T p; T q; T r] -> Permutation [p1'; q1'; r1'] [T p'; T q'; T r'] ->
    exists v, nth_error m (i + global_size (fs_space test) * j) = Some v /\ nth_error m (i1 + global_size (fs_space test) * j1) = Some v).
Proof.
  intros D Ct Cs It Is Sy L.
  assert (Dr : dense_setting X wmod (laplace_single_layer H0) o deg pts Triangle test trial) by (eapply dense_operator; [|exact D]; apply (shipped_fitting reals), sh_laplace_single).
  destruct (assembled reals 1 reals_ring X rt wmod _ o deg pts Triangle test trial L Dr) as (m & val & E & _ & V & H).
  exists m. split; [exact E|]. intros Rg Mv Af t s i j p q r p' q' r' t1 s1 i1 j1 p1 q1 r1 p1' q1' r1' Ht Hs Hi Hj N Ht1 Hs1 Hi1 Hj1 N1 F1 F2 F3 F4 Pm Pm'.
  assert (Li : forall i t, (t < ent_count (fs_grid test) 2)%nat -> List.In i (dofs_at test t) -> (i < global_size (fs_space test))%nat) by (intros; eapply serial_lt; eauto; apply D).
  assert (Lj : forall i t, (t < ent_count (fs_grid trial) 2)%nat -> List.In i (dofs_at trial t) -> (i < global_size (fs_space trial))%nat) by (intros; eapply serial_lt; eauto; apply D).
  eexists. split; [apply H; eauto|]. rewrite H by eauto. f_equal.
  rewrite (single_entry X wmod e o deg pts Triangle test trial D Ct Cs It Is val t s i j Ht Hs Hi Hj), (single_entry X wmod e o deg pts Triangle test trial D Ct Cs It Is val t1 s1 i1 j1 Ht1 Hs1 Hi1 Hj1).
  pose proof (V t s 0%nat 0%nat Ht Hs) as V1. pose proof (V t1 s1 0%nat 0%nat Ht1 Hs1) as V2.
  destruct (kernel_sum X wmod H0 o deg pts Triangle test trial Dr Ct Cs t s p q r p' q' r' Ht Hs F1 F2 N _ V1) as (qt & qs & A1 & A2 & ->). rewrite A1 in A2. apply (f_equal (fun o => match o with Some z => z | None => qs end)) in A2. subst qs.
  destruct (kernel_sum X wmod H0 o deg pts Triangle test trial Dr Ct Cs t1 s1 p1 q1 r1 p1' q1' r1' Ht1 Hs1 F3 F4 N1 _ V2) as (qt' & qs & B1 & B2 & ->). rewrite B1 in B2. apply (f_equal (fun o => match o with Some z => z | None => qs end)) in B2. subst qs.
  rewrite A1 in B1. apply (f_equal (fun o => match o with Some z => z | None => qt end)) in B1. subst qt'. destruct (Sy qt A1) as (Sw & Ex).
  assert (G : forall u v w u' v' w' d d', total reals (enumerate (qd_weights qt)) (fun pw => total reals (enumerate (qd_weights qt)) (fun qw =>
    H0 0%nat (mapped u v w (nth (2 * fst pw) (qd_points qt) 0) (nth (2 * fst pw + 1) (qd_points qt) 0)) (mapped u' v' w' (nth (2 * fst qw) (qd_points qt) 0) (nth (2 * fst qw + 1) (qd_points qt) 0)) * (snd pw * d * (snd qw * d')))) =
    d * d' * node_sum (rule_nodes qt) (fun x => node_sum (rule_nodes qt) (fun y => H0 0%nat x y) u' v' w') u v w).
  { intros. unfold node_sum, rule_nodes. rewrite total_map, <- real_total_mul. apply total_ext. intros [k a] _. cbn [fst snd]. rewrite total_map.
    replace (d * d' * (total reals (enumerate (qd_weights qt)) (fun a0 => H0 0%nat (mapped u v w (nth (2 * k) (qd_points qt) 0) (nth (2 * k + 1) (qd_points qt) 0)) (mapped u' v' w' (nth (2 * fst a0) (qd_points qt) 0) (nth (2 * fst a0 + 1) (qd_points qt) 0)) * snd a0) * a))
      with (d * d' * a * total reals (enumerate (qd_weights qt)) (fun a0 => H0 0%nat (mapped u v w (nth (2 * k) (qd_points qt) 0) (nth (2 * k + 1) (qd_points qt) 0)) (mapped u' v' w' (nth (2 * fst a0) (qd_points qt) 0) (nth (2 * fst a0 + 1) (qd_points qt) 0)) * snd a0)) by ring.
    rewrite <- real_total_mul. apply total_ext. intros [k' a'] _. cbn [fst snd]. ring. }
  rewrite !G. rewrite (normal_permuted _ _ _ _ _ _ Pm), (normal_permuted _ _ _ _ _ _ Pm'), !(normal_moved T) by exact Rg. f_equal.
  rewrite (node_permuted _ Sw Ex _ _ _ _ _ _ _ Pm), (node_moved _ T) by (intros; apply Af). apply node_ext. intros x.
  rewrite (node_permuted _ Sw Ex _ _ _ _ _ _ _ Pm'), (node_moved _ T) by (intros; apply Af). apply node_ext. intros y. apply Mv.
Qed.

Lemma waves_moved T e kappa x y : rigid T -> waves e kappa 0 (T x) (T y) = waves e kappa 0 x y.
Proof. intros Rg. unfold waves. now rewrite (Rg x y). Qed.

(** ** Both parts *)
Theorem parts_moved (X : externals R) wmod e kappa o deg pts (test trial : fspace R R) (test' trial' : fspace (R * R) R) rt T :
  dense_setting X wmod (laplace_single_layer (newton e)) o deg pts Triangle test trial -> mapped_space embed_real test test' -> mapped_space embed_real trial trial' -> constants reals 1 test -> constants reals 1 trial ->
  interior_family (g_types (fs_grid test) 2) (fs_family test) -> interior_family (g_types (fs_grid trial) 2) (fs_family trial) ->
  symmetric_simplex X (pts Triangle) -> legal_runtime (s_add complexes) rt -> 
  exists m, assemble complexes X rt wmod (helmholtz_single_layer (waves e) kappa) o trial' test' = Ok m /\
  (rigid T -> (forall p q r x y, T (mapped p q r x y) = mapped (T p) (T q) (T r) x y) ->
  forall t s i j p q r p' q' r' t1 s1 i1 j1 p1 q1 r1 p1' q1' r1', (t < ent_count (fs_grid test) 2)%nat -> (s < ent_count (fs_grid trial) 2)%nat -> List.In i (dofs_at test t) -> List.In j (dofs_at trial s) -> ~ touching test trial t s ->
    (t1 < ent_count (fs_grid test) 2)%nat -> (s1 < ent_count (fs_grid trial) 2)%nat -> List.In i1 (dofs_at test t1) -> List.In j1 (dofs_at trial s1) -> ~ touching test trial t1 s1 ->
    (forall points, flat_cell points p q r (x_geometry X (fs_grid test) Triangle points t)) -> (forall points, flat_cell points p' q' r' (x_geometry X (fs_grid trial) Triangle points s)) ->
    (forall points, flat_cell points p1 q1 r1 (x_geometry X (fs_grid test) Triangle points t1)) -> (forall points, flat_cell points p1' q1' r1' (x_geometry X (fs_grid trial) Triangle points s1)) ->
    Permutation [p1; q1; r1] [T p; T q; T r] -> Permutation [p1'; q1'; r1'] [T p'; T q'; T r'] ->
    exists v, nth_error m (i + global_size (fs_space test) * j) = Some v /\ nth_error m (i1 + global_size (fs_space test) * j1) = Some v).
Proof.
  intros D Mt Ms Ct Cs It Is Sy L. destruct (complex_parts X wmod (newton e) (waves e kappa) o deg pts Triangle test trial test' trial' D Mt Ms rt L) as (m & m1 & m2 & E & E1 & E2 & Hm).
  destruct (kernel_moved X wmod e (fun n x y => fst (waves e kappa n x y)) o deg pts test trial (sequential Rplus) T D Ct Cs It Is Sy (sequential_legal Rplus)) as (n1 & N1 & H1).
  destruct (kernel_moved X wmod e (fun n x y => snd (waves e kappa n x y)) o deg pts test trial (sequential Rplus) T D Ct Cs It Is Sy (sequential_legal Rplus)) as (n2 & N2 & H2).
  assert (n1 = m1) by congruence. assert (n2 = m2) by congruence. subst n1 n2.
  exists m. split; [exact E|]. intros Rg Af t s i j p q r p' q' r' t1 s1 i1 j1 p1 q1 r1 p1' q1' r1' Ht Hs Hi Hj N Ht1 Hs1 Hi1 Hj1 N' F1 F2 F3 F4 Pm Pm'.
  destruct (H1 Rg ltac:(intros; cbn; now rewrite (waves_moved T)) Af t s i j p q r p' q' r' t1 s1 i1 j1 p1 q1 r1 p1' q1' r1') as (v & V1 & V2); auto.
  destruct (H2 Rg ltac:(intros; cbn; now rewrite (waves_moved T)) Af t s i j p q r p' q' r' t1 s1 i1 j1 p1 q1 r1 p1' q1' r1') as (w & W1 & W2); auto.
  exists (v, w). split; apply Hm; assumption.
Qed.

Theorem sphere_waves_moved : forall (X : externals R) level id wmod e kappa o deg pts (b : builder vec) (test trial : fspace R R) (test' trial' : fspace (R * R) R),
  regular_sphere real_numbers level 1 = Ok b -> fs_grid test = built_grid id Triangle b -> fs_grid trial = built_grid id Triangle b ->
  dense_setting X wmod (laplace_single_layer (newton e)) o deg pts Triangle test trial -> mapped_space embed_real test test' -> mapped_space embed_real trial trial' -> constants reals 1 test -> constants reals 1 trial ->
  interior_family (g_types (fs_grid test) 2) (fs_family test) -> interior_family (g_types (fs_grid trial) 2) (fs_family trial) ->
  flat_cells X (built_grid id Triangle b) b -> symmetric_simplex X (pts Triangle) -> forall rt, legal_runtime (s_add complexes) rt ->
  exists m, assemble complexes X rt wmod (helmholtz_single_layer (waves e) kappa) o trial' test' = Ok m /\
  forall k f g h t s i j p q r p' q' r', corners_of b t p q r -> corners_of b s p' q' r' -> ~ touching test trial t s -> List.In i (dofs_at test t) -> List.In j (dofs_at trial s) ->
    forall t1 s1 i1 j1 p1 q1 r1 p1' q1' r1', corners_of b t1 p1 q1 r1 -> corners_of b s1 p1' q1' r1' ->
    Permutation [p1; q1; r1] (map (octahedral k f g h) [p; q; r]) -> Permutation [p1'; q1'; r1'] (map (octahedral k f g h) [p'; q'; r']) ->
    List.In i1 (dofs_at test t1) -> List.In j1 (dofs_at trial s1) ->
    exists v, nth_error m (i + global_size (fs_space test) * j) = Some v /\ nth_error m (i1 + global_size (fs_space test) * j1) = Some v.
Proof.
  intros X level id wmod e kappa o deg pts b test trial test' trial' E Gt Gs D Mt Ms Ct Cs It Is Fl Sy rt L.
  destruct (parts_moved X wmod e kappa o deg pts test trial test' trial' rt (fun p => p) D Mt Ms Ct Cs It Is Sy L) as (m & Em & _). exists m. split; [exact Em|].
  intros k f g h t s i j p q r p' q' r' C1 C2 N Hi Hj t1 s1 i1 j1 p1 q1 r1 p1' q1' r1' C3 C4 Pm Pm' Hi1 Hj1. cbn [map] in Pm, Pm'.
  destruct (parts_moved X wmod e kappa o deg pts test trial test' trial' rt (octahedral k f g h) D Mt Ms Ct Cs It Is Sy L) as (m' & Em' & H). rewrite Em in Em'. injection Em' as <-.
  assert (Lt : forall c u v w, corners_of b c u v w -> (c < ent_count (built_grid id Triangle b) 2)%nat) by (intros; eapply corners_lt; eauto).
  apply (H (octahedral_rigid k f g h) (octahedral_mapped k f g h) t s i j p q r p' q' r' t1 s1 i1 j1 p1 q1 r1 p1' q1' r1'); auto; rewrite ?Gt, ?Gs; eauto.
  - intros T1. apply N. exact (image_touching level id b test trial (octahedral k f g h) t s p q r p' q' r' t1 s1 p1 q1 r1 p1' q1' r1' E Gt (octahedral_rigid k f g h) C1 C2 C3 C4 Pm Pm' T1).
Qed.

Theorem screen_waves_moved : forall (X : externals R) n id wmod e kappa o deg pts (b : builder (nat * nat)) (test trial : fspace R R) (test' trial' : fspace (R * R) R),
  screen n Triangle b -> fs_grid test = built_grid id Triangle b -> fs_grid trial = built_grid id Triangle b ->
  dense_setting X wmod (laplace_single_layer (newton e)) o deg pts Triangle test trial -> mapped_space embed_real test test' -> mapped_space embed_real trial trial' -> constants reals 1 test -> constants reals 1 trial ->
  interior_family (g_types (fs_grid test) 2) (fs_family test) -> interior_family (g_types (fs_grid trial) 2) (fs_family trial) ->
  flat_screen n X (built_grid id Triangle b) b -> symmetric_simplex X (pts Triangle) -> forall rt, legal_runtime (s_add complexes) rt ->
  exists m, assemble complexes X rt wmod (helmholtz_single_layer (waves e) kappa) o trial' test' = Ok m /\
  forall swap f g h t s i j p q r p' q' r', corner b t 0 p -> corner b t 1 q -> corner b t 2 r -> corner b s 0 p' -> corner b s 1 q' -> corner b s 2 r' ->
    ~ touching test trial t s -> List.In i (dofs_at test t) -> List.In j (dofs_at trial s) ->
    forall t1 s1 i1 j1 p1 q1 r1 p1' q1' r1', corner b t1 0 p1 -> corner b t1 1 q1 -> corner b t1 2 r1 -> corner b s1 0 p1' -> corner b s1 1 q1' -> corner b s1 2 r1' ->
    Permutation (map (screen_position n) [p1; q1; r1]) (map (square_map (INR n / INR (n + 1)) swap f g h) (map (screen_position n) [p; q; r])) ->
    Permutation (map (screen_position n) [p1'; q1'; r1']) (map (square_map (INR n / INR (n + 1)) swap f g h) (map (screen_position n) [p'; q'; r'])) ->
    List.In i1 (dofs_at test t1) -> List.In j1 (dofs_at trial s1) ->
    exists v, nth_error m (i + global_size (fs_space test) * j) = Some v /\ nth_error m (i1 + global_size (fs_space test) * j1) = Some v.
Proof.
  intros X n id wmod e kappa o deg pts b test trial test' trial' Sn Gt Gs D Mt Ms Ct Cs It Is Fl Sy rt L.
  destruct (parts_moved X wmod e kappa o deg pts test trial test' trial' rt (fun p => p) D Mt Ms Ct Cs It Is Sy L) as (m & Em & _). exists m. split; [exact Em|].
  intros swap f g h t s i j p q r p' q' r' A0 A1 A2 B0 B1 B2 N Hi Hj t1 s1 i1 j1 p1 q1 r1 p1' q1' r1' C0 C1 C2 D0 D1 D2 Pm Pm' Hi1 Hj1.
  set (T := square_map (INR n / INR (n + 1)) swap f g h) in *. assert (Rg : rigid T) by apply square_map_rigid.
  destruct (parts_moved X wmod e kappa o deg pts test trial test' trial' rt T D Mt Ms Ct Cs It Is Sy L) as (m' & Em' & H). rewrite Em in Em'. injection Em' as <-.
  assert (Lt : forall c k u, corner b c k u -> (c < ent_count (built_grid id Triangle b) 2)%nat).
  { intros c k u (vs & v & Ec & _). rewrite (screen_cell_count n id Triangle b Sn). apply nth_error_Some. congruence. }
  apply (H Rg ltac:(intros; apply square_map_mapped) t s i j (screen_position n p) (screen_position n q) (screen_position n r) (screen_position n p') (screen_position n q') (screen_position n r')
    t1 s1 i1 j1 (screen_position n p1) (screen_position n q1) (screen_position n r1) (screen_position n p1') (screen_position n q1') (screen_position n r1')); auto; rewrite ?Gt, ?Gs; eauto.
  intros T1. apply N. exact (screen_image_touching n id b test trial T t s p q r p' q' r' t1 s1 p1 q1 r1 p1' q1' r1' Sn Gt Rg A0 A1 A2 B0 B1 B2 C0 C1 C2 D0 D1 D2 Pm Pm' T1).
Qed.
