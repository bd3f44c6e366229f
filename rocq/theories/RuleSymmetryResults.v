(** * Entries of cells that do not touch and symmetries that change the order of the vertices: proofs *)
From Coq Require Import Reals Lra Psatz Permutation.
From Verif Require Import Base BaseFacts Topology TopologyFacts DofMap Process Space SpecSpace Options SpecOptions Adjacency SpecAdjacency Scalar Integrand CellPair Operators SpecLocal
  Interleave Assembly SpecAssembly AssemblyExact AssemblyResults SpecTransfer SpecAlgebra AlgebraFacts SpecRounding RoundingModels RoundingResults SpecBroken BrokenResults SpecDof SpecGalerkin SpecMeasure Shapes SpecShapes ShapesResults SpecSphere SpecScreen SpecWidth
  SpecSymmetry SymmetryResults SpecTurns TurnResults TurnExamples SpecShift SpecToeplitz SpecShare SpecWaves SpecCensus CensusResults CornerOrderResults SpecDecay DecayResults SpecMoments MomentResults MomentShapes SpecDegree DegreeResults DecayShapes SpecRuleSymmetry.

Local Open Scope R_scope.

(** ** Sums over the nodes *)
Section Sums.
Variable nodes : list (R * R * R).
Hypothesis Sw : Permutation (map (fun z => let '(x, y, w) := z in (y, x, w)) nodes) nodes.
Hypothesis Ex : Permutation (map (fun z => let '(x, y, w) := z in (1 - x - y, y, w)) nodes) nodes.

Definition node_sum (f : vec -> R) (p q r : vec) : R := total reals nodes (fun z => let '(x, y, w) := z in f (mapped p q r x y) * w).

Lemma total_map {A B : Type} (g : A -> B) (f : B -> R) l : total reals (map g l) f = total reals l (fun a => f (g a)).
Proof. induction l as [|a l IH]; [reflexivity|]. cbn [map]. rewrite !total_cons, IH. reflexivity. Qed.

Lemma node_swap f p q r : node_sum f p r q = node_sum f p q r.
Proof.
  unfold node_sum. rewrite <- (total_perm reals 1 reals_ring _ _ _ Sw), total_map. apply total_ext. intros [[x y] w] _. f_equal. f_equal.
  destruct p as [[? ?] ?], q as [[? ?] ?], r as [[? ?] ?]. unfold mapped. cbn. apply vec_eq; ring.
Qed.

Lemma node_exchange f p q r : node_sum f q p r = node_sum f p q r.
Proof.
  unfold node_sum. rewrite <- (total_perm reals 1 reals_ring _ _ _ Ex), total_map. apply total_ext. intros [[x y] w] _. f_equal. f_equal.
  destruct p as [[? ?] ?], q as [[? ?] ?], r as [[? ?] ?]. unfold mapped. cbn. apply vec_eq; ring.
Qed.

Lemma node_permuted f p q r p' q' r' : Permutation [p'; q'; r'] [p; q; r] -> node_sum f p' q' r' = node_sum f p q r.
Proof.
  intros Pm. apply perm_three in Pm. destruct Pm as [(-> & -> & ->)|[(-> & -> & ->)|[(-> & -> & ->)|[(-> & -> & ->)|[(-> & -> & ->)|(-> & -> & ->)]]]]].
  - reflexivity.
  - apply node_swap.
  - apply node_exchange.
  - now rewrite node_swap, node_exchange.
  - now rewrite node_exchange, node_swap.
  - now rewrite node_swap, node_exchange, node_swap.
Qed.

Lemma node_ext f g p q r : (forall x, f x = g x) -> node_sum f p q r = node_sum g p q r.
Proof. intros H. apply total_ext. intros [[x y] w] _. now rewrite H. Qed.

Lemma node_moved T f p q r : (forall x y, T (mapped p q r x y) = mapped (T p) (T q) (T r) x y) -> node_sum f (T p) (T q) (T r) = node_sum (fun x => f (T x)) p q r.
Proof. intros H. apply total_ext. intros [[x y] w] _. now rewrite H. Qed.
End Sums.

(** ** Areas *)
Lemma normal_square p q r : inner (normal p q r) (normal p q r) = inner (vsub q p) (vsub q p) * inner (vsub r p) (vsub r p) - inner (vsub q p) (vsub r p) * inner (vsub q p) (vsub r p).
Proof. destruct p as [[? ?] ?], q as [[? ?] ?], r as [[? ?] ?]. unfold normal. cbn. ring. Qed.

Lemma normal_permuted p q r p' q' r' : Permutation [p'; q'; r'] [p; q; r] -> inner (normal p' q' r') (normal p' q' r') = inner (normal p q r) (normal p q r).
Proof.
  intros Pm. apply perm_three in Pm. destruct p as [[? ?] ?], q as [[? ?] ?], r as [[? ?] ?].
  destruct Pm as [(-> & -> & ->)|[(-> & -> & ->)|[(-> & -> & ->)|[(-> & -> & ->)|[(-> & -> & ->)|(-> & -> & ->)]]]]]; rewrite ?normal_square; cbn; ring.
Qed.

Lemma normal_moved T p q r : rigid T -> inner (normal (T p) (T q) (T r)) (normal (T p) (T q) (T r)) = inner (normal p q r) (normal p q r).
Proof.
  intros Rg. rewrite !normal_square. pose proof (rigid_inner T q p Rg) as H1. pose proof (rigid_inner T r p Rg) as H2. pose proof (rigid_inner T q r Rg) as H3.
  assert (H4 : inner (vsub (T q) (T p)) (vsub (T r) (T p)) = inner (vsub q p) (vsub r p)).
  { destruct (T p) as [[? ?] ?], (T q) as [[? ?] ?], (T r) as [[? ?] ?], p as [[? ?] ?], q as [[? ?] ?], r as [[? ?] ?]. cbn in *. lra. }
  now rewrite H1, H2, H4.
Qed.

Lemma newton_moved T e x y : rigid T -> newton e 0 (T x) (T y) = newton e 0 x y.
Proof. intros Rg. unfold newton. now rewrite (Rg x y). Qed.

(** ** Entries *)
Theorem entries_moved (X : externals R) wmod e o deg pts (test trial : fspace R R) rt T :
  dense_setting X wmod (laplace_single_layer (newton e)) o deg pts Triangle test trial -> constants reals 1 test -> constants reals 1 trial ->
  interior_family (g_types (fs_grid test) 2) (fs_family test) -> interior_family (g_types (fs_grid trial) 2) (fs_family trial) ->
  symmetric_simplex X (pts Triangle) -> legal_runtime Rplus rt -> 
  exists m, assemble reals X rt wmod (laplace_single_layer (newton e)) o trial test = Ok m /\
  (rigid T -> (forall p q r x y, T (mapped p q r x y) = mapped (T p) (T q) (T r) x y) ->
  forall t s i j p q r p' q' r' t1 s1 i1 j1 p1 q1 r1 p1' q1' r1', (t < ent_count (fs_grid test) 2)%nat -> (s < ent_count (fs_grid trial) 2)%nat -> List.In i (dofs_at test t) -> List.In j (dofs_at trial s) -> ~ touching test trial t s ->
    (t1 < ent_count (fs_grid test) 2)%nat -> (s1 < ent_count (fs_grid trial) 2)%nat -> List.In i1 (dofs_at test t1) -> List.In j1 (dofs_at trial s1) -> ~ touching test trial t1 s1 ->
    (forall points, flat_cell points p q r (x_geometry X (fs_grid test) Triangle points t)) -> (forall points, flat_cell points p' q' r' (x_geometry X (fs_grid trial) Triangle points s)) ->
    (forall points, flat_cell points p1 q1 r1 (x_geometry X (fs_grid test) Triangle points t1)) -> (forall points, flat_cell points p1' q1' r1' (x_geometry X (fs_grid trial) Triangle points s1)) ->
    Permutation [p1; q1; r1] [T p; T q; T r] -> Permutation [p1'; q1'; r1'] [T p'; T q'; T r'] ->
    exists v, nth_error m (i + global_size (fs_space test) * j) = Some v /\ nth_error m (i1 + global_size (fs_space test) * j1) = Some v).
Proof.
  intros D Ct Cs It Is Sy L. destruct (assembled reals 1 reals_ring X rt wmod _ o deg pts Triangle test trial L D) as (m & val & E & _ & V & H).
  exists m. split; [exact E|]. intros Rg Af t s i j p q r p' q' r' t1 s1 i1 j1 p1 q1 r1 p1' q1' r1' Ht Hs Hi Hj N Ht1 Hs1 Hi1 Hj1 N1 F1 F2 F3 F4 Pm Pm'.
  assert (Li : forall i t, (t < ent_count (fs_grid test) 2)%nat -> List.In i (dofs_at test t) -> (i < global_size (fs_space test))%nat) by (intros; eapply serial_lt; eauto; apply D).
  assert (Lj : forall i t, (t < ent_count (fs_grid trial) 2)%nat -> List.In i (dofs_at trial t) -> (i < global_size (fs_space trial))%nat) by (intros; eapply serial_lt; eauto; apply D).
  eexists. split; [apply H; eauto|]. rewrite H by eauto. f_equal.
  rewrite (single_entry X wmod e o deg pts Triangle test trial D Ct Cs It Is val t s i j Ht Hs Hi Hj), (single_entry X wmod e o deg pts Triangle test trial D Ct Cs It Is val t1 s1 i1 j1 Ht1 Hs1 Hi1 Hj1).
  pose proof (V t s 0%nat 0%nat Ht Hs) as V1. pose proof (V t1 s1 0%nat 0%nat Ht1 Hs1) as V2.
  destruct (regular_sum X wmod e o deg pts Triangle test trial D Ct Cs t s p q r p' q' r' Ht Hs F1 F2 N _ V1) as (qt & qs & A1 & A2 & ->). rewrite A1 in A2. apply (f_equal (fun o => match o with Some z => z | None => qs end)) in A2. subst qs.
  destruct (regular_sum X wmod e o deg pts Triangle test trial D Ct Cs t1 s1 p1 q1 r1 p1' q1' r1' Ht1 Hs1 F3 F4 N1 _ V2) as (qt' & qs & B1 & B2 & ->). rewrite B1 in B2. apply (f_equal (fun o => match o with Some z => z | None => qs end)) in B2. subst qs.
  rewrite A1 in B1. apply (f_equal (fun o => match o with Some z => z | None => qt end)) in B1. subst qt'. destruct (Sy qt A1) as (Sw & Ex).
  assert (G : forall u v w u' v' w' d d', total reals (enumerate (qd_weights qt)) (fun pw => total reals (enumerate (qd_weights qt)) (fun qw =>
    newton e 0 (mapped u v w (nth (2 * fst pw) (qd_points qt) 0) (nth (2 * fst pw + 1) (qd_points qt) 0)) (mapped u' v' w' (nth (2 * fst qw) (qd_points qt) 0) (nth (2 * fst qw + 1) (qd_points qt) 0)) * (snd pw * d * (snd qw * d')))) =
    d * d' * node_sum (rule_nodes qt) (fun x => node_sum (rule_nodes qt) (fun y => newton e 0 x y) u' v' w') u v w).
  { intros. unfold node_sum, rule_nodes. rewrite total_map, <- real_total_mul. apply total_ext. intros [k a] _. cbn [fst snd]. rewrite total_map.
    replace (d * d' * (total reals (enumerate (qd_weights qt)) (fun a0 => newton e 0 (mapped u v w (nth (2 * k) (qd_points qt) 0) (nth (2 * k + 1) (qd_points qt) 0)) (mapped u' v' w' (nth (2 * fst a0) (qd_points qt) 0) (nth (2 * fst a0 + 1) (qd_points qt) 0)) * snd a0) * a))
      with (d * d' * a * total reals (enumerate (qd_weights qt)) (fun a0 => newton e 0 (mapped u v w (nth (2 * k) (qd_points qt) 0) (nth (2 * k + 1) (qd_points qt) 0)) (mapped u' v' w' (nth (2 * fst a0) (qd_points qt) 0) (nth (2 * fst a0 + 1) (qd_points qt) 0)) * snd a0)) by ring.
    rewrite <- real_total_mul. apply total_ext. intros [k' a'] _. cbn [fst snd]. ring. }
  rewrite !G. rewrite (normal_permuted _ _ _ _ _ _ Pm), (normal_permuted _ _ _ _ _ _ Pm'), !(normal_moved T) by exact Rg. f_equal.
  rewrite (node_permuted _ Sw Ex _ _ _ _ _ _ _ Pm), (node_moved _ T) by (intros; apply Af). apply node_ext. intros x.
  rewrite (node_permuted _ Sw Ex _ _ _ _ _ _ _ Pm'), (node_moved _ T) by (intros; apply Af). apply node_ext. intros y. now apply newton_moved.
Qed.

(** ** The sphere *)
Lemma octahedral_mapped k s t o p q r x y : octahedral k s t o (mapped p q r x y) = mapped (octahedral k s t o p) (octahedral k s t o q) (octahedral k s t o r) x y.
Proof. unfold mapped. rewrite !octahedral_linear, !octahedral_scale, !turn_sub. reflexivity. Qed.

Lemma image_touching level id (b : builder vec) (test trial : fspace R R) T t s p q r p' q' r' t1 s1 p1 q1 r1 p1' q1' r1' :
  regular_sphere real_numbers level 1 = Ok b -> fs_grid test = built_grid id Triangle b -> rigid T ->
  corners_of b t p q r -> corners_of b s p' q' r' -> corners_of b t1 p1 q1 r1 -> corners_of b s1 p1' q1' r1' ->
  Permutation [p1; q1; r1] [T p; T q; T r] -> Permutation [p1'; q1'; r1'] [T p'; T q'; T r'] -> touching test trial t1 s1 -> touching test trial t s.
Proof.
  intros E Gt Rg C1 C2 C3 C4 Pm Pm' (Id & x & A & B). split; [exact Id|]. rewrite Gt in *.
  assert (Sub : forall c p q r, corners_of b c p q r -> forall x, List.In x (g_sub (built_grid id Triangle b) c 0) <-> exists y, List.In y [p; q; r] /\ nth_error (points_of b) x = Some y).
  { intros c u v w (a1 & a2 & a3 & Ec & E1 & E2 & E3) z. unfold built_grid. cbn [grid_of_cells g_sub]. fold (cells_of b). rewrite (nth_error_nth _ _ [] Ec). split.
    - intros [<-|[<-|[<-|[]]]]; [exists u|exists v|exists w]; cbn; auto.
    - intros (y & [<-|[<-|[<-|[]]]] & Hz); [rewrite (same_number level b E _ _ _ Hz E1)|rewrite (same_number level b E _ _ _ Hz E2)|rewrite (same_number level b E _ _ _ Hz E3)]; cbn; auto. }
  apply (Sub _ _ _ _ C3) in A. apply (Sub _ _ _ _ C4) in B. destruct A as (y & Iy & Hy), B as (y' & Iy' & Hy'). assert (y' = y) by congruence. subst y'.
  apply (Permutation_in _ Pm) in Iy. apply (Permutation_in _ Pm') in Iy'. change [T p; T q; T r] with (map T [p; q; r]) in Iy. change [T p'; T q'; T r'] with (map T [p'; q'; r']) in Iy'.
  apply in_map_iff in Iy. apply in_map_iff in Iy'. destruct Iy as (z & Ez & Iz), Iy' as (z' & Ez' & Iz'). assert (z' = z) by (apply (rigid_injective T _ _ Rg); congruence). subst z'.
  assert (Hz : exists n, nth_error (points_of b) n = Some z). { destruct C1 as (a1 & a2 & a3 & _ & E1 & E2 & E3). destruct Iz as [<-|[<-|[<-|[]]]]; eauto. }
  destruct Hz as (n & Hz). exists n. split; [apply (Sub _ _ _ _ C1)|apply (Sub _ _ _ _ C2)]; eauto.
Qed.

Theorem sphere_entries_moved : forall (X : externals R) level id wmod e o deg pts (b : builder vec) (test trial : fspace R R),
  regular_sphere real_numbers level 1 = Ok b -> fs_grid test = built_grid id Triangle b -> fs_grid trial = built_grid id Triangle b ->
  dense_setting X wmod (laplace_single_layer (newton e)) o deg pts Triangle test trial -> constants reals 1 test -> constants reals 1 trial ->
  interior_family (g_types (fs_grid test) 2) (fs_family test) -> interior_family (g_types (fs_grid trial) 2) (fs_family trial) ->
  flat_cells X (built_grid id Triangle b) b -> symmetric_simplex X (pts Triangle) -> forall rt, legal_runtime Rplus rt ->
  exists m, assemble reals X rt wmod (laplace_single_layer (newton e)) o trial test = Ok m /\
  forall k f g h t s i j p q r p' q' r', corners_of b t p q r -> corners_of b s p' q' r' -> ~ touching test trial t s -> List.In i (dofs_at test t) -> List.In j (dofs_at trial s) ->
    forall t1 s1 i1 j1 p1 q1 r1 p1' q1' r1', corners_of b t1 p1 q1 r1 -> corners_of b s1 p1' q1' r1' ->
    Permutation [p1; q1; r1] (map (octahedral k f g h) [p; q; r]) -> Permutation [p1'; q1'; r1'] (map (octahedral k f g h) [p'; q'; r']) ->
    List.In i1 (dofs_at test t1) -> List.In j1 (dofs_at trial s1) ->
    exists v, nth_error m (i + global_size (fs_space test) * j) = Some v /\ nth_error m (i1 + global_size (fs_space test) * j1) = Some v.
Proof.
  intros X level id wmod e o deg pts b test trial E Gt Gs D Ct Cs It Is Fl Sy rt L.
  destruct (entries_moved X wmod e o deg pts test trial rt (fun p => p) D Ct Cs It Is Sy L) as (m & Em & _). exists m. split; [exact Em|].
  intros k f g h t s i j p q r p' q' r' C1 C2 N Hi Hj t1 s1 i1 j1 p1 q1 r1 p1' q1' r1' C3 C4 Pm Pm' Hi1 Hj1. cbn [map] in Pm, Pm'.
  destruct (entries_moved X wmod e o deg pts test trial rt (octahedral k f g h) D Ct Cs It Is Sy L) as (m' & Em' & H). rewrite Em in Em'. injection Em' as <-.
  assert (Lt : forall c u v w, corners_of b c u v w -> (c < ent_count (built_grid id Triangle b) 2)%nat) by (intros; eapply corners_lt; eauto).
  apply (H (octahedral_rigid k f g h) (octahedral_mapped k f g h) t s i j p q r p' q' r' t1 s1 i1 j1 p1 q1 r1 p1' q1' r1'); auto; rewrite ?Gt, ?Gs; eauto.
  - intros T1. apply N. exact (image_touching level id b test trial (octahedral k f g h) t s p q r p' q' r' t1 s1 p1 q1 r1 p1' q1' r1' E Gt (octahedral_rigid k f g h) C1 C2 C3 C4 Pm Pm' T1).
Qed.
