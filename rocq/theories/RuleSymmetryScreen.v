(** * Entries of cells that do not touch and the symmetries of the screens of triangles: proofs *)
From Coq Require Import Reals Lra Psatz Permutation.
From Verif Require Import Base BaseFacts Topology TopologyFacts DofMap Process Space SpecSpace Options SpecOptions Adjacency SpecAdjacency Scalar Integrand CellPair Operators SpecLocal SpecOperators
  Interleave Assembly SpecAssembly AssemblyExact AssemblyResults AssemblyTermination SpecTransfer SpecScalars SpecAlgebra AlgebraFacts SpecRounding RoundingModels RoundingResults SpecBroken BrokenResults SpecDof SpecGalerkin SpecMeasure SpecShapeSpaces ShapeSpacesResults Shapes SpecShapes ShapesResults SpecSphere SpecScreen SpecWidth
  SpecSymmetry SymmetryResults SpecTurns TurnResults TurnExamples SpecGauss GaussResults GaussExamples SpecShift SpecToeplitz ToeplitzResults ToeplitzExamples SpecShare ShareScreen ShareExamples SpecWaves SpecCensus CensusResults SpecFrame FrameResults SpecDecay DecayResults DecayExamples SpecMoments MomentResults MomentShapes MomentExamples SpecDegree DegreeResults DegreeExamples
  SpecRuleSymmetry RuleSymmetryResults RuleSymmetryExamples.

Local Open Scope R_scope.

Lemma square_map_mapped a swap f g h p q r x y :
  square_map a swap f g h (mapped p q r x y) = mapped (square_map a swap f g h p) (square_map a swap f g h q) (square_map a swap f g h r) x y.
Proof.
  destruct p as [[? ?] ?], q as [[? ?] ?], r as [[? ?] ?]. unfold mapped, square_map. destruct swap, f, g, h; cbn; (apply f_equal2; [apply f_equal2|]); ring.
Qed.

Lemma position_injective n p q : screen_position n p = screen_position n q -> p = q.
Proof.
  unfold screen_position. intros H. apply pair_equal_spec in H. destruct H as (H & _). apply pair_equal_spec in H. destruct H as (H1 & H2).
  assert (P : 0 < / INR (screen_denominator n)) by (apply Rinv_0_lt_compat, lt_0_INR; unfold screen_denominator; lia).
  destruct p as [x y], q as [u v]. cbn [fst snd] in *. f_equal; apply INR_eq; unfold Rdiv in *; nra.
Qed.

Lemma screen_same_number n b : screen n Triangle b -> forall i j p, nth_error (points_of b) i = Some p -> nth_error (points_of b) j = Some p -> i = j.
Proof.
  intros Sn i j p Hi Hj. destruct (screen_facts n Triangle b Sn) as (N0 & _). inversion Sn as [b' Eb Et|]; subst.
  destruct (triangles_topology n ltac:(lia)) as (b' & E' & _ & _ & ND & _). rewrite Eb in E'. injection E' as <-.
  apply (proj1 (NoDup_nth_error (points_of b)) ND); [apply nth_error_Some; congruence|congruence].
Qed.

Lemma screen_sub n id b c p q r : screen n Triangle b -> corner b c 0 p -> corner b c 1 q -> corner b c 2 r ->
  forall x, List.In x (g_sub (built_grid id Triangle b) c 0) <-> exists y, List.In y [p; q; r] /\ nth_error (points_of b) x = Some y.
Proof.
  intros Sn (vs & a1 & Ec & V1 & E1) (vs' & a2 & Ec' & V2 & E2) (vs'' & a3 & Ec'' & V3 & E3) x. rewrite Ec in Ec', Ec''. injection Ec' as <-. injection Ec'' as <-.
  destruct (screen_facts n Triangle b Sn) as (_ & _ & _ & _ & V & _). destruct (proj2 V _ (nth_error_In _ _ Ec)) as (Lv & _).
  unfold built_grid. cbn [grid_of_cells g_sub]. fold (cells_of b). rewrite (nth_error_nth _ _ [] Ec).
  destruct vs as [|u1 [|u2 [|u3 [|]]]]; cbn in Lv; try discriminate. cbn in V1, V2, V3. injection V1 as ->. injection V2 as ->. injection V3 as ->. split.
  - intros [<-|[<-|[<-|[]]]]; [exists p|exists q|exists r]; cbn; auto.
  - intros (y & [<-|[<-|[<-|[]]]] & Hz); [rewrite (screen_same_number n b Sn _ _ _ Hz E1)|rewrite (screen_same_number n b Sn _ _ _ Hz E2)|rewrite (screen_same_number n b Sn _ _ _ Hz E3)]; cbn; auto.
Qed.

Lemma screen_image_touching n id (b : builder (nat * nat)) (test trial : fspace R R) T t s p q r p' q' r' t1 s1 p1 q1 r1 p1' q1' r1' :
  screen n Triangle b -> fs_grid test = built_grid id Triangle b -> rigid T ->
  corner b t 0 p -> corner b t 1 q -> corner b t 2 r -> corner b s 0 p' -> corner b s 1 q' -> corner b s 2 r' ->
  corner b t1 0 p1 -> corner b t1 1 q1 -> corner b t1 2 r1 -> corner b s1 0 p1' -> corner b s1 1 q1' -> corner b s1 2 r1' ->
  Permutation (map (screen_position n) [p1; q1; r1]) (map T (map (screen_position n) [p; q; r])) ->
  Permutation (map (screen_position n) [p1'; q1'; r1']) (map T (map (screen_position n) [p'; q'; r'])) -> touching test trial t1 s1 -> touching test trial t s.
Proof.
  intros Sn Gt Rg A0 A1 A2 B0 B1 B2 C0 C1 C2 D0 D1 D2 Pm Pm' (Id & x & A & B). split; [exact Id|]. rewrite Gt in *.
  apply (screen_sub n id b _ _ _ _ Sn C0 C1 C2) in A. apply (screen_sub n id b _ _ _ _ Sn D0 D1 D2) in B. destruct A as (y & Iy & Hy), B as (y' & Iy' & Hy'). assert (y' = y) by congruence. subst y'.
  apply (in_map (screen_position n)) in Iy. apply (in_map (screen_position n)) in Iy'. apply (Permutation_in _ Pm) in Iy. apply (Permutation_in _ Pm') in Iy'.
  apply in_map_iff in Iy. apply in_map_iff in Iy'. destruct Iy as (z & Ez & Iz), Iy' as (z' & Ez' & Iz'). assert (z' = z) by (apply (rigid_injective T _ _ Rg); congruence). subst z'.
  apply in_map_iff in Iz. apply in_map_iff in Iz'. destruct Iz as (w & Ew & Iw), Iz' as (w' & Ew' & Iw'). assert (w' = w) by (apply (position_injective n); congruence). subst w'.
  assert (Hz : exists k, nth_error (points_of b) k = Some w). { destruct A0 as (? & a1 & _ & _ & E1), A1 as (? & a2 & _ & _ & E2), A2 as (? & a3 & _ & _ & E3). destruct Iw as [<-|[<-|[<-|[]]]]; eauto. }
  destruct Hz as (k & Hz). exists k. split; [apply (screen_sub n id b _ _ _ _ Sn A0 A1 A2)|apply (screen_sub n id b _ _ _ _ Sn B0 B1 B2)]; eauto.
Qed.

Theorem screen_entries_moved : forall (X : externals R) n id wmod e o deg pts (b : builder (nat * nat)) (test trial : fspace R R),
  screen n Triangle b -> fs_grid test = built_grid id Triangle b -> fs_grid trial = built_grid id Triangle b ->
  dense_setting X wmod (laplace_single_layer (newton e)) o deg pts Triangle test trial -> constants reals 1 test -> constants reals 1 trial ->
  interior_family (g_types (fs_grid test) 2) (fs_family test) -> interior_family (g_types (fs_grid trial) 2) (fs_family trial) ->
  flat_screen n X (built_grid id Triangle b) b -> symmetric_simplex X (pts Triangle) -> forall rt, legal_runtime Rplus rt ->
  exists m, assemble reals X rt wmod (laplace_single_layer (newton e)) o trial test = Ok m /\
  forall swap f g h t s i j p q r p' q' r', corner b t 0 p -> corner b t 1 q -> corner b t 2 r -> corner b s 0 p' -> corner b s 1 q' -> corner b s 2 r' ->
    ~ touching test trial t s -> List.In i (dofs_at test t) -> List.In j (dofs_at trial s) ->
    forall t1 s1 i1 j1 p1 q1 r1 p1' q1' r1', corner b t1 0 p1 -> corner b t1 1 q1 -> corner b t1 2 r1 -> corner b s1 0 p1' -> corner b s1 1 q1' -> corner b s1 2 r1' ->
    Permutation (map (screen_position n) [p1; q1; r1]) (map (square_map (INR n / INR (n + 1)) swap f g h) (map (screen_position n) [p; q; r])) ->
    Permutation (map (screen_position n) [p1'; q1'; r1']) (map (square_map (INR n / INR (n + 1)) swap f g h) (map (screen_position n) [p'; q'; r'])) ->
    List.In i1 (dofs_at test t1) -> List.In j1 (dofs_at trial s1) ->
    exists v, nth_error m (i + global_size (fs_space test) * j) = Some v /\ nth_error m (i1 + global_size (fs_space test) * j1) = Some v.
Proof.
  intros X n id wmod e o deg pts b test trial Sn Gt Gs D Ct Cs It Is Fl Sy rt L.
  destruct (entries_moved X wmod e o deg pts test trial rt (fun p => p) D Ct Cs It Is Sy L) as (m & Em & _). exists m. split; [exact Em|].
  intros swap f g h t s i j p q r p' q' r' A0 A1 A2 B0 B1 B2 N Hi Hj t1 s1 i1 j1 p1 q1 r1 p1' q1' r1' C0 C1 C2 D0 D1 D2 Pm Pm' Hi1 Hj1.
  set (T := square_map (INR n / INR (n + 1)) swap f g h) in *. assert (Rg : rigid T) by apply square_map_rigid.
  destruct (entries_moved X wmod e o deg pts test trial rt T D Ct Cs It Is Sy L) as (m' & Em' & H). rewrite Em in Em'. injection Em' as <-.
  assert (Lt : forall c k u, corner b c k u -> (c < ent_count (built_grid id Triangle b) 2)%nat).
  { intros c k u (vs & v & Ec & _). rewrite (screen_cell_count n id Triangle b Sn). apply nth_error_Some. congruence. }
  apply (H Rg ltac:(intros; apply square_map_mapped) t s i j (screen_position n p) (screen_position n q) (screen_position n r) (screen_position n p') (screen_position n q') (screen_position n r')
    t1 s1 i1 j1 (screen_position n p1) (screen_position n q1) (screen_position n r1) (screen_position n p1') (screen_position n q1') (screen_position n r1')); auto; rewrite ?Gt, ?Gs; eauto.
  intros T1. apply N. exact (screen_image_touching n id b test trial T t s p q r p' q' r' t1 s1 p1 q1 r1 p1' q1' r1' Sn Gt Rg A0 A1 A2 B0 B1 B2 C0 C1 C2 D0 D1 D2 Pm Pm' T1).
Qed.

Theorem screen_rule_example : forall n id e, (3 <= n)%nat -> exists b X (test : fspace R R) deg pts wmod,
  screen n Triangle b /\ fs_grid test = built_grid id Triangle b /\
  dense_setting X wmod (laplace_single_layer (newton e)) (after [SetBatch 3; SetRegular Triangle 3]) deg pts Triangle test test /\
  constants reals 1 test /\ interior_family (g_types (fs_grid test) 2) (fs_family test) /\ flat_screen n X (built_grid id Triangle b) b /\ symmetric_simplex X (pts Triangle) /\
  exists t s p q r p' q' r', corner b t 0 p /\ corner b t 1 q /\ corner b t 2 r /\ corner b s 0 p' /\ corner b s 1 q' /\ corner b s 2 r' /\ ~ touching test test t s.
Proof.
  intros n id e Hn. destruct (screen_exists n Triangle ltac:(lia) (or_introl eq_refl)) as (b & Sn). pose proof (screen_is_shape n id Triangle b Sn) as Sh.
  assert (S1 : standard (interior_only (fun _ => 1%nat))) by (constructor; intros; lia).
  destruct (spaces_exist R R (built_grid id Triangle b) _ (fun _ => 1%nat) unit_basis Sh S1) as (u & Mu & _ & Bu); [intros; lia|].
  assert (Gu : fs_grid u = built_grid id Triangle b) by apply Mu.
  assert (Tu : g_types (fs_grid u) 2 = [Triangle]) by (rewrite Gu; reflexivity).
  set (X := quadratic (even_externals n b)).
  assert (Pr : proper_rules X) by apply quadratic_proper, even_proper.
  set (wmod := (4 + 2 * ent_count (built_grid id Triangle b) 2 * ent_count (built_grid id Triangle b) 2)%nat).
  destruct (made_dense R R reals X wmod (laplace_single_layer (newton e)) [SetBatch 3; SetRegular Triangle (few Triangle)] (built_grid id Triangle b) _ _ u u Triangle Sh S1 S1 Mu Mu eq_refl (sh_laplace_single reals (newton e)) Pr (quadratic_rules _ _ _ (or_introl eq_refl) (even_rules n b Triangle (or_introl eq_refl)) (or_introl eq_refl))) as (deg & pts & D).
  { split; [apply Nat.lt_0_succ|]. change (get_batch_size (after [SetBatch 3; SetRegular Triangle (few Triangle)])) with 3%nat. unfold wmod. lia. }
  { unfold wmod. lia. }
  exists b, X, u, deg, pts, wmod. split; [exact Sn|]. split; [exact Gu|]. split; [exact D|].
  split. { constructor; rewrite ?Bu; auto. - intros t Ht. rewrite Tu in Ht. destruct Ht as [<-|[]]. now rewrite (mo_family _ _ _ Mu). - intros t points d p [-> | ->]; reflexivity. }
  split. { rewrite Tu, (mo_family _ _ _ Mu). intros t d i Ht Hd. destruct Ht as [<-|[]]. unfold el_ndofs, interior_only. cbn [el_edofs]. destruct (i <? _)%nat; [|reflexivity]. destruct d as [|[|d]]; try reflexivity; lia. }
  split; [exact (flat_screen_flat n (built_grid id Triangle b) b)|]. split.
  { assert (En : pts Triangle = 3%nat); [|rewrite En; apply midpoints_symmetric]. pose proof (dn_simplex _ _ _ _ _ _ _ _ _ D) as Hs. destruct (Hs Triangle (or_introl eq_refl)) as (Hg & _). apply (f_equal (fun o => match o with Some z => z | None => 0%nat end)) in Hg. now rewrite <- Hg. }
  assert (C : forall x k q, (x < n)%nat -> nth_error (offsets Triangle 0) k = Some q -> corner b (number Triangle n x x 0) k ((x + fst q)%nat, (x + snd q)%nat)).
  { intros x k q Hx Eq. apply (corner_at n Triangle b Sn x x 0 k _ Hx Hx); [cbn; lia|]. exists q. auto. }
  pose (O k := nth k (offsets Triangle 0) (0%nat, 0%nat)). pose (P x k := ((x + fst (O k))%nat, (x + snd (O k))%nat)).
  assert (C' : forall x k, (x < n)%nat -> (k < 3)%nat -> corner b (number Triangle n x x 0) k (P x k)).
  { intros x k Hx Hk. apply C; [exact Hx|]. apply nth_error_nth'. exact Hk. }
  exists (number Triangle n 0 0 0), (number Triangle n (n - 1) (n - 1) 0), (P 0%nat 0%nat), (P 0%nat 1%nat), (P 0%nat 2%nat), (P (n - 1)%nat 0%nat), (P (n - 1)%nat 1%nat), (P (n - 1)%nat 2%nat).
  do 6 (split; [apply C'; lia|]). intros (_ & x & A & B). rewrite Gu in A, B.
  apply (screen_sub n id b _ (P 0 0)%nat (P 0 1)%nat (P 0 2)%nat Sn) in A; try (apply C'; lia). apply (screen_sub n id b _ (P (n - 1) 0)%nat (P (n - 1) 1)%nat (P (n - 1) 2)%nat Sn) in B; try (apply C'; lia).
  destruct A as (y & Iy & Hy), B as (y' & Iy' & Hy'). assert (y' = y) by congruence. subst y'.
  assert (G : forall k, (k < 3)%nat -> (fst (O k) <= 1)%nat) by (intros [|[|[|]]] Hk; cbn; lia).
  assert (F1 : (fst y <= 1)%nat) by (destruct Iy as [<-|[<-|[<-|[]]]]; unfold P; cbn [fst]; [pose proof (G 0%nat)|pose proof (G 1%nat)|pose proof (G 2%nat)]; lia).
  assert (F2 : (n - 1 <= fst y)%nat) by (destruct Iy' as [<-|[<-|[<-|[]]]]; unfold P; cbn [fst]; lia). lia.
Qed.
