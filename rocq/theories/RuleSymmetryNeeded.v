(** * The symmetry of the rule is needed *)
From Coq Require Import Reals Lra Psatz Permutation.
From Verif Require Import Base BaseFacts Topology TopologyFacts DofMap Process Space SpecSpace Options SpecOptions Adjacency SpecAdjacency Scalar Integrand CellPair Operators SpecLocal LocalResults SpecOperators
  Interleave Assembly SpecAssembly AssemblyExact AssemblyResults AssemblyTermination SpecTransfer SpecScalars ScalarsResults SpecAlgebra AlgebraFacts SpecRounding RoundingModels RoundingResults SpecBroken BrokenResults SpecDof SpecGalerkin GalerkinResults DistributedResults SpecMeasure Shapes SpecShapes ShapesResults SpecSphere SpecScreen SpecWidth
  SpecSymmetry SymmetryResults SpecTurns TurnResults TurnExamples SpecShift SpecToeplitz ToeplitzResults ToeplitzExamples SpecShare ShareScreen ShareExamples SpecShapeSpaces ShapeSpacesResults SpecWaves WaveResults WaveLimits SpecCensus CensusResults SpecFrame FrameResults SpecDecay DecayResults DecayExamples SpecMoments MomentResults MomentExamples DegreeExamples GaussExamples MomentShapes SpecDegree DegreeResults DecayShapes EchoResults DecayPoints AlgebraResults
  SpecRuleSymmetry RuleSymmetryResults RuleSymmetryScreen RuleSymmetryWaves RuleSymmetryQuads.

Local Open Scope R_scope.

(** One point, the second corner of the triangle. *)
Definition second_corner (X : externals R) : externals R := mkExternals R
  (fun t n => if (n =? 1)%nat then Some (mkQuadrature [1; 0] [1 / 2]) else None) (x_duffy X) (x_geometry X).

Lemma second_proper X : proper_rules X -> proper_rules (second_corner X).
Proof.
  intros [_ B]. constructor; [|exact B]. intros t n q H. cbn [second_corner x_simplex] in H. destruct (Nat.eqb_spec n 1) as [->|]; [|discriminate].
  apply (f_equal (fun o => match o with Some q => (length (qd_points q), length (qd_weights q)) | None => (0%nat, 0%nat) end)) in H. cbn in H. injection H as E1 E2. now rewrite <- E1, <- E2.
Qed.

Lemma second_rules X : rules_exist X Triangle (after [SetBatch 3]) -> rules_exist (second_corner X) Triangle (after [SetBatch 3; SetRegular Triangle 1]).
Proof.
  intros [_ B]. split.
  - intros k H. vm_compute in H. injection H as <-. eexists. reflexivity.
  - intros k p kind H. apply B. exact H.
Qed.

Theorem second_corner_differs : forall n id e, (3 <= n)%nat -> exists b X (test : fspace R R) deg pts wmod m,
  screen n Triangle b /\ fs_grid test = built_grid id Triangle b /\
  dense_setting X wmod (laplace_single_layer (newton e)) (after [SetBatch 3; SetRegular Triangle 1]) deg pts Triangle test test /\
  constants reals 1 test /\ interior_family (g_types (fs_grid test) 2) (fs_family test) /\ flat_screen n X (built_grid id Triangle b) b /\
  x_simplex X Triangle (pts Triangle) = Some (mkQuadrature [1; 0] [1 / 2]) /\ legal_runtime Rplus (sequential Rplus) /\
  assemble reals X (sequential Rplus) wmod (laplace_single_layer (newton e)) (after [SetBatch 3; SetRegular Triangle 1]) test test = Ok m /\
  exists t s i j p q r p' q' r', corner b t 0 p /\ corner b t 1 q /\ corner b t 2 r /\ corner b s 0 p' /\ corner b s 1 q' /\ corner b s 2 r' /\
    ~ touching test test t s /\ List.In i (dofs_at test t) /\ List.In j (dofs_at test s) /\
  exists t1 s1 i1 j1 p1 q1 r1 p1' q1' r1', corner b t1 0 p1 /\ corner b t1 1 q1 /\ corner b t1 2 r1 /\ corner b s1 0 p1' /\ corner b s1 1 q1' /\ corner b s1 2 r1' /\
    Permutation (map (screen_position n) [p1; q1; r1]) (map (square_map (INR n / INR (n + 1)) true false false false) (map (screen_position n) [p; q; r])) /\
    Permutation (map (screen_position n) [p1'; q1'; r1']) (map (square_map (INR n / INR (n + 1)) true false false false) (map (screen_position n) [p'; q'; r'])) /\
    List.In i1 (dofs_at test t1) /\ List.In j1 (dofs_at test s1) /\
    exists v v', nth_error m (i + global_size (fs_space test) * j) = Some v /\ nth_error m (i1 + global_size (fs_space test) * j1) = Some v' /\ v <> v'.
Proof.
  intros n id e Hn. destruct (screen_exists n Triangle ltac:(lia) (or_introl eq_refl)) as (b & Sn). pose proof (screen_is_shape n id Triangle b Sn) as Sh.
  assert (S1 : standard (interior_only (fun _ => 1%nat))) by (constructor; intros; lia).
  destruct (spaces_exist R R (built_grid id Triangle b) _ (fun _ => 1%nat) unit_basis Sh S1) as (u & Mu & _ & Bu); [intros; lia|].
  assert (Gu : fs_grid u = built_grid id Triangle b) by apply Mu.
  assert (Tu : g_types (fs_grid u) 2 = [Triangle]) by (rewrite Gu; reflexivity).
  set (X := second_corner (even_externals n b)).
  assert (Pr : proper_rules X) by apply second_proper, even_proper.
  set (wmod := (4 + 2 * ent_count (built_grid id Triangle b) 2 * ent_count (built_grid id Triangle b) 2)%nat).
  destruct (made_dense R R reals X wmod (laplace_single_layer (newton e)) [SetBatch 3; SetRegular Triangle 1] (built_grid id Triangle b) _ _ u u Triangle Sh S1 S1 Mu Mu eq_refl (sh_laplace_single reals (newton e)) Pr (second_rules _ (even_rules n b Triangle (or_introl eq_refl)))) as (deg & pts & D).
  { split; [apply Nat.lt_0_succ|]. change (get_batch_size (after [SetBatch 3; SetRegular Triangle 1])) with 3%nat. unfold wmod. lia. }
  { unfold wmod. lia. }
  assert (Cu : constants reals 1 u). { constructor; rewrite ?Bu; auto. - intros t Ht. rewrite Tu in Ht. destruct Ht as [<-|[]]. now rewrite (mo_family _ _ _ Mu). - intros t points d p [-> | ->]; reflexivity. }
  assert (Iu : interior_family (g_types (fs_grid u) 2) (fs_family u)). { rewrite Tu, (mo_family _ _ _ Mu). intros t d i Ht Hd. destruct Ht as [<-|[]]. unfold el_ndofs, interior_only. cbn [el_edofs]. destruct (i <? _)%nat; [|reflexivity]. destruct d as [|[|d]]; try reflexivity; lia. }
  assert (Fl : flat_screen n X (built_grid id Triangle b) b) by exact (flat_screen_flat n (built_grid id Triangle b) b).
  assert (Xq : x_simplex X Triangle (pts Triangle) = Some (mkQuadrature [1; 0] [1 / 2])).
  { assert (En : pts Triangle = 1%nat); [|rewrite En; reflexivity]. pose proof (dn_simplex _ _ _ _ _ _ _ _ _ D) as Hs. destruct (Hs Triangle (or_introl eq_refl)) as (Hg & _). apply (f_equal (fun o => match o with Some z => z | None => 0%nat end)) in Hg. now rewrite <- Hg. }
  destruct (assembled reals 1 reals_ring X (sequential Rplus) wmod _ (after [SetBatch 3; SetRegular Triangle 1]) deg pts Triangle u u (sequential_legal Rplus) D) as (m & val & E & _ & V & H).
  assert (C : forall x y h k q, (x < n)%nat -> (y < n)%nat -> (h < 2)%nat -> nth_error (offsets Triangle h) k = Some q -> corner b (number Triangle n x y h) k ((x + fst q)%nat, (y + snd q)%nat)).
  { intros x y h k q Hx Hy Hh Eq. apply (corner_at n Triangle b Sn x y h k _ Hx Hy); [exact Hh|]. exists q. auto. }
  assert (Lt : forall c k p, corner b c k p -> (c < ent_count (fs_grid u) 2)%nat). { intros c k p (vs & v & Ec & _). rewrite Gu, (screen_cell_count n id Triangle b Sn). apply nth_error_Some. congruence. }
  assert (Su : serial_space u) by apply D.
  assert (Dof : forall c k p, corner b c k p -> exists i, List.In i (dofs_at u c)).
  { intros c k p Hc. apply Lt in Hc. pose proof (dofs_at_dim u c Su Hc) as L1. rewrite (co_dim _ _ _ Cu) in L1 by (apply wf_ctype; [apply Su|auto]). destruct (dofs_at u c) as [|i l]; [discriminate|]. exists i. now left. }
  set (t := number Triangle n 0 0 0). set (s := number Triangle n 2 0 1). set (t1 := number Triangle n 0 0 1). set (s1 := number Triangle n 0 2 0).
  assert (T0 : corner b t 0 (0, 0)%nat) by (apply (C 0 0 0 0 (0, 0))%nat; (lia || reflexivity)). assert (T1 : corner b t 1 (1, 0)%nat) by (apply (C 0 0 0 1 (1, 0))%nat; (lia || reflexivity)). assert (T2 : corner b t 2 (1, 1)%nat) by (apply (C 0 0 0 2 (1, 1))%nat; (lia || reflexivity)).
  assert (U0 : corner b s 0 (2, 0)%nat) by (apply (C 2 0 1 0 (0, 0))%nat; (lia || reflexivity)). assert (U1 : corner b s 1 (3, 1)%nat) by (apply (C 2 0 1 1 (1, 1))%nat; (lia || reflexivity)). assert (U2 : corner b s 2 (2, 1)%nat) by (apply (C 2 0 1 2 (0, 1))%nat; (lia || reflexivity)).
  assert (V0 : corner b t1 0 (0, 0)%nat) by (apply (C 0 0 1 0 (0, 0))%nat; (lia || reflexivity)). assert (V1 : corner b t1 1 (1, 1)%nat) by (apply (C 0 0 1 1 (1, 1))%nat; (lia || reflexivity)). assert (V2 : corner b t1 2 (0, 1)%nat) by (apply (C 0 0 1 2 (0, 1))%nat; (lia || reflexivity)).
  assert (W0 : corner b s1 0 (0, 2)%nat) by (apply (C 0 2 0 0 (0, 0))%nat; (lia || reflexivity)). assert (W1 : corner b s1 1 (1, 2)%nat) by (apply (C 0 2 0 1 (1, 0))%nat; (lia || reflexivity)). assert (W2 : corner b s1 2 (1, 3)%nat) by (apply (C 0 2 0 2 (1, 1))%nat; (lia || reflexivity)).
  assert (Apart : forall c c' p q r p' q' r', corner b c 0 p -> corner b c 1 q -> corner b c 2 r -> corner b c' 0 p' -> corner b c' 1 q' -> corner b c' 2 r' -> (forall y, List.In y [p; q; r] -> List.In y [p'; q'; r'] -> False) -> ~ touching u u c c').
  { intros c c' p q r p' q' r' A0 A1 A2 B0 B1 B2 No (_ & x & A & B). rewrite Gu in A, B. apply (screen_sub n id b _ _ _ _ Sn A0 A1 A2) in A. apply (screen_sub n id b _ _ _ _ Sn B0 B1 B2) in B.
    destruct A as (y & Iy & Hy), B as (y' & Iy' & Hy'). assert (y' = y) by congruence. subst y'. eauto. }
  assert (N : ~ touching u u t s). { apply (Apart t s _ _ _ _ _ _ T0 T1 T2 U0 U1 U2). intros y [<-|[<-|[<-|[]]]] [Z|[Z|[Z|[]]]]; discriminate Z. }
  assert (N' : ~ touching u u t1 s1). { apply (Apart t1 s1 _ _ _ _ _ _ V0 V1 V2 W0 W1 W2). intros y [<-|[<-|[<-|[]]]] [Z|[Z|[Z|[]]]]; discriminate Z. }
  destruct (Dof _ _ _ T0) as (i & Hi), (Dof _ _ _ U0) as (j & Hj), (Dof _ _ _ V0) as (i1 & Hi1), (Dof _ _ _ W0) as (j1 & Hj1).
  exists b, X, u, deg, pts, wmod, m. do 6 (split; [assumption|]). split; [exact Xq|]. split; [apply sequential_legal|]. split; [exact E|].
  exists t, s, i, j, (0, 0)%nat, (1, 0)%nat, (1, 1)%nat, (2, 0)%nat, (3, 1)%nat, (2, 1)%nat. do 9 (split; [assumption|]).
  exists t1, s1, i1, j1, (0, 0)%nat, (1, 1)%nat, (0, 1)%nat, (0, 2)%nat, (1, 2)%nat, (1, 3)%nat. do 6 (split; [assumption|]).
  split. { cbn [map]. unfold square_map, screen_position. cbn [fst snd]. apply perm_skip, perm_swap. }
  split. { cbn [map]. unfold square_map, screen_position. cbn [fst snd]. apply perm_skip, perm_swap. }
  split; [exact Hi1|]. split; [exact Hj1|].
  assert (Li : forall i t, (t < ent_count (fs_grid u) 2)%nat -> List.In i (dofs_at u t) -> (i < global_size (fs_space u))%nat) by (intros; eapply serial_lt; eauto).
  exists (val t s 0 0)%nat, (val t1 s1 0 0)%nat.
  assert (Entry : forall c c' k k' x y x' y', corner b c x y -> corner b c' x' y' -> List.In k (dofs_at u c) -> List.In k' (dofs_at u c') -> nth_error m (k + global_size (fs_space u) * k') = Some (val c c' 0 0)%nat).
  { intros c c' k k' x y x' y' Hc Hc' Hk Hk'. apply Lt in Hc, Hc'. rewrite H by eauto. f_equal. now apply (single_entry X wmod e (after [SetBatch 3; SetRegular Triangle 1]) deg pts Triangle u u D Cu Cu Iu Iu val c c' k k'). }
  split; [eapply Entry; eauto|]. split; [eapply Entry; eauto|].
  assert (Val : forall c c' p q r p' q' r', corner b c 0 p -> corner b c 1 q -> corner b c 2 r -> corner b c' 0 p' -> corner b c' 1 q' -> corner b c' 2 r' -> ~ touching u u c c' ->
    (val c c' 0 0)%nat = newton e 0 (screen_position n q) (screen_position n q') * (1 / 2 * sqrt (inner (normal (screen_position n p) (screen_position n q) (screen_position n r)) (normal (screen_position n p) (screen_position n q) (screen_position n r))) *
      (1 / 2 * sqrt (inner (normal (screen_position n p') (screen_position n q') (screen_position n r')) (normal (screen_position n p') (screen_position n q') (screen_position n r')))))).
  { intros c c' p q r p' q' r' A0 A1 A2 B0 B1 B2 Nt. pose proof (V c c' 0%nat 0%nat (Lt _ _ _ A0) (Lt _ _ _ B0)) as Vc.
    destruct (kernel_sum X wmod (newton e) (after [SetBatch 3; SetRegular Triangle 1]) deg pts Triangle u u D Cu Cu c c' (screen_position n p) (screen_position n q) (screen_position n r) (screen_position n p') (screen_position n q') (screen_position n r') (Lt _ _ _ A0) (Lt _ _ _ B0)) with (v := (val c c' 0 0)%nat) as (qt & qs & Q1 & Q2 & Ev); auto.
    - intros points. rewrite Gu. now apply Fl.
    - intros points. rewrite Gu. now apply Fl.
    - rewrite Xq in Q1, Q2. apply (f_equal (fun o => match o with Some z => z | None => qt end)) in Q1. apply (f_equal (fun o => match o with Some z => z | None => qs end)) in Q2. subst qt qs. rewrite Ev.
      assert (M1 : forall p q r : vec, mapped p q r 1 0 = q) by (intros; rewrite mapped_coordinates; apply vec_ext; cbn [fst snd]; ring).
      cbn [qd_weights qd_points]. change (enumerate [1 / 2]) with [(0%nat, 1 / 2)]. rewrite !total_cons. cbn [fst snd nth Nat.mul Nat.add]. rewrite !M1. unfold total. cbn [map fold_left fold_right s_add s_zero reals]. ring. }
  rewrite (Val t s _ _ _ _ _ _ T0 T1 T2 U0 U1 U2 N), (Val t1 s1 _ _ _ _ _ _ V0 V1 V2 W0 W1 W2 N').
  assert (P : 0 < INR (n + 1)) by (apply lt_0_INR; lia). set (h := / INR (n + 1)). assert (Ph : 0 < h) by now apply Rinv_0_lt_compat.
  assert (Sp : forall x y, screen_position n (x, y) = (INR x * h, INR y * h, 0)) by reflexivity. rewrite !Sp. cbn [INR].
  replace (inner _ _) with ((h * h) * (h * h)) at 1 by (unfold normal; cbn; ring).
  match goal with |- ?a * (_ * _ * (_ * sqrt ?x)) <> ?b * (_ * sqrt ?y * (_ * sqrt ?z)) => replace x with ((h * h) * (h * h)) by (unfold normal; cbn; ring); replace y with ((h * h) * (h * h)) by (unfold normal; cbn; ring); replace z with ((h * h) * (h * h)) by (unfold normal; cbn; ring) end.
  rewrite !sqrt_square by nra.
  assert (D1 : SpecWaves.distance (1 * h, 0 * h, 0) ((1 + 1 + 1) * h, 1 * h, 0) = sqrt (5 * (h * h))) by (rewrite distance_chord; f_equal; unfold chord2; cbn; ring).
  assert (D2 : SpecWaves.distance (1 * h, 1 * h, 0) (1 * h, (1 + 1) * h, 0) = h) by (rewrite distance_chord; transitivity (sqrt (h * h)); [f_equal; unfold chord2; cbn; ring|apply sqrt_square; lra]).
  unfold newton. rewrite D1, D2. set (d := sqrt (5 * (h * h))). assert (Hd : h < d). { unfold d. rewrite <- (sqrt_square h) at 1 by lra. apply sqrt_lt_1; nra. }
  destruct (Req_EM_T d 0) as [Z|_]; [lra|]. destruct (Req_EM_T h 0) as [Z|_]; [lra|]. pose proof PI_RGT_0 as Pp.
  assert (Lt2 : 1 / (4 * PI * d) < 1 / (4 * PI * h)). { unfold Rdiv. rewrite !Rmult_1_l. apply Rinv_lt_contravar; [apply Rmult_lt_0_compat; apply Rmult_lt_0_compat; lra|]. apply Rmult_lt_compat_l; lra. }
  assert (Pf : 0 < 1 / 2 * (h * h) * (1 / 2 * (h * h))) by (assert (0 < h * h) by nra; nra). intros Z. apply Rmult_eq_reg_r in Z; lra.
Qed.
