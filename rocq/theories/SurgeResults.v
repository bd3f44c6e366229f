(** * Helmholtz hypersingular entries of functions with distant supports and the integrals *)
From Coq Require Import Ring_theory Reals Lra Psatz.
From Verif Require Import Base BaseFacts Topology TopologyFacts DofMap DofMapFacts SpecDof DofMapResults DofExamples Process Space SpecSpace Options
  Adjacency SpecAdjacency Scalar Integrand CellPair Operators SpecLocal LocalFacts LocalResults Interleave Assembly SpecAssembly
  AssemblyFacts AssemblySingular AssemblyDense AssemblyExact AssemblyResults SpecAlgebra AlgebraFacts AlgebraResults
  SpecBroken BrokenResults SpecTransfer SpecScalars ScalarsResults SpecRounding RoundingModels SpecGalerkin GalerkinResults DistributedResults SpecMeasure MeasureResults Shapes SpecShapes SpecSphere SpecWidth SpecTurns TurnExamples SpecShare
  SphereGeometry SpecFloatSphere FloatSphere FloatSphereNear FloatSphereError SpecWaves KernelResults WaveResults WaveLimits SpecDecay DecayResults DecayPoints SpecDigits SpecMoments MomentResults MomentShapes SpecDefinite DefiniteResults
  SpecDegree LegendreSeries DegreeIntegrals DegreeResults DegreeExact SpecRims RimKernel RimResults SpecPatches PatchKernel PatchResults SpecPieces PieceKernel PieceResults FluxKernel SpecFluxes FluxResults SpecSwirls SwirlResults EchoKernel EchoResults SpecSurges.

Local Open Scope R_scope.
Local Notation dist := SpecWaves.distance.
Local Notation RR := DecayResults.reals_ring.

(** ** Uniqueness *)
Theorem surges_unique : forall ct test trial F F1 F2 F' F1' F2' P P' kappa K i j v w, ct = Triangle \/ ct = Quadrilateral ->
  surges_integral ct test trial F F1 F2 F' F1' F2' P P' kappa K i j v -> surges_integral ct test trial F F1 F2 F' F1' F2' P P' kappa K i j w -> v = w.
Proof.
  intros ct test trial F F1 F2 F' F1' F2' P P' kappa K i j v w Ht (f & Hf & ->) (f' & Hf' & ->). f_equal. apply map_ext_in. intros t It. f_equal. apply map_ext_in. intros s Is. f_equal.
  exact (pair_integral_unique ct _ _ _ Ht (Hf t s It Is) (Hf' t s It Is)).
Qed.

Lemma flat_normals points points' T T' x x' j j' : flat_cell points (first_corner T) (second_corner T) (third_corner T) x -> flat_cell points' (first_corner T') (second_corner T') (third_corner T') x' ->
  dot reals (SpecLocal.normal reals x' j') (SpecLocal.normal reals x j) = inner (cell_direction T) (cell_direction T').
Proof.
  intros Fc Fc'. unfold dot, SpecLocal.normal, cell_direction, scaling. cbn [s_cast s_add s_mul reals]. rewrite !(fc_normal _ _ _ _ _ Fc), !(fc_normal _ _ _ _ _ Fc') by lia.
  destruct (normal (first_corner T) (second_corner T) (third_corner T)) as [[n1 n2] n3], (normal (first_corner T') (second_corner T') (third_corner T')) as [[m1 m2] m3]. cbn [vscale inner SpecTurns.coordinate]. unfold Rdiv. ring.
Qed.

(** ** Sums of local entries *)
Section Entries.
Context (X : externals R) (wmod : nat) (G : @green R R) (kappa : R) (o : options) (deg : cell_type -> cell_type -> nat) (pts : cell_type -> nat) (ct : cell_type) (test trial : fspace R R)
  (P P' : nat -> vec * vec * vec) (F F1 F2 F' F1' F2' : nat -> R -> R -> R) (d : nat).
Notation O := (helmholtz_hypersingular reals (fun _ => G) kappa).
Context (D : dense_setting X wmod O o deg pts ct test trial) (Kind : ct = Triangle \/ ct = Quadrilateral)
  (Ef : element_slopes test ct d F F1 F2) (Ef' : element_slopes trial ct d F' F1' F2') (Ev : element_functions test ct d F) (Ev' : element_functions trial ct d F') (Fl : flat_grid X (fs_grid test) ct P) (Fl' : flat_grid X (fs_grid trial) ct P').
Notation K t s := (fun x y x' y' => G 0%nat (point_in (P t) x y) (point_in (P' s) x' y')).
Notation test_serial := (flux_test_serial X wmod O o deg pts ct test trial D).
Notation trial_serial := (flux_trial_serial X wmod O o deg pts ct test trial D).
Notation test_ctype := (flux_test_type X wmod O o deg pts ct test trial D).
Notation trial_ctype := (flux_trial_type X wmod O o deg pts ct test trial D).
Notation C t s := (- (kappa * kappa * inner (cell_direction (P t)) (cell_direction (P' s)))).
Notation W t n a := (swirl_part (P t) F1 F2 n a).
Notation W' s n b := (swirl_part (P' s) F1' F2' n b).

Lemma surge_value t s a b v : (t < ent_count (fs_grid test) 2)%nat -> (s < ent_count (fs_grid trial) 2)%nat -> (a < el_dim (fs_family test ct))%nat -> (b < el_dim (fs_family trial ct))%nat -> ~ touching test trial t s ->
  pair_value reals X O deg pts test trial t s a b v -> exists qd, x_simplex X ct (pts ct) = Some qd /\
  v = scaling (P t) * scaling (P' s) * (rule_sum qd (fun x y x' y' => K t s x y x' y' * (W t 0 a x y * W' s 0 b x' y')) + rule_sum qd (fun x y x' y' => K t s x y x' y' * (W t 1 a x y * W' s 1 b x' y')) +
    rule_sum qd (fun x y x' y' => K t s x y x' y' * (W t 2 a x y * W' s 2 b x' y')) + rule_sum qd (fun x y x' y' => C t s * K t s x y x' y' * (F a x y * F' b x' y'))).
Proof.
  intros Ht Hs La Lb Nt [(C & _)|(_ & qt & qs & A1 & A2 & ->)]; [contradiction|].
  rewrite (test_ctype t Ht) in A1. rewrite (trial_ctype s Hs) in A2.
  assert (qs = qt) by congruence. subst qs. exists qt. split; [exact A1|].
  rewrite <- !rule_add. rewrite (tensor_total reals 1 RR). unfold rule_sum. rewrite <- real_total_mul. apply total_ext. intros pw _. rewrite <- real_total_mul. apply total_ext. intros qw _.
  unfold tensor_term. rewrite (test_ctype t Ht), (trial_ctype s Hs).
  cbn [helmholtz_hypersingular op_integrand op_kernel kn_value integrand_value s_add s_mul s_div s_cast r_mul r_neg reals].
  rewrite (flat_normals _ _ (P t) (P' s) _ _ (fst pw) (fst qw) (Fl t Ht _) (Fl' s Hs _)).
  rewrite (flat_position _ _ _ _ _ (fst pw) (Fl t Ht _)), (flat_position _ _ _ _ _ (fst qw) (Fl' s Hs _)).
  unfold dot, curl, jdet. cbn [s_cast s_add s_sub s_mul reals]. rewrite !(fc_second _ _ _ _ _ (Fl t Ht _)), !(fc_second _ _ _ _ _ (Fl' s Hs _)), !(fc_first _ _ _ _ _ (Fl t Ht _)), !(fc_first _ _ _ _ _ (Fl' s Hs _)) by lia.
  rewrite (fc_area _ _ _ _ _ (Fl t Ht _)), (fc_area _ _ _ _ _ (Fl' s Hs _)).
  destruct (Ef a La) as (_ & _ & _ & _ & T). destruct (T (qd_points qt) (fst pw)) as (-> & -> & ->). clear T. destruct (Ef' b Lb) as (_ & _ & _ & _ & T). destruct (T (qd_points qt) (fst qw)) as (-> & -> & ->). clear T.
  unfold swirl_part. rewrite !swirl_coordinate. unfold point_in. fold (scaling (P t)) (scaling (P' s)).
  match goal with |- context [G 0%nat ?x ?y] => generalize (G 0%nat x y) end. intros k. unfold Rdiv. ring.
Qed.

Context (i j : nat) (Ap : forall t s, List.In t (support test i) -> List.In s (support trial j) -> ~ touching test trial t s).

Lemma surge_entry val qd : x_simplex X ct (pts ct) = Some qd ->
  (forall t s a b, (t < ent_count (fs_grid test) 2)%nat -> (s < ent_count (fs_grid trial) 2)%nat -> pair_value reals X O deg pts test trial t s a b (val t s a b)) ->
  matrix_entry reals val test trial i j = fold_right Rplus 0 (map (fun t => fold_right Rplus 0 (map (fun s =>
    scaling (P t) * scaling (P' s) * rule_sum qd (fun x y x' y' => K t s x y x' y' * surge test trial F F1 F2 F' F1' F2' P P' kappa i j t s x y x' y')) (support trial j))) (support test i)).
Proof.
  intros Q H. unfold matrix_entry.
  change (support test i) with (filter (fun t => memb i (dofs_at test t)) (seq 0 (ent_count (fs_grid test) 2))). rewrite sum_filter, sum_total. f_equal. apply map_ext_in. intros t Ht. apply in_seq in Ht.
  assert (Ht' : (t < ent_count (fs_grid test) 2)%nat) by lia. clear Ht.
  assert (None : forall (fs : fspace R R) c k, memb k (dofs_at fs c) = false -> forall ak, List.In ak (enumerate (dofs_at fs c)) -> (snd ak =? k) = false).
  { intros fs c k M [a n] I. cbn. apply Nat.eqb_neq. intros ->. apply In_enumerate, nth_error_In in I. apply memb_in in I. congruence. }
  destruct (memb i (dofs_at test t)) eqn:M.
  2:{ rewrite (total_ext reals _ _ (fun _ => 0)); [apply (total_zero reals 1 RR); intros; reflexivity|]. intros s _. rewrite (total_ext reals _ _ (fun _ => 0)); [apply (total_zero reals 1 RR); intros; reflexivity|].
      intros ak I. rewrite (total_ext reals _ _ (fun _ => 0)); [apply (total_zero reals 1 RR); intros; reflexivity|]. intros bj _. now rewrite (None test t i M ak I). }
  unfold support. rewrite sum_filter, sum_total. f_equal. apply map_ext_in. intros s Hs. apply in_seq in Hs. assert (Hs' : (s < ent_count (fs_grid trial) 2)%nat) by lia. clear Hs.
  destruct (memb j (dofs_at trial s)) eqn:M'.
  2:{ rewrite (total_ext reals _ _ (fun _ => 0)); [apply (total_zero reals 1 RR); intros; reflexivity|].
      intros ak I. rewrite (total_ext reals _ _ (fun _ => 0)); [apply (total_zero reals 1 RR); intros; reflexivity|]. intros bj J. now rewrite (None trial s j M' bj J), Bool.andb_false_r. }
  apply memb_in in M, M'. assert (Nt : ~ touching test trial t s) by (apply Ap; apply in_support; auto).
  rewrite (rule_same qd (fun x y x' y' => (K t s x y x' y' * (piece test (swirl_part (P t) F1 F2 0) i t x y * piece trial (swirl_part (P' s) F1' F2' 0) j s x' y') +
      K t s x y x' y' * (piece test (swirl_part (P t) F1 F2 1) i t x y * piece trial (swirl_part (P' s) F1' F2' 1) j s x' y')) +
      K t s x y x' y' * (piece test (swirl_part (P t) F1 F2 2) i t x y * piece trial (swirl_part (P' s) F1' F2' 2) j s x' y') +
      C t s * K t s x y x' y' * (piece test F i t x y * piece trial F' j s x' y')))
    by (intros; unfold surge; rewrite (inner_coordinates (piece_swirl _ _ _ _ _ _ _ _)), !piece_coordinate; ring).
  rewrite !rule_add. unfold piece. rewrite <- !piece_sums, <- !real_total_add, <- real_total_mul. apply total_ext. intros [a k] Ia. rewrite <- !real_total_add, <- real_total_mul. apply total_ext. intros [b l] Ib. cbn [fst snd].
  destruct ((k =? i) && (l =? j))%bool; [|cbn; ring].
  destruct (surge_value t s a b (val t s a b) Ht' Hs' (dof_place ct test t a k test_serial Ht' (test_ctype t Ht') Ia) (dof_place ct trial s b l trial_serial Hs' (trial_ctype s Hs') Ib) Nt (H t s a b Ht' Hs')) as (q' & Q' & ->).
  assert (q' = qd) by congruence. subst q'. reflexivity.
Qed.

Context (M M' B B' : R) (bound : nat -> R) (Small : forall c eps, 0 <= c -> 0 < eps -> exists l, c * bound l <= eps) (PM : 0 <= M) (PM' : 0 <= M')
  (App : forall t s, List.In t (support test i) -> List.In s (support trial j) -> exists near, (forall n, joint n (near n)) /\
    forall n x y x' y', inside ct x y -> inside ct x' y' -> Rabs (K t s x y x' y' - near n x y x' y') <= bound n)
  (Bd : forall t x y, List.In t (support test i) -> inside ct x y -> inner (piece_swirl test F1 F2 P i t x y) (piece_swirl test F1 F2 P i t x y) <= M * M)
  (Bd' : forall s x y, List.In s (support trial j) -> inside ct x y -> inner (piece_swirl trial F1' F2' P' j s x y) (piece_swirl trial F1' F2' P' j s x y) <= M' * M')
  (Bf : forall t x y, List.In t (support test i) -> inside ct x y -> Rabs (piece test F i t x y) <= B) (Bf' : forall s x y, List.In s (support trial j) -> inside ct x y -> Rabs (piece trial F' j s x y) <= B').

Lemma normals_bound T T' : Rabs (inner (cell_direction T) (cell_direction T')) <= 1.
Proof. replace 1 with (1 * 1) by ring. apply inner_product; try lra; rewrite Rmult_1_r; apply direction_length. Qed.

Lemma surge_cells t s : List.In t (support test i) -> List.In s (support trial j) ->
  exists v, pair_integral ct (fun x y x' y' => K t s x y x' y' * surge test trial F F1 F2 F' F1' F2' P P' kappa i j t s x y x' y') v /\
  forall k qd, (forall i j, (i + j <= k + d)%nat -> monomial_sum qd i j = monomial_integral ct i j) ->
    (forall pw, List.In pw (enumerate (qd_weights qd)) -> 0 <= snd pw /\ inside ct (nth (2 * fst pw) (qd_points qd) 0) (nth (2 * fst pw + 1) (qd_points qd) 0)) ->
    Rabs (rule_sum qd (fun x y x' y' => K t s x y x' y' * surge test trial F F1 F2 F' F1' F2' P P' kappa i j t s x y x' y') - v) <= 2 * (bound k * (M * M' + kappa * kappa * (B * B')) * (reference_area ct * reference_area ct)).
Proof.
  intros It Is. destruct (App t s It Is) as (near & Jn & Hn). apply (approximated_integral ct Kind (K t s) (surge test trial F F1 F2 F' F1' F2' P P' kappa i j t s) near bound d (M * M' + kappa * kappa * (B * B'))); auto.
  - apply in_support in It, Is. destruct It as (Ht & _), Is as (Hs & _).
    assert (J : forall n, joint d (fun x y x' y' => piece test (swirl_part (P t) F1 F2 n) i t x y * piece trial (swirl_part (P' s) F1' F2' n) j s x' y')).
    { intros n. apply polynomial_joint.
      - exact (swirl_polynomial ct d test F F1 F2 P i t n test_serial Ht (test_ctype t Ht) Ef).
      - exact (swirl_polynomial ct d trial F' F1' F2' P' j s n trial_serial Hs (trial_ctype s Hs) Ef'). }
    assert (J' : joint d (fun x y x' y' => piece test F i t x y * piece trial F' j s x' y')).
    { apply polynomial_joint.
      - exact (PieceResults.piece_polynomial ct d test F i t test_serial Ht (test_ctype t Ht) Ev).
      - exact (PieceResults.piece_polynomial ct d trial F' j s trial_serial Hs (trial_ctype s Hs) Ev'). }
    eapply joint_same; [apply (joint_sum d _ _ (joint_sum d _ _ (joint_sum d _ _ (J 0%nat) (J 1%nat)) (J 2%nat)) (joint_scale d (C t s) _ J'))|].
    intros. cbn beta. unfold surge. rewrite (inner_coordinates (piece_swirl _ _ _ _ _ _ _ _)), !piece_coordinate. ring.
  - intros x y x' y' I I'. unfold surge. eapply Rle_trans; [apply Rabs_triang|]. apply Rplus_le_compat; [apply inner_product; [exact PM|exact PM'|now apply Bd|now apply Bd']|].
    rewrite Rabs_Ropp, !Rabs_mult. rewrite <- (Rabs_mult kappa kappa), (Rabs_pos_eq (kappa * kappa)) by exact (Rle_0_sqr kappa).
    rewrite Rmult_assoc. apply Rmult_le_compat_l; [exact (Rle_0_sqr kappa)|]. rewrite <- (Rmult_1_l (B * B')). apply Rmult_le_compat; [apply Rabs_pos|apply Rmult_le_pos; apply Rabs_pos|apply normals_bound|].
    apply Rmult_le_compat; try apply Rabs_pos; [now apply Bf|now apply Bf'].
Qed.
End Entries.

(** ** The matrix of a real kernel *)
Theorem surge_entries : forall (X : externals R) wmod (G : @green R R) kappa o deg pts ct (test trial : fspace R R) P P' F F1 F2 F' F1' F2' k d,
  dense_setting X wmod (helmholtz_hypersingular reals (fun _ => G) kappa) o deg pts ct test trial -> ct = Triangle \/ ct = Quadrilateral ->
  positive_externals (Rle 0) X -> inside_rules X ct -> exact_to X ct (pts ct) (k + d) ->
  element_slopes test ct d F F1 F2 -> element_slopes trial ct d F' F1' F2' -> element_functions test ct d F -> element_functions trial ct d F' -> flat_grid X (fs_grid test) ct P -> flat_grid X (fs_grid trial) ct P' ->
  forall rt, legal_runtime Rplus rt ->
  exists m, assemble reals X rt wmod (helmholtz_hypersingular reals (fun _ => G) kappa) o trial test = Ok m /\
  forall i j M M' B B' bound, (i < global_size (fs_space test))%nat -> (j < global_size (fs_space trial))%nat ->
    (forall t s, In t (support test i) -> In s (support trial j) -> ~ touching test trial t s) ->
    (forall c eps, 0 <= c -> 0 < eps -> exists l, c * bound l <= eps) -> 0 <= M -> 0 <= M' ->
    (forall t s, In t (support test i) -> In s (support trial j) -> exists near, (forall n, joint n (near n)) /\
      forall n x y x' y', inside ct x y -> inside ct x' y' -> Rabs (G 0%nat (point_in (P t) x y) (point_in (P' s) x' y') - near n x y x' y') <= bound n) ->
    (forall t x y, In t (support test i) -> inside ct x y -> inner (piece_swirl test F1 F2 P i t x y) (piece_swirl test F1 F2 P i t x y) <= M * M) ->
    (forall s x y, In s (support trial j) -> inside ct x y -> inner (piece_swirl trial F1' F2' P' j s x y) (piece_swirl trial F1' F2' P' j s x y) <= M' * M') ->
    (forall t x y, In t (support test i) -> inside ct x y -> Rabs (piece test F i t x y) <= B) -> (forall s x y, In s (support trial j) -> inside ct x y -> Rabs (piece trial F' j s x y) <= B') ->
    exists v w, nth_error m (i + global_size (fs_space test) * j) = Some v /\ surges_integral ct test trial F F1 F2 F' F1' F2' P P' kappa (G 0%nat) i j w /\
      Rabs (v - w) <= 2 * bound k * ((M * M' + kappa * kappa * (B * B')) * (support_area test ct P i * support_area trial ct P' j)).
Proof.
  intros X wmod G kappa o deg pts ct test trial P P' F F1 F2 F' F1' F2' k d D Kind HX Ins Ex Ef Ef' Ev Ev' Fl Fl' rt L.
  destruct (assembled reals 1 RR X rt wmod (helmholtz_hypersingular reals (fun _ => G) kappa) o deg pts ct test trial L D) as (m & val & Em & _ & Vm & H).
  exists m. split; [exact Em|]. intros i j M M' B B' bound Li Lj Ap Small PM PM' App Bd Bd' Bf Bf'.
  destruct (dn_simplex _ _ _ _ _ _ _ _ _ D ct (or_introl eq_refl)) as (_ & qd & Q).
  pose proof (surge_cells X wmod G kappa o deg pts ct test trial P P' F F1 F2 F' F1' F2' d D Kind Ef Ef' Ev Ev' i j M M' B B' bound Small PM PM' App Bd Bd' Bf Bf') as Fc.
  destruct (pair_choice Nat.eq_dec (support test i) (support trial j) _ Fc) as (f & Hf).
  eexists. eexists. split; [apply H; assumption|]. split; [exists f; split; [intros t s It Is; now apply (Hf t s It Is)|reflexivity]|].
  rewrite (surge_entry X wmod G kappa o deg pts ct test trial P P' F F1 F2 F' F1' F2' d D Ef Ef' Fl Fl' i j Ap val qd Q Vm).
  eapply Rle_trans; [apply (area_bound ct test trial P P' i j _ f (2 * (bound k * (M * M' + kappa * kappa * (B * B')))))|].
  - intros t s It Is. destruct (Hf t s It Is) as (_ & Bv). eapply Rle_trans; [exact (Bv k qd (Ex _ Q) (fun pw => positive_weight X ct HX Ins _ _ pw Q))|]. right. ring.
  - right. ring.
Qed.

(** ** The real and the imaginary part *)
Lemma surge_parts : forall (X : externals R) wmod (G0 : @green R R) kappa (G : @green (R * R) R) o deg pts ct (test trial : fspace R R) (test' trial' : fspace (R * R) R),
  dense_setting X wmod (laplace_hypersingular G0) o deg pts ct test trial -> mapped_space embed_real test test' -> mapped_space embed_real trial trial' ->
  forall rt, legal_runtime (s_add complexes) rt -> exists m m1 m2, assemble complexes X rt wmod (helmholtz_hypersingular complexes (fun _ => G) kappa) o trial' test' = Ok m /\
    assemble reals X (sequential Rplus) wmod (helmholtz_hypersingular reals (fun _ => (fun n x y => fst (G n x y))) kappa) o trial test = Ok m1 /\
    assemble reals X (sequential Rplus) wmod (helmholtz_hypersingular reals (fun _ => (fun n x y => snd (G n x y))) kappa) o trial test = Ok m2 /\
    forall n v1 v2, nth_error m1 n = Some v1 -> nth_error m2 n = Some v2 -> nth_error m n = Some (v1, v2).
Proof.
  intros X wmod G0 kappa G o deg pts ct test trial test' trial' D Mt Ms rt L.
  assert (Dr : forall H : @green R R, dense_setting X wmod (helmholtz_hypersingular reals (fun _ => H) kappa) o deg pts ct test trial) by (intros H; eapply dense_operator; [|exact D]; apply (shipped_fitting reals), sh_helmholtz_hyper).
  assert (Fc : forall H : @green (R * R) R, fitting (helmholtz_hypersingular complexes (fun _ => H) kappa)) by (intros H; apply (shipped_fitting complexes), sh_helmholtz_hyper).
  assert (Dc : dense_setting X wmod (helmholtz_hypersingular complexes (fun _ => G) kappa) o deg pts ct test' trial') by exact (mapped_setting embed_real X wmod (laplace_hypersingular G0) (helmholtz_hypersingular complexes (fun _ => G) kappa) o deg pts ct test trial test' trial' Mt Ms (Fc G) D).
  set (G1 := fun n x y => embed_real (fst (G n x y))). set (G2 := fun n x y => embed_real (snd (G n x y))).
  destruct (exact_linear_in_kernel complexes X rt wmod (helmholtz_hypersingular complexes (fun _ => G) kappa) G1 G2 (1, 0) (0, 1) o deg pts ct test' trial' WaveResults.complexes_exact L Dc) as (c1 & c2 & m & E1 & E2 & E & Hm).
  { intros n x y _. unfold G1, G2, embed_real. cbn. destruct (G n x y) as [g1 g2]. cbn. f_equal; ring. }
  destruct (change_of_scalars reals complexes embed_real X wmod (helmholtz_hypersingular reals (fun _ => (fun n x y => fst (G n x y))) kappa) (helmholtz_hypersingular complexes (fun _ => G1) kappa) o deg pts ct test trial test' trial' (sequential Rplus) rt embed_real_map (sequential_legal Rplus) L eq_refl) as (m1 & F1 & H1); auto.
  { intros n x y. reflexivity. }
  destruct (change_of_scalars reals complexes embed_real X wmod (helmholtz_hypersingular reals (fun _ => (fun n x y => snd (G n x y))) kappa) (helmholtz_hypersingular complexes (fun _ => G2) kappa) o deg pts ct test trial test' trial' (sequential Rplus) rt embed_real_map (sequential_legal Rplus) L eq_refl) as (m2 & F2 & H2); auto.
  { intros n x y. reflexivity. }
  change (with_kernel (helmholtz_hypersingular complexes (fun _ => G) kappa) G1) with (helmholtz_hypersingular complexes (fun _ => G1) kappa) in E1. change (with_kernel (helmholtz_hypersingular complexes (fun _ => G) kappa) G2) with (helmholtz_hypersingular complexes (fun _ => G2) kappa) in E2.
  assert (c1 = map embed_real m1) by congruence. assert (c2 = map embed_real m2) by congruence. subst c1 c2.
  exists m, m1, m2. split; [exact E|]. split; [exact F1|]. split; [exact F2|]. intros n v1 v2 N1 N2. destruct Hm as (_ & _ & Hm). rewrite (Hm n _ _ (map_nth_error embed_real _ _ N1) (map_nth_error embed_real _ _ N2)).
  unfold embed_real. cbn. do 2 f_equal; ring.
Qed.

(** ** The Helmholtz operator *)
Theorem surges_entries : forall (X : externals R) wmod e kappa o deg pts ct (test trial : fspace R R) (test' trial' : fspace (R * R) R) P P' F F1 F2 F' F1' F2' k d,
  dense_setting X wmod (laplace_hypersingular (newton e)) o deg pts ct test trial -> ct = Triangle \/ ct = Quadrilateral ->
  mapped_space embed_real test test' -> mapped_space embed_real trial trial' ->
  positive_externals (Rle 0) X -> inside_rules X ct -> exact_to X ct (pts ct) (k + d) ->
  element_slopes test ct d F F1 F2 -> element_slopes trial ct d F' F1' F2' -> element_functions test ct d F -> element_functions trial ct d F' -> flat_grid X (fs_grid test) ct P -> flat_grid X (fs_grid trial) ct P' ->
  forall rt, legal_runtime (s_add complexes) rt ->
  exists m, assemble complexes X rt wmod (helmholtz_hypersingular complexes (waves e) kappa) o trial' test' = Ok m /\
  forall i j c c' h h' M M' B B' sigma, (i < global_size (fs_space test))%nat -> (j < global_size (fs_space trial))%nat ->
    supported_in test ct P i c h -> supported_in trial ct P' j c' h' -> (forall t s, In t (support test i) -> In s (support trial j) -> ~ touching test trial t s) ->
    0 <= M -> (forall t x y, In t (support test i) -> inside ct x y -> inner (piece_swirl test F1 F2 P i t x y) (piece_swirl test F1 F2 P i t x y) <= M * M) ->
    0 <= M' -> (forall s x y, In s (support trial j) -> inside ct x y -> inner (piece_swirl trial F1' F2' P' j s x y) (piece_swirl trial F1' F2' P' j s x y) <= M' * M') ->
    (forall t x y, In t (support test i) -> inside ct x y -> Rabs (piece test F i t x y) <= B) -> (forall s x y, In s (support trial j) -> inside ct x y -> Rabs (piece trial F' j s x y) <= B') ->
    let a := dist c c' in let ratio := (h + h') / a in h + h' < a -> 0 < sigma < 1 -> ratio <= sigma ->
    exists v w w', nth_error m (i + global_size (fs_space test) * j) = Some v /\
      surges_integral ct test trial F F1 F2 F' F1' F2' P P' kappa (fun x y => fst (waves e kappa 0 x y)) i j w /\ surges_integral ct test trial F F1 F2 F' F1' F2' P P' kappa (fun x y => snd (waves e kappa 0 x y)) i j w' /\
      let bound := 2 * (sigma ^ (k + 1) / (1 - ratio)) * exp (Rabs kappa * (a + (h + h')) / sigma) * ((M * M' + kappa * kappa * (B * B')) * (support_area test ct P i * support_area trial ct P' j) / (4 * PI * a)) in
      Rabs (fst v - w) <= bound /\ Rabs (snd v - w') <= bound.
Proof.
  intros X wmod e kappa o deg pts ct test trial test' trial' P P' F F1 F2 F' F1' F2' k d D Kind Mt Ms HX Ins Ex Ef Ef' Ev Ev' Fl Fl' rt L.
  assert (Dr : forall H : @green R R, dense_setting X wmod (helmholtz_hypersingular reals (fun _ => H) kappa) o deg pts ct test trial) by (intros H; eapply dense_operator; [|exact D]; apply (shipped_fitting reals), sh_helmholtz_hyper).
  destruct (surge_parts X wmod (newton e) kappa (waves e kappa) o deg pts ct test trial test' trial' D Mt Ms rt L) as (m & m1 & m2 & E & E1 & E2 & Hm).
  destruct (surge_entries X wmod _ kappa o deg pts ct test trial P P' F F1 F2 F' F1' F2' k d (Dr (fun n x y => fst (waves e kappa n x y))) Kind HX Ins Ex Ef Ef' Ev Ev' Fl Fl' (sequential Rplus) (sequential_legal Rplus)) as (n1 & N1 & H1).
  destruct (surge_entries X wmod _ kappa o deg pts ct test trial P P' F F1 F2 F' F1' F2' k d (Dr (fun n x y => snd (waves e kappa n x y))) Kind HX Ins Ex Ef Ef' Ev Ev' Fl Fl' (sequential Rplus) (sequential_legal Rplus)) as (n2 & N2 & H2).
  assert (n1 = m1) by congruence. assert (n2 = m2) by congruence. subst n1 n2.
  exists m. split; [exact E|]. intros i j c c' h h' M M' B B' sigma Li Lj Sc Sc' Ap PM Bd PM' Bd' Bf Bf' a ratio Far Hs Rs.
  set (far := a * (1 + ratio)). set (beta := 1 / (4 * PI * (a * (1 - ratio)))). set (top := exp (Rabs kappa * far / sigma)).
  assert (Cases : support test i = [] \/ support trial j = [] \/ (0 < a /\ 0 <= ratio < 1)).
  { destruct (support test i) as [|t l] eqn:St; [now left|]. destruct (support trial j) as [|s l'] eqn:Ss; [right; now left|]. right. right. assert (It : In t (support test i)) by (rewrite St; now left). assert (Is : In s (support trial j)) by (rewrite Ss; now left).
    destruct (Sc t It) as (S1 & S2 & S3 & S4), (Sc' s Is) as (S1' & S2' & S3' & S4').
    destruct (positive_distance ct Kind _ _ _ _ _ _ c c' h h' (inside_ball ct (P t) c h Kind S1 S2 S3 S4) (inside_ball ct (P' s) c' h' Kind S1' S2' S3' S4') Far) as (Pa & Hr & _). auto. }
  assert (Ne : forall t s, In t (support test i) -> In s (support trial j) -> 0 < a /\ 0 <= ratio < 1).
  { intros t s It Is. destruct Cases as [Z|[Z|Pa]]; [rewrite Z in It; destruct It|rewrite Z in Is; destruct Is|exact Pa]. }
  set (bd := fun l => Rabs beta * top * sigma ^ S l).
  assert (Small : forall c eps, 0 <= c -> 0 < eps -> exists l, c * bd l <= eps).
  { apply small_powers; [exact Hs|]. apply Rmult_le_pos; [apply Rabs_pos|left; apply exp_pos]. }
  assert (Up : forall l, beta * sigma ^ S l * top <= bd l).
  { intros l. unfold bd. replace (beta * sigma ^ S l * top) with (beta * top * sigma ^ S l) by ring. apply Rmult_le_compat_r; [apply pow_le; lra|]. apply Rmult_le_compat_r; [left; apply exp_pos|apply Rle_abs]. }
  destruct (H1 i j M M' B B' bd Li Lj Ap Small PM PM') as (v1 & w1 & V1 & I1 & Bv1); auto.
  { intros t s It Is. destruct (Sc t It) as (S1 & S2 & S3 & S4), (Sc' s Is) as (S1' & S2' & S3' & S4').
    pose proof (inside_ball ct (P t) c h Kind S1 S2 S3 S4) as In1. pose proof (inside_ball ct (P' s) c' h' Kind S1' S2' S3' S4') as In2.
    eexists. split; [intros n; exact (cosine_joint ct Kind _ _ _ _ _ _ c c' h h' kappa In1 In2 n)|]. intros n x y x' y' I I'. eapply Rle_trans; [exact (cosine_near ct Kind _ _ _ _ _ _ c c' h h' e kappa sigma In1 In2 Far Hs Rs x y x' y' I I' n)|]. apply Up. }
  destruct (H2 i j M M' B B' bd Li Lj Ap Small PM PM') as (v2 & w2 & V2 & I2 & Bv2); auto.
  { intros t s It Is. destruct (Sc t It) as (S1 & S2 & S3 & S4), (Sc' s Is) as (S1' & S2' & S3' & S4').
    pose proof (inside_ball ct (P t) c h Kind S1 S2 S3 S4) as In1. pose proof (inside_ball ct (P' s) c' h' Kind S1' S2' S3' S4') as In2.
    eexists. split; [intros n; exact (sine_joint ct Kind _ _ _ _ _ _ c c' h h' kappa In1 In2 n)|]. intros n x y x' y' I I'. eapply Rle_trans; [exact (sine_near ct Kind _ _ _ _ _ _ c c' h h' e kappa sigma In1 In2 Far Hs Rs x y x' y' I I' n)|]. apply Up. }
  exists (v1, v2), w1, w2. split; [now apply Hm|]. split; [exact I1|]. split; [exact I2|]. cbn [fst snd].
  assert (Eb : 2 * bd k * ((M * M' + kappa * kappa * (B * B')) * (support_area test ct P i * support_area trial ct P' j)) =
    2 * (sigma ^ (k + 1) / (1 - ratio)) * exp (Rabs kappa * (a + (h + h')) / sigma) * ((M * M' + kappa * kappa * (B * B')) * (support_area test ct P i * support_area trial ct P' j) / (4 * PI * a))).
  { destruct Cases as [Z|[Z|(Pa & Hr)]].
    - unfold support_area at 1 3. rewrite Z. cbn [map fold_right]. unfold Rdiv. ring.
    - unfold support_area at 2 4. rewrite Z. cbn [map fold_right]. unfold Rdiv. ring.
    - replace (a + (h + h')) with far by (unfold far, ratio; fold a; field; lra). fold top. pose proof PI_RGT_0 as Pi. unfold bd. rewrite Rabs_pos_eq by (unfold beta; left; apply Rdiv_lt_0_compat; [lra|]; apply sphere_positive, Rmult_lt_0_compat; lra).
      replace (k + 1)%nat with (S k) by lia. unfold beta. set (A1 := support_area test ct P i). set (A2 := support_area trial ct P' j). set (N := M * M' + _). clearbody A1 A2 N top ratio. field. lra. }
  cbv zeta. rewrite <- Eb. split; [exact Bv1|exact Bv2].
Qed.
