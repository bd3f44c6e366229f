(** * Entries of Helmholtz double layer matrices of functions with distant supports and the integrals *)
From Coq Require Import Ring_theory Reals Lra Psatz.
From Verif Require Import Base BaseFacts Topology TopologyFacts DofMap DofMapFacts SpecDof DofMapResults DofExamples Process Space SpecSpace Options
  Adjacency SpecAdjacency Scalar Integrand CellPair Operators SpecLocal LocalFacts LocalResults Interleave Assembly SpecAssembly
  AssemblyFacts AssemblySingular AssemblyDense AssemblyExact AssemblyResults SpecAlgebra AlgebraFacts AlgebraResults
  SpecBroken BrokenResults SpecTransfer SpecScalars ScalarsResults SpecRounding RoundingModels SpecGalerkin GalerkinResults DistributedResults SpecMeasure MeasureResults Shapes SpecShapes SpecSphere SpecWidth SpecTurns TurnExamples SpecShare
  SphereGeometry SpecFloatSphere FloatSphere FloatSphereNear FloatSphereError SpecWaves KernelResults WaveResults WaveLimits SpecDecay DecayResults DecayPoints SpecDigits SpecMoments MomentResults MomentShapes SpecDefinite DefiniteResults
  SpecDegree LegendreSeries DegreeIntegrals DegreeResults DegreeExact SpecRims RimKernel RimResults SpecPatches PatchKernel PatchResults SpecPieces PieceKernel PieceResults FluxKernel SpecFluxes FluxResults EchoKernel EchoResults DriftKernel.

Local Open Scope R_scope.
Local Notation dist := SpecWaves.distance.
Local Notation RR := DecayResults.reals_ring.

(** ** Derivatives of the Helmholtz kernel in a direction *)
Section Kernel.
Context (t : cell_type) (Kind : t = Triangle \/ t = Quadrilateral) (T T' : vec * vec * vec) (c c' : vec) (h h' sigma e kappa : R) (n : vec).
Context (Nc : forall x y, inside t x y -> vlen (vsub (point_in T x y) c) <= h) (Nc' : forall x y, inside t x y -> vlen (vsub (point_in T' x y) c') <= h').
Notation a := (dist c c').
Context (Far : h + h' < a).
Notation rho := ((h + h') / a).
Context (Hs : 0 < sigma < 1) (Rs : rho <= sigma * sigma) (Hn : inner n n <= 1).
Notation p := (first_corner T). Notation q := (second_corner T). Notation r := (third_corner T).
Notation p' := (first_corner T'). Notation q' := (second_corner T'). Notation r' := (third_corner T').
Notation lin := (fun x y x' y' => - (e / (4 * PI)) * inner n (vsub (point_in T x y) (point_in T' x' y'))).
Notation top := (exp (2 * (Rabs kappa * (a + (h + h')) / sigma))).

Lemma directional_outer x y x' y' : directional (fun n x y => fst (waves e kappa n x y)) n (point_in T x y) (point_in T' x' y') = outer_kernel p q r p' q' r' kappa x y x' y' * lin x y x' y'.
Proof.
  unfold outer_kernel, cubed, directional. change (mapped p q r x y) with (point_in T x y). change (mapped p' q' r' x' y') with (point_in T' x' y'). cbv zeta.
  destruct (point_in T x y) as [[x1 x2] x3] eqn:E1, (point_in T' x' y') as [[y1 y2] y3] eqn:E2. destruct n as [[n1 n2] n3]. unfold waves. cbv zeta.
  cbv beta. destruct (Req_EM_T _ 0) as [Z|Z]; [cbn; ring|]. cbn [SpecWaves.offset vsub inner fst snd]. pose proof PI_neq0. set (z := kappa * _). generalize (cos z), (sin z). intros C S. clearbody z. field. auto.
Qed.

Lemma directional_inner x y x' y' : directional (fun n x y => snd (waves e kappa n x y)) n (point_in T x y) (point_in T' x' y') = inner_kernel p q r p' q' r' kappa x y x' y' * lin x y x' y'.
Proof.
  unfold inner_kernel, cubed, directional. change (mapped p q r x y) with (point_in T x y). change (mapped p' q' r' x' y') with (point_in T' x' y'). cbv zeta.
  destruct (point_in T x y) as [[x1 x2] x3] eqn:E1, (point_in T' x' y') as [[y1 y2] y3] eqn:E2. destruct n as [[n1 n2] n3]. unfold waves. cbv zeta.
  cbv beta. destruct (Req_EM_T _ 0) as [Z|Z]; [cbn; ring|]. cbn [SpecWaves.offset vsub inner fst snd]. pose proof PI_neq0. set (z := kappa * _). generalize (cos z), (sin z). intros C S. clearbody z. field. auto.
Qed.

Lemma drift_integral (G : nat -> vec -> vec -> R) f d N : G = (fun n x y => fst (waves e kappa n x y)) \/ G = (fun n x y => snd (waves e kappa n x y)) ->
  joint d f -> (forall x y x' y', inside t x y -> inside t x' y' -> Rabs (f x y x' y') <= N) ->
  exists v, pair_integral t (fun x y x' y' => directional G n (point_in T x y) (point_in T' x' y') * f x y x' y') v /\
  forall k qd, (forall i j, (i + j <= k + d + 1)%nat -> monomial_sum qd i j = monomial_integral t i j) ->
    (forall pw, List.In pw (enumerate (qd_weights qd)) -> 0 <= snd pw /\ inside t (nth (2 * fst pw) (qd_points qd) 0) (nth (2 * fst pw + 1) (qd_points qd) 0)) ->
    Rabs (rule_sum qd (fun x y x' y' => directional G n (point_in T x y) (point_in T' x' y') * f x y x' y') - v) <=
      6 * (1 + rho) * sigma ^ (k + 1) / ((1 - sigma) ^ 3) * top * (Rabs e / (4 * PI * (a * a)) * N) * (reference_area t * reference_area t).
Proof.
  intros HG J B. destruct (positive_distance t Kind p q r p' q' r' c c' h h' Nc Nc' Far) as (Pa & Hr & _ & Ef).
  assert (Hs' : rho < sigma < 1) by nra. set (beta := 1 / (a * a * a) * (3 / ((1 - sigma) * (1 - sigma) * (1 - sigma)))).
  assert (Pb : 0 < beta) by (apply Rmult_lt_0_compat; apply Rdiv_lt_0_compat; try lra; repeat apply Rmult_lt_0_compat; lra).
  assert (Pt : 0 < top) by apply exp_pos. pose proof PI_RGT_0 as Pi.
  assert (K : exists K near, (forall x y x' y', directional G n (point_in T x y) (point_in T' x' y') = K x y x' y' * lin x y x' y') /\ (forall k, joint k (near k)) /\
    forall k x y x' y', inside t x y -> inside t x' y' -> Rabs (K x y x' y' - near k x y x' y') <= beta * top * sigma ^ S k).
  { destruct HG as [-> | ->].
    - exists (outer_kernel p q r p' q' r' kappa), (outer_cut p q r p' q' r' c c' kappa). split; [exact directional_outer|]. split; [exact (outer_joint t Kind p q r p' q' r' c c' h h' kappa Nc Nc')|].
      intros k x y x' y' I I'. pose proof (outer_near t Kind p q r p' q' r' c c' h h' kappa sigma Nc Nc' Far Hs Rs x y x' y' I I' k) as H. rewrite Ef in H. eapply Rle_trans; [exact H|]. right. fold beta. ring.
    - exists (inner_kernel p q r p' q' r' kappa), (inner_cut p q r p' q' r' c c' h h' kappa). split; [exact directional_inner|]. split; [exact (inner_joint t Kind p q r p' q' r' c c' h h' kappa Nc Nc')|].
      intros k x y x' y' I I'. pose proof (inner_near t Kind p q r p' q' r' c c' h h' kappa sigma Nc Nc' Far Hs Rs x y x' y' I I' k) as H. rewrite Ef in H. eapply Rle_trans; [exact H|]. right. fold beta. ring. }
  destruct K as (K & near & E & Jn & Hk).
  destruct (approximated_integral t Kind K (fun x y x' y' => lin x y x' y' * f x y x' y') near (fun k => beta * top * sigma ^ S k) (1 + d) (Rabs e / (4 * PI) * (a + (h + h')) * N)) as (v & Iv & Bv).
  - exact Jn.
  - apply joint_product; [exact (joint_lin t Kind T T' c c' h h' sigma e n Nc Nc' Far Hs' Hn)|exact J].
  - intros x y x' y' I I'. rewrite Rabs_mult. apply Rmult_le_compat; try apply Rabs_pos; [exact (lin_bound t T T' c c' h h' sigma e n Nc Nc' Far Hs' Hn x y x' y' I I')|now apply B].
  - exact Hk.
  - apply small_powers; [exact Hs|]. apply Rmult_le_pos; lra.
  - assert (E' : forall x y x' y', directional G n (point_in T x y) (point_in T' x' y') * f x y x' y' = K x y x' y' * (lin x y x' y' * f x y x' y')) by (intros; rewrite E; ring).
    exists v. split.
    + intros eps He. destruct (Iv eps He) as (g & w & H1 & H2 & H3). exists g, w. split; [exact H1|]. split; [exact H2|]. intros x y x' y' I I'. rewrite E'. now apply H3.
    + intros k qd Ex Ps. rewrite (rule_same qd _ _ E'). eapply Rle_trans; [apply (Bv k qd)|].
      * intros i j L. apply Ex. lia.
      * exact Ps.
      * right. replace (k + 1)%nat with (S k) by lia. unfold beta. set (tau := sigma ^ S k). set (E0 := top). clearbody tau E0. field. repeat split; lra.
Qed.
End Kernel.

(** ** The matrices *)
Section Layers.
Context (X : externals R) (wmod : nat) (G : @green R R) (e kappa : R) (o : options) (deg : cell_type -> cell_type -> nat) (pts : cell_type -> nat) (ct : cell_type) (test trial : fspace R R)
  (P P' : nat -> vec * vec * vec) (F F' : nat -> R -> R -> R) (d : nat) (O : operator R R).
Context (D : dense_setting X wmod O o deg pts ct test trial) (Kind : ct = Triangle \/ ct = Quadrilateral)
  (Ef : element_functions test ct d F) (Ef' : element_functions trial ct d F') (Fl : flat_grid X (fs_grid test) ct P) (Fl' : flat_grid X (fs_grid trial) ct P').

Lemma drift_double_value : O = laplace_double_layer G -> forall t s a b v, (t < ent_count (fs_grid test) 2)%nat -> (s < ent_count (fs_grid trial) 2)%nat -> (a < el_dim (fs_family test ct))%nat -> (b < el_dim (fs_family trial ct))%nat -> ~ touching test trial t s ->
  pair_value reals X O deg pts test trial t s a b v -> exists qd, x_simplex X ct (pts ct) = Some qd /\
  v = scaling (P t) * scaling (P' s) * rule_sum qd (fun x y x' y' => directional G (cell_direction (P' s)) (point_in (P t) x y) (point_in (P' s) x' y') * (F a x y * F' b x' y')).
Proof.
  intros EO t s a b v Ht Hs La Lb Nt [(C & _)|(_ & qt & qs & A1 & A2 & ->)]; [contradiction|]. 
  rewrite (flux_test_type X wmod O o deg pts ct test trial D t Ht) in A1. rewrite (flux_trial_type X wmod O o deg pts ct test trial D s Hs) in A2.
  assert (qs = qt) by congruence. subst qs. exists qt. split; [exact A1|].
  rewrite (tensor_total reals 1 RR). unfold rule_sum. rewrite <- real_total_mul. apply total_ext. intros pw _. rewrite <- real_total_mul. apply total_ext. intros qw _.
  unfold tensor_term. rewrite (flux_test_type X wmod O o deg pts ct test trial D t Ht), (flux_trial_type X wmod O o deg pts ct test trial D s Hs), EO.
  cbn [laplace_double_layer op_integrand op_kernel kn_value integrand_value s_mul s_div s_cast r_mul reals].
  rewrite (flat_directional _ (P' s) _ (fst qw) G _ _ (Fl' s Hs _)).
  rewrite (flat_position _ _ _ _ _ (fst pw) (Fl t Ht _)), (flat_position _ _ _ _ _ (fst qw) (Fl' s Hs _)).
  rewrite (fc_area _ _ _ _ _ (Fl t Ht _)), (fc_area _ _ _ _ _ (Fl' s Hs _)).
  rewrite (proj2 (Ef a La)), (proj2 (Ef' b Lb)). unfold scaling, point_in.
  match goal with |- context [directional G ?n ?x ?y] => generalize (directional G n x y) end. intros k. ring.
Qed.

Lemma drift_adjoint_value : O = laplace_adjoint_double_layer G -> forall t s a b v, (t < ent_count (fs_grid test) 2)%nat -> (s < ent_count (fs_grid trial) 2)%nat -> (a < el_dim (fs_family test ct))%nat -> (b < el_dim (fs_family trial ct))%nat -> ~ touching test trial t s ->
  pair_value reals X O deg pts test trial t s a b v -> exists qd, x_simplex X ct (pts ct) = Some qd /\
  v = scaling (P t) * scaling (P' s) * rule_sum qd (fun x y x' y' => - directional G (cell_direction (P t)) (point_in (P t) x y) (point_in (P' s) x' y') * (F a x y * F' b x' y')).
Proof.
  intros EO t s a b v Ht Hs La Lb Nt [(C & _)|(_ & qt & qs & A1 & A2 & ->)]; [contradiction|]. 
  rewrite (flux_test_type X wmod O o deg pts ct test trial D t Ht) in A1. rewrite (flux_trial_type X wmod O o deg pts ct test trial D s Hs) in A2.
  assert (qs = qt) by congruence. subst qs. exists qt. split; [exact A1|].
  rewrite (tensor_total reals 1 RR). unfold rule_sum. rewrite <- real_total_mul. apply total_ext. intros pw _. rewrite <- real_total_mul. apply total_ext. intros qw _.
  unfold tensor_term. rewrite (flux_test_type X wmod O o deg pts ct test trial D t Ht), (flux_trial_type X wmod O o deg pts ct test trial D s Hs), EO.
  cbn [laplace_adjoint_double_layer op_integrand op_kernel kn_value integrand_value s_mul s_neg s_div s_cast r_mul reals].
  rewrite (flat_directional _ (P t) _ (fst pw) G _ _ (Fl t Ht _)).
  rewrite (flat_position _ _ _ _ _ (fst pw) (Fl t Ht _)), (flat_position _ _ _ _ _ (fst qw) (Fl' s Hs _)).
  rewrite (fc_area _ _ _ _ _ (Fl t Ht _)), (fc_area _ _ _ _ _ (Fl' s Hs _)).
  rewrite (proj2 (Ef a La)), (proj2 (Ef' b Lb)). unfold scaling, point_in.
  match goal with |- context [directional G ?n ?x ?y] => generalize (directional G n x y) end. intros k. ring.
Qed.

Context (i j : nat) (c c' : vec) (h h' M M' sigma : R) (Sc : supported_in test ct P i c h) (Sc' : supported_in trial ct P' j c' h') (Far : h + h' < dist c c')
  (Bd : forall t x y, List.In t (support test i) -> inside ct x y -> Rabs (piece test F i t x y) <= M) (Bd' : forall s x y, List.In s (support trial j) -> inside ct x y -> Rabs (piece trial F' j s x y) <= M').
Notation a := (dist c c').
Notation ratio := ((h + h') / a).
Context (Hs : 0 < sigma < 1) (Rs : ratio <= sigma * sigma) (HG : G = (fun n x y => fst (waves e kappa n x y)) \/ G = (fun n x y => snd (waves e kappa n x y))).

Lemma drift_cells t s n z : z = 1 \/ z = -1 -> List.In t (support test i) -> List.In s (support trial j) -> inner n n <= 1 ->
  exists v, pair_integral ct (fun x y x' y' => z * directional G n (point_in (P t) x y) (point_in (P' s) x' y') * (piece test F i t x y * piece trial F' j s x' y')) v /\
  forall k qd, (forall i j, (i + j <= k + d + 1)%nat -> monomial_sum qd i j = monomial_integral ct i j) ->
    (forall pw, List.In pw (enumerate (qd_weights qd)) -> 0 <= snd pw /\ inside ct (nth (2 * fst pw) (qd_points qd) 0) (nth (2 * fst pw + 1) (qd_points qd) 0)) ->
    Rabs (rule_sum qd (fun x y x' y' => z * directional G n (point_in (P t) x y) (point_in (P' s) x' y') * (piece test F i t x y * piece trial F' j s x' y')) - v) <=
      6 * (1 + ratio) * sigma ^ (k + 1) / ((1 - sigma) ^ 3) * exp (2 * (Rabs kappa * (a + (h + h')) / sigma)) * (Rabs e / (4 * PI * (a * a)) * (M * M')) * (reference_area ct * reference_area ct).
Proof.
  intros Hz It Is Hn. pose proof (Sc t It) as (S1 & S2 & S3 & S4). pose proof (Sc' s Is) as (S1' & S2' & S3' & S4').
  destruct (drift_integral ct Kind (P t) (P' s) c c' h h' sigma e kappa n (inside_ball ct (P t) c h Kind S1 S2 S3 S4) (inside_ball ct (P' s) c' h' Kind S1' S2' S3' S4') Far Hs Rs Hn G
    (fun x y x' y' => z * (piece test F i t x y * piece trial F' j s x' y')) d (M * M') HG) as (v & Iv & Bv).
  - apply in_support in It, Is. destruct It as (Ht & _), Is as (Hs' & _). apply joint_scale, polynomial_joint.
    + exact (piece_polynomial ct d test F i t (flux_test_serial X wmod O o deg pts ct test trial D) Ht (flux_test_type X wmod O o deg pts ct test trial D t Ht) Ef).
    + exact (piece_polynomial ct d trial F' j s (flux_trial_serial X wmod O o deg pts ct test trial D) Hs' (flux_trial_type X wmod O o deg pts ct test trial D s Hs') Ef').
  - intros x y x' y' I I'. rewrite Rabs_mult. replace (Rabs z) with 1 by (destruct Hz as [-> | ->]; unfold Rabs; destruct (Rcase_abs _); lra).
    rewrite Rmult_1_l, Rabs_mult. apply Rmult_le_compat; try apply Rabs_pos; [now apply Bd|now apply Bd'].
  - exists v. split.
    + intros eps He. destruct (Iv eps He) as (g & w & H1 & H2 & H3). exists g, w. split; [exact H1|]. split; [exact H2|]. intros x y x' y' I I'. specialize (H3 x y x' y' I I').
      now replace (z * directional G n (point_in (P t) x y) (point_in (P' s) x' y') * (piece test F i t x y * piece trial F' j s x' y')) with
        (directional G n (point_in (P t) x y) (point_in (P' s) x' y') * (z * (piece test F i t x y * piece trial F' j s x' y'))) by ring.
    + intros k qd Ex Ps. rewrite (rule_same qd (fun x y x' y' => directional G n (point_in (P t) x y) (point_in (P' s) x' y') * (z * (piece test F i t x y * piece trial F' j s x' y')))) by (intros; ring).
      exact (Bv k qd Ex Ps).
Qed.
End Layers.

Lemma drift_double : forall (X : externals R) wmod (G : @green R R) e kappa o deg pts ct (test trial : fspace R R) P P' F F' k d,
  dense_setting X wmod (laplace_double_layer G) o deg pts ct test trial -> ct = Triangle \/ ct = Quadrilateral ->
  positive_externals (Rle 0) X -> inside_rules X ct -> exact_to X ct (pts ct) (k + d + 1) ->
  element_functions test ct d F -> element_functions trial ct d F' -> flat_grid X (fs_grid test) ct P -> flat_grid X (fs_grid trial) ct P' ->
  G = (fun n x y => fst (waves e kappa n x y)) \/ G = (fun n x y => snd (waves e kappa n x y)) ->
  forall rt, legal_runtime Rplus rt ->
  exists m, assemble reals X rt wmod (laplace_double_layer G) o trial test = Ok m /\
  forall i j c c' h h' M M' sigma, (i < global_size (fs_space test))%nat -> (j < global_size (fs_space trial))%nat ->
    supported_in test ct P i c h -> supported_in trial ct P' j c' h' -> (forall t s, In t (support test i) -> In s (support trial j) -> ~ touching test trial t s) ->
    (forall t x y, In t (support test i) -> inside ct x y -> Rabs (piece test F i t x y) <= M) -> (forall s x y, In s (support trial j) -> inside ct x y -> Rabs (piece trial F' j s x y) <= M') ->
    let a := dist c c' in let ratio := (h + h') / a in h + h' < a -> 0 < sigma < 1 -> ratio <= sigma * sigma ->
    exists v w, nth_error m (i + global_size (fs_space test) * j) = Some v /\ double_integral ct test trial F F' P P' G i j w /\
      Rabs (v - w) <= 6 * (1 + ratio) * sigma ^ (k + 1) / ((1 - sigma) ^ 3) * exp (2 * (Rabs kappa * (a + (h + h')) / sigma)) * (Rabs e * (M * support_area test ct P i * (M' * support_area trial ct P' j)) / (4 * PI * (a * a))).
Proof.
  intros X wmod G e kappa o deg pts ct test trial P P' F F' k d D Kind HX Ins Ex Ef Ef' Fl Fl' HG rt L.
  destruct (assembled reals 1 RR X rt wmod _ o deg pts ct test trial L D) as (m & val & Em & _ & Vm & H).
  exists m. split; [exact Em|]. intros i j c c' h h' M M' sigma Li Lj Sc Sc' Ap Bd Bd' a ratio Far Hs Rs.
  pose proof (proj2 (dn_simplex _ _ _ _ _ _ _ _ _ D ct (or_introl eq_refl))) as Q.
  set (B := 6 * (1 + ratio) * sigma ^ (k + 1) / ((1 - sigma) ^ 3) * exp (2 * (Rabs kappa * (a + (h + h')) / sigma)) * (Rabs e / (4 * PI * (a * a)) * (M * M'))).
    destruct (flux_matrix X wmod _ o deg pts ct test trial P P' F F' (fun t s => directional G (cell_direction (P' s))) D
      (drift_double_value X wmod G o deg pts ct test trial P P' F F' d _ D Ef Ef' Fl Fl' eq_refl) i j Ap B m val Q Vm (H i j Li Lj)) as (v & w & Ev & Iw & Bv).
    - intros t s It Is. destruct (drift_cells X wmod G e kappa o deg pts ct test trial P P' F F' d _ D Kind Ef Ef' i j c c' h h' M M' sigma Sc Sc' Far Bd Bd' Hs Rs HG t s (cell_direction (P' s)) 1 (or_introl eq_refl) It Is (direction_length _)) as (v & Iv & Bv).
      exists v. split.
      + intros eps He. destruct (Iv eps He) as (g & w & H1 & H2 & H3). exists g, w. split; [exact H1|]. split; [exact H2|]. intros x y x' y' I I'. eapply Rle_trans; [|exact (H3 x y x' y' I I')]. right. f_equal. ring.
      + intros qd Eq. eapply Rle_trans; [|exact (Bv k qd (Ex _ Eq) (fun pw => positive_weight X ct HX Ins _ _ pw Eq))]. right. f_equal. f_equal. apply rule_same. intros. ring.
    - exists v, w. split; [exact Ev|]. split; [exact Iw|]. eapply Rle_trans; [exact Bv|]. right. unfold B. set (W := _ / ((1 - sigma) ^ 3)). set (E0 := exp _). unfold Rdiv. set (U := / (4 * PI * (a * a))). clearbody U W E0. ring.
Qed.

Lemma drift_adjoint : forall (X : externals R) wmod (G : @green R R) e kappa o deg pts ct (test trial : fspace R R) P P' F F' k d,
  dense_setting X wmod (laplace_adjoint_double_layer G) o deg pts ct test trial -> ct = Triangle \/ ct = Quadrilateral ->
  positive_externals (Rle 0) X -> inside_rules X ct -> exact_to X ct (pts ct) (k + d + 1) ->
  element_functions test ct d F -> element_functions trial ct d F' -> flat_grid X (fs_grid test) ct P -> flat_grid X (fs_grid trial) ct P' ->
  G = (fun n x y => fst (waves e kappa n x y)) \/ G = (fun n x y => snd (waves e kappa n x y)) ->
  forall rt, legal_runtime Rplus rt ->
  exists m, assemble reals X rt wmod (laplace_adjoint_double_layer G) o trial test = Ok m /\
  forall i j c c' h h' M M' sigma, (i < global_size (fs_space test))%nat -> (j < global_size (fs_space trial))%nat ->
    supported_in test ct P i c h -> supported_in trial ct P' j c' h' -> (forall t s, In t (support test i) -> In s (support trial j) -> ~ touching test trial t s) ->
    (forall t x y, In t (support test i) -> inside ct x y -> Rabs (piece test F i t x y) <= M) -> (forall s x y, In s (support trial j) -> inside ct x y -> Rabs (piece trial F' j s x y) <= M') ->
    let a := dist c c' in let ratio := (h + h') / a in h + h' < a -> 0 < sigma < 1 -> ratio <= sigma * sigma ->
    exists v w, nth_error m (i + global_size (fs_space test) * j) = Some v /\ adjoint_integral ct test trial F F' P P' G i j w /\
      Rabs (v - w) <= 6 * (1 + ratio) * sigma ^ (k + 1) / ((1 - sigma) ^ 3) * exp (2 * (Rabs kappa * (a + (h + h')) / sigma)) * (Rabs e * (M * support_area test ct P i * (M' * support_area trial ct P' j)) / (4 * PI * (a * a))).
Proof.
  intros X wmod G e kappa o deg pts ct test trial P P' F F' k d D Kind HX Ins Ex Ef Ef' Fl Fl' HG rt L.
  destruct (assembled reals 1 RR X rt wmod _ o deg pts ct test trial L D) as (m & val & Em & _ & Vm & H).
  exists m. split; [exact Em|]. intros i j c c' h h' M M' sigma Li Lj Sc Sc' Ap Bd Bd' a ratio Far Hs Rs.
  pose proof (proj2 (dn_simplex _ _ _ _ _ _ _ _ _ D ct (or_introl eq_refl))) as Q.
  set (B := 6 * (1 + ratio) * sigma ^ (k + 1) / ((1 - sigma) ^ 3) * exp (2 * (Rabs kappa * (a + (h + h')) / sigma)) * (Rabs e / (4 * PI * (a * a)) * (M * M'))).
    destruct (flux_matrix X wmod _ o deg pts ct test trial P P' F F' (fun t s x y => - directional G (cell_direction (P t)) x y) D
      (drift_adjoint_value X wmod G o deg pts ct test trial P P' F F' d _ D Ef Ef' Fl Fl' eq_refl) i j Ap B m val Q Vm (H i j Li Lj)) as (v & w & Ev & Iw & Bv).
    - intros t s It Is. destruct (drift_cells X wmod G e kappa o deg pts ct test trial P P' F F' d _ D Kind Ef Ef' i j c c' h h' M M' sigma Sc Sc' Far Bd Bd' Hs Rs HG t s (cell_direction (P t)) (-1) (or_intror eq_refl) It Is (direction_length _)) as (v & Iv & Bv).
      exists v. split.
      + intros eps He. destruct (Iv eps He) as (g & w & H1 & H2 & H3). exists g, w. split; [exact H1|]. split; [exact H2|]. intros x y x' y' I I'. eapply Rle_trans; [|exact (H3 x y x' y' I I')]. right. f_equal. ring.
      + intros qd Eq. eapply Rle_trans; [|exact (Bv k qd (Ex _ Eq) (fun pw => positive_weight X ct HX Ins _ _ pw Eq))]. right. f_equal. f_equal. apply rule_same. intros. ring.
    - exists v, w. split; [exact Ev|]. split; [exact Iw|]. eapply Rle_trans; [exact Bv|]. right. unfold B. set (W := _ / ((1 - sigma) ^ 3)). set (E0 := exp _). unfold Rdiv. set (U := / (4 * PI * (a * a))). clearbody U W E0. ring.
Qed.

(** ** The real and the imaginary part *)
Lemma double_parts : forall (X : externals R) wmod (G0 : @green R R) (G : @green (R * R) R) o deg pts ct (test trial : fspace R R) (test' trial' : fspace (R * R) R),
  dense_setting X wmod (laplace_double_layer G0) o deg pts ct test trial -> mapped_space embed_real test test' -> mapped_space embed_real trial trial' ->
  forall rt, legal_runtime (s_add complexes) rt -> exists m m1 m2, assemble complexes X rt wmod (laplace_double_layer G) o trial' test' = Ok m /\
    assemble reals X (sequential Rplus) wmod (laplace_double_layer (fun n x y => fst (G n x y))) o trial test = Ok m1 /\
    assemble reals X (sequential Rplus) wmod (laplace_double_layer (fun n x y => snd (G n x y))) o trial test = Ok m2 /\
    forall n v1 v2, nth_error m1 n = Some v1 -> nth_error m2 n = Some v2 -> nth_error m n = Some (v1, v2).
Proof.
  intros X wmod G0 G o deg pts ct test trial test' trial' D Mt Ms rt L.
  assert (Dr : forall H : @green R R, dense_setting X wmod (laplace_double_layer H) o deg pts ct test trial) by (intros H; eapply dense_operator; [|exact D]; apply (shipped_fitting reals), sh_laplace_double).
  assert (Fc : forall H : @green (R * R) R, fitting (laplace_double_layer H)) by (intros H; apply (shipped_fitting complexes), sh_laplace_double).
  assert (Dc : dense_setting X wmod (laplace_double_layer G) o deg pts ct test' trial') by exact (mapped_setting embed_real X wmod (laplace_double_layer G0) (laplace_double_layer G) o deg pts ct test trial test' trial' Mt Ms (Fc G) D).
  set (G1 := fun n x y => embed_real (fst (G n x y))). set (G2 := fun n x y => embed_real (snd (G n x y))).
  destruct (exact_linear_in_kernel complexes X rt wmod (laplace_double_layer G) G1 G2 (1, 0) (0, 1) o deg pts ct test' trial' WaveResults.complexes_exact L Dc) as (c1 & c2 & m & E1 & E2 & E & Hm).
  { intros n x y _. unfold G1, G2, embed_real. cbn. destruct (G n x y) as [g1 g2]. cbn. f_equal; ring. }
  destruct (change_of_scalars reals complexes embed_real X wmod (laplace_double_layer (fun n x y => fst (G n x y))) (laplace_double_layer G1) o deg pts ct test trial test' trial' (sequential Rplus) rt embed_real_map (sequential_legal Rplus) L eq_refl) as (m1 & F1 & H1); auto.
  { intros n x y. reflexivity. }
  destruct (change_of_scalars reals complexes embed_real X wmod (laplace_double_layer (fun n x y => snd (G n x y))) (laplace_double_layer G2) o deg pts ct test trial test' trial' (sequential Rplus) rt embed_real_map (sequential_legal Rplus) L eq_refl) as (m2 & F2 & H2); auto.
  { intros n x y. reflexivity. }
  change (with_kernel (laplace_double_layer G) G1) with (laplace_double_layer (T := R * R) (R := R) G1) in E1. change (with_kernel (laplace_double_layer G) G2) with (laplace_double_layer (T := R * R) (R := R) G2) in E2.
  assert (c1 = map embed_real m1) by congruence. assert (c2 = map embed_real m2) by congruence. subst c1 c2.
  exists m, m1, m2. split; [exact E|]. split; [exact F1|]. split; [exact F2|]. intros n v1 v2 N1 N2. destruct Hm as (_ & _ & Hm). rewrite (Hm n _ _ (map_nth_error embed_real _ _ N1) (map_nth_error embed_real _ _ N2)).
  unfold embed_real. cbn. do 2 f_equal; ring.
Qed.

Lemma adjoint_parts : forall (X : externals R) wmod (G0 : @green R R) (G : @green (R * R) R) o deg pts ct (test trial : fspace R R) (test' trial' : fspace (R * R) R),
  dense_setting X wmod (laplace_adjoint_double_layer G0) o deg pts ct test trial -> mapped_space embed_real test test' -> mapped_space embed_real trial trial' ->
  forall rt, legal_runtime (s_add complexes) rt -> exists m m1 m2, assemble complexes X rt wmod (laplace_adjoint_double_layer G) o trial' test' = Ok m /\
    assemble reals X (sequential Rplus) wmod (laplace_adjoint_double_layer (fun n x y => fst (G n x y))) o trial test = Ok m1 /\
    assemble reals X (sequential Rplus) wmod (laplace_adjoint_double_layer (fun n x y => snd (G n x y))) o trial test = Ok m2 /\
    forall n v1 v2, nth_error m1 n = Some v1 -> nth_error m2 n = Some v2 -> nth_error m n = Some (v1, v2).
Proof.
  intros X wmod G0 G o deg pts ct test trial test' trial' D Mt Ms rt L.
  assert (Dr : forall H : @green R R, dense_setting X wmod (laplace_adjoint_double_layer H) o deg pts ct test trial) by (intros H; eapply dense_operator; [|exact D]; apply (shipped_fitting reals), sh_laplace_adjoint).
  assert (Fc : forall H : @green (R * R) R, fitting (laplace_adjoint_double_layer H)) by (intros H; apply (shipped_fitting complexes), sh_laplace_adjoint).
  assert (Dc : dense_setting X wmod (laplace_adjoint_double_layer G) o deg pts ct test' trial') by exact (mapped_setting embed_real X wmod (laplace_adjoint_double_layer G0) (laplace_adjoint_double_layer G) o deg pts ct test trial test' trial' Mt Ms (Fc G) D).
  set (G1 := fun n x y => embed_real (fst (G n x y))). set (G2 := fun n x y => embed_real (snd (G n x y))).
  destruct (exact_linear_in_kernel complexes X rt wmod (laplace_adjoint_double_layer G) G1 G2 (1, 0) (0, 1) o deg pts ct test' trial' WaveResults.complexes_exact L Dc) as (c1 & c2 & m & E1 & E2 & E & Hm).
  { intros n x y _. unfold G1, G2, embed_real. cbn. destruct (G n x y) as [g1 g2]. cbn. f_equal; ring. }
  destruct (change_of_scalars reals complexes embed_real X wmod (laplace_adjoint_double_layer (fun n x y => fst (G n x y))) (laplace_adjoint_double_layer G1) o deg pts ct test trial test' trial' (sequential Rplus) rt embed_real_map (sequential_legal Rplus) L eq_refl) as (m1 & F1 & H1); auto.
  { intros n x y. reflexivity. }
  destruct (change_of_scalars reals complexes embed_real X wmod (laplace_adjoint_double_layer (fun n x y => snd (G n x y))) (laplace_adjoint_double_layer G2) o deg pts ct test trial test' trial' (sequential Rplus) rt embed_real_map (sequential_legal Rplus) L eq_refl) as (m2 & F2 & H2); auto.
  { intros n x y. reflexivity. }
  change (with_kernel (laplace_adjoint_double_layer G) G1) with (laplace_adjoint_double_layer (T := R * R) (R := R) G1) in E1. change (with_kernel (laplace_adjoint_double_layer G) G2) with (laplace_adjoint_double_layer (T := R * R) (R := R) G2) in E2.
  assert (c1 = map embed_real m1) by congruence. assert (c2 = map embed_real m2) by congruence. subst c1 c2.
  exists m, m1, m2. split; [exact E|]. split; [exact F1|]. split; [exact F2|]. intros n v1 v2 N1 N2. destruct Hm as (_ & _ & Hm). rewrite (Hm n _ _ (map_nth_error embed_real _ _ N1) (map_nth_error embed_real _ _ N2)).
  unfold embed_real. cbn. do 2 f_equal; ring.
Qed.

(** ** The Helmholtz operators *)
Theorem drifts_double : forall (X : externals R) wmod e kappa o deg pts ct (test trial : fspace R R) (test' trial' : fspace (R * R) R) P P' F F' k d,
  dense_setting X wmod (laplace_double_layer (newton e)) o deg pts ct test trial -> ct = Triangle \/ ct = Quadrilateral ->
  mapped_space embed_real test test' -> mapped_space embed_real trial trial' ->
  positive_externals (Rle 0) X -> inside_rules X ct -> exact_to X ct (pts ct) (k + d + 1) ->
  element_functions test ct d F -> element_functions trial ct d F' -> flat_grid X (fs_grid test) ct P -> flat_grid X (fs_grid trial) ct P' ->
  forall rt, legal_runtime (s_add complexes) rt ->
  exists m, assemble complexes X rt wmod (helmholtz_double_layer (waves e) kappa) o trial' test' = Ok m /\
  forall i j c c' h h' M M' sigma, (i < global_size (fs_space test))%nat -> (j < global_size (fs_space trial))%nat ->
    supported_in test ct P i c h -> supported_in trial ct P' j c' h' -> (forall t s, In t (support test i) -> In s (support trial j) -> ~ touching test trial t s) ->
    (forall t x y, In t (support test i) -> inside ct x y -> Rabs (piece test F i t x y) <= M) -> (forall s x y, In s (support trial j) -> inside ct x y -> Rabs (piece trial F' j s x y) <= M') ->
    let a := dist c c' in let ratio := (h + h') / a in h + h' < a -> 0 < sigma < 1 -> ratio <= sigma * sigma ->
    exists v w w', nth_error m (i + global_size (fs_space test) * j) = Some v /\
      double_integral ct test trial F F' P P' (fun n x y => fst (waves e kappa n x y)) i j w /\ double_integral ct test trial F F' P P' (fun n x y => snd (waves e kappa n x y)) i j w' /\
      let bound := 6 * (1 + ratio) * sigma ^ (k + 1) / ((1 - sigma) ^ 3) * exp (2 * (Rabs kappa * (a + (h + h')) / sigma)) * (Rabs e * (M * support_area test ct P i * (M' * support_area trial ct P' j)) / (4 * PI * (a * a))) in
      Rabs (fst v - w) <= bound /\ Rabs (snd v - w') <= bound.
Proof.
  intros X wmod e kappa o deg pts ct test trial test' trial' P P' F F' k d D Kind Mt Ms HX Ins Ex Ef Ef' Fl Fl' rt L.
  assert (Dr : forall H : @green R R, dense_setting X wmod (laplace_double_layer H) o deg pts ct test trial) by (intros H; eapply dense_operator; [|exact D]; apply (shipped_fitting reals), sh_laplace_double).
  destruct (double_parts X wmod (newton e) (waves e kappa) o deg pts ct test trial test' trial' D Mt Ms rt L) as (m & m1 & m2 & E & E1 & E2 & Hm).
  destruct (drift_double X wmod (fun n x y => fst (waves e kappa n x y)) e kappa o deg pts ct test trial P P' F F' k d (Dr _) Kind HX Ins Ex Ef Ef' Fl Fl' (or_introl eq_refl) (sequential Rplus) (sequential_legal Rplus)) as (n1 & N1 & H1).
  destruct (drift_double X wmod (fun n x y => snd (waves e kappa n x y)) e kappa o deg pts ct test trial P P' F F' k d (Dr _) Kind HX Ins Ex Ef Ef' Fl Fl' (or_intror eq_refl) (sequential Rplus) (sequential_legal Rplus)) as (n2 & N2 & H2).
  assert (n1 = m1) by congruence. assert (n2 = m2) by congruence. subst n1 n2.
  exists m. split; [exact E|]. intros i j c c' h h' M M' sigma Li Lj Sc Sc' Ap Bd Bd' a ratio Far Hs Rs.
  destruct (H1 i j c c' h h' M M' sigma Li Lj Sc Sc' Ap Bd Bd' Far Hs Rs) as (v1 & w1 & V1 & I1 & B1). destruct (H2 i j c c' h h' M M' sigma Li Lj Sc Sc' Ap Bd Bd' Far Hs Rs) as (v2 & w2 & V2 & I2 & B2).
  exists (v1, v2), w1, w2. split; [now apply Hm|]. split; [exact I1|]. split; [exact I2|]. split; [exact B1|exact B2].
Qed.

Theorem drifts_adjoint : forall (X : externals R) wmod e kappa o deg pts ct (test trial : fspace R R) (test' trial' : fspace (R * R) R) P P' F F' k d,
  dense_setting X wmod (laplace_adjoint_double_layer (newton e)) o deg pts ct test trial -> ct = Triangle \/ ct = Quadrilateral ->
  mapped_space embed_real test test' -> mapped_space embed_real trial trial' ->
  positive_externals (Rle 0) X -> inside_rules X ct -> exact_to X ct (pts ct) (k + d + 1) ->
  element_functions test ct d F -> element_functions trial ct d F' -> flat_grid X (fs_grid test) ct P -> flat_grid X (fs_grid trial) ct P' ->
  forall rt, legal_runtime (s_add complexes) rt ->
  exists m, assemble complexes X rt wmod (helmholtz_adjoint_double_layer (waves e) kappa) o trial' test' = Ok m /\
  forall i j c c' h h' M M' sigma, (i < global_size (fs_space test))%nat -> (j < global_size (fs_space trial))%nat ->
    supported_in test ct P i c h -> supported_in trial ct P' j c' h' -> (forall t s, In t (support test i) -> In s (support trial j) -> ~ touching test trial t s) ->
    (forall t x y, In t (support test i) -> inside ct x y -> Rabs (piece test F i t x y) <= M) -> (forall s x y, In s (support trial j) -> inside ct x y -> Rabs (piece trial F' j s x y) <= M') ->
    let a := dist c c' in let ratio := (h + h') / a in h + h' < a -> 0 < sigma < 1 -> ratio <= sigma * sigma ->
    exists v w w', nth_error m (i + global_size (fs_space test) * j) = Some v /\
      adjoint_integral ct test trial F F' P P' (fun n x y => fst (waves e kappa n x y)) i j w /\ adjoint_integral ct test trial F F' P P' (fun n x y => snd (waves e kappa n x y)) i j w' /\
      let bound := 6 * (1 + ratio) * sigma ^ (k + 1) / ((1 - sigma) ^ 3) * exp (2 * (Rabs kappa * (a + (h + h')) / sigma)) * (Rabs e * (M * support_area test ct P i * (M' * support_area trial ct P' j)) / (4 * PI * (a * a))) in
      Rabs (fst v - w) <= bound /\ Rabs (snd v - w') <= bound.
Proof.
  intros X wmod e kappa o deg pts ct test trial test' trial' P P' F F' k d D Kind Mt Ms HX Ins Ex Ef Ef' Fl Fl' rt L.
  assert (Dr : forall H : @green R R, dense_setting X wmod (laplace_adjoint_double_layer H) o deg pts ct test trial) by (intros H; eapply dense_operator; [|exact D]; apply (shipped_fitting reals), sh_laplace_adjoint).
  destruct (adjoint_parts X wmod (newton e) (waves e kappa) o deg pts ct test trial test' trial' D Mt Ms rt L) as (m & m1 & m2 & E & E1 & E2 & Hm).
  destruct (drift_adjoint X wmod (fun n x y => fst (waves e kappa n x y)) e kappa o deg pts ct test trial P P' F F' k d (Dr _) Kind HX Ins Ex Ef Ef' Fl Fl' (or_introl eq_refl) (sequential Rplus) (sequential_legal Rplus)) as (n1 & N1 & H1).
  destruct (drift_adjoint X wmod (fun n x y => snd (waves e kappa n x y)) e kappa o deg pts ct test trial P P' F F' k d (Dr _) Kind HX Ins Ex Ef Ef' Fl Fl' (or_intror eq_refl) (sequential Rplus) (sequential_legal Rplus)) as (n2 & N2 & H2).
  assert (n1 = m1) by congruence. assert (n2 = m2) by congruence. subst n1 n2.
  exists m. split; [exact E|]. intros i j c c' h h' M M' sigma Li Lj Sc Sc' Ap Bd Bd' a ratio Far Hs Rs.
  destruct (H1 i j c c' h h' M M' sigma Li Lj Sc Sc' Ap Bd Bd' Far Hs Rs) as (v1 & w1 & V1 & I1 & B1). destruct (H2 i j c c' h h' M M' sigma Li Lj Sc Sc' Ap Bd Bd' Far Hs Rs) as (v2 & w2 & V2 & I2 & B2).
  exists (v1, v2), w1, w2. split; [now apply Hm|]. split; [exact I1|]. split; [exact I2|]. split; [exact B1|exact B2].
Qed.
