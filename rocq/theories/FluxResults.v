(** * Entries of double layer matrices of functions with distant supports and the integrals *)
From Coq Require Import Ring_theory Reals Lra Psatz.
From Verif Require Import Base BaseFacts Topology TopologyFacts DofMap DofMapFacts SpecDof DofMapResults DofExamples Process Space SpecSpace Options
  Adjacency SpecAdjacency Scalar Integrand CellPair Operators SpecLocal LocalFacts LocalResults Interleave Assembly SpecAssembly
  AssemblyFacts AssemblySingular AssemblyDense AssemblyExact AssemblyResults SpecAlgebra AlgebraFacts AlgebraResults
  SpecBroken BrokenResults SpecTransfer SpecRounding RoundingModels SpecGalerkin GalerkinResults DistributedResults SpecMeasure MeasureResults Shapes SpecShapes SpecSphere SpecWidth SpecTurns TurnExamples SpecShare
  SphereGeometry SpecFloatSphere FloatSphere FloatSphereNear FloatSphereError SpecWaves SpecDecay DecayResults DecayPoints SpecDigits SpecMoments MomentResults MomentShapes SpecDefinite DefiniteResults
  SpecDegree LegendreSeries DegreeIntegrals DegreeResults DegreeExact SpecRims RimKernel RimResults SpecPatches PatchKernel PatchResults SpecPieces PieceKernel PieceResults FluxKernel SpecFluxes.

Local Open Scope R_scope.
Local Notation dist := SpecWaves.distance.
Local Notation RR := DecayResults.reals_ring.

(** ** Uniqueness *)
Lemma cells_unique ct test trial F F' P P' K i j v w : ct = Triangle \/ ct = Quadrilateral ->
  cells_integral ct test trial F F' P P' K i j v -> cells_integral ct test trial F F' P P' K i j w -> v = w.
Proof.
  intros Ht (f & Hf & ->) (f' & Hf' & ->). f_equal. apply map_ext_in. intros t It. f_equal. apply map_ext_in. intros s Is. f_equal.
  exact (pair_integral_unique ct _ _ _ Ht (Hf t s It Is) (Hf' t s It Is)).
Qed.

Theorem double_unique : forall ct test trial F F' P P' G i j v w, ct = Triangle \/ ct = Quadrilateral ->
  double_integral ct test trial F F' P P' G i j v -> double_integral ct test trial F F' P P' G i j w -> v = w.
Proof. intros. eapply cells_unique; eassumption. Qed.

Theorem adjoint_unique : forall ct test trial F F' P P' G i j v w, ct = Triangle \/ ct = Quadrilateral ->
  adjoint_integral ct test trial F F' P P' G i j v -> adjoint_integral ct test trial F F' P P' G i j w -> v = w.
Proof. intros. eapply cells_unique; eassumption. Qed.

(** ** Normals *)
Lemma direction_length T : inner (cell_direction T) (cell_direction T) <= 1.
Proof.
  unfold cell_direction, scaling. set (n := normal _ _ _). assert (Nn : 0 <= inner n n) by (destruct n as [[? ?] ?]; cbn; nra).
  assert (E : forall c, inner (vscale c n) (vscale c n) = c * c * inner n n) by (intros c; destruct n as [[? ?] ?]; cbn; ring). rewrite E.
  rewrite <- (sqrt_sqrt (inner n n) Nn) at 3. set (s := sqrt (inner n n)). destruct (Req_dec s 0) as [Z|Z]; [rewrite Z; lra|]. right. field. exact Z.
Qed.

(** ** Sums of local entries *)
Section Entries.
Context (X : externals R) (wmod : nat) (O : operator R R) (o : options) (deg : cell_type -> cell_type -> nat) (pts : cell_type -> nat) (ct : cell_type) (test trial : fspace R R)
  (P P' : nat -> vec * vec * vec) (F F' : nat -> R -> R -> R) (K : nat -> nat -> vec -> vec -> R).
Context (D : dense_setting X wmod O o deg pts ct test trial).
Notation kern t s := (fun x y x' y' => K t s (point_in (P t) x y) (point_in (P' s) x' y')).

Lemma flux_test_serial : serial_space test. Proof. apply (dn_test _ _ _ _ _ _ _ _ _ D). Qed.
Lemma flux_trial_serial : serial_space trial. Proof. apply (dn_trial _ _ _ _ _ _ _ _ _ D). Qed.
Lemma flux_test_type t : (t < ent_count (fs_grid test) 2)%nat -> g_ctype (fs_grid test) t = ct.
Proof. intros Ht. pose proof (wf_ctype _ (ss_grid _ flux_test_serial) t Ht) as H. rewrite (dn_test_type _ _ _ _ _ _ _ _ _ D) in H. now destruct H as [H|[]]. Qed.
Lemma flux_trial_type t : (t < ent_count (fs_grid trial) 2)%nat -> g_ctype (fs_grid trial) t = ct.
Proof. intros Ht. pose proof (wf_ctype _ (ss_grid _ flux_trial_serial) t Ht) as H. rewrite (dn_trial_type _ _ _ _ _ _ _ _ _ D) in H. now destruct H as [H|[]]. Qed.

Context (Value : forall t s a b v, (t < ent_count (fs_grid test) 2)%nat -> (s < ent_count (fs_grid trial) 2)%nat -> (a < el_dim (fs_family test ct))%nat -> (b < el_dim (fs_family trial ct))%nat -> ~ touching test trial t s ->
  pair_value reals X O deg pts test trial t s a b v -> exists qd, x_simplex X ct (pts ct) = Some qd /\
  v = scaling (P t) * scaling (P' s) * rule_sum qd (fun x y x' y' => kern t s x y x' y' * (F a x y * F' b x' y'))).
Context (i j : nat) (Ap : forall t s, List.In t (support test i) -> List.In s (support trial j) -> ~ touching test trial t s).

Lemma flux_entry val qd : x_simplex X ct (pts ct) = Some qd ->
  (forall t s a b, (t < ent_count (fs_grid test) 2)%nat -> (s < ent_count (fs_grid trial) 2)%nat -> pair_value reals X O deg pts test trial t s a b (val t s a b)) ->
  matrix_entry reals val test trial i j = fold_right Rplus 0 (map (fun t => fold_right Rplus 0 (map (fun s =>
    scaling (P t) * scaling (P' s) * rule_sum qd (fun x y x' y' => kern t s x y x' y' * (piece test F i t x y * piece trial F' j s x' y'))) (support trial j))) (support test i)).
Proof.
  intros Q H. unfold matrix_entry.
  change (support test i) with (filter (fun t => memb i (dofs_at test t)) (seq 0 (ent_count (fs_grid test) 2))). rewrite sum_filter, sum_total. f_equal. apply map_ext_in. intros t Ht. apply in_seq in Ht.
  assert (Ht' : (t < ent_count (fs_grid test) 2)%nat) by lia. clear Ht.
  assert (None : forall (fs : fspace R R) c k, memb k (dofs_at fs c) = false -> forall ak, List.In ak (enumerate (dofs_at fs c)) -> (snd ak =? k) = false).
  { intros fs c k M [a n] I. cbn. apply Nat.eqb_neq. intros ->. apply In_enumerate, nth_error_In in I. apply memb_in in I. congruence. }
  destruct (memb i (dofs_at test t)) eqn:M.
  2:{ rewrite (total_ext reals _ _ (fun _ => 0)); [apply (total_zero reals 1 RR); intros; reflexivity|]. intros s _. rewrite (total_ext reals _ _ (fun _ => 0)); [apply (total_zero reals 1 RR); intros; reflexivity|].
      intros ak I. rewrite (total_ext reals _ _ (fun _ => 0)); [apply (total_zero reals 1 RR); intros; reflexivity|]. intros bj _. now rewrite (None test t i M ak I). }
  unfold support. rewrite sum_filter, sum_total. f_equal. apply map_ext_in. intros s Hs. apply in_seq in Hs. assert (Hs' : (s < ent_count (fs_grid trial) 2)%nat) by lia. clear Hs.
  destruct (memb j (dofs_at trial s)) eqn:M'.
  2:{ rewrite (total_ext reals _ _ (fun _ => 0)); [apply (total_zero reals 1 RR); intros; reflexivity|].
      intros ak I. rewrite (total_ext reals _ _ (fun _ => 0)); [apply (total_zero reals 1 RR); intros; reflexivity|]. intros bj J. now rewrite (None trial s j M' bj J), Bool.andb_false_r. }
  apply memb_in in M, M'. assert (Nt : ~ touching test trial t s) by (apply Ap; apply in_support; auto).
  unfold piece. rewrite <- piece_sums, <- real_total_mul. apply total_ext. intros [a k] Ia. rewrite <- real_total_mul. apply total_ext. intros [b l] Ib. cbn [fst snd].
  destruct ((k =? i) && (l =? j))%bool; [|cbn; ring].
  destruct (Value t s a b (val t s a b) Ht' Hs' (dof_place ct test t a k flux_test_serial Ht' (flux_test_type t Ht') Ia) (dof_place ct trial s b l flux_trial_serial Hs' (flux_trial_type s Hs') Ib) Nt (H t s a b Ht' Hs')) as (q' & Q' & ->).
  assert (q' = qd) by congruence. subst q'. reflexivity.
Qed.

Lemma flux_matrix B m val : (exists qd, x_simplex X ct (pts ct) = Some qd) ->
  (forall t s a b, (t < ent_count (fs_grid test) 2)%nat -> (s < ent_count (fs_grid trial) 2)%nat -> pair_value reals X O deg pts test trial t s a b (val t s a b)) ->
  nth_error m (i + global_size (fs_space test) * j) = Some (matrix_entry reals val test trial i j) ->
  (forall t s, List.In t (support test i) -> List.In s (support trial j) ->
    exists v, pair_integral ct (fun x y x' y' => kern t s x y x' y' * (piece test F i t x y * piece trial F' j s x' y')) v /\
    forall qd, x_simplex X ct (pts ct) = Some qd -> Rabs (rule_sum qd (fun x y x' y' => kern t s x y x' y' * (piece test F i t x y * piece trial F' j s x' y')) - v) <= B * (reference_area ct * reference_area ct)) ->
  exists v w, nth_error m (i + global_size (fs_space test) * j) = Some v /\ cells_integral ct test trial F F' P P' K i j w /\
    Rabs (v - w) <= B * (support_area test ct P i * support_area trial ct P' j).
Proof.
  intros (qd & Eq) Vm E Fc.
  destruct (pair_choice Nat.eq_dec (support test i) (support trial j) _ Fc) as (f & Hf).
  eexists. eexists. split; [exact E|]. split; [exists f; split; [intros t s It Is; now apply (Hf t s It Is)|reflexivity]|].
  rewrite (flux_entry val qd Eq Vm). apply (area_bound ct test trial P P' i j _ f B). intros t s It Is. destruct (Hf t s It Is) as (_ & H). now apply H.
Qed.
End Entries.

(** ** Derivatives of the Newton potential *)
Section Kernel.
Context (t : cell_type) (Kind : t = Triangle \/ t = Quadrilateral) (T T' : vec * vec * vec) (c c' : vec) (h h' sigma e : R) (n : vec).
Context (Nc : forall x y, inside t x y -> vlen (vsub (point_in T x y) c) <= h) (Nc' : forall x y, inside t x y -> vlen (vsub (point_in T' x y) c') <= h').
Notation a := (dist c c').
Context (Far : h + h' < a).
Notation rho := ((h + h') / a).
Context (Hs : rho < sigma < 1) (Hn : inner n n <= 1).
Notation p := (first_corner T). Notation q := (second_corner T). Notation r := (third_corner T).
Notation p' := (first_corner T'). Notation q' := (second_corner T'). Notation r' := (third_corner T').
Notation lin := (fun x y x' y' => - (e / (4 * PI)) * inner n (vsub (point_in T x y) (point_in T' x' y'))).

Lemma directional_cubed x y x' y' : directional (newton e) n (point_in T x y) (point_in T' x' y') = cubed p q r p' q' r' x y x' y' * lin x y x' y'.
Proof.
  unfold cubed, directional. change (mapped p q r x y) with (point_in T x y). change (mapped p' q' r' x' y') with (point_in T' x' y'). cbv zeta.
  destruct (point_in T x y) as [[x1 x2] x3] eqn:E1, (point_in T' x' y') as [[y1 y2] y3] eqn:E2. destruct n as [[n1 n2] n3]. unfold newton. cbv zeta.
  cbv beta. destruct (Req_EM_T _ 0) as [Z|Z]; [ring|]. cbn [SpecWaves.offset vsub inner]. pose proof PI_neq0. field. auto.
Qed.

Lemma joint_lin : joint 1 lin.
Proof.
  eapply joint_same; [apply (joint_scale 1 (- (e / (4 * PI))) _ (joint_sum 1 _ _ (joint_const 1 (inner n (vsub c c'))) (joint_shifts t Kind p q r p' q' r' c c' h h' Nc Nc' n)))|].
  intros x y x' y'. cbn beta. f_equal. unfold shift. change (mapped p q r x y) with (point_in T x y). change (mapped p' q' r' x' y') with (point_in T' x' y').
  destruct (point_in T x y) as [[? ?] ?], (point_in T' x' y') as [[? ?] ?], c as [[? ?] ?], c' as [[? ?] ?], n as [[? ?] ?]. cbn. ring.
Qed.

Lemma lin_bound x y x' y' : inside t x y -> inside t x' y' -> Rabs (lin x y x' y') <= Rabs e / (4 * PI) * (a + (h + h')).
Proof.
  intros I I'. pose proof (apart t p q r p' q' r' c c' h h' sigma Nc Nc' Far (Rlt_le _ _ (proj1 Hs)) x y x' y' I I') as (_ & Ap).
  change (mapped p q r x y) with (point_in T x y) in Ap. change (mapped p' q' r' x' y') with (point_in T' x' y') in Ap. rewrite dist_vlen in Ap.
  rewrite Rabs_mult, Rabs_Ropp. pose proof PI_RGT_0 as Pi. unfold Rdiv at 1. rewrite Rabs_mult, (Rabs_pos_eq (/ (4 * PI))) by (left; apply Rinv_0_lt_compat; lra).
  apply Rmult_le_compat_l; [apply Rmult_le_pos; [apply Rabs_pos|left; apply Rinv_0_lt_compat; lra]|]. eapply Rle_trans; [|exact Ap].
  set (w := vsub (point_in T x y) (point_in T' x' y')) in *. rewrite <- (Rabs_pos_eq (vlen w)) by apply vlen_nonneg. apply Rsqr_le_abs_0. unfold Rsqr. rewrite vlen_square.
  clear -Hn. destruct n as [[n1 n2] n3], w as [[w1 w2] w3]. unfold norm2. cbn in *.
  assert (Cs : (n1 * w1 + n2 * w2 + n3 * w3) * (n1 * w1 + n2 * w2 + n3 * w3) <= (n1 * n1 + n2 * n2 + n3 * n3) * (w1 * w1 + w2 * w2 + w3 * w3)).
  { pose proof (Rle_0_sqr (n1 * w2 - n2 * w1)). pose proof (Rle_0_sqr (n1 * w3 - n3 * w1)). pose proof (Rle_0_sqr (n2 * w3 - n3 * w2)). unfold Rsqr in *. nra. }
  eapply Rle_trans; [exact Cs|]. assert (0 <= w1 * w1 + w2 * w2 + w3 * w3) by nra. nra.
Qed.

Theorem directional_integral f d N : joint d f -> (forall x y x' y', inside t x y -> inside t x' y' -> Rabs (f x y x' y') <= N) ->
  exists v, pair_integral t (fun x y x' y' => directional (newton e) n (point_in T x y) (point_in T' x' y') * f x y x' y') v /\
  forall k qd, (forall i j, (i + j <= k + d + 1)%nat -> monomial_sum qd i j = monomial_integral t i j) ->
    (forall pw, List.In pw (enumerate (qd_weights qd)) -> 0 <= snd pw /\ inside t (nth (2 * fst pw) (qd_points qd) 0) (nth (2 * fst pw + 1) (qd_points qd) 0)) ->
    Rabs (rule_sum qd (fun x y x' y' => directional (newton e) n (point_in T x y) (point_in T' x' y') * f x y x' y') - v) <=
      6 * (1 + rho) * (rho / sigma) ^ (k + 1) / ((1 - sigma) ^ 3) * (Rabs e / (4 * PI * (a * a)) * N) * (reference_area t * reference_area t).
Proof.
  intros J B. destruct (newton_range t Kind p q r p' q' r' c c' h h' Nc Nc' Far) as (Hr & Pu).
  assert (Pa : 0 < a). { assert (Oi : inside t 0 0) by (destruct Kind as [-> | ->]; cbn; lra).
    pose proof (Nc 0 0 Oi). pose proof (Nc' 0 0 Oi). pose proof (vlen_nonneg (vsub (point_in T 0 0) c)). pose proof (vlen_nonneg (vsub (point_in T' 0 0) c')). lra. }
  destruct (cubed_integral t Kind p q r p' q' r' c c' h h' sigma Nc Nc' Far ltac:(lra) ltac:(lra) (fun x y x' y' => lin x y x' y' * f x y x' y') (1 + d) (Rabs e / (4 * PI) * (a + (h + h')) * N)) as (v & Iv & Bv).
  - lra.
  - apply joint_product; [exact joint_lin|exact J].
  - intros x y x' y' I I'. rewrite Rabs_mult. apply Rmult_le_compat; try apply Rabs_pos; [now apply lin_bound|now apply B].
  - assert (E : forall x y x' y', directional (newton e) n (point_in T x y) (point_in T' x' y') * f x y x' y' = cubed p q r p' q' r' x y x' y' * (lin x y x' y' * f x y x' y')) by (intros; rewrite directional_cubed; ring).
    exists v. split.
    + intros eps He. destruct (Iv eps He) as (g & w & H1 & H2 & H3). exists g, w. split; [exact H1|]. split; [exact H2|]. intros x y x' y' I I'. rewrite E. now apply H3.
    + intros k qd Ex Ps. rewrite (rule_same qd _ _ E). eapply Rle_trans; [apply (Bv k qd)|].
      * intros i j L. apply Ex. lia.
      * exact Ps.
      * right. replace (k + 1)%nat with (S k) by lia. set (tau := (rho / sigma) ^ S k). pose proof PI_neq0. field. repeat split; lra.
Qed.
End Kernel.

(** ** The matrices *)
Section Layers.
Context (X : externals R) (wmod : nat) (e : R) (o : options) (deg : cell_type -> cell_type -> nat) (pts : cell_type -> nat) (ct : cell_type) (test trial : fspace R R)
  (P P' : nat -> vec * vec * vec) (F F' : nat -> R -> R -> R) (d : nat) (O : operator R R).
Context (D : dense_setting X wmod O o deg pts ct test trial) (Kind : ct = Triangle \/ ct = Quadrilateral)
  (Ef : element_functions test ct d F) (Ef' : element_functions trial ct d F') (Fl : flat_grid X (fs_grid test) ct P) (Fl' : flat_grid X (fs_grid trial) ct P').

Lemma flat_directional points T x j G (u v : vec) : flat_cell points (first_corner T) (second_corner T) (third_corner T) x ->
  dot reals (fun i => G (1 + i)%nat u v) (SpecLocal.normal reals x j) = directional G (cell_direction T) u v.
Proof.
  intros Fc. unfold dot, SpecLocal.normal, directional, cell_direction, scaling. cbn [s_cast s_add s_mul reals]. rewrite !(fc_normal _ _ _ _ _ Fc) by lia. cbn [Nat.add].
  destruct (normal (first_corner T) (second_corner T) (third_corner T)) as [[n1 n2] n3]. cbn [vscale SpecTurns.coordinate]. set (s := sqrt _). unfold Rdiv. ring.
Qed.

Lemma double_value : O = laplace_double_layer (newton e) -> forall t s a b v, (t < ent_count (fs_grid test) 2)%nat -> (s < ent_count (fs_grid trial) 2)%nat -> (a < el_dim (fs_family test ct))%nat -> (b < el_dim (fs_family trial ct))%nat -> ~ touching test trial t s ->
  pair_value reals X O deg pts test trial t s a b v -> exists qd, x_simplex X ct (pts ct) = Some qd /\
  v = scaling (P t) * scaling (P' s) * rule_sum qd (fun x y x' y' => directional (newton e) (cell_direction (P' s)) (point_in (P t) x y) (point_in (P' s) x' y') * (F a x y * F' b x' y')).
Proof.
  intros EO t s a b v Ht Hs La Lb Nt [(C & _)|(_ & qt & qs & A1 & A2 & ->)]; [contradiction|]. 
  rewrite (flux_test_type X wmod O o deg pts ct test trial D t Ht) in A1. rewrite (flux_trial_type X wmod O o deg pts ct test trial D s Hs) in A2.
  assert (qs = qt) by congruence. subst qs. exists qt. split; [exact A1|].
  rewrite (tensor_total reals 1 RR). unfold rule_sum. rewrite <- real_total_mul. apply total_ext. intros pw _. rewrite <- real_total_mul. apply total_ext. intros qw _.
  unfold tensor_term. rewrite (flux_test_type X wmod O o deg pts ct test trial D t Ht), (flux_trial_type X wmod O o deg pts ct test trial D s Hs), EO.
  cbn [laplace_double_layer op_integrand op_kernel kn_value integrand_value s_mul s_div s_cast r_mul reals].
  rewrite (flat_directional _ (P' s) _ (fst qw) (newton e) _ _ (Fl' s Hs _)).
  rewrite (flat_position _ _ _ _ _ (fst pw) (Fl t Ht _)), (flat_position _ _ _ _ _ (fst qw) (Fl' s Hs _)).
  rewrite (fc_area _ _ _ _ _ (Fl t Ht _)), (fc_area _ _ _ _ _ (Fl' s Hs _)).
  rewrite (proj2 (Ef a La)), (proj2 (Ef' b Lb)). unfold scaling, point_in.
  match goal with |- context [directional (newton e) ?n ?x ?y] => generalize (directional (newton e) n x y) end. intros k. ring.
Qed.

Lemma adjoint_value : O = laplace_adjoint_double_layer (newton e) -> forall t s a b v, (t < ent_count (fs_grid test) 2)%nat -> (s < ent_count (fs_grid trial) 2)%nat -> (a < el_dim (fs_family test ct))%nat -> (b < el_dim (fs_family trial ct))%nat -> ~ touching test trial t s ->
  pair_value reals X O deg pts test trial t s a b v -> exists qd, x_simplex X ct (pts ct) = Some qd /\
  v = scaling (P t) * scaling (P' s) * rule_sum qd (fun x y x' y' => - directional (newton e) (cell_direction (P t)) (point_in (P t) x y) (point_in (P' s) x' y') * (F a x y * F' b x' y')).
Proof.
  intros EO t s a b v Ht Hs La Lb Nt [(C & _)|(_ & qt & qs & A1 & A2 & ->)]; [contradiction|]. 
  rewrite (flux_test_type X wmod O o deg pts ct test trial D t Ht) in A1. rewrite (flux_trial_type X wmod O o deg pts ct test trial D s Hs) in A2.
  assert (qs = qt) by congruence. subst qs. exists qt. split; [exact A1|].
  rewrite (tensor_total reals 1 RR). unfold rule_sum. rewrite <- real_total_mul. apply total_ext. intros pw _. rewrite <- real_total_mul. apply total_ext. intros qw _.
  unfold tensor_term. rewrite (flux_test_type X wmod O o deg pts ct test trial D t Ht), (flux_trial_type X wmod O o deg pts ct test trial D s Hs), EO.
  cbn [laplace_adjoint_double_layer op_integrand op_kernel kn_value integrand_value s_mul s_neg s_div s_cast r_mul reals].
  rewrite (flat_directional _ (P t) _ (fst pw) (newton e) _ _ (Fl t Ht _)).
  rewrite (flat_position _ _ _ _ _ (fst pw) (Fl t Ht _)), (flat_position _ _ _ _ _ (fst qw) (Fl' s Hs _)).
  rewrite (fc_area _ _ _ _ _ (Fl t Ht _)), (fc_area _ _ _ _ _ (Fl' s Hs _)).
  rewrite (proj2 (Ef a La)), (proj2 (Ef' b Lb)). unfold scaling, point_in.
  match goal with |- context [directional (newton e) ?n ?x ?y] => generalize (directional (newton e) n x y) end. intros k. ring.
Qed.

Context (i j : nat) (c c' : vec) (h h' M M' sigma : R) (Sc : supported_in test ct P i c h) (Sc' : supported_in trial ct P' j c' h') (Far : h + h' < dist c c')
  (Bd : forall t x y, List.In t (support test i) -> inside ct x y -> Rabs (piece test F i t x y) <= M) (Bd' : forall s x y, List.In s (support trial j) -> inside ct x y -> Rabs (piece trial F' j s x y) <= M').
Notation a := (dist c c').
Notation ratio := ((h + h') / a).
Context (Hs : ratio < sigma < 1).

Lemma flux_cells t s n z : z = 1 \/ z = -1 -> List.In t (support test i) -> List.In s (support trial j) -> inner n n <= 1 ->
  exists v, pair_integral ct (fun x y x' y' => z * directional (newton e) n (point_in (P t) x y) (point_in (P' s) x' y') * (piece test F i t x y * piece trial F' j s x' y')) v /\
  forall k qd, (forall i j, (i + j <= k + d + 1)%nat -> monomial_sum qd i j = monomial_integral ct i j) ->
    (forall pw, List.In pw (enumerate (qd_weights qd)) -> 0 <= snd pw /\ inside ct (nth (2 * fst pw) (qd_points qd) 0) (nth (2 * fst pw + 1) (qd_points qd) 0)) ->
    Rabs (rule_sum qd (fun x y x' y' => z * directional (newton e) n (point_in (P t) x y) (point_in (P' s) x' y') * (piece test F i t x y * piece trial F' j s x' y')) - v) <=
      6 * (1 + ratio) * (ratio / sigma) ^ (k + 1) / ((1 - sigma) ^ 3) * (Rabs e / (4 * PI * (a * a)) * (M * M')) * (reference_area ct * reference_area ct).
Proof.
  intros Hz It Is Hn. pose proof (Sc t It) as (S1 & S2 & S3 & S4). pose proof (Sc' s Is) as (S1' & S2' & S3' & S4').
  destruct (directional_integral ct Kind (P t) (P' s) c c' h h' sigma e n (inside_ball ct (P t) c h Kind S1 S2 S3 S4) (inside_ball ct (P' s) c' h' Kind S1' S2' S3' S4') Far Hs Hn
    (fun x y x' y' => z * (piece test F i t x y * piece trial F' j s x' y')) d (M * M')) as (v & Iv & Bv).
  - apply in_support in It, Is. destruct It as (Ht & _), Is as (Hs' & _). apply joint_scale, polynomial_joint.
    + exact (piece_polynomial ct d test F i t (flux_test_serial X wmod O o deg pts ct test trial D) Ht (flux_test_type X wmod O o deg pts ct test trial D t Ht) Ef).
    + exact (piece_polynomial ct d trial F' j s (flux_trial_serial X wmod O o deg pts ct test trial D) Hs' (flux_trial_type X wmod O o deg pts ct test trial D s Hs') Ef').
  - intros x y x' y' I I'. rewrite Rabs_mult. replace (Rabs z) with 1 by (destruct Hz as [-> | ->]; unfold Rabs; destruct (Rcase_abs _); lra).
    rewrite Rmult_1_l, Rabs_mult. apply Rmult_le_compat; try apply Rabs_pos; [now apply Bd|now apply Bd'].
  - exists v. split.
    + intros eps He. destruct (Iv eps He) as (g & w & H1 & H2 & H3). exists g, w. split; [exact H1|]. split; [exact H2|]. intros x y x' y' I I'. specialize (H3 x y x' y' I I').
      now replace (z * directional (newton e) n (point_in (P t) x y) (point_in (P' s) x' y') * (piece test F i t x y * piece trial F' j s x' y')) with
        (directional (newton e) n (point_in (P t) x y) (point_in (P' s) x' y') * (z * (piece test F i t x y * piece trial F' j s x' y'))) by ring.
    + intros k qd Ex Ps. rewrite (rule_same qd (fun x y x' y' => directional (newton e) n (point_in (P t) x y) (point_in (P' s) x' y') * (z * (piece test F i t x y * piece trial F' j s x' y')))) by (intros; ring).
      exact (Bv k qd Ex Ps).
Qed.
End Layers.

Theorem double_entries : forall (X : externals R) wmod e o deg pts ct (test trial : fspace R R) P P' F F' k d,
  dense_setting X wmod (laplace_double_layer (newton e)) o deg pts ct test trial -> ct = Triangle \/ ct = Quadrilateral ->
  positive_externals (Rle 0) X -> inside_rules X ct -> exact_to X ct (pts ct) (k + d + 1) ->
  element_functions test ct d F -> element_functions trial ct d F' -> flat_grid X (fs_grid test) ct P -> flat_grid X (fs_grid trial) ct P' ->
  forall rt, legal_runtime Rplus rt ->
  exists m, assemble reals X rt wmod (laplace_double_layer (newton e)) o trial test = Ok m /\
  forall i j c c' h h' M M' sigma, (i < global_size (fs_space test))%nat -> (j < global_size (fs_space trial))%nat ->
    supported_in test ct P i c h -> supported_in trial ct P' j c' h' -> (forall t s, In t (support test i) -> In s (support trial j) -> ~ touching test trial t s) ->
    (forall t x y, In t (support test i) -> inside ct x y -> Rabs (piece test F i t x y) <= M) -> (forall s x y, In s (support trial j) -> inside ct x y -> Rabs (piece trial F' j s x y) <= M') ->
    let a := dist c c' in let ratio := (h + h') / a in h + h' < a -> ratio < sigma < 1 ->
    exists v w, nth_error m (i + global_size (fs_space test) * j) = Some v /\ double_integral ct test trial F F' P P' (newton e) i j w /\
      Rabs (v - w) <= 6 * (1 + ratio) * (ratio / sigma) ^ (k + 1) / ((1 - sigma) ^ 3) * (Rabs e * (M * support_area test ct P i * (M' * support_area trial ct P' j)) / (4 * PI * (a * a))).
Proof.
  intros X wmod e o deg pts ct test trial P P' F F' k d D Kind HX Ins Ex Ef Ef' Fl Fl' rt L.
  destruct (assembled reals 1 RR X rt wmod _ o deg pts ct test trial L D) as (m & val & Em & _ & Vm & H).
  exists m. split; [exact Em|]. intros i j c c' h h' M M' sigma Li Lj Sc Sc' Ap Bd Bd' a ratio Far Hs.
  pose proof (proj2 (dn_simplex _ _ _ _ _ _ _ _ _ D ct (or_introl eq_refl))) as Q.
  set (B := 6 * (1 + ratio) * (ratio / sigma) ^ (k + 1) / ((1 - sigma) ^ 3) * (Rabs e / (4 * PI * (a * a)) * (M * M'))).
    destruct (flux_matrix X wmod _ o deg pts ct test trial P P' F F' (fun t s => directional (newton e) (cell_direction (P' s))) D
      (double_value X wmod e o deg pts ct test trial P P' F F' d _ D Ef Ef' Fl Fl' eq_refl) i j Ap B m val Q Vm (H i j Li Lj)) as (v & w & Ev & Iw & Bv).
    - intros t s It Is. destruct (flux_cells X wmod e o deg pts ct test trial P P' F F' d _ D Kind Ef Ef' i j c c' h h' M M' sigma Sc Sc' Far Bd Bd' Hs t s (cell_direction (P' s)) 1 (or_introl eq_refl) It Is (direction_length _)) as (v & Iv & Bv).
      exists v. split.
      + intros eps He. destruct (Iv eps He) as (g & w & H1 & H2 & H3). exists g, w. split; [exact H1|]. split; [exact H2|]. intros x y x' y' I I'. eapply Rle_trans; [|exact (H3 x y x' y' I I')]. right. f_equal. ring.
      + intros qd Eq. eapply Rle_trans; [|exact (Bv k qd (Ex _ Eq) (fun pw => positive_weight X ct HX Ins _ _ pw Eq))]. right. f_equal. f_equal. apply rule_same. intros. ring.
    - exists v, w. split; [exact Ev|]. split; [exact Iw|]. eapply Rle_trans; [exact Bv|]. right. unfold B. set (W := _ / ((1 - sigma) ^ 3)). unfold Rdiv. set (U := / (4 * PI * (a * a))). clearbody U W. ring.
Qed.

Theorem adjoint_entries : forall (X : externals R) wmod e o deg pts ct (test trial : fspace R R) P P' F F' k d,
  dense_setting X wmod (laplace_adjoint_double_layer (newton e)) o deg pts ct test trial -> ct = Triangle \/ ct = Quadrilateral ->
  positive_externals (Rle 0) X -> inside_rules X ct -> exact_to X ct (pts ct) (k + d + 1) ->
  element_functions test ct d F -> element_functions trial ct d F' -> flat_grid X (fs_grid test) ct P -> flat_grid X (fs_grid trial) ct P' ->
  forall rt, legal_runtime Rplus rt ->
  exists m, assemble reals X rt wmod (laplace_adjoint_double_layer (newton e)) o trial test = Ok m /\
  forall i j c c' h h' M M' sigma, (i < global_size (fs_space test))%nat -> (j < global_size (fs_space trial))%nat ->
    supported_in test ct P i c h -> supported_in trial ct P' j c' h' -> (forall t s, In t (support test i) -> In s (support trial j) -> ~ touching test trial t s) ->
    (forall t x y, In t (support test i) -> inside ct x y -> Rabs (piece test F i t x y) <= M) -> (forall s x y, In s (support trial j) -> inside ct x y -> Rabs (piece trial F' j s x y) <= M') ->
    let a := dist c c' in let ratio := (h + h') / a in h + h' < a -> ratio < sigma < 1 ->
    exists v w, nth_error m (i + global_size (fs_space test) * j) = Some v /\ adjoint_integral ct test trial F F' P P' (newton e) i j w /\
      Rabs (v - w) <= 6 * (1 + ratio) * (ratio / sigma) ^ (k + 1) / ((1 - sigma) ^ 3) * (Rabs e * (M * support_area test ct P i * (M' * support_area trial ct P' j)) / (4 * PI * (a * a))).
Proof.
  intros X wmod e o deg pts ct test trial P P' F F' k d D Kind HX Ins Ex Ef Ef' Fl Fl' rt L.
  destruct (assembled reals 1 RR X rt wmod _ o deg pts ct test trial L D) as (m & val & Em & _ & Vm & H).
  exists m. split; [exact Em|]. intros i j c c' h h' M M' sigma Li Lj Sc Sc' Ap Bd Bd' a ratio Far Hs.
  pose proof (proj2 (dn_simplex _ _ _ _ _ _ _ _ _ D ct (or_introl eq_refl))) as Q.
  set (B := 6 * (1 + ratio) * (ratio / sigma) ^ (k + 1) / ((1 - sigma) ^ 3) * (Rabs e / (4 * PI * (a * a)) * (M * M'))).
    destruct (flux_matrix X wmod _ o deg pts ct test trial P P' F F' (fun t s x y => - directional (newton e) (cell_direction (P t)) x y) D
      (adjoint_value X wmod e o deg pts ct test trial P P' F F' d _ D Ef Ef' Fl Fl' eq_refl) i j Ap B m val Q Vm (H i j Li Lj)) as (v & w & Ev & Iw & Bv).
    - intros t s It Is. destruct (flux_cells X wmod e o deg pts ct test trial P P' F F' d _ D Kind Ef Ef' i j c c' h h' M M' sigma Sc Sc' Far Bd Bd' Hs t s (cell_direction (P t)) (-1) (or_intror eq_refl) It Is (direction_length _)) as (v & Iv & Bv).
      exists v. split.
      + intros eps He. destruct (Iv eps He) as (g & w & H1 & H2 & H3). exists g, w. split; [exact H1|]. split; [exact H2|]. intros x y x' y' I I'. eapply Rle_trans; [|exact (H3 x y x' y' I I')]. right. f_equal. ring.
      + intros qd Eq. eapply Rle_trans; [|exact (Bv k qd (Ex _ Eq) (fun pw => positive_weight X ct HX Ins _ _ pw Eq))]. right. f_equal. f_equal. apply rule_same. intros. ring.
    - exists v, w. split; [exact Ev|]. split; [exact Iw|]. eapply Rle_trans; [exact Bv|]. right. unfold B. set (W := _ / ((1 - sigma) ^ 3)). unfold Rdiv. set (U := / (4 * PI * (a * a))). clearbody U W. ring.
Qed.

