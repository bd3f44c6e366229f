(** * Entries of functions with distant supports for kernels near polynomials *)
From Coq Require Import Ring_theory Reals Lra Psatz.
From Verif Require Import Base BaseFacts Topology TopologyFacts DofMap DofMapFacts SpecDof DofMapResults DofExamples Process Space SpecSpace Options
  Adjacency SpecAdjacency Scalar Integrand CellPair Operators SpecLocal LocalFacts LocalResults Interleave Assembly SpecAssembly
  AssemblyFacts AssemblySingular AssemblyDense AssemblyExact AssemblyResults SpecAlgebra AlgebraFacts AlgebraResults
  SpecBroken BrokenResults SpecTransfer SpecScalars ScalarsResults SpecRounding RoundingModels SpecGalerkin GalerkinResults DistributedResults SpecMeasure MeasureResults Shapes SpecShapes SpecSphere SpecWidth SpecTurns TurnExamples SpecShare
  SphereGeometry SpecFloatSphere FloatSphere FloatSphereNear FloatSphereError SpecWaves KernelResults WaveResults WaveLimits SpecDecay DecayResults DecayPoints SpecDigits SpecMoments MomentResults MomentShapes SpecDefinite DefiniteResults
  SpecDegree LegendreSeries DegreeIntegrals DegreeResults DegreeExact SpecRims RimKernel RimResults SpecPatches PatchKernel PatchResults SpecPieces PieceKernel PieceResults FluxKernel EchoKernel.

Local Open Scope R_scope.
Local Notation dist := SpecWaves.distance.
Local Notation RR := DecayResults.reals_ring.

Section Entries.
Context (X : externals R) (wmod : nat) (G : @green R R) (o : options) (deg : cell_type -> cell_type -> nat) (pts : cell_type -> nat) (ct : cell_type) (test trial : fspace R R)
  (P P' : nat -> vec * vec * vec) (F F' : nat -> R -> R -> R) (d : nat).
Context (D : dense_setting X wmod (laplace_single_layer G) o deg pts ct test trial) (Kind : ct = Triangle \/ ct = Quadrilateral)
  (Ef : element_functions test ct d F) (Ef' : element_functions trial ct d F') (Fl : flat_grid X (fs_grid test) ct P) (Fl' : flat_grid X (fs_grid trial) ct P').
Notation K t s := (fun x y x' y' => G 0%nat (point_in (P t) x y) (point_in (P' s) x' y')).

Lemma test_serial : serial_space test. Proof. apply (dn_test _ _ _ _ _ _ _ _ _ D). Qed.
Lemma trial_serial : serial_space trial. Proof. apply (dn_trial _ _ _ _ _ _ _ _ _ D). Qed.
Lemma test_ctype t : (t < ent_count (fs_grid test) 2)%nat -> g_ctype (fs_grid test) t = ct.
Proof. intros Ht. pose proof (wf_ctype _ (ss_grid _ test_serial) t Ht) as H. rewrite (dn_test_type _ _ _ _ _ _ _ _ _ D) in H. now destruct H as [H|[]]. Qed.
Lemma trial_ctype t : (t < ent_count (fs_grid trial) 2)%nat -> g_ctype (fs_grid trial) t = ct.
Proof. intros Ht. pose proof (wf_ctype _ (ss_grid _ trial_serial) t Ht) as H. rewrite (dn_trial_type _ _ _ _ _ _ _ _ _ D) in H. now destruct H as [H|[]]. Qed.

Lemma dof_place (fs : fspace R R) t a i : serial_space fs -> (t < ent_count (fs_grid fs) 2)%nat -> g_ctype (fs_grid fs) t = ct -> List.In (a, i) (enumerate (dofs_at fs t)) -> (a < el_dim (fs_family fs ct))%nat.
Proof. intros Sp Ht Ty I. apply In_enumerate in I. rewrite <- Ty, <- (dofs_at_dim fs t Sp Ht). apply nth_error_Some. congruence. Qed.

Lemma far_value t s a b v : (t < ent_count (fs_grid test) 2)%nat -> (s < ent_count (fs_grid trial) 2)%nat -> (a < el_dim (fs_family test ct))%nat -> (b < el_dim (fs_family trial ct))%nat -> ~ touching test trial t s ->
  pair_value reals X (laplace_single_layer G) deg pts test trial t s a b v -> exists qd, x_simplex X ct (pts ct) = Some qd /\
  v = scaling (P t) * scaling (P' s) * rule_sum qd (fun x y x' y' => K t s x y x' y' * (F a x y * F' b x' y')).
Proof.
  intros Ht Hs La Lb Nt [(C & _)|(_ & qt & qs & A1 & A2 & ->)]; [contradiction|].
  rewrite (test_ctype t Ht) in A1. rewrite (trial_ctype s Hs) in A2.
  assert (qs = qt) by congruence. subst qs. exists qt. split; [exact A1|].
  rewrite (tensor_total reals 1 RR). unfold rule_sum. rewrite <- real_total_mul. apply total_ext. intros pw _. rewrite <- real_total_mul. apply total_ext. intros qw _.
  unfold tensor_term. rewrite (test_ctype t Ht), (trial_ctype s Hs).
  cbn [laplace_single_layer op_integrand op_kernel kn_value integrand_value s_mul s_div s_cast r_mul reals].
  rewrite (flat_position _ _ _ _ _ (fst pw) (Fl t Ht _)), (flat_position _ _ _ _ _ (fst qw) (Fl' s Hs _)).
  unfold jdet. cbn [s_cast reals]. rewrite (fc_area _ _ _ _ _ (Fl t Ht _)), (fc_area _ _ _ _ _ (Fl' s Hs _)).
  rewrite (proj2 (Ef a La)), (proj2 (Ef' b Lb)). unfold scaling, point_in.
  match goal with |- context [G 0%nat ?x ?y] => generalize (G 0%nat x y) end. intros k. ring.
Qed.

Context (i j : nat) (Ap : forall t s, List.In t (support test i) -> List.In s (support trial j) -> ~ touching test trial t s).

Lemma far_entry val qd : x_simplex X ct (pts ct) = Some qd ->
  (forall t s a b, (t < ent_count (fs_grid test) 2)%nat -> (s < ent_count (fs_grid trial) 2)%nat -> pair_value reals X (laplace_single_layer G) deg pts test trial t s a b (val t s a b)) ->
  matrix_entry reals val test trial i j = fold_right Rplus 0 (map (fun t => fold_right Rplus 0 (map (fun s =>
    scaling (P t) * scaling (P' s) * rule_sum qd (fun x y x' y' => K t s x y x' y' * (piece test F i t x y * piece trial F' j s x' y'))) (support trial j))) (support test i)).
Proof.
  intros Q H. unfold matrix_entry.
  change (support test i) with (filter (fun t => memb i (dofs_at test t)) (seq 0 (ent_count (fs_grid test) 2))). rewrite sum_filter, sum_total. f_equal. apply map_ext_in. intros t Ht. apply in_seq in Ht.
  assert (Ht' : (t < ent_count (fs_grid test) 2)%nat) by lia. clear Ht.
  assert (None : forall (fs : fspace R R) c k, memb k (dofs_at fs c) = false -> forall ak, List.In ak (enumerate (dofs_at fs c)) -> (snd ak =? k) = false).
  { intros fs c k M [a n] I. cbn. apply Nat.eqb_neq. intros ->. apply In_enumerate, nth_error_In in I. apply memb_in in I. congruence. }
  destruct (memb i (dofs_at test t)) eqn:M.
  2:{ rewrite (total_ext reals _ _ (fun _ => 0)); [apply (total_zero reals 1 RR); intros; reflexivity|]. intros s _. rewrite (total_ext reals _ _ (fun _ => 0)); [apply (total_zero reals 1 RR); intros; reflexivity|].
      intros ak I. rewrite (total_ext reals _ _ (fun _ => 0)); [apply (total_zero reals 1 RR); intros; reflexivity|]. intros bj _. now rewrite (None test t i M ak I). }
  unfold support. rewrite sum_filter, sum_total. f_equal. apply map_ext_in. intros s Hs. apply in_seq in Hs. assert (Hs' : (s < ent_count (fs_grid trial) 2)%nat) by lia. clear Hs.
  destruct (memb j (dofs_at trial s)) eqn:M'.
  2:{ rewrite (total_ext reals _ _ (fun _ => 0)); [apply (total_zero reals 1 RR); intros; reflexivity|].
      intros ak I. rewrite (total_ext reals _ _ (fun _ => 0)); [apply (total_zero reals 1 RR); intros; reflexivity|]. intros bj J. now rewrite (None trial s j M' bj J), Bool.andb_false_r. }
  apply memb_in in M, M'. assert (Nt : ~ touching test trial t s) by (apply Ap; apply in_support; auto).
  unfold piece. rewrite <- piece_sums, <- real_total_mul. apply total_ext. intros [a k] Ia. rewrite <- real_total_mul. apply total_ext. intros [b l] Ib. cbn [fst snd].
  destruct ((k =? i) && (l =? j))%bool; [|cbn; ring].
  destruct (far_value t s a b (val t s a b) Ht' Hs' (dof_place test t a k test_serial Ht' (test_ctype t Ht') Ia) (dof_place trial s b l trial_serial Hs' (trial_ctype s Hs') Ib) Nt (H t s a b Ht' Hs')) as (q' & Q' & ->).
  assert (q' = qd) by congruence. subst q'. reflexivity.
Qed.

Lemma piece_polynomial (fs : fspace R R) H k t : serial_space fs -> (t < ent_count (fs_grid fs) 2)%nat -> g_ctype (fs_grid fs) t = ct -> element_functions fs ct d H -> polynomial d (piece fs H k t).
Proof.
  intros Sp Ht Ty E. apply (sum_polynomial d (fun ak x y => if snd ak =? k then H (fst ak) x y else 0)). intros [a n] I. cbn [fst snd]. destruct (n =? k).
  - apply E. exact (dof_place fs t a n Sp Ht Ty I).
  - exact (sum_polynomial d (fun (_ : nat) _ _ => 0) nil (fun a I => match I with end)).
Qed.


Context (M M' : R) (bound : nat -> R) (Small : forall c eps, 0 <= c -> 0 < eps -> exists l, c * bound l <= eps)
  (App : forall t s, List.In t (support test i) -> List.In s (support trial j) -> exists near, (forall n, joint n (near n)) /\
    forall n x y x' y', inside ct x y -> inside ct x' y' -> Rabs (K t s x y x' y' - near n x y x' y') <= bound n)
  (Bd : forall t x y, List.In t (support test i) -> inside ct x y -> Rabs (piece test F i t x y) <= M) (Bd' : forall s x y, List.In s (support trial j) -> inside ct x y -> Rabs (piece trial F' j s x y) <= M').

Lemma kernel_cells t s : List.In t (support test i) -> List.In s (support trial j) ->
  exists v, pair_integral ct (fun x y x' y' => K t s x y x' y' * (piece test F i t x y * piece trial F' j s x' y')) v /\
  forall k qd, (forall i j, (i + j <= k + d)%nat -> monomial_sum qd i j = monomial_integral ct i j) ->
    (forall pw, List.In pw (enumerate (qd_weights qd)) -> 0 <= snd pw /\ inside ct (nth (2 * fst pw) (qd_points qd) 0) (nth (2 * fst pw + 1) (qd_points qd) 0)) ->
    Rabs (rule_sum qd (fun x y x' y' => K t s x y x' y' * (piece test F i t x y * piece trial F' j s x' y')) - v) <= 2 * (bound k * (M * M') * (reference_area ct * reference_area ct)).
Proof.
  intros It Is. destruct (App t s It Is) as (near & Jn & Hn). apply (approximated_integral ct Kind (K t s) (fun x y x' y' => piece test F i t x y * piece trial F' j s x' y') near bound d (M * M')); auto.
  - apply in_support in It, Is. destruct It as (Ht & _), Is as (Hs & _). apply polynomial_joint.
    + exact (piece_polynomial test F i t test_serial Ht (test_ctype t Ht) Ef).
    + exact (piece_polynomial trial F' j s trial_serial Hs (trial_ctype s Hs) Ef').
  - intros x y x' y' I I'. rewrite Rabs_mult. apply Rmult_le_compat; try apply Rabs_pos; [now apply Bd|now apply Bd'].
Qed.
End Entries.

(** ** The matrix of a real kernel *)
Theorem kernel_entries : forall (X : externals R) wmod (G : @green R R) o deg pts ct (test trial : fspace R R) P P' F F' k d,
  dense_setting X wmod (laplace_single_layer G) o deg pts ct test trial -> ct = Triangle \/ ct = Quadrilateral ->
  positive_externals (Rle 0) X -> inside_rules X ct -> exact_to X ct (pts ct) (k + d) ->
  element_functions test ct d F -> element_functions trial ct d F' -> flat_grid X (fs_grid test) ct P -> flat_grid X (fs_grid trial) ct P' ->
  forall rt, legal_runtime Rplus rt ->
  exists m, assemble reals X rt wmod (laplace_single_layer G) o trial test = Ok m /\
  forall i j M M' bound, (i < global_size (fs_space test))%nat -> (j < global_size (fs_space trial))%nat ->
    (forall t s, In t (support test i) -> In s (support trial j) -> ~ touching test trial t s) ->
    (forall c eps, 0 <= c -> 0 < eps -> exists l, c * bound l <= eps) ->
    (forall t s, In t (support test i) -> In s (support trial j) -> exists near, (forall n, joint n (near n)) /\
      forall n x y x' y', inside ct x y -> inside ct x' y' -> Rabs (G 0%nat (point_in (P t) x y) (point_in (P' s) x' y') - near n x y x' y') <= bound n) ->
    (forall t x y, In t (support test i) -> inside ct x y -> Rabs (piece test F i t x y) <= M) -> (forall s x y, In s (support trial j) -> inside ct x y -> Rabs (piece trial F' j s x y) <= M') ->
    exists v w, nth_error m (i + global_size (fs_space test) * j) = Some v /\ functions_integral ct test trial F F' P P' (G 0%nat) i j w /\
      Rabs (v - w) <= 2 * bound k * (M * support_area test ct P i * (M' * support_area trial ct P' j)).
Proof.
  intros X wmod G o deg pts ct test trial P P' F F' k d D Kind HX Ins Ex Ef Ef' Fl Fl' rt L.
  destruct (assembled reals 1 RR X rt wmod (laplace_single_layer G) o deg pts ct test trial L D) as (m & val & Em & _ & Vm & H).
  exists m. split; [exact Em|]. intros i j M M' bound Li Lj Ap Small App Bd Bd'.
  destruct (dn_simplex _ _ _ _ _ _ _ _ _ D ct (or_introl eq_refl)) as (_ & qd & Q).
  pose proof (kernel_cells X wmod G o deg pts ct test trial P P' F F' d D Kind Ef Ef' i j M M' bound Small App Bd Bd') as Fc.
  destruct (pair_choice Nat.eq_dec (support test i) (support trial j) _ Fc) as (f & Hf).
  eexists. eexists. split; [apply H; assumption|]. split; [exists f; split; [intros t s It Is; now apply (Hf t s It Is)|reflexivity]|].
  rewrite (far_entry X wmod G o deg pts ct test trial P P' F F' d D Ef Ef' Fl Fl' i j Ap val qd Q Vm).
  eapply Rle_trans; [apply (area_bound ct test trial P P' i j _ f (2 * (bound k * (M * M'))))|].
  - intros t s It Is. destruct (Hf t s It Is) as (_ & B). eapply Rle_trans; [exact (B k qd (Ex _ Q) (fun pw => positive_weight X ct HX Ins _ _ pw Q))|]. right. ring.
  - right. ring.
Qed.

(** ** The real and the imaginary part *)
Lemma complex_parts : forall (X : externals R) wmod (G0 : @green R R) (G : @green (R * R) R) o deg pts ct (test trial : fspace R R) (test' trial' : fspace (R * R) R),
  dense_setting X wmod (laplace_single_layer G0) o deg pts ct test trial -> mapped_space embed_real test test' -> mapped_space embed_real trial trial' ->
  forall rt, legal_runtime (s_add complexes) rt -> exists m m1 m2, assemble complexes X rt wmod (laplace_single_layer G) o trial' test' = Ok m /\
    assemble reals X (sequential Rplus) wmod (laplace_single_layer (fun n x y => fst (G n x y))) o trial test = Ok m1 /\
    assemble reals X (sequential Rplus) wmod (laplace_single_layer (fun n x y => snd (G n x y))) o trial test = Ok m2 /\
    forall n v1 v2, nth_error m1 n = Some v1 -> nth_error m2 n = Some v2 -> nth_error m n = Some (v1, v2).
Proof.
  intros X wmod G0 G o deg pts ct test trial test' trial' D Mt Ms rt L.
  assert (Dr : forall H : @green R R, dense_setting X wmod (laplace_single_layer H) o deg pts ct test trial) by (intros H; eapply dense_operator; [|exact D]; apply (shipped_fitting reals), sh_laplace_single).
  assert (Fc : forall H : @green (R * R) R, fitting (laplace_single_layer H)) by (intros H; apply (shipped_fitting complexes), sh_laplace_single).
  assert (Dc : dense_setting X wmod (laplace_single_layer G) o deg pts ct test' trial') by exact (mapped_setting embed_real X wmod (laplace_single_layer G0) (laplace_single_layer G) o deg pts ct test trial test' trial' Mt Ms (Fc G) D).
  set (G1 := fun n x y => embed_real (fst (G n x y))). set (G2 := fun n x y => embed_real (snd (G n x y))).
  destruct (exact_linear_in_kernel complexes X rt wmod (laplace_single_layer G) G1 G2 (1, 0) (0, 1) o deg pts ct test' trial' WaveResults.complexes_exact L Dc) as (c1 & c2 & m & E1 & E2 & E & Hm).
  { intros n x y _. unfold G1, G2, embed_real. cbn. destruct (G n x y) as [g1 g2]. cbn. f_equal; ring. }
  destruct (change_of_scalars reals complexes embed_real X wmod (laplace_single_layer (fun n x y => fst (G n x y))) (laplace_single_layer G1) o deg pts ct test trial test' trial' (sequential Rplus) rt embed_real_map (sequential_legal Rplus) L eq_refl) as (m1 & F1 & H1); auto.
  { intros n x y. reflexivity. }
  destruct (change_of_scalars reals complexes embed_real X wmod (laplace_single_layer (fun n x y => snd (G n x y))) (laplace_single_layer G2) o deg pts ct test trial test' trial' (sequential Rplus) rt embed_real_map (sequential_legal Rplus) L eq_refl) as (m2 & F2 & H2); auto.
  { intros n x y. reflexivity. }
  change (with_kernel (laplace_single_layer G) G1) with (laplace_single_layer (T := R * R) (R := R) G1) in E1. change (with_kernel (laplace_single_layer G) G2) with (laplace_single_layer (T := R * R) (R := R) G2) in E2.
  assert (c1 = map embed_real m1) by congruence. assert (c2 = map embed_real m2) by congruence. subst c1 c2.
  exists m, m1, m2. split; [exact E|]. split; [exact F1|]. split; [exact F2|]. intros n v1 v2 N1 N2. destruct Hm as (_ & _ & Hm). rewrite (Hm n _ _ (map_nth_error embed_real _ _ N1) (map_nth_error embed_real _ _ N2)).
  unfold embed_real. cbn. do 2 f_equal; ring.
Qed.

(** ** The Helmholtz kernel *)
Lemma small_powers sigma C : 0 < sigma < 1 -> 0 <= C -> forall c eps, 0 <= c -> 0 < eps -> exists l, c * (C * sigma ^ S l) <= eps.
Proof.
  intros Hs HC c eps Hc He. destruct (small_tail sigma 0 (c * C) eps ltac:(lra) (Rmult_le_pos _ _ Hc HC) He) as (l & _ & Hl). exists l. eapply Rle_trans; [|exact Hl]. rewrite <- Rmult_assoc. apply Rmult_le_compat_l; [now apply Rmult_le_pos|].
  assert (Pn : 0 <= sigma ^ S l) by (apply pow_le; lra). unfold Rdiv. rewrite <- (Rmult_1_r (sigma ^ S l)) at 1. apply Rmult_le_compat_l; [exact Pn|]. rewrite <- Rinv_1 at 1. apply Rinv_le_contravar; lra.
Qed.

Theorem echoes_entries : forall (X : externals R) wmod e kappa o deg pts ct (test trial : fspace R R) (test' trial' : fspace (R * R) R) P P' F F' k d,
  dense_setting X wmod (laplace_single_layer (newton e)) o deg pts ct test trial -> ct = Triangle \/ ct = Quadrilateral ->
  mapped_space embed_real test test' -> mapped_space embed_real trial trial' ->
  positive_externals (Rle 0) X -> inside_rules X ct -> exact_to X ct (pts ct) (k + d) ->
  element_functions test ct d F -> element_functions trial ct d F' -> flat_grid X (fs_grid test) ct P -> flat_grid X (fs_grid trial) ct P' ->
  forall rt, legal_runtime (s_add complexes) rt ->
  exists m, assemble complexes X rt wmod (helmholtz_single_layer (waves e) kappa) o trial' test' = Ok m /\
  forall i j c c' h h' M M' sigma, (i < global_size (fs_space test))%nat -> (j < global_size (fs_space trial))%nat ->
    supported_in test ct P i c h -> supported_in trial ct P' j c' h' -> (forall t s, In t (support test i) -> In s (support trial j) -> ~ touching test trial t s) ->
    (forall t x y, In t (support test i) -> inside ct x y -> Rabs (piece test F i t x y) <= M) -> (forall s x y, In s (support trial j) -> inside ct x y -> Rabs (piece trial F' j s x y) <= M') ->
    let a := dist c c' in let ratio := (h + h') / a in h + h' < a -> 0 < sigma < 1 -> ratio <= sigma ->
    exists v w w', nth_error m (i + global_size (fs_space test) * j) = Some v /\
      functions_integral ct test trial F F' P P' (fun x y => fst (waves e kappa 0 x y)) i j w /\ functions_integral ct test trial F F' P P' (fun x y => snd (waves e kappa 0 x y)) i j w' /\
      let bound := 2 * (sigma ^ (k + 1) / (1 - ratio)) * exp (Rabs kappa * (a + (h + h')) / sigma) * (M * support_area test ct P i * (M' * support_area trial ct P' j) / (4 * PI * a)) in
      Rabs (fst v - w) <= bound /\ Rabs (snd v - w') <= bound.
Proof.
  intros X wmod e kappa o deg pts ct test trial test' trial' P P' F F' k d D Kind Mt Ms HX Ins Ex Ef Ef' Fl Fl' rt L.
  assert (Dr : forall H : @green R R, dense_setting X wmod (laplace_single_layer H) o deg pts ct test trial) by (intros H; eapply dense_operator; [|exact D]; apply (shipped_fitting reals), sh_laplace_single).
  destruct (complex_parts X wmod (newton e) (waves e kappa) o deg pts ct test trial test' trial' D Mt Ms rt L) as (m & m1 & m2 & E & E1 & E2 & Hm).
  destruct (kernel_entries X wmod _ o deg pts ct test trial P P' F F' k d (Dr (fun n x y => fst (waves e kappa n x y))) Kind HX Ins Ex Ef Ef' Fl Fl' (sequential Rplus) (sequential_legal Rplus)) as (n1 & N1 & H1).
  destruct (kernel_entries X wmod _ o deg pts ct test trial P P' F F' k d (Dr (fun n x y => snd (waves e kappa n x y))) Kind HX Ins Ex Ef Ef' Fl Fl' (sequential Rplus) (sequential_legal Rplus)) as (n2 & N2 & H2).
  assert (n1 = m1) by congruence. assert (n2 = m2) by congruence. subst n1 n2.
  exists m. split; [exact E|]. intros i j c c' h h' M M' sigma Li Lj Sc Sc' Ap Bd Bd' a ratio Far Hs Rs.
  set (far := a * (1 + ratio)). set (beta := 1 / (4 * PI * (a * (1 - ratio)))). set (top := exp (Rabs kappa * far / sigma)).
  assert (Cases : support test i = [] \/ support trial j = [] \/ (0 < a /\ 0 <= ratio < 1)).
  { destruct (support test i) as [|t l] eqn:St; [now left|]. destruct (support trial j) as [|s l'] eqn:Ss; [right; now left|]. right. right. assert (It : In t (support test i)) by (rewrite St; now left). assert (Is : In s (support trial j)) by (rewrite Ss; now left).
    destruct (Sc t It) as (S1 & S2 & S3 & S4), (Sc' s Is) as (S1' & S2' & S3' & S4').
    destruct (positive_distance ct Kind _ _ _ _ _ _ c c' h h' (inside_ball ct (P t) c h Kind S1 S2 S3 S4) (inside_ball ct (P' s) c' h' Kind S1' S2' S3' S4') Far) as (Pa & Hr & _). auto. }
  assert (Ne : forall t s, In t (support test i) -> In s (support trial j) -> 0 < a /\ 0 <= ratio < 1).
  { intros t s It Is. destruct Cases as [Z|[Z|Pa]]; [rewrite Z in It; destruct It|rewrite Z in Is; destruct Is|exact Pa]. }
  set (bd := fun l => Rabs beta * top * sigma ^ S l).
  assert (Small : forall c eps, 0 <= c -> 0 < eps -> exists l, c * bd l <= eps).
  { apply small_powers; [exact Hs|]. apply Rmult_le_pos; [apply Rabs_pos|left; apply exp_pos]. }
  assert (Up : forall l, beta * sigma ^ S l * top <= bd l).
  { intros l. unfold bd. replace (beta * sigma ^ S l * top) with (beta * top * sigma ^ S l) by ring. apply Rmult_le_compat_r; [apply pow_le; lra|]. apply Rmult_le_compat_r; [left; apply exp_pos|apply Rle_abs]. }
  destruct (H1 i j M M' bd Li Lj Ap Small) as (v1 & w1 & V1 & I1 & B1); auto.
  { intros t s It Is. destruct (Sc t It) as (S1 & S2 & S3 & S4), (Sc' s Is) as (S1' & S2' & S3' & S4').
    pose proof (inside_ball ct (P t) c h Kind S1 S2 S3 S4) as In1. pose proof (inside_ball ct (P' s) c' h' Kind S1' S2' S3' S4') as In2.
    eexists. split; [intros n; exact (cosine_joint ct Kind _ _ _ _ _ _ c c' h h' kappa In1 In2 n)|]. intros n x y x' y' I I'. eapply Rle_trans; [exact (cosine_near ct Kind _ _ _ _ _ _ c c' h h' e kappa sigma In1 In2 Far Hs Rs x y x' y' I I' n)|]. apply Up. }
  destruct (H2 i j M M' bd Li Lj Ap Small) as (v2 & w2 & V2 & I2 & B2); auto.
  { intros t s It Is. destruct (Sc t It) as (S1 & S2 & S3 & S4), (Sc' s Is) as (S1' & S2' & S3' & S4').
    pose proof (inside_ball ct (P t) c h Kind S1 S2 S3 S4) as In1. pose proof (inside_ball ct (P' s) c' h' Kind S1' S2' S3' S4') as In2.
    eexists. split; [intros n; exact (sine_joint ct Kind _ _ _ _ _ _ c c' h h' kappa In1 In2 n)|]. intros n x y x' y' I I'. eapply Rle_trans; [exact (sine_near ct Kind _ _ _ _ _ _ c c' h h' e kappa sigma In1 In2 Far Hs Rs x y x' y' I I' n)|]. apply Up. }
  exists (v1, v2), w1, w2. split; [now apply Hm|]. split; [exact I1|]. split; [exact I2|]. cbn [fst snd].
  assert (Eb : 2 * bd k * (M * support_area test ct P i * (M' * support_area trial ct P' j)) =
    2 * (sigma ^ (k + 1) / (1 - ratio)) * exp (Rabs kappa * (a + (h + h')) / sigma) * (M * support_area test ct P i * (M' * support_area trial ct P' j) / (4 * PI * a))).
  { destruct Cases as [Z|[Z|(Pa & Hr)]].
    - unfold support_area at 1 3. rewrite Z. cbn [map fold_right]. unfold Rdiv. ring.
    - unfold support_area at 2 4. rewrite Z. cbn [map fold_right]. unfold Rdiv. ring.
    - replace (a + (h + h')) with far by (unfold far, ratio; fold a; field; lra). fold top. pose proof PI_RGT_0 as Pi. unfold bd. rewrite Rabs_pos_eq by (unfold beta; left; apply Rdiv_lt_0_compat; [lra|]; apply sphere_positive, Rmult_lt_0_compat; lra).
      replace (k + 1)%nat with (S k) by lia. unfold beta. set (A1 := support_area test ct P i). set (A2 := support_area trial ct P' j). clearbody A1 A2 top ratio. field. lra. }
  cbv zeta. rewrite <- Eb. split; [exact B1|exact B2].
Qed.
