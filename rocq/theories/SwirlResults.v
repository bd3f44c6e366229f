(** * Hypersingular entries of functions with distant supports and the integrals *)
From Coq Require Import Ring_theory Reals Lra Psatz.
From Verif Require Import Base BaseFacts Topology TopologyFacts DofMap DofMapFacts SpecDof DofMapResults DofExamples Process Space SpecSpace Options
  Adjacency SpecAdjacency Scalar Integrand CellPair Operators SpecLocal LocalFacts LocalResults Interleave Assembly SpecAssembly
  AssemblyFacts AssemblySingular AssemblyDense AssemblyExact AssemblyResults SpecAlgebra AlgebraFacts AlgebraResults
  SpecBroken BrokenResults SpecTransfer SpecRounding RoundingModels SpecGalerkin GalerkinResults DistributedResults SpecMeasure MeasureResults Shapes SpecShapes SpecSphere SpecWidth SpecTurns TurnExamples SpecShare
  SphereGeometry SpecFloatSphere FloatSphere FloatSphereNear FloatSphereError SpecWaves SpecDecay DecayResults DecayPoints SpecDigits SpecMoments MomentResults MomentShapes SpecDefinite DefiniteResults
  SpecDegree LegendreSeries DegreeIntegrals DegreeResults DegreeExact SpecRims RimKernel RimResults SpecPatches PatchKernel PatchResults SpecPieces PieceKernel PieceResults FluxKernel SpecFluxes FluxResults SpecSwirls.

Local Open Scope R_scope.
Local Notation dist := SpecWaves.distance.
Local Notation RR := DecayResults.reals_ring.
Local Notation coordinate := SpecTurns.coordinate.

(** ** The curl *)
Theorem swirl_turned : forall T g, swirl T (inner g (vsub (second_corner T) (first_corner T))) (inner g (vsub (third_corner T) (first_corner T))) = cross (cell_direction T) g.
Proof.
  intros T g. unfold swirl, cell_direction, normal. destruct (vsub (second_corner T) (first_corner T)) as [[u1 u2] u3], (vsub (third_corner T) (first_corner T)) as [[v1 v2] v3], g as [[g1 g2] g3].
  cbn. f_equal; [f_equal|]; ring.
Qed.

(** ** Uniqueness *)
Theorem swirls_unique : forall ct test trial F1 F2 F1' F2' P P' K i j v w, ct = Triangle \/ ct = Quadrilateral ->
  swirls_integral ct test trial F1 F2 F1' F2' P P' K i j v -> swirls_integral ct test trial F1 F2 F1' F2' P P' K i j w -> v = w.
Proof.
  intros ct test trial F1 F2 F1' F2' P P' K i j v w Ht (f & Hf & ->) (f' & Hf' & ->). f_equal. apply map_ext_in. intros t It. f_equal. apply map_ext_in. intros s Is. f_equal.
  exact (pair_integral_unique ct _ _ _ Ht (Hf t s It Is) (Hf' t s It Is)).
Qed.

(** ** Coordinates of curls *)
Definition swirl_part (T : vec * vec * vec) (F1 F2 : nat -> R -> R -> R) (n a : nat) (x y : R) : R := coordinate n (swirl T (F1 a x y) (F2 a x y)).

Lemma swirl_coordinate T n s1 s2 : coordinate n (swirl T s1 s2) =
  1 / scaling T * coordinate n (vsub (third_corner T) (first_corner T)) * s1 - 1 / scaling T * coordinate n (vsub (second_corner T) (first_corner T)) * s2.
Proof.
  unfold swirl. destruct (vsub (third_corner T) (first_corner T)) as [[? ?] ?], (vsub (second_corner T) (first_corner T)) as [[? ?] ?]. destruct n as [|[|n]]; cbn; ring.
Qed.

Lemma piece_coordinate fs F1 F2 P i t n x y : coordinate n (piece_swirl fs F1 F2 P i t x y) = piece fs (swirl_part (P t) F1 F2 n) i t x y.
Proof.
  unfold piece_swirl. rewrite swirl_coordinate. unfold piece, swirl_part. induction (enumerate (dofs_at fs t)) as [|[a k] l IH]; cbn [map fold_right fst snd]; [ring|].
  rewrite <- IH, swirl_coordinate. destruct (k =? i); ring.
Qed.

Lemma inner_coordinates u v : inner u v = coordinate 0 u * coordinate 0 v + coordinate 1 u * coordinate 1 v + coordinate 2 u * coordinate 2 v.
Proof. destruct u as [[? ?] ?], v as [[? ?] ?]. reflexivity. Qed.

Lemma polynomial_scaled d c c' f g : polynomial d f -> polynomial d g -> polynomial d (fun x y => c * f x y - c' * g x y).
Proof.
  intros (a & Ea) (b & Eb). exists (fun i j => c * a i j - c' * b i j). intros x y. rewrite Ea, Eb.
  assert (L : forall (f f' : nat -> R) s, c * fold_right Rplus 0 (map f s) - c' * fold_right Rplus 0 (map f' s) = fold_right Rplus 0 (map (fun a => c * f a - c' * f' a) s)).
  { intros h h' s. induction s as [|u s IH]; cbn; [ring|]. rewrite <- IH. ring. }
  rewrite L. f_equal. apply map_ext. intros i. rewrite L. f_equal. apply map_ext. intros j. ring.
Qed.

(** ** Sums of local entries *)
Section Entries.
Context (X : externals R) (wmod : nat) (e : R) (o : options) (deg : cell_type -> cell_type -> nat) (pts : cell_type -> nat) (ct : cell_type) (test trial : fspace R R)
  (P P' : nat -> vec * vec * vec) (F F1 F2 F' F1' F2' : nat -> R -> R -> R) (d : nat).
Notation O := (laplace_hypersingular (newton e)).
Context (D : dense_setting X wmod O o deg pts ct test trial) (Kind : ct = Triangle \/ ct = Quadrilateral)
  (Ef : element_slopes test ct d F F1 F2) (Ef' : element_slopes trial ct d F' F1' F2') (Fl : flat_grid X (fs_grid test) ct P) (Fl' : flat_grid X (fs_grid trial) ct P').
Notation K t s := (fun x y x' y' => newton e 0 (point_in (P t) x y) (point_in (P' s) x' y')).
Notation test_serial := (flux_test_serial X wmod O o deg pts ct test trial D).
Notation trial_serial := (flux_trial_serial X wmod O o deg pts ct test trial D).
Notation test_ctype := (flux_test_type X wmod O o deg pts ct test trial D).
Notation trial_ctype := (flux_trial_type X wmod O o deg pts ct test trial D).
Notation W t n a := (swirl_part (P t) F1 F2 n a).
Notation W' s n b := (swirl_part (P' s) F1' F2' n b).

Lemma swirl_value t s a b v : (t < ent_count (fs_grid test) 2)%nat -> (s < ent_count (fs_grid trial) 2)%nat -> (a < el_dim (fs_family test ct))%nat -> (b < el_dim (fs_family trial ct))%nat -> ~ touching test trial t s ->
  pair_value reals X O deg pts test trial t s a b v -> exists qd, x_simplex X ct (pts ct) = Some qd /\
  v = scaling (P t) * scaling (P' s) * (rule_sum qd (fun x y x' y' => K t s x y x' y' * (W t 0 a x y * W' s 0 b x' y')) + rule_sum qd (fun x y x' y' => K t s x y x' y' * (W t 1 a x y * W' s 1 b x' y')) +
    rule_sum qd (fun x y x' y' => K t s x y x' y' * (W t 2 a x y * W' s 2 b x' y'))).
Proof.
  intros Ht Hs La Lb Nt [(C & _)|(_ & qt & qs & A1 & A2 & ->)]; [contradiction|].
  rewrite (test_ctype t Ht) in A1. rewrite (trial_ctype s Hs) in A2.
  assert (qs = qt) by congruence. subst qs. exists qt. split; [exact A1|].
  rewrite <- !rule_add. rewrite (tensor_total reals 1 RR). unfold rule_sum. rewrite <- real_total_mul. apply total_ext. intros pw _. rewrite <- real_total_mul. apply total_ext. intros qw _.
  unfold tensor_term. rewrite (test_ctype t Ht), (trial_ctype s Hs).
  cbn [laplace_hypersingular op_integrand op_kernel kn_value integrand_value s_mul s_div s_cast r_mul reals].
  rewrite (flat_position _ _ _ _ _ (fst pw) (Fl t Ht _)), (flat_position _ _ _ _ _ (fst qw) (Fl' s Hs _)).
  unfold dot, curl, jdet. cbn [s_cast s_add s_sub s_mul reals]. rewrite !(fc_second _ _ _ _ _ (Fl t Ht _)), !(fc_second _ _ _ _ _ (Fl' s Hs _)), !(fc_first _ _ _ _ _ (Fl t Ht _)), !(fc_first _ _ _ _ _ (Fl' s Hs _)) by lia.
  rewrite (fc_area _ _ _ _ _ (Fl t Ht _)), (fc_area _ _ _ _ _ (Fl' s Hs _)).
  destruct (Ef a La) as (_ & _ & _ & _ & T). destruct (T (qd_points qt) (fst pw)) as (_ & -> & ->). clear T. destruct (Ef' b Lb) as (_ & _ & _ & _ & T). destruct (T (qd_points qt) (fst qw)) as (_ & -> & ->). clear T.
  unfold swirl_part. rewrite !swirl_coordinate. unfold point_in. fold (scaling (P t)) (scaling (P' s)).
  match goal with |- context [newton e 0 ?x ?y] => generalize (newton e 0 x y) end. intros k. unfold Rdiv. ring.
Qed.

Context (i j : nat) (Ap : forall t s, List.In t (support test i) -> List.In s (support trial j) -> ~ touching test trial t s).

Lemma swirl_entry val qd : x_simplex X ct (pts ct) = Some qd ->
  (forall t s a b, (t < ent_count (fs_grid test) 2)%nat -> (s < ent_count (fs_grid trial) 2)%nat -> pair_value reals X O deg pts test trial t s a b (val t s a b)) ->
  matrix_entry reals val test trial i j = fold_right Rplus 0 (map (fun t => fold_right Rplus 0 (map (fun s =>
    scaling (P t) * scaling (P' s) * rule_sum qd (fun x y x' y' => K t s x y x' y' * inner (piece_swirl test F1 F2 P i t x y) (piece_swirl trial F1' F2' P' j s x' y'))) (support trial j))) (support test i)).
Proof.
  intros Q H. unfold matrix_entry.
  change (support test i) with (filter (fun t => memb i (dofs_at test t)) (seq 0 (ent_count (fs_grid test) 2))). rewrite sum_filter, sum_total. f_equal. apply map_ext_in. intros t Ht. apply in_seq in Ht.
  assert (Ht' : (t < ent_count (fs_grid test) 2)%nat) by lia. clear Ht.
  assert (None : forall (fs : fspace R R) c k, memb k (dofs_at fs c) = false -> forall ak, List.In ak (enumerate (dofs_at fs c)) -> (snd ak =? k) = false).
  { intros fs c k M [a n] I. cbn. apply Nat.eqb_neq. intros ->. apply In_enumerate, nth_error_In in I. apply memb_in in I. congruence. }
  destruct (memb i (dofs_at test t)) eqn:M.
  2:{ rewrite (total_ext reals _ _ (fun _ => 0)); [apply (total_zero reals 1 RR); intros; reflexivity|]. intros s _. rewrite (total_ext reals _ _ (fun _ => 0)); [apply (total_zero reals 1 RR); intros; reflexivity|].
      intros ak I. rewrite (total_ext reals _ _ (fun _ => 0)); [apply (total_zero reals 1 RR); intros; reflexivity|]. intros bj _. now rewrite (None test t i M ak I). }
  unfold support. rewrite sum_filter, sum_total. f_equal. apply map_ext_in. intros s Hs. apply in_seq in Hs. assert (Hs' : (s < ent_count (fs_grid trial) 2)%nat) by lia. clear Hs.
  destruct (memb j (dofs_at trial s)) eqn:M'.
  2:{ rewrite (total_ext reals _ _ (fun _ => 0)); [apply (total_zero reals 1 RR); intros; reflexivity|].
      intros ak I. rewrite (total_ext reals _ _ (fun _ => 0)); [apply (total_zero reals 1 RR); intros; reflexivity|]. intros bj J. now rewrite (None trial s j M' bj J), Bool.andb_false_r. }
  apply memb_in in M, M'. assert (Nt : ~ touching test trial t s) by (apply Ap; apply in_support; auto).
  rewrite (rule_same qd (fun x y x' y' => (K t s x y x' y' * (piece test (swirl_part (P t) F1 F2 0) i t x y * piece trial (swirl_part (P' s) F1' F2' 0) j s x' y') +
      K t s x y x' y' * (piece test (swirl_part (P t) F1 F2 1) i t x y * piece trial (swirl_part (P' s) F1' F2' 1) j s x' y')) +
      K t s x y x' y' * (piece test (swirl_part (P t) F1 F2 2) i t x y * piece trial (swirl_part (P' s) F1' F2' 2) j s x' y')))
    by (intros; rewrite inner_coordinates, !piece_coordinate; ring).
  rewrite !rule_add. unfold piece. rewrite <- !piece_sums, <- !real_total_add, <- real_total_mul. apply total_ext. intros [a k] Ia. rewrite <- !real_total_add, <- real_total_mul. apply total_ext. intros [b l] Ib. cbn [fst snd].
  destruct ((k =? i) && (l =? j))%bool; [|cbn; ring].
  destruct (swirl_value t s a b (val t s a b) Ht' Hs' (dof_place ct test t a k test_serial Ht' (test_ctype t Ht') Ia) (dof_place ct trial s b l trial_serial Hs' (trial_ctype s Hs') Ib) Nt (H t s a b Ht' Hs')) as (q' & Q' & ->).
  assert (q' = qd) by congruence. subst q'. reflexivity.
Qed.

Lemma swirl_polynomial (fs : fspace R R) G G1 G2 Q k t n : serial_space fs -> (t < ent_count (fs_grid fs) 2)%nat -> g_ctype (fs_grid fs) t = ct -> element_slopes fs ct d G G1 G2 ->
  polynomial d (piece fs (swirl_part (Q t) G1 G2 n) k t).
Proof.
  intros Sp Ht Ty E. apply (sum_polynomial d (fun ak x y => if snd ak =? k then swirl_part (Q t) G1 G2 n (fst ak) x y else 0)). intros [a m] I. cbn [fst snd]. destruct (m =? k).
  - destruct (E a (dof_place ct fs t a m Sp Ht Ty I)) as (P1 & P2 & _). destruct (polynomial_scaled d (1 / scaling (Q t) * coordinate n (vsub (third_corner (Q t)) (first_corner (Q t)))) (1 / scaling (Q t) * coordinate n (vsub (second_corner (Q t)) (first_corner (Q t)))) _ _ P1 P2) as (c & Ec).
    exists c. intros x y. rewrite <- Ec. apply swirl_coordinate.
  - exact (sum_polynomial d (fun (_ : nat) _ _ => 0) nil (fun a I => match I with end)).
Qed.

Context (c c' : vec) (h h' M M' : R) (Sc : supported_in test ct P i c h) (Sc' : supported_in trial ct P' j c' h') (Far : h + h' < dist c c') (PM : 0 <= M) (PM' : 0 <= M')
  (Bd : forall t x y, List.In t (support test i) -> inside ct x y -> inner (piece_swirl test F1 F2 P i t x y) (piece_swirl test F1 F2 P i t x y) <= M * M)
  (Bd' : forall s x y, List.In s (support trial j) -> inside ct x y -> inner (piece_swirl trial F1' F2' P' j s x y) (piece_swirl trial F1' F2' P' j s x y) <= M' * M').
Notation a := (dist c c').
Notation ratio := ((h + h') / a).

Lemma inner_product u v : inner u u <= M * M -> inner v v <= M' * M' -> Rabs (inner u v) <= M * M'.
Proof.
  intros Hu Hv. rewrite <- (Rabs_pos_eq (M * M')) by now apply Rmult_le_pos. apply Rsqr_le_abs_0. unfold Rsqr.
  assert (Cs : inner u v * inner u v <= inner u u * inner v v).
  { destruct u as [[n1 n2] n3], v as [[w1 w2] w3]. cbn. pose proof (Rle_0_sqr (n1 * w2 - n2 * w1)). pose proof (Rle_0_sqr (n1 * w3 - n3 * w1)). pose proof (Rle_0_sqr (n2 * w3 - n3 * w2)). unfold Rsqr in *. nra. }
  assert (Nn : forall u, 0 <= inner u u) by (intros [[? ?] ?]; cbn; nra). eapply Rle_trans; [exact Cs|]. replace (M * M' * (M * M')) with (M * M * (M' * M')) by ring. apply Rmult_le_compat; auto.
Qed.

Lemma swirl_cells t s : List.In t (support test i) -> List.In s (support trial j) ->
  exists v, pair_integral ct (fun x y x' y' => K t s x y x' y' * inner (piece_swirl test F1 F2 P i t x y) (piece_swirl trial F1' F2' P' j s x' y')) v /\
  forall k qd, (forall i j, (i + j <= k + d)%nat -> monomial_sum qd i j = monomial_integral ct i j) ->
    (forall pw, List.In pw (enumerate (qd_weights qd)) -> 0 <= snd pw /\ inside ct (nth (2 * fst pw) (qd_points qd) 0) (nth (2 * fst pw + 1) (qd_points qd) 0)) ->
    Rabs (rule_sum qd (fun x y x' y' => K t s x y x' y' * inner (piece_swirl test F1 F2 P i t x y) (piece_swirl trial F1' F2' P' j s x' y')) - v) <=
      2 * (1 / (4 * PI * a) * (ratio ^ S k / (1 - ratio)) * (M * M') * (reference_area ct * reference_area ct)).
Proof.
  intros It Is. pose proof (Sc t It) as (S1 & S2 & S3 & S4). pose proof (Sc' s Is) as (S1' & S2' & S3' & S4').
  apply (newton_integral ct Kind _ _ _ _ _ _ c c' h h' e (inside_ball ct (P t) c h Kind S1 S2 S3 S4) (inside_ball ct (P' s) c' h' Kind S1' S2' S3' S4') Far (fun x y x' y' => inner (piece_swirl test F1 F2 P i t x y) (piece_swirl trial F1' F2' P' j s x' y'))).
  - apply in_support in It, Is. destruct It as (Ht & _), Is as (Hs & _).
    assert (J : forall n, joint d (fun x y x' y' => piece test (swirl_part (P t) F1 F2 n) i t x y * piece trial (swirl_part (P' s) F1' F2' n) j s x' y')).
    { intros n. apply polynomial_joint.
      - exact (swirl_polynomial test F F1 F2 P i t n test_serial Ht (test_ctype t Ht) Ef).
      - exact (swirl_polynomial trial F' F1' F2' P' j s n trial_serial Hs (trial_ctype s Hs) Ef'). }
    eapply joint_same; [apply (joint_sum d _ _ (joint_sum d _ _ (J 0%nat) (J 1%nat)) (J 2%nat))|]. intros. cbn beta. now rewrite inner_coordinates, !piece_coordinate.
  - intros x y x' y' I I'. apply inner_product; [now apply Bd|now apply Bd'].
Qed.
End Entries.

(** ** The matrix *)
Theorem swirls_entries : forall (X : externals R) wmod e o deg pts ct (test trial : fspace R R) P P' F F1 F2 F' F1' F2' k d,
  dense_setting X wmod (laplace_hypersingular (newton e)) o deg pts ct test trial -> ct = Triangle \/ ct = Quadrilateral ->
  positive_externals (Rle 0) X -> inside_rules X ct -> exact_to X ct (pts ct) (k + d) ->
  element_slopes test ct d F F1 F2 -> element_slopes trial ct d F' F1' F2' -> flat_grid X (fs_grid test) ct P -> flat_grid X (fs_grid trial) ct P' ->
  forall rt, legal_runtime Rplus rt ->
  exists m, assemble reals X rt wmod (laplace_hypersingular (newton e)) o trial test = Ok m /\
  forall i j c c' h h' M M', (i < global_size (fs_space test))%nat -> (j < global_size (fs_space trial))%nat ->
    supported_in test ct P i c h -> supported_in trial ct P' j c' h' -> (forall t s, In t (support test i) -> In s (support trial j) -> ~ touching test trial t s) ->
    0 <= M -> (forall t x y, In t (support test i) -> inside ct x y -> inner (piece_swirl test F1 F2 P i t x y) (piece_swirl test F1 F2 P i t x y) <= M * M) ->
    0 <= M' -> (forall s x y, In s (support trial j) -> inside ct x y -> inner (piece_swirl trial F1' F2' P' j s x y) (piece_swirl trial F1' F2' P' j s x y) <= M' * M') ->
    let a := dist c c' in let ratio := (h + h') / a in h + h' < a ->
    exists v w, nth_error m (i + global_size (fs_space test) * j) = Some v /\ swirls_integral ct test trial F1 F2 F1' F2' P P' (newton e 0) i j w /\
      Rabs (v - w) <= 2 * (ratio ^ (k + 1) / (1 - ratio)) * (M * support_area test ct P i * (M' * support_area trial ct P' j) / (4 * PI * a)).
Proof.
  intros X wmod e o deg pts ct test trial P P' F F1 F2 F' F1' F2' k d D Kind HX Ins Ex Ef Ef' Fl Fl' rt L.
  destruct (assembled reals 1 RR X rt wmod (laplace_hypersingular (newton e)) o deg pts ct test trial L D) as (m & val & Em & _ & Vm & H).
  exists m. split; [exact Em|]. intros i j c c' h h' M M' Li Lj Sc Sc' Ap PM Bd PM' Bd' a ratio Far.
  destruct (dn_simplex _ _ _ _ _ _ _ _ _ D ct (or_introl eq_refl)) as (_ & qd & Q).
  pose proof (swirl_cells X wmod e o deg pts ct test trial P P' F F1 F2 F' F1' F2' d D Kind Ef Ef' i j c c' h h' M M' Sc Sc' Far PM PM' Bd Bd') as Fc.
  destruct (pair_choice Nat.eq_dec (support test i) (support trial j) _ Fc) as (f & Hf).
  eexists. eexists. split; [apply H; assumption|]. split; [exists f; split; [intros t s It Is; now apply (Hf t s It Is)|reflexivity]|].
  rewrite (swirl_entry X wmod e o deg pts ct test trial P P' F F1 F2 F' F1' F2' d D Ef Ef' Fl Fl' i j Ap val qd Q Vm).
  eapply Rle_trans; [apply (area_bound ct test trial P P' i j _ f (2 * (1 / (4 * PI * a) * (ratio ^ S k / (1 - ratio)) * (M * M'))))|].
  - intros t s It Is. destruct (Hf t s It Is) as (_ & B). eapply Rle_trans; [exact (B k qd (Ex _ Q) (fun pw => positive_weight X ct HX Ins _ _ pw Q))|]. right. fold a ratio. ring.
  - right. replace (k + 1)%nat with (S k) by lia. set (T := ratio ^ S k / (1 - ratio)). unfold Rdiv. set (U := / (4 * PI * a)). clearbody U T. ring.
Qed.
