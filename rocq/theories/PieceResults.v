(** * Entries of functions with distant supports and the integrals *)
From Coq Require Import Ring_theory Reals Lra Psatz.
From Verif Require Import Base BaseFacts Topology TopologyFacts DofMap DofMapFacts SpecDof DofMapResults DofExamples Process Space SpecSpace Options
  Adjacency SpecAdjacency Scalar Integrand CellPair Operators SpecLocal LocalFacts LocalResults Interleave Assembly SpecAssembly
  AssemblyFacts AssemblySingular AssemblyDense AssemblyExact AssemblyResults SpecAlgebra AlgebraFacts AlgebraResults
  SpecBroken BrokenResults SpecTransfer SpecRounding RoundingModels SpecGalerkin GalerkinResults DistributedResults SpecMeasure MeasureResults Shapes SpecShapes SpecSphere SpecWidth SpecTurns TurnExamples SpecShare
  SphereGeometry SpecFloatSphere FloatSphere FloatSphereNear FloatSphereError SpecWaves SpecDecay DecayResults DecayPoints SpecDigits SpecMoments MomentResults MomentShapes SpecDefinite DefiniteResults
  SpecDegree LegendreSeries DegreeIntegrals DegreeResults DegreeExact SpecRims RimKernel RimResults SpecPatches PatchKernel PatchResults SpecPieces PieceKernel.

Local Open Scope R_scope.
Local Notation dist := SpecWaves.distance.
Local Notation RR := DecayResults.reals_ring.

(** ** Polynomials *)

Lemma polynomial_joint d f g : polynomial d f -> polynomial d g -> joint d (fun x y x' y' => f x y * g x' y').
Proof.
  intros (c & Ec) (c' & Ec').
  assert (J : forall e, (forall l m, (l + m <= d)%nat -> joint d (fun x y x' y' => e x y * (x' ^ l * y' ^ m))) -> joint d (fun x y x' y' => e x y * g x' y')).
  { intros e H.
    assert (In' : forall i l, (forall j, List.In j l -> (i + j <= d)%nat) -> joint d (fun x y x' y' => e x y * fold_right Rplus 0 (map (fun j => c' i j * (x' ^ i * y' ^ j)) l))).
    { intros i l. induction l as [|j l IH]; intros L; [eapply joint_same; [apply (joint_const d 0)|]; intros; cbn; ring|].
      eapply joint_same; [apply (joint_sum d _ _ (joint_scale d (c' i j) _ (H i j (L j (or_introl eq_refl)))) (IH (fun j' I => L j' (or_intror I))))|]. intros. cbn. ring. }
    assert (Out : forall l, (forall i, List.In i l -> (i <= d)%nat) -> joint d (fun x y x' y' => e x y * fold_right Rplus 0 (map (fun i => fold_right Rplus 0 (map (fun j => c' i j * (x' ^ i * y' ^ j)) (seq 0 (d + 1 - i)))) l))).
    { induction l as [|i l IH]; intros L; [eapply joint_same; [apply (joint_const d 0)|]; intros; cbn; ring|].
      eapply joint_same; [apply (joint_sum d _ _ (In' i (seq 0 (d + 1 - i)) ltac:(intros j I; apply in_seq in I; lia)) (IH (fun j' I => L j' (or_intror I))))|]. intros. cbn. ring. }
    eapply joint_same; [apply (Out (seq 0 (d + 1)))|]; [intros i I; apply in_seq in I; lia|]. intros. cbn beta. now rewrite Ec'. }
  apply J. intros l m Lm.
  assert (In' : forall i s, (forall j, List.In j s -> (i + j <= d)%nat) -> joint d (fun x y x' y' => fold_right Rplus 0 (map (fun j => c i j * (x ^ i * y ^ j)) s) * (x' ^ l * y' ^ m))).
  { intros i s. induction s as [|j s IH]; intros L; [eapply joint_same; [apply (joint_const d 0)|]; intros; cbn; ring|].
    eapply joint_same; [apply (joint_sum d _ _ (joint_monomial d (c i j) i j l m (L j (or_introl eq_refl)) Lm) (IH (fun j' I => L j' (or_intror I))))|]. intros. cbn. ring. }
  assert (Out : forall s, (forall i, List.In i s -> (i <= d)%nat) -> joint d (fun x y x' y' => fold_right Rplus 0 (map (fun i => fold_right Rplus 0 (map (fun j => c i j * (x ^ i * y ^ j)) (seq 0 (d + 1 - i)))) s) * (x' ^ l * y' ^ m))).
  { induction s as [|i s IH]; intros L; [eapply joint_same; [apply (joint_const d 0)|]; intros; cbn; ring|].
    eapply joint_same; [apply (joint_sum d _ _ (In' i (seq 0 (d + 1 - i)) ltac:(intros j I; apply in_seq in I; lia)) (IH (fun j' I => L j' (or_intror I))))|]. intros. cbn. ring. }
  eapply joint_same; [apply (Out (seq 0 (d + 1)))|]; [intros i I; apply in_seq in I; lia|]. intros. cbn beta. now rewrite Ec.
Qed.

Lemma sum_polynomial {A} d (f : A -> R -> R -> R) l : (forall a, List.In a l -> polynomial d (f a)) -> polynomial d (fun x y => fold_right Rplus 0 (map (fun a => f a x y) l)).
Proof.
  assert (Z : forall (A : Type) (g : A -> R) s, (forall a, List.In a s -> g a = 0) -> fold_right Rplus 0 (map g s) = 0).
  { intros B g s. induction s as [|b s IH]; intros H; cbn; [reflexivity|]. rewrite H, IH by (intros; try apply H; cbn; auto). ring. }
  assert (P : forall (A : Type) (g g' : A -> R) s, fold_right Rplus 0 (map (fun a => g a + g' a) s) = fold_right Rplus 0 (map g s) + fold_right Rplus 0 (map g' s)).
  { intros B g g' s. induction s as [|b s IH]; cbn; [ring|]. rewrite IH. ring. }
  induction l as [|a l IH]; intros H.
  - exists (fun _ _ => 0). intros x y. symmetry. apply Z. intros i _. apply Z. intros; ring.
  - destruct (H a (or_introl eq_refl)) as (c & Ec), IH as (c' & Ec'); [intros; apply H; now right|]. exists (fun i j => c i j + c' i j). intros x y. cbn [map fold_right]. rewrite Ec, Ec', <- P.
    f_equal. apply map_ext. intros i. rewrite <- P. f_equal. apply map_ext. intros j. ring.
Qed.

(** ** Points of a cell *)

Lemma inside_ball ct T c h : ct = Triangle \/ ct = Quadrilateral -> dist (point_in T 0 0) c <= h -> dist (point_in T 1 0) c <= h -> dist (point_in T 0 1) c <= h ->
  (ct = Quadrilateral -> dist (point_in T 1 1) c <= h) -> forall x y, inside ct x y -> vlen (vsub (point_in T x y) c) <= h.
Proof.
  intros Ht R1 R2 R3 R4 x y I. rewrite dist_vlen in R1, R2, R3. unfold point_in in *. generalize dependent (first_corner T). intros p. generalize (second_corner T), (third_corner T). intros q r R1 R2 R3 R4.
  assert (E1 : vsub (vadd p (vadd (vscale 0 (vsub q p)) (vscale 0 (vsub r p)))) c = vsub p c) by (destruct p as [[? ?] ?], q as [[? ?] ?], r as [[? ?] ?], c as [[? ?] ?]; cbn; f_equal; [f_equal|]; ring).
  assert (E2 : vsub (vadd p (vadd (vscale 1 (vsub q p)) (vscale 0 (vsub r p)))) c = vsub q c) by (destruct p as [[? ?] ?], q as [[? ?] ?], r as [[? ?] ?], c as [[? ?] ?]; cbn; f_equal; [f_equal|]; ring).
  assert (E3 : vsub (vadd p (vadd (vscale 0 (vsub q p)) (vscale 1 (vsub r p)))) c = vsub r c) by (destruct p as [[? ?] ?], q as [[? ?] ?], r as [[? ?] ?], c as [[? ?] ?]; cbn; f_equal; [f_equal|]; ring).
  rewrite E1 in R1. rewrite E2 in R2. rewrite E3 in R3. clear E1 E2 E3.
  assert (Low : 0 <= x -> 0 <= y -> x + y <= 1 -> vlen (vsub (vadd p (vadd (vscale x (vsub q p)) (vscale y (vsub r p)))) c) <= h).
  { intros X Y S. replace (vsub _ c) with (vadd (vscale (1 - x - y) (vsub p c)) (vadd (vscale x (vsub q c)) (vscale y (vsub r c)))).
    - apply combination_bound; auto; lra.
    - destruct p as [[? ?] ?], q as [[? ?] ?], r as [[? ?] ?], c as [[? ?] ?]. cbn. f_equal; [f_equal|]; ring. }
  destruct Ht as [-> | ->]; cbn in I; [apply Low; lra|]. destruct (Rle_or_lt (x + y) 1) as [L|L]; [apply Low; lra|].
  specialize (R4 eq_refl). rewrite dist_vlen in R4.
  replace (vsub _ c) with (vadd (vscale (x + y - 1) (vsub (vadd p (vadd (vscale 1 (vsub q p)) (vscale 1 (vsub r p)))) c)) (vadd (vscale (1 - y) (vsub q c)) (vscale (1 - x) (vsub r c)))).
  - apply combination_bound; auto; lra.
  - destruct p as [[? ?] ?], q as [[? ?] ?], r as [[? ?] ?], c as [[? ?] ?]. cbn. f_equal; [f_equal|]; ring.
Qed.

Lemma in_support fs i t : List.In t (support fs i) <-> (t < ent_count (fs_grid fs) 2)%nat /\ List.In i (dofs_at fs t).
Proof. unfold support. rewrite filter_In, in_seq, memb_in. intuition lia. Qed.

Lemma scaling_nonneg T : 0 <= scaling T.
Proof. apply sqrt_pos. Qed.

(** ** Uniqueness *)
Theorem functions_unique : forall ct test trial F F' P P' K i j v w, ct = Triangle \/ ct = Quadrilateral ->
  functions_integral ct test trial F F' P P' K i j v -> functions_integral ct test trial F F' P P' K i j w -> v = w.
Proof.
  intros ct test trial F F' P P' K i j v w Ht (f & Hf & ->) (f' & Hf' & ->). f_equal. apply map_ext_in. intros t It. f_equal. apply map_ext_in. intros s Is. f_equal.
  exact (pair_integral_unique ct _ _ _ Ht (Hf t s It Is) (Hf' t s It Is)).
Qed.

(** ** Sums of local entries *)

Lemma rule_scale qd c f : rule_sum qd (fun x y x' y' => c * f x y x' y') = c * rule_sum qd f.
Proof. unfold rule_sum. rewrite <- real_total_mul. apply total_ext. intros pw _. rewrite <- real_total_mul. apply total_ext. intros qw _. ring. Qed.

Lemma rule_zero qd f : (forall x y x' y', f x y x' y' = 0) -> rule_sum qd f = 0.
Proof. intros H. rewrite (rule_same qd (fun x y x' y' => 0 * f x y x' y') f) by (intros; rewrite H; ring). rewrite rule_scale. ring. Qed.

Lemma rule_list {A} qd (K : R -> R -> R -> R -> R) (f : A -> R -> R -> R -> R -> R) l :
  total reals l (fun a => rule_sum qd (fun x y x' y' => K x y x' y' * f a x y x' y')) = rule_sum qd (fun x y x' y' => K x y x' y' * fold_right Rplus 0 (map (fun a => f a x y x' y') l)).
Proof.
  induction l as [|a l IH].
  - rewrite rule_zero by (intros; cbn; ring). reflexivity.
  - rewrite AssemblyExact.total_cons, IH. cbn [s_add reals]. rewrite <- rule_add. apply rule_same. intros. cbn. ring.
Qed.

Lemma fold_scale {A} (c : R) (f : A -> R) l : fold_right Rplus 0 (map (fun a => c * f a) l) = c * fold_right Rplus 0 (map f l).
Proof. induction l as [|a l IH]; cbn; [ring|]. rewrite IH. ring. Qed.

Lemma piece_sums qd (K : R -> R -> R -> R -> R) (F F' : nat -> R -> R -> R) (i j : nat) (l l' : list (nat * nat)) :
  total reals l (fun ai => total reals l' (fun bj => if (snd ai =? i) && (snd bj =? j) then rule_sum qd (fun x y x' y' => K x y x' y' * (F (fst ai) x y * F' (fst bj) x' y')) else 0)) =
  rule_sum qd (fun x y x' y' => K x y x' y' * (fold_right Rplus 0 (map (fun ak => if snd ak =? i then F (fst ak) x y else 0) l) * fold_right Rplus 0 (map (fun bk => if snd bk =? j then F' (fst bk) x' y' else 0) l'))).
Proof.
  rewrite (total_ext reals _ _ (fun ai => rule_sum qd (fun x y x' y' => K x y x' y' * ((if snd ai =? i then F (fst ai) x y else 0) * fold_right Rplus 0 (map (fun bk => if snd bk =? j then F' (fst bk) x' y' else 0) l'))))).
  - rewrite rule_list. apply rule_same. intros. f_equal. rewrite Rmult_comm, <- fold_scale. f_equal. apply map_ext. intros. ring.
  - intros [a k] _. cbn [fst snd].
    rewrite (total_ext reals _ _ (fun bj => rule_sum qd (fun x y x' y' => K x y x' y' * ((if k =? i then F a x y else 0) * (if snd bj =? j then F' (fst bj) x' y' else 0))))).
    + rewrite rule_list. apply rule_same. intros. f_equal. now rewrite fold_scale.
    + intros [b l0] _. cbn [fst snd]. destruct (k =? i), (l0 =? j); cbn [andb]; [reflexivity| | |]; rewrite rule_zero by (intros; ring); reflexivity.
Qed.

Section Entries.
Context (X : externals R) (wmod : nat) (e : R) (o : options) (deg : cell_type -> cell_type -> nat) (pts : cell_type -> nat) (ct : cell_type) (test trial : fspace R R)
  (P P' : nat -> vec * vec * vec) (F F' : nat -> R -> R -> R) (d : nat).
Context (D : dense_setting X wmod (laplace_single_layer (newton e)) o deg pts ct test trial) (Kind : ct = Triangle \/ ct = Quadrilateral)
  (Ef : element_functions test ct d F) (Ef' : element_functions trial ct d F') (Fl : flat_grid X (fs_grid test) ct P) (Fl' : flat_grid X (fs_grid trial) ct P').
Notation K t s := (fun x y x' y' => newton e 0 (point_in (P t) x y) (point_in (P' s) x' y')).

Lemma test_serial : serial_space test. Proof. apply (dn_test _ _ _ _ _ _ _ _ _ D). Qed.
Lemma trial_serial : serial_space trial. Proof. apply (dn_trial _ _ _ _ _ _ _ _ _ D). Qed.
Lemma test_ctype t : (t < ent_count (fs_grid test) 2)%nat -> g_ctype (fs_grid test) t = ct.
Proof. intros Ht. pose proof (wf_ctype _ (ss_grid _ test_serial) t Ht) as H. rewrite (dn_test_type _ _ _ _ _ _ _ _ _ D) in H. now destruct H as [H|[]]. Qed.
Lemma trial_ctype t : (t < ent_count (fs_grid trial) 2)%nat -> g_ctype (fs_grid trial) t = ct.
Proof. intros Ht. pose proof (wf_ctype _ (ss_grid _ trial_serial) t Ht) as H. rewrite (dn_trial_type _ _ _ _ _ _ _ _ _ D) in H. now destruct H as [H|[]]. Qed.

Lemma dof_place (fs : fspace R R) t a i : serial_space fs -> (t < ent_count (fs_grid fs) 2)%nat -> g_ctype (fs_grid fs) t = ct -> List.In (a, i) (enumerate (dofs_at fs t)) -> (a < el_dim (fs_family fs ct))%nat.
Proof. intros Sp Ht Ty I. apply In_enumerate in I. rewrite <- Ty, <- (dofs_at_dim fs t Sp Ht). apply nth_error_Some. congruence. Qed.

Lemma far_value t s a b v : (t < ent_count (fs_grid test) 2)%nat -> (s < ent_count (fs_grid trial) 2)%nat -> (a < el_dim (fs_family test ct))%nat -> (b < el_dim (fs_family trial ct))%nat -> ~ touching test trial t s ->
  pair_value reals X (laplace_single_layer (newton e)) deg pts test trial t s a b v -> exists qd, x_simplex X ct (pts ct) = Some qd /\
  v = scaling (P t) * scaling (P' s) * rule_sum qd (fun x y x' y' => K t s x y x' y' * (F a x y * F' b x' y')).
Proof.
  intros Ht Hs La Lb Nt [(C & _)|(_ & qt & qs & A1 & A2 & ->)]; [contradiction|].
  rewrite (test_ctype t Ht) in A1. rewrite (trial_ctype s Hs) in A2.
  assert (qs = qt) by congruence. subst qs. exists qt. split; [exact A1|].
  rewrite (tensor_total reals 1 RR). unfold rule_sum. rewrite <- real_total_mul. apply total_ext. intros pw _. rewrite <- real_total_mul. apply total_ext. intros qw _.
  unfold tensor_term. rewrite (test_ctype t Ht), (trial_ctype s Hs).
  cbn [laplace_single_layer op_integrand op_kernel kn_value integrand_value s_mul s_div s_cast r_mul reals].
  rewrite (flat_position _ _ _ _ _ (fst pw) (Fl t Ht _)), (flat_position _ _ _ _ _ (fst qw) (Fl' s Hs _)).
  unfold jdet. cbn [s_cast reals]. rewrite (fc_area _ _ _ _ _ (Fl t Ht _)), (fc_area _ _ _ _ _ (Fl' s Hs _)).
  rewrite (proj2 (Ef a La)), (proj2 (Ef' b Lb)). unfold scaling, point_in.
  match goal with |- context [newton e 0 ?x ?y] => generalize (newton e 0 x y) end. intros k. ring.
Qed.

Context (i j : nat) (Ap : forall t s, List.In t (support test i) -> List.In s (support trial j) -> ~ touching test trial t s).

Lemma far_entry val qd : x_simplex X ct (pts ct) = Some qd ->
  (forall t s a b, (t < ent_count (fs_grid test) 2)%nat -> (s < ent_count (fs_grid trial) 2)%nat -> pair_value reals X (laplace_single_layer (newton e)) deg pts test trial t s a b (val t s a b)) ->
  matrix_entry reals val test trial i j = fold_right Rplus 0 (map (fun t => fold_right Rplus 0 (map (fun s =>
    scaling (P t) * scaling (P' s) * rule_sum qd (fun x y x' y' => K t s x y x' y' * (piece test F i t x y * piece trial F' j s x' y'))) (support trial j))) (support test i)).
Proof.
  intros Q H. unfold matrix_entry.
  change (support test i) with (filter (fun t => memb i (dofs_at test t)) (seq 0 (ent_count (fs_grid test) 2))). rewrite sum_filter, sum_total. f_equal. apply map_ext_in. intros t Ht. apply in_seq in Ht.
  assert (Ht' : (t < ent_count (fs_grid test) 2)%nat) by lia. clear Ht.
  assert (None : forall (fs : fspace R R) c k, memb k (dofs_at fs c) = false -> forall ak, List.In ak (enumerate (dofs_at fs c)) -> (snd ak =? k) = false).
  { intros fs c k M [a n] I. cbn. apply Nat.eqb_neq. intros ->. apply In_enumerate, nth_error_In in I. apply memb_in in I. congruence. }
  destruct (memb i (dofs_at test t)) eqn:M.
  2:{ rewrite (total_ext reals _ _ (fun _ => 0)); [apply (total_zero reals 1 RR); intros; reflexivity|]. intros s _. rewrite (total_ext reals _ _ (fun _ => 0)); [apply (total_zero reals 1 RR); intros; reflexivity|].
      intros ak I. rewrite (total_ext reals _ _ (fun _ => 0)); [apply (total_zero reals 1 RR); intros; reflexivity|]. intros bj _. now rewrite (None test t i M ak I). }
  unfold support. rewrite sum_filter, sum_total. f_equal. apply map_ext_in. intros s Hs. apply in_seq in Hs. assert (Hs' : (s < ent_count (fs_grid trial) 2)%nat) by lia. clear Hs.
  destruct (memb j (dofs_at trial s)) eqn:M'.
  2:{ rewrite (total_ext reals _ _ (fun _ => 0)); [apply (total_zero reals 1 RR); intros; reflexivity|].
      intros ak I. rewrite (total_ext reals _ _ (fun _ => 0)); [apply (total_zero reals 1 RR); intros; reflexivity|]. intros bj J. now rewrite (None trial s j M' bj J), Bool.andb_false_r. }
  apply memb_in in M, M'. assert (Nt : ~ touching test trial t s) by (apply Ap; apply in_support; auto).
  unfold piece. rewrite <- piece_sums, <- real_total_mul. apply total_ext. intros [a k] Ia. rewrite <- real_total_mul. apply total_ext. intros [b l] Ib. cbn [fst snd].
  destruct ((k =? i) && (l =? j))%bool; [|cbn; ring].
  destruct (far_value t s a b (val t s a b) Ht' Hs' (dof_place test t a k test_serial Ht' (test_ctype t Ht') Ia) (dof_place trial s b l trial_serial Hs' (trial_ctype s Hs') Ib) Nt (H t s a b Ht' Hs')) as (q' & Q' & ->).
  assert (q' = qd) by congruence. subst q'. reflexivity.
Qed.

Lemma piece_polynomial (fs : fspace R R) G k t : serial_space fs -> (t < ent_count (fs_grid fs) 2)%nat -> g_ctype (fs_grid fs) t = ct -> element_functions fs ct d G -> polynomial d (piece fs G k t).
Proof.
  intros Sp Ht Ty E. apply (sum_polynomial d (fun ak x y => if snd ak =? k then G (fst ak) x y else 0)). intros [a n] I. cbn [fst snd]. destruct (n =? k).
  - apply E. exact (dof_place fs t a n Sp Ht Ty I).
  - exact (sum_polynomial d (fun (_ : nat) _ _ => 0) nil (fun a I => match I with end)).
Qed.

Context (c c' : vec) (h h' M M' : R) (Sc : supported_in test ct P i c h) (Sc' : supported_in trial ct P' j c' h') (Far : h + h' < dist c c')
  (Bd : forall t x y, List.In t (support test i) -> inside ct x y -> Rabs (piece test F i t x y) <= M) (Bd' : forall s x y, List.In s (support trial j) -> inside ct x y -> Rabs (piece trial F' j s x y) <= M').
Notation a := (dist c c').
Notation ratio := ((h + h') / a).

Lemma far_cells t s : List.In t (support test i) -> List.In s (support trial j) ->
  exists v, pair_integral ct (fun x y x' y' => K t s x y x' y' * (piece test F i t x y * piece trial F' j s x' y')) v /\
  forall k qd, (forall i j, (i + j <= k + d)%nat -> monomial_sum qd i j = monomial_integral ct i j) ->
    (forall pw, List.In pw (enumerate (qd_weights qd)) -> 0 <= snd pw /\ inside ct (nth (2 * fst pw) (qd_points qd) 0) (nth (2 * fst pw + 1) (qd_points qd) 0)) ->
    Rabs (rule_sum qd (fun x y x' y' => K t s x y x' y' * (piece test F i t x y * piece trial F' j s x' y')) - v) <= 2 * (1 / (4 * PI * a) * (ratio ^ S k / (1 - ratio)) * (M * M') * (reference_area ct * reference_area ct)).
Proof.
  intros It Is. pose proof (Sc t It) as (S1 & S2 & S3 & S4). pose proof (Sc' s Is) as (S1' & S2' & S3' & S4').
  assert (O : inside ct 0 0) by (destruct Kind as [-> | ->]; cbn; lra).
  apply (newton_integral ct Kind _ _ _ _ _ _ c c' h h' e (inside_ball ct (P t) c h Kind S1 S2 S3 S4) (inside_ball ct (P' s) c' h' Kind S1' S2' S3' S4') Far).
  - apply in_support in It, Is. destruct It as (Ht & _), Is as (Hs & _). apply polynomial_joint.
    + exact (piece_polynomial test F i t test_serial Ht (test_ctype t Ht) Ef).
    + exact (piece_polynomial trial F' j s trial_serial Hs (trial_ctype s Hs) Ef').
  - intros x y x' y' I I'. rewrite Rabs_mult. apply Rmult_le_compat; try apply Rabs_pos; [now apply Bd|now apply Bd'].
Qed.

Lemma area_bound f f' B : (forall t s, List.In t (support test i) -> List.In s (support trial j) -> Rabs (f t s - f' t s) <= B * (reference_area ct * reference_area ct)) ->
  Rabs (fold_right Rplus 0 (map (fun t => fold_right Rplus 0 (map (fun s => scaling (P t) * scaling (P' s) * f t s) (support trial j))) (support test i)) -
        fold_right Rplus 0 (map (fun t => fold_right Rplus 0 (map (fun s => scaling (P t) * scaling (P' s) * f' t s) (support trial j))) (support test i))) <=
  B * (support_area test ct P i * support_area trial ct P' j).
Proof.
  intros H. rewrite <- !sum_total. rewrite total_minus.
  replace (B * _) with (total reals (support test i) (fun t => total reals (support trial j) (fun s => B * (scaling (P t) * reference_area ct) * (scaling (P' s) * reference_area ct)))).
  - apply real_total_abs. intros t It. rewrite <- !sum_total, total_minus. apply real_total_abs. intros s Is. rewrite <- Rmult_minus_distr_l, Rabs_mult.
    pose proof (scaling_nonneg (P t)). pose proof (scaling_nonneg (P' s)). rewrite (Rabs_pos_eq (scaling (P t) * scaling (P' s))) by now apply Rmult_le_pos.
    replace (B * (scaling (P t) * reference_area ct) * (scaling (P' s) * reference_area ct)) with (scaling (P t) * scaling (P' s) * (B * (reference_area ct * reference_area ct))) by ring.
    apply Rmult_le_compat_l; [now apply Rmult_le_pos|now apply H].
  - unfold support_area. rewrite <- !sum_total. set (S2 := total reals (support trial j) _).
    rewrite (total_ext reals _ _ (fun t => B * S2 * (scaling (P t) * reference_area ct))).
    + rewrite real_total_mul. rewrite (total_ext reals (support test i) (fun t => cell_area ct (first_corner (P t)) (second_corner (P t)) (third_corner (P t))) (fun t => scaling (P t) * reference_area ct)) by (intros; unfold cell_area, scaling; ring). ring.
    + intros t _. rewrite (total_ext reals _ _ (fun s => B * (scaling (P t) * reference_area ct) * cell_area ct (first_corner (P' s)) (second_corner (P' s)) (third_corner (P' s)))) by (intros; unfold cell_area, scaling; ring).
      rewrite real_total_mul. fold S2. ring.
Qed.
End Entries.

(** ** The matrix *)
Theorem pieces_entries : forall (X : externals R) wmod e o deg pts ct (test trial : fspace R R) P P' F F' k d,
  dense_setting X wmod (laplace_single_layer (newton e)) o deg pts ct test trial -> ct = Triangle \/ ct = Quadrilateral ->
  positive_externals (Rle 0) X -> inside_rules X ct -> exact_to X ct (pts ct) (k + d) ->
  element_functions test ct d F -> element_functions trial ct d F' -> flat_grid X (fs_grid test) ct P -> flat_grid X (fs_grid trial) ct P' ->
  forall rt, legal_runtime Rplus rt ->
  exists m, assemble reals X rt wmod (laplace_single_layer (newton e)) o trial test = Ok m /\
  forall i j c c' h h' M M', (i < global_size (fs_space test))%nat -> (j < global_size (fs_space trial))%nat ->
    supported_in test ct P i c h -> supported_in trial ct P' j c' h' -> (forall t s, In t (support test i) -> In s (support trial j) -> ~ touching test trial t s) ->
    (forall t x y, In t (support test i) -> inside ct x y -> Rabs (piece test F i t x y) <= M) -> (forall s x y, In s (support trial j) -> inside ct x y -> Rabs (piece trial F' j s x y) <= M') ->
    let a := dist c c' in let ratio := (h + h') / a in h + h' < a ->
    exists v w, nth_error m (i + global_size (fs_space test) * j) = Some v /\ functions_integral ct test trial F F' P P' (newton e 0) i j w /\
      Rabs (v - w) <= 2 * (ratio ^ (k + 1) / (1 - ratio)) * (M * support_area test ct P i * (M' * support_area trial ct P' j) / (4 * PI * a)).
Proof.
  intros X wmod e o deg pts ct test trial P P' F F' k d D Kind HX Ins Ex Ef Ef' Fl Fl' rt L.
  destruct (assembled reals 1 RR X rt wmod (laplace_single_layer (newton e)) o deg pts ct test trial L D) as (m & val & Em & _ & Vm & H).
  exists m. split; [exact Em|]. intros i j c c' h h' M M' Li Lj Sc Sc' Ap Bd Bd' a ratio Far.
  destruct (dn_simplex _ _ _ _ _ _ _ _ _ D ct (or_introl eq_refl)) as (_ & qd & Q).
  pose proof (far_cells X wmod e o deg pts ct test trial P P' F F' d D Kind Ef Ef' Fl Fl' i j c c' h h' M M' Sc Sc' Far Bd Bd') as Fc.
  destruct (pair_choice Nat.eq_dec (support test i) (support trial j) _ Fc) as (f & Hf).
  eexists. eexists. split; [apply H; assumption|]. split; [exists f; split; [intros t s It Is; now apply (Hf t s It Is)|reflexivity]|].
  rewrite (far_entry X wmod e o deg pts ct test trial P P' F F' d D Ef Ef' Fl Fl' i j Ap val qd Q Vm).
  eapply Rle_trans; [apply (area_bound ct test trial P P' i j _ f (2 * (1 / (4 * PI * a) * (ratio ^ S k / (1 - ratio)) * (M * M'))))|].
  - intros t s It Is. destruct (Hf t s It Is) as (_ & B). eapply Rle_trans; [exact (B k qd (Ex _ Q) (fun pw => positive_weight X ct HX Ins _ _ pw Q))|]. right. fold a ratio. ring.
  - right. replace (k + 1)%nat with (S k) by lia. set (T := ratio ^ S k / (1 - ratio)). unfold Rdiv. set (U := / (4 * PI * a)). clearbody U T. ring.
Qed.
