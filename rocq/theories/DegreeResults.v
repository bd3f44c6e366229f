(** * Entries of distant cells and the degree of the regular rules *)
From Coq Require Import Reals Lra Psatz.
From Verif Require Import Base BaseFacts Topology TopologyFacts DofMap DofMapFacts SpecDof DofMapResults Process Space SpecSpace Options
  Adjacency SpecAdjacency Scalar Integrand CellPair Operators SpecLocal LocalFacts LocalResults Interleave Assembly SpecAssembly
  AssemblyFacts AssemblySingular AssemblyDense AssemblyExact AssemblyResults SpecAlgebra AlgebraFacts AlgebraResults
  SpecBroken BrokenResults SpecTransfer SpecRounding RoundingModels SpecGalerkin GalerkinResults SpecMeasure MeasureResults Shapes SpecShapes SpecSphere SpecWidth SpecTurns TurnExamples SpecShare
  SphereGeometry SpecFloatSphere FloatSphere FloatSphereNear FloatSphereError SpecWaves SpecDecay DecayResults DecayPoints SpecMoments MomentResults SpecDegree LegendreSeries.

Local Open Scope R_scope.

Local Notation dist := SpecWaves.distance.

(** ** Polynomials in the coordinates of two points *)

(** Polynomials of degree at most [k] in either pair of variables. *)
Inductive joint (k : nat) : (R -> R -> R -> R -> R) -> Prop :=
| joint_monomial c i j l m : (i + j <= k)%nat -> (l + m <= k)%nat -> joint k (fun x y x' y' => c * (x ^ i * y ^ j) * (x' ^ l * y' ^ m))
| joint_sum f g : joint k f -> joint k g -> joint k (fun x y x' y' => f x y x' y' + g x y x' y')
| joint_same f g : joint k f -> (forall x y x' y', g x y x' y' = f x y x' y') -> joint k g.

Lemma joint_mono k k' f : (k <= k')%nat -> joint k f -> joint k' f.
Proof. intros L. induction 1; [constructor; lia|now constructor|eapply joint_same; eauto]. Qed.

Lemma joint_const k c : joint k (fun _ _ _ _ => c).
Proof. eapply joint_same; [apply (joint_monomial k c 0 0 0 0); lia|]. intros. cbn. ring. Qed.

Lemma joint_scale k c f : joint k f -> joint k (fun x y x' y' => c * f x y x' y').
Proof.
  induction 1 as [d i j l m H1 H2|f g _ IH1 _ IH2|f g _ IH E].
  - eapply joint_same; [apply (joint_monomial k (c * d) i j l m); auto|]. intros. cbn. ring.
  - eapply joint_same; [apply (joint_sum k _ _ IH1 IH2)|]. intros. cbn. ring.
  - eapply joint_same; [exact IH|]. intros. cbn. now rewrite E.
Qed.

Lemma joint_product k k' f g : joint k f -> joint k' g -> joint (k + k') (fun x y x' y' => f x y x' y' * g x y x' y').
Proof.
  intros Hf. revert g. induction Hf as [d i j l m H1 H2|f1 f2 _ IH1 _ IH2|f1 f2 _ IH E]; intros g Hg.
  - induction Hg as [d' i' j' l' m' H1' H2'|g1 g2 _ IH1 _ IH2|g1 g2 _ IH E].
    + eapply joint_same; [apply (joint_monomial (k + k') (d * d') (i + i') (j + j') (l + l') (m + m')); lia|]. intros. cbn beta. rewrite !pow_add. ring.
    + eapply joint_same; [apply (joint_sum _ _ _ IH1 IH2)|]. intros. cbn beta. ring.
    + eapply joint_same; [exact IH|]. intros. cbn beta. now rewrite E.
  - eapply joint_same; [apply (joint_sum _ _ _ (IH1 g Hg) (IH2 g Hg))|]. intros. cbn beta. ring.
  - eapply joint_same; [exact (IH g Hg)|]. intros. cbn beta. now rewrite E.
Qed.

Lemma joint_minus k f g : joint k f -> joint k g -> joint k (fun x y x' y' => f x y x' y' - g x y x' y').
Proof. intros Hf Hg. eapply joint_same; [apply (joint_sum k f _ Hf (joint_scale k (-1) g Hg))|]. intros. cbn beta. ring. Qed.

(** Affine functions. *)
Lemma joint_affine c0 c1 c2 c3 c4 : joint 1 (fun x y x' y' => c0 + c1 * x + c2 * y + c3 * x' + c4 * y').
Proof.
  eapply joint_same; [apply (joint_sum 1 _ _ (joint_const 1 c0) (joint_sum 1 _ _ (joint_monomial 1 c1 1 0 0 0 ltac:(lia) ltac:(lia)) (joint_sum 1 _ _ (joint_monomial 1 c2 0 1 0 0 ltac:(lia) ltac:(lia)) (joint_sum 1 _ _ (joint_monomial 1 c3 0 0 1 0 ltac:(lia) ltac:(lia)) (joint_monomial 1 c4 0 0 0 1 ltac:(lia) ltac:(lia))))))|].
  intros. cbn. ring.
Qed.

(** The coefficients and partial sums of the expansion. *)
Lemma joint_coefficients (s q : R -> R -> R -> R -> R) n : joint 1 s -> joint 2 q ->
  joint n (fun x y x' y' => fst (coefficients (s x y x' y') (q x y x' y') n)) /\ joint (S n) (fun x y x' y' => snd (coefficients (s x y x' y') (q x y x' y') n)).
Proof.
  intros Hs Hq. induction n as [|n (A & B)]; [split; [exact (joint_const 0 1)|exact Hs]|]. cbn [coefficients fst snd]. split; [exact B|].
  eapply joint_same; [apply (joint_minus _ _ _ (joint_scale _ ((2 * INR n + 3) / (INR n + 2)) _ (joint_product _ _ _ _ Hs B)) (joint_scale _ ((INR n + 1) / (INR n + 2)) _ (joint_product _ _ _ _ Hq A)))|].
  intros. cbn beta. pose proof (pos_INR n). field. lra.
Qed.

Lemma joint_partial (s q : R -> R -> R -> R -> R) n : joint 1 s -> joint 2 q -> joint n (fun x y x' y' => partial_sum (s x y x' y') (q x y x' y') n 1).
Proof.
  intros Hs Hq. induction n as [|n IH]; [exact (joint_const 0 1)|]. cbn [partial_sum].
  eapply joint_same; [apply (joint_sum _ _ _ (joint_mono n (S n) _ ltac:(lia) IH) (proj1 (joint_coefficients s q (S n) Hs Hq)))|].
  intros. cbn beta. unfold coefficient. rewrite pow1. ring.
Qed.

(** ** Rules *)

Definition rule_sum (qd : quadrature R) (f : R -> R -> R -> R -> R) : R :=
  total reals (enumerate (qd_weights qd)) (fun pw => total reals (enumerate (qd_weights qd)) (fun qw =>
    f (nth (2 * fst pw) (qd_points qd) 0) (nth (2 * fst pw + 1) (qd_points qd) 0) (nth (2 * fst qw) (qd_points qd) 0) (nth (2 * fst qw + 1) (qd_points qd) 0) * (snd pw * snd qw))).

Lemma rule_add qd f g : rule_sum qd (fun x y x' y' => f x y x' y' + g x y x' y') = rule_sum qd f + rule_sum qd g.
Proof.
  unfold rule_sum. rewrite <- real_total_add. apply total_ext. intros pw _. rewrite <- real_total_add. apply total_ext. intros qw _. cbn. ring.
Qed.

Lemma rule_same qd f g : (forall x y x' y', g x y x' y' = f x y x' y') -> rule_sum qd g = rule_sum qd f.
Proof. intros E. unfold rule_sum. apply total_ext. intros pw _. apply total_ext. intros qw _. now rewrite E. Qed.

Lemma rule_monomial qd c i j l m : rule_sum qd (fun x y x' y' => c * (x ^ i * y ^ j) * (x' ^ l * y' ^ m)) = c * monomial_sum qd i j * monomial_sum qd l m.
Proof.
  unfold rule_sum, monomial_sum.
  rewrite <- !(weights_total (qd_weights qd) (fun p => nth (2 * p) (qd_points qd) 0 ^ _ * nth (2 * p + 1) (qd_points qd) 0 ^ _)).
  rewrite (total_ext reals _ _ (fun pw => c * total reals (enumerate (qd_weights qd)) (fun qw => snd qw * (nth (2 * fst qw) (qd_points qd) 0 ^ l * nth (2 * fst qw + 1) (qd_points qd) 0 ^ m)) * (snd pw * (nth (2 * fst pw) (qd_points qd) 0 ^ i * nth (2 * fst pw + 1) (qd_points qd) 0 ^ j)))).
  - rewrite real_total_mul. ring.
  - intros pw _. rewrite (total_ext reals _ _ (fun qw => c * (nth (2 * fst pw) (qd_points qd) 0 ^ i * nth (2 * fst pw + 1) (qd_points qd) 0 ^ j) * snd pw * (snd qw * (nth (2 * fst qw) (qd_points qd) 0 ^ l * nth (2 * fst qw + 1) (qd_points qd) 0 ^ m)))) by (intros; ring).
    rewrite real_total_mul. ring.
Qed.

(** Rules of the same degree have the same sums of polynomials of that degree. *)
Lemma rule_joint t k qd qd' f : (forall i j, (i + j <= k)%nat -> monomial_sum qd i j = monomial_integral t i j) -> (forall i j, (i + j <= k)%nat -> monomial_sum qd' i j = monomial_integral t i j) ->
  joint k f -> rule_sum qd f = rule_sum qd' f.
Proof.
  intros H H'. induction 1 as [c i j l m H1 H2|f g _ IH1 _ IH2|f g _ IH E].
  - now rewrite !rule_monomial, !H, !H' by assumption.
  - rewrite !rule_add. congruence.
  - rewrite !(rule_same _ f g E). exact IH.
Qed.

Lemma weights_area t k qd : t = Triangle \/ t = Quadrilateral -> (forall i j, (i + j <= k)%nat -> monomial_sum qd i j = monomial_integral t i j) -> fold_right Rplus 0 (qd_weights qd) = reference_area t.
Proof.
  intros Ht H. specialize (H 0%nat 0%nat ltac:(lia)). unfold monomial_sum in H. cbn [pow] in H. rewrite <- (weights_total (qd_weights qd) (fun _ => 1 * 1)) in H.
  rewrite (total_ext reals _ _ (fun pw => snd pw)) in H by (intros; cbn; ring). rewrite sum_weights in H. rewrite H. destruct Ht as [-> | ->]; cbn; field.
Qed.

(** A sum in which every value is bounded. *)
Lemma rule_bound t qd f bd : (forall x y x' y', inside t x y -> inside t x' y' -> Rabs (f x y x' y') <= bd) ->
  (forall pw, List.In pw (enumerate (qd_weights qd)) -> 0 <= snd pw /\ inside t (nth (2 * fst pw) (qd_points qd) 0) (nth (2 * fst pw + 1) (qd_points qd) 0)) ->
  Rabs (rule_sum qd f) <= bd * (fold_right Rplus 0 (qd_weights qd) * fold_right Rplus 0 (qd_weights qd)).
Proof.
  intros H P.
  replace (bd * _) with (total reals (enumerate (qd_weights qd)) (fun pw => total reals (enumerate (qd_weights qd)) (fun qw => bd * (snd pw * snd qw)))).
  - unfold rule_sum. apply real_total_abs. intros pw Hp. apply real_total_abs. intros qw Hq. destruct (P pw Hp) as (W1 & I1), (P qw Hq) as (W2 & I2).
    rewrite Rabs_mult, (Rabs_right (snd pw * snd qw)) by (apply Rle_ge; now apply Rmult_le_pos). apply Rmult_le_compat_r; [now apply Rmult_le_pos|]. now apply H.
  - rewrite (total_ext reals _ _ (fun pw => bd * fold_right Rplus 0 (qd_weights qd) * snd pw)); [rewrite real_total_mul, sum_weights; ring|].
    intros pw _. rewrite (total_ext reals _ _ (fun qw => bd * snd pw * snd qw)) by (intros; ring). rewrite real_total_mul, sum_weights. ring.
Qed.

(** ** The kernel *)
Section Pair.
Context (t : cell_type) (p q r p' q' r' : vec) (h h' e : R) (Kind : t = Triangle \/ t = Quadrilateral) (Rt : radius t p q r h) (Rs : radius t p' q' r' h').
Notation c := (centre t p q r).
Notation c' := (centre t p' q' r').
Notation a := (dist c c').
Context (Far : h + h' < a).

Notation rho := ((h + h') / a).
Definition offset (x y x' y' : R) : vec := vadd (vsub (mapped p q r x y) c) (vscale (-1) (vsub (mapped p' q' r' x' y') c')).
Definition slant (x y x' y' : R) : R := - inner (vsub c c') (offset x y x' y') / (a * a).
Definition stretch (x y x' y' : R) : R := inner (offset x y x' y') (offset x y x' y') / (a * a).

(** The kernel up to the degree [k]. *)
Definition truncated (k : nat) (x y x' y' : R) : R := 1 / (4 * PI * a) * partial_sum (slant x y x' y') (stretch x y x' y') k 1.

Lemma sum_nonneg : 0 <= h + h'.
Proof. destruct Rt as (A & _), Rs as (B & _). rewrite dist_vlen in A, B. pose proof (vlen_nonneg (vsub p c)). pose proof (vlen_nonneg (vsub p' c')). lra. Qed.

Lemma offset_affine : exists u0 u1 u2 u3 u4, forall x y x' y', offset x y x' y' = vadd u0 (vadd (vscale x u1) (vadd (vscale y u2) (vadd (vscale x' u3) (vscale y' u4)))).
Proof.
  exists (vadd (vsub p c) (vscale (-1) (vsub p' c'))), (vsub q p), (vsub r p), (vscale (-1) (vsub q' p')), (vscale (-1) (vsub r' p')). intros. unfold offset, mapped.
  generalize c, c'. intros [[? ?] ?] [[? ?] ?]. destruct p as [[? ?] ?], q as [[? ?] ?], r as [[? ?] ?], p' as [[? ?] ?], q' as [[? ?] ?], r' as [[? ?] ?]. cbn. f_equal; [f_equal|]; ring.
Qed.

Lemma joint_inner z : joint 1 (fun x y x' y' => inner z (offset x y x' y')).
Proof.
  destruct offset_affine as (u0 & u1 & u2 & u3 & u4 & E). eapply joint_same; [apply (joint_affine (inner z u0) (inner z u1) (inner z u2) (inner z u3) (inner z u4))|].
  intros. cbn beta. rewrite E. destruct z as [[? ?] ?], u0 as [[? ?] ?], u1 as [[? ?] ?], u2 as [[? ?] ?], u3 as [[? ?] ?], u4 as [[? ?] ?]. cbn. ring.
Qed.

Lemma joint_slant : joint 1 slant.
Proof. eapply joint_same; [apply (joint_scale 1 (- / (a * a)) _ (joint_inner (vsub c c')))|]. intros. cbn beta. unfold slant, Rdiv. ring. Qed.

Lemma joint_stretch : joint 2 stretch.
Proof.
  eapply joint_same; [apply (joint_scale 2 (/ (a * a)) _ (joint_sum 2 _ _ (joint_product 1 1 _ _ (joint_inner (1, 0, 0)) (joint_inner (1, 0, 0))) (joint_sum 2 _ _ (joint_product 1 1 _ _ (joint_inner (0, 1, 0)) (joint_inner (0, 1, 0))) (joint_product 1 1 _ _ (joint_inner (0, 0, 1)) (joint_inner (0, 0, 1))))))|].
  intros. cbn beta. unfold stretch, Rdiv. destruct (offset x y x' y') as [[? ?] ?]. cbn. ring.
Qed.

Lemma joint_truncated k : joint k (truncated k).
Proof. apply joint_scale, joint_partial; [apply joint_slant|apply joint_stretch]. Qed.

Lemma kernel_near k x y x' y' : inside t x y -> inside t x' y' ->
  Rabs (newton e 0 (mapped p q r x y) (mapped p' q' r' x' y') - truncated k x y x' y') <= 1 / (4 * PI * a) * (rho ^ S k / (1 - rho)).
Proof.
  intros I1 I2. destruct (offset_pair t p q r p' q' r' h h' Kind Rt Rs Far x y x' y' I1 I2) as (w & W & Ew & Ed).
  rewrite (newton_far e t p q r p' q' r' h h' Kind Rt Rs Far x y x' y' I1 I2), Ed. pose proof sum_nonneg as Sn. pose proof PI_RGT_0 as Pi. assert (Pa : 0 < a) by lra.
  unfold truncated, slant, stretch, offset. rewrite <- Ew.
  set (z := vsub c c') in *. assert (Ea : a = vlen z) by apply dist_vlen. assert (Sa : a * a = inner z z) by (rewrite Ea, vlen_square; reflexivity).
  assert (Sw : vlen w * vlen w = inner w w) by (rewrite vlen_square; reflexivity). pose proof (vlen_nonneg w) as Nw.
  destruct (lengths z w (h + h') W) as (L & _); [lra|]. set (b := vlen (vadd z w)) in *.
  assert (Sb : b * b = a * a + 2 * inner z w + inner w w) by (unfold b; rewrite vlen_square, Sa; destruct z as [[? ?] ?], w as [[? ?] ?]; unfold norm2; cbn; ring).
  assert (Cs : inner z w * inner z w <= (a * a) * inner w w).
  { rewrite Sa. destruct z as [[z1 z2] z3], w as [[w1 w2] w3]. cbn. pose proof (Rle_0_sqr (z1 * w2 - z2 * w1)). pose proof (Rle_0_sqr (z1 * w3 - z3 * w1)). pose proof (Rle_0_sqr (z2 * w3 - z3 * w2)). unfold Rsqr in *. nra. }
  assert (Pb : 0 < b) by lra. assert (Paa : 0 < a * a) by nra.
  assert (F : 1 - 2 * (- inner z w / (a * a)) + inner w w / (a * a) = (b / a) * (b / a)).
  { replace (b / a * (b / a)) with (b * b / (a * a)) by (field; lra). rewrite Sb. field. lra. }
  assert (Pr : 0 <= rho) by (unfold Rdiv; apply Rmult_le_pos; [lra|left; apply Rinv_0_lt_compat; lra]).
  assert (Pr1 : rho < 1) by (apply (Rmult_lt_reg_r a); [lra|]; unfold Rdiv; rewrite Rmult_assoc, Rinv_l by lra; lra).
  pose proof (remainder (- inner z w / (a * a)) (inner w w / (a * a)) rho Pr Pr1) as Rm. rewrite F, sqrt_square in Rm by (left; now apply Rdiv_lt_0_compat).
  assert (H1 : - inner z w / (a * a) * (- inner z w / (a * a)) <= inner w w / (a * a)).
  { apply (Rmult_le_reg_r (a * a * (a * a))); [nra|]. replace (- inner z w / (a * a) * (- inner z w / (a * a)) * (a * a * (a * a))) with (inner z w * inner z w) by (field; lra). replace (inner w w / (a * a) * (a * a * (a * a))) with (a * a * inner w w) by (field; lra). exact Cs. }
  assert (H2 : inner w w / (a * a) <= rho * rho).
  { replace (rho * rho) with ((h + h') * (h + h') / (a * a)) by (field; lra). unfold Rdiv. apply Rmult_le_compat_r; [left; apply Rinv_0_lt_compat; lra|]. rewrite <- Sw. nra. }
  specialize (Rm H1 H2 k).
  replace (1 / (4 * PI) * (1 / b) - 1 / (4 * PI * a) * partial_sum (- inner z w / (a * a)) (inner w w / (a * a)) k 1)
    with (1 / (4 * PI * a) * - (partial_sum (- inner z w / (a * a)) (inner w w / (a * a)) k 1 - 1 / (b / a))) by (field; lra).
  assert (0 < 1 / (4 * PI * a)) by (apply Rdiv_lt_0_compat; nra).
  rewrite Rabs_mult, Rabs_Ropp, (Rabs_right (1 / (4 * PI * a))) by lra. apply Rmult_le_compat_l; [lra|exact Rm].
Qed.

Notation det := (sqrt (inner (normal p q r) (normal p q r))).
Notation det' := (sqrt (inner (normal p' q' r') (normal p' q' r'))).

(** The sum over a rule and the sum of the truncated kernel. *)
Lemma sum_near k qd : (forall i j, (i + j <= k)%nat -> monomial_sum qd i j = monomial_integral t i j) ->
  (forall pw, List.In pw (enumerate (qd_weights qd)) -> 0 <= snd pw /\ inside t (nth (2 * fst pw) (qd_points qd) 0) (nth (2 * fst pw + 1) (qd_points qd) 0)) ->
  Rabs (rule_sum qd (fun x y x' y' => newton e 0 (mapped p q r x y) (mapped p' q' r' x' y')) - rule_sum qd (truncated k)) <= 1 / (4 * PI * a) * (rho ^ S k / (1 - rho)) * (reference_area t * reference_area t).
Proof.
  intros H P. pose proof (weights_area t k qd Kind H) as A.
  replace (rule_sum qd (fun x y x' y' => newton e 0 (mapped p q r x y) (mapped p' q' r' x' y')) - rule_sum qd (truncated k))
    with (rule_sum qd (fun x y x' y' => newton e 0 (mapped p q r x y) (mapped p' q' r' x' y') - truncated k x y x' y')).
  - rewrite <- A. apply (rule_bound t); [|exact P]. intros. now apply kernel_near.
  - rewrite (rule_same qd (fun x y x' y' => newton e 0 (mapped p q r x y) (mapped p' q' r' x' y') + (-1) * truncated k x y x' y')) by (intros; ring). rewrite rule_add.
    assert (E : rule_sum qd (fun x y x' y' => -1 * truncated k x y x' y') = -1 * rule_sum qd (truncated k)); [|rewrite E; ring].
    unfold rule_sum. rewrite <- real_total_mul. apply total_ext. intros pw _. rewrite <- real_total_mul. apply total_ext. intros qw _. cbn. ring.
Qed.

Lemma rules_near k qd qd' : (forall i j, (i + j <= k)%nat -> monomial_sum qd i j = monomial_integral t i j) -> (forall i j, (i + j <= k)%nat -> monomial_sum qd' i j = monomial_integral t i j) ->
  (forall pw, List.In pw (enumerate (qd_weights qd)) -> 0 <= snd pw /\ inside t (nth (2 * fst pw) (qd_points qd) 0) (nth (2 * fst pw + 1) (qd_points qd) 0)) ->
  (forall pw, List.In pw (enumerate (qd_weights qd')) -> 0 <= snd pw /\ inside t (nth (2 * fst pw) (qd_points qd') 0) (nth (2 * fst pw + 1) (qd_points qd') 0)) ->
  let v qd := det * det' * rule_sum qd (fun x y x' y' => newton e 0 (mapped p q r x y) (mapped p' q' r' x' y')) in
  Rabs (v qd - v qd') <= 2 * (rho ^ S k / (1 - rho)) * (cell_area t p q r * cell_area t p' q' r' / (4 * PI * a)).
Proof.
  intros H H' P P' v. pose proof (sum_near k qd H P) as N. pose proof (sum_near k qd' H' P') as N'. rewrite <- (rule_joint t k qd qd' _ H H' (joint_truncated k)) in N'.
  unfold v. pose proof PI_RGT_0 as Pi. pose proof sum_nonneg.
  set (f := rule_sum qd (fun x y x' y' => newton e 0 (mapped p q r x y) (mapped p' q' r' x' y'))) in *. set (f' := rule_sum qd' (fun x y x' y' => newton e 0 (mapped p q r x y) (mapped p' q' r' x' y'))) in *. set (g := rule_sum qd (truncated k)) in *.
  replace (det * det' * f - det * det' * f') with (det * det' * ((f - g) + - (f' - g))) by ring.
  assert (Pd : 0 <= det * det') by (apply Rmult_le_pos; apply sqrt_pos).
  rewrite Rabs_mult, (Rabs_right (det * det')) by lra.
  replace (2 * (rho ^ S k / (1 - rho)) * (cell_area t p q r * cell_area t p' q' r' / (4 * PI * a))) with (det * det' * (2 * (1 / (4 * PI * a) * (rho ^ S k / (1 - rho)) * (reference_area t * reference_area t)))).
  - apply Rmult_le_compat_l; [exact Pd|]. eapply Rle_trans; [apply Rabs_triang|]. rewrite Rabs_Ropp. lra.
  - unfold cell_area. set (z := rho ^ S k / (1 - rho)). field. lra.
Qed.
End Pair.

(** ** The matrix *)
Theorem degree_entries (X X' : externals R) wmod wmod' e o o' deg deg' pts pts' ct (test trial : fspace R R) rt rt' k :
  dense_setting X wmod (laplace_single_layer (newton e)) o deg pts ct test trial -> dense_setting X' wmod' (laplace_single_layer (newton e)) o' deg' pts' ct test trial ->
  positive_externals (Rle 0) X -> positive_externals (Rle 0) X' -> constants reals 1 test -> constants reals 1 trial ->
  interior_family (g_types (fs_grid test) 2) (fs_family test) -> interior_family (g_types (fs_grid trial) 2) (fs_family trial) ->
  ct = Triangle \/ ct = Quadrilateral -> inside_rules X ct -> inside_rules X' ct -> exact_to X ct (pts ct) k -> exact_to X' ct (pts' ct) k -> legal_runtime Rplus rt -> legal_runtime Rplus rt' ->
  exists m m', assemble reals X rt wmod (laplace_single_layer (newton e)) o trial test = Ok m /\ assemble reals X' rt' wmod' (laplace_single_layer (newton e)) o' trial test = Ok m' /\
  forall t s i j p q r p' q' r' h h', (t < ent_count (fs_grid test) 2)%nat -> (s < ent_count (fs_grid trial) 2)%nat -> List.In i (dofs_at test t) -> List.In j (dofs_at trial s) -> ~ touching test trial t s ->
    (forall points, flat_cell points p q r (x_geometry X (fs_grid test) ct points t)) -> (forall points, flat_cell points p' q' r' (x_geometry X (fs_grid trial) ct points s)) ->
    (forall points, flat_cell points p q r (x_geometry X' (fs_grid test) ct points t)) -> (forall points, flat_cell points p' q' r' (x_geometry X' (fs_grid trial) ct points s)) ->
    radius ct p q r h -> radius ct p' q' r' h' ->
    let a := dist (centre ct p q r) (centre ct p' q' r') in h + h' < a ->
    exists v v', nth_error m (i + global_size (fs_space test) * j) = Some v /\ nth_error m' (i + global_size (fs_space test) * j) = Some v' /\
      Rabs (v - v') <= 2 * (((h + h') / a) ^ (k + 1) / (1 - (h + h') / a)) * (cell_area ct p q r * cell_area ct p' q' r' / (4 * PI * a)).
Proof.
  intros D D' HX HX' Ct Cs It Is K I I' Ex Ex' L L'.
  destruct (assembled reals 1 reals_ring X rt wmod _ o deg pts ct test trial L D) as (m & val & E & _ & V & H).
  destruct (assembled reals 1 reals_ring X' rt' wmod' _ o' deg' pts' ct test trial L' D') as (m' & val' & E' & _ & V' & H').
  exists m, m'. split; [exact E|]. split; [exact E'|]. intros t s i j p q r p' q' r' h h' Ht Hs Hi Hj N F1 F2 F1' F2' R1 R2 a Fa.
  assert (Li : (i < global_size (fs_space test))%nat) by (eapply serial_lt; eauto; apply D). assert (Lj : (j < global_size (fs_space trial))%nat) by (eapply serial_lt; eauto; apply D).
  eexists. eexists. split; [apply H; auto|]. split; [apply H'; auto|].
  rewrite (single_entry X wmod e o deg pts ct test trial D Ct Cs It Is val t s i j Ht Hs Hi Hj), (single_entry X' wmod' e o' deg' pts' ct test trial D' Ct Cs It Is val' t s i j Ht Hs Hi Hj).
  specialize (V t s 0%nat 0%nat Ht Hs). specialize (V' t s 0%nat 0%nat Ht Hs).
  destruct (regular_sum X wmod e o deg pts ct test trial D Ct Cs t s p q r p' q' r' Ht Hs F1 F2 N _ V) as (qt & qs & A1 & A2 & ->). rewrite A1 in A2. apply (f_equal (fun o => match o with Some z => z | None => qs end)) in A2. subst qs.
  destruct (regular_sum X' wmod' e o' deg' pts' ct test trial D' Ct Cs t s p q r p' q' r' Ht Hs F1' F2' N _ V') as (qt' & qs & A1' & A2 & ->). rewrite A1' in A2. apply (f_equal (fun o => match o with Some z => z | None => qs end)) in A2. subst qs.
  pose proof (rules_near ct p q r p' q' r' h h' e K R1 R2 Fa k qt qt' (Ex _ A1) (Ex' _ A1') (fun pw => positive_weight X ct HX I _ _ pw A1) (fun pw => positive_weight X' ct HX' I' _ _ pw A1')) as B. cbv zeta in B.
  replace (k + 1)%nat with (S k) by lia. fold a in B. eapply Rle_trans; [|exact B]. right. f_equal. unfold rule_sum. f_equal; [|f_equal].
  - rewrite <- real_total_mul. apply total_ext. intros pw _. rewrite <- real_total_mul. apply total_ext. intros qw _. ring.
  - rewrite <- real_total_mul. apply total_ext. intros pw _. rewrite <- real_total_mul. apply total_ext. intros qw _. ring.
Qed.
