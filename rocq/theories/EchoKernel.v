(** * The Helmholtz kernel and polynomials *)
From Coq Require Import Reals Lra Psatz.
From Verif Require Import Base BaseFacts Topology Scalar Integrand CellPair Operators SpecLocal Assembly SpecAssembly AssemblyExact SpecAlgebra AlgebraFacts
  SpecTransfer SpecRounding RoundingModels SpecMeasure MeasureResults Shapes SpecShapes SpecSphere SpecWidth SpecTurns TurnExamples SpecShare
  SphereGeometry SpecFloatSphere FloatSphere FloatSphereNear FloatSphereError SpecWaves SpecDecay DecayResults DecayPoints SpecMoments MomentResults SpecDegree LegendreSeries DegreeIntegrals DegreeResults DegreeExact PatchKernel PieceKernel FluxKernel.

Local Open Scope R_scope.
Local Notation dist := SpecWaves.distance.

(** ** Products of a series with small terms and approximations *)
Section Product.
Context (u B V : nat -> R) (b L beta sigma E : R).
Context (Ps : 0 <= sigma) (Pb : 0 <= beta) (PV : forall l, 0 <= V l) (Hu : forall l, Rabs (u l) <= sigma ^ l * V l) (HE : forall n, sum_f_R0 V n <= E)
  (HL : forall k eps, 0 < eps -> exists n, (k <= n)%nat /\ Rabs (sum_f_R0 u n - L) <= eps) (HB : forall n, Rabs (B n - b) <= beta * sigma ^ S n) (Hb : Rabs b <= beta) (S1 : sigma <= 1).

Lemma cut_sum n left : product_cut u (fun _ => 1) n (S left) = sum_f_R0 u left.
Proof. induction left as [|l IH]; [cbn; ring|]. change (product_cut u (fun _ => 1) n (S (S l))) with (u (S l) * 1 + product_cut u (fun _ => 1) n (S l)). rewrite IH. cbn. ring. Qed.

Lemma head_small n left : (left <= n)%nat -> Rabs (product_cut u (fun m => B m - b) n (S left)) <= beta * sigma ^ S n * sum_f_R0 V left.
Proof.
  assert (One : forall l, (l <= n)%nat -> Rabs (u l * (B (n - l)%nat - b)) <= beta * sigma ^ S n * V l).
  { intros l Hl. rewrite Rabs_mult. replace (beta * sigma ^ S n * V l) with (sigma ^ l * V l * (beta * sigma ^ S (n - l))).
    - apply Rmult_le_compat; try apply Rabs_pos; auto.
    - assert (En : S n = (l + S (n - l))%nat) by lia. rewrite En at 1. rewrite pow_add. ring. }
  induction left as [|l IH]; intros Hl.
  - cbn [product_cut sum_f_R0]. rewrite Rplus_0_r. now apply One.
  - change (product_cut u (fun m => B m - b) n (S (S l))) with (u (S l) * (B (n - S l)%nat - b) + product_cut u (fun m => B m - b) n (S l)). cbn [sum_f_R0].
    eapply Rle_trans; [apply Rabs_triang|]. rewrite Rmult_plus_distr_l, Rplus_comm. apply Rplus_le_compat; [apply IH; lia|now apply One].
Qed.

Lemma tail_small k n : (k <= n)%nat -> Rabs (sum_f_R0 u n - sum_f_R0 u k) <= sigma ^ S k * (sum_f_R0 V n - sum_f_R0 V k).
Proof.
  induction 1 as [|n Hn IH]; [rewrite !Rminus_diag_eq by reflexivity; rewrite Rabs_R0; lra|]. cbn [sum_f_R0].
  replace (sum_f_R0 u n + u (S n) - sum_f_R0 u k) with ((sum_f_R0 u n - sum_f_R0 u k) + u (S n)) by ring. eapply Rle_trans; [apply Rabs_triang|].
  replace (sigma ^ S k * (sum_f_R0 V n + V (S n) - sum_f_R0 V k)) with (sigma ^ S k * (sum_f_R0 V n - sum_f_R0 V k) + sigma ^ S k * V (S n)) by ring. apply Rplus_le_compat; [exact IH|].
  eapply Rle_trans; [apply Hu|]. apply Rmult_le_compat_r; [apply PV|]. replace (S n) with (S k + (n - k))%nat by lia. rewrite pow_add. rewrite <- (Rmult_1_r (sigma ^ S k)) at 2. apply Rmult_le_compat_l; [now apply pow_le|].
  rewrite <- (pow1 (n - k)). apply pow_incr. lra.
Qed.

Lemma series_product k : Rabs (product_cut u B k (S k) - L * b) <= beta * sigma ^ S k * E.
Proof.
  rewrite (sum_of_products u B b k (S k)), cut_sum. set (D := product_cut u (fun m => B m - b) k (S k)).
  assert (HD : Rabs D <= beta * sigma ^ S k * sum_f_R0 V k) by now apply head_small.
  replace (D + b * sum_f_R0 u k - L * b) with (D + b * (sum_f_R0 u k - L)) by ring. eapply Rle_trans; [apply Rabs_triang|]. rewrite (Rabs_mult b).
  assert (Ps' : 0 <= sigma ^ S k) by now apply pow_le. assert (Pbs : 0 <= beta * sigma ^ S k) by now apply Rmult_le_pos.
  assert (T : Rabs (sum_f_R0 u k - L) <= sigma ^ S k * (E - sum_f_R0 V k)).
  { apply le_epsilon. intros eps He. destruct (HL k eps He) as (n & Hn & Bn). pose proof (tail_small k n Hn) as Tn. rewrite Rabs_minus_sym in Tn.
    replace (sum_f_R0 u k - L) with ((sum_f_R0 u k - sum_f_R0 u n) + (sum_f_R0 u n - L)) by ring. eapply Rle_trans; [apply Rabs_triang|]. apply Rplus_le_compat; [|exact Bn]. eapply Rle_trans; [exact Tn|].
    apply Rmult_le_compat_l; [exact Ps'|]. pose proof (HE n). lra. }
  replace (beta * sigma ^ S k * E) with (beta * sigma ^ S k * sum_f_R0 V k + beta * (sigma ^ S k * (E - sum_f_R0 V k))) by ring. apply Rplus_le_compat; [exact HD|].
  apply Rmult_le_compat; try apply Rabs_pos; auto.
Qed.
End Product.

(** ** The series of the cosine and the sine *)
Definition even_term (Q : R) (l : nat) : R := if Nat.even l then (-1) ^ Nat.div2 l / INR (fact l) * Q ^ Nat.div2 l else 0.
Definition odd_term (Q : R) (l : nat) : R := if Nat.even l then (-1) ^ Nat.div2 l / INR (fact (S l)) * Q ^ Nat.div2 l else 0.

Lemma double_even n : Nat.even (2 * n) = true /\ Nat.even (S (2 * n)) = false /\ Nat.div2 (2 * n) = n.
Proof. split; [apply Nat.even_spec; exists n; reflexivity|]. split; [|apply Nat.div2_double]. rewrite Nat.even_succ, <- Nat.negb_even. now replace (Nat.even (2 * n)) with true by (symmetry; apply Nat.even_spec; exists n; reflexivity). Qed.

Lemma sum_even (f : nat -> R) n : (forall l, Nat.even l = false -> f l = 0) -> sum_f_R0 f (2 * n) = sum_f_R0 (fun i => f (2 * i)%nat) n.
Proof.
  intros H. induction n as [|n IH]; [reflexivity|]. replace (2 * S n)%nat with (S (S (2 * n))) by lia. cbn [sum_f_R0]. rewrite IH, (H (S (2 * n))) by apply double_even. replace (2 * S n)%nat with (S (S (2 * n))) by lia. ring.
Qed.

Lemma cosine_sums z k eps : 0 < eps -> exists n, (k <= n)%nat /\ Rabs (sum_f_R0 (even_term (z * z)) n - cos z) <= eps.
Proof.
  intros He. assert (C : infinite_sum (fun i => cos_n i * (z * z) ^ i) (cos z)). { unfold cos. destruct (exist_cos (Rsqr z)) as (l & Hl). exact Hl. }
  destruct (C eps He) as (N & HN). exists (2 * (N + k))%nat. split; [lia|]. rewrite sum_even by (intros l H; unfold even_term; now rewrite H).
  left. specialize (HN (N + k)%nat ltac:(lia)). unfold R_dist in HN. erewrite sum_eq; [exact HN|]. intros i _. unfold even_term, cos_n. destruct (double_even i) as (-> & _ & ->). reflexivity.
Qed.

Lemma sine_sums z k eps : 0 < eps -> exists n, (k <= n)%nat /\ Rabs (z * sum_f_R0 (odd_term (z * z)) n - sin z) <= eps.
Proof.
  intros He. assert (C : exists l, infinite_sum (fun i => sin_n i * (z * z) ^ i) l /\ sin z = z * l). { unfold sin. destruct (exist_sin (Rsqr z)) as (l & Hl). exists l. split; [exact Hl|reflexivity]. }
  destruct C as (l & C & ->). assert (Pz : 0 < Rabs z + 1) by (pose proof (Rabs_pos z); lra). destruct (C (eps / (Rabs z + 1))) as (N & HN); [now apply Rdiv_lt_0_compat|]. exists (2 * (N + k))%nat. split; [lia|].
  rewrite sum_even by (intros j H; unfold odd_term; now rewrite H). specialize (HN (N + k)%nat ltac:(lia)). unfold R_dist in HN.
  rewrite <- Rmult_minus_distr_l, Rabs_mult. replace (sum_f_R0 (fun i => odd_term (z * z) (2 * i)) (N + k)) with (sum_f_R0 (fun i => sin_n i * (z * z) ^ i) (N + k)).
  - set (y := Rabs (sum_f_R0 _ _ - l)) in *. pose proof (Rabs_pos z). assert (0 <= y) by apply Rabs_pos. apply Rle_trans with ((Rabs z + 1) * (eps / (Rabs z + 1))); [|right; field; lra]. apply Rmult_le_compat; lra.
  - apply sum_eq. intros i _. unfold odd_term, sin_n. destruct (double_even i) as (-> & _ & ->). now rewrite Nat.add_1_r.
Qed.

Lemma exponential_sums x n : 0 <= x -> sum_f_R0 (fun l => x ^ l / INR (fact l)) n <= exp x.
Proof.
  intros Hx. apply (sum_incr (fun l => x ^ l / INR (fact l)) n (exp x)).
  - assert (C : infinite_sum (fun i => / INR (fact i) * x ^ i) (exp x)). { unfold exp. destruct (exist_exp x) as (l & Hl). exact Hl. }
    intros eps He. destruct (C eps He) as (N & HN). exists N. intros m Hm. specialize (HN m Hm). erewrite sum_eq; [exact HN|]. intros. cbn. unfold Rdiv. ring.
  - intros l. unfold Rdiv. apply Rmult_le_pos; [now apply pow_le|]. left. apply Rinv_0_lt_compat, INR_fact_lt_0.
Qed.

Lemma exponential_rest x n : 0 <= x -> sum_f_R0 (fun l => x ^ S l / INR (fact (S l))) n <= exp x.
Proof.
  intros Hx. eapply Rle_trans; [|apply (exponential_sums x (S n) Hx)]. rewrite (decomp_sum (fun l => x ^ l / INR (fact l))) by lia. cbn [pred].
  replace (x ^ 0 / INR (fact 0)) with 1 by (cbn; field). lra.
Qed.

(** Terms are bounded by those of the exponential. *)
Lemma even_power z l : Nat.even l = true -> Rabs ((z * z) ^ Nat.div2 l) = Rabs z ^ l.
Proof.
  intros H. apply Nat.even_spec in H. destruct H as (m & ->). rewrite Nat.div2_double, <- RPow_abs, Rabs_mult, pow_mult. f_equal. cbn. ring.
Qed.

Lemma sign_power n : Rabs ((-1) ^ n) = 1.
Proof. apply pow_1_abs. Qed.

Lemma even_small z l : Rabs (even_term (z * z) l) <= Rabs z ^ l / INR (fact l).
Proof.
  assert (P : 0 < / INR (fact l)) by apply Rinv_0_lt_compat, INR_fact_lt_0. assert (Pz : 0 <= Rabs z ^ l) by apply pow_le, Rabs_pos. unfold even_term. destruct (Nat.even l) eqn:H.
  - unfold Rdiv. rewrite !Rabs_mult, sign_power, (even_power z l H), (Rabs_pos_eq (/ _)) by lra. lra.
  - rewrite Rabs_R0. unfold Rdiv. apply Rmult_le_pos; lra.
Qed.
Lemma odd_small z l : Rabs (odd_term (z * z) l) <= Rabs z ^ l / INR (fact (S l)).
Proof.
  assert (P : 0 < / INR (fact (S l))) by apply Rinv_0_lt_compat, INR_fact_lt_0. assert (Pz : 0 <= Rabs z ^ l) by apply pow_le, Rabs_pos. unfold odd_term. destruct (Nat.even l) eqn:H.
  - unfold Rdiv. rewrite !Rabs_mult, sign_power, (even_power z l H), (Rabs_pos_eq (/ _)) by lra. lra.
  - rewrite Rabs_R0. unfold Rdiv. apply Rmult_le_pos; lra.
Qed.

(** ** The kernel between two cells *)
Lemma sphere_positive z : 0 < z -> 0 < 4 * PI * z.
Proof. intros H. pose proof PI_RGT_0. apply Rmult_lt_0_compat; lra. Qed.

Section Echo.
Context (t : cell_type) (Kind : t = Triangle \/ t = Quadrilateral) (p q r p' q' r' c c' : vec) (h h' e kappa sigma : R).
Context (Nc : forall x y, inside t x y -> vlen (vsub (mapped p q r x y) c) <= h) (Nc' : forall x y, inside t x y -> vlen (vsub (mapped p' q' r' x y) c') <= h').
Notation a := (dist c c').
Context (Far : h + h' < a).
Notation rho := ((h + h') / a).
Context (Hs : 0 < sigma < 1) (Rs : rho <= sigma).
Notation ti := (tilt p q r p' q' r' c c').
Notation si := (size p q r p' q' r' c c').
Notation beta := (1 / (4 * PI * (a * (1 - rho)))).
Notation far := (a * (1 + rho)).

(** The square of the distance. *)
Definition squared (x y x' y' : R) : R := a * a * (1 - 2 * ti x y x' y' + si x y x' y').

Lemma squared_joint : joint 2 squared.
Proof.
  eapply joint_same; [apply (joint_scale 2 (a * a) _ (joint_sum 2 _ _ (joint_const 2 1) (joint_sum 2 _ _ (joint_scale 2 (-2) _ (joint_mono 1 2 _ ltac:(lia) (joint_tilt t Kind p q r p' q' r' c c' h h' Nc Nc'))) (joint_size t Kind p q r p' q' r' c c' h h' Nc Nc'))))|].
  intros. cbn beta. unfold squared. ring.
Qed.

Lemma squared_distance x y x' y' : 0 < a -> squared x y x' y' = dist (mapped p q r x y) (mapped p' q' r' x' y') * dist (mapped p q r x y) (mapped p' q' r' x' y').
Proof.
  intros Pa. assert (Sq : forall u v, dist u v * dist u v = inner (vsub u v) (vsub u v)) by (intros; rewrite dist_vlen, vlen_square; reflexivity).
  unfold squared, tilt, size. rewrite !Sq. assert (Ni : inner (vsub c c') (vsub c c') <> 0) by (rewrite <- Sq; nra). unfold shift. generalize (mapped p q r x y), (mapped p' q' r' x' y'). intros P P'. clear - Ni.
  replace (inner (vsub c c') (vsub c c') * _) with (inner (vsub c c') (vsub c c') + 2 * inner (vsub c c') (vadd (vsub P c) (vscale (-1) (vsub P' c'))) + inner (vadd (vsub P c) (vscale (-1) (vsub P' c'))) (vadd (vsub P c) (vscale (-1) (vsub P' c')))) by (field; exact Ni).
  destruct P as [[? ?] ?], P' as [[? ?] ?], c as [[? ?] ?], c' as [[? ?] ?]. cbn. ring.
Qed.

Lemma positive_distance : 0 < a /\ 0 <= rho < 1 /\ a * (1 - rho) = a - (h + h') /\ far = a + (h + h').
Proof.
  destruct (newton_range t Kind p q r p' q' r' c c' h h' Nc Nc' Far) as (Hr & Pu). assert (O : inside t 0 0) by (destruct Kind as [-> | ->]; cbn; lra).
  pose proof (Nc 0 0 O). pose proof (Nc' 0 0 O). pose proof (vlen_nonneg (vsub (mapped p q r 0 0) c)). pose proof (vlen_nonneg (vsub (mapped p' q' r' 0 0) c')). assert (Pa : 0 < a) by lra.
  split; [exact Pa|]. split; [exact Hr|]. split; field; lra.
Qed.

Definition cosine_cut (k : nat) (x y x' y' : R) : R := product_cut (even_term (kappa * kappa * squared x y x' y')) (fun n => cut p q r p' q' r' c c' n x y x' y') k (S k).
Definition sine_cut (k : nat) (x y x' y' : R) : R := product_cut (fun l => kappa * far * odd_term (kappa * kappa * squared x y x' y') l) (fun n => 1 / (4 * PI * far)) k (S k).

Lemma joint_power n f m : joint n f -> joint (m * n) (fun x y x' y' => f x y x' y' ^ m).
Proof. intros J. induction m as [|m IH]; [exact (joint_const 0 1)|]. cbn [Nat.mul pow]. now apply joint_product. Qed.

Lemma joint_terms (w : nat -> R) l : joint l (fun x y x' y' => if Nat.even l then w l * (kappa * kappa * squared x y x' y') ^ Nat.div2 l else 0).
Proof.
  destruct (Nat.even l) eqn:H; [|exact (joint_const l 0)]. apply joint_scale. apply Nat.even_spec in H. destruct H as (m & ->). rewrite Nat.div2_double. rewrite Nat.mul_comm. apply joint_power, joint_scale, squared_joint.
Qed.

Lemma cosine_joint k : joint k (cosine_cut k).
Proof.
  apply (joint_product_cut (fun l x y x' y' => even_term (kappa * kappa * squared x y x' y') l) (fun n => cut p q r p' q' r' c c' n) k (S k) (Nat.le_refl _)).
  - intros l. exact (joint_terms (fun l => (-1) ^ Nat.div2 l / INR (fact l)) l).
  - intros l. exact (newton_joint t Kind p q r p' q' r' c c' h h' Nc Nc' l).
Qed.
Lemma sine_joint k : joint k (sine_cut k).
Proof.
  apply (joint_product_cut (fun l x y x' y' => kappa * far * odd_term (kappa * kappa * squared x y x' y') l) (fun n _ _ _ _ => 1 / (4 * PI * far)) k (S k) (Nat.le_refl _)).
  - intros l. apply joint_scale. exact (joint_terms (fun l => (-1) ^ Nat.div2 l / INR (fact (S l))) l).
  - intros l. apply joint_const.
Qed.

Section Point.
Context (x y x' y' : R) (I : inside t x y) (I' : inside t x' y').
Notation d := (dist (mapped p q r x y) (mapped p' q' r' x' y')).

Lemma between : 0 < a * (1 - rho) <= d /\ d <= far /\ 0 < PI.
Proof.
  destruct positive_distance as (Pa & Hr & -> & ->). pose proof (apart t p q r p' q' r' c c' h h' sigma Nc Nc' Far Rs x y x' y' I I'). pose proof PI_RGT_0. lra.
Qed.

Lemma small_argument : Rabs (kappa * d) <= Rabs kappa * far.
Proof. destruct between as (B1 & B2 & _). rewrite Rabs_mult, (Rabs_pos_eq d) by lra. apply Rmult_le_compat_l; [apply Rabs_pos|exact B2]. Qed.

Lemma power_term l : Rabs (kappa * d) ^ l <= sigma ^ l * (Rabs kappa * far / sigma) ^ l.
Proof.
  destruct positive_distance as (Pa & _). rewrite <- Rpow_mult_distr. replace (sigma * (Rabs kappa * far / sigma)) with (Rabs kappa * far) by (field; lra). apply pow_incr. split; [apply Rabs_pos|apply small_argument].
Qed.

Lemma argument : kappa * kappa * squared x y x' y' = (kappa * d) * (kappa * d).
Proof. rewrite squared_distance by apply positive_distance. ring. Qed.

Lemma weight_nonneg : 0 <= Rabs kappa * far / sigma.
Proof. destruct between as (B1 & B2 & _). unfold Rdiv. apply Rmult_le_pos; [apply Rmult_le_pos; [apply Rabs_pos|lra]|left; apply Rinv_0_lt_compat; lra]. Qed.

Lemma beta_positive : 0 < beta.
Proof. destruct between as (B1 & B2 & P). apply Rdiv_lt_0_compat; [lra|]. apply sphere_positive; lra. Qed.

Lemma cosine_near k : Rabs (fst (waves e kappa 0 (mapped p q r x y) (mapped p' q' r' x' y')) - cosine_cut k x y x' y') <= beta * sigma ^ S k * exp (Rabs kappa * far / sigma).
Proof.
  destruct between as (B1 & B2 & Pi). pose proof weight_nonneg as Pw. pose proof beta_positive as Pb. destruct positive_distance as (Pa & Hr & E1 & E2).
  unfold waves. destruct (Req_EM_T d 0) as [Z|_]; [lra|]. cbn [fst]. rewrite Rabs_minus_sym. unfold cosine_cut. rewrite argument.
  replace (cos (kappa * d) / (4 * PI * d)) with (cos (kappa * d) * (1 / (4 * PI * d))) by (field; lra).
  apply (series_product _ _ (fun l => (Rabs kappa * far / sigma) ^ l / INR (fact l))); try lra.
  - intros l. unfold Rdiv. apply Rmult_le_pos; [now apply pow_le|]. left. apply Rinv_0_lt_compat, INR_fact_lt_0.
  - intros l. eapply Rle_trans; [apply even_small|]. pose proof (power_term l) as Pt. set (w := Rabs kappa * far / sigma) in *. replace (sigma ^ l * (w ^ l / INR (fact l))) with (sigma ^ l * w ^ l * / INR (fact l)) by (unfold Rdiv; ring). unfold Rdiv. apply Rmult_le_compat_r; [left; apply Rinv_0_lt_compat, INR_fact_lt_0|]. exact Pt.
  - intros n. now apply exponential_sums.
  - intros n eps He. now apply cosine_sums.
  - intros n. pose proof (newton_cut t p q r p' q' r' c c' h h' e Nc Nc' Far n x y x' y' I I') as N. unfold newton in N. destruct (Req_EM_T d 0) as [Z|_]; [lra|]. rewrite Rabs_minus_sym. eapply Rle_trans; [exact N|].
    replace (1 / (4 * PI * a) * (rho ^ S n / (1 - rho))) with (beta * rho ^ S n).
    + apply Rmult_le_compat_l; [lra|]. apply pow_incr. lra.
    + set (z := rho) in *. clearbody z. field. lra.
  - rewrite Rabs_pos_eq by (left; apply Rdiv_lt_0_compat; [lra|]; apply sphere_positive; lra). unfold Rdiv. apply Rmult_le_compat_l; [lra|]. apply Rinv_le_contravar; [apply sphere_positive; lra|]. apply Rmult_le_compat_l; lra.
Qed.

Lemma sine_near k : Rabs (snd (waves e kappa 0 (mapped p q r x y) (mapped p' q' r' x' y')) - sine_cut k x y x' y') <= beta * sigma ^ S k * exp (Rabs kappa * far / sigma).
Proof.
  destruct between as (B1 & B2 & Pi). pose proof weight_nonneg as Pw. pose proof beta_positive as Pb. destruct positive_distance as (Pa & Hr & E1 & E2).
  unfold waves. destruct (Req_EM_T d 0) as [Z|_]; [lra|]. cbn [snd]. rewrite Rabs_minus_sym. unfold sine_cut. rewrite argument.
  replace (sin (kappa * d) / (4 * PI * d)) with (far / d * sin (kappa * d) * (1 / (4 * PI * far))).
  2:{ rewrite E2. field. rewrite <- E2. lra. }
  apply (series_product _ _ (fun l => (Rabs kappa * far / sigma) ^ S l / INR (fact (S l)))); try lra.
  - intros l. unfold Rdiv. apply Rmult_le_pos; [now apply pow_le|]. left. apply Rinv_0_lt_compat, INR_fact_lt_0.
  - intros l. rewrite Rabs_mult. pose proof (odd_small (kappa * d) l) as O. pose proof (power_term l) as Pt.
    assert (Pf : 0 < / INR (fact (S l))) by apply Rinv_0_lt_compat, INR_fact_lt_0. assert (Ek : Rabs (kappa * far) = sigma * (Rabs kappa * far / sigma)) by (rewrite Rabs_mult, (Rabs_pos_eq far) by lra; field; lra).
    rewrite Ek. set (w := Rabs kappa * far / sigma) in *. eapply Rle_trans; [apply Rmult_le_compat_l; [apply Rmult_le_pos; lra|exact O]|].
    cbn [pow]. unfold Rdiv. apply Rle_trans with (1 * w * (sigma ^ l * w ^ l * / INR (fact (S l)))); [|right; ring].
    assert (Pp : 0 <= Rabs (kappa * d) ^ l) by apply pow_le, Rabs_pos.
    apply Rmult_le_compat; [apply Rmult_le_pos; lra|apply Rmult_le_pos; lra|apply Rmult_le_compat_r; lra|apply Rmult_le_compat_r; lra].
  - intros n. now apply exponential_rest.
  - intros n eps He. assert (Pd : 0 < far / d) by (apply Rdiv_lt_0_compat; lra). destruct (sine_sums (kappa * d) n (eps / (far / d))) as (m & Hm & Bm); [now apply Rdiv_lt_0_compat|]. exists m. split; [exact Hm|].
    replace (sum_f_R0 (fun l => kappa * far * odd_term (kappa * d * (kappa * d)) l) m) with (kappa * far * sum_f_R0 (odd_term (kappa * d * (kappa * d))) m) by (rewrite scal_sum; apply sum_eq; intros; ring). match goal with |- Rabs ?z <= _ => replace z with (far / d * (kappa * d * sum_f_R0 (odd_term (kappa * d * (kappa * d))) m - sin (kappa * d))) end.
    + rewrite Rabs_mult, (Rabs_pos_eq (far / d)) by lra. apply Rle_trans with (far / d * (eps / (far / d))); [apply Rmult_le_compat_l; lra|]. right. set (z := far / d) in *. clearbody z. field. lra.
    + set (f := far). clearbody f. field. lra.
  - intros n. rewrite Rminus_diag_eq by reflexivity. rewrite Rabs_R0. apply Rmult_le_pos; [lra|apply pow_le; lra].
  - rewrite Rabs_pos_eq by (left; apply Rdiv_lt_0_compat; [lra|]; apply sphere_positive; lra). unfold Rdiv at 1 3. apply Rmult_le_compat_l; [lra|]. apply Rinv_le_contravar; [apply sphere_positive; lra|]. apply Rmult_le_compat_l; lra.
Qed.
End Point.
End Echo.
