(** * Derivatives of the Helmholtz kernel and polynomials *)
From Coq Require Import Reals Lra Psatz.
From Verif Require Import Base BaseFacts Topology Scalar Integrand CellPair Operators SpecLocal Assembly SpecAssembly AssemblyExact SpecAlgebra AlgebraFacts
  SpecTransfer SpecRounding RoundingModels SpecMeasure MeasureResults Shapes SpecShapes SpecSphere SpecWidth SpecTurns TurnExamples SpecShare
  SphereGeometry SpecFloatSphere FloatSphere FloatSphereNear FloatSphereError SpecWaves SpecDecay DecayResults DecayPoints SpecMoments MomentResults SpecDegree LegendreSeries DegreeIntegrals DegreeResults DegreeExact PatchKernel PieceKernel FluxKernel EchoKernel.

Local Open Scope R_scope.
Local Notation dist := SpecWaves.distance.

(** ** The series of [cos z + z sin z] and [(sin z - z cos z) / z^3] *)
Definition outer_term (Q : R) (l : nat) : R := (1 - INR l) * even_term Q l.
Definition inner_term (Q : R) (l : nat) : R := if Nat.even l then (-1) ^ Nat.div2 l * (INR (l + 2) / INR (fact (l + 3))) * Q ^ Nat.div2 l else 0.

Lemma fact_two l : INR (fact (S (S l))) = INR (S (S l)) * INR (fact (S l)).
Proof. now rewrite <- mult_INR. Qed.

Lemma outer_shift Q l : outer_term Q (S (S l)) = even_term Q (S (S l)) + Q * odd_term Q l.
Proof.
  unfold outer_term, even_term, odd_term. cbn [Nat.even Nat.div2]. destruct (Nat.even l); [|ring]. rewrite fact_two.
  assert (INR (fact (S l)) <> 0) by apply INR_fact_neq_0. assert (INR (S (S l)) <> 0) by (apply not_0_INR; lia). cbn [pow]. field. auto.
Qed.

Lemma inner_shift Q l : odd_term Q (S (S l)) - even_term Q (S (S l)) = Q * inner_term Q l.
Proof.
  unfold inner_term, even_term, odd_term. cbn [Nat.even Nat.div2]. destruct (Nat.even l); [|ring]. replace (l + 3)%nat with (S (S (S l))) by lia. replace (l + 2)%nat with (S (S l)) by lia. rewrite (fact_two (S l)).
  assert (INR (fact (S (S l))) <> 0) by apply INR_fact_neq_0. assert (INR (S (S (S l))) <> 0) by (apply not_0_INR; lia). rewrite (S_INR (S (S l))) in *. cbn [pow]. field. auto.
Qed.

Lemma outer_sums Q n : sum_f_R0 (outer_term Q) (S (S n)) = sum_f_R0 (even_term Q) (S (S n)) + Q * sum_f_R0 (odd_term Q) n.
Proof.
  induction n as [|n IH].
  - cbn [sum_f_R0]. rewrite outer_shift. unfold outer_term, even_term, odd_term. cbn. field.
  - change (sum_f_R0 (outer_term Q) (S (S (S n)))) with (sum_f_R0 (outer_term Q) (S (S n)) + outer_term Q (S (S (S n)))). rewrite IH, outer_shift. cbn [sum_f_R0]. ring.
Qed.

Lemma inner_sums Q n : sum_f_R0 (odd_term Q) (S (S n)) - sum_f_R0 (even_term Q) (S (S n)) = Q * sum_f_R0 (inner_term Q) n.
Proof.
  induction n as [|n IH].
  - cbn [sum_f_R0]. rewrite <- inner_shift. unfold even_term, odd_term. cbn. field.
  - change (sum_f_R0 (odd_term Q) (S (S (S n)))) with (sum_f_R0 (odd_term Q) (S (S n)) + odd_term Q (S (S (S n)))). change (sum_f_R0 (even_term Q) (S (S (S n)))) with (sum_f_R0 (even_term Q) (S (S n)) + even_term Q (S (S (S n)))).
    change (sum_f_R0 (inner_term Q) (S n)) with (sum_f_R0 (inner_term Q) n + inner_term Q (S n)). rewrite Rmult_plus_distr_l, <- IH, <- inner_shift. ring.
Qed.

(** Both series from some term on. *)
Lemma cosine_limit z eps : 0 < eps -> exists N, forall m, (N <= m)%nat -> Rabs (sum_f_R0 (even_term (z * z)) (2 * m) - cos z) <= eps.
Proof.
  intros He. assert (C : infinite_sum (fun i => cos_n i * (z * z) ^ i) (cos z)). { unfold cos. destruct (exist_cos (Rsqr z)) as (l & Hl). exact Hl. }
  destruct (C eps He) as (N & HN). exists N. intros m Hm. rewrite sum_even by (intros l H; unfold even_term; now rewrite H).
  left. specialize (HN m ltac:(lia)). unfold R_dist in HN. erewrite sum_eq; [exact HN|]. intros i _. unfold even_term, cos_n. destruct (double_even i) as (-> & _ & ->). reflexivity.
Qed.

Lemma sine_limit z eps : 0 < eps -> exists N, forall m, (N <= m)%nat -> Rabs (z * sum_f_R0 (odd_term (z * z)) (2 * m) - sin z) <= eps.
Proof.
  intros He. assert (C : exists l, infinite_sum (fun i => sin_n i * (z * z) ^ i) l /\ sin z = z * l). { unfold sin. destruct (exist_sin (Rsqr z)) as (l & Hl). exists l. split; [exact Hl|reflexivity]. }
  destruct C as (l & C & ->). assert (Pz : 0 < Rabs z + 1) by (pose proof (Rabs_pos z); lra). destruct (C (eps / (Rabs z + 1))) as (N & HN); [now apply Rdiv_lt_0_compat|]. exists N. intros m Hm.
  rewrite sum_even by (intros j H; unfold odd_term; now rewrite H). specialize (HN m Hm). unfold R_dist in HN.
  rewrite <- Rmult_minus_distr_l, Rabs_mult. replace (sum_f_R0 (fun i => odd_term (z * z) (2 * i)) m) with (sum_f_R0 (fun i => sin_n i * (z * z) ^ i) m).
  - set (y := Rabs (sum_f_R0 _ _ - l)) in *. pose proof (Rabs_pos z). assert (0 <= y) by apply Rabs_pos. apply Rle_trans with ((Rabs z + 1) * (eps / (Rabs z + 1))); [|right; field; lra]. apply Rmult_le_compat; lra.
  - apply sum_eq. intros i _. unfold odd_term, sin_n. destruct (double_even i) as (-> & _ & ->). now rewrite Nat.add_1_r.
Qed.

Lemma outer_limit z k eps : 0 < eps -> exists n, (k <= n)%nat /\ Rabs (sum_f_R0 (outer_term (z * z)) n - (cos z + z * sin z)) <= eps.
Proof.
  intros He. pose proof (Rabs_pos z) as Pz. destruct (cosine_limit z (eps / 2) ltac:(lra)) as (N & HN). destruct (sine_limit z (eps / 2 / (Rabs z + 1))) as (N' & HN'); [apply Rdiv_lt_0_compat; lra|].
  set (m := (N + N' + k)%nat). exists (S (S (2 * m))). split; [lia|]. rewrite outer_sums. specialize (HN (S m) ltac:(lia)). specialize (HN' m ltac:(lia)). replace (2 * S m)%nat with (S (S (2 * m))) in HN by lia.
  set (C := sum_f_R0 (even_term _) _) in *. set (Sn := sum_f_R0 (odd_term _) _) in *. replace (C + z * z * Sn - (cos z + z * sin z)) with ((C - cos z) + z * (z * Sn - sin z)) by ring. eapply Rle_trans; [apply Rabs_triang|]. rewrite (Rabs_mult z).
  set (y := Rabs (z * Sn - sin z)) in *. assert (0 <= y) by apply Rabs_pos. assert (Rabs z * y <= eps / 2); [|lra].
  apply Rle_trans with ((Rabs z + 1) * (eps / 2 / (Rabs z + 1))); [apply Rmult_le_compat; lra|right; field; lra].
Qed.

Lemma inner_limit z k eps : 0 < eps -> exists n, (k <= n)%nat /\ Rabs (z * z * z * sum_f_R0 (inner_term (z * z)) n - (sin z - z * cos z)) <= eps.
Proof.
  intros He. pose proof (Rabs_pos z) as Pz. destruct (sine_limit z (eps / 2) ltac:(lra)) as (N & HN). destruct (cosine_limit z (eps / 2 / (Rabs z + 1))) as (N' & HN'); [apply Rdiv_lt_0_compat; lra|].
  set (m := (N + N' + k)%nat). exists (2 * m)%nat. split; [lia|]. specialize (HN (S m) ltac:(lia)). specialize (HN' (S m) ltac:(lia)). replace (2 * S m)%nat with (S (S (2 * m))) in HN, HN' by lia.
  replace (z * z * z * sum_f_R0 (inner_term (z * z)) (2 * m)) with (z * (z * z * sum_f_R0 (inner_term (z * z)) (2 * m))) by ring. rewrite <- inner_sums.
  set (C := sum_f_R0 (even_term _) _) in *. set (Sn := sum_f_R0 (odd_term _) _) in *. replace (z * (Sn - C) - (sin z - z * cos z)) with ((z * Sn - sin z) + - (z * (C - cos z))) by ring. eapply Rle_trans; [apply Rabs_triang|]. rewrite Rabs_Ropp, (Rabs_mult z).
  set (y := Rabs (C - cos z)) in *. assert (0 <= y) by apply Rabs_pos. assert (Rabs z * y <= eps / 2); [|lra].
  apply Rle_trans with ((Rabs z + 1) * (eps / 2 / (Rabs z + 1))); [apply Rmult_le_compat; lra|right; field; lra].
Qed.

(** Bounds of the terms. *)
Lemma power_of_two l : INR l + 1 <= 2 ^ l.
Proof. induction l as [|l IH]; [cbn; lra|]. rewrite S_INR. cbn [pow]. assert (0 <= INR l) by apply pos_INR. lra. Qed.

Lemma outer_small z l : Rabs (outer_term (z * z) l) <= Rabs z ^ l * (2 ^ l / INR (fact l)).
Proof.
  unfold outer_term. rewrite Rabs_mult. replace (Rabs z ^ l * (2 ^ l / INR (fact l))) with (2 ^ l * (Rabs z ^ l / INR (fact l))) by (unfold Rdiv; ring).
  apply Rmult_le_compat; try apply Rabs_pos; [|apply even_small]. pose proof (power_of_two l). pose proof (pos_INR l). apply Rabs_le. lra.
Qed.

Lemma inner_small z l : Rabs (inner_term (z * z) l) <= Rabs z ^ l * (2 ^ (l + 3) / INR (fact (l + 3))).
Proof.
  assert (P : 0 < / INR (fact (l + 3))) by apply Rinv_0_lt_compat, INR_fact_lt_0. assert (Pz : 0 <= Rabs z ^ l) by apply pow_le, Rabs_pos. assert (P2 : 0 < 2 ^ (l + 3)) by (apply pow_lt; lra).
  unfold inner_term. destruct (Nat.even l) eqn:H.
  - unfold Rdiv. rewrite !Rabs_mult, sign_power, (even_power z l H), (Rabs_pos_eq (/ _)), (Rabs_pos_eq (INR _)) by (try apply pos_INR; lra). rewrite Rmult_1_l, Rmult_comm. apply Rmult_le_compat_l; [exact Pz|]. apply Rmult_le_compat_r; [lra|].
    pose proof (power_of_two (l + 3)) as T. rewrite plus_INR in T. rewrite plus_INR. cbn in T |- *. lra.
  - rewrite Rabs_R0. apply Rmult_le_pos; [exact Pz|]. unfold Rdiv. apply Rmult_le_pos; lra.
Qed.

Lemma exponential_third x n : 0 <= x -> sum_f_R0 (fun l => x ^ (l + 3) / INR (fact (l + 3))) n <= exp x.
Proof.
  intros Hx. eapply Rle_trans; [|apply (exponential_sums x (n + 3) Hx)].
  assert (T : forall l, 0 <= x ^ l / INR (fact l)) by (intros l; unfold Rdiv; apply Rmult_le_pos; [now apply pow_le|left; apply Rinv_0_lt_compat, INR_fact_lt_0]).
  induction n as [|n IH]; cbn [Nat.add sum_f_R0].
  - pose proof (T 0%nat). pose proof (T 1%nat). pose proof (T 2%nat). lra.
  - apply Rplus_le_compat; [exact IH|right; reflexivity].
Qed.

(** ** The kernel between two cells *)
Section Drift.
Context (t : cell_type) (Kind : t = Triangle \/ t = Quadrilateral) (p q r p' q' r' c c' : vec) (h h' kappa sigma : R).
Context (Nc : forall x y, inside t x y -> vlen (vsub (mapped p q r x y) c) <= h) (Nc' : forall x y, inside t x y -> vlen (vsub (mapped p' q' r' x y) c') <= h').
Notation a := (dist c c').
Context (Far : h + h' < a).
Notation rho := ((h + h') / a).
Context (Hs : 0 < sigma < 1) (Rs : rho <= sigma * sigma).
Notation ti := (tilt p q r p' q' r' c c').
Notation si := (size p q r p' q' r' c c').
Notation beta := (1 / (a * a * a) * (3 / ((1 - sigma) * (1 - sigma) * (1 - sigma)))).
Notation far := (a * (1 + rho)).
Notation sq := (squared p q r p' q' r' c c').
Notation w := (Rabs kappa * far / sigma).
Notation z x y x' y' := (kappa * dist (mapped p q r x y) (mapped p' q' r' x' y')).

Definition outer_kernel (x y x' y' : R) : R := cubed p q r p' q' r' x y x' y' * (cos (z x y x' y') + z x y x' y' * sin (z x y x' y')).
Definition inner_kernel (x y x' y' : R) : R := cubed p q r p' q' r' x y x' y' * (sin (z x y x' y') - z x y x' y' * cos (z x y x' y')).
Definition outer_cut (k : nat) (x y x' y' : R) : R := product_cut (outer_term (kappa * kappa * sq x y x' y')) (fun n => 1 / (a * a * a) * cube_cut (ti x y x' y') (si x y x' y') n) k (S k).
Definition inner_cut (k : nat) (x y x' y' : R) : R := product_cut (fun l => (kappa * far) * (kappa * far) * (kappa * far) * inner_term (kappa * kappa * sq x y x' y') l) (fun n => 1 / (far * far * far)) k (S k).

Lemma ratio_small : rho <= sigma.
Proof. nra. Qed.

Lemma outer_joint k : joint k (outer_cut k).
Proof.
  apply (joint_product_cut (fun l x y x' y' => outer_term (kappa * kappa * sq x y x' y') l) (fun n x y x' y' => 1 / (a * a * a) * cube_cut (ti x y x' y') (si x y x' y') n) k (S k) (Nat.le_refl _)).
  - intros l. unfold outer_term. apply joint_scale. exact (joint_terms t Kind p q r p' q' r' c c' h h' kappa Nc Nc' (fun l => (-1) ^ Nat.div2 l / INR (fact l)) l).
  - intros n. apply joint_scale, joint_cube; [exact (joint_tilt t Kind p q r p' q' r' c c' h h' Nc Nc')|exact (joint_size t Kind p q r p' q' r' c c' h h' Nc Nc')].
Qed.
Lemma inner_joint k : joint k (inner_cut k).
Proof.
  apply (joint_product_cut (fun l x y x' y' => (kappa * far) * (kappa * far) * (kappa * far) * inner_term (kappa * kappa * sq x y x' y') l) (fun n _ _ _ _ => 1 / (far * far * far)) k (S k) (Nat.le_refl _)).
  - intros l. apply joint_scale. exact (joint_terms t Kind p q r p' q' r' c c' h h' kappa Nc Nc' (fun l => (-1) ^ Nat.div2 l * (INR (l + 2) / INR (fact (l + 3)))) l).
  - intros l. apply joint_const.
Qed.

Section Point.
Context (x y x' y' : R) (I : inside t x y) (I' : inside t x' y').
Notation d := (dist (mapped p q r x y) (mapped p' q' r' x' y')).

Lemma drift_between : 0 < a /\ 0 <= rho < 1 /\ 0 < a * (1 - rho) <= d /\ d <= far /\ 0 <= w.
Proof.
  destruct (positive_distance t Kind p q r p' q' r' c c' h h' Nc Nc' Far) as (Pa & Hr & _). split; [exact Pa|]. split; [exact Hr|].
  destruct (between t Kind p q r p' q' r' c c' h h' sigma Nc Nc' Far ratio_small x y x' y' I I') as (B1 & B2 & _). split; [exact B1|]. split; [exact B2|].
  exact (weight_nonneg t Kind p q r p' q' r' c c' h h' kappa sigma Nc Nc' Far Hs ratio_small x y x' y' I I').
Qed.

Lemma cube_small m : 0 < m -> a * (1 - sigma) <= m -> Rabs (1 / (m * m * m)) <= beta.
Proof.
  intros Pm Lm. destruct drift_between as (Pa & _). set (s := a * (1 - sigma)) in *. assert (Ps : 0 < s) by (apply Rmult_lt_0_compat; lra).
  rewrite Rabs_pos_eq by (left; apply Rdiv_lt_0_compat; [lra|]; repeat apply Rmult_lt_0_compat; lra).
  replace beta with (3 / (s * s * s)) by (unfold s; field; lra).
  assert (P3 : 0 < s * s * s) by (repeat apply Rmult_lt_0_compat; lra). assert (L3 : s * s * s <= m * m * m) by (apply Rmult_le_compat; try lra; [apply Rmult_le_pos; lra|apply Rmult_le_compat; lra]).
  unfold Rdiv. apply Rmult_le_compat; [lra|left; apply Rinv_0_lt_compat; lra|lra|apply Rinv_le_contravar; lra].
Qed.

Lemma drift_beta : 0 <= beta.
Proof. destruct drift_between as (Pa & _). eapply Rle_trans; [apply Rabs_pos|apply (cube_small (a * (1 - sigma)))]; [apply Rmult_lt_0_compat; lra|lra]. Qed.

Lemma nearer : a * (1 - sigma) <= d.
Proof. destruct drift_between as (Pa & Hr & (_ & B) & _). eapply Rle_trans; [|exact B]. apply Rmult_le_compat_l; [lra|]. pose proof ratio_small. lra. Qed.

Lemma scaled_term l : Rabs (kappa * d) ^ l <= sigma ^ l * w ^ l.
Proof. exact (power_term t Kind p q r p' q' r' c c' h h' kappa sigma Nc Nc' Far Hs ratio_small x y x' y' I I' l). Qed.

Lemma outer_near k : Rabs (outer_kernel x y x' y' - outer_cut k x y x' y') <= beta * sigma ^ S k * exp (2 * w).
Proof.
  destruct drift_between as (Pa & Hr & B1 & B2 & Pw). pose proof drift_beta as Pb. pose proof nearer as Nr.
  unfold outer_kernel, outer_cut. rewrite Rabs_minus_sym. rewrite (argument t Kind p q r p' q' r' c c' h h' kappa Nc Nc' Far x y x' y'). rewrite (Rmult_comm (cubed _ _ _ _ _ _ _ _ _ _)).
  apply (series_product _ _ (fun l => (2 * w) ^ l / INR (fact l))); try lra.
  - intros l. unfold Rdiv at 1. apply Rmult_le_pos; [apply pow_le; lra|]. left. apply Rinv_0_lt_compat, INR_fact_lt_0.
  - intros l. eapply Rle_trans; [apply outer_small|]. pose proof (scaled_term l) as Pt. set (W := w) in *. rewrite Rpow_mult_distr. replace (sigma ^ l * (2 ^ l * W ^ l / INR (fact l))) with (sigma ^ l * W ^ l * (2 ^ l / INR (fact l))) by (unfold Rdiv; ring).
    apply Rmult_le_compat_r; [|exact Pt]. unfold Rdiv. apply Rmult_le_pos; [apply pow_le; lra|]. left. apply Rinv_0_lt_compat, INR_fact_lt_0.
  - intros n. apply exponential_sums. lra.
  - intros n eps He. now apply outer_limit.
  - intros n. rewrite Rabs_minus_sym. eapply Rle_trans; [exact (cubed_near t Kind p q r p' q' r' c c' h h' sigma Nc Nc' Far Hs ratio_small n x y x' y' I I')|].
    rewrite <- Rmult_assoc. apply Rmult_le_compat_l; [exact Pb|]. apply pow_incr. split; [unfold Rdiv at 1; apply Rmult_le_pos; [lra|left; apply Rinv_0_lt_compat; lra]|].
    apply (Rmult_le_reg_r sigma); [lra|]. unfold Rdiv at 1. rewrite Rmult_assoc, Rinv_l by lra. lra.
  - unfold cubed. cbv zeta. destruct (Req_EM_T d 0) as [Z|_]; [lra|]. apply cube_small; lra.
Qed.

Lemma inner_near k : Rabs (inner_kernel x y x' y' - inner_cut k x y x' y') <= beta * sigma ^ S k * exp (2 * w).
Proof.
  destruct drift_between as (Pa & Hr & B1 & B2 & Pw). pose proof drift_beta as Pb. pose proof nearer as Nr.
  assert (Ew : Rabs (kappa * far) = sigma * w) by (rewrite Rabs_mult, (Rabs_pos_eq far) by lra; field; lra).
  unfold inner_kernel, inner_cut. rewrite Rabs_minus_sym. rewrite (argument t Kind p q r p' q' r' c c' h h' kappa Nc Nc' Far x y x' y').
  unfold cubed. cbv zeta. destruct (Req_EM_T d 0) as [Z|_]; [lra|]. set (f := far) in *. set (W := Rabs kappa * f / sigma) in *. set (D := kappa * d) in *.
  replace (1 / (d * d * d) * (sin D - D * cos D)) with ((f / d) * (f / d) * (f / d) * (sin D - D * cos D) * (1 / (f * f * f))) by (field; lra).
  apply (series_product _ _ (fun l => (2 * W) ^ (l + 3) / INR (fact (l + 3)))); try lra.
  - intros l. unfold Rdiv at 1. apply Rmult_le_pos; [apply pow_le; lra|]. left. apply Rinv_0_lt_compat, INR_fact_lt_0.
  - intros l. rewrite Rabs_mult. pose proof (inner_small D l) as Is. pose proof (scaled_term l) as Pt. fold D f W in Pt.
    rewrite !(Rabs_mult (kappa * f * (kappa * f))), !(Rabs_mult (kappa * f) (kappa * f)), Ew.
    assert (Pq : 0 <= 2 ^ (l + 3) / INR (fact (l + 3))) by (unfold Rdiv; apply Rmult_le_pos; [apply pow_le; lra|left; apply Rinv_0_lt_compat, INR_fact_lt_0]).
    assert (Psw : 0 <= sigma * W) by (apply Rmult_le_pos; lra). assert (Psl : 0 <= sigma ^ l) by (apply pow_le; lra). assert (Pwl : 0 <= W ^ l) by (apply pow_le; lra).
    assert (Cw : sigma * W * (sigma * W) * (sigma * W) <= W * W * W) by (assert (sigma * W <= W) by (rewrite <- (Rmult_1_l W) at 2; apply Rmult_le_compat_r; lra); apply Rmult_le_compat; try lra; [apply Rmult_le_pos; lra|apply Rmult_le_compat; lra]).
    rewrite Rpow_mult_distr. replace (W ^ (l + 3)) with (W ^ l * (W * W * W)) by (rewrite pow_add; cbn; ring).
    replace (sigma ^ l * (2 ^ (l + 3) * (W ^ l * (W * W * W)) / INR (fact (l + 3)))) with (W * W * W * (sigma ^ l * W ^ l * (2 ^ (l + 3) / INR (fact (l + 3))))) by (unfold Rdiv; ring).
    apply Rmult_le_compat; [apply Rmult_le_pos; [apply Rmult_le_pos; lra|lra]|apply Rabs_pos|exact Cw|]. eapply Rle_trans; [exact Is|]. apply Rmult_le_compat_r; [exact Pq|exact Pt].
  - intros n. apply exponential_third. lra.
  - intros n eps He. set (g := f / d). assert (Pd : 0 < g) by (apply Rdiv_lt_0_compat; lra). assert (Pg : 0 < g * g * g) by (apply Rmult_lt_0_compat; [apply Rmult_lt_0_compat|]; exact Pd).
    destruct (inner_limit D n (eps / (g * g * g))) as (m & Hm & Bm); [now apply Rdiv_lt_0_compat|]. exists m. split; [exact Hm|].
    replace (sum_f_R0 (fun l => kappa * f * (kappa * f) * (kappa * f) * inner_term (D * D) l) m) with (kappa * f * (kappa * f) * (kappa * f) * sum_f_R0 (inner_term (D * D)) m) by (rewrite scal_sum; apply sum_eq; intros; ring).
    set (Sm := sum_f_R0 (inner_term (D * D)) m) in *. replace (kappa * f) with (g * D) by (unfold g, D; field; lra).
    replace (g * D * (g * D) * (g * D) * Sm - g * g * g * (sin D - D * cos D)) with (g * g * g * (D * D * D * Sm - (sin D - D * cos D))) by ring.
    rewrite Rabs_mult, (Rabs_pos_eq (g * g * g)) by lra. apply Rle_trans with (g * g * g * (eps / (g * g * g))); [apply Rmult_le_compat_l; lra|]. right. field. lra.
  - intros n. rewrite Rminus_diag_eq by reflexivity. rewrite Rabs_R0. apply Rmult_le_pos; [lra|apply pow_le; lra].
  - apply cube_small; lra.
Qed.
End Point.
End Drift.
