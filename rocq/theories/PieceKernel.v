(** * Rules of a degree for the kernel times polynomials *)
From Coq Require Import Reals Lra Psatz.
From Verif Require Import Base BaseFacts Topology Scalar Integrand CellPair Operators SpecLocal Assembly SpecAssembly AssemblyExact SpecAlgebra AlgebraFacts
  SpecTransfer SpecRounding RoundingModels SpecMeasure MeasureResults Shapes SpecShapes SpecSphere SpecWidth SpecTurns TurnExamples SpecShare
  SphereGeometry SpecFloatSphere FloatSphere FloatSphereNear FloatSphereError SpecWaves SpecDecay DecayResults DecayPoints SpecMoments MomentResults SpecDegree LegendreSeries DegreeIntegrals DegreeResults DegreeExact PatchKernel.

Local Open Scope R_scope.
Local Notation dist := SpecWaves.distance.

(** ** A kernel with approximations by polynomials *)
Section Approximations.
Context (t : cell_type) (Kind : t = Triangle \/ t = Quadrilateral) (K f : R -> R -> R -> R -> R) (near : nat -> R -> R -> R -> R -> R) (bound : nat -> R) (d : nat) (N : R).
Context (Jk : forall k, joint k (near k)) (Jf : joint d f) (Nf : forall x y x' y', inside t x y -> inside t x' y' -> Rabs (f x y x' y') <= N)
  (Near : forall k x y x' y', inside t x y -> inside t x' y' -> Rabs (K x y x' y' - near k x y x' y') <= bound k)
  (Small : forall c eps, 0 <= c -> 0 < eps -> exists l, c * bound l <= eps).
Notation area := (reference_area t * reference_area t).
Notation part k := (fun x y x' y' => near k x y x' y' * f x y x' y').
Notation full := (fun x y x' y' => K x y x' y' * f x y x' y').

Lemma part_integral k : exists v, iterated t (part k) v /\ forall qd, (forall i j, (i + j <= k + d)%nat -> monomial_sum qd i j = monomial_integral t i j) -> rule_sum qd (part k) = v.
Proof. apply (joint_integral t (k + d)); [exact Kind|]. now apply joint_product. Qed.

Lemma corner_inside : inside t 0 0.
Proof. destruct Kind as [-> | ->]; cbn; lra. Qed.

Lemma bound_nonneg k : 0 <= bound k /\ 0 <= N.
Proof.
  pose proof (Near k 0 0 0 0 corner_inside corner_inside) as B. pose proof (Nf 0 0 0 0 corner_inside corner_inside) as C.
  split; (eapply Rle_trans; [apply Rabs_pos|eassumption]).
Qed.

Lemma full_part k x y x' y' : inside t x y -> inside t x' y' -> Rabs (full x y x' y' - part k x y x' y') <= bound k * N.
Proof.
  intros I I'. cbv beta. rewrite <- Rmult_minus_distr_r, Rabs_mult. apply Rmult_le_compat; try apply Rabs_pos; [now apply Near|now apply Nf].
Qed.

Lemma area_nonneg : 0 <= area.
Proof. destruct Kind as [-> | ->]; cbn; lra. Qed.

Lemma part_part k l v w : iterated t (part k) v -> iterated t (part l) w -> Rabs (v - w) <= bound k * N * area + bound l * N * area.
Proof.
  intros A B. rewrite <- Rmult_plus_distr_r. apply (iterated_bound t _ _ _ Kind (iterated_minus t _ _ _ _ A B)).
  intros x y x' y' I I'. pose proof (full_part k x y x' y' I I') as N1. pose proof (full_part l x y x' y' I I') as N2. rewrite Rabs_minus_sym in N1.
  replace (part k x y x' y' - part l x y x' y') with ((part k x y x' y' - full x y x' y') + (full x y x' y' - part l x y x' y')) by ring. eapply Rle_trans; [apply Rabs_triang|]. lra.
Qed.

Theorem approximated_integral : exists v, pair_integral t full v /\
  forall k qd, (forall i j, (i + j <= k + d)%nat -> monomial_sum qd i j = monomial_integral t i j) ->
    (forall pw, List.In pw (enumerate (qd_weights qd)) -> 0 <= snd pw /\ inside t (nth (2 * fst pw) (qd_points qd) 0) (nth (2 * fst pw + 1) (qd_points qd) 0)) ->
    Rabs (rule_sum qd full - v) <= 2 * (bound k * N * area).
Proof.
  pose proof area_nonneg as Pm.
  set (E := fun z => exists k w, iterated t (part k) w /\ z = w - bound k * N * area).
  destruct (completeness E) as (v & Up & Least).
  - destruct (part_integral 0) as (w0 & I0 & _). exists (w0 + bound 0%nat * N * area). intros z (k & w & I & ->).
    pose proof (part_part k 0 w w0 I I0) as B. pose proof (Rle_abs (w - w0)). lra.
  - destruct (part_integral 0) as (w0 & I0 & _). eexists. exists 0%nat, w0. split; [exact I0|reflexivity].
  - assert (Close : forall k w, iterated t (part k) w -> Rabs (w - v) <= bound k * N * area).
    { intros k w I. apply Rabs_le. assert (L : w - bound k * N * area <= v) by (apply Up; exists k, w; auto).
      assert (U : v <= w + bound k * N * area).
      { apply Least. intros z (l & w' & I' & ->). pose proof (part_part l k w' w I' I) as B. pose proof (Rle_abs (w' - w)). lra. } lra. }
    exists v. split.
    + intros eps He. destruct (bound_nonneg 0) as (_ & PN).
      destruct (Small (N * area + N) eps ltac:(nra) He) as (l & Hl). destruct (bound_nonneg l) as (Pl & _).
      destruct (part_integral l) as (w & I & _). exists (part l), w. split; [exact I|].
      assert (G1 : 0 <= bound l * N * area) by (apply Rmult_le_pos; [now apply Rmult_le_pos|exact Pm]). assert (G2 : 0 <= bound l * N) by now apply Rmult_le_pos.
      split; [pose proof (Close l w I); lra|].
      intros x y x' y' J J'. pose proof (full_part l x y x' y' J J') as B. cbv beta in B. lra.
    + intros k qd H P. destruct (part_integral k) as (w & Iw & Rw). specialize (Close k w Iw). rewrite <- (Rw qd H) in Close.
      replace (rule_sum qd full - v) with ((rule_sum qd full - rule_sum qd (part k)) + (rule_sum qd (part k) - v)) by ring. eapply Rle_trans; [apply Rabs_triang|].
      enough (B : Rabs (rule_sum qd full - rule_sum qd (part k)) <= bound k * N * area) by lra. clear Close Rw Iw w.
      rewrite <- (weights_area t (k + d) qd Kind H).
      replace (rule_sum qd full - rule_sum qd (part k)) with (rule_sum qd (fun x y x' y' => full x y x' y' - part k x y x' y')).
      * apply (rule_bound t qd _ (bound k * N)); [exact (full_part k)|exact P].
      * unfold rule_sum. rewrite total_minus. apply total_ext. intros pw _. rewrite total_minus. apply total_ext. intros qw _. ring.
Qed.
End Approximations.

(** ** The Newton potential *)

Lemma joint_add_one k (c : R) i j f : (i + j <= k)%nat -> joint k f -> joint k (fun x y x' y' => c * (x ^ i * y ^ j) + f x y x' y').
Proof. intros L J. eapply joint_same; [apply (joint_sum k _ _ (joint_monomial k c i j 0 0 L (Nat.le_0_l k)) J)|]. intros. cbn. ring. Qed.

Section Newton.
Context (t : cell_type) (Kind : t = Triangle \/ t = Quadrilateral) (p q r p' q' r' c c' : vec) (h h' e : R).
Context (Nc : forall x y, inside t x y -> vlen (vsub (mapped p q r x y) c) <= h) (Nc' : forall x y, inside t x y -> vlen (vsub (mapped p' q' r' x y) c') <= h').
Notation a := (dist c c').
Context (Far : h + h' < a).
Notation rho := ((h + h') / a).

Lemma triangle_in x y : inside Triangle x y -> inside t x y.
Proof. destruct Kind as [-> | ->]; cbn; lra. Qed.

Lemma newton_joint k : joint k (cut p q r p' q' r' c c' k).
Proof. apply (joint_cut p q r p' q' r' c c' h h'); intros x y I; [apply Nc|apply Nc']; now apply triangle_in. Qed.

Lemma newton_cut k x y x' y' : inside t x y -> inside t x' y' ->
  Rabs (newton e 0 (mapped p q r x y) (mapped p' q' r' x' y') - cut p q r p' q' r' c c' k x y x' y') <= 1 / (4 * PI * a) * (rho ^ S k / (1 - rho)).
Proof.
  intros I I'. set (P := mapped p q r x y). set (P' := mapped p' q' r' x' y').
  assert (E : forall Q u v, mapped Q Q Q u v = Q) by (intros [[? ?] ?] u v; unfold mapped; cbn; f_equal; [f_equal|]; ring).
  assert (O : inside Triangle 0 0) by (cbn; lra).
  pose proof (kernel_cut P P P P' P' P' c c' h h' e ltac:(intros; rewrite E; now apply Nc) ltac:(intros; rewrite E; now apply Nc') Far k 0 0 0 0 O O) as B.
  cbv beta in B. unfold cut, tilt, size, shift in *. rewrite !E in B. exact B.
Qed.

Lemma newton_range : 0 <= rho < 1 /\ 0 < 1 / (4 * PI * a).
Proof.
  assert (O : inside t 0 0) by (destruct Kind as [-> | ->]; cbn; lra). pose proof (Nc 0 0 O). pose proof (Nc' 0 0 O). pose proof (vlen_nonneg (vsub (mapped p q r 0 0) c)). pose proof (vlen_nonneg (vsub (mapped p' q' r' 0 0) c')).
  pose proof PI_RGT_0. split; [|apply Rdiv_lt_0_compat; [lra|apply Rmult_lt_0_compat; lra]]. split; [unfold Rdiv; apply Rmult_le_pos; [lra|left; apply Rinv_0_lt_compat; lra]|].
  apply (Rmult_lt_reg_r a); [lra|]. unfold Rdiv. rewrite Rmult_assoc, Rinv_l by lra. lra.
Qed.

Theorem newton_integral (f : R -> R -> R -> R -> R) d N : joint d f -> (forall x y x' y', inside t x y -> inside t x' y' -> Rabs (f x y x' y') <= N) ->
  exists v, pair_integral t (fun x y x' y' => newton e 0 (mapped p q r x y) (mapped p' q' r' x' y') * f x y x' y') v /\
  forall k qd, (forall i j, (i + j <= k + d)%nat -> monomial_sum qd i j = monomial_integral t i j) ->
    (forall pw, List.In pw (enumerate (qd_weights qd)) -> 0 <= snd pw /\ inside t (nth (2 * fst pw) (qd_points qd) 0) (nth (2 * fst pw + 1) (qd_points qd) 0)) ->
    Rabs (rule_sum qd (fun x y x' y' => newton e 0 (mapped p q r x y) (mapped p' q' r' x' y') * f x y x' y') - v) <=
      2 * (1 / (4 * PI * a) * (rho ^ S k / (1 - rho)) * N * (reference_area t * reference_area t)).
Proof.
  intros J B. destruct newton_range as (Hr & Pu).
  apply (approximated_integral t Kind (fun x y x' y' => newton e 0 (mapped p q r x y) (mapped p' q' r' x' y')) f (cut p q r p' q' r' c c') (fun k => 1 / (4 * PI * a) * (rho ^ S k / (1 - rho))) d N).
  - exact newton_joint.
  - exact J.
  - exact B.
  - exact newton_cut.
  - intros cc eps Hc He. destruct (small_tail rho 0 (cc * (1 / (4 * PI * a))) eps Hr) as (l & _ & Hl); [apply Rmult_le_pos; lra|exact He|]. exists l. now rewrite <- Rmult_assoc.
Qed.
End Newton.
