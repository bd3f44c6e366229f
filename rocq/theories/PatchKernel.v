(** * Rules of a degree for the kernel times linear functions *)
From Coq Require Import Reals Lra Psatz.
From Verif Require Import Base BaseFacts Topology Scalar Integrand CellPair Operators SpecLocal Assembly SpecAssembly AssemblyExact SpecAlgebra AlgebraFacts
  SpecTransfer SpecRounding RoundingModels SpecMeasure MeasureResults Shapes SpecShapes SpecSphere SpecWidth SpecTurns TurnExamples SpecShare
  SphereGeometry SpecFloatSphere FloatSphere FloatSphereNear FloatSphereError SpecWaves SpecDecay DecayResults DecayPoints SpecMoments MomentResults SpecDegree LegendreSeries DegreeIntegrals DegreeResults DegreeExact.

Local Open Scope R_scope.
Local Notation dist := SpecWaves.distance.

(** ** Integrals of dominated functions *)

Lemma cell_dominated t f g v w : t = Triangle \/ t = Quadrilateral -> cell_integral t f v -> cell_integral t g w -> (forall x y, inside t x y -> Rabs (f x y) <= g x y) -> Rabs v <= w.
Proof.
  intros Ht (F & HF & Iv) (G & HG & Iw) B. apply (integral_bound F G 0 1); [exact Iv|exact Iw|lra|]. intros x Hx.
  apply (integral_bound (f x) (g x) 0 (match t with Triangle => 1 - x | _ => 1 end)); [apply HF|apply HG|destruct Ht as [-> | ->]; lra|].
  intros y Hy. apply B. destruct Ht as [-> | ->]; cbn in *; lra.
Qed.

Lemma iterated_dominated t f g v w : t = Triangle \/ t = Quadrilateral -> iterated t f v -> iterated t g w ->
  (forall x y x' y', inside t x y -> inside t x' y' -> Rabs (f x y x' y') <= g x y x' y') -> Rabs v <= w.
Proof.
  intros Ht (F & HF & Iv) (G & HG & Iw) B. apply (cell_dominated t F G); auto. intros x y I. apply (cell_dominated t (f x y) (g x y)); auto.
Qed.

(** ** Linear functions *)

Definition affine (c0 c1 c2 x y : R) : R := c0 + c1 * x + c2 * y.
Definition mass (c0 c1 c2 : R) : R := c0 / 2 + c1 / 6 + c2 / 6.

Lemma triangle_monomials : monomial_integral Triangle 0 0 = 1 / 2 /\ monomial_integral Triangle 1 0 = 1 / 6 /\ monomial_integral Triangle 0 1 = 1 / 6.
Proof. cbn. repeat split; field. Qed.

Lemma affine_integral c0 c1 c2 : cell_integral Triangle (affine c0 c1 c2) (mass c0 c1 c2).
Proof.
  destruct triangle_monomials as (M0 & M1 & M2).
  pose proof (cell_add _ _ _ _ _ (cell_add _ _ _ _ _ (cell_scale Triangle c0 _ _ (monomial_integrals Triangle 0 0 (or_introl eq_refl))) (cell_scale Triangle c1 _ _ (monomial_integrals Triangle 1 0 (or_introl eq_refl))))
    (cell_scale Triangle c2 _ _ (monomial_integrals Triangle 0 1 (or_introl eq_refl)))) as H.
  rewrite M0, M1, M2 in H. replace (mass c0 c1 c2) with (c0 * (1 / 2) + c1 * (1 / 6) + c2 * (1 / 6)) by (unfold mass; field).
  eapply cell_same; [|exact H]. intros. unfold affine. cbn. ring.
Qed.

Lemma affine_rule d qd c0 c1 c2 : (1 <= d)%nat \/ (c1 = 0 /\ c2 = 0) -> (forall i j, (i + j <= d)%nat -> monomial_sum qd i j = monomial_integral Triangle i j) ->
  total reals (enumerate (qd_weights qd)) (fun pw => snd pw * affine c0 c1 c2 (nth (2 * fst pw) (qd_points qd) 0) (nth (2 * fst pw + 1) (qd_points qd) 0)) = mass c0 c1 c2.
Proof.
  intros Hd H. destruct triangle_monomials as (M0 & M1 & M2).
  pose proof (fun i j L => eq_trans (weights_total (qd_weights qd) (fun p => nth (2 * p) (qd_points qd) 0 ^ i * nth (2 * p + 1) (qd_points qd) 0 ^ j)) (H i j L)) as W.
  rewrite (total_ext reals _ _ (fun pw => c0 * (snd pw * (nth (2 * fst pw) (qd_points qd) 0 ^ 0 * nth (2 * fst pw + 1) (qd_points qd) 0 ^ 0)) +
    (c1 * (snd pw * (nth (2 * fst pw) (qd_points qd) 0 ^ 1 * nth (2 * fst pw + 1) (qd_points qd) 0 ^ 0)) + c2 * (snd pw * (nth (2 * fst pw) (qd_points qd) 0 ^ 0 * nth (2 * fst pw + 1) (qd_points qd) 0 ^ 1)))))
    by (intros; unfold affine; cbn; ring).
  rewrite !real_total_add, !real_total_mul. rewrite (W 0%nat 0%nat) by lia. rewrite M0. unfold mass. destruct Hd as [L|(-> & ->)]; [|field].
  rewrite (W 1%nat 0%nat), (W 0%nat 1%nat), M1, M2 by (cbn; lia). field.
Qed.

(** ** The kernel between two triangles, seen from two points near them *)
Section Pair.
Context (p q r p' q' r' c c' : vec) (h h' e : R) (a0 a1 a2 b0 b1 b2 : R).
Context (Nc : forall x y, inside Triangle x y -> vlen (vsub (mapped p q r x y) c) <= h) (Nc' : forall x y, inside Triangle x y -> vlen (vsub (mapped p' q' r' x y) c') <= h').
Context (Pa : forall x y, inside Triangle x y -> 0 <= affine a0 a1 a2 x y) (Pb : forall x y, inside Triangle x y -> 0 <= affine b0 b1 b2 x y).
Notation a := (dist c c').
Context (Far : h + h' < a).
Notation rho := ((h + h') / a).

Definition shift (x y x' y' : R) : vec := vadd (vsub (mapped p q r x y) c) (vscale (-1) (vsub (mapped p' q' r' x' y') c')).
Definition tilt (x y x' y' : R) : R := - inner (vsub c c') (shift x y x' y') / (a * a).
Definition size (x y x' y' : R) : R := inner (shift x y x' y') (shift x y x' y') / (a * a).
Definition cut (k : nat) (x y x' y' : R) : R := 1 / (4 * PI * a) * partial_sum (tilt x y x' y') (size x y x' y') k 1.
Notation kernel := (fun x y x' y' => newton e 0 (mapped p q r x y) (mapped p' q' r' x' y')).
Notation phi := (affine a0 a1 a2).
Notation psi := (affine b0 b1 b2).

Lemma radii_nonneg : 0 <= h + h'.
Proof.
  pose proof (Nc 0 0 ltac:(cbn; lra)). pose proof (Nc' 0 0 ltac:(cbn; lra)). pose proof (vlen_nonneg (vsub (mapped p q r 0 0) c)). pose proof (vlen_nonneg (vsub (mapped p' q' r' 0 0) c')). lra.
Qed.

Lemma shift_affine : exists u0 u1 u2 u3 u4, forall x y x' y', shift x y x' y' = vadd u0 (vadd (vscale x u1) (vadd (vscale y u2) (vadd (vscale x' u3) (vscale y' u4)))).
Proof.
  exists (vadd (vsub p c) (vscale (-1) (vsub p' c'))), (vsub q p), (vsub r p), (vscale (-1) (vsub q' p')), (vscale (-1) (vsub r' p')). intros. unfold shift, mapped.
  generalize c, c'. intros [[? ?] ?] [[? ?] ?]. destruct p as [[? ?] ?], q as [[? ?] ?], r as [[? ?] ?], p' as [[? ?] ?], q' as [[? ?] ?], r' as [[? ?] ?]. cbn. f_equal; [f_equal|]; ring.
Qed.

Lemma joint_shift z : joint 1 (fun x y x' y' => inner z (shift x y x' y')).
Proof.
  destruct shift_affine as (u0 & u1 & u2 & u3 & u4 & E). eapply joint_same; [apply (joint_affine (inner z u0) (inner z u1) (inner z u2) (inner z u3) (inner z u4))|].
  intros. cbn beta. rewrite E. destruct z as [[? ?] ?], u0 as [[? ?] ?], u1 as [[? ?] ?], u2 as [[? ?] ?], u3 as [[? ?] ?], u4 as [[? ?] ?]. cbn. ring.
Qed.

Lemma joint_cut k : joint k (cut k).
Proof.
  apply joint_scale, joint_partial.
  - eapply joint_same; [apply (joint_scale 1 (- / (a * a)) _ (joint_shift (vsub c c')))|]. intros. cbn beta. unfold tilt, Rdiv. ring.
  - eapply joint_same; [apply (joint_scale 2 (/ (a * a)) _ (joint_sum 2 _ _ (joint_product 1 1 _ _ (joint_shift (1, 0, 0)) (joint_shift (1, 0, 0))) (joint_sum 2 _ _ (joint_product 1 1 _ _ (joint_shift (0, 1, 0)) (joint_shift (0, 1, 0))) (joint_product 1 1 _ _ (joint_shift (0, 0, 1)) (joint_shift (0, 0, 1))))))|].
    intros. cbn beta. unfold size, Rdiv. destruct (shift x y x' y') as [[? ?] ?]. cbn. ring.
Qed.

Lemma kernel_cut k x y x' y' : inside Triangle x y -> inside Triangle x' y' -> Rabs (kernel x y x' y' - cut k x y x' y') <= 1 / (4 * PI * a) * (rho ^ S k / (1 - rho)).
Proof.
  intros I1 I2. pose proof (Nc x y I1) as N1. pose proof (Nc' x' y' I2) as N2. set (w := shift x y x' y'). set (z := vsub c c').
  assert (W : vlen w <= h + h').
  { unfold w, shift. eapply Rle_trans; [apply vlen_add|]. apply Rplus_le_compat; [exact N1|].
    replace (vlen (vscale (-1) (vsub (mapped p' q' r' x' y') c'))) with (vlen (vsub (mapped p' q' r' x' y') c')); [exact N2|].
    unfold vlen. f_equal. destruct (vsub (mapped p' q' r' x' y') c') as [[? ?] ?]. unfold norm2. cbn. ring. }
  assert (Ed : dist (mapped p q r x y) (mapped p' q' r' x' y') = vlen (vadd z w)).
  { unfold z, w, shift. rewrite dist_vlen. f_equal. destruct (mapped p q r x y) as [[? ?] ?], (mapped p' q' r' x' y') as [[? ?] ?], c as [[? ?] ?], c' as [[? ?] ?]. cbn. f_equal; [f_equal|]; ring. }
  assert (Ea : a = vlen z) by apply dist_vlen. destruct (lengths z w (h + h') W) as (L & _); [lra|]. pose proof radii_nonneg as Sn. pose proof PI_RGT_0 as Pi. assert (Pp : 0 < a) by lra.
  unfold newton. destruct (Req_EM_T (dist (mapped p q r x y) (mapped p' q' r' x' y')) 0) as [Z|Z]; [lra|]. rewrite Ed in *.
  unfold cut, tilt, size. fold w z. assert (Sa : a * a = inner z z) by (rewrite Ea, vlen_square; reflexivity).
  assert (Sw : vlen w * vlen w = inner w w) by (rewrite vlen_square; reflexivity). pose proof (vlen_nonneg w) as Nw.
  set (b := vlen (vadd z w)) in *.
  assert (Sb : b * b = a * a + 2 * inner z w + inner w w) by (unfold b; rewrite vlen_square, Sa; destruct z as [[? ?] ?], w as [[? ?] ?]; unfold norm2; cbn; ring).
  assert (Cs : inner z w * inner z w <= (a * a) * inner w w).
  { rewrite Sa. destruct z as [[z1 z2] z3], w as [[w1 w2] w3]. cbn. pose proof (Rle_0_sqr (z1 * w2 - z2 * w1)). pose proof (Rle_0_sqr (z1 * w3 - z3 * w1)). pose proof (Rle_0_sqr (z2 * w3 - z3 * w2)). unfold Rsqr in *. nra. }
  assert (Pb' : 0 < b) by lra. assert (Paa : 0 < a * a) by nra.
  assert (F : 1 - 2 * (- inner z w / (a * a)) + inner w w / (a * a) = (b / a) * (b / a)).
  { replace (b / a * (b / a)) with (b * b / (a * a)) by (field; lra). rewrite Sb. field. lra. }
  assert (Pr : 0 <= rho) by (unfold Rdiv; apply Rmult_le_pos; [lra|left; apply Rinv_0_lt_compat; lra]).
  assert (Pr1 : rho < 1) by (apply (Rmult_lt_reg_r a); [lra|]; unfold Rdiv; rewrite Rmult_assoc, Rinv_l by lra; lra).
  pose proof (remainder (- inner z w / (a * a)) (inner w w / (a * a)) rho Pr Pr1) as Rm. rewrite F, sqrt_square in Rm by (left; now apply Rdiv_lt_0_compat).
  assert (H1 : - inner z w / (a * a) * (- inner z w / (a * a)) <= inner w w / (a * a)).
  { apply (Rmult_le_reg_r (a * a * (a * a))); [nra|]. replace (- inner z w / (a * a) * (- inner z w / (a * a)) * (a * a * (a * a))) with (inner z w * inner z w) by (field; lra). replace (inner w w / (a * a) * (a * a * (a * a))) with (a * a * inner w w) by (field; lra). exact Cs. }
  assert (H2 : inner w w / (a * a) <= rho * rho).
  { replace (rho * rho) with ((h + h') * (h + h') / (a * a)) by (field; lra). unfold Rdiv. apply Rmult_le_compat_r; [left; apply Rinv_0_lt_compat; lra|]. rewrite <- Sw. nra. }
  specialize (Rm H1 H2 k).
  match goal with |- Rabs (?n - _) <= _ => replace n with (1 / (4 * PI) * (1 / b)) by (field; lra) end.
  replace (1 / (4 * PI) * (1 / b) - 1 / (4 * PI * a) * partial_sum (- inner z w / (a * a)) (inner w w / (a * a)) k 1)
    with (1 / (4 * PI * a) * - (partial_sum (- inner z w / (a * a)) (inner w w / (a * a)) k 1 - 1 / (b / a))) by (field; lra).
  assert (0 < 1 / (4 * PI * a)) by (apply Rdiv_lt_0_compat; nra).
  rewrite Rabs_mult, Rabs_Ropp, (Rabs_right (1 / (4 * PI * a))) by lra. apply Rmult_le_compat_l; [lra|exact Rm].
Qed.

Lemma quotient_range : 0 <= rho < 1.
Proof.
  pose proof radii_nonneg as P. split; [unfold Rdiv; apply Rmult_le_pos; [lra|left; apply Rinv_0_lt_compat; lra]|].
  apply (Rmult_lt_reg_r a); [lra|]. unfold Rdiv. rewrite Rmult_assoc, Rinv_l by lra. lra.
Qed.

Notation tail k := (1 / (4 * PI * a) * (rho ^ S k / (1 - rho))).

Lemma tail_nonneg k : 0 <= tail k /\ 0 < 1 / (4 * PI * a).
Proof.
  pose proof PI_RGT_0. pose proof radii_nonneg. destruct quotient_range. assert (0 < 1 / (4 * PI * a)) by (apply Rdiv_lt_0_compat; [lra|apply Rmult_lt_0_compat; lra]).
  split; [|assumption]. apply Rmult_le_pos; [lra|]. unfold Rdiv at 1. apply Rmult_le_pos; [apply pow_le; lra|left; apply Rinv_0_lt_compat; lra].
Qed.

Context (d : nat) (Hd : (1 <= d)%nat \/ (a1 = 0 /\ a2 = 0 /\ b1 = 0 /\ b2 = 0)).

Lemma joint_functions : joint d (fun x y x' y' => phi x y * psi x' y').
Proof.
  destruct Hd as [L|(-> & -> & -> & ->)].
  - apply (joint_mono 1); [exact L|]. unfold affine.
    assert (M : forall u v, (u < 3)%nat -> (v < 3)%nat -> joint 1 (fun x y x' y' => nth u [a0; a1; a2] 0 * nth v [b0; b1; b2] 0 * nth u [1; x; y] 0 * nth v [1; x'; y'] 0)).
    { intros u v Lu Lv.
      eapply joint_same; [apply (joint_monomial 1 (nth u [a0; a1; a2] 0 * nth v [b0; b1; b2] 0) (nth u [0; 1; 0]%nat 0%nat) (nth u [0; 0; 1]%nat 0%nat) (nth v [0; 1; 0]%nat 0%nat) (nth v [0; 0; 1]%nat 0%nat))|].
      - destruct u as [|[|[|u]]]; cbn; lia.
      - destruct v as [|[|[|v]]]; cbn; lia.
      - intros. destruct u as [|[|[|u]]]; [| | |lia]; destruct v as [|[|[|v]]]; try lia; cbn; ring. }
    pose proof (M 0 0 ltac:(lia) ltac:(lia))%nat as M00. pose proof (M 0 1 ltac:(lia) ltac:(lia))%nat as M01. pose proof (M 0 2 ltac:(lia) ltac:(lia))%nat as M02.
    pose proof (M 1 0 ltac:(lia) ltac:(lia))%nat as M10. pose proof (M 1 1 ltac:(lia) ltac:(lia))%nat as M11. pose proof (M 1 2 ltac:(lia) ltac:(lia))%nat as M12.
    pose proof (M 2 0 ltac:(lia) ltac:(lia))%nat as M20. pose proof (M 2 1 ltac:(lia) ltac:(lia))%nat as M21. pose proof (M 2 2 ltac:(lia) ltac:(lia))%nat as M22. clear M.
    eapply joint_same; [apply (joint_sum _ _ _ (joint_sum _ _ _ M00 (joint_sum _ _ _ M01 M02)) (joint_sum _ _ _ (joint_sum _ _ _ M10 (joint_sum _ _ _ M11 M12)) (joint_sum _ _ _ M20 (joint_sum _ _ _ M21 M22))))|].
    intros. cbn. ring.
  - eapply joint_same; [apply (joint_const d (a0 * b0))|]. intros. unfold affine. cbn. ring.
Qed.

Notation near k := (fun x y x' y' => cut k x y x' y' * (phi x y * psi x' y')).
Notation full := (fun x y x' y' => kernel x y x' y' * (phi x y * psi x' y')).
Notation m1 := (mass a0 a1 a2).
Notation m2 := (mass b0 b1 b2).

Lemma near_integral k : exists v, iterated Triangle (near k) v /\ forall qd, (forall i j, (i + j <= k + d)%nat -> monomial_sum qd i j = monomial_integral Triangle i j) -> rule_sum qd (near k) = v.
Proof. apply (joint_integral Triangle (k + d)); [now left|]. apply joint_product; [apply joint_cut|apply joint_functions]. Qed.

Lemma product_integral s : iterated Triangle (fun x y x' y' => s * (phi x y * psi x' y')) (s * (m1 * m2)).
Proof.
  exists (fun x y => s * m2 * phi x y). split.
  - intros x y. apply (cell_same Triangle (fun x' y' => s * phi x y * psi x' y')); [intros; ring|]. replace (s * m2 * phi x y) with (s * phi x y * m2) by ring. apply cell_scale, affine_integral.
  - replace (s * (m1 * m2)) with (s * m2 * m1) by ring. apply cell_scale, affine_integral.
Qed.

Lemma full_near k x y x' y' : inside Triangle x y -> inside Triangle x' y' -> Rabs (full x y x' y' - near k x y x' y') <= tail k * (phi x y * psi x' y').
Proof.
  intros I I'. pose proof (Pa x y I). pose proof (Pb x' y' I'). pose proof (kernel_cut k x y x' y' I I') as K. cbv beta in K |- *.
  rewrite <- Rmult_minus_distr_r.
  rewrite Rabs_mult, (Rabs_right (phi x y * psi x' y')) by nra. apply Rmult_le_compat_r; [nra|exact K].
Qed.

Lemma near_near k l v w : iterated Triangle (near k) v -> iterated Triangle (near l) w -> Rabs (v - w) <= tail k * (m1 * m2) + tail l * (m1 * m2).
Proof.
  intros A B. rewrite <- Rmult_plus_distr_r. apply (iterated_dominated Triangle _ _ _ _ (or_introl eq_refl) (iterated_minus Triangle _ _ _ _ A B) (product_integral (tail k + tail l))).
  intros x y x' y' I I'. pose proof (full_near k x y x' y' I I') as N1. pose proof (full_near l x y x' y' I I') as N2. rewrite Rabs_minus_sym in N1.
  replace (near k x y x' y' - near l x y x' y') with ((near k x y x' y' - full x y x' y') + (full x y x' y' - near l x y x' y')) by ring. eapply Rle_trans; [apply Rabs_triang|]. lra.
Qed.

Lemma mass_nonneg : 0 <= m1 * m2.
Proof.
  unfold mass. pose proof (Pa 0 0 ltac:(cbn; lra)) as A0. pose proof (Pa 1 0 ltac:(cbn; lra)) as A1. pose proof (Pa 0 1 ltac:(cbn; lra)) as A2.
  pose proof (Pb 0 0 ltac:(cbn; lra)) as B0. pose proof (Pb 1 0 ltac:(cbn; lra)) as B1. pose proof (Pb 0 1 ltac:(cbn; lra)) as B2. unfold affine in *. apply Rmult_le_pos; lra.
Qed.

Lemma functions_bounded : exists M, 0 <= M /\ forall x y x' y', inside Triangle x y -> inside Triangle x' y' -> phi x y * psi x' y' <= M.
Proof.
  exists ((Rabs a0 + Rabs a1 + Rabs a2) * (Rabs b0 + Rabs b1 + Rabs b2)).
  pose proof (Rabs_pos a0). pose proof (Rabs_pos a1). pose proof (Rabs_pos a2). pose proof (Rabs_pos b0). pose proof (Rabs_pos b1). pose proof (Rabs_pos b2).
  pose proof (Rle_abs a0). pose proof (Rle_abs a1). pose proof (Rle_abs a2). pose proof (Rle_abs b0). pose proof (Rle_abs b1). pose proof (Rle_abs b2).
  split; [apply Rmult_le_pos; lra|]. intros x y x' y' I I'. pose proof (Pa x y I). pose proof (Pb x' y' I'). destruct I as (X1 & X2 & X3), I' as (Y1 & Y2 & Y3).
  apply Rmult_le_compat; auto; unfold affine; nra.
Qed.

(** The kernel times the functions has an integral, and the rules of degree [k + d] are
    near it. *)
Theorem patch_integral : exists v, pair_integral Triangle full v /\
  forall k qd, (forall i j, (i + j <= k + d)%nat -> monomial_sum qd i j = monomial_integral Triangle i j) ->
    (forall pw, List.In pw (enumerate (qd_weights qd)) -> 0 <= snd pw /\ inside Triangle (nth (2 * fst pw) (qd_points qd) 0) (nth (2 * fst pw + 1) (qd_points qd) 0)) ->
    Rabs (rule_sum qd full - v) <= 2 * (tail k * (m1 * m2)).
Proof.
  destruct quotient_range as (Q0 & Q1). pose proof mass_nonneg as Pm. destruct functions_bounded as (M & PM & HM).
  set (E := fun z => exists k w, iterated Triangle (near k) w /\ z = w - tail k * (m1 * m2)).
  destruct (completeness E) as (v & Up & Least).
  - destruct (near_integral 0) as (w0 & I0 & _). exists (w0 + tail 0%nat * (m1 * m2)). intros z (k & w & I & ->).
    pose proof (near_near k 0 w w0 I I0) as N. pose proof (Rle_abs (w - w0)). lra.
  - destruct (near_integral 0) as (w0 & I0 & _). eexists. exists 0%nat, w0. split; [exact I0|reflexivity].
  - assert (Near : forall k w, iterated Triangle (near k) w -> Rabs (w - v) <= tail k * (m1 * m2)).
    { intros k w I. apply Rabs_le. assert (L : w - tail k * (m1 * m2) <= v) by (apply Up; exists k, w; auto).
      assert (U : v <= w + tail k * (m1 * m2)).
      { apply Least. intros z (l & w' & I' & ->). pose proof (near_near l k w' w I' I) as N. pose proof (Rle_abs (w' - w)). lra. } lra. }
    exists v. split.
    + intros eps He. destruct (tail_nonneg 0) as (_ & P1).
      destruct (small_tail rho 0 (1 / (4 * PI * a) * (m1 * m2 + M)) eps quotient_range) as (l & _ & Hl); [apply Rmult_le_pos; lra|exact He|].
      destruct (tail_nonneg l) as (Pt & _). set (T := rho ^ S l / (1 - rho)) in *. set (U := 1 / (4 * PI * a)) in *.
      destruct (near_integral l) as (w & I & _). exists (near l), w. split; [exact I|].
      assert (G1 : 0 <= U * T * (m1 * m2)) by now apply Rmult_le_pos. assert (G2 : 0 <= U * T * M) by now apply Rmult_le_pos.
      split; [pose proof (Near l w I) as N; fold T U in N; lra|].
      intros x y x' y' J J'. pose proof (full_near l x y x' y' J J') as N. fold T U in N. pose proof (HM x y x' y' J J') as Hm. pose proof (Rmult_le_compat_l _ _ _ Pt Hm). cbv beta in N. lra.
    + intros k qd H P. destruct (near_integral k) as (w & Iw & Rw). specialize (Near k w Iw). rewrite <- (Rw qd H) in Near.
      replace (rule_sum qd full - v) with ((rule_sum qd full - rule_sum qd (near k)) + (rule_sum qd (near k) - v)) by ring. eapply Rle_trans; [apply Rabs_triang|].
      enough (N : Rabs (rule_sum qd full - rule_sum qd (near k)) <= tail k * (m1 * m2)) by lra. clear Near Rw Iw w.
      pose proof (affine_rule (k + d) qd a0 a1 a2 ltac:(destruct Hd as [?|(? & ? & _)]; [left; lia|now right]) H) as R1.
      pose proof (affine_rule (k + d) qd b0 b1 b2 ltac:(destruct Hd as [?|(_ & _ & ? & ?)]; [left; lia|now right]) H) as R2.
      rewrite <- R1, <- R2. clear R1 R2. unfold rule_sum. rewrite total_minus.
      set (S2 := total reals (enumerate (qd_weights qd)) (fun pw => snd pw * affine b0 b1 b2 _ _)).
      rewrite <- (Rmult_comm S2), <- Rmult_assoc, <- real_total_mul.
      apply real_total_abs. intros pw Hp. rewrite total_minus. destruct (P pw Hp) as (W1 & I1).
      set (x := nth (2 * fst pw) (qd_points qd) 0) in *. set (y := nth (2 * fst pw + 1) (qd_points qd) 0) in *.
      replace (tail k * S2 * (snd pw * phi x y)) with (tail k * (snd pw * phi x y) * S2) by ring. unfold S2. rewrite <- real_total_mul. apply real_total_abs. intros qw Hq. destruct (P qw Hq) as (W2 & I2).
      set (x' := nth (2 * fst qw) (qd_points qd) 0) in *. set (y' := nth (2 * fst qw + 1) (qd_points qd) 0) in *.
      pose proof (full_near k x y x' y' I1 I2) as N. cbv beta in N. rewrite <- Rmult_minus_distr_r, Rabs_mult, (Rabs_right (snd pw * snd qw)) by nra.
      eapply Rle_trans; [apply Rmult_le_compat_r; [nra|exact N]|]. right. ring.
Qed.
End Pair.
