(** * Entries of distant cells and the integral of the kernel *)
From Coq Require Import Reals Lra Psatz.
From Verif Require Import Base BaseFacts Topology TopologyFacts DofMap DofMapFacts SpecDof DofMapResults Process Space SpecSpace Options
  Adjacency SpecAdjacency Scalar Integrand CellPair Operators SpecLocal LocalFacts LocalResults Interleave Assembly SpecAssembly
  AssemblyFacts AssemblySingular AssemblyDense AssemblyExact AssemblyResults SpecAlgebra AlgebraFacts AlgebraResults
  SpecBroken BrokenResults SpecTransfer SpecRounding RoundingModels SpecGalerkin GalerkinResults SpecMeasure MeasureResults Shapes SpecShapes SpecSphere SpecWidth SpecTurns TurnExamples SpecShare
  SphereGeometry SpecFloatSphere FloatSphere FloatSphereNear FloatSphereError SpecWaves SpecDecay DecayResults DecayPoints SpecMoments MomentResults SpecDegree LegendreSeries DegreeIntegrals DegreeResults.

Local Open Scope R_scope.

Local Notation dist := SpecWaves.distance.

(** ** Bounds of integrals *)

Lemma integral_bound f h a b v w : integral f a b v -> integral h a b w -> a <= b -> (forall x, a <= x <= b -> Rabs (f x) <= h x) -> Rabs v <= w.
Proof.
  intros (F & DF & <-) (H & DH & <-) Hab B. destruct Hab as [L| ->]; [|rewrite !Rminus_diag_eq, Rabs_R0 by reflexivity; lra].
  destruct (MVT_cor2 (fun x => H x - F x) (fun x => h x - f x) a b L) as (c & E & Hc); [intros; now apply (derivable_pt_lim_minus H F)|].
  destruct (MVT_cor2 (fun x => H x + F x) (fun x => h x + f x) a b L) as (c' & E' & Hc'); [intros; now apply (derivable_pt_lim_plus H F)|].
  pose proof (B c ltac:(lra)) as B1. pose proof (B c' ltac:(lra)) as B2. pose proof (Rle_abs (f c)) as A1. pose proof (Rle_abs (- f c')) as A2. rewrite Rabs_Ropp in A2.
  apply Rabs_le. split; nra.
Qed.

Lemma integral_const k a b : integral (fun _ => k) a b (k * (b - a)).
Proof. exists (fun x => k * x). split; [|ring]. intros x. enough (D : derivable_pt_lim (fun x => k * x) x (k * 1)) by now rewrite Rmult_1_r in D. apply (derivable_pt_lim_scal (fun x => x)). apply derivable_pt_lim_id. Qed.

Lemma integral_slope k : integral (fun x => k * (1 - x)) 0 1 (k * (1 / 2)).
Proof.
  apply integral_scale. apply (integral_same (fun x => x ^ 0 * (1 - x) ^ 1)); [intros; ring|].
  replace (1 / 2) with (INR (fact 0) * INR (fact 1) / INR (fact (0 + 1 + 1))) by (cbn; field). apply integral_beta.
Qed.

Lemma cell_bound t f v k : t = Triangle \/ t = Quadrilateral -> cell_integral t f v -> (forall x y, inside t x y -> Rabs (f x y) <= k) -> Rabs v <= k * reference_area t.
Proof.
  intros [-> | ->] (g & A & B) H; cbn [inside reference_area] in *.
  - apply (integral_bound g (fun x => k * (1 - x)) 0 1); [exact B|exact (integral_slope k)|lra|]. intros x Hx.
    replace (k * (1 - x)) with (k * (1 - x - 0)) by ring. apply (integral_bound (f x) (fun _ => k) 0 (1 - x)); [apply A|apply integral_const|lra|]. intros y Hy. apply H. lra.
  - replace (k * 1) with (k * (1 - 0)) by ring. apply (integral_bound g (fun x => k) 0 1); [exact B|apply integral_const|lra|]. intros x Hx.
    replace k with (k * (1 - 0)) by ring. apply (integral_bound (f x) (fun _ => k) 0 1); [apply A|apply integral_const|lra|]. intros y Hy. apply H. lra.
Qed.

Lemma iterated_bound t f v k : t = Triangle \/ t = Quadrilateral -> iterated t f v -> (forall x y x' y', inside t x y -> inside t x' y' -> Rabs (f x y x' y') <= k) ->
  Rabs v <= k * (reference_area t * reference_area t).
Proof.
  intros Ht (g & A & B) H. rewrite <- Rmult_assoc. apply (cell_bound t g); [exact Ht|exact B|]. intros x y I. apply (cell_bound t (f x y)); [exact Ht|apply A|]. intros x' y' I'. now apply H.
Qed.

(** ** Linearity *)
Lemma integral_add f g a b v w : integral f a b v -> integral g a b w -> integral (fun x => f x + g x) a b (v + w).
Proof. intros (F & DF & <-) (G & DG & <-). exists (fun x => F x + G x). split; [|ring]. intros x. now apply (derivable_pt_lim_plus F G). Qed.

Lemma cell_add t f g v w : cell_integral t f v -> cell_integral t g w -> cell_integral t (fun x y => f x y + g x y) (v + w).
Proof. intros (F & A & B) (G & C & D). exists (fun x => F x + G x). split; [|now apply integral_add]. intros x. now apply (integral_add (f x) (g x)). Qed.

Lemma cell_scale t c f v : cell_integral t f v -> cell_integral t (fun x y => c * f x y) (c * v).
Proof. intros (F & A & B). exists (fun x => c * F x). split; [|now apply integral_scale]. intros x. now apply (integral_scale c (f x)). Qed.

Lemma cell_same t f g v : (forall x y, g x y = f x y) -> cell_integral t f v -> cell_integral t g v.
Proof. intros E (F & A & B). exists F. split; [|exact B]. intros x. apply (integral_same (f x)); [intros; apply E|apply A]. Qed.

Lemma iterated_add t f g v w : iterated t f v -> iterated t g w -> iterated t (fun x y x' y' => f x y x' y' + g x y x' y') (v + w).
Proof. intros (F & A & B) (G & C & D). exists (fun x y => F x y + G x y). split; [|now apply cell_add]. intros x y. now apply (cell_add t (f x y) (g x y)). Qed.

Lemma iterated_scale t c f v : iterated t f v -> iterated t (fun x y x' y' => c * f x y x' y') (c * v).
Proof. intros (F & A & B). exists (fun x y => c * F x y). split; [|now apply cell_scale]. intros x y. now apply (cell_scale t c (f x y)). Qed.

Lemma iterated_same t f g v : (forall x y x' y', g x y x' y' = f x y x' y') -> iterated t f v -> iterated t g v.
Proof. intros E (F & A & B). exists F. split; [|exact B]. intros x y. apply (cell_same t (f x y)); [intros; apply E|apply A]. Qed.

Lemma iterated_minus t f g v w : iterated t f v -> iterated t g w -> iterated t (fun x y x' y' => f x y x' y' - g x y x' y') (v - w).
Proof.
  intros A B. replace (v - w) with (v + -1 * w) by ring. apply (iterated_same t (fun x y x' y' => f x y x' y' + -1 * g x y x' y')); [intros; ring|]. apply iterated_add; [exact A|now apply iterated_scale].
Qed.

(** The integral of a function is unique. *)
Theorem pair_integral_unique t f v w : t = Triangle \/ t = Quadrilateral -> pair_integral t f v -> pair_integral t f w -> v = w.
Proof.
  intros Ht A B. assert (Pa : 0 < reference_area t <= 1) by (destruct Ht as [-> | ->]; cbn; lra).
  assert (L : Rabs (v - w) <= 0); [|pose proof (Rabs_pos (v - w)); pose proof (Rle_abs (v - w)) as L1; pose proof (Rle_abs (- (v - w))) as L2; rewrite Rabs_Ropp in L2; lra].
  apply le_epsilon. intros eps He. destruct (A (eps / 4) ltac:(lra)) as (g & v' & Ig & Nv & Hg), (B (eps / 4) ltac:(lra)) as (h & w' & Ih & Nw & Hh).
  pose proof (iterated_bound t _ _ (eps / 2) Ht (iterated_minus t g h v' w' Ig Ih)) as D.
  assert (D' : Rabs (v' - w') <= eps / 2 * (reference_area t * reference_area t)).
  { apply D. intros x y x' y' I I'. specialize (Hg x y x' y' I I'). specialize (Hh x y x' y' I I').
    replace (g x y x' y' - h x y x' y') with (- (f x y x' y' - g x y x' y') + (f x y x' y' - h x y x' y')) by ring. eapply Rle_trans; [apply Rabs_triang|]. rewrite Rabs_Ropp. lra. }
  assert (reference_area t * reference_area t <= 1) by nra.
  replace (v - w) with (- (v' - v) + (v' - w') + (w' - w)) by ring. eapply Rle_trans; [apply Rabs_triang|]. eapply Rle_trans; [apply Rplus_le_compat_r, Rabs_triang|]. rewrite Rabs_Ropp. nra.
Qed.

(** ** Polynomials *)
Lemma joint_integral t k f : t = Triangle \/ t = Quadrilateral -> joint k f -> exists v, iterated t f v /\
  forall qd, (forall i j, (i + j <= k)%nat -> monomial_sum qd i j = monomial_integral t i j) -> rule_sum qd f = v.
Proof.
  intros Ht. induction 1 as [c i j l m H1 H2|f g _ (v & I1 & R1) _ (w & I2 & R2)|f g _ (v & I & Rv) E].
  - exists (c * monomial_integral t l m * monomial_integral t i j). split.
    + exists (fun x y => c * monomial_integral t l m * (x ^ i * y ^ j)). split; [|apply cell_scale; now apply monomial_integrals].
      intros x y. replace (c * monomial_integral t l m * (x ^ i * y ^ j)) with (c * (x ^ i * y ^ j) * monomial_integral t l m) by ring. apply cell_scale. now apply monomial_integrals.
    + intros qd H. rewrite rule_monomial, !H by assumption. ring.
  - exists (v + w). split; [now apply iterated_add|]. intros qd H. rewrite rule_add, R1, R2 by exact H. reflexivity.
  - exists v. split; [now apply (iterated_same t f)|]. intros qd H. rewrite (rule_same qd f g E). now apply Rv.
Qed.

(** The bound falls below any number. *)
Lemma small_tail (rho : R) (k : nat) (c eps : R) : 0 <= rho < 1 -> 0 <= c -> 0 < eps -> exists l, (k <= l)%nat /\ c * (rho ^ S l / (1 - rho)) <= eps.
Proof.
  intros (P0 & P1) Pc He. destruct (pow_lt_1_zero rho) with (y := eps * (1 - rho) / (c + 1)) as (n & Hn); [rewrite Rabs_right; lra|apply Rdiv_lt_0_compat; [apply Rmult_lt_0_compat|]; lra|].
  exists (k + n)%nat. split; [lia|]. specialize (Hn (S (k + n)) ltac:(lia)). rewrite Rabs_right in Hn by (apply Rle_ge, pow_le; lra).
  apply (Rmult_le_reg_r (1 - rho)); [lra|]. replace (c * (rho ^ S (k + n) / (1 - rho)) * (1 - rho)) with (c * rho ^ S (k + n)) by (field; lra).
  apply Rle_trans with (c * (eps * (1 - rho) / (c + 1))); [apply Rmult_le_compat_l; lra|].
  replace (c * (eps * (1 - rho) / (c + 1))) with (eps * (1 - rho) * (c / (c + 1))) by (field; lra).
  assert (c / (c + 1) <= 1) by (apply (Rmult_le_reg_r (c + 1)); [lra|]; replace (c / (c + 1) * (c + 1)) with c by (field; lra); lra).
  assert (0 <= eps * (1 - rho)) by nra. nra.
Qed.

(** ** The kernel *)
Section Pair.
Context (t : cell_type) (p q r p' q' r' : vec) (h h' e : R) (Kind : t = Triangle \/ t = Quadrilateral) (Rt : radius t p q r h) (Rs : radius t p' q' r' h').
Notation a := (dist (centre t p q r) (centre t p' q' r')).
Context (Far : h + h' < a).
Notation rho := ((h + h') / a).
Notation kernel := (fun x y x' y' => newton e 0 (mapped p q r x y) (mapped p' q' r' x' y')).
Notation cut := (truncated t p q r p' q' r').

Lemma ratio_range : 0 <= rho < 1.
Proof.
  pose proof (sum_nonneg t p q r p' q' r' h h' Rt Rs) as P. split; [unfold Rdiv; apply Rmult_le_pos; [lra|left; apply Rinv_0_lt_compat; lra]|].
  apply (Rmult_lt_reg_r a); [lra|]. unfold Rdiv. rewrite Rmult_assoc, Rinv_l by lra. lra.
Qed.

(** Integrals of the truncated kernels. *)
Lemma cut_integral k : exists v, iterated t (cut k) v /\ forall qd, (forall i j, (i + j <= k)%nat -> monomial_sum qd i j = monomial_integral t i j) -> rule_sum qd (cut k) = v.
Proof. apply (joint_integral t k); [exact Kind|]. exact (joint_truncated t p q r p' q' r' h h' Rt Rs Far k). Qed.

Lemma iterated_unique f v w : iterated t f v -> iterated t f w -> v = w.
Proof.
  intros A B. apply (pair_integral_unique t f); [exact Kind| |]; intros eps He; exists f.
  - exists v. split; [exact A|]. split; [rewrite Rminus_diag_eq, Rabs_R0 by reflexivity; lra|]. intros. rewrite Rminus_diag_eq, Rabs_R0 by reflexivity. lra.
  - exists w. split; [exact B|]. split; [rewrite Rminus_diag_eq, Rabs_R0 by reflexivity; lra|]. intros. rewrite Rminus_diag_eq, Rabs_R0 by reflexivity. lra.
Qed.

Notation unit := (1 / (4 * PI * a) * (reference_area t * reference_area t)).

Lemma unit_nonneg : 0 <= unit /\ 0 < 1 / (4 * PI * a).
Proof.
  pose proof PI_RGT_0. pose proof (sum_nonneg t p q r p' q' r' h h' Rt Rs). assert (0 < 1 / (4 * PI * a)) by (apply Rdiv_lt_0_compat; [lra|apply Rmult_lt_0_compat; lra]).
  split; [|assumption]. apply Rmult_le_pos; [lra|]. destruct Kind as [-> | ->]; cbn; lra.
Qed.

Lemma cut_near k l v w : iterated t (cut k) v -> iterated t (cut l) w -> Rabs (v - w) <= unit * (rho ^ S k / (1 - rho)) + unit * (rho ^ S l / (1 - rho)).
Proof.
  intros A B. pose proof (iterated_bound t _ _ (1 / (4 * PI * a) * (rho ^ S k / (1 - rho)) + 1 / (4 * PI * a) * (rho ^ S l / (1 - rho))) Kind (iterated_minus t _ _ _ _ A B)) as D.
  eapply Rle_trans; [apply D|right; ring]. intros x y x' y' I I'.
  pose proof (kernel_near t p q r p' q' r' h h' e Kind Rt Rs Far k x y x' y' I I') as N1. pose proof (kernel_near t p q r p' q' r' h h' e Kind Rt Rs Far l x y x' y' I I') as N2. rewrite Rabs_minus_sym in N1.
  set (n := newton e 0 (mapped p q r x y) (mapped p' q' r' x' y')) in *.
  replace (cut k x y x' y' - cut l x y x' y') with ((cut k x y x' y' - n) + (n - cut l x y x' y')) by ring. eapply Rle_trans; [apply Rabs_triang|]. lra.
Qed.

(** The kernel has an integral, *)
Lemma kernel_integral : exists v, pair_integral t kernel v /\ forall k w, iterated t (cut k) w -> Rabs (w - v) <= unit * (rho ^ S k / (1 - rho)).
Proof.
  destruct unit_nonneg as (Pu & P1). destruct ratio_range as (Q0 & Q1).
  set (E := fun z => exists k w, iterated t (cut k) w /\ z = w - unit * (rho ^ S k / (1 - rho))).
  destruct (completeness E) as (v & Up & Least).
  - destruct (cut_integral 0) as (w0 & I0 & _). exists (w0 + unit * (rho ^ 1 / (1 - rho))). intros z (k & w & I & ->).
    pose proof (cut_near k 0 w w0 I I0) as N. pose proof (Rle_abs (w - w0)). lra.
  - destruct (cut_integral 0) as (w0 & I0 & _). eexists. exists 0%nat, w0. split; [exact I0|reflexivity].
  - assert (Near : forall k w, iterated t (cut k) w -> Rabs (w - v) <= unit * (rho ^ S k / (1 - rho))).
    { intros k w I. apply Rabs_le. assert (L : w - unit * (rho ^ S k / (1 - rho)) <= v) by (apply Up; exists k, w; auto).
      assert (U : v <= w + unit * (rho ^ S k / (1 - rho))).
      { apply Least. intros z (l & w' & I' & ->). pose proof (cut_near l k w' w I' I) as N. pose proof (Rle_abs (w' - w)). lra. } lra. }
    exists v. split; [|exact Near]. intros eps He.
    destruct (small_tail rho 0 (unit + 1 / (4 * PI * a)) eps ratio_range) as (l & _ & Hl); [lra|exact He|].
    assert (Pt : 0 <= rho ^ S l / (1 - rho)) by (unfold Rdiv; apply Rmult_le_pos; [apply pow_le; lra|left; apply Rinv_0_lt_compat; lra]).
    destruct (cut_integral l) as (w & I & _). exists (cut l), w. split; [exact I|]. split; [pose proof (Near l w I); nra|].
    intros x y x' y' J J'. pose proof (kernel_near t p q r p' q' r' h h' e Kind Rt Rs Far l x y x' y' J J'). nra.
Qed.

(** and the rules of degree [k] are near it. *)
Lemma rule_near_integral k qd v : (forall i j, (i + j <= k)%nat -> monomial_sum qd i j = monomial_integral t i j) ->
  (forall pw, List.In pw (enumerate (qd_weights qd)) -> 0 <= snd pw /\ inside t (nth (2 * fst pw) (qd_points qd) 0) (nth (2 * fst pw + 1) (qd_points qd) 0)) ->
  pair_integral t kernel v -> Rabs (rule_sum qd kernel - v) <= 2 * (unit * (rho ^ S k / (1 - rho))).
Proof.
  intros H P I. destruct kernel_integral as (v' & I' & Near). rewrite (pair_integral_unique t _ v v' Kind I I'). destruct (cut_integral k) as (w & Iw & Rw).
  pose proof (sum_near t p q r p' q' r' h h' e Kind Rt Rs Far k qd H P) as N. rewrite (Rw qd H) in N. specialize (Near k w Iw).
  replace (rule_sum qd kernel - v') with ((rule_sum qd kernel - w) + (w - v')) by ring. eapply Rle_trans; [apply Rabs_triang|]. lra.
Qed.
End Pair.

(** ** The matrix *)
Theorem integral_entries (X : externals R) wmod e o deg pts ct (test trial : fspace R R) rt k :
  dense_setting X wmod (laplace_single_layer (newton e)) o deg pts ct test trial -> positive_externals (Rle 0) X -> constants reals 1 test -> constants reals 1 trial ->
  interior_family (g_types (fs_grid test) 2) (fs_family test) -> interior_family (g_types (fs_grid trial) 2) (fs_family trial) ->
  ct = Triangle \/ ct = Quadrilateral -> inside_rules X ct -> exact_to X ct (pts ct) k -> legal_runtime Rplus rt ->
  exists m, assemble reals X rt wmod (laplace_single_layer (newton e)) o trial test = Ok m /\
  forall t s i j p q r p' q' r' h h', (t < ent_count (fs_grid test) 2)%nat -> (s < ent_count (fs_grid trial) 2)%nat -> List.In i (dofs_at test t) -> List.In j (dofs_at trial s) -> ~ touching test trial t s ->
    (forall points, flat_cell points p q r (x_geometry X (fs_grid test) ct points t)) -> (forall points, flat_cell points p' q' r' (x_geometry X (fs_grid trial) ct points s)) ->
    radius ct p q r h -> radius ct p' q' r' h' ->
    let a := dist (centre ct p q r) (centre ct p' q' r') in h + h' < a ->
    exists v w, nth_error m (i + global_size (fs_space test) * j) = Some v /\ surface_integral ct p q r p' q' r' (newton e 0) w /\
      Rabs (v - w) <= 2 * (((h + h') / a) ^ (k + 1) / (1 - (h + h') / a)) * (cell_area ct p q r * cell_area ct p' q' r' / (4 * PI * a)).
Proof.
  intros D HX Ct Cs It Is K I Ex L.
  destruct (assembled reals 1 reals_ring X rt wmod _ o deg pts ct test trial L D) as (m & val & E & _ & V & H).
  exists m. split; [exact E|]. intros t s i j p q r p' q' r' h h' Ht Hs Hi Hj N F1 F2 R1 R2 a Fa.
  assert (Li : (i < global_size (fs_space test))%nat) by (eapply serial_lt; eauto; apply D). assert (Lj : (j < global_size (fs_space trial))%nat) by (eapply serial_lt; eauto; apply D).
  destruct (kernel_integral ct p q r p' q' r' h h' e K R1 R2 Fa) as (w & Iw & _).
  eexists. eexists. split; [apply H; auto|]. split; [exists w; split; [exact Iw|reflexivity]|].
  rewrite (single_entry X wmod e o deg pts ct test trial D Ct Cs It Is val t s i j Ht Hs Hi Hj). specialize (V t s 0%nat 0%nat Ht Hs).
  destruct (regular_sum X wmod e o deg pts ct test trial D Ct Cs t s p q r p' q' r' Ht Hs F1 F2 N _ V) as (qt & qs & A1 & A2 & ->). rewrite A1 in A2. apply (f_equal (fun o => match o with Some z => z | None => qs end)) in A2. subst qs.
  pose proof (rule_near_integral ct p q r p' q' r' h h' e K R1 R2 Fa k qt w (Ex _ A1) (fun pw => positive_weight X ct HX I _ _ pw A1) Iw) as B. fold a in B.
  replace (k + 1)%nat with (S k) by lia.
  match goal with |- Rabs (?s - ?d * ?d' * w) <= _ => replace s with (d * d' * rule_sum qt (fun x y x' y' => newton e 0 (mapped p q r x y) (mapped p' q' r' x' y'))) end.
  - rewrite <- Rmult_minus_distr_l, Rabs_mult. set (d := sqrt (inner (normal p q r) (normal p q r))) in *. set (d' := sqrt (inner (normal p' q' r') (normal p' q' r'))) in *.
    assert (Pd : 0 <= d * d') by (apply Rmult_le_pos; apply sqrt_pos). rewrite (Rabs_right (d * d')) by lra.
    eapply Rle_trans; [apply Rmult_le_compat_l; [exact Pd|exact B]|]. right. unfold cell_area. fold d d'. set (z := ((h + h') / a) ^ S k / (1 - (h + h') / a)).
    pose proof PI_RGT_0. pose proof (sum_nonneg ct p q r p' q' r' h h' R1 R2). field. split; lra.
  - unfold rule_sum. rewrite <- real_total_mul. apply total_ext. intros pw _. rewrite <- real_total_mul. apply total_ext. intros qw _. ring.
Qed.

Theorem surface_integral_unique t p q r p' q' r' K v w : t = Triangle \/ t = Quadrilateral -> surface_integral t p q r p' q' r' K v -> surface_integral t p q r p' q' r' K w -> v = w.
Proof. intros Ht (x & A & ->) (y & B & ->). now rewrite (pair_integral_unique t _ x y Ht A B). Qed.
