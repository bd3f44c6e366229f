(** * Arithmetics that round *)
From Coq Require Import Reals Lra ZArith Ring_theory.
From Verif Require Import Base Scalar Integrand CellPair Operators SpecLocal Assembly SpecAssembly SpecScalars SpecRounding GradedResults RoundingResults.
Local Open Scope R_scope.

(** ** Size of the bound *)
Lemma bernoulli u n : 0 <= u < 1 -> 1 - INR n * u <= (1 - u) ^ n.
Proof.
  intros Hu. induction n; [simpl; lra|]. rewrite S_INR. cbn [pow].
  assert (0 <= (1 - u) ^ n) by (apply pow_le; lra). pose proof (pos_INR n). nra.
Qed.

Theorem growth_bound u n : 0 <= u -> INR n * u < 1 -> u < 1 -> growth u n - 1 <= INR n * u / (1 - INR n * u).
Proof.
  intros Hu Hn H1. pose proof (bernoulli u n (conj Hu H1)) as B. unfold growth. rewrite pow_inv.
  assert (/ (1 - u) ^ n <= / (1 - INR n * u)) by (apply Rinv_le_contravar; lra).
  replace (INR n * u / (1 - INR n * u)) with (/ (1 - INR n * u) - 1) by (field; lra). lra.
Qed.

(** ** Real numbers *)
Theorem reals_valued : valued reals Rabs.
Proof.
  constructor; cbn [reals s_zero s_add s_mul s_sub s_neg s_div s_cast r_mul]; auto using Rabs_R0, Rabs_triang, Rabs_mult, Rabs_Ropp.
  split; [exists 1; constructor; cbn; intros; ring|]. exists Rinv. reflexivity.
Qed.

Theorem reals_round : rounds 0 Rabs reals reals.
Proof.
  constructor; intros; cbn [reals s_zero s_add s_mul s_sub s_neg s_div s_cast r_mul]; auto; rewrite Rminus_diag_eq by reflexivity; rewrite Rabs_R0; lra.
Qed.

Lemma rounded u v w : 0 <= u < 1 -> Rabs (v - w) <= u * Rabs w -> exists t, near u 1 t /\ v = w * t.
Proof.
  intros Hu H. destruct (Req_dec w 0) as [->|N].
  - exists (1 + 0). split; [apply near_rounding; [assumption|rewrite Rabs_R0; lra]|].
    rewrite Rabs_R0, Rmult_0_r in H. revert H. unfold Rabs. destruct (Rcase_abs (v - 0)); lra.
  - exists (1 + (v - w) / w). split.
    + apply near_rounding; [assumption|]. unfold Rdiv. rewrite Rabs_mult, Rabs_inv.
      apply Rmult_le_reg_r with (Rabs w); [now apply Rabs_pos_lt|]. rewrite Rmult_assoc, Rinv_l by now apply Rabs_no_R0. lra.
    + field. assumption.
Qed.

(** ** Complex numbers *)
Lemma cnorm_pos x : 0 <= cnorm x.
Proof. apply sqrt_pos. Qed.
Lemma cnorm_sq x : cnorm x * cnorm x = fst x * fst x + snd x * snd x.
Proof. apply sqrt_sqrt. nra. Qed.
Lemma cnorm_le x b : 0 <= b -> fst x * fst x + snd x * snd x <= b * b -> cnorm x <= b.
Proof. intros Hb H. unfold cnorm. rewrite <- (sqrt_square b Hb). now apply sqrt_le_1_alt. Qed.
Lemma cnorm_eq x b : 0 <= b -> fst x * fst x + snd x * snd x = b * b -> cnorm x = b.
Proof. intros Hb H. unfold cnorm. rewrite H. now apply sqrt_square. Qed.

Lemma cnorm_triangle x y : cnorm (fst x + fst y, snd x + snd y) <= cnorm x + cnorm y.
Proof.
  pose proof (cnorm_pos x) as Px. pose proof (cnorm_pos y) as Py. pose proof (cnorm_sq x) as Sx. pose proof (cnorm_sq y) as Sy.
  apply cnorm_le; [lra|]. cbn [fst snd]. set (a := fst x) in *. set (b := snd x) in *. set (c := fst y) in *. set (d := snd y) in *.
  set (m := cnorm x) in *. set (n := cnorm y) in *.
  assert (a * c + b * d <= m * n).
  { assert (0 <= m * n) by now apply Rmult_le_pos. destruct (Rle_dec (a * c + b * d) 0) as [L|L]; [lra|]. apply Rsqr_incr_0_var; [|assumption]. unfold Rsqr.
    replace (m * n * (m * n)) with ((m * m) * (n * n)) by ring. rewrite Sx, Sy.
    assert (0 <= (a * d - b * c) * (a * d - b * c)) by apply Rle_0_sqr. nra. }
  nra.
Qed.

Lemma cnorm_abs x : Rabs (fst x) + Rabs (snd x) <= sqrt 2 * cnorm x.
Proof.
  unfold cnorm. rewrite <- sqrt_mult by nra. rewrite <- (sqrt_square (Rabs (fst x) + Rabs (snd x))).
  - apply sqrt_le_1_alt. pose proof (Rsqr_abs (fst x)) as A. pose proof (Rsqr_abs (snd x)) as B. pose proof (Rle_0_sqr (Rabs (fst x) - Rabs (snd x))) as C. unfold Rsqr in *. lra.
  - pose proof (Rabs_pos (fst x)). pose proof (Rabs_pos (snd x)). lra.
Qed.
Lemma cnorm_sum e f : cnorm (e, f) <= Rabs e + Rabs f.
Proof.
  pose proof (Rabs_pos e). pose proof (Rabs_pos f). apply cnorm_le; [lra|]. cbn [fst snd].
  pose proof (Rsqr_abs e) as A. pose proof (Rsqr_abs f) as B. unfold Rsqr in *. nra.
Qed.

Lemma cnorm_scale x e f k : 0 <= k -> Rabs e <= k * Rabs (fst x) -> Rabs f <= k * Rabs (snd x) -> cnorm (e, f) <= k * cnorm x.
Proof.
  intros Hk A B. pose proof (cnorm_pos x). apply cnorm_le; [nra|]. cbn [fst snd].
  replace (k * cnorm x * (k * cnorm x)) with (k * k * (cnorm x * cnorm x)) by ring. rewrite cnorm_sq.
  pose proof (Rsqr_abs e) as E1. pose proof (Rsqr_abs f) as E2. pose proof (Rsqr_abs (fst x)) as E3. pose proof (Rsqr_abs (snd x)) as E4. unfold Rsqr in *.
  rewrite E1, E2, E3, E4. pose proof (Rabs_pos e). pose proof (Rabs_pos f). pose proof (Rabs_pos (fst x)). pose proof (Rabs_pos (snd x)).
  assert (Rabs e * Rabs e <= k * Rabs (fst x) * (k * Rabs (fst x))) by (apply Rmult_le_compat; lra).
  assert (Rabs f * Rabs f <= k * Rabs (snd x) * (k * Rabs (snd x))) by (apply Rmult_le_compat; lra). nra.
Qed.

Theorem complexes_valued : valued complexes cnorm.
Proof.
  constructor; cbn [complexes complex_of reals s_zero s_add s_mul s_sub s_neg s_div s_cast r_mul].
  - split.
    + exists (1, 0). constructor; intros; cbn; try (destruct x as [a b]); try (destruct y as [c d]); try (destruct z as [e f]); cbn; f_equal; ring.
    + exists (fun y => (fst y / (fst y * fst y + snd y * snd y), - (snd y / (fst y * fst y + snd y * snd y)))). intros [a b] [c d]. cbn. f_equal; unfold Rdiv; ring.
  - apply cnorm_eq; [lra|]. cbn. ring.
  - intros x y. apply cnorm_triangle.
  - intros x y. apply cnorm_eq; [apply Rmult_le_pos; apply cnorm_pos|]. cbn [fst snd].
    replace (cnorm x * cnorm y * (cnorm x * cnorm y)) with ((cnorm x * cnorm x) * (cnorm y * cnorm y)) by ring. rewrite !cnorm_sq. ring.
  - intros x. apply cnorm_eq; [apply cnorm_pos|]. cbn [fst snd]. rewrite cnorm_sq. ring.
  - intros r. apply cnorm_eq; [apply Rabs_pos|]. cbn [fst snd]. pose proof (Rsqr_abs r) as A. unfold Rsqr in A. rewrite <- A. ring.
  - intros r s. cbn. f_equal; ring.
  - intros [a b] r Hr. cbn. f_equal; field; auto.
  - reflexivity.
Qed.

Section Complex.
Context (u : R) (Hu : 0 <= u < 1) (S : scalar R R) (Q : rounds u Rabs reals S).

Lemma r_add x y : exists t, near u 1 t /\ s_add S x y = (x + y) * t.
Proof. apply rounded; [assumption|]. exact (ru_add _ _ _ _ Q x y). Qed.
Lemma r_sub x y : exists t, near u 1 t /\ s_sub S x y = (x - y) * t.
Proof. apply rounded; [assumption|]. exact (ru_sub _ _ _ _ Q x y). Qed.
Lemma r_prod x y : exists t, near u 1 t /\ s_mul S x y = x * y * t.
Proof. apply rounded; [assumption|]. exact (ru_mul _ _ _ _ Q x y). Qed.
Lemma r_quot x r : r <> 0 -> exists t, near u 1 t /\ s_div S x r = x / r * t.
Proof. intros Hr. apply rounded; [assumption|]. pose proof (ru_div _ _ _ _ Q x r Hr) as H. rewrite (ru_cast _ _ _ _ Q) in H. exact H. Qed.

Lemma near_abs n t w : near u n t -> Rabs (w * t - w) <= (growth u n - 1) * Rabs w.
Proof.
  intros H. replace (w * t - w) with ((t - 1) * w) by ring. rewrite Rabs_mult. apply Rmult_le_compat_r; [apply Rabs_pos|]. now apply near_dist.
Qed.

Lemma growth_five : 2 * (growth u 2 - 1) <= growth u 5 - 1 /\ u <= growth u 5 - 1.
Proof.
  pose proof (growth_step u Hu) as G. unfold growth. set (g := / (1 - u)) in *. assert (1 <= g) by lra.
  assert (E2 : g ^ 2 = g * g) by ring. assert (E5 : g ^ 5 = g * g * (g * g) * g) by ring. rewrite E2, E5.
  set (q := g * g) in *. assert (g <= q) by (unfold q; nra). assert (q <= q * q) by nra. assert (q * q <= q * q * g) by nra. split; nra.
Qed.

Lemma complex_mul_error a b c d : exists e f,
  s_sub S (s_mul S a c) (s_mul S b d) - (a * c - b * d) = e /\ s_add S (s_mul S a d) (s_mul S b c) - (a * d + b * c) = f /\
  Rabs e <= (growth u 2 - 1) * (Rabs (a * c) + Rabs (b * d)) /\ Rabs f <= (growth u 2 - 1) * (Rabs (a * d) + Rabs (b * c)).
Proof.
  destruct (r_prod a c) as (t1 & T1 & E1). destruct (r_prod b d) as (t2 & T2 & E2). destruct (r_prod a d) as (t3 & T3 & E3). destruct (r_prod b c) as (t4 & T4 & E4).
  rewrite E1, E2, E3, E4. destruct (r_sub (a * c * t1) (b * d * t2)) as (t5 & T5 & E5). destruct (r_add (a * d * t3) (b * c * t4)) as (t6 & T6 & E6). rewrite E5, E6.
  pose proof (near_abs 2 (t1 * t5) (a * c) (near_mul u Hu 1 1 _ _ T1 T5)) as A1. pose proof (near_abs 2 (t2 * t5) (b * d) (near_mul u Hu 1 1 _ _ T2 T5)) as A2.
  pose proof (near_abs 2 (t3 * t6) (a * d) (near_mul u Hu 1 1 _ _ T3 T6)) as A3. pose proof (near_abs 2 (t4 * t6) (b * c) (near_mul u Hu 1 1 _ _ T4 T6)) as A4.
  eexists. eexists. split; [reflexivity|]. split; [reflexivity|]. split.
  - replace ((a * c * t1 - b * d * t2) * t5 - (a * c - b * d)) with ((a * c * (t1 * t5) - a * c) + - (b * d * (t2 * t5) - b * d)) by ring.
    eapply Rle_trans; [apply Rabs_triang|]. rewrite Rabs_Ropp. lra.
  - replace ((a * d * t3 + b * c * t4) * t6 - (a * d + b * c)) with ((a * d * (t3 * t6) - a * d) + (b * c * (t4 * t6) - b * c)) by ring.
    eapply Rle_trans; [apply Rabs_triang|]. lra.
Qed.

Lemma null_product x y : x * y = 0 -> s_mul S x y = 0.
Proof. intros H. destruct (r_prod x y) as (t & _ & ->). rewrite H. ring. Qed.

Theorem complex_rounds : rounds (growth u 5 - 1) cnorm complexes (complex_of S).
Proof.
  pose proof growth_five as (G2 & G1). pose proof (growth_ge u Hu 5) as G5. pose proof (growth_ge u Hu 2) as G2'.
  constructor; cbn [complexes complex_of reals s_zero s_add s_mul s_sub s_neg s_div s_cast r_mul].
  - now rewrite (ru_zero _ _ _ _ Q).
  - intros x y. cbn [fst snd]. apply (cnorm_scale (fst x + fst y, snd x + snd y)); cbn [fst snd]; [lra| |];
      (eapply Rle_trans; [apply (ru_add _ _ _ _ Q)|]; apply Rmult_le_compat_r; [apply Rabs_pos|exact G1]).
  - intros x y. cbn [fst snd]. apply (cnorm_scale (fst x - fst y, snd x - snd y)); cbn [fst snd]; [lra| |];
      (eapply Rle_trans; [apply (ru_sub _ _ _ _ Q)|]; apply Rmult_le_compat_r; [apply Rabs_pos|exact G1]).
  - intros x y. cbn [fst snd]. destruct (complex_mul_error (fst x) (snd x) (fst y) (snd y)) as (e & f & -> & -> & B & C).
    rewrite (va_mul _ _ complexes_valued x y : cnorm (fst x * fst y - snd x * snd y, fst x * snd y + snd x * fst y) = cnorm x * cnorm y).
    eapply Rle_trans; [apply cnorm_sum|]. rewrite !Rabs_mult in B, C.
    assert (P : (Rabs (fst x) + Rabs (snd x)) * (Rabs (fst y) + Rabs (snd y)) <= sqrt 2 * cnorm x * (sqrt 2 * cnorm y)).
    { apply Rmult_le_compat; try apply cnorm_abs; pose proof (Rabs_pos (fst x)); pose proof (Rabs_pos (snd x)); pose proof (Rabs_pos (fst y)); pose proof (Rabs_pos (snd y)); lra. }
    replace (sqrt 2 * cnorm x * (sqrt 2 * cnorm y)) with (sqrt 2 * sqrt 2 * (cnorm x * cnorm y)) in P by ring. rewrite sqrt_sqrt in P by lra.
    pose proof (Rmult_le_pos _ _ (cnorm_pos x) (cnorm_pos y)). set (h := growth u 2 - 1) in *. set (k := growth u 5 - 1) in *. assert (0 <= h) by (unfold h; lra).
    assert (h * ((Rabs (fst x) + Rabs (snd x)) * (Rabs (fst y) + Rabs (snd y))) <= h * (2 * (cnorm x * cnorm y))) by (now apply Rmult_le_compat_l).
    assert (2 * h * (cnorm x * cnorm y) <= k * (cnorm x * cnorm y)) by (now apply Rmult_le_compat_r). lra.
  - intros [a b] r Hr. cbn [fst snd]. rewrite !(ru_cast _ _ _ _ Q), (ru_zero _ _ _ _ Q). cbn [reals s_cast s_zero].
    rewrite (null_product 0 0), (null_product b 0), (null_product a 0) by ring.
    destruct (r_prod r r) as (t1 & T1 & ->). destruct (r_add (r * r * t1) 0) as (t2 & T2 & ->).
    destruct (r_prod a r) as (t3 & T3 & ->). destruct (r_add (a * r * t3) 0) as (t4 & T4 & ->).
    destruct (r_prod b r) as (t5 & T5 & ->). destruct (r_sub (b * r * t5) 0) as (t6 & T6 & ->).
    pose proof (near_pos u Hu _ _ T1) as P1. pose proof (near_pos u Hu _ _ T2) as P2.
    assert (N : (r * r * t1 + 0) * t2 <> 0). { rewrite Rplus_0_r. repeat apply Rmult_integral_contrapositive_currified; lra. }
    destruct (r_quot ((a * r * t3 + 0) * t4) _ N) as (t7 & T7 & ->). destruct (r_quot ((b * r * t5 - 0) * t6) _ N) as (t8 & T8 & ->).
    pose proof (near_inv u Hu _ _ T1) as I1. pose proof (near_inv u Hu _ _ T2) as I2.
    pose proof (near_mul u Hu _ _ _ _ (near_mul u Hu _ _ _ _ (near_mul u Hu _ _ _ _ (near_mul u Hu _ _ _ _ T3 T4) I1) I2) T7) as A.
    pose proof (near_mul u Hu _ _ _ _ (near_mul u Hu _ _ _ _ (near_mul u Hu _ _ _ _ (near_mul u Hu _ _ _ _ T5 T6) I1) I2) T8) as B.
    cbn [Nat.add] in A, B.
    apply (cnorm_scale (((a * r + b * 0) / (r * r + 0 * 0)), ((b * r - a * 0) / (r * r + 0 * 0)))); cbn [fst snd]; [lra| |].
    + replace ((a * r * t3 + 0) * t4 / ((r * r * t1 + 0) * t2) * t7) with ((a * r + b * 0) / (r * r + 0 * 0) * (t3 * t4 * / t1 * / t2 * t7)) by (field; repeat split; lra).
      now apply near_abs.
    + replace ((b * r * t5 - 0) * t6 / ((r * r * t1 + 0) * t2) * t8) with ((b * r - a * 0) / (r * r + 0 * 0) * (t5 * t6 * / t1 * / t2 * t8)) by (field; repeat split; lra).
      now apply near_abs.
  - intros x. now rewrite !(ru_neg _ _ _ _ Q).
  - intros r. now rewrite (ru_cast _ _ _ _ Q), (ru_zero _ _ _ _ Q).
  - intros r s. eapply Rle_trans; [apply (ru_real_mul _ _ _ _ Q)|]. apply Rmult_le_compat_r; [apply Rabs_pos|exact G1].
Qed.
End Complex.

(** ** Floating point numbers *)
Lemma nearest_error x : Rabs (IZR (nearest x) - x) <= / 2.
Proof. unfold nearest. rewrite minus_IZR. destruct (archimed (x + / 2)) as (A & B). apply Rabs_le. lra. Qed.

Lemma exponent_le x : x <> 0 -> powerRZ 2 (exponent x) <= Rabs x.
Proof.
  intros Hx. unfold exponent. pose proof (Rabs_pos_lt x Hx) as P. rewrite <- (exp_ln (Rabs x) P) at 2. rewrite powerRZ_Rpower by lra. unfold Rpower.
  assert (L : 0 < ln 2) by (rewrite <- ln_1; apply ln_increasing; lra).
  destruct (archimed (ln (Rabs x) / ln 2)) as (A & B). rewrite minus_IZR. set (e := IZR (up (ln (Rabs x) / ln 2)) - 1) in *.
  assert (C : e * ln 2 <= ln (Rabs x)).
  { apply Rle_trans with (ln (Rabs x) / ln 2 * ln 2); [apply Rmult_le_compat_r; [lra|unfold e; lra]|]. unfold Rdiv. rewrite Rmult_assoc, Rinv_l by lra. rewrite Rmult_1_r; apply Rle_refl. }
  destruct C as [C|C]; [left; now apply exp_increasing|right; now rewrite C].
Qed.

Theorem fl_error p x : Rabs (fl p x - x) <= (/ 2) ^ p * Rabs x.
Proof.
  unfold fl. destruct (Req_EM_T x 0) as [->|Hx]; [rewrite Rminus_0_r, Rabs_R0; lra|].
  set (e := exponent x). set (s := powerRZ 2 (e + 1 - Z.of_nat p)). set (y := x * powerRZ 2 (Z.of_nat p - 1 - e)).
  assert (Ps : 0 < s) by (apply powerRZ_lt; lra).
  assert (E : y * s = x).
  { unfold y, s. rewrite Rmult_assoc, <- powerRZ_add by lra. replace (Z.of_nat p - 1 - e + (e + 1 - Z.of_nat p))%Z with 0%Z by lia. cbn. ring. }
  replace (IZR (nearest y) * s - x) with ((IZR (nearest y) - y) * s) by (rewrite Rmult_minus_distr_r, E; reflexivity). rewrite Rabs_mult, (Rabs_right s) by lra.
  apply Rle_trans with (/ 2 * s); [apply Rmult_le_compat_r; [lra|apply nearest_error]|].
  assert (F : / 2 * s = (/ 2) ^ p * powerRZ 2 e).
  { unfold s. replace (e + 1 - Z.of_nat p)%Z with (1 + (- Z.of_nat p + e))%Z by lia. rewrite !powerRZ_add by lra. rewrite powerRZ_neg' , <- (pow_powerRZ 2 p), pow_inv. change (powerRZ 2 1) with (2 ^ 1). rewrite pow_1. lra. }
  rewrite F. apply Rmult_le_compat_l; [apply pow_le; lra|]. now apply exponent_le.
Qed.

Theorem floats_round p : rounds ((/ 2) ^ p) Rabs reals (floats p).
Proof. constructor; intros; cbn [reals floats s_zero s_add s_mul s_sub s_neg s_div s_cast r_mul]; auto; apply fl_error. Qed.
