(** * The expansion of the reciprocal distance *)
From Coq Require Import Reals Lra Psatz Lia.

Local Open Scope R_scope.

(** Coefficients of [1 / sqrt (1 - 2 s t + q t^2)]: entries [n] and [n + 1]. *)
Fixpoint coefficients (s q : R) (n : nat) : R * R :=
  match n with
  | O => (1, s)
  | S k => let a := fst (coefficients s q k) in let b := snd (coefficients s q k) in (b, ((2 * INR k + 3) * s * b - (INR k + 1) * q * a) / (INR k + 2))
  end.
Definition coefficient (s q : R) (n : nat) : R := fst (coefficients s q n).

Lemma coefficient_0 s q : coefficient s q 0 = 1.
Proof. reflexivity. Qed.
Lemma coefficient_1 s q : coefficient s q 1 = s.
Proof. reflexivity. Qed.
Lemma coefficient_step s q n : (INR n + 2) * coefficient s q (S (S n)) = (2 * INR n + 3) * s * coefficient s q (S n) - (INR n + 1) * q * coefficient s q n.
Proof. unfold coefficient. cbn [coefficients fst snd]. pose proof (pos_INR n). field. lra. Qed.

(** ** Bounds *)
Section Bound.
Context (s t : R).
Notation q := (s * s + t * t).

(** Real and imaginary part of half of [n] times the coefficient, as a complex number that turns with [s + i t]. *)
Fixpoint walk (n : nat) : R * R :=
  match n with
  | O => (0, 0)
  | S k => let x := fst (walk k) + coefficient s q k / 2 in let y := snd (walk k) in (s * x - t * y, t * x + s * y)
  end.

Lemma walk_real n : fst (walk n) = INR n * coefficient s q n / 2 /\ fst (walk (S n)) = INR (S n) * coefficient s q (S n) / 2.
Proof.
  induction n as [|n (A & B)]; [split; cbn; field|].
  split; [exact B|]. pose proof (coefficient_step s q n) as Rec. rewrite !S_INR in *.
  assert (V : fst (walk (S (S n))) = s * (fst (walk (S n)) + coefficient s q (S n) / 2) - t * snd (walk (S n))) by reflexivity. rewrite V.
  assert (W : s * fst (walk (S n)) + t * snd (walk (S n)) = q * (fst (walk n) + coefficient s q n / 2)) by (cbn [walk fst snd]; ring).
  replace (s * (fst (walk (S n)) + coefficient s q (S n) / 2) - t * snd (walk (S n))) with (2 * s * fst (walk (S n)) + s * coefficient s q (S n) / 2 - (s * fst (walk (S n)) + t * snd (walk (S n)))) by field.
  rewrite W, A, B. replace ((INR n + 1 + 1) * coefficient s q (S (S n)) / 2) with ((INR n + 2) * coefficient s q (S (S n)) / 2) by field. rewrite Rec. field.
Qed.

Lemma walk_bound r n : 0 <= r -> q <= r * r -> Rabs (coefficient s q n) <= r ^ n /\ fst (walk n) * fst (walk n) + snd (walk n) * snd (walk n) <= (INR n / 2 * r ^ n) * (INR n / 2 * r ^ n).
Proof.
  intros Hr Hq. induction n as [|n (A & B)].
  - split; [rewrite coefficient_0, Rabs_R1; cbn; lra|cbn; lra].
  - pose proof (pos_INR n) as Pn. pose proof (pow_le r n Hr) as Pr.
    set (k := r ^ n) in *. set (x := fst (walk n)) in *. set (y := snd (walk n)) in *. set (c := coefficient s q n) in *. set (m := INR n / 2 * k) in *.
    assert (Pm : 0 <= m) by (unfold m; nra).
    assert (Ex : Rabs x <= m). { rewrite <- (Rabs_right m) by lra. apply Rsqr_le_abs_0. unfold Rsqr. nra. }
    assert (L : (x + c / 2) * (x + c / 2) + y * y <= (m + k / 2) * (m + k / 2)).
    { assert (Rabs (x * c) <= m * k) by (rewrite Rabs_mult; apply Rmult_le_compat; auto using Rabs_pos). assert (x * c <= m * k) by (eapply Rle_trans; [apply Rle_abs|eassumption]).
      assert (c * c <= k * k). { replace (c * c) with (Rabs c * Rabs c) by (rewrite <- Rabs_mult; apply Rabs_right; nra). apply Rmult_le_compat; auto using Rabs_pos. } nra. }
    assert (W : fst (walk (S n)) * fst (walk (S n)) + snd (walk (S n)) * snd (walk (S n)) <= (INR (S n) / 2 * r ^ S n) * (INR (S n) / 2 * r ^ S n)).
    { replace (fst (walk (S n)) * fst (walk (S n)) + snd (walk (S n)) * snd (walk (S n))) with (q * ((x + c / 2) * (x + c / 2) + y * y)) by (cbn [walk fst snd]; fold x y c; ring).
      replace (INR (S n) / 2 * r ^ S n) with (r * (m + k / 2)) by (rewrite S_INR; cbn [pow]; fold k; unfold m; field).
      replace (r * (m + k / 2) * (r * (m + k / 2))) with (r * r * ((m + k / 2) * (m + k / 2))) by ring.
      apply Rmult_le_compat; [nra| |exact Hq|exact L]. apply Rplus_le_le_0_compat; [exact (Rle_0_sqr (x + c / 2))|exact (Rle_0_sqr y)]. }
    split; [|exact W]. destruct (walk_real n) as (_ & E).
    assert (Pn1 : 0 < INR (S n)) by (apply lt_0_INR; lia). assert (P1 : 0 <= r ^ S n) by (now apply pow_le).
    assert (F : Rabs (fst (walk (S n))) <= INR (S n) / 2 * r ^ S n). { rewrite <- (Rabs_right (INR (S n) / 2 * r ^ S n)) by (apply Rle_ge; apply Rmult_le_pos; lra). apply Rsqr_le_abs_0. unfold Rsqr. nra. }
    rewrite E in F. replace (INR (S n) * coefficient s q (S n) / 2) with (INR (S n) / 2 * coefficient s q (S n)) in F by field.
    rewrite Rabs_mult, (Rabs_right (INR (S n) / 2)) in F by lra. apply (Rmult_le_reg_l (INR (S n) / 2)); [lra|exact F].
Qed.
End Bound.

Lemma coefficient_bound s q r n : 0 <= r -> s * s <= q -> q <= r * r -> Rabs (coefficient s q n) <= r ^ n.
Proof.
  intros Hr Hs Hq. assert (E : s * s + sqrt (q - s * s) * sqrt (q - s * s) = q) by (rewrite sqrt_sqrt; lra).
  destruct (walk_bound s (sqrt (q - s * s)) r n Hr) as (B & _); [lra|]. now rewrite E in B.
Qed.

(** ** Partial sums *)
Fixpoint partial_sum (s q : R) (n : nat) (t : R) : R :=
  match n with O => 1 | S k => partial_sum s q k t + coefficient s q (S k) * t ^ S k end.
Fixpoint partial_slope (s q : R) (n : nat) (t : R) : R :=
  match n with O => 0 | S k => partial_slope s q k t + coefficient s q (S k) * (INR (S k) * t ^ k) end.

Lemma partial_derivative s q n t : derivable_pt_lim (partial_sum s q n) t (partial_slope s q n t).
Proof.
  induction n as [|n IH]; [apply derivable_pt_lim_const|]. cbn [partial_sum partial_slope].
  apply (derivable_pt_lim_plus (partial_sum s q n) (fun t => coefficient s q (S n) * t ^ S n)); [exact IH|].
  apply (derivable_pt_lim_scal (fun t => t ^ S n)). exact (derivable_pt_lim_pow t (S n)).
Qed.

(** The equation of the generating function, up to a term of the next order. *)
Lemma residual s q n t : (1 - 2 * s * t + q * (t * t)) * partial_slope s q n t + (q * t - s) * partial_sum s q n t =
  INR (S n) * t ^ n * (q * t * coefficient s q n - coefficient s q (S n)).
Proof.
  induction n as [|n IH]; [cbn [partial_slope partial_sum pow INR]; rewrite coefficient_0, coefficient_1; ring|].
  cbn [partial_slope partial_sum].
  replace ((1 - 2 * s * t + q * (t * t)) * (partial_slope s q n t + coefficient s q (S n) * (INR (S n) * t ^ n)) + (q * t - s) * (partial_sum s q n t + coefficient s q (S n) * t ^ S n))
    with (((1 - 2 * s * t + q * (t * t)) * partial_slope s q n t + (q * t - s) * partial_sum s q n t) + coefficient s q (S n) * ((1 - 2 * s * t + q * (t * t)) * (INR (S n) * t ^ n) + (q * t - s) * t ^ S n)) by ring.
  rewrite IH. pose proof (coefficient_step s q n) as Rec. rewrite !S_INR in *. cbn [pow].
  replace ((INR n + 1 + 1) * (t * t ^ n) * (q * t * coefficient s q (S n) - coefficient s q (S (S n))))
    with (t * t ^ n * ((INR n + 2) * (q * t * coefficient s q (S n)) - (INR n + 2) * coefficient s q (S (S n)))) by ring.
  rewrite Rec. ring.
Qed.

Section Remainder.
Context (s q r : R) (Hr : 0 <= r) (Hr1 : r < 1) (Hs : s * s <= q) (Hq : q <= r * r).
Notation form t := (1 - 2 * s * t + q * (t * t)).

Lemma form_lower t : 0 <= t <= 1 -> (1 - r) * (1 - r) <= form t.
Proof.
  intros Ht. assert (Q : 0 <= q) by nra. assert (Rs : Rabs s <= sqrt q).
  { rewrite <- (Rabs_right (sqrt q)) by (apply Rle_ge, sqrt_pos). apply Rsqr_le_abs_0. unfold Rsqr. now rewrite sqrt_sqrt. }
  assert (Rq : sqrt q <= r). { rewrite <- (sqrt_square r Hr). now apply sqrt_le_1_alt. }
  pose proof (sqrt_sqrt q Q) as E. pose proof (Rle_abs s). pose proof (sqrt_pos q).
  assert (form t >= (1 - sqrt q * t) * (1 - sqrt q * t)) by nra. assert (1 - r <= 1 - sqrt q * t) by nra. nra.
Qed.

Lemma form_positive t : 0 <= t <= 1 -> 0 < form t.
Proof. intros Ht. pose proof (form_lower t Ht). nra. Qed.

Lemma root_lower t : 0 <= t <= 1 -> 1 - r <= sqrt (form t).
Proof. intros Ht. rewrite <- (sqrt_square (1 - r)) by lra. apply sqrt_le_1_alt. now apply form_lower. Qed.

Notation slope n t := (INR (S n) * t ^ n * (q * t * coefficient s q n - coefficient s q (S n)) / sqrt (form t)).

Lemma form_derivative t : derivable_pt_lim (fun t => form t) t (2 * (q * t - s)).
Proof.
  replace (2 * (q * t - s)) with ((0 - 2 * s * 1) + q * (1 * t + t * 1)) by ring.
  apply (derivable_pt_lim_plus (fun t => 1 - 2 * s * t) (fun t => q * (t * t))).
  - apply (derivable_pt_lim_minus (fun _ => 1) (fun t => 2 * s * t)); [apply derivable_pt_lim_const|]. apply (derivable_pt_lim_scal (fun t => t)). apply derivable_pt_lim_id.
  - apply (derivable_pt_lim_scal (fun t => t * t)). apply (derivable_pt_lim_mult (fun t => t) (fun t => t)); apply derivable_pt_lim_id.
Qed.

Lemma product_derivative n t : 0 <= t <= 1 -> derivable_pt_lim (fun t => sqrt (form t) * partial_sum s q n t) t (slope n t).
Proof.
  intros Ht. pose proof (form_positive t Ht) as P. assert (Q : 0 < sqrt (form t)) by (now apply sqrt_lt_R0).
  rewrite <- (residual s q n t).
  replace ((form t * partial_slope s q n t + (q * t - s) * partial_sum s q n t) / sqrt (form t))
    with ((/ (2 * sqrt (form t)) * (2 * (q * t - s))) * partial_sum s q n t + sqrt (form t) * partial_slope s q n t).
  - apply (derivable_pt_lim_mult (fun t => sqrt (form t)) (partial_sum s q n)); [|apply partial_derivative].
    apply (derivable_pt_lim_comp (fun t => form t) sqrt); [apply form_derivative|]. now apply derivable_pt_lim_sqrt.
  - rewrite <- (sqrt_sqrt (form t)) at 3 by lra. field. lra.
Qed.

Lemma slope_bound n t : 0 <= t <= 1 -> Rabs (slope n t) <= 2 * r ^ S n / (1 - r) * (INR (S n) * t ^ n).
Proof.
  intros Ht. pose proof (root_lower t Ht) as L. assert (Pq : 0 <= q) by nra.
  assert (Pt : 0 <= INR (S n) * t ^ n) by (apply Rmult_le_pos; [apply pos_INR|apply pow_le; lra]).
  assert (B1 : Rabs (coefficient s q (S n)) <= r ^ S n) by (now apply coefficient_bound).
  assert (B2 : Rabs (q * t * coefficient s q n) <= r ^ S n).
  { rewrite Rabs_mult. pose proof (coefficient_bound s q r n Hr Hs Hq). rewrite (Rabs_right (q * t)) by nra. cbn [pow]. apply Rmult_le_compat; auto using Rabs_pos; nra. }
  assert (B : Rabs (q * t * coefficient s q n - coefficient s q (S n)) <= 2 * r ^ S n) by (unfold Rminus; eapply Rle_trans; [apply Rabs_triang|]; rewrite Rabs_Ropp; lra).
  unfold Rdiv. rewrite !Rabs_mult, Rabs_inv, (Rabs_right (sqrt (form t))) by lra. rewrite (Rabs_right (INR (S n))), (Rabs_right (t ^ n)) by (apply Rle_ge; try apply pos_INR; apply pow_le; lra).
  rewrite Rmult_assoc, (Rmult_comm (2 * r ^ S n * / (1 - r))). apply Rmult_le_compat_l; [exact Pt|].
  apply Rmult_le_compat; [apply Rabs_pos|left; apply Rinv_0_lt_compat; lra|exact B|]. apply Rinv_le_contravar; lra.
Qed.

Lemma product_near n : Rabs (sqrt (form 1) * partial_sum s q n 1 - 1) <= 2 * r ^ S n / (1 - r).
Proof.
  set (k := 2 * r ^ S n / (1 - r)).
  assert (S0 : sqrt (form 0) * partial_sum s q n 0 = 1).
  { replace (form 0) with 1 by ring. rewrite sqrt_1, Rmult_1_l. clear. induction n as [|n IH]; [reflexivity|]. cbn [partial_sum]. rewrite IH, pow_i by lia. ring. }
  assert (G : forall w, (w = 1 \/ w = -1) -> w * (sqrt (form 1) * partial_sum s q n 1 - 1) <= k).
  { intros w Hw. destruct (MVT_cor2 (fun t => w * (sqrt (form t) * partial_sum s q n t) - k * t ^ S n) (fun t => w * slope n t - k * (INR (S n) * t ^ n)) 0 1) as (c & E & Hc); [lra| |].
    - intros c Hc. apply (derivable_pt_lim_minus (fun t => w * (sqrt (form t) * partial_sum s q n t)) (fun t => k * t ^ S n)).
      + apply (derivable_pt_lim_scal (fun t => sqrt (form t) * partial_sum s q n t)). now apply product_derivative.
      + apply (derivable_pt_lim_scal (fun t => t ^ S n)). exact (derivable_pt_lim_pow c (S n)).
    - rewrite S0, pow1, pow_i in E by lia. pose proof (slope_bound n c ltac:(lra)) as B. fold k in B.
      assert (w * slope n c <= k * (INR (S n) * c ^ n)). { eapply Rle_trans; [|exact B]. destruct Hw as [-> | ->]; [rewrite Rmult_1_l; apply Rle_abs|]. replace (-1 * slope n c) with (- slope n c) by ring. rewrite <- Rabs_Ropp. apply Rle_abs. }
      nra. }
  apply Rabs_le. pose proof (G 1 (or_introl eq_refl)). pose proof (G (-1) (or_intror eq_refl)). lra.
Qed.

Lemma sum_near n : Rabs (partial_sum s q n 1 - 1 / sqrt (form 1)) <= 2 * r ^ S n / (1 - r) * / (1 - r).
Proof.
  pose proof (root_lower 1 ltac:(lra)) as L. pose proof (product_near n) as P.
  replace (partial_sum s q n 1 - 1 / sqrt (form 1)) with ((sqrt (form 1) * partial_sum s q n 1 - 1) * / sqrt (form 1)) by (field; lra).
  rewrite Rabs_mult, Rabs_inv, (Rabs_right (sqrt (form 1))) by lra.
  apply Rmult_le_compat; [apply Rabs_pos|left; apply Rinv_0_lt_compat; lra|exact P|]. apply Rinv_le_contravar; lra.
Qed.

Lemma tail n m : Rabs (partial_sum s q (m + n) 1 - partial_sum s q n 1) <= (r ^ S n - r ^ S (m + n)) / (1 - r).
Proof.
  induction m as [|m IH]; [cbn [Nat.add]; rewrite !Rminus_diag_eq by reflexivity; rewrite Rabs_R0; unfold Rdiv; lra|].
  change (S m + n)%nat with (S (m + n)). cbn [partial_sum]. rewrite pow1, Rmult_1_r.
  replace (partial_sum s q (m + n) 1 + coefficient s q (S (m + n)) - partial_sum s q n 1) with ((partial_sum s q (m + n) 1 - partial_sum s q n 1) + coefficient s q (S (m + n))) by ring.
  eapply Rle_trans; [apply Rabs_triang|]. pose proof (coefficient_bound s q r (S (m + n)) Hr Hs Hq) as B.
  eapply Rle_trans; [apply Rplus_le_compat; [exact IH|exact B]|]. right. replace (r ^ S (S (m + n))) with (r * r ^ S (m + n)) by reflexivity. field. lra.
Qed.

(** The remainder is at most that of the geometric series. *)
Theorem remainder n : Rabs (partial_sum s q n 1 - 1 / sqrt (1 - 2 * s + q)) <= r ^ S n / (1 - r).
Proof.
  replace (1 - 2 * s + q) with (form 1) by ring. apply le_epsilon. intros eps He.
  destruct (pow_lt_1_zero r) with (y := eps * ((1 - r) * (1 - r)) / 2) as (N & HN); [rewrite Rabs_right; lra|apply Rdiv_lt_0_compat; [|lra]; repeat apply Rmult_lt_0_compat; lra|].
  specialize (HN (S (N + n)) ltac:(lia)). rewrite Rabs_right in HN by (apply Rle_ge, pow_le; lra).
  pose proof (tail n N) as T. pose proof (sum_near (N + n)) as S. rewrite Rabs_minus_sym in T.
  replace (partial_sum s q n 1 - 1 / sqrt (form 1)) with ((partial_sum s q n 1 - partial_sum s q (N + n) 1) + (partial_sum s q (N + n) 1 - 1 / sqrt (form 1))) by ring.
  eapply Rle_trans; [apply Rabs_triang|]. apply Rplus_le_compat.
  - eapply Rle_trans; [exact T|]. unfold Rdiv. apply Rmult_le_compat_r; [left; apply Rinv_0_lt_compat; lra|]. pose proof (pow_le r (Datatypes.S (N + n)) Hr). lra.
  - eapply Rle_trans; [exact S|]. apply (Rmult_le_reg_r ((1 - r) * (1 - r) / 2)); [apply Rdiv_lt_0_compat; [apply Rmult_lt_0_compat|]; lra|].
    replace (2 * r ^ Datatypes.S (N + n) / (1 - r) * / (1 - r) * ((1 - r) * (1 - r) / 2)) with (r ^ Datatypes.S (N + n)) by (field; lra). lra.
Qed.
End Remainder.
