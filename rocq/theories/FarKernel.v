(** * Bounds of the normal derivatives of the Green's functions *)
From Coq Require Import Reals Lra Psatz.
From Verif Require Import Base Scalar Integrand CellPair SpecLocal SpecRounding RoundingModels SpecWaves WaveKernel SpecFar.

Local Open Scope R_scope.

Lemma steepest_laplace d : 0 < d -> steepest 0 d = 1 / (4 * PI * (d * d)).
Proof. intros H. unfold steepest. replace (1 + 0 * 0 * (d * d)) with 1 by ring. now rewrite sqrt_1. Qed.

(** The bound decreases. *)
Lemma steepest_mono k d r : 0 < d -> d <= r -> steepest k r <= steepest k d.
Proof.
  intros Hd Hr. pose proof PI_RGT_0 as Pi. unfold steepest. set (a := sqrt (1 + k * k * (r * r))). set (b := sqrt (1 + k * k * (d * d))).
  assert (K : 0 <= k * k) by (pose proof (Rle_0_sqr k) as Q; unfold Rsqr in Q; exact Q).
  assert (D2 : 0 < d * d) by nra. assert (R2 : d * d <= r * r) by nra.
  assert (A : a * a = 1 + k * k * (r * r)) by (apply sqrt_sqrt; nra). assert (B : b * b = 1 + k * k * (d * d)) by (apply sqrt_sqrt; nra).
  assert (A0 : 0 <= a) by apply sqrt_pos. assert (B0 : 0 <= b) by apply sqrt_pos.
  assert (C : a * (d * d) <= b * (r * r)).
  { apply Rsqr_incr_0_var; [|apply Rmult_le_pos; nra]. unfold Rsqr.
    replace (a * (d * d) * (a * (d * d))) with ((a * a) * (d * d * (d * d))) by ring. replace (b * (r * r) * (b * (r * r))) with ((b * b) * (r * r * (r * r))) by ring. rewrite A, B.
    set (x := d * d) in *. set (y := r * r) in *. set (c := k * k) in *.
    assert (H1 : x * x <= y * y) by (apply Rmult_le_compat; lra). assert (H0 : 0 <= c * (x * y)) by (apply Rmult_le_pos; [lra|apply Rmult_le_pos; lra]).
    assert (H2 : c * (x * y) * x <= c * (x * y) * y) by (apply Rmult_le_compat_l; lra).
    replace ((1 + c * y) * (x * x)) with (x * x + c * (x * y) * x) by ring. replace ((1 + c * x) * (y * y)) with (y * y + c * (x * y) * y) by ring. lra. }
  apply (Rmult_le_reg_r (4 * PI * (r * r) * (d * d))); [apply Rmult_lt_0_compat; [apply Rmult_lt_0_compat; lra|lra]|].
  replace (a / (4 * PI * (r * r)) * (4 * PI * (r * r) * (d * d))) with (a * (d * d)) by (field; lra).
  replace (b / (4 * PI * (d * d)) * (4 * PI * (r * r) * (d * d))) with (b * (r * r)) by (field; lra). exact C.
Qed.

(** The inner product of a vector with a vector of length one. *)
Lemma unit_dot n u v w : unit_length n -> (u * n 0%nat + v * n 1%nat + w * n 2%nat) * (u * n 0%nat + v * n 1%nat + w * n 2%nat) <= u * u + v * v + w * w.
Proof.
  unfold unit_length. set (a := n 0%nat). set (b := n 1%nat). set (c := n 2%nat). intros H.
  pose proof (Rle_0_sqr (u * b - v * a)) as Q1. pose proof (Rle_0_sqr (u * c - w * a)) as Q2. pose proof (Rle_0_sqr (v * c - w * b)) as Q3. unfold Rsqr in *.
  replace (u * u + v * v + w * w) with ((u * u + v * v + w * w) * (a * a + b * b + c * c)) by (rewrite H; ring). nra.
Qed.

Lemma waves_factor e k n x y : Rabs e = 1 -> unit_length n -> 0 < distance x y ->
  cnorm (dot complexes (fun i => waves e k (1 + i) x y) (fun i => s_cast complexes (n i))) <= steepest k (distance x y).
Proof.
  intros He Hn Hr. pose proof PI_RGT_0 as Pi. set (r := distance x y) in *.
  assert (E2 : e * e = 1) by (assert (Rabs e * Rabs e = 1) by (rewrite He; ring); rewrite <- Rabs_mult, Rabs_pos_eq in H; [exact H|pose proof (Rle_0_sqr e) as Q; unfold Rsqr in Q; exact Q]).
  assert (R2 : r * r = offset 1 x y * offset 1 x y + offset 2 x y * offset 2 x y + offset 3 x y * offset 3 x y).
  { apply sqrt_sqrt. pose proof (Rle_0_sqr (offset 1 x y)) as Q1. pose proof (Rle_0_sqr (offset 2 x y)) as Q2. pose proof (Rle_0_sqr (offset 3 x y)) as Q3. unfold Rsqr in *. lra. }
  set (u := offset 1 x y) in *. set (v := offset 2 x y) in *. set (w := offset 3 x y) in *.
  pose proof (unit_dot n u v w Hn) as C. rewrite <- R2 in C. set (z := u * n 0%nat + v * n 1%nat + w * n 2%nat) in *.
  set (f := e * z / (4 * PI * (r * r * r))).
  assert (Ed : dot complexes (fun i => waves e k (1 + i) x y) (fun i => s_cast complexes (n i)) = (f * (- cos (k * r) - k * r * sin (k * r)), f * (k * r * cos (k * r) - sin (k * r)))).
  { unfold dot, waves. fold r. destruct (Req_EM_T r 0) as [Z|_]; [lra|]. cbn [complexes complex_of s_cast s_mul s_add s_sub reals fst snd Nat.add].
    change (offset 1 x y) with u. change (offset 2 x y) with v. change (offset 3 x y) with w. unfold f, z, Rdiv. change (s_zero reals) with 0. f_equal; ring. }
  rewrite Ed, cnorm_multiple. clear Ed.
  assert (Ec : cnorm (- cos (k * r) - k * r * sin (k * r), k * r * cos (k * r) - sin (k * r)) = sqrt (1 + k * k * (r * r))).
  { unfold cnorm. cbn [fst snd]. f_equal. pose proof (sin2_cos2 (k * r)) as SC. unfold Rsqr in SC. set (s := sin (k * r)) in *. set (c := cos (k * r)) in *.
    replace (1 + k * k * (r * r)) with ((s * s + c * c) * (1 + k * k * (r * r))) by (rewrite SC; ring). ring. }
  rewrite Ec. unfold steepest. set (q := sqrt (1 + k * k * (r * r))). assert (Q0 : 0 <= q) by apply sqrt_pos.
  assert (Pr : 0 < 4 * PI * (r * r)) by (apply Rmult_lt_0_compat; [lra|now apply Rmult_lt_0_compat]).
  assert (P3 : 0 < 4 * PI * (r * r * r)) by (apply Rmult_lt_0_compat; [lra|apply Rmult_lt_0_compat; [now apply Rmult_lt_0_compat|lra]]).
  assert (F : Rabs f <= 1 / (4 * PI * (r * r))).
  { unfold f. unfold Rdiv. rewrite !Rabs_mult, He, Rmult_1_l. rewrite (Rabs_pos_eq (/ _)) by (left; now apply Rinv_0_lt_compat).
    assert (Z : Rabs z <= r). { apply Rsqr_incr_0_var; [|lra]. unfold Rsqr. rewrite <- Rabs_mult, Rabs_pos_eq; [exact C|pose proof (Rle_0_sqr z) as Q; unfold Rsqr in Q; exact Q]. }
    replace (1 * / (4 * PI * (r * r))) with (r * / (4 * PI * (r * r * r))) by (field; lra).
    apply Rmult_le_compat_r; [left; now apply Rinv_0_lt_compat|exact Z]. }
  replace (q / (4 * PI * (r * r))) with (1 / (4 * PI * (r * r)) * q) by (field; lra). now apply Rmult_le_compat_r.
Qed.

Lemma waves_bound e k n x y d : Rabs e = 1 -> unit_length n -> 0 < d -> d <= distance x y ->
  cnorm (dot complexes (fun i => waves e k (1 + i) x y) (fun i => s_cast complexes (n i))) <= steepest k d.
Proof. intros He Hn Hd Hr. eapply Rle_trans; [apply waves_factor; auto; lra|]. now apply steepest_mono. Qed.

Lemma newton_bound e n x y d : Rabs e = 1 -> unit_length n -> 0 < d -> d <= distance x y ->
  Rabs (dot reals (fun i => newton e (1 + i) x y) (fun i => s_cast reals (n i))) <= 1 / (4 * PI * (d * d)).
Proof.
  intros He Hn Hd Hr. rewrite <- steepest_laplace by exact Hd. eapply Rle_trans; [|exact (waves_bound e 0 n x y d He Hn Hd Hr)].
  unfold dot. rewrite !waves_zero. cbn [complexes complex_of s_cast s_mul s_add s_sub s_zero reals fst snd].
  match goal with |- Rabs ?a <= cnorm (?b, ?c) => replace b with a by ring; replace c with 0 by ring end.
  unfold cnorm. cbn [fst snd]. rewrite Rmult_0_l, Rplus_0_r. rewrite <- (sqrt_Rsqr_abs). right. reflexivity.
Qed.
