(** * The Green's function of the Helmholtz equation *)
From Coq Require Import Reals Lra Lia.
From Verif Require Import Base Scalar SpecRounding RoundingModels SpecWaves.
Local Open Scope R_scope.

(** ** Curves in the complex plane *)

Lemma cauchy a b c d n p : 0 <= n -> 0 <= p -> a * a + b * b = n * n -> c * c + d * d <= p * p -> a * c + b * d <= n * p.
Proof.
  intros Hn Hp H1 H2. assert (K : (a * c + b * d) * (a * c + b * d) <= (n * p) * (n * p)).
  { replace ((n * p) * (n * p)) with ((n * n) * (p * p)) by ring. rewrite <- H1.
    apply Rle_trans with ((a * a + b * b) * (c * c + d * d)).
    - pose proof (Rle_0_sqr (a * d - b * c)). unfold Rsqr in *. nra.
    - apply Rmult_le_compat_l; auto. pose proof (Rle_0_sqr a). pose proof (Rle_0_sqr b). unfold Rsqr in *. lra. }
  destruct (Rle_lt_dec (a * c + b * d) (n * p)) as [|C]; auto. exfalso. assert (0 <= n * p) by now apply Rmult_le_pos. nra.
Qed.

Lemma curve_bound (f g f' g' phi phi' : R -> R) a b : a <= b ->
  (forall t, derivable_pt_lim f t (f' t)) -> (forall t, derivable_pt_lim g t (g' t)) -> (forall t, derivable_pt_lim phi t (phi' t)) ->
  (forall t, a <= t -> 0 <= phi' t) -> (forall t, a <= t -> f' t * f' t + g' t * g' t <= phi' t * phi' t) ->
  cnorm (f b - f a, g b - g a) <= phi b - phi a.
Proof.
  intros Hab Df Dg Dp P B. destruct (Rle_lt_or_eq_dec a b Hab) as [Lt| ->].
  2:{ rewrite !Rminus_diag_eq by reflexivity. right. apply cnorm_eq; cbn; lra. }
  set (A := f b - f a). set (C := g b - g a). set (n := cnorm (A, C)).
  assert (Hn : 0 <= n) by apply cnorm_pos.
  assert (Sq : A * A + C * C = n * n) by (symmetry; apply (cnorm_sq (A, C))).
  destruct (MVT_cor2 (fun t => A * f t + C * g t - n * phi t) (fun t => A * f' t + C * g' t - n * phi' t) a b Lt) as (c & Hc & (Hca & Hcb)).
  { intros c _. apply derivable_pt_lim_minus; [apply derivable_pt_lim_plus|].
    - apply derivable_pt_lim_scal, Df.
    - apply derivable_pt_lim_scal, Dg.
    - apply derivable_pt_lim_scal, Dp. }
  cbn beta in Hc.
  assert (A * f' c + C * g' c <= n * phi' c) by (apply cauchy; auto; [apply P; lra|apply B; lra]).
  assert (K : A * A + C * C <= n * (phi b - phi a)).
  { replace (A * A + C * C) with (A * f b + C * g b - (A * f a + C * g a)) by (unfold A, C; ring).
    assert ((A * f' c + C * g' c - n * phi' c) * (b - a) <= 0) by nra. lra. }
  rewrite Sq in K. destruct (Rle_lt_or_eq_dec 0 n Hn) as [Pn|Zn].
  - apply Rmult_le_reg_l with n; auto.
  - rewrite <- Zn. assert (Q : exists d, phi b - phi a = phi' d * (b - a) /\ a < d < b) by (apply (MVT_cor2 phi phi' a b Lt); auto).
    destruct Q as (d & -> & Hd & _). apply Rmult_le_pos; [apply P; lra|lra].
Qed.

Lemma cnorm_swap x y z w : cnorm (x - y, z - w) = cnorm (y - x, w - z).
Proof. unfold cnorm. cbn. f_equal. ring. Qed.

Lemma chord s t : cnorm (cos s - cos t, sin s - sin t) <= Rabs (s - t).
Proof.
  assert (K : forall s t, t <= s -> cnorm (cos s - cos t, sin s - sin t) <= s - t).
  { intros x y H. apply (curve_bound cos sin (fun t => - sin t) cos (fun t => t) (fun _ => 1)); auto.
    - exact derivable_pt_lim_cos.
    - exact derivable_pt_lim_sin.
    - exact derivable_pt_lim_id.
    - intros; lra.
    - intros u _. pose proof (sin2_cos2 u) as Q. unfold Rsqr in Q. lra. }
  destruct (Rle_lt_dec t s) as [H|H].
  - rewrite Rabs_pos_eq by lra. now apply K.
  - rewrite cnorm_swap, Rabs_left by lra. replace (- (s - t)) with (t - s) by ring. apply K. lra.
Qed.

(** The factor of the gradient. *)
Definition turning_re (t : R) : R := - cos t - t * sin t.
Definition turning_im (t : R) : R := t * cos t - sin t.

Lemma turning_re_deriv t : derivable_pt_lim turning_re t (- t * cos t).
Proof.
  replace (- t * cos t) with (- (- sin t) - (1 * sin t + t * cos t)) by ring.
  apply (derivable_pt_lim_minus (fun t => - cos t) (fun t => t * sin t)).
  - apply (derivable_pt_lim_opp cos). apply derivable_pt_lim_cos.
  - apply (derivable_pt_lim_mult (fun t => t) sin); [apply derivable_pt_lim_id|apply derivable_pt_lim_sin].
Qed.
Lemma turning_im_deriv t : derivable_pt_lim turning_im t (- t * sin t).
Proof.
  replace (- t * sin t) with (1 * cos t + t * (- sin t) - cos t) by ring.
  apply (derivable_pt_lim_minus (fun t => t * cos t) sin).
  - apply (derivable_pt_lim_mult (fun t => t) cos); [apply derivable_pt_lim_id|apply derivable_pt_lim_cos].
  - apply derivable_pt_lim_sin.
Qed.

Lemma turning_bound s t : 0 <= s -> 0 <= t -> cnorm (turning_re s - turning_re t, turning_im s - turning_im t) <= Rabs (s * s - t * t) / 2.
Proof.
  assert (K : forall s t, 0 <= t -> t <= s -> cnorm (turning_re s - turning_re t, turning_im s - turning_im t) <= s * s / 2 - t * t / 2).
  { intros x y Hy H. apply (curve_bound turning_re turning_im (fun t => - t * cos t) (fun t => - t * sin t) (fun t => t * t / 2) (fun t => t)); auto.
    - exact turning_re_deriv.
    - exact turning_im_deriv.
    - intros u. replace u with (/ 2 * (1 * u + u * 1)) at 2 by field. 
      apply (derivable_pt_lim_ext (mult_real_fct (/ 2) (fun t => t * t))); [intros; unfold mult_real_fct; field|].
      apply derivable_pt_lim_scal. apply (derivable_pt_lim_mult (fun t => t) (fun t => t)); apply derivable_pt_lim_id.
    - intros u Hu. lra.
    - intros u _. pose proof (sin2_cos2 u) as Q. unfold Rsqr in Q. right.
      replace (- u * cos u * (- u * cos u) + - u * sin u * (- u * sin u)) with (u * u * (sin u * sin u + cos u * cos u)) by ring. rewrite Q. ring. }
  intros Hs Ht. destruct (Rle_lt_dec t s) as [H|H].
  - rewrite Rabs_pos_eq by nra. pose proof (K s t Ht H). lra.
  - rewrite cnorm_swap, Rabs_left by nra. pose proof (K t s Hs (Rlt_le _ _ H)). lra.
Qed.

(** ** Distances *)

Lemma distance_nonneg x y : 0 <= distance x y.
Proof. apply sqrt_pos. Qed.

Lemma offset_cases n x y : (1 <= n)%nat -> offset n x y = offset 1 x y \/ offset n x y = offset 2 x y \/ offset n x y = offset 3 x y.
Proof. intros H. destruct n as [|[|[|n]]]; [lia|auto|auto|]. right. right. destruct x as [[? ?] ?], y as [[? ?] ?]. reflexivity. Qed.

Lemma offset_le n x y : (1 <= n)%nat -> Rabs (offset n x y) <= distance x y.
Proof.
  intros H. unfold distance. rewrite <- sqrt_Rsqr_abs. apply sqrt_le_1_alt. unfold Rsqr.
  pose proof (Rle_0_sqr (offset 1 x y)). pose proof (Rle_0_sqr (offset 2 x y)). pose proof (Rle_0_sqr (offset 3 x y)). unfold Rsqr in *.
  destruct (offset_cases n x y H) as [-> |[-> | ->]]; lra.
Qed.

Lemma cnorm_multiple c x y : cnorm (c * x, c * y) = Rabs c * cnorm (x, y).
Proof.
  apply cnorm_eq; [apply Rmult_le_pos; [apply Rabs_pos|apply cnorm_pos]|]. cbn [fst snd].
  replace (Rabs c * cnorm (x, y) * (Rabs c * cnorm (x, y))) with ((Rabs c * Rabs c) * (cnorm (x, y) * cnorm (x, y))) by ring.
  rewrite cnorm_sq. cbn [fst snd]. rewrite <- Rabs_mult, (Rabs_pos_eq (c * c)); [ring|]. pose proof (Rle_0_sqr c). unfold Rsqr in *. lra.
Qed.

(** ** Bounds of the kernel *)

Theorem value_lipschitz e k k' x y : cnorm (s_sub complexes (waves e k 0 x y) (waves e k' 0 x y)) <= Rabs (k - k') / (4 * PI).
Proof.
  unfold waves. pose proof (distance_nonneg x y) as Hr. set (r := distance x y) in *. pose proof PI_RGT_0 as HP.
  destruct (Req_EM_T r 0) as [Z|Z]; cbn [complexes complex_of reals s_sub fst snd].
  - rewrite !Rminus_diag_eq by reflexivity. rewrite (cnorm_eq (0, 0) 0) by (cbn; lra).
    apply Rmult_le_pos; [apply Rabs_pos|]. left. apply Rinv_0_lt_compat. lra.
  - assert (P : 0 < r) by lra. set (c := / (4 * PI * r)). assert (Hc : 0 < c) by (apply Rinv_0_lt_compat; nra).
    replace (cos (k * r) / (4 * PI * r) - cos (k' * r) / (4 * PI * r)) with (c * (cos (k * r) - cos (k' * r))) by (unfold c, Rdiv; ring).
    replace (sin (k * r) / (4 * PI * r) - sin (k' * r) / (4 * PI * r)) with (c * (sin (k * r) - sin (k' * r))) by (unfold c, Rdiv; ring).
    rewrite cnorm_multiple, (Rabs_pos_eq c) by lra.
    apply Rle_trans with (c * Rabs (k * r - k' * r)); [apply Rmult_le_compat_l; [lra|apply chord]|].
    replace (k * r - k' * r) with ((k - k') * r) by ring. rewrite Rabs_mult, (Rabs_pos_eq r) by lra. right. unfold c. field. split; lra.
Qed.

Theorem gradient_lipschitz e k k' n x y : Rabs e = 1 -> 0 <= k -> 0 <= k' -> (1 <= n)%nat ->
  cnorm (s_sub complexes (waves e k n x y) (waves e k' n x y)) <= Rabs (k * k - k' * k') / (8 * PI).
Proof.
  intros He Hk Hk' Hn. unfold waves. pose proof (distance_nonneg x y) as Hr. pose proof (offset_le n x y Hn) as Ho. set (r := distance x y) in *. pose proof PI_RGT_0 as HP.
  destruct (Req_EM_T r 0) as [Z|Z]; cbn [complexes complex_of reals s_sub fst snd].
  - rewrite !Rminus_diag_eq by reflexivity. rewrite (cnorm_eq (0, 0) 0) by (cbn; lra).
    apply Rmult_le_pos; [apply Rabs_pos|]. left. apply Rinv_0_lt_compat. lra.
  - destruct n as [|n]; [lia|]. cbn [fst snd]. set (d := offset (S n) x y) in *. assert (P : 0 < r) by lra.
    set (c := e * d / (4 * PI * (r * r * r))).
    assert (R3 : 0 < 4 * PI * (r * r * r)) by (assert (0 < r * r) by nra; assert (0 < r * r * r) by nra; nra).
    assert (Hc : Rabs c <= / (4 * PI * (r * r))).
    { unfold c, Rdiv. rewrite Rabs_mult, Rabs_mult, He, Rmult_1_l, Rabs_inv, (Rabs_pos_eq (4 * PI * _)) by lra.
      apply Rle_trans with (r * / (4 * PI * (r * r * r))).
      - apply Rmult_le_compat_r; [left; now apply Rinv_0_lt_compat|exact Ho].
      - right. field. split; lra. }
    fold (turning_re (k * r)) (turning_im (k * r)) (turning_re (k' * r)) (turning_im (k' * r)).
    replace (c * turning_re (k * r) - c * turning_re (k' * r)) with (c * (turning_re (k * r) - turning_re (k' * r))) by ring.
    replace (c * turning_im (k * r) - c * turning_im (k' * r)) with (c * (turning_im (k * r) - turning_im (k' * r))) by ring.
    rewrite cnorm_multiple.
    apply Rle_trans with (/ (4 * PI * (r * r)) * (Rabs (k * r * (k * r) - k' * r * (k' * r)) / 2)).
    + apply Rmult_le_compat; [apply Rabs_pos|apply cnorm_pos|exact Hc|]. apply turning_bound; nra.
    + replace (k * r * (k * r) - k' * r * (k' * r)) with ((k * k - k' * k') * (r * r)) by ring.
      rewrite Rabs_mult, (Rabs_pos_eq (r * r)) by nra. right. field. split; lra.
Qed.

Theorem waves_size e k x y : cnorm (waves e k 0 x y) = newton e 0 x y.
Proof.
  unfold waves, newton. pose proof (distance_nonneg x y) as Hr. set (r := distance x y) in *. pose proof PI_RGT_0 as HP.
  destruct (Req_EM_T r 0) as [Z|Z]; [apply cnorm_eq; cbn; lra|]. assert (P : 0 < r) by lra. assert (0 < 4 * PI * r) by nra.
  apply cnorm_eq; [left; apply Rdiv_lt_0_compat; lra|]. cbn [fst snd]. unfold Rdiv. pose proof (sin2_cos2 (k * r)) as Q. unfold Rsqr in Q.
  replace (cos (k * r) * / (4 * PI * r) * (cos (k * r) * / (4 * PI * r)) + sin (k * r) * / (4 * PI * r) * (sin (k * r) * / (4 * PI * r)))
    with ((sin (k * r) * sin (k * r) + cos (k * r) * cos (k * r)) * (/ (4 * PI * r) * / (4 * PI * r))) by ring.
  rewrite Q. ring.
Qed.

Theorem waves_zero e n x y : waves e 0 n x y = (newton e n x y, 0).
Proof.
  unfold waves, newton. destruct (Req_EM_T (distance x y) 0) as [Z|Z]; [reflexivity|].
  rewrite !Rmult_0_l, cos_0, sin_0. destruct n; f_equal; unfold Rdiv; ring.
Qed.

Lemma newton_nonneg e x y : 0 <= newton e 0 x y.
Proof. rewrite <- (waves_size e 0). apply cnorm_pos. Qed.

(** ** The gradient *)

Section Gradient.
Context (k w b a : R).
Let rho (s : R) : R := sqrt (w + (s - b) * (s - b)).
Context (Hr : rho a <> 0).

Lemma rho_pos : 0 < rho a.
Proof. pose proof (sqrt_pos (w + (a - b) * (a - b))). unfold rho in *. lra. Qed.

Lemma rho_deriv : derivable_pt_lim rho a ((a - b) / rho a).
Proof.
  pose proof rho_pos as P. assert (Q : 0 < w + (a - b) * (a - b)).
  { destruct (Rlt_le_dec 0 (w + (a - b) * (a - b))) as [|H]; auto. exfalso. apply Hr. unfold rho. now apply sqrt_neg_0. }
  replace ((a - b) / rho a) with (/ (2 * sqrt (w + (a - b) * (a - b))) * (0 + ((1 - 0) * (a - b) + (a - b) * (1 - 0)))) by (fold (rho a); field; lra).
  apply (derivable_pt_lim_comp (fun s => w + (s - b) * (s - b)) sqrt).
  - apply (derivable_pt_lim_plus (fun _ => w) (fun s => (s - b) * (s - b))); [apply derivable_pt_lim_const|].
    apply (derivable_pt_lim_mult (fun s => s - b) (fun s => s - b)); (apply (derivable_pt_lim_minus (fun s => s) (fun _ => b)); [apply derivable_pt_lim_id|apply derivable_pt_lim_const]).
  - now apply derivable_pt_lim_sqrt.
Qed.

Lemma wave_deriv (f f' : R -> R) : (forall t, derivable_pt_lim f t (f' t)) ->
  derivable_pt_lim (fun s => f (k * rho s) / (4 * PI * rho s)) a ((a - b) / (4 * PI * (rho a * rho a * rho a)) * (k * rho a * f' (k * rho a) - f (k * rho a))).
Proof.
  intros D. pose proof rho_pos as P. pose proof PI_RGT_0 as HP.
  assert (K : forall c, derivable_pt_lim (fun s => c * rho s) a (c * ((a - b) / rho a))) by (intros c; apply (derivable_pt_lim_scal rho), rho_deriv).
  replace ((a - b) / (4 * PI * (rho a * rho a * rho a)) * (k * rho a * f' (k * rho a) - f (k * rho a)))
    with ((f' (k * rho a) * (k * ((a - b) / rho a)) * (4 * PI * rho a) - 4 * PI * ((a - b) / rho a) * f (k * rho a)) / Rsqr (4 * PI * rho a))
    by (unfold Rsqr; field; split; lra).
  apply (derivable_pt_lim_div (fun s => f (k * rho s)) (fun s => 4 * PI * rho s)).
  - apply (derivable_pt_lim_comp (fun s => k * rho s) f); [apply K|apply D].
  - apply K.
  - nra.
Qed.
End Gradient.

Lemma waves_formula e k x y : waves e k 0 x y = (cos (k * distance x y) / (4 * PI * distance x y), sin (k * distance x y) / (4 * PI * distance x y)).
Proof.
  unfold waves. destruct (Req_EM_T (distance x y) 0) as [-> |]; [|reflexivity]. unfold Rdiv. now rewrite !Rmult_0_r, Rinv_0, !Rmult_0_r.
Qed.

Lemma waves_gradient_formula e k n x y : (1 <= n <= 3)%nat -> distance x y <> 0 ->
  waves e k n x y = (e * offset n x y / (4 * PI * (distance x y * distance x y * distance x y)) * (k * distance x y * - sin (k * distance x y) - cos (k * distance x y)),
    e * offset n x y / (4 * PI * (distance x y * distance x y * distance x y)) * (k * distance x y * cos (k * distance x y) - sin (k * distance x y))).
Proof.
  intros Hn Hr. unfold waves. destruct (Req_EM_T (distance x y) 0) as [|_]; [contradiction|]. destruct n; [lia|]. f_equal. ring.
Qed.

(** The distance when one coordinate of one of the points changes. *)
Lemma moved_first n x y : (1 <= n <= 3)%nat -> exists w, forall s,
  distance (moved n x s) y = sqrt (w + (s - coordinate n y) * (s - coordinate n y)).
Proof.
  intros Hn. destruct x as [[x1 x2] x3], y as [[y1 y2] y3]. unfold distance, offset.
  destruct n as [|[|[|[|n]]]]; try lia; cbn [moved coordinate].
  - exists ((x2 - y2) * (x2 - y2) + (x3 - y3) * (x3 - y3)). intros s. f_equal. ring.
  - exists ((x1 - y1) * (x1 - y1) + (x3 - y3) * (x3 - y3)). intros s. f_equal. ring.
  - exists ((x1 - y1) * (x1 - y1) + (x2 - y2) * (x2 - y2)). intros s. f_equal.
Qed.
Lemma moved_self n x : (1 <= n <= 3)%nat -> moved n x (coordinate n x) = x.
Proof. intros Hn. destruct x as [[x1 x2] x3]. destruct n as [|[|[|[|n]]]]; try lia; reflexivity. Qed.
Lemma distance_sym x y : distance x y = distance y x.
Proof. destruct x as [[x1 x2] x3], y as [[y1 y2] y3]. unfold distance, offset. f_equal. ring. Qed.
Lemma offset_coordinate n x y : (1 <= n <= 3)%nat -> offset n x y = coordinate n x - coordinate n y.
Proof. intros Hn. destruct x as [[x1 x2] x3], y as [[y1 y2] y3]. destruct n as [|[|[|[|n]]]]; try lia; reflexivity. Qed.

Lemma moved_waves f f' k n x y : (forall t, derivable_pt_lim f t (f' t)) -> (1 <= n <= 3)%nat -> distance x y <> 0 ->
  derivable_pt_lim (fun s => f (k * distance (moved n x s) y) / (4 * PI * distance (moved n x s) y)) (coordinate n x)
    (offset n x y / (4 * PI * (distance x y * distance x y * distance x y)) * (k * distance x y * f' (k * distance x y) - f (k * distance x y))).
Proof.
  intros D Hn Hr. destruct (moved_first n x y Hn) as (w & Hw).
  assert (E : distance x y = sqrt (w + (coordinate n x - coordinate n y) * (coordinate n x - coordinate n y))).
  { rewrite <- (moved_self n x Hn) at 1. apply Hw. }
  rewrite offset_coordinate by exact Hn. rewrite E at 1 2 3 4 5 6. rewrite E in Hr.
  eapply derivable_pt_lim_ext; [|apply wave_deriv; [exact Hr|exact D]]. intros s. cbn beta. now rewrite <- Hw.
Qed.

Theorem gradient_first k n x y : (1 <= n <= 3)%nat -> distance x y <> 0 ->
  derivable_pt_lim (fun s => fst (waves 1 k 0 (moved n x s) y)) (coordinate n x) (fst (waves 1 k n x y)) /\
  derivable_pt_lim (fun s => snd (waves 1 k 0 (moved n x s) y)) (coordinate n x) (snd (waves 1 k n x y)).
Proof.
  intros Hn Hr. rewrite waves_gradient_formula, Rmult_1_l by auto. cbn [fst snd]. split.
  - eapply derivable_pt_lim_ext; [|apply (moved_waves cos (fun t => - sin t)); auto using derivable_pt_lim_cos].
    intros s. cbn beta. now rewrite waves_formula.
  - eapply derivable_pt_lim_ext; [|apply (moved_waves sin cos); auto using derivable_pt_lim_sin].
    intros s. cbn beta. now rewrite waves_formula.
Qed.

Theorem gradient_second k n x y : (1 <= n <= 3)%nat -> distance x y <> 0 ->
  derivable_pt_lim (fun s => fst (waves (-1) k 0 x (moved n y s))) (coordinate n y) (fst (waves (-1) k n x y)) /\
  derivable_pt_lim (fun s => snd (waves (-1) k 0 x (moved n y s))) (coordinate n y) (snd (waves (-1) k n x y)).
Proof.
  intros Hn Hr. rewrite waves_gradient_formula by auto. cbn [fst snd].
  replace (-1 * offset n x y) with (offset n y x) by (rewrite !offset_coordinate by auto; ring).
  rewrite (distance_sym x y) in *. split.
  - eapply derivable_pt_lim_ext; [|apply (moved_waves cos (fun t => - sin t)); auto using derivable_pt_lim_cos].
    intros s. cbn beta. now rewrite waves_formula, (distance_sym x).
  - eapply derivable_pt_lim_ext; [|apply (moved_waves sin cos); auto using derivable_pt_lim_sin].
    intros s. cbn beta. now rewrite waves_formula, (distance_sym x).
Qed.
