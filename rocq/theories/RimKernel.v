(** * Differences of the kernel of the Laplace equation *)
From Coq Require Import Reals Lra Psatz.
From Verif Require Import Base SpecSphere SpecWidth SphereGeometry SpecFloatSphere FloatSphere FloatSphereNear FloatSphereError.

Local Open Scope R_scope.

Lemma vlen_sq p : vlen p * vlen p = inner p p.
Proof. rewrite vlen_square. destruct p as [[? ?] ?]. unfold norm2. cbn. ring. Qed.

Lemma vlen_pos_inner p : 0 < vlen p -> 0 < inner p p.
Proof. intros H. rewrite <- vlen_sq. nra. Qed.

Lemma vlen_sqrt p : vlen p = sqrt (inner p p).
Proof. reflexivity. Qed.

Lemma abs_cauchy p q : Rabs (inner p q) <= vlen p * vlen q.
Proof.
  apply Rabs_le. split; [|apply cauchy]. pose proof (cauchy (vscale (-1) p) q) as C.
  assert (E : vlen (vscale (-1) p) = vlen p) by (unfold vlen; f_equal; destruct p as [[? ?] ?]; unfold norm2; cbn; ring).
  rewrite E in C. assert (F : inner (vscale (-1) p) q = - inner p q) by (destruct p as [[? ?] ?], q as [[? ?] ?]; cbn; ring). lra.
Qed.

(** The matrix [3 z z' - 1] for a vector of length 1 has norm 2. *)
Lemma second_norm z u v : Rabs (3 * inner z u * inner z v - inner z z * inner u v) <= 2 * inner z z * (vlen u * vlen v).
Proof.
  set (w := vadd (vscale (3 * inner z u) z) (vscale (- inner z z) u)).
  assert (E : 3 * inner z u * inner z v - inner z z * inner u v = inner w v).
  { unfold w. destruct z as [[? ?] ?], u as [[? ?] ?], v as [[? ?] ?]. cbn. ring. }
  rewrite E. eapply Rle_trans; [apply abs_cauchy|]. rewrite <- Rmult_assoc. apply Rmult_le_compat_r; [apply vlen_nonneg|].
  assert (P : 0 <= inner z z) by (rewrite <- vlen_sq; pose proof (vlen_nonneg z); nra).
  assert (Q : vlen w * vlen w <= (2 * inner z z * vlen u) * (2 * inner z z * vlen u)).
  { rewrite vlen_sq. replace (inner w w) with (inner z z * (inner z z * inner u u + 3 * (inner z u * inner z u))).
    - replace (2 * inner z z * vlen u * (2 * inner z z * vlen u)) with (inner z z * (4 * inner z z * (vlen u * vlen u))) by ring.
      apply Rmult_le_compat_l; [exact P|]. rewrite vlen_sq.
      pose proof (abs_cauchy z u) as C. assert (inner z u * inner z u <= inner z z * inner u u); [|lra].
      rewrite <- (vlen_sq z), <- (vlen_sq u). replace (inner z u * inner z u) with (Rabs (inner z u) * Rabs (inner z u)) by (rewrite <- Rabs_mult; apply Rabs_pos_eq; nra).
      pose proof (Rabs_pos (inner z u)). nra.
    - unfold w. destruct z as [[? ?] ?], u as [[? ?] ?]. cbn. ring. }
  pose proof (vlen_nonneg w). pose proof (vlen_nonneg u). assert (0 <= 2 * inner z z * vlen u) by (repeat apply Rmult_le_pos; lra).
  apply Rnot_lt_le. intros L. nra.
Qed.

(** ** Derivatives along a line *)

Lemma quadratic_deriv A B C s : derivable_pt_lim (fun x => A + 2 * B * x + C * (x * x)) s (2 * B + 2 * C * s).
Proof.
  replace (2 * B + 2 * C * s) with ((0 + 2 * B * 1) + C * (1 * s + s * 1)) by ring.
  apply (derivable_pt_lim_plus (fun x => A + 2 * B * x) (fun x => C * (x * x))).
  - apply (derivable_pt_lim_plus (fun _ => A) (fun x => 2 * B * x)); [apply derivable_pt_lim_const|].
    apply (derivable_pt_lim_scal (fun x => x) (2 * B)). apply derivable_pt_lim_id.
  - apply (derivable_pt_lim_scal (fun x => x * x) C). apply (derivable_pt_lim_mult (fun x => x) (fun x => x)); apply derivable_pt_lim_id.
Qed.

Lemma root_deriv A B C s : let N := fun x => A + 2 * B * x + C * (x * x) in 0 < N s -> derivable_pt_lim (fun x => sqrt (N x)) s ((B + C * s) / sqrt (N s)).
Proof.
  intros N H. assert (0 < sqrt (N s)) by now apply sqrt_lt_R0.
  replace ((B + C * s) / sqrt (N s)) with (/ (2 * sqrt (N s)) * (2 * B + 2 * C * s)) by (field; lra).
  apply (derivable_pt_lim_comp N sqrt); [apply quadratic_deriv|]. now apply derivable_pt_lim_sqrt.
Qed.

Lemma inverse_deriv A B C s : let N := fun x => A + 2 * B * x + C * (x * x) in 0 < N s ->
  derivable_pt_lim (fun x => 1 / sqrt (N x)) s (- (B + C * s) / (sqrt (N s) * sqrt (N s) * sqrt (N s))).
Proof.
  intros N H. assert (P : 0 < sqrt (N s)) by now apply sqrt_lt_R0.
  replace (- (B + C * s) / (sqrt (N s) * sqrt (N s) * sqrt (N s))) with ((0 * sqrt (N s) - (B + C * s) / sqrt (N s) * 1) / (Rsqr (sqrt (N s)))) by (unfold Rsqr; field; lra).
  apply (derivable_pt_lim_div (fun _ => 1) (fun x => sqrt (N x))); [apply derivable_pt_lim_const|now apply root_deriv|lra].
Qed.

Lemma slope_deriv A B C a b s : let N := fun x => A + 2 * B * x + C * (x * x) in 0 < N s ->
  derivable_pt_lim (fun x => (a + b * x) / (sqrt (N x) * sqrt (N x) * sqrt (N x))) s
    (b / (sqrt (N s) * sqrt (N s) * sqrt (N s)) - 3 * (a + b * s) * (B + C * s) / (sqrt (N s) * sqrt (N s) * sqrt (N s) * (sqrt (N s) * sqrt (N s)))).
Proof.
  intros N H. assert (P : 0 < sqrt (N s)) by now apply sqrt_lt_R0. pose proof (root_deriv A B C s H) as Rd. fold N in Rd.
  set (r := sqrt (N s)) in *.
  replace (b / (r * r * r) - 3 * (a + b * s) * (B + C * s) / (r * r * r * (r * r))) with
    (((0 + b * 1) * (r * r * r) - (((B + C * s) / r * r + r * ((B + C * s) / r)) * r + r * r * ((B + C * s) / r)) * (a + b * s)) / (Rsqr (r * r * r))) by (unfold Rsqr; field; lra).
  unfold r. apply (derivable_pt_lim_div (fun x => a + b * x) (fun x => sqrt (N x) * sqrt (N x) * sqrt (N x))).
  - apply (derivable_pt_lim_plus (fun _ => a) (fun x => b * x)); [apply derivable_pt_lim_const|]. apply (derivable_pt_lim_scal (fun x => x) b). apply derivable_pt_lim_id.
  - apply (derivable_pt_lim_mult (fun x => sqrt (N x) * sqrt (N x)) (fun x => sqrt (N x))); [|exact Rd].
    apply (derivable_pt_lim_mult (fun x => sqrt (N x)) (fun x => sqrt (N x))); exact Rd.
  - fold r. apply Rgt_not_eq. repeat apply Rmult_lt_0_compat; assumption.
Qed.

(** ** Differences *)

Definition along (z u : vec) (s : R) : vec := vadd z (vscale s u).

Lemma along_length z u s : vlen (along z u s) = sqrt (inner z z + 2 * inner z u * s + inner u u * (s * s)).
Proof. rewrite vlen_sqrt. f_equal. unfold along. destruct z as [[? ?] ?], u as [[? ?] ?]. cbn. ring. Qed.

Lemma along_inner z u s : inner z z + 2 * inner z u * s + inner u u * (s * s) = inner (along z u s) (along z u s).
Proof. unfold along. destruct z as [[? ?] ?], u as [[? ?] ?]. cbn. ring. Qed.

Lemma along_with z u v s : inner (along z u s) v = inner z v + inner u v * s.
Proof. unfold along. destruct z as [[? ?] ?], u as [[? ?] ?], v as [[? ?] ?]. cbn. ring. Qed.

(** [- u . z / |z|^3], the derivative of [1 / |z|] in the direction [u]. *)
Definition slope (u z : vec) : R := inner z u / (vlen z * vlen z * vlen z).

Lemma inverse_along z u s : 0 < vlen (along z u s) -> derivable_pt_lim (fun x => 1 / vlen (along z u x)) s (- slope u (along z u s)).
Proof.
  intros H. pose proof (inverse_deriv (inner z z) (inner z u) (inner u u) s) as D. cbv beta zeta in D. rewrite along_inner in D. specialize (D (vlen_pos_inner _ H)).
  replace (- slope u (along z u s)) with (- (inner z u + inner u u * s) / (vlen (along z u s) * vlen (along z u s) * vlen (along z u s))).
  - rewrite <- vlen_sqrt in D. intros eps He. destruct (D eps He) as (delta & Hd). exists delta. intros h N L. rewrite !along_length. rewrite along_length in Hd. now apply Hd.
  - unfold slope. rewrite along_with. unfold Rdiv. ring.
Qed.

Lemma slope_along z u v s : 0 < vlen (along z v s) ->
  derivable_pt_lim (fun x => slope u (along z v x)) s
    (- (3 * inner (along z v s) u * inner (along z v s) v - inner (along z v s) (along z v s) * inner u v) / (vlen (along z v s) * vlen (along z v s) * vlen (along z v s) * (vlen (along z v s) * vlen (along z v s)))).
Proof.
  intros H. pose proof (slope_deriv (inner z z) (inner z v) (inner v v) (inner z u) (inner v u) s) as D. cbv beta zeta in D. rewrite along_inner in D. specialize (D (vlen_pos_inner _ H)).
  match goal with |- derivable_pt_lim _ _ ?x => replace x with
    (inner v u / (vlen (along z v s) * vlen (along z v s) * vlen (along z v s)) - 3 * (inner z u + inner v u * s) * (inner z v + inner v v * s) / (vlen (along z v s) * vlen (along z v s) * vlen (along z v s) * (vlen (along z v s) * vlen (along z v s)))) end.
  - rewrite <- vlen_sqrt in D. intros eps He. destruct (D eps He) as (delta & Hd). exists delta. intros h N L. unfold slope. rewrite !along_with, !along_length. rewrite along_length in Hd. now apply Hd.
  - rewrite <- !along_with. rewrite <- (vlen_sq (along z v s)). replace (inner v u) with (inner u v) by (destruct u as [[? ?] ?], v as [[? ?] ?]; cbn; ring). field. lra.
Qed.

Lemma along_twice z u v s t : along (along z u s) v t = along (along z v t) u s.
Proof. unfold along. destruct z as [[? ?] ?], u as [[? ?] ?], v as [[? ?] ?]. cbn. f_equal; [f_equal|]; ring. Qed.

Lemma along_one z u : along z u 1 = vadd z u.
Proof. unfold along. destruct z as [[? ?] ?], u as [[? ?] ?]. cbn. f_equal; [f_equal|]; ring. Qed.
Lemma along_zero z u : along z u 0 = z.
Proof. unfold along. destruct z as [[? ?] ?], u as [[? ?] ?]. cbn. f_equal; [f_equal|]; ring. Qed.

(** The mixed second difference. *)
Theorem mixed_difference z u v rho : 0 < rho -> (forall s t, 0 <= s <= 1 -> 0 <= t <= 1 -> rho <= vlen (along (along z u s) v t)) ->
  Rabs (1 / vlen (vadd (vadd z u) v) - 1 / vlen (vadd z v) - 1 / vlen (vadd z u) + 1 / vlen z) <= 2 * (vlen u * vlen v) / (rho * rho * rho).
Proof.
  intros Hr H.
  destruct (MVT_cor2 (fun s => 1 / vlen (along (along z v 1) u s) - 1 / vlen (along z u s))
    (fun s => - slope u (along (along z v 1) u s) - - slope u (along z u s)) 0 1) as (s & Es & Is); [lra| |].
  { intros s Is. apply (derivable_pt_lim_minus (fun s => 1 / vlen (along (along z v 1) u s)) (fun s => 1 / vlen (along z u s))); apply inverse_along.
    - rewrite <- along_twice. specialize (H s 1). lra.
    - specialize (H s 0). rewrite along_zero in H. lra. }
  destruct (MVT_cor2 (fun t => slope u (along (along z u s) v t))
    (fun t => - (3 * inner (along (along z u s) v t) u * inner (along (along z u s) v t) v - inner (along (along z u s) v t) (along (along z u s) v t) * inner u v) /
       (vlen (along (along z u s) v t) * vlen (along (along z u s) v t) * vlen (along (along z u s) v t) * (vlen (along (along z u s) v t) * vlen (along (along z u s) v t)))) 0 1) as (t & Et & It); [lra| |].
  { intros t It. apply slope_along. specialize (H s t). lra. }
  cbv beta in Es, Et. rewrite !along_one, !along_zero in Es. rewrite (along_zero (along z u s) v), along_twice in Et.
  replace (vadd (vadd z u) v) with (vadd (vadd z v) u) by (destruct z as [[? ?] ?], u as [[? ?] ?], v as [[? ?] ?]; cbn; f_equal; [f_equal|]; ring).
  rewrite along_one in Et. 
  set (w := along (along z u s) v t) in *. assert (Hw : rho <= vlen w) by (apply H; lra).
  match goal with |- Rabs ?x <= _ => replace x with (- (slope u (along (vadd z v) u s) - slope u (along z u s))) by lra end.
  rewrite Et, Rminus_0_r, Rmult_1_r, Rabs_Ropp. unfold Rdiv. rewrite Rabs_mult, Rabs_Ropp.
  set (l := vlen w) in *. assert (Pl : 0 < l) by lra. assert (P5 : 0 < l * l * l * (l * l)) by (repeat apply Rmult_lt_0_compat; assumption).
  rewrite (Rabs_pos_eq (/ _)) by (left; now apply Rinv_0_lt_compat).
  pose proof (second_norm w u v) as S. rewrite <- (vlen_sq w) in S. fold l in S. rewrite <- (vlen_sq w). fold l.
  apply (Rle_trans _ (2 * (l * l) * (vlen u * vlen v) * / (l * l * l * (l * l)))).
  - apply Rmult_le_compat_r; [left; now apply Rinv_0_lt_compat|exact S].
  - replace (2 * (l * l) * (vlen u * vlen v) * / (l * l * l * (l * l))) with (2 * (vlen u * vlen v) * / (l * l * l)) by (field; lra).
    apply Rmult_le_compat_l; [pose proof (vlen_nonneg u); pose proof (vlen_nonneg v); nra|].
    apply Rinv_le_contravar; [repeat apply Rmult_lt_0_compat; assumption|]. apply Rmult_le_compat; nra.
Qed.

(** The first difference. *)
Theorem simple_difference z u rho : 0 < rho -> rho <= vlen z -> rho <= vlen (vadd z u) -> Rabs (1 / vlen (vadd z u) - 1 / vlen z) <= vlen u / (rho * rho).
Proof.
  intros Hr A B. set (a := vlen z) in *. set (b := vlen (vadd z u)) in *. replace (1 / b - 1 / a) with ((a - b) / (a * b)) by (field; lra).
  assert (0 < a * b) by nra. assert (0 < rho * rho) by nra.
  unfold Rdiv. rewrite Rabs_mult, (Rabs_right (/ (a * b))) by (left; now apply Rinv_0_lt_compat).
  apply Rmult_le_compat; auto using Rabs_pos; [left; now apply Rinv_0_lt_compat| |apply Rinv_le_contravar; nra].
  apply Rabs_le. pose proof (vlen_add z u) as T1. fold a b in T1. pose proof (vlen_add (vadd z u) (vscale (-1) u)) as T2. fold b in T2.
  assert (E : vlen (vscale (-1) u) = vlen u) by (unfold vlen; f_equal; destruct u as [[? ?] ?]; unfold norm2; cbn; ring).
  assert (F : vadd (vadd z u) (vscale (-1) u) = z) by (destruct z as [[? ?] ?], u as [[? ?] ?]; cbn; f_equal; [f_equal|]; ring).
  rewrite E, F in T2. fold a in T2. lra.
Qed.
