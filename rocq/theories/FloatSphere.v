(** * The sphere in floating point arithmetic: proofs *)
From Coq Require Import Reals Lra Psatz.
From Verif Require Import Base BaseFacts Topology TopologyFacts Shapes SpecShapes SphereFacts SphereSurface SphereResults ShapesResults SpecSphere SphereGeometry SphereTiling
  NestedResults SphereWidth SpecWidth WidthResults SpecRounding RoundingResults RoundingModels SpecFloatSphere.

Local Open Scope R_scope.

(** ** One rounded midpoint *)

Section Midpoint.
Context (u : R) (Hu : 0 <= u < 1) (rnd : R -> R) (Hr : relative u rnd).

Lemma rnd_near x : exists t, rnd x = x * t /\ near u 1 t.
Proof.
  pose proof (Hr x) as H. destruct (Req_dec x 0) as [->|Z].
  - rewrite Rabs_R0, Rmult_0_r, Rminus_0_r in H. exists 1. split.
    + rewrite Rmult_1_r. destruct (Req_dec (rnd 0) 0) as [E|N]; auto. apply Rabs_pos_lt in N. lra.
    + replace 1 with (1 + 0) by ring. apply near_rounding; auto. rewrite Rabs_R0. lra.
  - exists (1 + (rnd x - x) / x). split; [field; auto|]. apply near_rounding; auto.
    unfold Rdiv. rewrite Rabs_mult, Rabs_inv. apply Rmult_le_reg_r with (Rabs x); [now apply Rabs_pos_lt|].
    rewrite Rmult_assoc, Rinv_l by (now apply Rabs_no_R0). lra.
Qed.

Lemma near_mono n m t : (n <= m)%nat -> near u n t -> near u m t.
Proof.
  intros L (A & B). pose proof (growth_mono u Hu n m L). pose proof (growth_ge u Hu n). split; [|lra].
  eapply Rle_trans; [|exact A]. apply Rinv_le_contravar; lra.
Qed.

(** A sum of numbers that are not negative. *)
Lemma sum_near n x y s t : 0 <= x -> 0 <= y -> near u n s -> near u n t -> exists w, rnd (x * s + y * t) = (x + y) * w /\ near u (n + 1) w.
Proof.
  intros Hx Hy Hs Ht. destruct (rnd_near (x * s + y * t)) as (e & -> & He).
  destruct (Req_dec (x + y) 0) as [Z|Z].
  - exists (s * e). split; [|now apply near_mul]. replace x with 0 by lra. replace y with 0 by lra. ring.
  - exists ((x * s + y * t) / (x + y) * e). split; [field; auto|]. apply near_mul; auto.
    destruct Hs as (A & B), Ht as (C & D). split.
    + apply Rmult_le_reg_r with (x + y); [lra|]. unfold Rdiv. rewrite Rmult_assoc, Rinv_l, Rmult_1_r by auto. nra.
    + apply Rmult_le_reg_r with (x + y); [lra|]. unfold Rdiv. rewrite Rmult_assoc, Rinv_l, Rmult_1_r by auto. nra.
Qed.

Lemma sqrt_near n t : near u (n + n) t -> near u n (sqrt t).
Proof.
  intros (A & B). pose proof (growth_ge u Hu n) as G. rewrite growth_add in A, B. split.
  - rewrite <- (sqrt_square (/ growth u n)) by (left; apply Rinv_0_lt_compat; lra). apply sqrt_le_1_alt. now rewrite <- Rinv_mult.
  - rewrite <- (sqrt_square (growth u n)) by lra. now apply sqrt_le_1_alt.
Qed.

(** The computed midpoint is the direction of the exact sum, up to eight roundings of
    each coordinate. *)
Definition unit_of (a : vec) : vec := vscale (/ sqrt (norm2 a)) a.
Definition perturbed (a b : vec) : Prop :=
  exists t0 t1 t2, near u 8 t0 /\ near u 8 t1 /\ near u 8 t2 /\
    let '(x, y, z) := a in b = (x * t0, y * t1, z * t2).

Lemma rounded_midpoint (p q : vec) : 0 < norm2 (vadd p q) -> perturbed (unit_of (vadd p q)) (edge_midpoint (rounded rnd) p q).
Proof.
  intros H. destruct p as [[a b] c], q as [[d e] f]. unfold edge_midpoint, unit_of. cbn [ro_mul ro_half ro_add ro_sqrt ro_zero ro_div rounded vadd vscale] in *.
  set (N := norm2 (a + d, b + e, c + f)) in *.
  assert (EN : N = (a + d) * (a + d) + (b + e) * (b + e) + (c + f) * (c + f)) by (unfold N, norm2; cbn; ring).
  assert (Half : forall x, exists t, rnd (1 / 2 * rnd x) = 1 / 2 * x * t /\ near u 2 t).
  { intros x. destruct (rnd_near x) as (s & -> & Hs). destruct (rnd_near (1 / 2 * (x * s))) as (t & -> & Ht).
    exists (s * t). split; [ring|]. exact (near_mul u Hu 1 1 _ _ Hs Ht). }
  destruct (Half (a + d)) as (t0 & -> & H0). destruct (Half (b + e)) as (t1 & -> & H1). destruct (Half (c + f)) as (t2 & -> & H2).
  assert (Square : forall x t, near u 2 t -> exists w, rnd (1 / 2 * x * t * (1 / 2 * x * t)) = 1 / 4 * (x * x) * w /\ near u 5 w).
  { intros x t Ht. destruct (rnd_near (1 / 2 * x * t * (1 / 2 * x * t))) as (s & -> & Hs). exists (t * t * s). split; [field|].
    exact (near_mul u Hu 4 1 _ _ (near_mul u Hu 2 2 _ _ Ht Ht) Hs). }
  destruct (Square (a + d) t0 H0) as (w0 & -> & W0). destruct (Square (b + e) t1 H1) as (w1 & -> & W1). destruct (Square (c + f) t2 H2) as (w2 & -> & W2).
  assert (Sq : forall x, 0 <= 1 / 4 * (x * x)) by (intros x; nra).
  destruct (rnd_near (0 + 1 / 4 * ((a + d) * (a + d)) * w0)) as (v0 & E0 & V0). rewrite E0. clear E0.
  replace ((0 + 1 / 4 * ((a + d) * (a + d)) * w0) * v0) with (1 / 4 * ((a + d) * (a + d)) * (w0 * v0)) by ring.
  pose proof (near_mul u Hu 5 1 _ _ W0 V0) as V. cbn [Nat.add] in V.
  destruct (sum_near 6 _ _ _ _ (Sq (a + d)) (Sq (b + e)) V (near_mono 5 6 _ ltac:(lia) W1)) as (v1 & -> & V1).
  assert (Sq2 : 0 <= 1 / 4 * ((a + d) * (a + d)) + 1 / 4 * ((b + e) * (b + e))) by (pose proof (Sq (a + d)); pose proof (Sq (b + e)); lra).
  destruct (sum_near 7 _ _ _ _ Sq2 (Sq (c + f)) V1 (near_mono 5 7 _ ltac:(lia) W2)) as (v2 & -> & V2).
  cbn [Nat.add] in V2.
  replace (1 / 4 * ((a + d) * (a + d)) + 1 / 4 * ((b + e) * (b + e)) + 1 / 4 * ((c + f) * (c + f))) with (1 / 2 * (1 / 2) * N) by (rewrite EN; field).
  rewrite sqrt_mult_alt, sqrt_mult_alt, sqrt_square by nra.
  destruct (rnd_near (1 / 2 * sqrt N * sqrt v2)) as (v3 & -> & V3).
  pose proof (near_mul u Hu 4 1 _ _ (sqrt_near 4 _ V2) V3) as V4. cbn [Nat.add] in V4.
  assert (PN : 0 < sqrt N) by (now apply sqrt_lt_R0). pose proof (near_pos u Hu _ _ V4) as P4. pose proof (near_inv u Hu _ _ V4) as V5.
  set (w := sqrt v2 * v3) in *. replace (1 / 2 * sqrt N * sqrt v2 * v3) with (1 / 2 * sqrt N * w) by (unfold w; ring).
  assert (Quot : forall x t, near u 2 t -> exists s, rnd (1 / 2 * x * t / (1 / 2 * sqrt N * w)) = / sqrt N * x * s /\ near u 8 s).
  { intros x t Ht. destruct (rnd_near (1 / 2 * x * t / (1 / 2 * sqrt N * w))) as (s & -> & Hs). exists (t * / w * s). split.
    - field. split; lra.
    - exact (near_mul u Hu 7 1 _ _ (near_mul u Hu 2 5 _ _ Ht V5) Hs). }
  destruct (Quot (a + d) t0 H0) as (s0 & -> & S0). destruct (Quot (b + e) t1 H1) as (s1 & -> & S1). destruct (Quot (c + f) t2 H2) as (s2 & -> & S2).
  exists s0, s1, s2. auto.
Qed.

Lemma rounded_midpoint_sym (p q : vec) : edge_midpoint (rounded rnd) p q = edge_midpoint (rounded rnd) q p.
Proof.
  destruct p as [[a b] c], q as [[d e] f]. unfold edge_midpoint. cbn [ro_mul ro_half ro_add ro_sqrt ro_zero ro_div rounded].
  rewrite (Rplus_comm a d), (Rplus_comm b e), (Rplus_comm c f). reflexivity.
Qed.
End Midpoint.
