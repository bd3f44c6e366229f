(** * The distance of cells and vertices of the sphere *)
From Coq Require Import Reals Lra Psatz.
From Verif Require Import Base BaseFacts Topology TopologyFacts Shapes SpecShapes SphereFacts SphereSurface SphereResults ShapesResults SpecSphere SphereGeometry SphereTiling
  NestedResults SphereWidth SpecWidth WidthResults SphereVolume SphereShort SpecRounding RoundingResults RoundingModels SpecFloatSphere FloatSphere FloatSphereNear FloatSphereError FloatSphereResults
  SpecScreen SpecApart HatFunctions Adjacency.

Local Open Scope R_scope.

Lemma two_power L : 1 <= 2 ^ L /\ 4 ^ L = 2 ^ L * 2 ^ L.
Proof. split; [apply pow_R1_Rle; lra|]. replace 4 with (2 * 2) by ring. apply Rpow_mult_distr. Qed.

(** The square of the length of the normal, by the determinant and the edges. *)
Lemma normal_det p q r : norm2 p = 1 -> norm2 q = 1 -> norm2 r = 1 ->
  norm2 (normal p q r) = det p q r * det p q r + 2 * ((1 - inner p q) * (1 - inner p r) * (1 - inner q r)).
Proof.
  intros Np Nq Nr. rewrite (gram p q r Np Nq Nr).
  replace (norm2 (normal p q r)) with ((norm2 q - 2 * inner p q + norm2 p) * (norm2 r - 2 * inner p r + norm2 p) - (inner q r - inner p q - inner p r + norm2 p) * (inner q r - inner p q - inner p r + norm2 p))
    by (destruct p as [[? ?] ?], q as [[? ?] ?], r as [[? ?] ?]; unfold norm2, normal; cbn; ring).
  rewrite Np, Nq, Nr. ring.
Qed.

Section Level.
Context (L : nat) (b : builder vec) (E : regular_sphere real_numbers L 1 = Ok b).
Local Notation pos := (position (points_of b)).
Local Notation K := (49 / 20 * 2 ^ L).

Lemma level_tiling : surface (length (points_of b)) (cells_of b) /\ tiling (points_of b) (cells_of b).
Proof. destruct (sphere_tiling L) as (b0 & E0 & _ & _ & _ & _ & SU & TI). rewrite E in E0. injection E0 as <-. auto. Qed.

Lemma level_det c u v w : In c (cells_of b) -> rot c u v w -> / 2 ^ L * / 2 ^ L <= det (pos u) (pos v) (pos w).
Proof. intros Hc R. pose proof (sphere_det L b E c u v w Hc R) as D. destruct (two_power L) as (_ & Q). rewrite Q, Rinv_mult in D. exact D. Qed.

Lemma K_det c u v w : In c (cells_of b) -> rot c u v w -> 49 / 20 / 2 ^ L <= K * det (pos u) (pos v) (pos w).
Proof.
  intros Hc R. pose proof (level_det c u v w Hc R) as D. destruct (two_power L) as (P & _).
  replace (49 / 20 / 2 ^ L) with (K * (/ 2 ^ L * / 2 ^ L)) by (field; lra). apply Rmult_le_compat_l; lra.
Qed.

Lemma rot_ends c u v w : In c (cells_of b) -> rot c u v w -> edge_ends b (pos u) (pos v).
Proof.
  intros Hc R. destruct level_tiling as (SU & _). exists c, u, v. split; auto. split.
  - destruct R as [->|[->| ->]]; cbn; auto.
  - destruct (su_cell _ _ SU c Hc) as (x & y & z & Ec & (B1 & B2 & B3) & _).
    assert (B : forall i, In i c -> nth_error (points_of b) i = Some (pos i)).
    { intros i Hi. apply nth_error_nth'. subst c. cbn in Hi. intuition congruence. }
    split; apply B; apply (rot_In _ _ _ _ R); auto.
Qed.

Lemma K_edge c u v w : In c (cells_of b) -> rot c u v w -> distance (pos u) (pos v) <= K * det (pos u) (pos v) (pos w).
Proof. intros Hc R. pose proof (K_det c u v w Hc R). pose proof (exact_lengths L b E _ _ (rot_ends c u v w Hc R)). lra. Qed.

Lemma K_normal c u v w : In c (cells_of b) -> rot c u v w -> vlen (normal (pos u) (pos v) (pos w)) <= K * det (pos u) (pos v) (pos w).
Proof.
  intros Hc R. pose proof (rot_turn _ _ _ _ R) as R1. pose proof (rot_turn _ _ _ _ R1) as R2. destruct level_tiling as (SU & TI).
  pose proof (pos_unit _ _ SU TI _ _ _ _ Hc R) as Nu. pose proof (pos_unit _ _ SU TI _ _ _ _ Hc R1) as Nv. pose proof (pos_unit _ _ SU TI _ _ _ _ Hc R2) as Nw.
  destruct (edge_spread L b _ _ E (rot_ends c u v w Hc R)) as (_ & _ & A). destruct (edge_spread L b _ _ E (rot_ends c v w u Hc R1)) as (_ & _ & B).
  destruct (edge_spread L b _ _ E (rot_ends c w u v Hc R2)) as (_ & _ & C). rewrite (inner_sym (pos w)) in C.
  pose proof (level_det c u v w Hc R) as D. destruct (two_power L) as (P1 & Q).
  pose proof (normal_det _ _ _ Nu Nv Nw) as N. set (p := pos u) in *. set (q := pos v) in *. set (r := pos w) in *. set (dt := det p q r) in *.
  assert (I : 0 < / 2 ^ L) by (apply Rinv_0_lt_compat; lra). assert (Pd : 0 < dt) by nra.
  assert (U : 0 <= 1 - inner p q /\ 0 <= 1 - inner p r /\ 0 <= 1 - inner q r).
  { assert (G : forall x y, norm2 x = 1 -> norm2 y = 1 -> 0 <= 1 - inner x y).
    { intros [[x1 x2] x3] [[y1 y2] y3]. unfold norm2. cbn. intros. pose proof (Rle_0_sqr (x1 - y1)). pose proof (Rle_0_sqr (x2 - y2)). pose proof (Rle_0_sqr (x3 - y3)). unfold Rsqr in *. lra. } repeat split; apply G; auto. }
  destruct U as (U1 & U2 & U3). set (h := widest L) in *.
  assert (M : (1 - inner p q) * (1 - inner p r) * (1 - inner q r) <= h * h * h).
  { apply Rmult_le_compat; auto; [now apply Rmult_le_pos|]. apply Rmult_le_compat; auto. }
  assert (M2 : h * h * h <= 2 * (dt * dt)).
  { apply Rle_trans with (2 * (/ 4 ^ L * / 4 ^ L)).
    - unfold h, widest. set (t := 4 ^ L). assert (Pt : 1 <= t) by (apply pow_R1_Rle; lra).
      apply Rmult_le_reg_r with ((t + 2) * (t + 2) * (t + 2) * (t * t)); [repeat apply Rmult_lt_0_compat; lra|].
      replace (3 / (t + 2) * (3 / (t + 2)) * (3 / (t + 2)) * ((t + 2) * (t + 2) * (t + 2) * (t * t))) with (27 * (t * t)) by (field; lra).
      replace (2 * (/ t * / t) * ((t + 2) * (t + 2) * (t + 2) * (t * t))) with (2 * ((t + 2) * (t + 2) * (t + 2))) by (field; lra).
      assert (0 <= (t - 4) * (t - 4) * (2 * t + 1)) by (apply Rmult_le_pos; [apply Rle_0_sqr|lra]). lra.
    - rewrite Q, Rinv_mult. assert (0 <= / 2 ^ L * / 2 ^ L) by nra. assert (/ 2 ^ L * / 2 ^ L * (/ 2 ^ L * / 2 ^ L) <= dt * dt) by (apply Rmult_le_compat; lra). lra. }
  assert (PK : 49 / 20 <= K) by lra.
  apply vlen_le; [apply Rmult_le_pos; lra|]. rewrite N.
  assert (49 / 20 * dt * (49 / 20 * dt) <= K * dt * (K * dt)) by (apply Rmult_le_compat; nra). assert (0 < dt * dt) by nra. lra.
Qed.

Lemma level_hat S x y a a' : hat (points_of b) (cells_of b) S x a -> hat (points_of b) (cells_of b) S y a' -> Rabs (a' - a) <= K * distance y x.
Proof.
  destruct level_tiling as (SU & TI). apply (hat_slow (points_of b) (cells_of b) SU TI K); [destruct (two_power L); lra | exact K_edge | exact K_normal].
Qed.

Lemma from_hat x y : 1 <= K * distance y x -> 2 / 5 / 2 ^ L <= distance y x.
Proof.
  intros H. destruct (two_power L) as (P & _). apply Rmult_le_reg_l with K; [lra|]. replace (K * (2 / 5 / 2 ^ L)) with (49 / 50) by (field; lra). lra.
Qed.

Lemma wsum_fold w c : fold_right Rplus 0 (map w c) = wsum w c.
Proof. induction c as [|v c IH]; [reflexivity|]. cbn. now rewrite IH. Qed.

Lemma wsum_same f g c : (forall v, In v c -> f v = g v) -> wsum f c = wsum g c.
Proof. induction c as [|v c IH]; intros H; [reflexivity|]. cbn. rewrite IH by (intros; apply H; now right). rewrite H by now left. reflexivity. Qed.

Lemma wsum_zero c : wsum (fun _ => 0) c = 0.
Proof. induction c as [|v c IH]; [reflexivity|]. cbn. lra. Qed.

Theorem cells_apart c d w w' x y : In c (cells_of b) -> In d (cells_of b) -> apart c d ->
  in_triangle (points_of b) c w x -> in_triangle (points_of b) d w' y -> 2 / 5 / 2 ^ L <= distance x y.
Proof.
  intros Hc Hd D (Iw & Sw) (Iw' & _). rewrite wsum_fold in Sw.
  set (S := fun v => if in_dec Nat.eq_dec v c then true else false).
  assert (A : hat (points_of b) (cells_of b) S x 1).
  { exists c, w. split; auto. split; auto. rewrite <- Sw. unfold part_of. apply wsum_same. intros v Hv. unfold S. destruct (in_dec Nat.eq_dec v c); [reflexivity|contradiction]. }
  assert (B : hat (points_of b) (cells_of b) S y 0).
  { exists d, w'. split; auto. split; auto. unfold part_of. symmetry. transitivity (wsum (fun _ => 0) d); [|apply wsum_zero]. apply wsum_same. intros v Hv. unfold S.
    destruct (in_dec Nat.eq_dec v c) as [Hvc|]; [now apply D in Hvc|reflexivity]. }
  pose proof (level_hat S y x 0 1 B A) as H. rewrite Rminus_0_r, Rabs_R1 in H. now apply from_hat.
Qed.

Theorem vertices_apart i j p q : i <> j -> nth_error (points_of b) i = Some p -> nth_error (points_of b) j = Some q -> 2 / 5 / 2 ^ L <= distance p q.
Proof.
  intros N Hp Hq. destruct level_tiling as (SU & _).
  assert (G : forall k z, nth_error (points_of b) k = Some z -> exists c, In c (cells_of b) /\ In k c /\ NoDup c /\ in_cone (points_of b) c (fun y => if Nat.eq_dec y k then 1 else 0) z).
  { intros k z Hz. destruct (su_used _ _ SU k) as (c & Hc & Ic); [apply nth_error_Some; rewrite Hz; discriminate|]. exists c. pose proof (cell_NoDup _ _ SU c Hc) as ND.
    split; auto. split; auto. split; auto. pose proof (single_in_cone (points_of b) c k ND Ic) as I. unfold position in I. now rewrite (nth_error_nth_Some _ _ _ _ Hz) in I. }
  destruct (G i p Hp) as (c & Hc & Ic & ND & C). destruct (G j q Hq) as (d & Hd & Id & ND' & C').
  set (S := fun v => if Nat.eq_dec v i then true else false).
  assert (ONE : forall l, NoDup l -> In i l -> wsum (fun v => if S v then (if Nat.eq_dec v i then 1 else 0) else 0) l = 1).
  { assert (Z : forall l, ~ In i l -> wsum (fun v => if S v then (if Nat.eq_dec v i then 1 else 0) else 0) l = 0).
    { intros l Hl. transitivity (wsum (fun _ => 0) l); [|apply wsum_zero]. apply wsum_same. intros v Hv. unfold S. destruct (Nat.eq_dec v i) as [->|]; [contradiction|reflexivity]. }
    intros l Hl. induction Hl as [|v l Nv Hl IH]; intros Hi; [contradiction|]. cbn [wsum]. destruct Hi as [->|Hi].
    - rewrite Z by auto. unfold S. destruct (Nat.eq_dec i i); [lra|congruence].
    - rewrite IH by auto. unfold S. destruct (Nat.eq_dec v i) as [->|]; [contradiction|lra]. }
  assert (A : hat (points_of b) (cells_of b) S p 1).
  { exists c, (fun y => if Nat.eq_dec y i then 1 else 0). split; auto. split; auto. symmetry. unfold part_of. now apply ONE. }
  assert (B : hat (points_of b) (cells_of b) S q 0).
  { exists d, (fun y => if Nat.eq_dec y j then 1 else 0). split; auto. split; auto. unfold part_of. symmetry. transitivity (wsum (fun _ => 0) d); [|apply wsum_zero]. apply wsum_same. intros v Hv. unfold S.
    destruct (Nat.eq_dec v i) as [->|]; [|reflexivity]. destruct (Nat.eq_dec i j); [contradiction|reflexivity]. }
  pose proof (level_hat S q p 0 1 B A) as H. rewrite Rminus_0_r, Rabs_R1 in H. now apply from_hat.
Qed.
End Level.

(** ** Floating point *)

Section Bits.
Context (n L : nat) (Hn : (7 <= n)%nat) (HL : 400 * (INR L * 2 ^ L) <= 2 ^ n).
Context (b b' : builder vec) (E : regular_sphere real_numbers L 1 = Ok b) (E' : regular_sphere (rounded (fl n)) L 1 = Ok b').
Local Notation u := ((/ 2) ^ n).
Local Notation g := (growth u 8 - 1).

Lemma small_error : 2 * INR L * g <= 1 / 20 / 2 ^ L.
Proof.
  pose proof (bits_fine n L Hn HL) as F. destruct (two_power L) as (P & _). apply Rmult_le_reg_r with (2 ^ L); [lra|].
  replace (1 / 20 / 2 ^ L * 2 ^ L) with (1 / 20) by (field; lra). lra.
Qed.

Lemma moved_triangle c w x' : In c (cells_of b) -> in_triangle (points_of b') c w x' ->
  exists x, in_triangle (points_of b) c w x /\ distance x' x <= 1 / 20 / 2 ^ L.
Proof.
  intros Hc ((W0 & WZ & Ex) & SW). pose proof (half_pow n ltac:(lia)) as Hu. exists (combination (points_of b) w c). split; [split; [split; auto|auto]|].
  destruct (sphere_tiling L) as (b0 & E0 & _ & _ & _ & _ & SU & _). rewrite E in E0. injection E0 as <-.
  destruct (su_cell _ _ SU c Hc) as (i & j & l & -> & (Bi & Bj & Bl) & _). rewrite Ex. clear Ex WZ Hc. cbn [map fold_right] in SW. cbn [combination].
  assert (NEAR : forall k, (k < length (points_of b))%nat -> distance (position (points_of b') k) (position (points_of b) k) <= 2 * INR L * g).
  { intros k Hk. destruct (sphere_error u Hu (fl n) (fl_relative n) L b b' (bits_coarse n L Hn HL) E E') as (_ & T). pose proof (Forall2_same _ _ _ T) as Ln.
    assert (H' : nth_error (points_of b') k = Some (position (points_of b') k)) by (apply nth_error_nth'; lia).
    destruct (exact_point u Hu (fl n) (fl_relative n) L (bits_coarse n L Hn HL) b b' E E' k _ H') as (p & Hp & D).
    unfold position at 2. now rewrite (nth_error_nth_Some _ _ _ _ Hp). }
  pose proof (NEAR i Bi) as Dp. pose proof (NEAR j Bj) as Dq. pose proof (NEAR l Bl) as Dr. clear NEAR.
  set (p := position (points_of b) i) in *. set (q := position (points_of b) j) in *. set (r := position (points_of b) l) in *.
  set (p' := position (points_of b') i) in *. set (q' := position (points_of b') j) in *. set (r' := position (points_of b') l) in *.
  pose proof (W0 i) as W1. pose proof (W0 j) as W2. pose proof (W0 l) as W3. assert (W4 : w i + w j + w l = 1) by lra.
  set (s := w i) in *. set (t := w j) in *. set (o := w l) in *. clearbody p q r p' q' r' s t o.
  pose proof small_error as SE. set (e := 1 / 20 / 2 ^ L) in *.
  rewrite distance_vlen.
  replace (vsub (vadd (vscale s p') (vadd (vscale t q') (vadd (vscale o r') origin))) (vadd (vscale s p) (vadd (vscale t q) (vadd (vscale o r) origin)))) with (vadd (vscale s (vsub p' p)) (vadd (vscale t (vsub q' q)) (vscale o (vsub r' r))))
    by (destruct p as [[? ?] ?], q as [[? ?] ?], r as [[? ?] ?], p' as [[? ?] ?], q' as [[? ?] ?], r' as [[? ?] ?]; unfold origin; cbn; f_equal; [f_equal|]; ring).
  assert (SC : forall k z, 0 <= k -> vlen (vscale k z) = k * vlen z).
  { intros k0 z Hk0. unfold vlen. replace (norm2 (vscale k0 z)) with (k0 * k0 * norm2 z) by (destruct z as [[? ?] ?]; unfold norm2; cbn; ring). rewrite sqrt_mult_alt by nra. now rewrite sqrt_square. }
  pose proof (vlen_add (vscale s (vsub p' p)) (vadd (vscale t (vsub q' q)) (vscale o (vsub r' r)))) as T1.
  pose proof (vlen_add (vscale t (vsub q' q)) (vscale o (vsub r' r))) as T2. rewrite (SC s _ W1) in T1. rewrite (SC t _ W2), (SC o _ W3) in T2. rewrite <- (distance_vlen p' p) in T1. rewrite <- (distance_vlen q' q), <- (distance_vlen r' r) in T2.
  assert (s * distance p' p <= s * e) by (apply Rmult_le_compat_l; lra). assert (t * distance q' q <= t * e) by (apply Rmult_le_compat_l; lra).
  assert (o * distance r' r <= o * e) by (apply Rmult_le_compat_l; lra). assert (s * e + (t * e + o * e) = e) by (replace (s * e + (t * e + o * e)) with ((s + t + o) * e) by ring; rewrite W4; ring). lra.
Qed.

Lemma still_apart x y x' y' : 2 / 5 / 2 ^ L <= distance x y -> distance x' x <= 1 / 20 / 2 ^ L -> distance y' y <= 1 / 20 / 2 ^ L -> 3 / 10 / 2 ^ L <= distance x' y'.
Proof. intros H Hx Hy. pose proof (edge_change x y x' y' _ Hx Hy). unfold Rdiv in *. lra. Qed.

Lemma rounded_cells_apart c d w w' x y : In c (cells_of b') -> In d (cells_of b') -> apart c d ->
  in_triangle (points_of b') c w x -> in_triangle (points_of b') d w' y -> 3 / 10 / 2 ^ L <= distance x y.
Proof.
  intros Hc Hd A Hx Hy. assert (EC : @cells_of vec b' = @cells_of vec b) by exact (same_cells real_numbers (rounded (fl n)) L b b' E E'). rewrite EC in Hc, Hd.
  destruct (moved_triangle c w x Hc Hx) as (x0 & Hx0 & Dx). destruct (moved_triangle d w' y Hd Hy) as (y0 & Hy0 & Dy).
  exact (still_apart x0 y0 x y (cells_apart L b E c d w w' x0 y0 Hc Hd A Hx0 Hy0) Dx Dy).
Qed.

Lemma rounded_vertices_apart i j p q : i <> j -> nth_error (points_of b') i = Some p -> nth_error (points_of b') j = Some q -> 3 / 10 / 2 ^ L <= distance p q.
Proof.
  intros N Hp Hq. pose proof (half_pow n ltac:(lia)) as Hu.
  destruct (exact_point u Hu (fl n) (fl_relative n) L (bits_coarse n L Hn HL) b b' E E' i p Hp) as (p0 & Hp0 & Dp).
  destruct (exact_point u Hu (fl n) (fl_relative n) L (bits_coarse n L Hn HL) b b' E E' j q Hq) as (q0 & Hq0 & Dq). pose proof small_error.
  apply (still_apart p0 q0); [exact (vertices_apart L b E i j p0 q0 N Hp0 Hq0)|lra|lra].
Qed.
End Bits.
