(** * The points at which the kernel is evaluated are points of the cells *)
From Coq Require Import Reals Lra.
From Verif Require Import Base BaseFacts Topology TopologyFacts DofMap Process Space SpecSpace Options Adjacency SpecAdjacency Scalar Integrand CellPair Operators SpecLocal
  Interleave Assembly SpecAssembly AssemblyResults Shapes SpecShapes SphereSurface ScreenFacts ShapesResults DimensionResults SphereTiling SpecSphere SpecScreen SpecWidth
  SpecTurns SpecVolume GaussResults SpecShift SpecToeplitz ToeplitzResults SpecWaves SpecDecay.

Local Open Scope R_scope.
Local Notation vertex_position := SpecSphere.position.

(** ** Weights of the vertices *)

Lemma triangle_point pts u v w p q r s t : u <> v -> u <> w -> v <> w ->
  nth_error pts u = Some p -> nth_error pts v = Some q -> nth_error pts w = Some r -> 0 <= s -> 0 <= t -> s + t <= 1 ->
  exists W, in_triangle pts [u; v; w] W (vadd p (vadd (vscale s (vsub q p)) (vscale t (vsub r p)))).
Proof.
  intros Uv Uw Vw Hp Hq Hr Hs Ht Hst.
  exists (fun z => if (z =? u)%nat then 1 - s - t else if (z =? v)%nat then s else if (z =? w)%nat then t else 0).
  assert (Vu : (v =? u)%nat = false) by (apply Nat.eqb_neq; auto). assert (Wu : (w =? u)%nat = false) by (apply Nat.eqb_neq; auto). assert (Wv : (w =? v)%nat = false) by (apply Nat.eqb_neq; auto).
  split.
  - split; [|split].
    + intros z. destruct (z =? u)%nat; [lra|]. destruct (z =? v)%nat; [lra|]. destruct (z =? w)%nat; lra.
    + intros z Hz. destruct (Nat.eqb_spec z u) as [->|]; [exfalso; apply Hz; cbn; auto|]. destruct (Nat.eqb_spec z v) as [->|]; [exfalso; apply Hz; cbn; auto|].
      destruct (Nat.eqb_spec z w) as [->|]; [exfalso; apply Hz; cbn; auto|]. reflexivity.
    + cbn [combination]. rewrite !Nat.eqb_refl, Vu, Wu, Wv. unfold vertex_position.
      rewrite (nth_error_nth _ _ origin Hp), (nth_error_nth _ _ origin Hq), (nth_error_nth _ _ origin Hr).
      destruct p as [[p1 p2] p3], q as [[q1 q2] q3], r as [[r1 r2] r3]. unfold origin. cbn. f_equal; [f_equal|]; ring.
  - cbn [map fold_right]. rewrite !Nat.eqb_refl, Vu, Wu, Wv. ring.
Qed.

Lemma quadrilateral_point pts u v w z p q r s t : u <> v -> u <> w -> u <> z -> v <> w -> v <> z -> w <> z ->
  nth_error pts u = Some p -> nth_error pts v = Some q -> nth_error pts w = Some r -> nth_error pts z = Some (vadd q (vsub r p)) ->
  0 <= s <= 1 -> 0 <= t <= 1 ->
  exists W, in_quadrilateral pts [u; v; w; z] W (vadd p (vadd (vscale s (vsub q p)) (vscale t (vsub r p)))).
Proof.
  intros Uv Uw Uz Vw Vz Wz Hp Hq Hr Hz Hs Ht.
  exists (fun a => if (a =? u)%nat then (1 - s) * (1 - t) else if (a =? v)%nat then s * (1 - t) else if (a =? w)%nat then (1 - s) * t else if (a =? z)%nat then s * t else 0).
  assert (Vu : (v =? u)%nat = false) by (apply Nat.eqb_neq; auto). assert (Wu : (w =? u)%nat = false) by (apply Nat.eqb_neq; auto). assert (Wv : (w =? v)%nat = false) by (apply Nat.eqb_neq; auto).
  assert (Zu : (z =? u)%nat = false) by (apply Nat.eqb_neq; auto). assert (Zv : (z =? v)%nat = false) by (apply Nat.eqb_neq; auto). assert (Zw : (z =? w)%nat = false) by (apply Nat.eqb_neq; auto).
  exists s, t. split; [exact Hs|]. split; [exact Ht|]. split; [|split].
  - cbn [map]. now rewrite !Nat.eqb_refl, Vu, Wu, Wv, Zu, Zv, Zw.
  - intros a Ha. destruct (Nat.eqb_spec a u) as [->|]; [exfalso; apply Ha; cbn; auto|]. destruct (Nat.eqb_spec a v) as [->|]; [exfalso; apply Ha; cbn; auto|].
    destruct (Nat.eqb_spec a w) as [->|]; [exfalso; apply Ha; cbn; auto|]. destruct (Nat.eqb_spec a z) as [->|]; [exfalso; apply Ha; cbn; auto 6|]. reflexivity.
  - cbn [combination]. rewrite !Nat.eqb_refl, Vu, Wu, Wv, Zu, Zv, Zw. unfold vertex_position.
    rewrite (nth_error_nth _ _ origin Hp), (nth_error_nth _ _ origin Hq), (nth_error_nth _ _ origin Hr), (nth_error_nth _ _ origin Hz).
    destruct p as [[p1 p2] p3], q as [[q1 q2] q3], r as [[r1 r2] r3]. unfold origin. cbn. f_equal; [f_equal|]; ring.
Qed.

Lemma flat_position points p q r (x : cell_map R) j : flat_cell points p q r x ->
  SpecLocal.position x j = vadd p (vadd (vscale (nth (2 * j) points 0) (vsub q p)) (vscale (nth (2 * j + 1) points 0) (vsub r p))).
Proof.
  intros [F _ _ _ _]. unfold SpecLocal.position. rewrite !F by lia. destruct p as [[p1 p2] p3], q as [[q1 q2] q3], r as [[r1 r2] r3]. cbn. f_equal; [f_equal|]; ring.
Qed.

(** ** The points of the two cells *)

Lemma evaluated_points (X : externals R) deg pts (test trial : fspace R R) G ct (within : nat -> vec -> Prop) :
  fs_grid test = G -> fs_grid trial = G -> (forall c, (c < ent_count G 2)%nat -> g_ctype G c = ct) -> inside_rules X ct ->
  (forall points c p, (c < ent_count G 2)%nat -> inside ct (nth (2 * p) points 0) (nth (2 * p + 1) points 0) -> within c (SpecLocal.position (x_geometry X G ct points c) p)) ->
  forall t s x y, (t < ent_count G 2)%nat -> (s < ent_count G 2)%nat -> evaluated X deg pts test trial t s x y -> within t x /\ within s y.
Proof.
  intros Gt Gs Ty (I1 & I2) W t s x y Ht Hs [pairs kind dim q p Tc Ad Dk Sd Eq Hp|qt qs p p' Nt Et Es Hp Hp']; rewrite ?Gt, ?Gs, ?(Ty t Ht), ?(Ty s Hs) in *.
  - destruct (I2 _ _ _ _ _ _ Dk Eq Hp). split; now apply W.
  - split; apply W; auto; eapply I1; eauto.
Qed.

Lemma distance_chord x y : SpecWaves.distance x y = sqrt (chord2 x y).
Proof. unfold SpecWaves.distance, offset, chord2. destruct x as [[x1 x2] x3], y as [[y1 y2] y3]. cbn. reflexivity. Qed.

Lemma chord2_nonneg x y : 0 <= chord2 x y.
Proof.
  unfold chord2. destruct x as [[x1 x2] x3], y as [[y1 y2] y3]. cbn.
  pose proof (Rle_0_sqr (x1 - y1)) as Q1. pose proof (Rle_0_sqr (x2 - y2)) as Q2. pose proof (Rle_0_sqr (x3 - y3)) as Q3. unfold Rsqr in *. lra.
Qed.

Lemma distance_zero x y : SpecWaves.distance x y = 0 -> x = y.
Proof.
  rewrite distance_chord. intros H. apply sqrt_eq_0 in H; [|apply chord2_nonneg]. destruct x as [[x1 x2] x3], y as [[y1 y2] y3]. unfold chord2 in H. cbn in H.
  assert (A : (x1 - y1) * (x1 - y1) = 0 /\ (x2 - y2) * (x2 - y2) = 0 /\ (x3 - y3) * (x3 - y3) = 0).
  { pose proof (Rle_0_sqr (x1 - y1)) as Q1. pose proof (Rle_0_sqr (x2 - y2)) as Q2. pose proof (Rle_0_sqr (x3 - y3)) as Q3. unfold Rsqr in *. lra. }
  destruct A as (A1 & A2 & A3). apply Rmult_integral in A1, A2, A3. f_equal; [f_equal|]; lra.
Qed.

Lemma newton_between e x y h d : 0 < h -> h <= SpecWaves.distance x y <= d -> 1 / (4 * PI * d) <= newton e 0 x y <= 1 / (4 * PI * h).
Proof.
  intros Hh (A & B). unfold newton. destruct (Req_EM_T (SpecWaves.distance x y) 0) as [Z|Z]; [lra|]. pose proof PI_RGT_0 as P.
  unfold Rdiv. rewrite !Rmult_1_l. split; apply Rinv_le_contravar; nra.
Qed.

(** ** The sphere *)

Definition within_cell (points : list nat -> (nat -> R) -> vec -> Prop) (cells : list (list nat)) (c : nat) (x : vec) : Prop :=
  exists l w, nth_error cells c = Some l /\ points l w x.

Section Sphere.
Context (X : externals R) (level id : nat) (b : builder vec) (E : regular_sphere real_numbers level 1 = Ok b).
Context (Fl : flat_cells X (built_grid id Triangle b) b).

Lemma sphere_point points c p : (c < ent_count (built_grid id Triangle b) 2)%nat -> inside Triangle (nth (2 * p) points 0) (nth (2 * p + 1) points 0) ->
  within_cell (in_triangle (points_of b)) (cells_of b) c (SpecLocal.position (x_geometry X (built_grid id Triangle b) Triangle points c) p).
Proof.
  intros Hc (I1 & I2 & I3). rewrite (proj1 (sphere_cells level id b E)) in Hc. destruct (proj2 (sphere_cells level id b E) c Hc) as (x & y & z & (u & v & w & Ec & Eu & Ev & Ew) & _).
  destruct (sphere_surface real_numbers level) as (b' & E' & _ & _ & _ & _ & SU). rewrite E in E'. injection E' as <-.
  assert (SU' : surface (length (@points_of vec b)) (@cells_of vec b)) by exact SU. clear SU.
  destruct (su_cell _ _ SU' _ (nth_error_In _ _ Ec)) as (u' & v' & w' & Eq & _ & N). injection Eq as <- <- <-.
  assert (Co : corners_of b c x y z) by (exists u, v, w; auto).
  rewrite (flat_position points x y z _ p (Fl Triangle points c x y z Co)).
  destruct (triangle_point (points_of b) u v w x y z (nth (2 * p) points 0) (nth (2 * p + 1) points 0)) as (W & HW); try tauto.
  exists [u; v; w], W. split; auto.
Qed.

Lemma sphere_unit p : In p (points_of b) -> inner p p = 1.
Proof. destruct (sphere_points_and_normals level) as (b' & E' & H & _). rewrite E in E'. injection E' as <-. apply H. Qed.

Lemma inner_le_one p q : inner p p = 1 -> inner q q = 1 -> inner p q <= 1.
Proof.
  destruct p as [[p1 p2] p3], q as [[q1 q2] q3]. cbn. intros A B.
  pose proof (Rle_0_sqr (p1 - q1)) as Q1. pose proof (Rle_0_sqr (p2 - q2)) as Q2. pose proof (Rle_0_sqr (p3 - q3)) as Q3. unfold Rsqr in *. lra.
Qed.

Lemma combination_ball p q r s t o : inner p p = 1 -> inner q q = 1 -> inner r r = 1 -> 0 <= s -> 0 <= t -> 0 <= o -> s + t + o = 1 ->
  let x := vadd (vscale s p) (vadd (vscale t q) (vscale o r)) in inner x x <= 1.
Proof.
  intros Hp Hq Hr Hs Ht Ho Sum. cbv zeta. pose proof (inner_le_one p q Hp Hq) as Pq. pose proof (inner_le_one p r Hp Hr) as Pr. pose proof (inner_le_one q r Hq Hr) as Qr.
  assert (Ex : inner (vadd (vscale s p) (vadd (vscale t q) (vscale o r))) (vadd (vscale s p) (vadd (vscale t q) (vscale o r))) =
    s * s * inner p p + t * t * inner q q + o * o * inner r r + 2 * (s * t * inner p q) + 2 * (s * o * inner p r) + 2 * (t * o * inner q r)).
  { destruct p as [[p1 p2] p3], q as [[q1 q2] q3], r as [[r1 r2] r3]. cbn. ring. }
  rewrite Ex, Hp, Hq, Hr. assert (S1 : s * t * inner p q <= s * t) by (assert (0 <= s * t) by (now apply Rmult_le_pos); nra).
  assert (S2 : s * o * inner p r <= s * o) by (assert (0 <= s * o) by (now apply Rmult_le_pos); nra). assert (S3 : t * o * inner q r <= t * o) by (assert (0 <= t * o) by (now apply Rmult_le_pos); nra).
  replace 1 with ((s + t + o) * (s + t + o)) by (rewrite Sum; ring). nra.
Qed.

Lemma sphere_ball c x : within_cell (in_triangle (points_of b)) (cells_of b) c x -> inner x x <= 1.
Proof.
  intros (l & w & El & ((W1 & W2 & ->) & W3)).
  destruct (sphere_surface real_numbers level) as (b' & E' & _ & _ & _ & _ & SU). rewrite E in E'. injection E' as <-.
  assert (SU' : surface (length (@points_of vec b)) (@cells_of vec b)) by exact SU. clear SU.
  destruct (su_cell _ _ SU' _ (nth_error_In _ _ El)) as (u & v & z & -> & (Hu & Hv & Hz) & N).
  cbn [combination map fold_right] in *. unfold vertex_position.
  destruct (nth_error (points_of b) u) as [p|] eqn:Eu; [|apply nth_error_None in Eu; lia].
  destruct (nth_error (points_of b) v) as [q|] eqn:Ev; [|apply nth_error_None in Ev; lia].
  destruct (nth_error (points_of b) z) as [r|] eqn:Ew; [|apply nth_error_None in Ew; lia].
  rewrite (nth_error_nth _ _ origin Eu), (nth_error_nth _ _ origin Ev), (nth_error_nth _ _ origin Ew).
  replace (vadd (vscale (w z) r) origin) with (vscale (w z) r) by (destruct r as [[r1 r2] r3]; unfold origin; cbn; f_equal; [f_equal|]; ring).
  apply combination_ball; auto; try (apply sphere_unit; eapply nth_error_In; eauto). lra.
Qed.

Lemma ball_distance x y : inner x x <= 1 -> inner y y <= 1 -> SpecWaves.distance x y <= 2.
Proof.
  intros A B. rewrite distance_chord. replace 2 with (sqrt (2 * 2)) by (apply sqrt_square; lra). apply sqrt_le_1_alt.
  destruct x as [[x1 x2] x3], y as [[y1 y2] y3]. unfold chord2. cbn in *.
  pose proof (Rle_0_sqr (x1 + y1)) as Q1. pose proof (Rle_0_sqr (x2 + y2)) as Q2. pose proof (Rle_0_sqr (x3 + y3)) as Q3. unfold Rsqr in *. lra.
Qed.

Lemma area_positive c p q r : corners_of b c p q r -> 0 < triangle_area p q r.
Proof.
  intros (u & v & w & Ec & Eu & Ev & Ew). destruct (sphere_points_and_normals level) as (b' & E' & _ & H). rewrite E in E'. injection E' as <-.
  specialize (H _ u v w p q r (nth_error_In _ _ Ec) eq_refl Eu Ev Ew p (or_introl eq_refl)). unfold triangle_area.
  assert (0 < inner (normal p q r) (normal p q r)).
  { destruct (normal p q r) as [[n1 n2] n3], p as [[p1 p2] p3]. cbn in *. pose proof (Rle_0_sqr n1) as Q1. pose proof (Rle_0_sqr n2) as Q2. pose proof (Rle_0_sqr n3) as Q3. unfold Rsqr in *.
    destruct (Req_dec (n1 * n1 + n2 * n2 + n3 * n3) 0) as [Z|Z]; [|lra].
    assert (n1 * n1 = 0 /\ n2 * n2 = 0 /\ n3 * n3 = 0) as (Z1 & Z2 & Z3) by lra. apply Rmult_integral in Z1, Z2, Z3.
    assert (n1 = 0) by tauto. assert (n2 = 0) by tauto. assert (n3 = 0) by tauto. subst. lra. }
  apply sqrt_lt_R0 in H0. lra.
Qed.
End Sphere.
