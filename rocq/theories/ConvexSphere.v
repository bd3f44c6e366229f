(** * The cells of the sphere are acute, the surface is convex *)
From Coq Require Import Reals Lra Psatz.
From Verif Require Import Base BaseFacts Topology TopologyFacts Shapes SpecShapes SphereFacts SphereSurface SphereResults ShapesResults SpecSphere SphereGeometry SphereTiling
  NestedResults SphereWidth SpecWidth WidthResults SphereShort SphereVolume VolumeResults SolidResults HatFunctions SymmetryResults.

Local Open Scope R_scope.

(** ** Angles *)

(** The angle at [p] of the spherical triangle [p], [q], [r] is not obtuse. *)
Definition square_at (p q r : vec) : Prop := inner p q * inner p r <= inner q r.

Lemma square_acute p q r : norm2 p = 1 -> square_at p q r -> inner p q < 1 -> inner p r < 1 -> 0 < inner (vsub q p) (vsub r p).
Proof.
  intros N H A B. unfold square_at in H. replace (inner (vsub q p) (vsub r p)) with (inner q r - inner p q - inner p r + norm2 p)
    by (destruct p as [[? ?] ?], q as [[? ?] ?], r as [[? ?] ?]; unfold norm2; cbn; ring).
  assert (0 < (1 - inner p q) * (1 - inner p r)) by (apply Rmult_lt_0_compat; lra). lra.
Qed.

Lemma square_sym p q r : square_at p q r -> square_at p r q.
Proof. unfold square_at. rewrite (inner_sym r q). lra. Qed.

Lemma inner_below p q : norm2 p = 1 -> norm2 q = 1 -> inner p q <= 1.
Proof.
  destruct p as [[x1 x2] x3], q as [[y1 y2] y3]. unfold norm2. cbn. intros. pose proof (Rle_0_sqr (x1 - y1)). pose proof (Rle_0_sqr (x2 - y2)). pose proof (Rle_0_sqr (x3 - y3)). unfold Rsqr in *. lra.
Qed.

(** The children of a triangle: [x], [y], [w] are the cosines of half the sides. *)
Section Children.
Context (p q r : vec) (x y w : R) (Np : norm2 p = 1) (Nq : norm2 q = 1) (Nr : norm2 r = 1) (Px : 0 < x) (Py : 0 < y) (Pw : 0 < w).
Context (Ipq : inner p q = 2 * (w * w) - 1) (Ipr : inner p r = 2 * (y * y) - 1) (Iqr : inner q r = 2 * (x * x) - 1).
Context (Ap : square_at p q r) (Aq : square_at q p r) (Ar : square_at r p q).
Local Notation c := (vscale (/ (2 * w)) (vadd p q)).
Local Notation b := (vscale (/ (2 * y)) (vadd p r)).
Local Notation a := (vscale (/ (2 * x)) (vadd q r)).
Local Notation s := (x * x + y * y + w * w - 1).
Context (Hs : 0 <= s).

Lemma p_c : inner p c = w.
Proof. rewrite inner_mid. unfold norm2 in *. rewrite Np, Ipq. field. lra. Qed.
Lemma p_b : inner p b = y.
Proof. rewrite inner_mid. unfold norm2 in *. rewrite Np, Ipr. field. lra. Qed.
Lemma c_b : inner c b = s / (2 * (w * y)).
Proof. rewrite inner_mids. unfold norm2 in *. rewrite Np, Ipq, Ipr, Iqr. field. lra. Qed.
Lemma a_b : inner a b = s / (2 * (x * y)).
Proof. rewrite (vadd_comm q r), (vadd_comm p r), inner_mids, (inner_sym r q), (inner_sym r p), (inner_sym q p). unfold norm2 in *. rewrite Nr, Ipq, Ipr, Iqr. field. lra. Qed.
Lemma a_c : inner a c = s / (2 * (x * w)).
Proof. rewrite (vadd_comm p q), inner_mids, (inner_sym q p), (inner_sym r p). unfold norm2 in *. rewrite Nq, Ipq, Ipr, Iqr. field. lra. Qed.

Lemma squares : w * w <= 1 /\ y * y <= 1 /\ x * x <= 1.
Proof. pose proof (inner_below p q Np Nq). pose proof (inner_below p r Np Nr). pose proof (inner_below q r Nq Nr). lra. Qed.

(** Acute angles of the parent, from its spherical angles. *)
Lemma flat_angles : y * y + w * w <= 1 + x * x /\ x * x + w * w <= 1 + y * y /\ x * x + y * y <= 1 + w * w.
Proof.
  unfold square_at in *. rewrite (inner_sym q p) in Aq. rewrite (inner_sym r p), (inner_sym r q) in Ar. rewrite Ipq, Ipr, Iqr in *. destruct squares as (A & B & C).
  assert (0 <= (1 - w * w) * (1 - y * y)) by (apply Rmult_le_pos; lra). assert (0 <= (1 - w * w) * (1 - x * x)) by (apply Rmult_le_pos; lra).
  assert (0 <= (1 - x * x) * (1 - y * y)) by (apply Rmult_le_pos; lra). nra.
Qed.

Lemma over k m d : 0 < d -> k * d <= m -> k <= m / d.
Proof. intros P H. apply Rmult_le_reg_r with d; auto. replace (m / d * d) with m by (field; lra). exact H. Qed.
Lemma under k m d : 0 < d -> m <= k * d -> m / d <= k.
Proof. intros P H. apply Rmult_le_reg_r with d; auto. replace (m / d * d) with m by (field; lra). exact H. Qed.

Lemma corner_squares : square_at p c b /\ square_at c p b /\ square_at b p c.
Proof.
  destruct flat_angles as (F1 & F2 & F3). unfold square_at. rewrite (inner_sym c p), (inner_sym b p), (inner_sym b c), p_c, p_b, c_b.
  assert (Pwy : 0 < w * y) by now apply Rmult_lt_0_compat.
  split; [|split].
  - apply over; [lra|]. unfold square_at in Ap. rewrite Ipq, Ipr, Iqr in Ap. nra.
  - replace (w * (s / (2 * (w * y)))) with (s / (2 * y)) by (field; lra). apply under; [lra|]. lra.
  - replace (y * (s / (2 * (w * y)))) with (s / (2 * w)) by (field; lra). apply under; [lra|]. lra.
Qed.

Lemma center_squares : square_at a b c /\ square_at b a c /\ square_at c a b.
Proof.
  destruct flat_angles as (F1 & F2 & F3). unfold square_at. rewrite (inner_sym b a), (inner_sym c a), (inner_sym b c), a_b, a_c, c_b.
  assert (Pwy : 0 < w * y) by now apply Rmult_lt_0_compat. assert (Pxy : 0 < x * y) by now apply Rmult_lt_0_compat. assert (Pxw : 0 < x * w) by now apply Rmult_lt_0_compat.
  assert (G : forall k d, 0 < d -> 0 < k -> s <= 2 * (k * k) -> s * s / (4 * (k * k) * d) <= s / (2 * d)).
  { intros k d Pd Pk H. apply over; [lra|]. replace (s * s / (4 * (k * k) * d) * (2 * d)) with (s * (s / (2 * (k * k)))) by (field; lra).
    assert (H1 : s / (2 * (k * k)) <= 1) by (apply under; nra). pose proof (Rmult_le_compat_l _ _ _ Hs H1). lra. }
  split; [|split].
  - replace (s / (2 * (x * y)) * (s / (2 * (x * w)))) with (s * s / (4 * (x * x) * (w * y))) by (field; lra). apply G; auto; lra.
  - replace (s / (2 * (x * y)) * (s / (2 * (w * y)))) with (s * s / (4 * (y * y) * (x * w))) by (field; lra). apply G; auto; lra.
  - replace (s / (2 * (x * w)) * (s / (2 * (w * y)))) with (s * s / (4 * (w * w) * (x * y))) by (field; lra). apply G; auto; lra.
Qed.
End Children.

Definition square_cells (pts : list vec) (cells : list (list nat)) : Prop :=
  forall c u v w, In c cells -> rot c u v w -> square_at (position pts u) (position pts v) (position pts w).

Section Step.
Variables (pts np : list vec) (cells : list (list nat)).
Hypothesis SU : surface (length pts) cells.
Hypothesis TI : tiling pts cells.
Hypothesis MF : Forall2 (made_for real_numbers pts) (grid_edges Triangle cells) np.
Hypothesis NN : forall c u v w, In c cells -> rot c u v w -> 0 <= inner (position pts u) (position pts v).
Hypothesis SQ : square_cells pts cells.
Local Notation m := (mid (length pts) (grid_edges Triangle cells)).

Lemma step_square : square_cells (pts ++ np) (flat_map (children m) cells).
Proof.
  intros ch i j k Hch Rc. apply in_flat_map in Hch. destruct Hch as (c & Hc & Hch). apply (child_cases _ _ SU) in Hch; auto.
  assert (G : forall a b d, ch = [a; b; d] -> (let p := position (pts ++ np) a in let q := position (pts ++ np) b in let r := position (pts ++ np) d in square_at p q r /\ square_at q p r /\ square_at r p q) ->
    square_at (position (pts ++ np) i) (position (pts ++ np) j) (position (pts ++ np) k)).
  { intros a b d -> (S1 & S2 & S3). destruct Rc as [E|[E|E]]; injection E as -> -> ->; auto using square_sym. }
  assert (F : forall u v w, rot c u v w -> exists x y z, 0 < x /\ 0 < y /\ 0 < z /\ norm2 (position pts u) = 1 /\ norm2 (position pts v) = 1 /\ norm2 (position pts w) = 1 /\
    inner (position pts u) (position pts v) = 2 * (z * z) - 1 /\ inner (position pts u) (position pts w) = 2 * (y * y) - 1 /\ inner (position pts v) (position pts w) = 2 * (x * x) - 1 /\
    square_at (position pts u) (position pts v) (position pts w) /\ square_at (position pts v) (position pts u) (position pts w) /\ square_at (position pts w) (position pts u) (position pts v) /\
    0 <= x * x + y * y + z * z - 1 /\ position (pts ++ np) u = position pts u /\
    position (pts ++ np) (m u v) = vscale (/ (2 * z)) (vadd (position pts u) (position pts v)) /\
    position (pts ++ np) (m u w) = vscale (/ (2 * y)) (vadd (position pts u) (position pts w)) /\
    position (pts ++ np) (m v w) = vscale (/ (2 * x)) (vadd (position pts v) (position pts w))).
  { intros u v w R. pose proof (rot_turn _ _ _ _ R) as R1. pose proof (rot_turn _ _ _ _ R1) as R2.
    destruct (cell_facts pts np cells SU TI MF _ u v w Hc R) as (B & _ & (K1 & K2 & K3) & (E1 & E2 & E3) & _).
    pose proof (pos_unit _ _ SU TI _ _ _ _ Hc R) as N1. pose proof (pos_unit _ _ SU TI _ _ _ _ Hc R1) as N2. pose proof (pos_unit _ _ SU TI _ _ _ _ Hc R2) as N3.
    pose proof (NN _ _ _ _ Hc R) as I1. pose proof (NN _ _ _ _ Hc R1) as I2. pose proof (NN _ _ _ _ Hc R2) as I3. rewrite inner_sym in I3.
    destruct (half_sum _ _ N1 N2 K1) as (z & Pz & Fz & Iz). destruct (half_sum _ _ N2 N3 K2) as (x & Px & Fx & Ix). destruct (half_sum _ _ N1 N3 K3) as (y & Py & Fy & Iy).
    exists x, y, z. rewrite E1, E2, E3, Fx, Fy, Fz. repeat (split; [first [assumption|exact (SQ _ _ _ _ Hc R)|exact (square_sym _ _ _ (SQ _ _ _ _ Hc R1))|exact (SQ _ _ _ _ Hc R2)|lra|apply old_position; tauto|reflexivity]|]). reflexivity. }
  destruct Hch as [(u & v & w & R & Ech)|(a & b & d & Ec & Ech)].
  - apply (G _ _ _ Ech). destruct (F u v w R) as (x & y & z & Px & Py & Pz & N1 & N2 & N3 & I1 & I2 & I3 & S1 & S2 & S3 & Hs & E0 & E1 & E2 & E3). cbv zeta. rewrite E0, E1, E2.
    apply (corner_squares _ _ _ x y z); auto.
  - apply (G _ _ _ Ech). destruct (F a b d ltac:(rewrite Ec; unfold rot; auto)) as (x & y & z & Px & Py & Pz & N1 & N2 & N3 & I1 & I2 & I3 & S1 & S2 & S3 & Hs & E0 & E1 & E2 & E3). cbv zeta.
    rewrite (mid_swap (length pts) cells d a), E1, E2, E3. apply (center_squares _ _ _ x y z); auto.
Qed.
End Step.

Lemma level_square L (b : builder vec) : regular_sphere real_numbers L 1 = Ok b -> square_cells (points_of b) (cells_of b).
Proof.
  revert b. induction L as [|L IH]; intros b E.
  - destruct (sphere_of_levels real_numbers 0 (octahedron_points real_numbers) octahedron_cells eq_refl octahedron_surface) as (b0 & E0 & P & C).
    rewrite E in E0. injection E0 as <-. assert (P' : @points_of vec b = (octahedron_points real_numbers : list vec)) by exact P. assert (C' : @cells_of vec b = octahedron_cells) by exact C.
    rewrite P', C'. destruct octa_pos as (P0 & P1 & P2 & P3 & P4 & P5). intros c u v w Hc R. unfold square_at.
    each_cell Hc; destruct R as [Ec|[Ec|Ec]]; injection Ec as <- <- <-; rewrite ?P0, ?P1, ?P2, ?P3, ?P4, ?P5; cbn; lra.
  - destruct (sphere_tiling L) as (b0 & E0 & _ & _ & _ & _ & SU & TI). destruct (two_levels_vec L b0 b E0 E) as (np & P & _ & C & MF). rewrite P, C.
    apply step_square; auto. exact (level_inner L b0 E0).
Qed.

(** ** The planes of two cells with a common edge *)

Lemma plane_normal p q r y : norm2 p = 1 -> norm2 q = 1 ->
  (1 + inner p q) * inner (normal p q r) y = det p q r * (inner p y + inner q y) + inner (vsub p r) (vsub q r) * inner (cross p q) y + (1 - norm2 r) * inner (cross p q) y.
Proof.
  intros Np Nq.
  assert (A : det p q r * inner p y = norm2 p * inner (cross q r) y + inner p q * inner (cross r p) y + inner p r * inner (cross p q) y)
    by (destruct p as [[? ?] ?], q as [[? ?] ?], r as [[? ?] ?], y as [[? ?] ?]; unfold det, norm2; cbn; ring).
  assert (B : det p q r * inner q y = inner q p * inner (cross q r) y + norm2 q * inner (cross r p) y + inner q r * inner (cross p q) y)
    by (destruct p as [[? ?] ?], q as [[? ?] ?], r as [[? ?] ?], y as [[? ?] ?]; unfold det, norm2; cbn; ring).
  assert (C : inner (normal p q r) y = inner (cross q r) y + inner (cross r p) y + inner (cross p q) y)
    by (destruct p as [[? ?] ?], q as [[? ?] ?], r as [[? ?] ?], y as [[? ?] ?]; unfold normal; cbn; ring).
  assert (D : inner (vsub p r) (vsub q r) = inner p q - inner p r - inner q r + norm2 r)
    by (destruct p as [[? ?] ?], q as [[? ?] ?], r as [[? ?] ?]; unfold norm2; cbn; ring).
  rewrite (inner_sym q p) in B. rewrite Np in A. rewrite Nq in B. rewrite C, D. rewrite (Rmult_plus_distr_l (det p q r)), A, B. ring.
Qed.

(** The normal of a cell, with length such that the inner product with the points of its
    plane is one. *)
Definition height (p q r y : vec) : R := inner (normal p q r) y / det p q r.

Lemma height_turn p q r y : height p q r y = height q r p y.
Proof.
  unfold height. rewrite <- (det_turn p q r). f_equal. destruct p as [[? ?] ?], q as [[? ?] ?], r as [[? ?] ?], y as [[? ?] ?]; unfold normal; cbn; ring.
Qed.

Lemma height_edge p q r y : norm2 p = 1 -> norm2 q = 1 -> norm2 r = 1 -> 0 <= inner p q -> 0 < det p q r ->
  (1 + inner p q) * height p q r y = inner p y + inner q y + inner (vsub p r) (vsub q r) / det p q r * inner (cross p q) y.
Proof.
  intros Np Nq Nr I D. unfold height. pose proof (plane_normal p q r y Np Nq) as H. rewrite Nr in H.
  replace ((1 + inner p q) * (inner (normal p q r) y / det p q r)) with ((1 + inner p q) * inner (normal p q r) y / det p q r) by (field; lra).
  rewrite H. field. lra.
Qed.

Lemma across p q r z y : norm2 p = 1 -> norm2 q = 1 -> norm2 r = 1 -> norm2 z = 1 -> 0 <= inner p q -> 0 < det p q r -> 0 < det q p z ->
  0 < inner (vsub p r) (vsub q r) -> 0 < inner (vsub q z) (vsub p z) -> inner (cross p q) y < 0 -> height p q r y < height q p z y.
Proof.
  intros Np Nq Nr Nz I D D' A A' H. pose proof (height_edge p q r y Np Nq Nr I D) as E. rewrite (inner_sym p q) in I.
  pose proof (height_edge q p z y Nq Np Nz I D') as E'. rewrite (inner_sym q p) in E', I.
  replace (inner (cross q p) y) with (- inner (cross p q) y) in E' by (destruct p as [[? ?] ?], q as [[? ?] ?], y as [[? ?] ?]; cbn; ring).
  assert (P : 0 < inner (vsub p r) (vsub q r) / det p q r) by (apply Rdiv_lt_0_compat; auto).
  assert (P' : 0 < inner (vsub q z) (vsub p z) / det q p z) by (apply Rdiv_lt_0_compat; auto).
  assert (0 < (inner (vsub p r) (vsub q r) / det p q r + inner (vsub q z) (vsub p z) / det q p z) * - inner (cross p q) y) by (apply Rmult_lt_0_compat; lra).
  apply Rmult_lt_reg_l with (1 + inner p q); lra.
Qed.

(** ** All levels *)
Section Level.
Context (L : nat) (b : builder vec) (E : regular_sphere real_numbers L 1 = Ok b).
Local Notation pts := (points_of b).
Local Notation cells := (cells_of b).
Local Notation pos := (position (points_of b)).

Lemma level_surface : surface (length pts) cells /\ tiling pts cells.
Proof. destruct (sphere_tiling L) as (b0 & E0 & _ & _ & _ & _ & SU & TI). rewrite E in E0. injection E0 as <-. auto. Qed.

Lemma level_unit v : (v < length pts)%nat -> norm2 (pos v) = 1.
Proof. intros H. apply (ti_unit _ _ (proj2 level_surface)). now apply nth_In. Qed.

Lemma least_pos : 0 < least L.
Proof. assert (P : 0 < / 4 ^ L) by (apply Rinv_0_lt_compat; pose proof (pow4_pos L); lra). pose proof (Rmult_lt_0_compat _ _ P P). destruct L as [|[|n]]; cbn [least]; try lra. Qed.

Lemma level_acute c u v w : In c cells -> rot c u v w -> 0 < inner (vsub (pos v) (pos u)) (vsub (pos w) (pos u)).
Proof.
  intros Hc R. pose proof (rot_turn _ _ _ _ (rot_turn _ _ _ _ R)) as R2. destruct level_surface as (SU & TI).
  apply square_acute; [exact (pos_unit _ _ SU TI _ _ _ _ Hc R)|exact (level_square L b E _ _ _ _ Hc R)|..].
  - assert (H : least L <= 1 - inner (pos u) (pos v)) by exact (proj1 (sphere_spread L b E c u v w Hc R)). pose proof least_pos. lra.
  - rewrite inner_sym. assert (H : least L <= 1 - inner (pos w) (pos u)) by exact (proj1 (sphere_spread L b E c w u v Hc R2)). pose proof least_pos. lra.
Qed.

(** The neighbour of a cell across an edge. *)
Lemma neighbour c u v w : In c cells -> rot c u v w -> exists d z, In d cells /\ rot d v u z.
Proof.
  intros Hc R. destruct level_surface as (SU & TI). assert (In (u, v) (directed_edges c)) as H by (destruct R as [->|[->| ->]]; cbn; auto).
  destruct (su_closed _ _ SU c u v Hc H) as (d & Hd & Ed). exists d. destruct (su_cell _ _ SU d Hd) as (x & y & z & -> & _). cbn in Ed.
  destruct Ed as [Ed|[Ed|[Ed|[]]]]; injection Ed as <- <-; eexists; (split; [exact Hd|]); unfold rot; eauto.
Qed.

Definition cell_height (c : list nat) (y : vec) : R := match c with [u; v; w] => height (pos u) (pos v) (pos w) y | _ => 0 end.

Lemma cell_height_rot c u v w y : rot c u v w -> cell_height c y = height (pos u) (pos v) (pos w) y.
Proof. intros [->|[->| ->]]; cbn [cell_height]; [reflexivity|apply height_turn|]. now rewrite <- height_turn. Qed.

Lemma higher c u v w y : In c cells -> rot c u v w -> inner (cross (pos u) (pos v)) y < 0 -> exists d, In d cells /\ cell_height c y < cell_height d y.
Proof.
  intros Hc R H. destruct level_surface as (SU & TI). destruct (neighbour c u v w Hc R) as (d & z & Hd & Rd). exists d. split; [exact Hd|].
  rewrite (cell_height_rot c u v w y R), (cell_height_rot d v u z y Rd).
  pose proof (rot_turn _ _ _ _ R) as R1. pose proof (rot_turn _ _ _ _ R1) as R2. pose proof (rot_turn _ _ _ _ (rot_turn _ _ _ _ Rd)) as Rd2.
  apply across; [exact (pos_unit _ _ SU TI _ _ _ _ Hc R)|exact (pos_unit _ _ SU TI _ _ _ _ Hc R1)|exact (pos_unit _ _ SU TI _ _ _ _ Hc R2)|exact (pos_unit _ _ SU TI _ _ _ _ Hd Rd2)| |
    exact (ti_outward _ _ TI _ _ _ _ Hc R)|exact (ti_outward _ _ TI _ _ _ _ Hd Rd)| | |exact H].
  - exact (level_inner L b E c u v w Hc R).
  - exact (level_acute c w u v Hc R2).
  - exact (level_acute d z v u Hd Rd2).
Qed.

Lemma largest {A : Type} (f : A -> R) l : l <> [] -> exists a, In a l /\ forall a', In a' l -> f a' <= f a.
Proof.
  induction l as [|a l IH]; intros N; [contradiction|]. destruct l as [|a' l]; [exists a; split; [now left|intros ? [<-|[]]; lra]|].
  destruct IH as (m & Hm & Max); [discriminate|]. destruct (Rle_lt_dec (f a) (f m)) as [H|H].
  - exists m. split; [now right|]. intros x [<-|Hx]; auto.
  - exists a. split; [now left|]. intros x [<-|Hx]; [lra|]. specialize (Max x Hx). lra.
Qed.

(** The highest cells over a direction are those whose cone contains it. *)
Lemma highest_cone c y : In c cells -> (forall d, In d cells -> cell_height d y <= cell_height c y) -> exists w, in_cone pts c w y /\ wsum w c = cell_height c y.
Proof.
  intros Hc Max. destruct level_surface as (SU & TI). destruct (su_cell _ _ SU c Hc) as (u & v & t & -> & _ & N1 & N2 & N3).
  assert (R : rot [u; v; t] u v t) by (left; reflexivity). pose proof (rot_turn _ _ _ _ R) as R1. pose proof (rot_turn _ _ _ _ R1) as R2.
  pose proof (ti_outward _ _ TI _ _ _ _ Hc R) as D.
  assert (G : forall i j k, rot [u; v; t] i j k -> 0 <= inner (cross (pos i) (pos j)) y).
  { intros i j k Rk. destruct (Rlt_le_dec (inner (cross (pos i) (pos j)) y) 0) as [H|H]; [|exact H]. destruct (higher _ i j k y Hc Rk H) as (d & Hd & Hi). specialize (Max d Hd). lra. }
  pose proof (G _ _ _ R) as G1. pose proof (G _ _ _ R1) as G2. pose proof (G _ _ _ R2) as G3. clear G Max.
  pose proof (solve (pos u) (pos v) (pos t) y) as Sy. set (p := pos u) in *. set (q := pos v) in *. set (r := pos t) in *. set (dt := det p q r) in *.
  pose proof (Rinv_0_lt_compat _ D) as Di.
  exists (on3 u v t (inner (cross q r) y / dt) (inner (cross r p) y / dt) (inner (cross p q) y / dt)).
  destruct (on3_values u v t (inner (cross q r) y / dt) (inner (cross r p) y / dt) (inner (cross p q) y / dt) N1 N2 N3) as (V1 & V2 & V3).
  split; [split; [|split]|].
  - apply on3_nonneg; unfold Rdiv; apply Rmult_le_pos; lra.
  - intros k Hk. apply on3_outside; intros ->; apply Hk; cbn; auto.
  - rewrite (combination_rot _ _ u v t _ R), V1, V2, V3. fold p q r.
    assert (Q : forall x, x = vscale (/ dt) (vscale dt x)). { intros [[? ?] ?]. cbn. f_equal; [f_equal|]; field; lra. }
    rewrite (Q y) at 1. rewrite Sy. generalize (inner (cross q r) y) (inner (cross r p) y) (inner (cross p q) y). intros. clearbody dt. destruct p as [[? ?] ?], q as [[? ?] ?], r as [[? ?] ?]. cbn. unfold Rdiv. f_equal; [f_equal|]; ring.
  - rewrite (wsum_rot _ u v t _ R), V1, V2, V3. cbn [cell_height]. unfold height. fold p q r dt.
    replace (inner (normal p q r) y) with (inner (cross q r) y + inner (cross r p) y + inner (cross p q) y) by (clear; destruct p as [[? ?] ?], q as [[? ?] ?], r as [[? ?] ?], y as [[? ?] ?]; unfold normal; cbn; ring).
    field. lra.
Qed.

Lemma own_height c u : In c cells -> In u c -> cell_height c (pos u) = 1.
Proof.
  intros Hc Hu. destruct level_surface as (SU & TI). destruct (su_cell _ _ SU c Hc) as (x & y & z & -> & _).
  assert (R : rot [x; y; z] x y z) by (left; reflexivity). pose proof (ti_outward _ _ TI _ _ _ _ Hc R) as D.
  destruct (det_normal (pos x) (pos y) (pos z)) as (A & B & C). cbn [cell_height]. unfold height. rewrite inner_sym.
  destruct Hu as [<-|[<-|[<-|[]]]]; rewrite ?A, ?B, ?C; field; lra.
Qed.

(** A vertex in the cone of a cell is a vertex of the cell. *)
Lemma vertex_cone c w v : In c cells -> (v < length pts)%nat -> in_cone pts c w (pos v) -> In v c /\ wsum w c = 1.
Proof.
  intros Hc Hv I. destruct level_surface as (SU & TI). destruct (su_used _ _ SU v Hv) as (d & Hd & Hin).
  assert (J : in_cone pts d (fun k => if Nat.eq_dec k v then 1 else 0) (pos v)).
  { split; [intros k; destruct (Nat.eq_dec k v); lra|]. split; [intros k Hk; destruct (Nat.eq_dec k v) as [->|]; [contradiction|reflexivity]|].
    pose proof (cell_NoDup _ _ SU d Hd) as Nd. clear - Hin Nd.
    induction d as [|k d IH]; [contradiction|]. inversion Nd as [|? ? N1 N2]; subst. cbn [combination].
    assert (Z : forall l, ~ In v l -> combination pts (fun k => if Nat.eq_dec k v then 1 else 0) l = origin).
    { induction l as [|a l IHl]; intros Hl; [reflexivity|]. cbn [combination]. rewrite IHl by (intros H; apply Hl; now right).
      destruct (Nat.eq_dec a v) as [->|]; [exfalso; apply Hl; now left|]. destruct (pos a) as [[? ?] ?]. unfold origin. cbn. f_equal; [f_equal|]; ring. }
    destruct (Nat.eq_dec k v) as [->|Nk].
    - rewrite Z by exact N1. destruct (pos v) as [[? ?] ?]. unfold origin. cbn. f_equal; [f_equal|]; ring.
    - destruct Hin as [->|Hin]; [contradiction|]. rewrite <- (IH Hin N2). destruct (pos k) as [[? ?] ?], (pos v) as [[? ?] ?]. cbn. f_equal; [f_equal|]; ring. }
  pose proof (ti_apart _ _ TI c d w _ _ Hc Hd I J) as Ew. cbn beta in Ew.
  assert (Hvc : In v c).
  { destruct (in_dec Nat.eq_dec v c) as [H|H]; [exact H|]. destruct I as (_ & Z & _). specialize (Z v H). rewrite Ew in Z. destruct (Nat.eq_dec v v); [lra|contradiction]. }
  split; [exact Hvc|]. rewrite (wsum_ext _ (fun k => if Nat.eq_dec k v then 1 else 0) c Ew).
  pose proof (cell_NoDup _ _ SU c Hc) as Nd. clear - Hvc Nd. induction c as [|k c IH]; [contradiction|]. inversion Nd as [|? ? N1 N2]; subst. cbn [wsum].
  assert (Z : forall l, ~ In v l -> wsum (fun k => if Nat.eq_dec k v then 1 else 0) l = 0).
  { induction l as [|a l IHl]; intros Hl; [reflexivity|]. cbn [wsum]. rewrite IHl by (intros H; apply Hl; now right).
    destruct (Nat.eq_dec a v) as [->|]; [exfalso; apply Hl; now left|]. ring. }
  destruct (Nat.eq_dec k v) as [->|Nk]; [rewrite Z by exact N1; ring|]. destruct Hvc as [->|H]; [contradiction|]. rewrite (IH H N2). ring.
Qed.

Lemma below_planes c v : In c cells -> (v < length pts)%nat -> cell_height c (pos v) <= 1 /\ (~ In v c -> cell_height c (pos v) < 1).
Proof.
  intros Hc Hv. destruct (largest (fun c => cell_height c (pos v)) cells) as (d & Hd & Max); [intros Z; rewrite Z in Hc; contradiction|]. cbn beta in Max.
  destruct (highest_cone d (pos v) Hd Max) as (w & I & Ew). destruct (vertex_cone d w v Hd Hv I) as (_ & W1). rewrite W1 in Ew. rewrite <- Ew in Max.
  split; [now apply Max|]. intros N. destruct (Rle_lt_or_eq_dec _ _ (Max c Hc)) as [H|H]; [exact H|]. exfalso. apply N.
  destruct (highest_cone c (pos v) Hc) as (w' & I' & _); [intros d' Hd'; rewrite H; now apply Max|]. now destruct (vertex_cone c w' v Hc Hv I').
Qed.
End Level.
