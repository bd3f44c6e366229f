(** * The shortest edges of the sphere *)
From Coq Require Import Reals Lra Psatz.
From Verif Require Import Base BaseFacts Topology TopologyFacts Shapes SpecShapes SphereFacts SphereSurface SphereResults ShapesResults SpecSphere SphereGeometry SphereTiling
  NestedResults SphereWidth SpecWidth WidthResults.

Local Open Scope R_scope.

Lemma root_le x y : 0 <= y -> x * x <= y -> x <= sqrt y.
Proof.
  intros Hy H. pose proof (sqrt_pos y) as P. pose proof (sqrt_sqrt y Hy) as Q. destruct (Rle_or_lt x (sqrt y)); auto. nra.
Qed.

(** The determinant of the inner products. *)
Lemma gram p q r : norm2 p = 1 -> norm2 q = 1 -> norm2 r = 1 ->
  det p q r * det p q r = 1 + 2 * (inner p q * inner p r * inner q r) - inner p q * inner p q - inner p r * inner p r - inner q r * inner q r.
Proof.
  intros Np Nq Nr.
  transitivity (norm2 p * norm2 q * norm2 r + 2 * (inner p q * inner p r * inner q r) - norm2 r * (inner p q * inner p q) - norm2 q * (inner p r * inner p r) - norm2 p * (inner q r * inner q r)).
  - destruct p as [[? ?] ?], q as [[? ?] ?], r as [[? ?] ?]. unfold det, norm2. cbn. ring.
  - rewrite Np, Nq, Nr. ring.
Qed.

(** The segment between the middles of two sides of a triangle is longer than half of
    the third side. *)
Lemma middle_segment x y z g : 0 < 1 + x -> 0 < 1 + y -> 0 <= 1 + z -> 4 * (g * g) * ((1 + x) * (1 + y)) = 1 ->
  0 <= 1 + 2 * (x * y * z) - x * x - y * y - z * z -> (g * (1 + x + y + z)) * (g * (1 + x + y + z)) <= (1 + z) / 2.
Proof.
  intros Hx Hy Hz Hg Hd. set (k := (1 + x) * (1 + y)) in *. assert (Pk : 0 < k) by (now apply Rmult_lt_0_compat).
  assert (F : (1 + x + y + z) * (1 + x + y + z) <= 2 * k * (1 + z)) by (unfold k; nra).
  apply Rmult_le_reg_r with (4 * k); [lra|].
  replace (g * (1 + x + y + z) * (g * (1 + x + y + z)) * (4 * k)) with (4 * (g * g) * k * ((1 + x + y + z) * (1 + x + y + z))) by ring. rewrite Hg. lra.
Qed.

Section Step.
Variables (pts np : list vec) (cells : list (list nat)).
Hypothesis SU : surface (length pts) cells.
Hypothesis TI : tiling pts cells.
Hypothesis MF : Forall2 (made_for real_numbers pts) (grid_edges Triangle cells) np.
Local Notation m := (mid (length pts) (grid_edges Triangle cells)).
Local Notation pos := (position pts).
Local Notation pos' := (position (pts ++ np)).

Lemma half_edge c u v w : In c cells -> rot c u v w -> inner (pos' u) (pos' (m u v)) = sqrt ((1 + inner (pos u) (pos v)) / 2) /\ 0 < 1 + inner (pos u) (pos v).
Proof.
  intros Hc R. pose proof (rot_turn _ _ _ _ R) as R1.
  destruct (cell_facts pts np cells SU TI MF c u v w Hc R) as (B & N & (P1 & P2 & P3) & (E1 & E2 & E3) & _ & _ & D).
  pose proof (pos_unit pts cells SU TI _ _ _ _ Hc R) as Uu. pose proof (pos_unit pts cells SU TI _ _ _ _ Hc R1) as Uv.
  destruct (edge_facts pts np cells SU TI MF c u v w Hc R) as (_ & _ & _ & _ & Q1). rewrite E1, mid_norm, Uu, Uv in Q1.
  rewrite E1, (old_position pts np u) by tauto. rewrite inner_mid. fold (norm2 (pos u)). rewrite Uu.
  set (s := factor (pos u) (pos v)) in *. set (x := inner (pos u) (pos v)) in *.
  assert (Px : 0 < 1 + x) by (destruct (Rle_or_lt (1 + x) 0); [exfalso; nra|auto]). split; [|exact Px].
  symmetry. apply sqrt_lem_1; [lra | apply Rmult_le_pos; lra |]. 
  apply (Rmult_eq_reg_r 2); [|lra]. replace (s * (1 + x) * (s * (1 + x)) * 2) with ((s * s * (1 + 1 + 2 * x)) * (1 + x)) by ring. rewrite Q1. field.
Qed.

Variable top : R.
Hypothesis T0 : 0 <= top.
Hypothesis HT : forall c u v w, In c cells -> rot c u v w -> inner (pos u) (pos v) <= top.
Local Notation new_top := (sqrt ((1 + top) / 2)).

Lemma short_edges c u v w : In c cells -> rot c u v w ->
  inner (pos' u) (pos' (m u v)) <= new_top /\ inner (pos' u) (pos' (m u w)) <= new_top /\ inner (pos' (m u v)) (pos' (m u w)) <= new_top.
Proof.
  intros Hc R. pose proof (rot_turn _ _ _ _ R) as R1. pose proof (rot_turn _ _ _ _ R1) as R2.
  destruct (cell_facts pts np cells SU TI MF c u v w Hc R) as (B & N & (P1 & P2 & P3) & (E1 & E2 & E3) & _ & _ & D).
  pose proof (pos_unit pts cells SU TI _ _ _ _ Hc R) as Uu. pose proof (pos_unit pts cells SU TI _ _ _ _ Hc R1) as Uv. pose proof (pos_unit pts cells SU TI _ _ _ _ Hc R2) as Uw.
  pose proof (HT _ _ _ _ Hc R) as Su. pose proof (HT _ _ _ _ Hc R1) as Sv. pose proof (HT _ _ _ _ Hc R2) as Sw.
  destruct (half_edge c u v w Hc R) as (Hx & Px). destruct (half_edge c v w u Hc R1) as (_ & Pz). destruct (half_edge c w u v Hc R2) as (_ & Py).
  rewrite (inner_sym (pos w)) in Sw, Py.
  destruct (edge_facts pts np cells SU TI MF c u v w Hc R) as (_ & _ & _ & _ & Q1).
  destruct (edge_facts pts np cells SU TI MF c w u v Hc R2) as (_ & _ & _ & _ & Q3).
  rewrite (mid_swap (length pts) cells w u), E3, mid_norm, Uu, Uw in Q3. rewrite E1, mid_norm, Uu, Uv in Q1.
  split; [|split].
  - rewrite Hx. apply sqrt_le_1_alt. lra.
  - rewrite E3, (old_position pts np u) by tauto. rewrite inner_mid. fold (norm2 (pos u)). rewrite Uu.
    set (t := factor (pos u) (pos w)) in *. set (y := inner (pos u) (pos w)) in *.
    apply root_le; [lra|]. apply Rle_trans with ((1 + y) / 2); [|lra].
    apply Req_le. apply (Rmult_eq_reg_r 2); [|lra]. replace (t * (1 + y) * (t * (1 + y)) * 2) with ((t * t * (1 + 1 + 2 * y)) * (1 + y)) by ring. rewrite Q3. field.
  - rewrite E1, E3, inner_mids. fold (norm2 (pos u)). rewrite Uu.
    pose proof (gram _ _ _ Uu Uv Uw) as G. pose proof (Rle_0_sqr (det (pos u) (pos v) (pos w))) as G0. unfold Rsqr in G0. rewrite G in G0. clear G.
    set (s := factor (pos u) (pos v)) in *. set (t := factor (pos u) (pos w)) in *.
    set (x := inner (pos u) (pos v)) in *. set (y := inner (pos u) (pos w)) in *. set (z := inner (pos v) (pos w)) in *.
    apply root_le; [lra|]. apply Rle_trans with ((1 + z) / 2); [|lra].
    apply middle_segment; auto; try lra.
    replace (4 * (s * t * (s * t)) * ((1 + x) * (1 + y))) with ((s * s * (1 + 1 + 2 * x)) * (t * t * (1 + 1 + 2 * y))) by ring. rewrite Q1, Q3. ring.
Qed.

Lemma step_short ch x y z : In ch (flat_map (children m) cells) -> rot ch x y z -> inner (pos' x) (pos' y) <= new_top.
Proof.
  intros Hch R. apply in_flat_map in Hch. destruct Hch as (c & Hc & Hch). apply (child_cases _ _ SU) in Hch; auto.
  destruct Hch as [(u & v & w & Rc & ->)|(a & b & d & -> & ->)].
  - destruct (short_edges c u v w Hc Rc) as (A1 & A2 & A3).
    destruct R as [E|[E|E]]; injection E as <- <- <-; auto. now rewrite inner_sym.
  - assert (Rc : rot [a; b; d] a b d) by (unfold rot; auto). pose proof (rot_turn _ _ _ _ Rc) as R1. pose proof (rot_turn _ _ _ _ R1) as R2.
    destruct (short_edges _ a b d Hc Rc) as (_ & _ & A1). destruct (short_edges _ b d a Hc R1) as (_ & _ & A2). destruct (short_edges _ d a b Hc R2) as (_ & _ & A3).
    rewrite (mid_swap (length pts) cells a d) in A1. rewrite (mid_swap (length pts) cells b a) in A2. rewrite (mid_swap (length pts) cells d b) in A3.
    destruct R as [E|[E|E]]; injection E as <- <- <-; auto; now rewrite inner_sym.
Qed.
End Step.

(** ** The cosine of the shortest arc *)

Definition arc (L : nat) : R := PI / 2 ^ (L + 1).

Lemma arc_bounds L : 0 < arc L <= PI / 2.
Proof.
  unfold arc. assert (P : 0 < 2 ^ (L + 1)) by (apply pow_lt; lra). pose proof PI_RGT_0. split; [apply Rdiv_lt_0_compat; lra|].
  unfold Rdiv. apply Rmult_le_compat_l; [lra|]. apply Rinv_le_contravar; [lra|]. rewrite pow_add, pow_1. assert (1 <= 2 ^ L) by (apply pow_R1_Rle; lra). lra.
Qed.

Lemma cos_arc_nonneg L : 0 <= cos (arc L).
Proof. pose proof (arc_bounds L). pose proof PI_RGT_0. apply cos_ge_0; lra. Qed.

Lemma arc_zero : cos (arc 0) = 0.
Proof. unfold arc. replace (PI / 2 ^ (0 + 1)) with (PI / 2) by (cbn; field). exact cos_PI2. Qed.

Lemma arc_next L : cos (arc (S L)) = sqrt ((1 + cos (arc L)) / 2).
Proof.
  symmetry. apply sqrt_lem_1; [pose proof (cos_arc_nonneg L); lra | apply cos_arc_nonneg |].
  replace (arc L) with (2 * arc (S L)). { rewrite cos_2a_cos. lra. }
  unfold arc. cbn [Nat.add pow]. field. apply pow_nonzero. lra.
Qed.

Lemma sphere_short L b : regular_sphere real_numbers L 1 = Ok b -> forall c u v w, In c (cells_of b) -> rot c u v w ->
  inner (position (points_of b) u) (position (points_of b) v) <= cos (arc L).
Proof.
  revert b. induction L as [|L IH]; intros b E.
  - destruct (sphere_of_levels real_numbers 0 (octahedron_points real_numbers) octahedron_cells eq_refl octahedron_surface) as (b0 & E0 & P & C).
    rewrite E in E0. injection E0 as <-. rewrite P, C, arc_zero. intros c u v w Hc R. pose proof (octahedron_spread c u v w Hc R). lra.
  - destruct (sphere_tiling L) as (b0 & E0 & _ & _ & _ & _ & SU & TI).
    destruct (two_levels real_numbers L b0 b E0 E) as (np & P & _ & C & MF). rewrite P, C, arc_next.
    exact (step_short _ np _ SU TI MF (cos (arc L)) (cos_arc_nonneg L) (IH b0 E0)).
Qed.

Lemma sphere_short_attained L b : regular_sphere real_numbers L 1 = Ok b -> exists c u v w, In c (cells_of b) /\ rot c u v w /\
  inner (position (points_of b) u) (position (points_of b) v) = cos (arc L).
Proof.
  revert b. induction L as [|L IH]; intros b E.
  - destruct (sphere_of_levels real_numbers 0 (octahedron_points real_numbers) octahedron_cells eq_refl octahedron_surface) as (b0 & E0 & P & C).
    rewrite E in E0. injection E0 as <-. rewrite P, C, arc_zero. exists [0; 1; 2]%nat, 0%nat, 1%nat, 2%nat.
    assert (Hc : In [0; 1; 2]%nat octahedron_cells) by (cbn; auto). assert (R : rot [0; 1; 2]%nat 0%nat 1%nat 2%nat) by (unfold rot; auto).
    split; [exact Hc|]. split; [exact R|]. pose proof (octahedron_spread _ _ _ _ Hc R). lra.
  - destruct (sphere_tiling L) as (b0 & E0 & _ & _ & _ & _ & SU & TI).
    destruct (two_levels real_numbers L b0 b E0 E) as (np & P & _ & C & MF). rewrite P, C.
    destruct (IH b0 E0) as (c & u & v & w & Hc & R & I).
    exists [u; mid (length (points_of b0)) (grid_edges Triangle (cells_of b0)) u v; mid (length (points_of b0)) (grid_edges Triangle (cells_of b0)) u w].
    exists u, (mid (length (points_of b0)) (grid_edges Triangle (cells_of b0)) u v), (mid (length (points_of b0)) (grid_edges Triangle (cells_of b0)) u w).
    split; [|split; [unfold rot; auto|]].
    + apply in_flat_map. exists c. split; [exact Hc|]. apply (child_cases _ _ SU); eauto 7.
    + rewrite arc_next, <- I. exact (proj1 (half_edge _ np _ SU TI MF c u v w Hc R)).
Qed.

Lemma chord_arc L : 2 * (1 - cos (arc L)) = 4 * (sin (PI / 2 ^ (L + 2)) * sin (PI / 2 ^ (L + 2))).
Proof.
  replace (arc L) with (2 * (PI / 2 ^ (L + 2))). { rewrite cos_2a_sin. ring. }
  unfold arc. replace (L + 2)%nat with (S (L + 1)) by lia. cbn [pow]. field. apply pow_nonzero. lra.
Qed.

Theorem shortest : forall L b p q, regular_sphere real_numbers L 1 = Ok b -> edge_ends b p q ->
  4 * (sin (PI / 2 ^ (L + 2)) * sin (PI / 2 ^ (L + 2))) <= chord2 p q.
Proof.
  intros L b p q E (c & u & v & Hc & He & Hp & Hq).
  destruct (sphere_tiling L) as (b0 & E0 & _ & _ & _ & _ & SU & TI). rewrite E in E0. injection E0 as <-.
  rewrite chord_inner by (apply (ti_unit _ _ TI); eapply nth_error_In; eassumption). rewrite <- chord_arc.
  apply (edge_rot_cell _ _ SU) in He; auto. destruct He as (w & R). pose proof (sphere_short L b E c u v w Hc R) as S.
  assert (Pp : position (points_of b) u = p) by (apply nth_error_nth_Some; exact Hp).
  assert (Pq : position (points_of b) v = q) by (apply nth_error_nth_Some; exact Hq).
  rewrite <- Pp, <- Pq. apply Rmult_le_compat_l; [lra|]. apply Rplus_le_compat_l, Ropp_le_contravar. exact S.
Qed.

Theorem shortest_attained : forall L b, regular_sphere real_numbers L 1 = Ok b -> exists p q, edge_ends b p q /\
  chord2 p q = 4 * (sin (PI / 2 ^ (L + 2)) * sin (PI / 2 ^ (L + 2))).
Proof.
  intros L b E. destruct (sphere_short_attained L b E) as (c & u & v & w & Hc & R & I).
  destruct (sphere_tiling L) as (b0 & E0 & _ & _ & _ & _ & SU & TI). rewrite E in E0. injection E0 as <-.
  destruct (rot_facts _ _ SU _ _ _ _ Hc R) as ((Bu & Bv & _) & _).
  pose proof (pos_unit _ _ SU TI _ _ _ _ Hc R) as Nu. pose proof (pos_unit _ _ SU TI _ _ _ _ Hc (rot_turn _ _ _ _ R)) as Nv.
  exists (position (points_of b) u), (position (points_of b) v). split.
  - exists c, u, v. split; [exact Hc|]. split; [apply (edge_rot_cell _ _ SU); eauto|]. split; apply nth_error_nth'; assumption.
  - rewrite <- chord_arc. etransitivity; [apply chord_inner; [exact Nu|exact Nv]|]. f_equal. f_equal. exact I.
Qed.

(** ** Rational bounds *)

(** [4 ^ L] times the square of the shortest edge grows with the level. *)
Lemma short_grows L : (1 - cos (arc L)) / 4 <= 1 - cos (arc (S L)).
Proof.
  apply (half_arc_lower (cos (arc L))).
  - apply cos_arc_nonneg.
  - rewrite arc_next. rewrite sqrt_sqrt; pose proof (cos_arc_nonneg L); lra.
  - pose proof (COS_bound (arc L)). lra.
  - pose proof (cos_arc_nonneg L). lra.
Qed.

Lemma short_two L : (2 <= L)%nat -> 6 / 5 / 4 ^ L <= 1 - cos (arc L).
Proof.
  intros H. induction H as [|L H IH].
  - rewrite !arc_next, arc_zero. replace ((1 + 0) / 2) with (1 / 2) by field.
    assert (A : sqrt (1 / 2) <= 17678 / 25000).
    { apply Rsqr_incr_0_var; [|lra]. unfold Rsqr. rewrite sqrt_sqrt; lra. }
    assert (B : sqrt ((1 + sqrt (1 / 2)) / 2) <= 37 / 40).
    { apply Rsqr_incr_0_var; [|lra]. unfold Rsqr. rewrite sqrt_sqrt; [lra|]. pose proof (sqrt_pos (1 / 2)). lra. }
    cbn [pow]. lra.
  - pose proof (short_grows L) as G. pose proof (pow4_pos L). replace (6 / 5 / 4 ^ S L) with (6 / 5 / 4 ^ L / 4) by (cbn [pow]; field; lra). lra.
Qed.

Lemma short_any L : / 4 ^ L <= 1 - cos (arc L).
Proof.
  induction L as [|L IH].
  - rewrite arc_zero. cbn [pow]. lra.
  - pose proof (short_grows L) as G. pose proof (pow4_pos L). replace (/ 4 ^ S L) with (/ 4 ^ L / 4) by (cbn [pow]; field; lra). lra.
Qed.

Theorem shortest_rational : forall L b p q, regular_sphere real_numbers L 1 = Ok b -> edge_ends b p q -> 2 / 4 ^ L <= chord2 p q.
Proof.
  intros L b p q E H. eapply Rle_trans; [|exact (shortest L b p q E H)]. rewrite <- chord_arc. pose proof (short_any L). unfold Rdiv. lra.
Qed.

Lemma wide_short L : widest L <= 5 / 2 * (1 - cos (arc L)).
Proof.
  destruct L as [|[|L]].
  - rewrite arc_zero. replace (widest 0) with 1 by (unfold widest; cbn; field). lra.
  - rewrite arc_next, arc_zero. replace (widest 1) with (1 / 2) by (unfold widest; cbn; field).
    assert (sqrt ((1 + 0) / 2) <= 8 / 10); [|lra]. apply Rsqr_incr_0_var; [|lra]. unfold Rsqr. rewrite sqrt_sqrt; lra.
  - pose proof (short_two (S (S L)) ltac:(lia)) as A. pose proof (pow4_pos (S (S L))). unfold widest.
    assert (3 / (4 ^ S (S L) + 2) <= 3 / 4 ^ S (S L)) by (apply Rmult_le_compat_l; [lra | apply Rinv_le_contravar; lra]). unfold Rdiv in *. lra.
Qed.

Theorem ratio_sharp : forall L b p q p' q', regular_sphere real_numbers L 1 = Ok b -> edge_ends b p q -> edge_ends b p' q' ->
  2 * chord2 p q <= 5 * chord2 p' q'.
Proof.
  intros L b p q p' q' E H H'. pose proof (longest_edge L b p q E H) as A. pose proof (shortest L b p' q' E H') as B. rewrite <- chord_arc in B.
  pose proof (wide_short L) as W. pose proof (pow4_pos L). unfold widest, Rdiv in *. lra.
Qed.

Lemma angle_sharp A B C lo : 0 < lo -> lo <= A <= 5 / 2 * lo -> lo <= B <= 5 / 2 * lo -> lo <= C <= 5 / 2 * lo ->
  25 * ((B + C - A) * (B + C - A)) <= 64 * (B * C).
Proof.
  intros L HA HB HC. destruct (Rle_lt_dec 0 (B + C - A)) as [P|P].
  - assert (S : (B + C - A) * (B + C - A) <= (B + C - lo) * (B + C - lo)) by nra.
    enough (25 * ((B + C - lo) * (B + C - lo)) <= 64 * (B * C)) by lra.
    assert (X : 0 <= (B - lo) * (5 / 2 * lo - C)) by nra. assert (Y : 0 <= (C - lo) * (5 / 2 * lo - B)) by nra.
    assert (Z : 0 <= (B - lo) * (5 / 2 * lo - B)) by nra. assert (Z' : 0 <= (C - lo) * (5 / 2 * lo - C)) by nra.
    assert (V : 0 <= (B - lo) * (C - lo)) by nra. assert (V' : 0 <= (5 / 2 * lo - B) * (5 / 2 * lo - C)) by nra.
    nra.
  - assert (S : (B + C - A) * (B + C - A) <= (1 / 2 * lo) * (1 / 2 * lo)) by nra.
    assert (lo * lo <= B * C) by nra. nra.
Qed.

Lemma angle_between_sharp : forall L b p q r, regular_sphere real_numbers L 1 = Ok b -> edge_ends b p q -> edge_ends b q r -> edge_ends b r p ->
  25 * (inner (vsub q p) (vsub r p) * inner (vsub q p) (vsub r p)) <= 16 * (chord2 q p * chord2 r p).
Proof.
  intros L b p q r E E1 E2 E3.
  assert (G : inner (vsub q p) (vsub r p) = (chord2 p q + chord2 r p - chord2 q r) / 2).
  { clear. unfold chord2. destruct p as [[? ?] ?], q as [[? ?] ?], r as [[? ?] ?]. cbn. field. }
  assert (Sy : chord2 q p = chord2 p q) by (clear; unfold chord2; destruct p as [[? ?] ?], q as [[? ?] ?]; cbn; ring).
  rewrite G, Sy.
  assert (S : forall x y, edge_ends b x y -> 2 * (1 - cos (arc L)) <= chord2 x y <= 5 / 2 * (2 * (1 - cos (arc L)))).
  { intros x y Hxy. pose proof (shortest L b x y E Hxy) as A. rewrite <- chord_arc in A. split; [exact A|].
    pose proof (longest_edge L b x y E Hxy) as B. pose proof (wide_short L). unfold widest, Rdiv in *. lra. }
  assert (P : 0 < 2 * (1 - cos (arc L))). { pose proof (short_any L). pose proof (pow4_pos L). assert (0 < / 4 ^ L) by (apply Rinv_0_lt_compat; lra). lra. }
  pose proof (angle_sharp (chord2 q r) (chord2 p q) (chord2 r p) _ P (S _ _ E2) (S _ _ E1) (S _ _ E3)). nra.
Qed.

Theorem angles_sharp : forall L b k p q r, regular_sphere real_numbers L 1 = Ok b -> corners_of b k p q r ->
  cosine2_at_most (16 / 25) (vsub q p) (vsub r p) /\ cosine2_at_most (16 / 25) (vsub r q) (vsub p q) /\ cosine2_at_most (16 / 25) (vsub p r) (vsub q r).
Proof.
  intros L b k p q r E H. destruct (corners_edges b k p q r H) as (E1 & E2 & E3). unfold cosine2_at_most.
  pose proof (angle_between_sharp L b p q r E E1 E2 E3). pose proof (angle_between_sharp L b q r p E E2 E3 E1). pose proof (angle_between_sharp L b r p q E E3 E1 E2).
  unfold chord2 in *. split; [|split]; lra.
Qed.

Lemma cosine_bound_sharp : cosine2_at_most (16 / 25) (1, 0, 0) (1, 1, 0) /\ ~ cosine2_at_most (16 / 25) (3, 2, 0) (1, 0, 0).
Proof. unfold cosine2_at_most, inner. split; lra. Qed.
