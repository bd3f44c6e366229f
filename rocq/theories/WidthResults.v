(** * Size and form of the cells of the sphere: proofs *)
From Coq Require Import Reals Lra Psatz.
From Verif Require Import Base BaseFacts Topology TopologyFacts Shapes SpecShapes SphereFacts SphereSurface SphereResults ShapesResults SpecSphere SphereGeometry SphereTiling NestedResults SphereWidth SpecWidth.

Local Open Scope R_scope.

(** ** The bounds at each level *)

Definition widest (L : nat) : R := 3 / (4 ^ L + 2).

Lemma pow4_pos L : 1 <= 4 ^ L.
Proof. induction L; cbn; lra. Qed.

Lemma widest_bounds L : 0 < widest L <= 1.
Proof.
  pose proof (pow4_pos L). unfold widest. split.
  - apply Rmult_lt_0_compat; [lra | apply Rinv_0_lt_compat; lra].
  - apply (Rmult_le_reg_r (4 ^ L + 2)); [lra|]. unfold Rdiv. rewrite Rmult_assoc, Rinv_l by lra. lra.
Qed.

Lemma widest_next L : new_hi (widest L) = widest (S L).
Proof. pose proof (pow4_pos L). unfold new_hi, widest. cbn [pow]. field. split; lra. Qed.

Definition least (L : nat) : R :=
  match L with
  | O => 1
  | 1%nat => 1 / 4
  | _ => 7 / 8 * / 4 ^ L + 9 / 10 * (/ 4 ^ L * / 4 ^ L)
  end.

Lemma least_nonneg L : 0 <= least L.
Proof.
  pose proof (pow4_pos L). assert (0 < / 4 ^ L) by (apply Rinv_0_lt_compat; lra).
  destruct L as [|[|L]]; cbn [least]; nra.
Qed.

Lemma least_next L : least (S L) <= new_lo (least L) (widest L).
Proof.
  destruct L as [|[|L]].
  - unfold new_lo, widest. cbn [least pow]. lra.
  - unfold new_lo, widest. cbn [least pow]. lra.
  - set (n := S (S L)). assert (P : 16 <= 4 ^ n) by (unfold n; cbn [pow]; pose proof (pow4_pos L); lra).
    assert (W : widest n <= 3 * / 4 ^ n).
    { unfold widest. apply Rmult_le_compat_l; [lra|]. apply Rinv_le_contravar; lra. }
    pose proof (widest_bounds n) as B.
    change (least n) with (7 / 8 * / 4 ^ n + 9 / 10 * (/ 4 ^ n * / 4 ^ n)).
    replace (least (S n)) with (7 / 8 * (/ 4 ^ n / 4) + 9 / 10 * (/ 4 ^ n / 4 * (/ 4 ^ n / 4))).
    2:{ unfold least, n. set (k := 4 ^ S (S L)). change (4 ^ S (S (S L))) with (4 * k). field. unfold k; cbn [pow]; pose proof (pow4_pos L); lra. }
    assert (H0 : 0 < / 4 ^ n) by (apply Rinv_0_lt_compat; lra).
    assert (H16 : / 4 ^ n <= 1 / 16) by (replace (1 / 16) with (/ 16) by lra; apply Rinv_le_contravar; lra).
    assert (W6 : widest n <= 1 / 6).
    { unfold widest. apply (Rmult_le_reg_r (4 ^ n + 2)); [lra|]. unfold Rdiv at 1. rewrite Rmult_assoc, Rinv_l by lra. lra. }
    set (h := / 4 ^ n) in *. set (D := widest n) in *. unfold new_lo. set (lo := 7 / 8 * h + 9 / 10 * (h * h)).
    assert (HH : 0 <= h * h) by nra. assert (HH' : h * h <= h / 16) by nra.
    assert (LD : (D - lo) * (D - lo) <= (17 / 8 * h) * (17 / 8 * h)).
    { assert (A : D - lo <= 17 / 8 * h) by (unfold lo; lra).
      assert (A2 : - (17 / 8 * h) <= D - lo) by (unfold lo; lra).
      nra. }
    assert (Q : 8 * ((2 - 1 / 6) * (2 - 1 / 6)) <= 8 * ((2 - D) * (2 - D))) by nra.
    assert (I : / (8 * ((2 - D) * (2 - D))) <= / (8 * ((2 - 1 / 6) * (2 - 1 / 6)))) by (apply Rinv_le_contravar; lra).
    assert (I0 : 0 <= / (8 * ((2 - D) * (2 - D)))) by (left; apply Rinv_0_lt_compat; lra).
    pose proof (Rmult_le_compat _ _ _ _ (Rle_0_sqr (D - lo)) I0 LD I) as T. unfold Rsqr in T.
    change ((D - lo) * (D - lo) * / (8 * ((2 - D) * (2 - D)))) with ((D - lo) * (D - lo) / (8 * ((2 - D) * (2 - D)))) in T.
    replace (17 / 8 * h * (17 / 8 * h) * / (8 * ((2 - 1 / 6) * (2 - 1 / 6)))) with (289 * 36 / (64 * 968) * (h * h)) in T by field.
    unfold lo at 1. nra.
Qed.

Lemma octahedron_spread : spread 1 1 (octahedron_points real_numbers) octahedron_cells.
Proof.
  destruct octa_pos as (P0 & P1 & P2 & P3 & P4 & P5). intros c u v w Hc R.
  each_cell Hc; destruct R as [E|[E|E]]; injection E as <- <- <-; rewrite ?P0, ?P1, ?P2, ?P3, ?P4, ?P5; cbn; lra.
Qed.

Lemma sphere_spread L b : regular_sphere real_numbers L 1 = Ok b -> spread (least L) (widest L) (points_of b) (cells_of b).
Proof.
  revert b. induction L as [|L IH]; intros b E.
  - destruct (sphere_of_levels real_numbers 0 (octahedron_points real_numbers) octahedron_cells eq_refl octahedron_surface) as (b0 & E0 & P & C).
    rewrite E in E0. injection E0 as <-. rewrite P, C. cbn [least].
    replace (widest 0) with 1 by (unfold widest; cbn; field). exact octahedron_spread.
  - destruct (sphere_tiling L) as (b0 & E0 & _ & _ & _ & _ & SU & TI).
    destruct (two_levels real_numbers L b0 b E0 E) as (np & P & _ & C & MF).
    rewrite P, C.
    pose proof (step_spread _ np _ SU TI MF (least L) (widest L) (IH _ E0) (least_nonneg L) (proj2 (widest_bounds L))) as S.
    intros c u v w Hc R. specialize (S c u v w Hc R). rewrite widest_next in S. pose proof (least_next L). split; [exact (Rle_trans _ _ _ H (proj1 S)) | exact (proj2 S)].
Qed.

(** ** Lengths *)

Lemma chord_inner p q : inner p p = 1 -> inner q q = 1 -> chord2 p q = 2 * (1 - inner p q).
Proof. destruct p as [[a b] c], q as [[d e] f]. unfold chord2. cbn. intros. nra. Qed.

Lemma edge_spread L b p q : regular_sphere real_numbers L 1 = Ok b -> edge_ends b p q ->
  chord2 p q = 2 * (1 - inner p q) /\ least L <= 1 - inner p q <= widest L.
Proof.
  intros E (c & u & v & Hc & He & Hp & Hq).
  destruct (sphere_tiling L) as (b0 & E0 & _ & _ & _ & _ & SU & TI). rewrite E in E0. injection E0 as <-.
  split.
  - apply chord_inner; apply (ti_unit _ _ TI); eapply nth_error_In; eassumption.
  - apply (edge_rot_cell _ _ SU) in He; auto. destruct He as (w & R).
    pose proof (sphere_spread L b E c u v w Hc R) as S.
    assert (Pp : position (points_of b) u = p) by (apply nth_error_nth_Some; exact Hp).
    assert (Pq : position (points_of b) v = q) by (apply nth_error_nth_Some; exact Hq).
    now rewrite Pp, Pq in S.
Qed.

Theorem longest_edge : forall L b p q, regular_sphere real_numbers L 1 = Ok b -> edge_ends b p q -> chord2 p q <= 6 / (4 ^ L + 2).
Proof.
  intros L b p q E H. destruct (edge_spread L b p q E H) as (-> & _ & S). unfold widest in S.
  replace (6 / (4 ^ L + 2)) with (2 * (3 / (4 ^ L + 2))) by (pose proof (pow4_pos L); field; lra). lra.
Qed.

Theorem shortest_edge : forall L b p q, regular_sphere real_numbers L 1 = Ok b -> edge_ends b p q -> 7 / 4 / 4 ^ L <= chord2 p q.
Proof.
  intros L b p q E H. destruct (edge_spread L b p q E H) as (-> & Sh & _).
  assert (K : 7 / 8 * / 4 ^ L <= least L).
  { pose proof (pow4_pos L). destruct L as [|[|L]]; cbn [least]; [cbn; lra | cbn; lra |].
    assert (0 < / 4 ^ S (S L)) by (apply Rinv_0_lt_compat; lra). nra. }
  unfold Rdiv in *. lra.
Qed.

(** ** The cell in the middle *)

Lemma middle_cell L b : regular_sphere real_numbers L 1 = Ok b -> exists a x d,
  nth_error (cells_of b) (4 ^ L - 1) = Some [a; x; d] /\
  forall u v w, rot [a; x; d] u v w -> 1 - inner (position (points_of b) u) (position (points_of b) v) = widest L.
Proof.
  revert b. induction L as [|L IH]; intros b E.
  - destruct (sphere_of_levels real_numbers 0 (octahedron_points real_numbers) octahedron_cells eq_refl octahedron_surface) as (b0 & E0 & P & C).
    rewrite E in E0. injection E0 as <-. rewrite P, C. exists 0%nat, 1%nat, 2%nat. split; [reflexivity|].
    intros u v w R. pose proof (octahedron_spread [0; 1; 2]%nat u v w ltac:(cbn; tauto) R) as S.
    replace (widest 0) with 1 by (unfold widest; cbn; field). lra.
  - destruct (sphere_tiling L) as (b0 & E0 & _ & _ & _ & _ & SU & TI).
    destruct (two_levels real_numbers L b0 b E0 E) as (np & P & _ & C & MF).
    destruct (IH b0 E0) as (a & x & d & Hk & EQ). pose proof (nth_error_In _ _ Hk) as Hc.
    assert (I : (4 ^ S L - 1 = 4 * (4 ^ L - 1) + 3)%nat).
    { assert (4 ^ L <> 0)%nat by (apply Nat.pow_nonzero; lia). rewrite Nat.pow_succ_r'. lia. }
    rewrite I, C.
    assert (L4 : forall c', In c' (cells_of b0) -> length (children (mid (length (points_of b0)) (grid_edges Triangle (cells_of b0))) c') = 4%nat).
    { intros c' Hc'. destruct (su_cell _ _ SU c' Hc') as (? & ? & ? & -> & _). reflexivity. }
    rewrite (blocks_of_four _ (cells_of b0) L4 _ [a; x; d] 3 Hk ltac:(lia)).
    cbn [children nth_error]. eexists _, _, _. split; [reflexivity|].
    rewrite P, <- widest_next.
    exact (center_equilateral _ np _ SU TI MF (widest L) (proj2 (widest_bounds L)) a x d Hc EQ).
Qed.

Theorem middle_equilateral : forall L b, regular_sphere real_numbers L 1 = Ok b -> exists p q r,
  corners_of b (4 ^ L - 1) p q r /\ chord2 p q = 6 / (4 ^ L + 2) /\ chord2 q r = 6 / (4 ^ L + 2) /\ chord2 r p = 6 / (4 ^ L + 2).
Proof.
  intros L b E. destruct (middle_cell L b E) as (a & x & d & Hk & EQ).
  destruct (sphere_tiling L) as (b0 & E0 & _ & _ & _ & _ & SU & TI). rewrite E in E0. injection E0 as <-.
  pose proof (nth_error_In _ _ Hk) as Hc.
  assert (R : rot [a; x; d] a x d) by (unfold rot; auto). pose proof (rot_turn _ _ _ _ R) as R1. pose proof (rot_turn _ _ _ _ R1) as R2.
  destruct (rot_facts _ _ SU _ _ _ _ Hc R) as ((B1 & B2 & B3) & _).
  assert (N : forall v, (v < length (points_of b))%nat -> nth_error (points_of b) v = Some (position (points_of b) v)).
  { intros v Hv. unfold position. now apply nth_error_nth'. }
  pose proof (pow4_pos L) as P4.
  assert (U : forall v, (v < length (points_of b))%nat -> inner (position (points_of b) v) (position (points_of b) v) = 1).
  { intros v Hv. apply (ti_unit _ _ TI). unfold position. now apply nth_In. }
  assert (W : 6 / (4 ^ L + 2) = 2 * widest L) by (unfold widest; field; lra).
  exists (position (points_of b) a), (position (points_of b) x), (position (points_of b) d).
  split; [exists a, x, d; auto|]. rewrite W.
  split; [|split]; (rewrite chord_inner by auto); f_equal; eauto.
Qed.

(** ** Distance from the sphere *)

Lemma point_norm p q r s t o : inner p p = 1 -> inner q q = 1 -> inner r r = 1 -> s + t + o = 1 ->
  inner (point_of p q r s t o) (point_of p q r s t o) = 1 - (s * t * chord2 p q + t * o * chord2 q r + o * s * chord2 r p).
Proof.
  intros Hp Hq Hr Hs. rewrite !chord_inner by auto.
  replace (inner (point_of p q r s t o) (point_of p q r s t o)) with (s * s * inner p p + t * t * inner q q + o * o * inner r r + 2 * (s * t * inner p q + t * o * inner q r + o * s * inner r p)).
  - rewrite Hp, Hq, Hr. replace o with (1 - s - t) by lra. ring.
  - clear. unfold point_of. destruct p as [[? ?] ?], q as [[? ?] ?], r as [[? ?] ?]. cbn. ring.
Qed.

Lemma corners_edges b k p q r : corners_of b k p q r -> edge_ends b p q /\ edge_ends b q r /\ edge_ends b r p.
Proof.
  intros (u & v & w & Hk & Hp & Hq & Hr). apply nth_error_In in Hk.
  split; [|split]; [exists [u; v; w], u, v | exists [u; v; w], v, w | exists [u; v; w], w, u]; (split; [exact Hk|]; split; [cbn; tauto|]; split; assumption).
Qed.

Lemma corners_unit L b k p q r : regular_sphere real_numbers L 1 = Ok b -> corners_of b k p q r -> inner p p = 1 /\ inner q q = 1 /\ inner r r = 1.
Proof.
  intros E (u & v & w & _ & Hp & Hq & Hr).
  destruct (sphere_tiling L) as (b0 & E0 & _ & _ & _ & _ & _ & TI). rewrite E in E0. injection E0 as <-.
  apply nth_error_In in Hp, Hq, Hr. split; [|split]; apply (ti_unit _ _ TI); assumption.
Qed.

Theorem near_sphere : forall L b k p q r s t o, regular_sphere real_numbers L 1 = Ok b -> corners_of b k p q r -> weights s t o ->
  4 ^ L / (4 ^ L + 2) <= inner (point_of p q r s t o) (point_of p q r s t o) <= 1.
Proof.
  intros L b k p q r s t o E H (Hs & Ht & Ho & S).
  destruct (corners_unit L b k p q r E H) as (Up & Uq & Ur). destruct (corners_edges b k p q r H) as (E1 & E2 & E3).
  rewrite point_norm by auto. pose proof (pow4_pos L) as P4.
  pose proof (longest_edge L b _ _ E E1) as A1. pose proof (longest_edge L b _ _ E E2) as A2. pose proof (longest_edge L b _ _ E E3) as A3.
  assert (C0 : forall x y, 0 <= chord2 x y) by (intros x y; exact (norm2_nonneg (vsub x y))).
  pose proof (C0 p q). pose proof (C0 q r). pose proof (C0 r p).
  assert (0 <= s * t) by (now apply Rmult_le_pos). assert (0 <= t * o) by (now apply Rmult_le_pos). assert (0 <= o * s) by (now apply Rmult_le_pos).
  assert (T : s * t + t * o + o * s <= 1 / 3).
  { replace o with (1 - s - t) by lra. pose proof (Rle_0_sqr (s - t)) as S1. pose proof (Rle_0_sqr (2 - 3 * s - 3 * t)) as S2. unfold Rsqr in *. nra. }
  replace (4 ^ L / (4 ^ L + 2)) with (1 - 1 / 3 * (6 / (4 ^ L + 2))) by (field; lra).
  set (M := 6 / (4 ^ L + 2)) in *. assert (0 <= M) by lra.
  assert (s * t * chord2 p q <= s * t * M) by (apply Rmult_le_compat_l; auto).
  assert (t * o * chord2 q r <= t * o * M) by (apply Rmult_le_compat_l; auto).
  assert (o * s * chord2 r p <= o * s * M) by (apply Rmult_le_compat_l; auto).
  assert (0 <= s * t * chord2 p q) by (now apply Rmult_le_pos). assert (0 <= t * o * chord2 q r) by (now apply Rmult_le_pos). assert (0 <= o * s * chord2 r p) by (now apply Rmult_le_pos).
  assert ((s * t + t * o + o * s) * M <= 1 / 3 * M) by (apply Rmult_le_compat_r; auto). lra.
Qed.

Theorem near_sphere_attained : forall L b, regular_sphere real_numbers L 1 = Ok b -> exists p q r,
  corners_of b (4 ^ L - 1) p q r /\
  inner (point_of p q r (1 / 3) (1 / 3) (1 / 3)) (point_of p q r (1 / 3) (1 / 3) (1 / 3)) = 4 ^ L / (4 ^ L + 2).
Proof.
  intros L b E. destruct (middle_equilateral L b E) as (p & q & r & H & H1 & H2 & H3). exists p, q, r. split; auto.
  destruct (corners_unit L b _ p q r E H) as (Up & Uq & Ur). pose proof (pow4_pos L).
  rewrite point_norm, H1, H2, H3 by (auto; lra). field. lra.
Qed.

(** ** Angles *)

Lemma angle_bound A B C lo : 0 < lo -> lo <= A <= 24 / 7 * lo -> lo <= B <= 24 / 7 * lo -> lo <= C <= 24 / 7 * lo ->
  7 * ((B + C - A) * (B + C - A)) <= 24 * (B * C).
Proof.
  intros L HA HB HC. destruct (Rle_lt_dec 0 (B + C - A)) as [P|P].
  - assert (S : (B + C - A) * (B + C - A) <= (B + C - lo) * (B + C - lo)) by nra.
    enough (7 * ((B + C - lo) * (B + C - lo)) <= 24 * (B * C)) by lra.
    assert (X : 0 <= (B - lo) * (24 / 7 * lo - C)) by nra. assert (Y : 0 <= (C - lo) * (24 / 7 * lo - B)) by nra.
    assert (Z : 0 <= (B - lo) * (24 / 7 * lo - B)) by nra. assert (Z' : 0 <= (C - lo) * (24 / 7 * lo - C)) by nra.
    assert (V : 0 <= (B - lo) * (C - lo)) by nra. assert (V' : 0 <= (24 / 7 * lo - B) * (24 / 7 * lo - C)) by nra.
    nra.
  - assert (S : (B + C - A) * (B + C - A) <= (10 / 7 * lo) * (10 / 7 * lo)) by nra.
    assert (lo * lo <= B * C) by nra. nra.
Qed.

Theorem ratio_bound : forall L b p q p' q', regular_sphere real_numbers L 1 = Ok b -> edge_ends b p q -> edge_ends b p' q' ->
  7 * chord2 p q <= 24 * chord2 p' q'.
Proof.
  intros L b p q p' q' E H H'. pose proof (longest_edge L b p q E H) as A. pose proof (shortest_edge L b p' q' E H') as B.
  pose proof (pow4_pos L) as P4.
  assert (6 / (4 ^ L + 2) <= 6 / 4 ^ L) by (apply Rmult_le_compat_l; [lra | apply Rinv_le_contravar; lra]).
  replace (7 / 4 / 4 ^ L) with (7 / 24 * (6 / 4 ^ L)) in B by (field; lra). lra.
Qed.

Lemma angle_between : forall L b p q r, regular_sphere real_numbers L 1 = Ok b -> edge_ends b p q -> edge_ends b q r -> edge_ends b r p ->
  7 * (inner (vsub q p) (vsub r p) * inner (vsub q p) (vsub r p)) <= 6 * (chord2 q p * chord2 r p).
Proof.
  intros L b p q r E E1 E2 E3.
  assert (G : inner (vsub q p) (vsub r p) = (chord2 p q + chord2 r p - chord2 q r) / 2).
  { clear. unfold chord2. destruct p as [[? ?] ?], q as [[? ?] ?], r as [[? ?] ?]. cbn. field. }
  assert (Sy : chord2 q p = chord2 p q) by (clear; unfold chord2; destruct p as [[? ?] ?], q as [[? ?] ?]; cbn; ring).
  rewrite G, Sy. pose proof (pow4_pos L) as P4.
  assert (S : forall x y, edge_ends b x y -> 7 / 4 / 4 ^ L <= chord2 x y <= 24 / 7 * (7 / 4 / 4 ^ L)).
  { intros x y Hxy. split; [now apply (shortest_edge L b)|]. pose proof (longest_edge L b x y E Hxy) as A.
    assert (6 / (4 ^ L + 2) <= 6 / 4 ^ L) by (apply Rmult_le_compat_l; [lra | apply Rinv_le_contravar; lra]).
    replace (24 / 7 * (7 / 4 / 4 ^ L)) with (6 / 4 ^ L) by (field; lra). lra. }
  assert (P : 0 < 7 / 4 / 4 ^ L) by (apply Rmult_lt_0_compat; [lra | apply Rinv_0_lt_compat; lra]).
  pose proof (angle_bound (chord2 q r) (chord2 p q) (chord2 r p) _ P (S _ _ E2) (S _ _ E1) (S _ _ E3)). nra.
Qed.

Theorem angles : forall L b k p q r, regular_sphere real_numbers L 1 = Ok b -> corners_of b k p q r ->
  cosine2_at_most (6 / 7) (vsub q p) (vsub r p) /\ cosine2_at_most (6 / 7) (vsub r q) (vsub p q) /\ cosine2_at_most (6 / 7) (vsub p r) (vsub q r).
Proof.
  intros L b k p q r E H. destruct (corners_edges b k p q r H) as (E1 & E2 & E3). unfold cosine2_at_most.
  pose proof (angle_between L b p q r E E1 E2 E3). pose proof (angle_between L b q r p E E2 E3 E1). pose proof (angle_between L b r p q E E3 E1 E2).
  unfold chord2 in *. split; [|split]; lra.
Qed.

(** ** Examples *)

Lemma some_cell : forall L, exists b p q r, regular_sphere real_numbers L 1 = Ok b /\ corners_of b (4 ^ L - 1) p q r /\ edge_ends b p q.
Proof.
  intros L. destruct (sphere_exists real_numbers L) as (b & E). destruct (middle_equilateral L b E) as (p & q & r & H & _).
  exists b, p, q, r. split; [exact E|]. split; [exact H|]. exact (proj1 (corners_edges b _ p q r H)).
Qed.

Lemma cosine_bound_separates : cosine2_at_most (6 / 7) (1, 0, 0) (1, 1, 0) /\ ~ cosine2_at_most (6 / 7) (3, 1, 0) (1, 0, 0).
Proof. unfold cosine2_at_most, inner. split; lra. Qed.
