(** * Determinants of the cells of the sphere *)
From Coq Require Import Reals Lra Psatz.
From Verif Require Import Base BaseFacts Topology TopologyFacts Shapes SpecShapes SphereFacts SphereSurface SphereResults ShapesResults SpecSphere SphereGeometry SphereTiling
  NestedResults SphereWidth SpecWidth WidthResults.

Local Open Scope R_scope.

Section Step.
Variables (pts np : list vec) (cells : list (list nat)).
Hypothesis SU : surface (length pts) cells.
Hypothesis TI : tiling pts cells.
Hypothesis MF : Forall2 (made_for real_numbers pts) (grid_edges Triangle cells) np.
Local Notation m := (mid (length pts) (grid_edges Triangle cells)).
Local Notation pos := (position pts).
Local Notation pos' := (position (pts ++ np)).
Local Notation K u v := (factor (position pts u) (position pts v)).

(** The sum of two different unit vectors is shorter than 2. *)
Lemma factor_lower c u v w : In c cells -> rot c u v w -> 1 / 2 < K u v.
Proof.
  intros Hc R. pose proof (pos_unit pts cells SU TI c u v w Hc R) as Nu. pose proof (pos_unit pts cells SU TI c v w u Hc (rot_turn _ _ _ _ R)) as Nv.
  pose proof (ti_outward _ _ TI c u v w Hc R) as D. pose proof (sum_nonzero _ _ _ D) as P.
  unfold factor. assert (B : norm2 (vadd (pos u) (pos v)) < 4).
  { replace (norm2 (vadd (pos u) (pos v))) with (2 * norm2 (pos u) + 2 * norm2 (pos v) - norm2 (vsub (pos u) (pos v))) by (destruct (pos u) as [[? ?] ?], (pos v) as [[? ?] ?]; unfold norm2; cbn; ring).
    assert (0 < norm2 (vsub (pos u) (pos v))); [|lra].
    destruct (norm2_nonneg (vsub (pos u) (pos v))) as [H|H]; auto. exfalso. symmetry in H. apply norm2_zero in H.
    revert D. destruct (pos u) as [[a b] d], (pos v) as [[x y] z], (pos w) as [[e f] g]. cbn in H. inversion H as [[H1 H2 H3]]. unfold det. cbn.
    assert (a = x) by lra. assert (b = y) by lra. assert (d = z) by lra. subst. intros D. ring_simplify in D. lra. }
  assert (S2 : sqrt (norm2 (vadd (pos u) (pos v))) < 2). { replace 2 with (sqrt 4) by (replace 4 with (2 * 2) by ring; apply sqrt_square; lra). apply sqrt_lt_1_alt; lra. }
  assert (S0 : 0 < sqrt (norm2 (vadd (pos u) (pos v)))) by (now apply sqrt_lt_R0).
  replace (1 / 2) with (/ 2) by field. apply Rinv_lt_contravar; [now apply Rmult_lt_0_compat; lra | exact S2].
Qed.

Lemma corner_det c u v w : In c cells -> rot c u v w ->
  det (pos' u) (pos' (m u v)) (pos' (m u w)) = K u v * K u w * det (pos u) (pos v) (pos w).
Proof.
  intros Hc R. destruct (cell_facts pts np cells SU TI MF c u v w Hc R) as (B & _ & _ & (E1 & _ & E3) & _).
  rewrite E1, E3, old_position by tauto. apply det_corner.
Qed.

Lemma center_det c a b d : In c cells -> rot c a b d ->
  det (pos' (m b d)) (pos' (m d a)) (pos' (m a b)) = 2 * (K b d * K a d * K a b) * det (pos a) (pos b) (pos d).
Proof.
  intros Hc R. destruct (cell_facts pts np cells SU TI MF c a b d Hc R) as (B & _ & _ & (E1 & E2 & E3) & _).
  rewrite (mid_swap (length pts) cells d a), E1, E2, E3. apply det_center.
Qed.

(** The determinant of a child is more than a quarter of that of the cell. *)
Lemma child_det lo ch x y z : (forall c u v w, In c cells -> rot c u v w -> lo <= det (pos u) (pos v) (pos w)) -> 0 <= lo ->
  In ch (flat_map (children m) cells) -> rot ch x y z -> lo / 4 <= det (pos' x) (pos' y) (pos' z).
Proof.
  intros H Hlo Hch Rc. apply in_flat_map in Hch. destruct Hch as (c & Hc & Hch). apply (child_cases _ _ SU) in Hch; auto.
  assert (G : forall a b d, rot ch a b d -> lo / 4 <= det (pos' a) (pos' b) (pos' d) -> lo / 4 <= det (pos' x) (pos' y) (pos' z)).
  { intros a b d Rd H0. destruct (rot_same ch a b d x y z Rd Rc) as [E|[E|E]]; injection E as -> -> ->; auto;
      first [rewrite det_turn; exact H0|rewrite <- det_turn; exact H0|rewrite det_turn in H0; exact H0]. }
  destruct Hch as [(u & v & w & R & ->)|(a & b & d & -> & ->)].
  - apply (G u (m u v) (m u w)); [unfold rot; auto|]. rewrite (corner_det c u v w Hc R).
    pose proof (factor_lower c u v w Hc R) as F1. pose proof (factor_lower c w u v Hc (rot_turn _ _ _ _ (rot_turn _ _ _ _ R))) as F3. rewrite factor_sym in F3.
    pose proof (H c u v w Hc R) as D. assert (1 / 4 <= K u v * K u w) by nra. nra.
  - apply (G (m b d) (m d a) (m a b)); [unfold rot; auto|]. assert (R : rot [a; b; d] a b d) by (unfold rot; auto). rewrite (center_det _ a b d Hc R).
    pose proof (factor_lower _ a b d Hc R) as F1. pose proof (factor_lower _ b d a Hc (rot_turn _ _ _ _ R)) as F2.
    pose proof (factor_lower _ d a b Hc (rot_turn _ _ _ _ (rot_turn _ _ _ _ R))) as F3. rewrite factor_sym in F3.
    pose proof (H _ a b d Hc R) as D. assert (1 / 4 <= K b d * K a d) by nra. assert (1 / 8 <= K b d * K a d * K a b) by nra. nra.
Qed.
End Step.

Lemma sphere_det L b : regular_sphere real_numbers L 1 = Ok b -> forall c u v w, In c (cells_of b) -> rot c u v w ->
  / 4 ^ L <= det (position (points_of b) u) (position (points_of b) v) (position (points_of b) w).
Proof.
  revert b. induction L as [|L IH]; intros b E.
  - destruct (sphere_of_levels real_numbers 0 (octahedron_points real_numbers) octahedron_cells eq_refl octahedron_surface) as (b0 & E0 & P & C).
    rewrite E in E0. injection E0 as <-. rewrite P, C. destruct octa_pos as (P0 & P1 & P2 & P3 & P4 & P5). intros c u v w Hc R.
    rewrite pow_O, Rinv_1. each_cell Hc; destruct R as [E0|[E0|E0]]; injection E0 as <- <- <-; rewrite ?P0, ?P1, ?P2, ?P3, ?P4, ?P5; unfold det; cbn; lra.
  - destruct (sphere_tiling L) as (b0 & E0 & _ & _ & _ & _ & SU & TI).
    destruct (two_levels real_numbers L b0 b E0 E) as (np & P & _ & C & MF). rewrite P, C.
    intros c u v w Hc R. assert (0 < / 4 ^ L) by (apply Rinv_0_lt_compat; pose proof (pow4_pos L); lra).
    pose proof (child_det _ np _ SU TI MF (/ 4 ^ L) c u v w (IH b0 E0) ltac:(lra) Hc R) as D.
    replace (/ 4 ^ S L) with (/ 4 ^ L / 4); [exact D|]. cbn [pow]. field. pose proof (pow4_pos L). lra.
Qed.
