(** * Lengths of the edges of the sphere *)
From Coq Require Import Reals Lra Psatz.
From Verif Require Import Base BaseFacts Topology TopologyFacts Shapes SpecShapes SphereFacts SphereSurface SphereResults SpecSphere SphereGeometry SphereTiling NestedResults.

Local Open Scope R_scope.

(** ** Two unit vectors and the midpoints of arcs *)

(** The midpoint [e] of the cosine: [e * e = (1 + x) / 2]. *)
Lemma half_arc_upper x e hi : 0 <= e -> e * e = (1 + x) / 2 -> 1 - x <= hi -> hi <= 1 -> 0 <= hi -> 1 - e <= hi / (4 - 2 * hi).
Proof.
  intros E0 E H1 H2 H3. set (f := hi / (4 - 2 * hi)).
  assert (F : f * (4 - 2 * hi) = hi) by (unfold f; field; lra).
  assert (F0 : 0 <= f) by (unfold f; apply Rmult_le_pos; [lra | left; apply Rinv_0_lt_compat; lra]).
  assert (F1 : f <= 1 / 2) by nra.
  destruct (Rle_lt_dec (1 - e) f) as [?|L]; [assumption|exfalso].
  assert (G : e * e < (1 - f) * (1 - f)) by nra.
  assert (X : hi = 4 * f / (1 + 2 * f)) by (apply (Rmult_eq_reg_r (1 + 2 * f)); [field_simplify; [nra | lra] | lra]).
  assert (K : (1 - f) * (1 - f) <= 1 - hi / 2).
  { apply (Rmult_le_reg_r (1 + 2 * f)); [lra|]. replace ((1 - hi / 2) * (1 + 2 * f)) with (1 + 2 * f - hi / 2 * (1 + 2 * f)) by ring.
    replace (hi / 2 * (1 + 2 * f)) with (2 * f) by (rewrite X; field; lra). nra. }
  lra.
Qed.

Lemma half_arc_lower x e : 0 <= e -> e * e = (1 + x) / 2 -> 0 <= 1 - x -> 1 - x <= 1 -> (1 - x) / 4 <= 1 - e.
Proof. intros E0 E H1 H2. nra. Qed.

(** [g] is one over twice the geometric mean of [X] and [Y]. *)
Lemma mean_lower X Y g : 0 < X -> 0 < Y -> 0 < g -> 4 * (g * g) * (X * Y) = 1 -> 1 <= g * (X + Y).
Proof.
  intros HX HY G E. destruct (Rle_lt_dec 1 (g * (X + Y))) as [?|L]; [assumption|exfalso].
  assert (0 < g * (X + Y)) by (apply Rmult_lt_0_compat; lra).
  assert ((g * (X + Y)) * (g * (X + Y)) < 1) by nra.
  assert (0 <= (g * (X - Y)) * (g * (X - Y))) by apply Rle_0_sqr. nra.
Qed.

Lemma across_upper x y z g hi : 0 < g -> 4 * (g * g) * ((1 + x) * (1 + y)) = 1 ->
  1 - x <= hi -> 1 - y <= hi -> 1 - z <= hi -> hi <= 1 -> 0 <= hi -> 0 <= 1 - z ->
  1 - g * (1 + x + y + z) <= hi / (4 - 2 * hi).
Proof.
  intros G E Hx Hy Hz H1 H0 Pz. pose proof (mean_lower (1 + x) (1 + y) g ltac:(lra) ltac:(lra) G E) as M.
  set (f := hi / (4 - 2 * hi)).
  assert (F : f * (4 - 2 * hi) = hi) by (unfold f; field; lra).
  assert (F0 : 0 <= f) by (unfold f; apply Rmult_le_pos; [lra | left; apply Rinv_0_lt_compat; lra]).
  assert (F1 : f <= 1 / 2) by nra.
  assert (K : (1 - f) * (1 + x + (1 + y)) <= 1 + x + y + z) by nra.
  assert (0 <= 1 - f) by lra.
  assert ((1 - f) * 1 <= (1 - f) * (g * (1 + x + (1 + y)))) by (apply Rmult_le_compat_l; lra).
  assert (g * ((1 - f) * (1 + x + (1 + y))) <= g * (1 + x + y + z)) by (apply Rmult_le_compat_l; lra). lra.
Qed.

Lemma across_lower x y z g lo hi : 0 < g -> 4 * (g * g) * ((1 + x) * (1 + y)) = 1 ->
  lo <= 1 - x <= hi -> lo <= 1 - y <= hi -> lo <= 1 - z -> hi <= 1 -> 0 <= lo ->
  lo / 4 - (hi - lo) * (hi - lo) / (8 * ((2 - hi) * (2 - hi))) <= 1 - g * (1 + x + y + z).
Proof.
  intros G E Hx Hy Hz H1 H0.
  set (X := 1 + x) in *. set (Y := 1 + y) in *.
  assert (HX : 2 - hi <= X <= 2) by (unfold X; lra). assert (HY : 2 - hi <= Y <= 2) by (unfold Y; lra).
  assert (M : 1 <= g * (X + Y)) by (apply mean_lower; auto; lra).
  assert (G4 : 1 / 4 <= g) by nra.
  assert (S : (g * (X + Y)) * (g * (X + Y)) - 1 = (g * g) * ((X - Y) * (X - Y))).
  { replace 1 with (4 * (g * g) * (X * Y)) at 1. ring. }
  assert (S2 : g * (X + Y) - 1 <= (g * g) * ((X - Y) * (X - Y)) / 2) by nra.
  assert (Q : (X - Y) * (X - Y) <= (hi - lo) * (hi - lo)).
  { assert (A : - (hi - lo) <= X - Y <= hi - lo) by (unfold X, Y; lra). nra. }
  assert (W : (2 - hi) * (2 - hi) <= X * Y) by nra.
  assert (W0 : 0 < (2 - hi) * (2 - hi)) by nra.
  assert (GG : g * g <= / (4 * ((2 - hi) * (2 - hi)))).
  { apply (Rmult_le_reg_r (4 * ((2 - hi) * (2 - hi)))); [lra|]. rewrite Rinv_l by lra.
    assert (0 <= g * g) by nra. nra. }
  replace ((hi - lo) * (hi - lo) / (8 * ((2 - hi) * (2 - hi)))) with (/ (4 * ((2 - hi) * (2 - hi))) * ((hi - lo) * (hi - lo)) / 2) by (field; lra).
  replace (1 - g * (X + y + z)) with (1 - g * (X + Y) + g * (1 - z)) by (unfold Y; ring).
  assert (lo / 4 <= g * (1 - z)) by nra.
  assert ((g * g) * ((X - Y) * (X - Y)) <= / (4 * ((2 - hi) * (2 - hi))) * ((hi - lo) * (hi - lo))).
  { apply Rmult_le_compat; auto; nra. }
  lra.
Qed.

(** ** One refinement *)

(** The cosine of every edge, from below and above, as a distance from 1. *)
Definition spread (lo hi : R) (pts : list vec) (cells : list (list nat)) : Prop :=
  forall c u v w, In c cells -> rot c u v w -> lo <= 1 - inner (position pts u) (position pts v) <= hi.

Lemma inner_sym p q : inner p q = inner q p.
Proof. destruct p as [[? ?] ?], q as [[? ?] ?]. cbn. ring. Qed.

Lemma inner_mid p q s : inner p (vscale s (vadd p q)) = s * (inner p p + inner p q).
Proof. destruct p as [[? ?] ?], q as [[? ?] ?]. cbn. ring. Qed.

Lemma inner_mids p q r s t : inner (vscale s (vadd p q)) (vscale t (vadd p r)) = s * t * (inner p p + inner p q + inner p r + inner q r).
Proof. destruct p as [[? ?] ?], q as [[? ?] ?], r as [[? ?] ?]. cbn. ring. Qed.

Lemma mid_norm p q s : norm2 (vscale s (vadd p q)) = s * s * (norm2 p + norm2 q + 2 * inner p q).
Proof. destruct p as [[? ?] ?], q as [[? ?] ?]. unfold norm2. cbn. ring. Qed.

Section Refine.
Variables (pts np : list vec) (cells : list (list nat)).
Hypothesis SU : surface (length pts) cells.
Hypothesis TI : tiling pts cells.
Hypothesis MF : Forall2 (made_for real_numbers pts) (grid_edges Triangle cells) np.
Local Notation m := (mid (length pts) (grid_edges Triangle cells)).
Local Notation pos := (position pts).
Local Notation pos' := (position (pts ++ np)).

Lemma pos_unit c u v w : In c cells -> rot c u v w -> norm2 (pos u) = 1.
Proof.
  intros Hc R. destruct (rot_facts _ _ SU _ _ _ _ Hc R) as ((B & _) & _).
  apply (ti_unit _ _ TI). unfold position. now apply nth_In.
Qed.

Variables lo hi : R.
Hypothesis SP : spread lo hi pts cells.
Hypothesis L0 : 0 <= lo.
Hypothesis H1 : hi <= 1.

Definition new_lo : R := lo / 4 - (hi - lo) * (hi - lo) / (8 * ((2 - hi) * (2 - hi))).
Definition new_hi : R := hi / (4 - 2 * hi).

(** The edges from a vertex to the middle of an edge, and between two middles. *)
Lemma new_edges c u v w : In c cells -> rot c u v w ->
  new_lo <= 1 - inner (pos' u) (pos' (m u v)) <= new_hi /\
  new_lo <= 1 - inner (pos' u) (pos' (m u w)) <= new_hi /\
  new_lo <= 1 - inner (pos' (m u v)) (pos' (m u w)) <= new_hi.
Proof.
  intros Hc R. pose proof (rot_turn _ _ _ _ R) as R1. pose proof (rot_turn _ _ _ _ R1) as R2.
  destruct (cell_facts pts np cells SU TI MF c u v w Hc R) as (B & N & (P1 & P2 & P3) & (E1 & E2 & E3) & _ & _ & D).
  pose proof (pos_unit _ _ _ _ Hc R) as Uu. pose proof (pos_unit _ _ _ _ Hc R1) as Uv. pose proof (pos_unit _ _ _ _ Hc R2) as Uw.
  pose proof (SP _ _ _ _ Hc R) as Su. pose proof (SP _ _ _ _ Hc R1) as Sv. pose proof (SP _ _ _ _ Hc R2) as Sw.
  rewrite (inner_sym (pos w)) in Sw.
  rewrite E1, E3, (old_position pts np u) by tauto.
  destruct (edge_facts pts np cells SU TI MF c u v w Hc R) as (_ & _ & _ & _ & Q1).
  destruct (edge_facts pts np cells SU TI MF c w u v Hc R2) as (_ & _ & _ & _ & Q3).
  rewrite (mid_swap (length pts) cells w u), E3, mid_norm, Uu, Uw in Q3. rewrite E1, mid_norm, Uu, Uv in Q1.
  set (s := factor (pos u) (pos v)) in *. set (t := factor (pos u) (pos w)) in *.
  rewrite !inner_mid, inner_mids. fold (norm2 (pos u)). rewrite Uu.
  set (x := inner (pos u) (pos v)) in *. set (y := inner (pos u) (pos w)) in *. set (z := inner (pos v) (pos w)) in *.
  assert (Hlh : 0 <= hi) by lra.
  assert (V : forall a d, 0 < a -> lo <= 1 - d <= hi -> a * a * (1 + 1 + 2 * d) = 1 -> new_lo <= 1 - a * (1 + d) <= new_hi).
  { intros a d Ha Hd Ea.
    assert (Sq : (a * (1 + d)) * (a * (1 + d)) = (1 + d) / 2) by (apply (Rmult_eq_reg_r 2); [|lra]; replace (a * (1 + d) * (a * (1 + d)) * 2) with ((a * a * (1 + 1 + 2 * d)) * (1 + d)) by ring; rewrite Ea; field).
    assert (Pos : 0 <= a * (1 + d)) by (apply Rmult_le_pos; lra).
    split.
    - pose proof (half_arc_lower d _ Pos Sq ltac:(lra) ltac:(lra)) as H. unfold new_lo.
      assert (0 <= (hi - lo) * (hi - lo) / (8 * ((2 - hi) * (2 - hi)))).
      { apply Rmult_le_pos; [nra|]. left. apply Rinv_0_lt_compat. nra. }
      lra.
    - apply (half_arc_upper d); auto; lra. }
  split; [apply V; auto|]. split; [apply V; auto|].
  assert (Ph : 4 * ((s * t) * (s * t)) * ((1 + x) * (1 + y)) = 1).
  { replace (4 * (s * t * (s * t)) * ((1 + x) * (1 + y))) with ((s * s * (1 + 1 + 2 * x)) * (t * t * (1 + 1 + 2 * y))) by ring. rewrite Q1, Q3. ring. }
  assert (0 < s * t) by (apply Rmult_lt_0_compat; auto).
  split; [apply across_lower; auto; lra | apply across_upper; auto; lra].
Qed.

Lemma step_spread : spread new_lo new_hi (pts ++ np) (flat_map (children m) cells).
Proof.
  intros ch x y z Hch R. apply in_flat_map in Hch. destruct Hch as (c & Hc & Hch). apply (child_cases _ _ SU) in Hch; auto.
  destruct Hch as [(u & v & w & Rc & ->)|(a & b & d & -> & ->)].
  - destruct (new_edges c u v w Hc Rc) as (A1 & A2 & A3).
    destruct R as [E|[E|E]]; injection E as <- <- <-; auto. now rewrite inner_sym.
  - assert (Rc : rot [a; b; d] a b d) by (unfold rot; auto). pose proof (rot_turn _ _ _ _ Rc) as R1. pose proof (rot_turn _ _ _ _ R1) as R2.
    destruct (new_edges _ a b d Hc Rc) as (_ & _ & A1). destruct (new_edges _ b d a Hc R1) as (_ & _ & A2). destruct (new_edges _ d a b Hc R2) as (_ & _ & A3).
    rewrite (mid_swap (length pts) cells a d) in A1. rewrite (mid_swap (length pts) cells b a) in A2. rewrite (mid_swap (length pts) cells d b) in A3.
    destruct R as [E|[E|E]]; injection E as <- <- <-; auto; now rewrite inner_sym.
Qed.

(** An equilateral cell has an equilateral cell in its middle. *)
Lemma center_equilateral a b d : In [a; b; d] cells -> (forall u v w, rot [a; b; d] u v w -> 1 - inner (pos u) (pos v) = hi) ->
  forall x y z, rot [m b d; m d a; m a b] x y z -> 1 - inner (pos' x) (pos' y) = new_hi.
Proof.
  intros Hc EQ.
  assert (G : forall u v w, rot [a; b; d] u v w -> 1 - inner (pos' (m u v)) (pos' (m u w)) = new_hi).
  { intros u v w R. pose proof (rot_turn _ _ _ _ R) as R1. pose proof (rot_turn _ _ _ _ R1) as R2.
    destruct (cell_facts pts np cells SU TI MF _ u v w Hc R) as (B & N & (P1 & P2 & P3) & (E1 & E2 & E3) & _ & _ & D).
    pose proof (pos_unit _ _ _ _ Hc R) as Uu. pose proof (pos_unit _ _ _ _ Hc R1) as Uv. pose proof (pos_unit _ _ _ _ Hc R2) as Uw.
    pose proof (EQ _ _ _ R) as Su. pose proof (EQ _ _ _ R1) as Sv. pose proof (EQ _ _ _ R2) as Sw. rewrite (inner_sym (pos w)) in Sw.
    destruct (edge_facts pts np cells SU TI MF _ u v w Hc R) as (_ & _ & _ & _ & Q1).
    rewrite E1, E3, inner_mids. fold (norm2 (pos u)). rewrite E1, mid_norm in Q1. rewrite Uu, Uv in Q1. rewrite Uu.
    assert (F : factor (pos u) (pos v) = factor (pos u) (pos w)).
    { unfold factor. do 2 f_equal. replace (norm2 (vadd (pos u) (pos v))) with (norm2 (pos u) + norm2 (pos v) + 2 * inner (pos u) (pos v)) by (clear; destruct (pos u) as [[? ?] ?], (pos v) as [[? ?] ?]; unfold norm2; cbn; ring).
      replace (norm2 (vadd (pos u) (pos w))) with (norm2 (pos u) + norm2 (pos w) + 2 * inner (pos u) (pos w)) by (clear; destruct (pos u) as [[? ?] ?], (pos w) as [[? ?] ?]; unfold norm2; cbn; ring). lra. }
    rewrite <- F. set (s := factor (pos u) (pos v)) in *.
    assert (X : inner (pos u) (pos v) = 1 - hi) by lra. assert (Y : inner (pos u) (pos w) = 1 - hi) by lra. assert (Z : inner (pos v) (pos w) = 1 - hi) by lra.
    rewrite X, Y, Z. rewrite X in Q1. unfold new_hi.
    assert (Ss : s * s = / (4 - 2 * hi)) by (apply (Rmult_eq_reg_r (4 - 2 * hi)); [rewrite Rinv_l by lra; lra | lra]).
    rewrite Ss. field. lra. }
  assert (Rc : rot [a; b; d] a b d) by (unfold rot; auto). pose proof (rot_turn _ _ _ _ Rc) as R1. pose proof (rot_turn _ _ _ _ R1) as R2.
  pose proof (G _ _ _ Rc) as A1. pose proof (G _ _ _ R1) as A2. pose proof (G _ _ _ R2) as A3.
  rewrite (mid_swap (length pts) cells a d) in A1. rewrite (mid_swap (length pts) cells b a) in A2. rewrite (mid_swap (length pts) cells d b) in A3.
  intros x y z R. destruct R as [E|[E|E]]; injection E as <- <- <-; auto; now rewrite inner_sym.
Qed.
End Refine.
