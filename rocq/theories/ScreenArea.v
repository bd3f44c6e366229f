(** * The area of the screens *)
From Coq Require Import Reals Lra.
From Verif Require Import Base BaseFacts Topology Shapes SpecShapes SpecSphere SpecScreen ScreenFacts ScreenGeometry ShapesResults SpecVolume VolumeResults.

Local Open Scope R_scope.

Lemma total_constant {A : Type} (f : A -> R) k l : (forall a, In a l -> f a = k) -> total f l = INR (length l) * k.
Proof.
  induction l as [|a l IH]; intros H; [cbn; lra|]. rewrite total_cons, IH by (intros; apply H; now right). rewrite H by now left.
  cbn [length]. rewrite S_INR. lra.
Qed.

Lemma square_root_square m : 0 <= m -> sqrt (inner (0, 0, m) (0, 0, m)) = m.
Proof. intros H. unfold inner. replace (0 * 0 + 0 * 0 + m * m) with (m * m) by ring. now apply sqrt_square. Qed.

Lemma triangles_area : forall n b, screen_triangles n = Ok b ->
  total (cell_area (position (screen_positions n b))) (cells_of b) = (INR n / INR (n + 1)) * (INR n / INR (n + 1)).
Proof.
  intros n b E. assert (Hn : (0 < n)%nat) by (destruct n; [discriminate|lia]).
  destruct (screen_triangles_spec n ltac:(lia)) as (b' & E' & P & C & Lc). rewrite E in E'. injection E' as <-.
  assert (Pts : screen_positions n b = map (screen_position n) (square_points (n + 1))) by (unfold screen_positions, points_of; rewrite P; now rewrite map_snd_enumerate).
  assert (Cs : cells_of b = triangle_cells n) by (unfold cells_of; rewrite C; apply map_snd_enumerate). rewrite Pts, Cs.
  assert (N : 0 < INR (n + 1)) by (apply lt_0_INR; lia).
  rewrite (total_constant _ (/ INR (n + 1) * / INR (n + 1) / 2)).
  - rewrite Lc, !mult_INR. cbn [INR]. field. lra.
  - intros c Hc. unfold cell_area. destruct (In_triangle_cells n c) as (H & _). destruct (H Hc) as (x & y & _ & _ & [-> | ->]).
    + cbn [cell_normal lower]. erewrite (triangle_normal n); [|exact Hc|reflexivity]. rewrite square_root_square; auto. apply Rlt_le, Rmult_lt_0_compat; now apply Rinv_0_lt_compat.
    + cbn [cell_normal upper]. erewrite (triangle_normal n); [|exact Hc|reflexivity]. rewrite square_root_square; auto. apply Rlt_le, Rmult_lt_0_compat; now apply Rinv_0_lt_compat.
Qed.

(** The two triangles into which the diagonal cuts a quadrilateral. *)
Lemma quads_area : forall n b, screen_quadrilaterals n = Ok b ->
  total (fun c => match c with [i; j; k; l] => cell_area (position (screen_positions n b)) [i; j; k] + cell_area (position (screen_positions n b)) [j; l; k] | _ => 0 end) (cells_of b)
  = (INR n / INR (n + 1)) * (INR n / INR (n + 1)).
Proof.
  intros n b E. assert (Hn : (0 < n)%nat) by (destruct n; [discriminate|lia]).
  destruct (screen_quadrilaterals_spec n ltac:(lia)) as (b' & E' & P & C & Lc). rewrite E in E'. injection E' as <-.
  assert (Pts : screen_positions n b = map (screen_position n) (square_points (n + 1))) by (unfold screen_positions, points_of; rewrite P; now rewrite map_snd_enumerate).
  assert (Cs : cells_of b = quad_cells n) by (unfold cells_of; rewrite C; apply map_snd_enumerate). rewrite Pts, Cs.
  assert (N : 0 < INR (n + 1)) by (apply lt_0_INR; lia).
  assert (M : 0 <= / INR (n + 1) * / INR (n + 1)) by (apply Rlt_le, Rmult_lt_0_compat; now apply Rinv_0_lt_compat).
  rewrite (total_constant _ (/ INR (n + 1) * / INR (n + 1))).
  - rewrite Lc, !mult_INR. field. lra.
  - intros c Hc. destruct (In_quad_cells n c) as (H & _). destruct (H Hc) as (x & y & _ & _ & ->). unfold quad.
    destruct (quad_square n _ _ _ _ _ Hc eq_refl) as (Q1 & Q2 & Q3).
    match goal with |- cell_area ?p [?i; ?j; ?k] + cell_area _ [_; ?l; _] = _ =>
      unfold cell_area; cbn [cell_normal]; generalize dependent (p i); intros A; generalize (p j); intros B; generalize (p k); intros D; generalize (p l); intros F end.
    intros Q1 Q2 Q3. destruct A as ((a1, a2), a3), B as ((b1, b2), b3), D as ((d1, d2), d3), F as ((f1, f2), f3). unfold vsub in *. cbn in Q1, Q2, Q3.
    injection Q1 as X1 X2 X3. injection Q2 as Y1 Y2 Y3. injection Q3 as Z1 Z2 Z3.
    set (m := / INR (n + 1)) in *.
    assert (E1 : normal (a1, a2, a3) (b1, b2, b3) (d1, d2, d3) = (0, 0, m * m)).
    { unfold normal, cross, vsub. cbn. replace b1 with (a1 + m) by lra. replace b2 with a2 by lra. replace b3 with a3 by lra. replace d1 with a1 by lra. replace d2 with (a2 + m) by lra. replace d3 with a3 by lra.
      f_equal; [f_equal|]; ring. }
    assert (E2 : normal (b1, b2, b3) (f1, f2, f3) (d1, d2, d3) = (0, 0, m * m)).
    { unfold normal, cross, vsub. cbn. replace b1 with (a1 + m) by lra. replace b2 with a2 by lra. replace b3 with a3 by lra. replace d1 with a1 by lra. replace d2 with (a2 + m) by lra. replace d3 with a3 by lra.
      replace f1 with (a1 + m) by lra. replace f2 with (a2 + m) by lra. replace f3 with a3 by lra. f_equal; [f_equal|]; ring. }
    rewrite E1, E2, !square_root_square by auto. lra.
Qed.
