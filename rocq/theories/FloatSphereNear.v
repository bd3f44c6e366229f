(** * The sphere in floating point arithmetic: distance from the origin *)
From Coq Require Import Reals Lra Psatz.
From Verif Require Import Base BaseFacts Topology TopologyFacts Shapes SpecShapes SphereFacts SphereSurface SphereResults ShapesResults SpecSphere SphereGeometry SphereTiling
  NestedResults SphereWidth SpecWidth WidthResults SpecRounding RoundingResults RoundingModels SpecFloatSphere FloatSphere.

Local Open Scope R_scope.

Lemma unit_norm a : 0 < norm2 a -> norm2 (unit_of a) = 1.
Proof.
  intros H. unfold unit_of. replace (norm2 (vscale (/ sqrt (norm2 a)) a)) with (/ sqrt (norm2 a) * / sqrt (norm2 a) * norm2 a).
  - rewrite <- (sqrt_sqrt (norm2 a)) at 3 by lra. assert (sqrt (norm2 a) <> 0) by (apply Rgt_not_eq, sqrt_lt_R0, H). now field.
  - destruct a as [[x y] z]. unfold norm2. cbn. ring.
Qed.

Section Near.
Context (u : R) (Hu : 0 <= u < 1) (rnd : R -> R) (Hr : relative u rnd).
Local Notation G := (growth u 8).
Hypothesis HG : growth u 16 <= 6 / 5.

Lemma G_bounds : 1 <= G /\ G * G <= 6 / 5.
Proof. split; [now apply growth_ge|]. rewrite <- (growth_add u 8 8). exact HG. Qed.

Lemma perturbed_norm a b : norm2 a = 1 -> perturbed u a b -> / (G * G) <= norm2 b <= G * G.
Proof.
  intros N (t0 & t1 & t2 & H0 & H1 & H2 & E). destruct a as [[x y] z]. subst b. unfold norm2 in *. cbn [inner] in *.
  pose proof G_bounds as (G1 & G2).
  assert (Q : forall t, near u 8 t -> / (G * G) <= t * t <= G * G).
  { intros t Ht. pose proof (near_mul u Hu 8 8 _ _ Ht Ht) as (A & B). rewrite growth_add in A, B. lra. }
  apply Q in H0, H1, H2. set (l := / (G * G)) in *. set (h := G * G) in *.
  replace (x * t0 * (x * t0) + y * t1 * (y * t1) + z * t2 * (z * t2)) with (x * x * (t0 * t0) + y * y * (t1 * t1) + z * z * (t2 * t2)) by ring.
  assert (0 <= x * x) by nra. assert (0 <= y * y) by nra. assert (0 <= z * z) by nra.
  split.
  - replace l with (x * x * l + y * y * l + z * z * l) by (rewrite <- !Rmult_plus_distr_r, N; ring). nra.
  - replace h with (x * x * h + y * y * h + z * z * h) by (rewrite <- !Rmult_plus_distr_r, N; ring). nra.
Qed.

Lemma product_close x y t k : Rabs (t - 1) <= k -> x * y - k * Rabs (x * y) <= x * y * t.
Proof.
  intros H. replace (x * y * t) with (x * y + x * y * (t - 1)) by ring.
  pose proof (Rabs_mult (x * y) (t - 1)) as E. pose proof (Rabs_pos (x * y)) as P.
  pose proof (Rmult_le_compat_l _ _ _ P H) as M. rewrite <- E in M. pose proof (Rle_abs (- (x * y * (t - 1)))) as Q. rewrite Rabs_Ropp in Q. lra.
Qed.

Lemma mean_abs g x y : 0 < g -> Rabs (x * y) <= (x * x / g + y * y * g) / 2.
Proof.
  intros Hg. apply Rabs_le. assert (0 < / g) by now apply Rinv_0_lt_compat.
  assert (E : g * / g = 1) by (apply Rinv_r; lra).
  assert (A : 0 <= (x / g + y) * (x / g + y) * g) by (apply Rmult_le_pos; [apply Rle_0_sqr | lra]).
  assert (B : 0 <= (x / g - y) * (x / g - y) * g) by (apply Rmult_le_pos; [apply Rle_0_sqr | lra]).
  replace ((x / g + y) * (x / g + y) * g) with (x * x / g + 2 * (x * y) + y * y * g) in A by (field; lra).
  replace ((x / g - y) * (x / g - y) * g) with (x * x / g - 2 * (x * y) + y * y * g) in B by (field; lra). lra.
Qed.

Lemma perturbed_inner a b a' b' : norm2 a = 1 -> norm2 a' = 1 -> perturbed u a b -> perturbed u a' b' -> 0 <= inner a a' -> - (G * G - 1) <= inner b b'.
Proof.
  intros N N' (t0 & t1 & t2 & H0 & H1 & H2 & E) (s0 & s1 & s2 & K0 & K1 & K2 & E'). destruct a as [[x y] z], a' as [[x' y'] z']. subst b b'.
  unfold norm2 in *. cbn [inner] in *. intros P. pose proof G_bounds as (G1 & G2).
  pose proof (near_dist u Hu _ _ (near_mul u Hu 8 8 _ _ H0 K0)) as D0. pose proof (near_dist u Hu _ _ (near_mul u Hu 8 8 _ _ H1 K1)) as D1. pose proof (near_dist u Hu _ _ (near_mul u Hu 8 8 _ _ H2 K2)) as D2.
  rewrite growth_add in D0, D1, D2.
  pose proof (product_close x x' _ _ D0) as C0. pose proof (product_close y y' _ _ D1) as C1. pose proof (product_close z z' _ _ D2) as C2.
  pose proof (mean_abs 1 x x' ltac:(lra)) as M0. pose proof (mean_abs 1 y y' ltac:(lra)) as M1. pose proof (mean_abs 1 z z' ltac:(lra)) as M2.
  assert (M : Rabs (x * x') + Rabs (y * y') + Rabs (z * z') <= 1) by lra.
  set (k := G * G - 1) in *. assert (Pk : 0 <= k) by (unfold k; nra).
  replace (x * t0 * (x' * s0) + y * t1 * (y' * s1) + z * t2 * (z' * s2)) with (x * x' * (t0 * s0) + y * y' * (t1 * s1) + z * z' * (t2 * s2)) by ring.
  pose proof (Rmult_le_compat_l _ _ _ Pk M). lra.
Qed.

Lemma perturbed_inner_point p a b : norm2 p <= G * G -> norm2 a = 1 -> perturbed u a b -> 0 <= inner p a -> - (G * G - 1) <= inner p b.
Proof.
  intros N N' (s0 & s1 & s2 & K0 & K1 & K2 & E'). destruct p as [[x y] z], a as [[x' y'] z']. subst b.
  unfold norm2 in *. cbn [inner] in *. intros P. pose proof G_bounds as (G1 & G2).
  pose proof (near_dist u Hu _ _ K0) as D0. pose proof (near_dist u Hu _ _ K1) as D1. pose proof (near_dist u Hu _ _ K2) as D2.
  pose proof (product_close x x' _ _ D0) as C0. pose proof (product_close y y' _ _ D1) as C1. pose proof (product_close z z' _ _ D2) as C2.
  pose proof (mean_abs G x x' ltac:(lra)) as M0. pose proof (mean_abs G y y' ltac:(lra)) as M1. pose proof (mean_abs G z z' ltac:(lra)) as M2.
  assert (M : Rabs (x * x') + Rabs (y * y') + Rabs (z * z') <= G).
  { assert (X : (x * x + y * y + z * z) / G <= G).
    { apply Rmult_le_reg_r with G; [lra|]. unfold Rdiv. rewrite Rmult_assoc, Rinv_l by lra. lra. }
    assert (Y : (x' * x' + y' * y' + z' * z') * G = G) by (rewrite N'; ring).
    unfold Rdiv in *. lra. }
  replace (x * (x' * s0) + y * (y' * s1) + z * (z' * s2)) with (x * x' * s0 + y * y' * s1 + z * z' * s2) by ring.
  pose proof (Rmult_le_compat_l (G - 1) _ _ ltac:(lra) M). nra.
Qed.

(** ** The invariant *)

Record fair (pts : list vec) (cells : list (list nat)) : Prop := mkFair {
  fa_norm : forall p, In p pts -> / (G * G) <= norm2 p <= G * G;
  fa_inner : forall c x y z, In c cells -> rot c x y z -> - (G * G - 1) <= inner (position pts x) (position pts y)
}.

Section Step.
Variables (pts np : list vec) (cells : list (list nat)).
Hypothesis SU : surface (length pts) cells.
Hypothesis FA : fair pts cells.
Hypothesis MF : Forall2 (made_for (rounded rnd) pts) (grid_edges Triangle cells) np.
Local Notation m := (mid (length pts) (grid_edges Triangle cells)).
Local Notation pos := (position pts).
Local Notation pos' := (position (pts ++ np)).

Lemma low : 5 / 6 <= / (G * G).
Proof. pose proof G_bounds as (G1 & G2). replace (5 / 6) with (/ (6 / 5)) by field. apply Rinv_le_contravar; nra. Qed.

Lemma vertex_norm c x y z : In c cells -> rot c x y z -> / (G * G) <= norm2 (pos x) <= G * G.
Proof.
  intros Hc R. destruct (rot_facts _ _ SU _ _ _ _ Hc R) as ((B & _) & _). apply (fa_norm _ _ FA). unfold position. now apply nth_In.
Qed.

Lemma edge_perturbed c x y z : In c cells -> rot c x y z ->
  0 < norm2 (vadd (pos x) (pos y)) /\ perturbed u (unit_of (vadd (pos x) (pos y))) (pos' (m x y)).
Proof.
  intros Hc R. pose proof (vertex_norm _ _ _ _ Hc R) as Nx. pose proof (vertex_norm _ _ _ _ Hc (rot_turn _ _ _ _ R)) as Ny.
  pose proof (fa_inner _ _ FA _ _ _ _ Hc R) as I. pose proof G_bounds as (G1 & G2). pose proof low as LO.
  assert (P : 0 < norm2 (vadd (pos x) (pos y))).
  { replace (norm2 (vadd (pos x) (pos y))) with (norm2 (pos x) + norm2 (pos y) + 2 * inner (pos x) (pos y)) by (destruct (pos x) as [[? ?] ?], (pos y) as [[? ?] ?]; unfold norm2; cbn; ring). lra. }
  split; [exact P|].
  pose proof (keys_edge _ _ SU _ _ _ _ Hc R) as Hk. pose proof (index_of_nth _ _ Hk) as Hi.
  destruct (@Forall2_at (nat * nat) vec _ _ _ MF _ _ Hi) as (p & Hp & (i & j & vi & vj & Ek & Hvi & Hvj & ->)).
  unfold position at 3, mid. rewrite app_nth2 by lia.
  replace (length pts + index_of (norm_pair (x, y)) (grid_edges Triangle cells) - length pts)%nat with (index_of (norm_pair (x, y)) (grid_edges Triangle cells)) by lia.
  assert (Ep : nth (index_of (norm_pair (x, y)) (grid_edges Triangle cells)) np origin = edge_midpoint (rounded rnd) vi vj) by (apply nth_error_nth_Some; exact Hp).
  rewrite Ep. assert (Evi : pos i = vi) by (apply nth_error_nth_Some; exact Hvi). assert (Evj : pos j = vj) by (apply nth_error_nth_Some; exact Hvj).
  rewrite <- Evi, <- Evj.
  apply norm_pair_eq in Ek. destruct Ek as [(-> & ->)|(-> & ->)].
  - now apply rounded_midpoint.
  - rewrite rounded_midpoint_sym. now apply rounded_midpoint.
Qed.

Lemma fair_edges c x y z : In c cells -> rot c x y z ->
  - (G * G - 1) <= inner (pos' x) (pos' (m x y)) /\ - (G * G - 1) <= inner (pos' x) (pos' (m x z)) /\ - (G * G - 1) <= inner (pos' (m x y)) (pos' (m x z)).
Proof.
  intros Hc R. pose proof (rot_turn _ _ _ _ R) as R1. pose proof (rot_turn _ _ _ _ R1) as R2.
  destruct (edge_perturbed _ _ _ _ Hc R) as (P1 & E1). destruct (edge_perturbed _ _ _ _ Hc R2) as (P2 & E2).
  rewrite (mid_swap (length pts) cells z x) in E2.
  assert (Sw : vadd (pos z) (pos x) = vadd (pos x) (pos z)) by (clear; destruct (pos x) as [[? ?] ?], (pos z) as [[? ?] ?]; cbn; f_equal; [f_equal|]; ring).
  rewrite Sw in P2, E2.
  destruct (rot_facts _ _ SU _ _ _ _ Hc R) as ((B & _) & _). rewrite (old_position pts np x B).
  pose proof (vertex_norm _ _ _ _ Hc R) as Nx. pose proof G_bounds as (G1 & G2). pose proof low as LO.
  pose proof (fa_inner _ _ FA _ _ _ _ Hc R) as I1. pose proof (fa_inner _ _ FA _ _ _ _ Hc R1) as I2. pose proof (fa_inner _ _ FA _ _ _ _ Hc R2) as I3.
  rewrite (inner_sym (pos z)) in I3.
  assert (F : forall w, 0 < norm2 (vadd (pos x) (pos w)) -> 0 < / sqrt (norm2 (vadd (pos x) (pos w)))) by (intros w Hw; now apply Rinv_0_lt_compat, sqrt_lt_R0).
  assert (V : forall w, 0 < norm2 (vadd (pos x) (pos w)) -> - (G * G - 1) <= inner (pos x) (pos w) -> 0 <= inner (pos x) (unit_of (vadd (pos x) (pos w)))).
  { intros w Hw Hi. unfold unit_of. rewrite inner_mid. apply Rmult_le_pos; [left; now apply F|]. fold (norm2 (pos x)). lra. }
  split; [|split].
  - exact (perturbed_inner_point _ _ _ (proj2 Nx) (unit_norm _ P1) E1 (V _ P1 I1)).
  - exact (perturbed_inner_point _ _ _ (proj2 Nx) (unit_norm _ P2) E2 (V _ P2 I3)).
  - apply (perturbed_inner _ _ _ _ (unit_norm _ P1) (unit_norm _ P2) E1 E2).
    unfold unit_of. rewrite inner_mids. apply Rmult_le_pos; [apply Rmult_le_pos; left; now apply F|]. fold (norm2 (pos x)). lra.
Qed.

Lemma step_fair : fair (pts ++ np) (flat_map (children m) cells).
Proof.
  constructor.
  - intros p Hp. apply in_app_iff in Hp. destruct Hp as [Hp|Hp]; [now apply (fa_norm _ _ FA)|].
    destruct (In_nth_error _ _ Hp) as (i & Hi).
    assert (Hk : exists k, nth_error (grid_edges Triangle cells) i = Some k).
    { destruct (nth_error (grid_edges Triangle cells) i) as [k|] eqn:E; [eauto|]. exfalso. apply nth_error_None in E.
      assert (FS : length (grid_edges Triangle cells) = length np) by exact (Forall2_same _ _ _ MF). rewrite FS in E.
      assert (X : nth_error np i <> None) by (intros X; rewrite X in Hi; discriminate). apply nth_error_Some in X. lia. }
    destruct Hk as (k & Hk). assert (In k (grid_edges Triangle cells)) as Ik by (eapply nth_error_In; eauto).
    apply (key_edges _ _ SU) in Ik. destruct Ik as (c & x & y & z & Hc & R & ->).
    destruct (edge_perturbed _ _ _ _ Hc R) as (P & E).
    assert (pos' (m x y) = p) as <-; [|apply (perturbed_norm _ _ (unit_norm _ P) E)].
    pose proof (keys_edge _ _ SU _ _ _ _ Hc R) as Hkey.
    destruct (@Forall2_at (nat * nat) vec _ _ _ MF _ _ Hk) as (q & Hq & MK). rewrite Hi in Hq. injection Hq as <-.
    pose proof (index_of_nth _ _ Hkey) as Hix.
    destruct (@Forall2_at (nat * nat) vec _ _ _ MF _ _ Hix) as (q & Hq & MK').
    assert (Eq : q = p).
    { destruct MK as (i1 & j1 & v1 & w1 & K1 & A1 & B1 & ->). destruct MK' as (i2 & j2 & v2 & w2 & K2 & A2 & B2 & ->).
      rewrite <- K1 in K2. apply norm_pair_eq in K2. destruct K2 as [(-> & ->)|(-> & ->)].
      - rewrite A1 in A2. rewrite B1 in B2. congruence.
      - rewrite A1 in B2. rewrite B1 in A2. injection A2 as ->. injection B2 as ->. apply rounded_midpoint_sym. }
    subst q. unfold position, mid. rewrite app_nth2 by lia.
    replace (length pts + index_of (norm_pair (x, y)) (grid_edges Triangle cells) - length pts)%nat with (index_of (norm_pair (x, y)) (grid_edges Triangle cells)) by lia.
    apply nth_error_nth_Some. exact Hq.
  - intros ch x y z Hch R. apply in_flat_map in Hch. destruct Hch as (c & Hc & Hch). apply (child_cases _ _ SU) in Hch; auto.
    destruct Hch as [(a & v & w & Rc & ->)|(a & b & d & -> & ->)].
    + destruct (fair_edges c a v w Hc Rc) as (A1 & A2 & A3).
      destruct R as [E|[E|E]]; injection E as <- <- <-; auto. now rewrite inner_sym.
    + assert (Rc : rot [a; b; d] a b d) by (unfold rot; auto). pose proof (rot_turn _ _ _ _ Rc) as R1. pose proof (rot_turn _ _ _ _ R1) as R2.
      destruct (fair_edges _ a b d Hc Rc) as (_ & _ & A1). destruct (fair_edges _ b d a Hc R1) as (_ & _ & A2). destruct (fair_edges _ d a b Hc R2) as (_ & _ & A3).
      rewrite (mid_swap (length pts) cells a d) in A1. rewrite (mid_swap (length pts) cells b a) in A2. rewrite (mid_swap (length pts) cells d b) in A3.
      destruct R as [E|[E|E]]; injection E as <- <- <-; auto; now rewrite inner_sym.
Qed.
End Step.

Lemma octahedron_fair : fair (octahedron_points real_numbers) octahedron_cells.
Proof.
  pose proof G_bounds as (G1 & G2). constructor.
  - assert (N : forall p : vec, In p (octahedron_points real_numbers) -> norm2 p = 1).
    { intros p H. cbn in H. repeat (destruct H as [<-|H]; [unfold norm2; cbn; ring|]). contradiction. }
    intros p Hp. rewrite (N p Hp). split; [|nra]. replace 1 with (/ 1) by field. apply Rinv_le_contravar; nra.
  - intros c x y z Hc R. pose proof (octahedron_spread c x y z Hc R). assert (0 <= G * G - 1) by nra. lra.
Qed.

Theorem norms_stay : forall L (b : builder vec) p, regular_sphere (rounded rnd) L 1 = Ok b -> In p (points_of b) ->
  / growth u 16 <= inner p p <= growth u 16.
Proof.
  intros L b p E Hp.
  destruct (sphere_built (rounded rnd) fair L) as (b0 & E0 & _ & _ & _ & _ & _ & F).
  - intros pts cells np SU FA MF. now apply step_fair.
  - exact octahedron_fair.
  - rewrite E in E0. injection E0 as <-. change 16%nat with (8 + 8)%nat. rewrite growth_add. exact (fa_norm _ _ F p Hp).
Qed.
End Near.
