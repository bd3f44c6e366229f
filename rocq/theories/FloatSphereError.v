(** * The sphere in floating point arithmetic: distance from the exact points *)
From Coq Require Import Reals Lra Psatz.
From Verif Require Import Base BaseFacts Topology TopologyFacts Shapes SpecShapes SphereFacts SphereSurface SphereResults ShapesResults SpecSphere SphereGeometry SphereTiling
  NestedResults SphereWidth SpecWidth WidthResults SpecRounding RoundingResults RoundingModels SpecFloatSphere FloatSphere FloatSphereNear.

Local Open Scope R_scope.

(** ** Lengths *)

Definition vlen (p : vec) : R := sqrt (norm2 p).

Lemma vlen_nonneg p : 0 <= vlen p.
Proof. apply sqrt_pos. Qed.
Lemma vlen_square p : vlen p * vlen p = norm2 p.
Proof. apply sqrt_sqrt, norm2_nonneg. Qed.
Lemma vlen_le p k : 0 <= k -> norm2 p <= k * k -> vlen p <= k.
Proof. intros Hk H. unfold vlen. rewrite <- (sqrt_square k Hk). now apply sqrt_le_1_alt. Qed.

Lemma square_le x y : 0 <= y -> x * x <= y * y -> x <= y.
Proof. intros Hy H. destruct (Rle_or_lt x y); auto. nra. Qed.

Lemma cauchy p q : inner p q <= vlen p * vlen q.
Proof.
  apply square_le; [apply Rmult_le_pos; apply vlen_nonneg|].
  replace (vlen p * vlen q * (vlen p * vlen q)) with ((vlen p * vlen p) * (vlen q * vlen q)) by ring. rewrite !vlen_square.
  destruct p as [[a b] c], q as [[x y] z]. unfold norm2. cbn [inner].
  assert (0 <= (a * y - b * x) * (a * y - b * x) + (a * z - c * x) * (a * z - c * x) + (b * z - c * y) * (b * z - c * y)).
  { pose proof (Rle_0_sqr (a * y - b * x)). pose proof (Rle_0_sqr (a * z - c * x)). pose proof (Rle_0_sqr (b * z - c * y)). unfold Rsqr in *. lra. }
  nra.
Qed.

Lemma vlen_add p q : vlen (vadd p q) <= vlen p + vlen q.
Proof.
  pose proof (vlen_nonneg p). pose proof (vlen_nonneg q). apply vlen_le; [lra|].
  replace (norm2 (vadd p q)) with (norm2 p + norm2 q + 2 * inner p q) by (destruct p as [[? ?] ?], q as [[? ?] ?]; unfold norm2; cbn; ring).
  pose proof (cauchy p q). rewrite <- (vlen_square p), <- (vlen_square q). nra.
Qed.

Lemma distance_vlen p q : distance p q = vlen (vsub p q).
Proof. reflexivity. Qed.

Lemma distance_nonneg p q : 0 <= distance p q.
Proof. apply vlen_nonneg. Qed.

Lemma distance_sym p q : distance p q = distance q p.
Proof. rewrite !distance_vlen. unfold vlen. f_equal. destruct p as [[? ?] ?], q as [[? ?] ?]. unfold norm2. cbn. ring. Qed.

Lemma distance_triangle p q r : distance p r <= distance p q + distance q r.
Proof.
  rewrite !distance_vlen. replace (vsub p r) with (vadd (vsub p q) (vsub q r)); [apply vlen_add|].
  destruct p as [[? ?] ?], q as [[? ?] ?], r as [[? ?] ?]. cbn. f_equal; [f_equal|]; ring.
Qed.

Lemma distance_sum p q p' q' : distance (vadd p' q') (vadd p q) <= distance p' p + distance q' q.
Proof.
  rewrite !distance_vlen. replace (vsub (vadd p' q') (vadd p q)) with (vadd (vsub p' p) (vsub q' q)); [apply vlen_add|].
  destruct p as [[? ?] ?], q as [[? ?] ?], p' as [[? ?] ?], q' as [[? ?] ?]. cbn. f_equal; [f_equal|]; ring.
Qed.

Lemma vlen_lower p q : vlen q - distance p q <= vlen p.
Proof.
  assert (vlen q <= vlen p + distance p q); [|lra]. rewrite (distance_sym p q), distance_vlen.
  replace q with (vadd p (vsub q p)) at 1; [apply vlen_add|]. destruct p as [[? ?] ?], q as [[? ?] ?]. cbn. f_equal; [f_equal|]; ring.
Qed.

(** Directions differ by less than the vectors. *)
Lemma unit_distance x y : 0 < norm2 x -> 0 < norm2 y ->
  distance (unit_of x) (unit_of y) * distance (unit_of x) (unit_of y) * (vlen x * vlen y) <= distance x y * distance x y.
Proof.
  intros Hx Hy. rewrite !distance_vlen, !vlen_square.
  assert (Px : 0 < vlen x) by (now apply sqrt_lt_R0). assert (Py : 0 < vlen y) by (now apply sqrt_lt_R0).
  assert (E : norm2 (vsub (unit_of x) (unit_of y)) = norm2 (unit_of x) + norm2 (unit_of y) - 2 * (inner x y * / (vlen x * vlen y))).
  { unfold unit_of. fold (vlen x) (vlen y). rewrite Rinv_mult. destruct x as [[? ?] ?], y as [[? ?] ?]. unfold norm2. cbn [vsub vscale inner]. ring. }
  rewrite E, !unit_norm by assumption.
  replace ((1 + 1 - 2 * (inner x y * / (vlen x * vlen y))) * (vlen x * vlen y)) with (2 * (vlen x * vlen y) - 2 * inner x y) by (field; lra).
  replace (norm2 (vsub x y)) with (norm2 x + norm2 y - 2 * inner x y) by (destruct x as [[? ?] ?], y as [[? ?] ?]; unfold norm2; cbn; ring).
  rewrite <- (vlen_square x), <- (vlen_square y). pose proof (Rle_0_sqr (vlen x - vlen y)). unfold Rsqr in *. lra.
Qed.

Section Error.
Context (u : R) (Hu : 0 <= u < 1) (rnd : R -> R) (Hr : relative u rnd).
Local Notation g := (growth u 8 - 1).

Lemma g_nonneg : 0 <= g.
Proof. pose proof (growth_ge u Hu 8). lra. Qed.

Lemma perturbed_distance a b : norm2 a = 1 -> perturbed u a b -> distance b a <= g.
Proof.
  intros N (t0 & t1 & t2 & H0 & H1 & H2 & E). destruct a as [[x y] z]. subst b. rewrite distance_vlen. pose proof g_nonneg as Pg.
  apply vlen_le; [exact Pg|]. unfold norm2 in *. cbn [vsub inner] in *.
  assert (Q : forall t, near u 8 t -> (t - 1) * (t - 1) <= g * g).
  { intros t Ht. apply (near_dist u Hu) in Ht. assert (- g <= t - 1 <= g) by (revert Ht; unfold Rabs; destruct (Rcase_abs (t - 1)); lra). nra. }
  apply Q in H0, H1, H2. set (k := g * g) in *.
  replace ((x * t0 - x) * (x * t0 - x) + (y * t1 - y) * (y * t1 - y) + (z * t2 - z) * (z * t2 - z))
    with (x * x * ((t0 - 1) * (t0 - 1)) + y * y * ((t1 - 1) * (t1 - 1)) + z * z * ((t2 - 1) * (t2 - 1))) by ring.
  replace k with (x * x * k + y * y * k + z * z * k) by (rewrite <- !Rmult_plus_distr_r, N; ring).
  assert (0 <= x * x) by nra. assert (0 <= y * y) by nra. assert (0 <= z * z) by nra. nra.
Qed.

(** The error of a midpoint. *)
Lemma midpoint_error p q p' q' w e : norm2 p = 1 -> norm2 q = 1 -> 1 - inner p q <= w -> 0 <= w -> 0 <= e -> w / 2 + e < 1 ->
  distance p' p <= e -> distance q' q <= e ->
  distance (edge_midpoint (rounded rnd) p' q') (edge_midpoint real_numbers p q) <= e / sqrt (1 - (w / 2 + e)) + g.
Proof.
  intros Np Nq Hw Pw Pe Hy Dp Dq.
  assert (Na : norm2 (vadd p q) = 2 + 2 * inner p q) by (replace (norm2 (vadd p q)) with (norm2 p + norm2 q + 2 * inner p q) by (destruct p as [[? ?] ?], q as [[? ?] ?]; unfold norm2; cbn; ring); lra).
  assert (Pa : 0 < norm2 (vadd p q)) by lra.
  pose proof (vlen_square (vadd p q)) as SA. pose proof (vlen_nonneg (vadd p q)) as A0.
  assert (A2 : vlen (vadd p q) <= 2).
  { apply vlen_le; [lra|]. pose proof (cauchy p q) as C. rewrite Na. unfold vlen in C. rewrite Np, Nq, sqrt_1 in C. lra. }
  pose proof (distance_sum p q p' q') as D. assert (D2 : distance (vadd p' q') (vadd p q) <= 2 * e) by lra. clear D.
  pose proof (vlen_lower (vadd p' q') (vadd p q)) as LA.
  set (A := vlen (vadd p q)) in *. set (A' := vlen (vadd p' q')) in *.
  assert (Pr : 4 * (1 - (w / 2 + e)) <= A * A').
  { assert (A * (A - 2 * e) <= A * A') by (apply Rmult_le_compat_l; lra). nra. }
  assert (PA' : 0 < A') by (pose proof (vlen_nonneg (vadd p' q')) as Q; fold A' in Q; destruct Q as [Q|Q]; auto; exfalso; rewrite <- Q in Pr; lra).
  assert (Pa' : 0 < norm2 (vadd p' q')) by (rewrite <- vlen_square; fold A'; now apply Rmult_lt_0_compat).
  rewrite (midpoint_scaled p q Pa). change (vscale (factor p q) (vadd p q)) with (unit_of (vadd p q)).
  pose proof (perturbed_distance _ _ (unit_norm _ Pa') (rounded_midpoint u Hu rnd Hr p' q' Pa')) as E1.
  pose proof (unit_distance (vadd p' q') (vadd p q) Pa' Pa) as E2. fold A A' in E2.
  pose proof (distance_triangle (edge_midpoint (rounded rnd) p' q') (unit_of (vadd p' q')) (unit_of (vadd p q))) as T.
  set (d := distance (unit_of (vadd p' q')) (unit_of (vadd p q))) in *.
  pose proof (distance_nonneg (unit_of (vadd p' q')) (unit_of (vadd p q))) as Pd. fold d in Pd.
  pose proof (distance_nonneg (vadd p' q') (vadd p q)) as PD. set (D := distance (vadd p' q') (vadd p q)) in *.
  assert (F : d <= e / sqrt (1 - (w / 2 + e))).
  { set (y := 1 - (w / 2 + e)) in *. assert (Py : 0 < y) by (unfold y; lra). pose proof (sqrt_lt_R0 y Py) as Sy. pose proof (sqrt_sqrt y (Rlt_le _ _ Py)) as Sq.
    apply Rmult_le_reg_r with (sqrt y); [exact Sy|]. unfold Rdiv. rewrite Rmult_assoc, Rinv_l, Rmult_1_r by lra.
    apply square_le; [exact Pe|]. replace (d * sqrt y * (d * sqrt y)) with (d * d * y) by (rewrite <- Sq at 1; ring).
    assert (d * d * (4 * y) <= d * d * (A' * A)) by (apply Rmult_le_compat_l; [nra|lra]). nra. }
  lra.
Qed.

(** ** Levels *)

Definition slack (L : nat) : R := 1 / 2 + 2 / 4 ^ L - g * (INR L * (INR L - 1)).
Definition error (L : nat) : R := INR L * g / sqrt (slack L).

Lemma slack_bounds L : (1 <= L)%nat -> g * (INR L * INR L) <= 1 / 4 -> 1 / 4 <= slack L <= 1.
Proof.
  intros HL H. pose proof g_nonneg as Pg. assert (1 <= INR L) by (replace 1 with (INR 1) by reflexivity; now apply le_INR).
  assert (P4 : 4 <= 4 ^ L). { destruct L as [|L]; [lia|]. cbn [pow]. pose proof (pow4_pos L). lra. }
  assert (0 < / 4 ^ L <= / 4) by (split; [apply Rinv_0_lt_compat; lra | apply Rinv_le_contravar; lra]).
  unfold slack, Rdiv in *. assert (0 <= INR L * (INR L - 1)) by nra. assert (0 <= g * (INR L * (INR L - 1))) by (now apply Rmult_le_pos).
  assert (g * (INR L * (INR L - 1)) <= g * (INR L * INR L)) by (apply Rmult_le_compat_l; nra). lra.
Qed.

Lemma error_bound L : g * (INR L * INR L) <= 1 / 4 -> 0 <= error L <= 2 * INR L * g.
Proof.
  intros H. pose proof g_nonneg as Pg. destruct L as [|L].
  - unfold error. cbn [INR]. unfold Rdiv. lra.
  - destruct (slack_bounds (S L) ltac:(lia) H) as (A & B). pose proof (pos_INR (S L)) as P.
    assert (Q : / 2 <= sqrt (slack (S L))) by (rewrite <- (sqrt_square (/ 2)) by lra; apply sqrt_le_1_alt; lra).
    assert (Z : 0 < / sqrt (slack (S L)) <= 2).
    { split; [apply Rinv_0_lt_compat; lra|]. rewrite <- (Rinv_inv 2). apply Rinv_le_contravar; lra. }
    unfold error, Rdiv. assert (0 <= INR (S L) * g) by (now apply Rmult_le_pos). nra.
Qed.

Lemma error_next L : g * (INR (S L) * INR (S L)) <= 1 / 4 ->
  widest L / 2 + error L < 1 /\ error L / sqrt (1 - (widest L / 2 + error L)) + g <= error (S L).
Proof.
  intros H. pose proof g_nonneg as Pg. destruct L as [|L].
  - assert (E0 : error 0 = 0) by (unfold error; cbn [INR]; unfold Rdiv; ring). rewrite E0.
    assert (W : widest 0 = 1) by (unfold widest; cbn; field). rewrite W. split; [lra|].
    assert (S1 : slack 1 = 1) by (unfold slack; replace (INR 1) with 1 by reflexivity; rewrite pow_1; field). unfold error. rewrite S1, sqrt_1. cbn [INR]. unfold Rdiv. rewrite Rinv_1. lra.
  - set (M := S L) in *. assert (HM : g * (INR M * INR M) <= 1 / 4).
    { eapply Rle_trans; [|exact H]. apply Rmult_le_compat_l; [exact Pg|]. rewrite (S_INR M). pose proof (pos_INR M). nra. }
    destruct (slack_bounds M ltac:(unfold M; lia) HM) as (A & B). destruct (slack_bounds (S M) ltac:(lia) H) as (A' & B').
    destruct (error_bound M HM) as (E0 & E1).
    set (Y := 3 / 2 / 4 ^ M + 2 * INR M * g).
    assert (SY : slack (S M) = slack M - Y).
    { unfold slack, Y. rewrite S_INR. cbn [pow]. pose proof (pow4_pos M). field. lra. }
    assert (W : widest M / 2 <= 3 / 2 / 4 ^ M).
    { unfold widest. pose proof (pow4_pos M). assert (/ (4 ^ M + 2) <= / 4 ^ M) by (apply Rinv_le_contravar; lra). unfold Rdiv. lra. }
    assert (Hy : widest M / 2 + error M <= Y) by (unfold Y; lra).
    split; [lra|].
    set (y := widest M / 2 + error M) in *.
    assert (P1 : 0 < sqrt (slack M)) by (apply sqrt_lt_R0; lra). assert (P2 : 0 < sqrt (1 - y)) by (apply sqrt_lt_R0; lra). assert (P3 : 0 < sqrt (slack (S M))) by (apply sqrt_lt_R0; lra).
    assert (Pr : sqrt (slack (S M)) <= sqrt (slack M) * sqrt (1 - y)).
    { rewrite <- sqrt_mult_alt by lra. apply sqrt_le_1_alt. rewrite SY.
      assert (0 <= (1 - slack M) * y) by (apply Rmult_le_pos; [lra|]; unfold y; pose proof (widest_bounds M); lra). nra. }
    assert (P3' : sqrt (slack (S M)) <= 1) by (rewrite <- sqrt_1; apply sqrt_le_1_alt; lra).
    assert (I1 : / (sqrt (slack M) * sqrt (1 - y)) <= / sqrt (slack (S M))) by (apply Rinv_le_contravar; assumption).
    assert (I2 : 1 <= / sqrt (slack (S M))) by (rewrite <- Rinv_1 at 1; apply Rinv_le_contravar; lra).
    unfold error. rewrite S_INR. unfold Rdiv. assert (0 <= INR M * g) by (apply Rmult_le_pos; [apply pos_INR|exact Pg]).
    assert (J1 : INR M * g * / (sqrt (slack M) * sqrt (1 - y)) <= INR M * g * / sqrt (slack (S M))) by (now apply Rmult_le_compat_l).
    assert (J2 : g * 1 <= g * / sqrt (slack (S M))) by (now apply Rmult_le_compat_l). rewrite Rinv_mult in J1. lra.
Qed.

Definition tracks (e : R) (pts pts' : list vec) : Prop := Forall2 (fun p p' => distance p' p <= e) pts pts'.

Lemma tracks_same pts : tracks 0 pts pts.
Proof.
  induction pts as [|p pts IH]; constructor; auto. rewrite distance_vlen. apply vlen_le; [lra|].
  destruct p as [[? ?] ?]. unfold norm2. cbn. nra.
Qed.

Lemma tracks_le e e' pts pts' : e <= e' -> tracks e pts pts' -> tracks e' pts pts'.
Proof. intros L H. induction H; constructor; auto. lra. Qed.

Lemma new_tracks pts pts' cells np np' w e : surface (length pts) cells -> (forall p, In p pts -> norm2 p = 1) -> spread 0 w pts cells -> 0 <= w -> 0 <= e -> w / 2 + e < 1 ->
  Forall2 (made_for real_numbers pts) (grid_edges Triangle cells) np -> Forall2 (made_for (rounded rnd) pts') (grid_edges Triangle cells) np' ->
  tracks e pts pts' -> tracks (e / sqrt (1 - (w / 2 + e)) + g) np np'.
Proof.
  intros SU UN SP Pw Pe Hy MF MF' T.
  assert (K : forall k p p', In k (grid_edges Triangle cells) -> made_for real_numbers pts k p -> made_for (rounded rnd) pts' k p' -> distance p' p <= e / sqrt (1 - (w / 2 + e)) + g).
  { intros k p p' Hk (i & j & vi & vj & Ek & Hi & Hj & ->) (i' & j' & vi' & vj' & Ek' & Hi' & Hj' & ->).
    assert (G : exists qi qj : vec, @nth_error vec pts' i = Some qi /\ @nth_error vec pts' j = Some qj /\ edge_midpoint (rounded rnd) vi' vj' = edge_midpoint (rounded rnd) qi qj).
    { rewrite <- Ek in Ek'. apply norm_pair_eq in Ek'. destruct Ek' as [(-> & ->)|(-> & ->)]; [eauto|]. exists vj', vi'. rewrite rounded_midpoint_sym. auto. }
    destruct G as (qi & qj & Qi & Qj & ->).
    destruct (@Forall2_at vec vec _ _ _ T _ _ Hi) as (x & Hx & Dx). destruct (@Forall2_at vec vec _ _ _ T _ _ Hj) as (y & Hy' & Dy).
    rewrite Qi in Hx. injection Hx as <-. rewrite Qj in Hy'. injection Hy' as <-.
    apply midpoint_error; auto; try (apply UN; eapply nth_error_In; eassumption).
    apply (key_edges _ _ SU) in Hk. destruct Hk as (c & a & b & d & Hc & R & E). rewrite <- Ek in E. apply norm_pair_eq in E.
    pose proof (SP c a b d Hc R) as S.
    assert (Pi : position pts i = vi) by (apply nth_error_nth_Some; exact Hi). assert (Pj : position pts j = vj) by (apply nth_error_nth_Some; exact Hj).
    destruct E as [(-> & ->)|(-> & ->)]; rewrite Pi, Pj in S; [|rewrite inner_sym]; apply S. }
  clear SU SP UN T. revert np' MF'. induction MF as [|k p keys np Hp F IH]; intros np' MF'; inversion MF' as [|k' p' keys' np2 Hp' F']; subst; constructor.
  - apply (K k); auto. now left.
  - apply IH; auto. intros k0 q q' Hk. apply K. now right.
Qed.

Theorem sphere_error : forall L (b b' : builder vec), g * (INR L * INR L) <= 1 / 4 ->
  regular_sphere real_numbers L 1 = Ok b -> regular_sphere (rounded rnd) L 1 = Ok b' ->
  cells_of b' = cells_of b /\ tracks (error L) (points_of b) (points_of b').
Proof.
  induction L as [|L IH]; intros b b' H E E'.
  - destruct (sphere_of_levels real_numbers 0 (octahedron_points real_numbers) octahedron_cells eq_refl octahedron_surface) as (b0 & E0 & P & C).
    rewrite E in E0. injection E0 as <-.
    destruct (sphere_of_levels (rounded rnd) 0 (octahedron_points (rounded rnd)) octahedron_cells eq_refl octahedron_surface) as (b0 & E0 & P' & C').
    rewrite E' in E0. injection E0 as <-. split; [etransitivity; [exact C' | symmetry; exact C]|].
    assert (E0 : error 0 = 0) by (unfold error; cbn [INR]; unfold Rdiv; ring). rewrite E0.
    assert (Q : @points_of vec b = (octahedron_points real_numbers : list vec)) by exact P. assert (Q' : @points_of vec b' = (octahedron_points real_numbers : list vec)) by exact P'.
    rewrite Q, Q'. apply tracks_same.
  - destruct (sphere_tiling L) as (b0 & E0 & _ & _ & _ & _ & SU & TI). destruct (sphere_exists (rounded rnd) L) as (b0' & E0').
    destruct (two_levels real_numbers L b0 b E0 E) as (np & P & _ & C & MF).
    destruct (two_levels (rounded rnd) L b0' b' E0' E') as (np' & P' & _ & C' & MF').
    assert (HL : g * (INR L * INR L) <= 1 / 4).
    { eapply Rle_trans; [|exact H]. apply Rmult_le_compat_l; [exact g_nonneg|]. rewrite (S_INR L). pose proof (pos_INR L). nra. }
    destruct (IH b0 b0' HL E0 E0') as (Ec & T). destruct (error_bound L HL) as (P0 & _). destruct (error_next L H) as (Y & N).
    assert (Ln : length (@points_of vec b0') = length (@points_of vec b0)) by (symmetry; exact (Forall2_same _ _ _ T)).
    split.
    + etransitivity; [exact C'|]. etransitivity; [|symmetry; exact C]. 
      assert (X : forall n m (cs ds : list (list nat)), n = m -> cs = ds -> flat_map (children (mid n (grid_edges Triangle cs))) cs = flat_map (children (mid m (grid_edges Triangle ds))) ds) by (intros; subst; reflexivity).
      apply X; [exact Ln | exact Ec].
    + assert (Q : @points_of vec b = @points_of vec b0 ++ np) by exact P. assert (Q' : @points_of vec b' = @points_of vec b0' ++ np') by exact P'.
      rewrite Q, Q'.
      assert (MF2 : Forall2 (made_for (rounded rnd) (@points_of vec b0')) (grid_edges Triangle (@cells_of vec b0)) np') by (rewrite <- Ec; exact MF').
      pose proof (widest_bounds L) as (W0 & W1).
      assert (SP : spread 0 (widest L) (points_of b0) (cells_of b0)).
      { intros c x y z Hc R. pose proof (sphere_spread L b0 E0 c x y z Hc R) as S. split; [|exact (proj2 S)]. eapply Rle_trans; [apply least_nonneg | exact (proj1 S)]. }
      pose proof (new_tracks (points_of b0) (points_of b0') (cells_of b0) np np' (widest L) (error L) SU (ti_unit _ _ TI) SP (Rlt_le _ _ W0) P0 Y MF MF2 T) as T'.
      apply Forall2_app; [|now apply (tracks_le _ _ _ _ N)].
      apply (tracks_le (error L)); [|exact T].
      assert (error L <= error L / sqrt (1 - (widest L / 2 + error L))).
      { assert (Z : 0 < sqrt (1 - (widest L / 2 + error L))) by (apply sqrt_lt_R0; lra).
        assert (Z1 : sqrt (1 - (widest L / 2 + error L)) <= 1) by (eapply Rle_trans; [apply sqrt_le_1_alt with (y := 1); lra | rewrite sqrt_1; lra]).
        set (z := sqrt (1 - (widest L / 2 + error L))) in *.
        assert (1 <= / z) by (rewrite <- Rinv_1 at 1; apply Rinv_le_contravar; lra).
        unfold Rdiv. nra. }
      pose proof g_nonneg. lra.
Qed.

Theorem points_error : forall L (b b' : builder vec) i p p', (growth u 8 - 1) * (INR L * INR L) <= 1 / 4 ->
  regular_sphere real_numbers L 1 = Ok b -> regular_sphere (rounded rnd) L 1 = Ok b' ->
  nth_error (points_of b) i = Some p -> nth_error (points_of b') i = Some p' -> distance p' p <= 2 * INR L * (growth u 8 - 1).
Proof.
  intros L b b' i p p' H E E' Hp Hp'. destruct (sphere_error L b b' H E E') as (_ & T). destruct (error_bound L H) as (_ & B).
  destruct (@Forall2_at vec vec _ _ _ T _ _ Hp) as (q & Hq & D). rewrite Hp' in Hq. injection Hq as <-. lra.
Qed.
End Error.
