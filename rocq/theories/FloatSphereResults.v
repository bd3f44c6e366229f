(** * The sphere in floating point arithmetic: edges and normals *)
From Coq Require Import Reals Lra Psatz.
From Verif Require Import Base BaseFacts Topology TopologyFacts Shapes SpecShapes SphereFacts SphereSurface SphereResults ShapesResults SpecSphere SphereGeometry SphereTiling
  NestedResults SphereWidth SpecWidth WidthResults SphereVolume SpecRounding RoundingResults RoundingModels SpecFloatSphere FloatSphere FloatSphereNear FloatSphereError.

Local Open Scope R_scope.

Lemma vlen_cross p q : vlen (cross p q) <= vlen p * vlen q.
Proof.
  apply vlen_le; [apply Rmult_le_pos; apply vlen_nonneg|].
  replace (vlen p * vlen q * (vlen p * vlen q)) with ((vlen p * vlen p) * (vlen q * vlen q)) by ring. rewrite !vlen_square.
  destruct p as [[a b] c], q as [[x y] z]. unfold norm2. cbn [inner cross].
  pose proof (Rle_0_sqr (a * x + b * y + c * z)). unfold Rsqr in *. nra.
Qed.

Lemma vlen_opp p : vlen (vscale (-1) p) = vlen p.
Proof. unfold vlen. f_equal. destruct p as [[? ?] ?]. unfold norm2. cbn. ring. Qed.

Lemma det_size p q r : - (vlen p * (vlen q * vlen r)) <= det p q r.
Proof.
  unfold det. pose proof (cauchy (vscale (-1) p) (cross q r)) as C. rewrite vlen_opp in C.
  replace (inner (vscale (-1) p) (cross q r)) with (- inner p (cross q r)) in C by (destruct p as [[? ?] ?], q as [[? ?] ?], r as [[? ?] ?]; cbn; ring).
  pose proof (Rmult_le_compat_l (vlen p) _ _ (vlen_nonneg p) (vlen_cross q r)). lra.
Qed.

(** How much a determinant changes. *)
Lemma det_change p q r p' q' r' e h : norm2 p = 1 -> distance p' p <= e -> distance q' q <= e -> distance r' r <= e -> distance q p <= h -> distance r p <= h ->
  det p q r - (e * ((h + 2 * e) * (h + 2 * e)) + 2 * e * (h + 2 * e) + 2 * e * h) <= det p' q' r'.
Proof.
  intros N Dp Dq Dr Q R.
  assert (Pe : 0 <= e) by (pose proof (distance_nonneg p' p); lra). assert (Ph : 0 <= h) by (pose proof (distance_nonneg q p); lra).
  assert (Np : vlen p = 1) by (unfold vlen; rewrite N; apply sqrt_1).
  assert (X : forall s s', distance s' s <= e -> distance s p <= h -> vlen (vsub (vsub s' p') (vsub s p)) <= 2 * e /\ vlen (vsub s' p') <= h + 2 * e).
  { intros s s' D1 D2. assert (A : vlen (vsub (vsub s' p') (vsub s p)) <= 2 * e).
    { replace (vsub (vsub s' p') (vsub s p)) with (vadd (vsub s' s) (vsub p p')) by (destruct s as [[? ?] ?], s' as [[? ?] ?], p as [[? ?] ?], p' as [[? ?] ?]; cbn; f_equal; [f_equal|]; ring).
      pose proof (vlen_add (vsub s' s) (vsub p p')) as T. rewrite <- !distance_vlen in T. rewrite (distance_sym p p') in T. lra. }
    split; [exact A|]. replace (vsub s' p') with (vadd (vsub s p) (vsub (vsub s' p') (vsub s p))) by (destruct s as [[? ?] ?], s' as [[? ?] ?], p as [[? ?] ?], p' as [[? ?] ?]; cbn; f_equal; [f_equal|]; ring).
    pose proof (vlen_add (vsub s p) (vsub (vsub s' p') (vsub s p))) as T. rewrite <- (distance_vlen s p) in T. lra. }
  destruct (X q q' Dq Q) as (Q1 & Q2). destruct (X r r' Dr R) as (R1 & R2).
  assert (E : det p' q' r' = det p q r + det (vsub p' p) (vsub q' p') (vsub r' p') + det p (vsub (vsub q' p') (vsub q p)) (vsub r' p') + det p (vsub q p) (vsub (vsub r' p') (vsub r p))).
  { destruct p as [[? ?] ?], q as [[? ?] ?], r as [[? ?] ?], p' as [[? ?] ?], q' as [[? ?] ?], r' as [[? ?] ?]. unfold det. cbn. ring. }
  pose proof (det_size (vsub p' p) (vsub q' p') (vsub r' p')) as S1.
  pose proof (det_size p (vsub (vsub q' p') (vsub q p)) (vsub r' p')) as S2. pose proof (det_size p (vsub q p) (vsub (vsub r' p') (vsub r p))) as S3.
  rewrite Np in S2, S3. rewrite <- (distance_vlen p' p) in S1. rewrite <- (distance_vlen q p) in S3.
  pose proof (vlen_nonneg (vsub q' p')). pose proof (vlen_nonneg (vsub r' p')). pose proof (vlen_nonneg (vsub (vsub q' p') (vsub q p))). pose proof (vlen_nonneg (vsub (vsub r' p') (vsub r p))).
  pose proof (distance_nonneg p' p). pose proof (distance_nonneg q p).
  assert (B1 : distance p' p * (vlen (vsub q' p') * vlen (vsub r' p')) <= e * ((h + 2 * e) * (h + 2 * e))).
  { apply Rmult_le_compat; auto; [now apply Rmult_le_pos|]. apply Rmult_le_compat; auto. }
  assert (B2 : vlen (vsub (vsub q' p') (vsub q p)) * vlen (vsub r' p') <= 2 * e * (h + 2 * e)) by (apply Rmult_le_compat; auto).
  assert (B3 : distance q p * vlen (vsub (vsub r' p') (vsub r p)) <= h * (2 * e)) by (apply Rmult_le_compat; auto).
  lra.
Qed.

Section Grids.
Context (u : R) (Hu : 0 <= u < 1) (rnd : R -> R) (Hr : relative u rnd) (L : nat).
Local Notation g := (growth u 8 - 1).
Context (Hg : g * (INR L * INR L) <= 1 / 4) (b b' : builder vec).
Context (E : regular_sphere real_numbers L 1 = Ok b) (E' : regular_sphere (rounded rnd) L 1 = Ok b').

Lemma exact_point i p' : nth_error (points_of b') i = Some p' -> exists p, nth_error (points_of b) i = Some p /\ distance p' p <= 2 * INR L * g.
Proof.
  intros H. destruct (sphere_error u Hu rnd Hr L b b' Hg E E') as (_ & T). pose proof (Forall2_same _ _ _ T) as Ln.
  destruct (nth_error (points_of b) i) as [p|] eqn:Hp.
  - exists p. split; auto. exact (points_error u Hu rnd Hr L b b' i p p' Hg E E' Hp H).
  - apply nth_error_None in Hp. assert (i < length (points_of b'))%nat by (apply nth_error_Some; congruence). lia.
Qed.

Lemma exact_edge p' q' : edge_ends b' p' q' -> exists p q, edge_ends b p q /\ distance p' p <= 2 * INR L * g /\ distance q' q <= 2 * INR L * g.
Proof.
  intros (c & i & j & Hc & He & Hi & Hj). destruct (exact_point i p' Hi) as (p & Hp & Dp). destruct (exact_point j q' Hj) as (q & Hq & Dq).
  exists p, q. split; auto. exists c, i, j. destruct (sphere_error u Hu rnd Hr L b b' Hg E E') as (C & _). rewrite C in Hc. auto.
Qed.

Lemma edge_change p q p' q' e : distance p' p <= e -> distance q' q <= e -> distance p q - 2 * e <= distance p' q' <= distance p q + 2 * e.
Proof.
  intros Dp Dq. pose proof (distance_triangle p' p q'). pose proof (distance_triangle p q q'). pose proof (distance_triangle p p' q). pose proof (distance_triangle p' q' q).
  rewrite (distance_sym p p') in *. rewrite (distance_sym q q') in *. lra.
Qed.

Lemma pow_two_square : 4 ^ L = 2 ^ L * 2 ^ L.
Proof. replace 4 with (2 * 2) by ring. apply Rpow_mult_distr. Qed.

Lemma exact_lengths p q : edge_ends b p q -> 13 / 10 / 2 ^ L <= distance p q <= 49 / 20 / 2 ^ L.
Proof.
  intros H. pose proof (longest_edge L b p q E H) as U. pose proof (shortest_edge L b p q E H) as Lo. unfold distance.
  assert (P : 0 < 2 ^ L) by (apply pow_lt; lra). pose proof pow_two_square as Sq. assert (I : 0 < / 2 ^ L) by (now apply Rinv_0_lt_compat).
  assert (I4 : / 4 ^ L = / 2 ^ L * / 2 ^ L) by (rewrite Sq; apply Rinv_mult).
  assert (Q : 0 < / 2 ^ L * / 2 ^ L) by nra.
  split.
  - rewrite <- (sqrt_square (13 / 10 / 2 ^ L)) by (unfold Rdiv; lra). apply sqrt_le_1_alt. eapply Rle_trans; [|exact Lo]. unfold Rdiv in *. rewrite I4. lra.
  - rewrite <- (sqrt_square (49 / 20 / 2 ^ L)) by (unfold Rdiv; lra). apply sqrt_le_1_alt. eapply Rle_trans; [exact U|].
    apply Rle_trans with (6 * / 4 ^ L); [|unfold Rdiv; rewrite I4; lra].
    unfold Rdiv. apply Rmult_le_compat_l; [lra|]. apply Rinv_le_contravar; [rewrite Sq; nra|lra].
Qed.

Lemma rounded_lengths p' q' : edge_ends b' p' q' -> 13 / 10 / 2 ^ L - 4 * INR L * g <= distance p' q' <= 49 / 20 / 2 ^ L + 4 * INR L * g.
Proof.
  intros H. destruct (exact_edge p' q' H) as (p & q & He & Dp & Dq). pose proof (exact_lengths p q He). pose proof (edge_change p q p' q' _ Dp Dq). lra.
Qed.

Lemma exact_corners k p' q' r' : corners_of b' k p' q' r' -> exists p q r, corners_of b k p q r /\
  distance p' p <= 2 * INR L * g /\ distance q' q <= 2 * INR L * g /\ distance r' r <= 2 * INR L * g.
Proof.
  intros (i & j & l & Hc & Hi & Hj & Hl).
  destruct (exact_point i p' Hi) as (p & Hp & Dp). destruct (exact_point j q' Hj) as (q & Hq & Dq). destruct (exact_point l r' Hl) as (r & Hr' & Dr).
  exists p, q, r. split; auto. exists i, j, l. destruct (sphere_error u Hu rnd Hr L b b' Hg E E') as (C & _).
  assert (C' : @cells_of vec b' = cells_of b) by exact C. rewrite <- C'. auto.
Qed.

Lemma rounded_outward k p' q' r' : 40 * (INR L * 2 ^ L) * g <= 1 -> corners_of b' k p' q' r' ->
  forall x, In x [p'; q'; r'] -> 0 < inner x (normal p' q' r').
Proof.
  intros Hs H. destruct (exact_corners k p' q' r' H) as (p & q & r & Hc & Dp & Dq & Dr).
  assert (G : 0 < det p' q' r').
  { destruct (corners_unit L b k p q r E Hc) as (N & _). destruct (corners_edges b k p q r Hc) as (E1 & _ & E3).
    pose proof (exact_lengths p q E1) as (_ & B1). pose proof (exact_lengths r p E3) as (_ & B3). rewrite distance_sym in B1.
    pose proof (det_change p q r p' q' r' _ _ N Dp Dq Dr B1 B3) as D.
    assert (D0 : / 4 ^ L <= det p q r).
    { destruct Hc as (i & j & l & Hk & Hi & Hj & Hl). apply nth_error_In in Hk.
      pose proof (sphere_det L b E [i; j; l] i j l Hk ltac:(unfold rot; auto)) as S.
      assert (Pi : position (points_of b) i = p) by (apply nth_error_nth_Some; exact Hi). assert (Pj : position (points_of b) j = q) by (apply nth_error_nth_Some; exact Hj).
      assert (Pl : position (points_of b) l = r) by (apply nth_error_nth_Some; exact Hl). rewrite <- Pi, <- Pj, <- Pl. exact S. }
    assert (P : 0 < 2 ^ L) by (apply pow_lt; lra). assert (I4 : / 4 ^ L = / 2 ^ L * / 2 ^ L) by (rewrite pow_two_square; apply Rinv_mult).
    assert (P1 : 1 <= 2 ^ L) by (apply pow_R1_Rle; lra).
    assert (I : 0 < / 2 ^ L <= 1) by (split; [now apply Rinv_0_lt_compat | rewrite <- Rinv_1; apply Rinv_le_contravar; lra]).
    assert (B : 2 * INR L * g <= / 20 * / 2 ^ L).
    { apply Rmult_le_reg_r with (2 ^ L); [exact P|]. replace (/ 20 * / 2 ^ L * 2 ^ L) with (/ 20) by (field; lra). lra. }
    assert (B0 : 0 <= 2 * INR L * g) by (pose proof (g_nonneg u Hu); pose proof (pos_INR L); nra).
    set (e := 2 * INR L * g) in *. set (t := / 2 ^ L) in *. unfold Rdiv in D. fold t in D. rewrite I4 in D0.
    assert (C1 : (49 * / 20 * t + 2 * e) <= 51 / 20 * t) by lra. assert (C0 : 0 <= 49 * / 20 * t + 2 * e) by nra.
    assert (C2 : (49 * / 20 * t + 2 * e) * (49 * / 20 * t + 2 * e) <= 51 / 20 * t * (51 / 20 * t)) by (apply Rmult_le_compat; lra).
    assert (C3 : e * ((49 * / 20 * t + 2 * e) * (49 * / 20 * t + 2 * e)) <= / 20 * (51 / 20 * t * (51 / 20 * t))) by (apply Rmult_le_compat; try lra; nra).
    assert (C4 : 2 * e * (49 * / 20 * t + 2 * e) <= / 10 * t * (51 / 20 * t)) by (apply Rmult_le_compat; lra).
    assert (C5 : 2 * e * (49 * / 20 * t) <= / 10 * t * (49 * / 20 * t)) by (apply Rmult_le_compat_r; nra).
    assert (0 < t * t) by nra. lra. }
  destruct (det_normal p' q' r') as (A1 & A2 & A3). intros x [<-|[<-|[<-|[]]]]; congruence.
Qed.
End Grids.

(** ** Mantissas of a given number of bits *)

Lemma fl_relative n : relative ((/ 2) ^ n) (fl n).
Proof. intros x. apply fl_error. Qed.

Lemma half_pow n : (1 <= n)%nat -> 0 <= (/ 2) ^ n < 1.
Proof. intros H. split; [apply pow_le; lra|]. apply pow_lt_1_compat; [lra|lia]. Qed.

Lemma bits_growth n : (7 <= n)%nat -> growth ((/ 2) ^ n) 8 - 1 <= 9 / 2 ^ n.
Proof.
  intros H. destruct (half_pow n ltac:(lia)) as (P0 & P1).
  assert (Q : (/ 2) ^ n <= / 128).
  { replace n with (7 + (n - 7))%nat by lia. rewrite pow_add. assert ((/ 2) ^ 7 = / 128) by (cbn; field). rewrite H0.
    assert ((/ 2) ^ (n - 7) <= 1) by (rewrite <- (pow1 (n - 7)); apply pow_incr; lra). lra. }
  pose proof (growth_bound ((/ 2) ^ n) 8 P0) as G. replace (INR 8) with 8 in G by (cbn; ring).
  eapply Rle_trans; [apply G; lra|]. unfold Rdiv. rewrite <- pow_inv. set (x := (/ 2) ^ n) in *.
  apply Rmult_le_reg_r with (1 - 8 * x); [lra|]. rewrite Rmult_assoc, Rinv_l by lra. nra.
Qed.

Section Bits.
Context (n L : nat) (Hn : (7 <= n)%nat) (HL : 400 * (INR L * 2 ^ L) <= 2 ^ n).
Local Notation u := ((/ 2) ^ n).

Lemma bits_fine : 40 * (INR L * 2 ^ L) * (growth u 8 - 1) <= 9 / 10.
Proof.
  pose proof (bits_growth n Hn) as G. assert (P : 0 < 2 ^ n) by (apply pow_lt; lra). assert (P0 : 0 <= INR L * 2 ^ L) by (apply Rmult_le_pos; [apply pos_INR|apply pow_le; lra]).
  apply Rle_trans with (40 * (INR L * 2 ^ L) * (9 / 2 ^ n)); [apply Rmult_le_compat_l; lra|].
  apply Rmult_le_reg_r with (2 ^ n); [exact P|]. replace (40 * (INR L * 2 ^ L) * (9 / 2 ^ n) * 2 ^ n) with (360 * (INR L * 2 ^ L)) by (field; lra). lra.
Qed.

Lemma level_pow k : INR k <= 2 ^ k.
Proof. induction k as [|k IH]; [cbn; lra|]. rewrite S_INR. cbn [pow]. assert (1 <= 2 ^ k) by (apply pow_R1_Rle; lra). lra. Qed.

Lemma bits_coarse : (growth u 8 - 1) * (INR L * INR L) <= 1 / 4.
Proof.
  pose proof bits_fine as F. pose proof (g_nonneg u (half_pow n ltac:(lia))) as G. pose proof (level_pow L). pose proof (pos_INR L).
  assert (INR L * INR L <= INR L * 2 ^ L) by (now apply Rmult_le_compat_l).
  assert ((growth u 8 - 1) * (INR L * INR L) <= (growth u 8 - 1) * (INR L * 2 ^ L)) by (now apply Rmult_le_compat_l). lra.
Qed.

Lemma bits_edges b p q : regular_sphere (rounded (fl n)) L 1 = Ok b -> edge_ends b p q -> 1 / 2 ^ L <= distance p q <= 11 / 4 / 2 ^ L.
Proof.
  intros E H. destruct (sphere_exists real_numbers L) as (b0 & E0). destruct (half_pow n ltac:(lia)) as (P0 & P1).
  pose proof (rounded_lengths _ (conj P0 P1) (fl n) (fl_relative n) L bits_coarse b0 b E0 E p q H) as B. pose proof bits_fine as F.
  assert (P : 0 < 2 ^ L) by (apply pow_lt; lra). set (t := / 2 ^ L) in *. assert (Pt : 0 < t) by (now apply Rinv_0_lt_compat).
  assert (C : 4 * INR L * (growth u 8 - 1) <= 3 / 10 * t).
  { apply Rmult_le_reg_r with (2 ^ L); [exact P|]. unfold t. replace (3 / 10 * / 2 ^ L * 2 ^ L) with (3 / 10) by (field; lra). lra. }
  unfold Rdiv in *. fold t in B |- *. lra.
Qed.

Lemma bits_outward b k p q r : regular_sphere (rounded (fl n)) L 1 = Ok b -> corners_of b k p q r -> forall x, In x [p; q; r] -> 0 < inner x (normal p q r).
Proof.
  intros E H. destruct (sphere_exists real_numbers L) as (b0 & E0). destruct (half_pow n ltac:(lia)) as (P0 & P1).
  apply (rounded_outward _ (conj P0 P1) (fl n) (fl_relative n) L bits_coarse b0 b E0 E k p q r); [pose proof bits_fine; lra|exact H].
Qed.

Lemma bits_points b b' i p p' : regular_sphere real_numbers L 1 = Ok b -> regular_sphere (rounded (fl n)) L 1 = Ok b' ->
  nth_error (points_of b) i = Some p -> nth_error (points_of b') i = Some p' -> distance p' p <= 18 * INR L / 2 ^ n.
Proof.
  intros E E' H H'. destruct (half_pow n ltac:(lia)) as (P0 & P1).
  eapply Rle_trans; [exact (points_error _ (conj P0 P1) (fl n) (fl_relative n) L b b' i p p' bits_coarse E E' H H')|].
  pose proof (bits_growth n Hn). pose proof (pos_INR L). unfold Rdiv in *. nra.
Qed.
End Bits.

Lemma double_levels : (7 <= 53)%nat /\ 400 * (INR 39 * 2 ^ 39) <= 2 ^ 53 /\ 400 * (INR 11 * 2 ^ 11) <= 2 ^ 24.
Proof.
  split; [lia|]. replace (INR 39) with 39 by (rewrite INR_IZR_INZ; reflexivity). replace (INR 11) with 11 by (rewrite INR_IZR_INZ; reflexivity). split.
  - replace (2 ^ 53) with (2 ^ 14 * 2 ^ 39) by (rewrite <- pow_add; f_equal). assert (2 ^ 14 = 16384) by (cbn; lra). rewrite H.
    assert (0 < 2 ^ 39) by (apply pow_lt; lra). lra.
  - replace (2 ^ 24) with (2 ^ 13 * 2 ^ 11) by (rewrite <- pow_add; f_equal). assert (2 ^ 13 = 8192) by (cbn; lra). rewrite H.
    assert (0 < 2 ^ 11) by (apply pow_lt; lra). lra.
Qed.

Theorem same_cells : forall R R' L b b', regular_sphere R L 1 = Ok b -> regular_sphere R' L 1 = Ok b' -> cells_of b' = cells_of b.
Proof.
  intros R R' L. assert (G : forall b b', regular_sphere R L 1 = Ok b -> regular_sphere R' L 1 = Ok b' -> cells_of b' = cells_of b /\ length (points_of b') = length (points_of b)).
  { induction L as [|L IH]; intros b b' E E'.
    - destruct (sphere_of_levels R 0 (octahedron_points R) octahedron_cells eq_refl octahedron_surface) as (b0 & E0 & P & C). rewrite E in E0. injection E0 as <-.
      destruct (sphere_of_levels R' 0 (octahedron_points R') octahedron_cells eq_refl octahedron_surface) as (b0 & E0 & P' & C'). rewrite E' in E0. injection E0 as <-.
      rewrite P, C, P', C'. split; reflexivity.
    - destruct (sphere_exists R L) as (b0 & E0). destruct (sphere_exists R' L) as (b0' & E0').
      destruct (two_levels R L b0 b E0 E) as (np & P & _ & C & MF). destruct (two_levels R' L b0' b' E0' E') as (np' & P' & _ & C' & MF').
      destruct (IH b0 b0' E0 E0') as (Ec & El). rewrite C, C', P, P', !app_length, Ec, El. split; [reflexivity|].
      rewrite <- (Forall2_same _ _ _ MF), <- (Forall2_same _ _ _ MF'), Ec. reflexivity. }
  intros b b' E E'. now apply G.
Qed.

(** A case with an actual rounding: six levels with 24 bits. *)
Lemma float_example : exists b b' : builder vec, regular_sphere real_numbers 6 1 = Ok b /\ regular_sphere (rounded (fl 24)) 6 1 = Ok b' /\
  (7 <= 24)%nat /\ 400 * (INR 6 * 2 ^ 6) <= 2 ^ 24 /\ 0 <= (/ 2) ^ 24 < 1 /\ relative ((/ 2) ^ 24) (fl 24) /\ growth ((/ 2) ^ 24) 16 <= 6 / 5 /\
  (growth ((/ 2) ^ 24) 8 - 1) * (INR 6 * INR 6) <= 1 / 4.
Proof.
  destruct (sphere_exists real_numbers 6) as (b & E). destruct (sphere_exists (rounded (fl 24)) 6) as (b' & E'). exists b, b'. split; [exact E|]. split; [exact E'|].
  assert (H : 400 * (INR 6 * 2 ^ 6) <= 2 ^ 24).
  { replace (INR 6) with 6 by (rewrite INR_IZR_INZ; reflexivity). replace (2 ^ 24) with (2 ^ 18 * 2 ^ 6) by (rewrite <- pow_add; f_equal).
    assert (2 ^ 18 = 262144) by (cbn; lra). rewrite H. assert (0 < 2 ^ 6) by (apply pow_lt; lra). lra. }
  split; [lia|]. split; [exact H|]. split; [apply half_pow; lia|]. split; [apply fl_relative|]. split; [|apply bits_coarse; [lia|exact H]].
  pose proof (bits_growth 24 ltac:(lia)) as G. pose proof (growth_add ((/ 2) ^ 24) 8 8 : growth ((/ 2) ^ 24) 16 = _) as EA. rewrite EA. clear EA.
  assert (P : 9 / 2 ^ 24 <= 9 / 256).
  { unfold Rdiv. apply Rmult_le_compat_l; [lra|]. apply Rinv_le_contravar; [lra|]. replace (2 ^ 24) with (2 ^ 16 * 2 ^ 8) by (rewrite <- pow_add; f_equal).
    assert (2 ^ 8 = 256) by (cbn; lra). rewrite H0. assert (1 <= 2 ^ 16) by (apply pow_R1_Rle; lra). lra. }
  pose proof (g_nonneg ((/ 2) ^ 24) (half_pow 24 ltac:(lia))). set (G8 := growth ((/ 2) ^ 24) 8) in *.
  pose proof (Rle_trans _ _ _ G P) as Q. clear G P H.
  apply Rle_trans with (265 / 256 * (265 / 256)); [apply Rmult_le_compat; lra|lra].
Qed.
