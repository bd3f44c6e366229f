(** * Solid angles of the cells of the sphere *)
From Coq Require Import Reals Lra Psatz.
From Verif Require Import Base BaseFacts Topology TopologyFacts Shapes SpecShapes SphereFacts SphereSurface SphereResults ShapesResults SpecSphere SphereGeometry SphereTiling
  NestedResults SphereWidth SpecWidth WidthResults SphereShort SphereVolume SpecVolume VolumeResults SpecSolid.

Local Open Scope R_scope.

(** ** Sums of angles *)
Lemma polar c d : 0 < c -> 0 < d -> let t := atan (d / c) in 0 < t < PI / 2 /\ exists k, 0 < k /\ c = k * cos t /\ d = k * sin t.
Proof.
  intros Hc Hd t. assert (Q : 0 < d / c) by (apply Rdiv_lt_0_compat; assumption).
  pose proof (atan_bound (d / c)) as B. fold t in B.
  assert (P : 0 < t) by (rewrite <- atan_0; apply atan_increasing; exact Q). split; [lra|].
  assert (C : 0 < cos t) by (apply cos_gt_0; lra).
  exists (c / cos t). split; [apply Rdiv_lt_0_compat; assumption|]. split; [field; lra|].
  assert (T : tan t = d / c) by apply tan_atan. unfold tan in T.
  replace (c / cos t * sin t) with (c * (sin t / cos t)) by (field; lra). rewrite T. field. lra.
Qed.

Lemma four_turns (r1 r2 r3 r4 r d : R) : 0 < r1 -> 0 < r2 -> 0 < r3 -> 0 < r4 -> 0 < r -> 0 < d ->
  let k := (r1 * r2 - d * d) * (r3 + r4) + (r3 * r4 - d * d) * (r1 + r2) in
  0 < k -> (r1 * r2 - d * d) * (r3 * r4 - d * d) - d * d * ((r1 + r2) * (r3 + r4)) = k * r ->
  atan (d / r1) + atan (d / r2) + atan (d / r3) + atan (d / r4) = atan (d / r).
Proof.
  intros P1 P2 P3 P4 P Pd k Pk E.
  destruct (polar r1 d P1 Pd) as (B1 & k1 & K1 & C1 & S1). destruct (polar r2 d P2 Pd) as (B2 & k2 & K2 & C2 & S2).
  destruct (polar r3 d P3 Pd) as (B3 & k3 & K3 & C3 & S3). destruct (polar r4 d P4 Pd) as (B4 & k4 & K4 & C4 & S4).
  destruct (polar r d P Pd) as (B & k0 & K0 & C & S).
  set (t1 := atan (d / r1)) in *. set (t2 := atan (d / r2)) in *. set (t3 := atan (d / r3)) in *. set (t4 := atan (d / r4)) in *. set (t := atan (d / r)) in *.
  assert (Re : (r1 * r2 - d * d) * (r3 * r4 - d * d) - d * d * ((r1 + r2) * (r3 + r4)) = k1 * k2 * k3 * k4 * cos (t1 + t2 + (t3 + t4))).
  { rewrite cos_plus, !sin_plus, !cos_plus.
    transitivity ((r1 * r2 - d * d) * (r3 * r4 - d * d) - (r1 * d + d * r2) * (r3 * d + d * r4)); [ring|].
    replace (r1 * r2 - d * d) with (k1 * k2 * (cos t1 * cos t2 - sin t1 * sin t2)) by (rewrite C1, C2 at 1; transitivity ((k1 * cos t1) * (k2 * cos t2) - (k1 * sin t1) * (k2 * sin t2)); [ring|]; rewrite <- S1, <- S2; ring).
    replace (r3 * r4 - d * d) with (k3 * k4 * (cos t3 * cos t4 - sin t3 * sin t4)) by (rewrite C3, C4 at 1; transitivity ((k3 * cos t3) * (k4 * cos t4) - (k3 * sin t3) * (k4 * sin t4)); [ring|]; rewrite <- S3, <- S4; ring).
    replace (r1 * d + d * r2) with (k1 * k2 * (sin t1 * cos t2 + cos t1 * sin t2)) by (transitivity ((k1 * sin t1) * (k2 * cos t2) + (k1 * cos t1) * (k2 * sin t2)); [ring|]; rewrite <- S1, <- S2, <- C1, <- C2; ring).
    replace (r3 * d + d * r4) with (k3 * k4 * (sin t3 * cos t4 + cos t3 * sin t4)) by (transitivity ((k3 * sin t3) * (k4 * cos t4) + (k3 * cos t3) * (k4 * sin t4)); [ring|]; rewrite <- S3, <- S4, <- C3, <- C4; ring).
    ring. }
  assert (Im : d * k = k1 * k2 * k3 * k4 * sin (t1 + t2 + (t3 + t4))).
  { rewrite sin_plus, !sin_plus, !cos_plus. unfold k.
    transitivity ((r1 * d + d * r2) * (r3 * r4 - d * d) + (r1 * r2 - d * d) * (r3 * d + d * r4)); [ring|].
    replace (r1 * r2 - d * d) with (k1 * k2 * (cos t1 * cos t2 - sin t1 * sin t2)) by (rewrite C1, C2 at 1; transitivity ((k1 * cos t1) * (k2 * cos t2) - (k1 * sin t1) * (k2 * sin t2)); [ring|]; rewrite <- S1, <- S2; ring).
    replace (r3 * r4 - d * d) with (k3 * k4 * (cos t3 * cos t4 - sin t3 * sin t4)) by (rewrite C3, C4 at 1; transitivity ((k3 * cos t3) * (k4 * cos t4) - (k3 * sin t3) * (k4 * sin t4)); [ring|]; rewrite <- S3, <- S4; ring).
    replace (r1 * d + d * r2) with (k1 * k2 * (sin t1 * cos t2 + cos t1 * sin t2)) by (transitivity ((k1 * sin t1) * (k2 * cos t2) + (k1 * cos t1) * (k2 * sin t2)); [ring|]; rewrite <- S1, <- S2, <- C1, <- C2; ring).
    replace (r3 * d + d * r4) with (k3 * k4 * (sin t3 * cos t4 + cos t3 * sin t4)) by (transitivity ((k3 * sin t3) * (k4 * cos t4) + (k3 * cos t3) * (k4 * sin t4)); [ring|]; rewrite <- S3, <- S4, <- C3, <- C4; ring).
    ring. }
  rewrite E in Re. set (T := t1 + t2 + (t3 + t4)) in *.
  replace (t1 + t2 + t3 + t4) with T by (unfold T; ring).
  assert (KK : 0 < k1 * k2 * k3 * k4) by (repeat apply Rmult_lt_0_compat; assumption). set (K := k1 * k2 * k3 * k4) in *.
  assert (Hs : sin (T - t) = 0).
  { rewrite sin_minus. assert (K * k0 * (sin T * cos t - cos T * sin t) = 0); [|apply Rmult_eq_reg_l with (K * k0); [rewrite Rmult_0_r; assumption|apply Rgt_not_eq; now apply Rmult_lt_0_compat]].
    transitivity ((K * sin T) * (k0 * cos t) - (K * cos T) * (k0 * sin t)); [ring|]. rewrite <- Im, <- Re, <- C, <- S. ring. }
  assert (Hc : 0 < cos (T - t)).
  { rewrite cos_minus. assert (0 < K * k0 * (cos T * cos t + sin T * sin t)); [|apply Rmult_lt_reg_l with (K * k0); [now apply Rmult_lt_0_compat|rewrite Rmult_0_r; assumption]].
    replace (K * k0 * (cos T * cos t + sin T * sin t)) with ((K * cos T) * (k0 * cos t) + (K * sin T) * (k0 * sin t)) by ring. rewrite <- Im, <- Re, <- C, <- S.
    assert (0 < k * (r * r)) by (apply Rmult_lt_0_compat; [assumption|nra]). assert (0 < k * (d * d)) by (apply Rmult_lt_0_compat; [assumption|nra]). lra. }
  assert (Range : - (PI / 2) < T - t < 2 * PI) by (unfold T; lra).
  destruct (Rlt_le_dec (T - t) 0) as [N|N].
  - exfalso. assert (0 < sin (- (T - t))) by (apply sin_gt_0; lra). rewrite sin_neg in H. lra.
  - destruct (Rle_lt_or_eq_dec 0 (T - t) N) as [N'|N']; [|lra]. exfalso.
    destruct (Rlt_le_dec (T - t) PI) as [M|M]; [pose proof (sin_gt_0 (T - t) N' M); lra|].
    destruct (Rle_lt_or_eq_dec PI (T - t) M) as [M'|M']; [pose proof (sin_lt_0 (T - t) M' ltac:(lra)); lra|].
    rewrite <- M', cos_PI in Hc. lra.
Qed.

Lemma four_angles x y w d : 0 < x -> 0 < y -> 0 < w -> 0 < d -> let s := x * x + y * y + w * w - 1 in
  0 < s -> d * d = 16 * (x * x * (y * y) * (w * w)) - 4 * (s * s) ->
  atan (d / (2 * s + 4 * (w * y) * (1 + w + y))) + atan (d / (2 * s + 4 * (x * w) * (1 + x + w))) + atan (d / (2 * s + 4 * (y * x) * (1 + y + x))) +
    atan (d / (4 * (x * y * w) + 2 * s * (x + y + w))) = atan (d / (2 * s)).
Proof.
  intros Hx Hy Hw Hd s Hs E.
  assert (0 < w * y) by now apply Rmult_lt_0_compat. assert (0 < x * w) by now apply Rmult_lt_0_compat. assert (0 < y * x) by now apply Rmult_lt_0_compat.
  apply four_turns; auto.
  - assert (0 < w * y * (1 + w + y)) by (apply Rmult_lt_0_compat; lra). lra.
  - assert (0 < x * w * (1 + x + w)) by (apply Rmult_lt_0_compat; lra). lra.
  - assert (0 < y * x * (1 + y + x)) by (apply Rmult_lt_0_compat; lra). lra.
  - assert (0 < x * y * w) by (apply Rmult_lt_0_compat; [|assumption]; lra). assert (0 < s * (x + y + w)) by (apply Rmult_lt_0_compat; lra). lra.
  - lra.
  - rewrite E. match goal with |- 0 < ?t => replace t with (32 * ((2 * (w * x) + s) * (2 * (w * y) + s) * (2 * (x * y) + s)) * ((1 + w) * (1 + x) * (1 + y))) end.
    + repeat apply Rmult_lt_0_compat; lra.
    + unfold s. ring.
  - rewrite E. unfold s. ring.
Qed.

(** ** One refinement *)

Lemma half_sum p q : norm2 p = 1 -> norm2 q = 1 -> 0 < factor p q ->
  exists w, 0 < w /\ factor p q = / (2 * w) /\ inner p q = 2 * (w * w) - 1.
Proof.
  intros Np Nq P. assert (E : norm2 (vadd p q) = 2 + 2 * inner p q).
  { transitivity (norm2 p + norm2 q + 2 * inner p q); [|lra]. destruct p as [[? ?] ?], q as [[? ?] ?]. unfold norm2. cbn. ring. }
  unfold factor in *. set (h := sqrt (norm2 (vadd p q))) in *.
  assert (Ph : 0 < h). { apply Rinv_0_lt_compat in P. now rewrite Rinv_inv in P. }
  exists (h / 2). split; [lra|]. split; [f_equal; field|].
  assert (Q : h * h = 2 + 2 * inner p q) by (unfold h; rewrite sqrt_sqrt by apply norm2_nonneg; exact E). lra.
Qed.

Lemma corner_angle p q r x y w : norm2 p = 1 -> 0 < x -> 0 < y -> 0 < w ->
  inner p q = 2 * (w * w) - 1 -> inner p r = 2 * (y * y) - 1 -> inner q r = 2 * (x * x) - 1 -> 0 < x * x + y * y + w * w - 1 ->
  solid_angle p (vscale (/ (2 * w)) (vadd p q)) (vscale (/ (2 * y)) (vadd p r)) =
  2 * atan (det p q r / (2 * (x * x + y * y + w * w - 1) + 4 * (w * y) * (1 + w + y))).
Proof.
  intros Np Hx Hy Hw Eq Er Eqr Hs. unfold solid_angle.
  change (inner p (cross (vscale (/ (2 * w)) (vadd p q)) (vscale (/ (2 * y)) (vadd p r)))) with (det p (vscale (/ (2 * w)) (vadd p q)) (vscale (/ (2 * y)) (vadd p r))).
  rewrite det_corner, (inner_sym (vscale (/ (2 * y)) (vadd p r)) p), inner_mids, !inner_mid. unfold norm2 in Np. rewrite Np, Eq, Er, Eqr. do 2 f_equal.
  field. repeat split; try lra.
  - nra.
Qed.

Lemma center_angle p q r x y w : norm2 p = 1 -> norm2 q = 1 -> norm2 r = 1 -> 0 < x -> 0 < y -> 0 < w ->
  inner p q = 2 * (w * w) - 1 -> inner p r = 2 * (y * y) - 1 -> inner q r = 2 * (x * x) - 1 -> 0 < x * x + y * y + w * w - 1 ->
  solid_angle (vscale (/ (2 * x)) (vadd q r)) (vscale (/ (2 * y)) (vadd p r)) (vscale (/ (2 * w)) (vadd p q)) =
  2 * atan (det p q r / (4 * (x * y * w) + 2 * (x * x + y * y + w * w - 1) * (x + y + w))).
Proof.
  intros Np Nq Nr Hx Hy Hw Eq Er Eqr Hs. unfold solid_angle.
  match goal with |- 2 * atan (?n / _) = _ => change n with (det (vscale (/ (2 * x)) (vadd q r)) (vscale (/ (2 * y)) (vadd p r)) (vscale (/ (2 * w)) (vadd p q))) end.
  rewrite det_center.
  assert (I : forall a b c s t, inner (vscale s (vadd a b)) (vscale t (vadd c b)) = s * t * (inner b b + inner a b + inner b c + inner a c)).
  { intros [[? ?] ?] [[? ?] ?] [[? ?] ?] s t. cbn. ring. }
  assert (I' : forall a b c s t, inner (vscale s (vadd a b)) (vscale t (vadd a c)) = s * t * (inner a a + inner a b + inner a c + inner b c)).
  { intros [[? ?] ?] [[? ?] ?] [[? ?] ?] s t. cbn. ring. }
  assert (I2 : forall a b c s t, inner (vscale s (vadd a b)) (vscale t (vadd b c)) = s * t * (inner b b + inner a b + inner b c + inner a c)).
  { intros [[? ?] ?] [[? ?] ?] [[? ?] ?] s t. cbn. ring. }
  rewrite I, I', I2. unfold norm2 in *. rewrite Np, Nr, Nq, (inner_sym r p), (inner_sym r q), (inner_sym q p), Eq, Er, Eqr.
  do 2 f_equal. assert (0 < x * y * w) by (apply Rmult_lt_0_compat; [now apply Rmult_lt_0_compat|assumption]).
  assert (0 < (x * x + y * y + w * w - 1) * (x + y + w)) by (apply Rmult_lt_0_compat; lra).
  field. repeat split; try lra; nra.
Qed.

Section Step.
Variables (pts np : list vec) (cells : list (list nat)).
Hypothesis SU : surface (length pts) cells.
Hypothesis TI : tiling pts cells.
Hypothesis MF : Forall2 (made_for real_numbers pts) (grid_edges Triangle cells) np.
Hypothesis NN : forall c u v w, In c cells -> rot c u v w -> 0 <= inner (position pts u) (position pts v).
Local Notation m := (mid (length pts) (grid_edges Triangle cells)).

Lemma children_angle c : In c cells -> total (cell_angle (position (pts ++ np))) (children m c) = cell_angle (position pts) c.
Proof.
  intros Hc. destruct (su_cell _ _ SU c Hc) as (a & b & d & -> & _). assert (R : rot [a; b; d] a b d) by (unfold rot; auto).
  pose proof (rot_turn _ _ _ _ R) as R1. pose proof (rot_turn _ _ _ _ R1) as R2.
  destruct (cell_facts pts np cells SU TI MF _ a b d Hc R) as (B & _ & (K1 & K2 & K3) & (E1 & E2 & E3) & _).
  pose proof (pos_unit _ _ SU TI _ _ _ _ Hc R) as Np. pose proof (pos_unit _ _ SU TI _ _ _ _ Hc R1) as Nq. pose proof (pos_unit _ _ SU TI _ _ _ _ Hc R2) as Nr.
  pose proof (ti_outward _ _ TI _ _ _ _ Hc R) as D.
  pose proof (NN _ _ _ _ Hc R) as N1. pose proof (NN _ _ _ _ Hc R1) as N2. pose proof (NN _ _ _ _ Hc R2) as N3.
  cbn [children total fold_right cell_angle].
  rewrite (mid_swap (length pts) cells b a), (mid_swap (length pts) cells d a), (mid_swap (length pts) cells d b), E1, E2, E3.
  rewrite !old_position by tauto.
  set (p := position pts a) in *. set (q := position pts b) in *. set (r := position pts d) in *.
  destruct (half_sum p q Np Nq K1) as (w & Pw & Fw & Iw). destruct (half_sum q r Nq Nr K2) as (x & Px & Fx & Ix). destruct (half_sum p r Np Nr K3) as (y & Py & Fy & Iy).
  rewrite Fw, Fx, Fy. rewrite (inner_sym r p) in N3. assert (Ps : 0 < x * x + y * y + w * w - 1) by lra.
  assert (C : forall u v s, vscale s (vadd u v) = vscale s (vadd v u)) by (intros; f_equal; apply vadd_comm).
  rewrite (corner_angle p q r x y w), (center_angle p q r x y w) by assumption.
  rewrite (C p q), (corner_angle q r p y w x) by (try assumption; rewrite 1?inner_sym; first [assumption|lra]).
  rewrite (C p r), (C q r), (corner_angle r p q w x y) by (try assumption; rewrite 1?inner_sym; first [assumption|lra]).
  rewrite <- (det_turn p q r). rewrite (det_turn r p q).
  replace (y * y + w * w + x * x - 1) with (x * x + y * y + w * w - 1) by ring. replace (w * w + x * x + y * y - 1) with (x * x + y * y + w * w - 1) by ring.
  unfold solid_angle. change (inner p (cross q r)) with (det p q r).
  replace (1 + inner p q + inner q r + inner r p) with (2 * (x * x + y * y + w * w - 1)) by (rewrite (inner_sym r p); lra).
  rewrite <- (four_angles x y w (det p q r)); auto.
  - ring.
  - rewrite (gram p q r Np Nq Nr), Iw, Iy, Ix. ring.
Qed.
End Step.

(** ** All levels *)

Lemma level_inner L b : regular_sphere real_numbers L 1 = Ok b ->
  forall c u v w, In c (cells_of b) -> rot c u v w -> 0 <= inner (position (points_of b) u) (position (points_of b) v).
Proof.
  intros E c u v w Hc R. destruct (sphere_spread L b E c u v w Hc R) as (_ & H). pose proof (widest_bounds L). lra.
Qed.

Lemma total_ext {A : Type} (f g : A -> R) l : (forall a, In a l -> f a = g a) -> total f l = total g l.
Proof. intros H. apply Rle_antisym; apply total_le; intros a Ha; rewrite (H a Ha); lra. Qed.

Theorem solid_angles : forall L b, regular_sphere real_numbers L 1 = Ok b -> total_angle b = 4 * PI.
Proof.
  induction L as [|L IH]; intros b E.
  - destruct (sphere_of_levels real_numbers 0 (octahedron_points real_numbers) octahedron_cells eq_refl octahedron_surface) as (b0 & E0 & P & C).
    rewrite E in E0. injection E0 as <-. unfold total_angle.
    assert (P' : @points_of vec b = (octahedron_points real_numbers : list vec)) by exact P. assert (C' : @cells_of vec b = octahedron_cells) by exact C.
    rewrite P', C'. destruct octa_pos as (P0 & P1 & P2 & P3 & P4 & P5).
    cbn [octahedron_cells total fold_right cell_angle]. rewrite P0, P1, P2, P3, P4, P5.
    assert (A : forall p q r, inner p (cross q r) = 1 -> inner p q = 0 -> inner q r = 0 -> inner r p = 0 -> solid_angle p q r = PI / 2).
    { intros p q r H1 H2 H3 H4. unfold solid_angle. rewrite H1, H2, H3, H4. replace (1 / (1 + 0 + 0 + 0)) with 1 by field. rewrite atan_1. field. }
    rewrite !A by (cbn; ring). field.
  - destruct (sphere_tiling L) as (b0 & E0 & _ & _ & _ & _ & SU & TI).
    destruct (two_levels real_numbers L b0 b E0 E) as (np & P & _ & C & MF).
    assert (P' : @points_of vec b = @points_of vec b0 ++ np) by exact P.
    assert (C' : @cells_of vec b = flat_map (children (mid (length (@points_of vec b0)) (grid_edges Triangle (@cells_of vec b0)))) (@cells_of vec b0)) by exact C.
    rewrite <- (IH b0 E0). unfold total_angle. rewrite P', C', total_flat. apply total_ext. intros c Hc.
    now apply (children_angle _ np _ SU TI MF (level_inner L b0 E0)).
Qed.

Lemma atan_le t : 0 < t -> atan t < t.
Proof.
  intros H. destruct (MVT_cor2 atan (fun x => / (1 + x ^ 2)) 0 t H) as (c & E & B); [intros; apply derivable_pt_lim_atan|].
  rewrite atan_0, !Rminus_0_r in E. rewrite E. assert (0 < c ^ 2) by (apply pow_lt; lra).
  assert (/ (1 + c ^ 2) < 1) by (rewrite <- Rinv_1; apply Rinv_lt_contravar; lra). nra.
Qed.

(** A cell, with half edges. *)
Lemma cell_shape L b c : regular_sphere real_numbers L 1 = Ok b -> In c (cells_of b) ->
  exists u v w, c = [u; v; w] /\
    let p := position (points_of b) u in let q := position (points_of b) v in let r := position (points_of b) w in
    norm2 p = 1 /\ norm2 q = 1 /\ norm2 r = 1 /\ 0 < det p q r /\
    (forall x y, In (x, y) [(1 - inner p q, 1 - inner q r); (1 - inner q r, 1 - inner p r); (1 - inner p r, 1 - inner p q);
       (1 - inner q r, 1 - inner p q); (1 - inner p r, 1 - inner q r); (1 - inner p q, 1 - inner p r)] -> 0 < x /\ 0 < y /\ x <= widest L /\ 2 * x <= 5 * y).
Proof.
  intros E Hc. destruct (sphere_tiling L) as (b0 & E0 & _ & _ & _ & _ & SU & TI). rewrite E in E0. injection E0 as <-.
  destruct (su_cell _ _ SU c Hc) as (u & v & w & -> & Bd & _). exists u, v, w. split; [reflexivity|]. assert (R : rot [u; v; w] u v w) by (unfold rot; auto).
  pose proof (rot_turn _ _ _ _ R) as R1. pose proof (rot_turn _ _ _ _ R1) as R2.
  pose proof (pos_unit _ _ SU TI _ _ _ _ Hc R) as Np. pose proof (pos_unit _ _ SU TI _ _ _ _ Hc R1) as Nq. pose proof (pos_unit _ _ SU TI _ _ _ _ Hc R2) as Nr.
  pose proof (ti_outward _ _ TI _ _ _ _ Hc R) as D.
  pose proof (sphere_short L b E _ _ _ _ Hc R) as S1. pose proof (sphere_short L b E _ _ _ _ Hc R1) as S2. pose proof (sphere_short L b E _ _ _ _ Hc R2) as S3.
  pose proof (sphere_spread L b E _ _ _ _ Hc R) as (_ & W1). pose proof (sphere_spread L b E _ _ _ _ Hc R1) as (_ & W2). pose proof (sphere_spread L b E _ _ _ _ Hc R2) as (_ & W3).
  cbn zeta. do 4 (split; [assumption|]).
  rewrite (inner_sym (position (points_of b) w) (position (points_of b) u)) in S3, W3.
  assert (Pl : 0 < 1 - cos (arc L)). { pose proof (short_any L). pose proof (pow4_pos L). assert (0 < / 4 ^ L) by (apply Rinv_0_lt_compat; lra). lra. }
  pose proof (wide_short L) as WS.
  intros x y H. repeat (destruct H as [H|H]; [injection H as <- <-; lra|]). destruct H.
Qed.

Lemma spread_product a b c : 0 < a -> 0 < b -> 0 < c -> b <= a -> c <= a -> 2 * a <= 5 * b -> 2 * a <= 5 * c -> a <= 1 ->
  2 / 3 * a <= 1 - (1 - a / 2) * (1 - b / 2) * (1 - c / 2).
Proof.
  intros Ha Hb Hc Ba Ca Bl Cl A1.
  assert (H : (1 - b / 2) * (1 - c / 2) <= (1 - a / 5) * (1 - a / 5)) by (apply Rmult_le_compat; lra).
  assert (H' : (1 - a / 2) * ((1 - b / 2) * (1 - c / 2)) <= (1 - a / 2) * ((1 - a / 5) * (1 - a / 5))) by (apply Rmult_le_compat_l; lra).
  assert (a * a <= a) by nra. assert (0 <= a * a * a) by nra. assert (a * a * (1 - a) >= 0) by nra. nra.
Qed.

(** The plane of a cell is farther from the origin than the product of the half edges. *)
Lemma plane_distance a b c N : 0 < a -> 0 < b -> 0 < c -> a <= 1 -> b <= 1 -> c <= 1 ->
  2 * a <= 5 * b -> 2 * b <= 5 * c -> 2 * c <= 5 * a -> 2 * b <= 5 * a -> 2 * c <= 5 * b -> 2 * a <= 5 * c ->
  N = 2 * (a * b + b * c + c * a) - a * a - b * b - c * c ->
  N * ((1 - a / 2) * (1 - b / 2) * (1 - c / 2)) <= N - 2 * (a * b * c).
Proof.
  intros Ha Hb Hc A1 B1 C1 R1 R2 R3 R4 R5 R6 EN.
  assert (K : forall x y z, 0 < x -> 0 < y -> 0 < z -> y <= x -> z <= x -> 2 * x <= 5 * y -> 2 * x <= 5 * z -> x <= 1 ->
    let M := 2 * (x * y + y * z + z * x) - x * x - y * y - z * z in M * ((1 - x / 2) * (1 - y / 2) * (1 - z / 2)) <= M - 2 * (x * y * z)).
  { intros x y z Hx Hy Hz Yx Zx Xy Xz X1 M.
    pose proof (area_poly x y z x (2 / 5 * x) ltac:(lra) ltac:(lra) ltac:(lra) ltac:(lra) ltac:(lra)) as AP. fold M in AP.
    pose proof (spread_product x y z Hx Hy Hz Yx Zx Xy Xz X1) as SP. set (W := (1 - x / 2) * (1 - y / 2) * (1 - z / 2)) in *.
    assert (0 < x * y * z) by (apply Rmult_lt_0_compat; [now apply Rmult_lt_0_compat|assumption]).
    assert (PM : 0 < M) by (apply Rmult_lt_reg_l with x; [assumption|]; lra).
    assert (M * (2 / 3 * x) <= M * (1 - W)) by (apply Rmult_le_compat_l; lra). lra. }
  destruct (Rle_lt_dec a b) as [Hab|Hab]; destruct (Rle_lt_dec b c) as [Hbc|Hbc]; destruct (Rle_lt_dec a c) as [Hac|Hac]; try lra.
  - pose proof (K c a b ltac:(lra) ltac:(lra) ltac:(lra) ltac:(lra) ltac:(lra) ltac:(lra) ltac:(lra) ltac:(lra)) as H. cbn zeta in H.
    replace (2 * (c * a + a * b + b * c) - c * c - a * a - b * b) with N in H by (rewrite EN; ring). lra.
  - pose proof (K b c a ltac:(lra) ltac:(lra) ltac:(lra) ltac:(lra) ltac:(lra) ltac:(lra) ltac:(lra) ltac:(lra)) as H. cbn zeta in H.
    replace (2 * (b * c + c * a + a * b) - b * b - c * c - a * a) with N in H by (rewrite EN; ring). lra.
  - pose proof (K b c a ltac:(lra) ltac:(lra) ltac:(lra) ltac:(lra) ltac:(lra) ltac:(lra) ltac:(lra) ltac:(lra)) as H. cbn zeta in H.
    replace (2 * (b * c + c * a + a * b) - b * b - c * c - a * a) with N in H by (rewrite EN; ring). lra.
  - pose proof (K c a b ltac:(lra) ltac:(lra) ltac:(lra) ltac:(lra) ltac:(lra) ltac:(lra) ltac:(lra) ltac:(lra)) as H. cbn zeta in H.
    replace (2 * (c * a + a * b + b * c) - c * c - a * a - b * b) with N in H by (rewrite EN; ring). lra.
  - pose proof (K a b c ltac:(lra) ltac:(lra) ltac:(lra) ltac:(lra) ltac:(lra) ltac:(lra) ltac:(lra) ltac:(lra)) as H. cbn zeta in H.
    rewrite <- EN in H. lra.
  - pose proof (K a b c ltac:(lra) ltac:(lra) ltac:(lra) ltac:(lra) ltac:(lra) ltac:(lra) ltac:(lra) ltac:(lra)) as H. cbn zeta in H.
    rewrite <- EN in H. lra.
Qed.

Lemma cell_bounds L b c : regular_sphere real_numbers L 1 = Ok b -> In c (cells_of b) ->
  cell_area (position (points_of b)) c < cell_angle (position (points_of b)) c /\
  (1 - 9 / (4 * (4 ^ L + 2))) * cell_angle (position (points_of b)) c < 3 * cell_volume origin (position (points_of b)) c.
Proof.
  intros E Hc. destruct (cell_shape L b c E Hc) as (u & v & w & -> & Np & Nq & Nr & D & Sh).
  rewrite cell_volume_det. unfold cell_area. cbn [cell_normal cell_angle].
  set (p := position (points_of b) u) in *. set (q := position (points_of b) v) in *. set (r := position (points_of b) w) in *.
  fold (norm2 (normal p q r)). destruct (normal_det p q r Np Nq Nr) as (EN & ED). pose proof (widest_bounds L) as WB.
  destruct (Sh _ _ (or_introl eq_refl)) as (X1 & Y1 & W1 & R1). destruct (Sh _ _ (or_intror (or_introl eq_refl))) as (_ & Z1 & W2 & R2).
  destruct (Sh _ _ (or_intror (or_intror (or_introl eq_refl)))) as (_ & _ & W3 & R3). destruct (Sh _ _ (or_intror (or_intror (or_intror (or_introl eq_refl))))) as (_ & _ & _ & R4).
  destruct (Sh _ _ (or_intror (or_intror (or_intror (or_intror (or_introl eq_refl)))))) as (_ & _ & _ & R5).
  destruct (Sh _ _ (or_intror (or_intror (or_intror (or_intror (or_intror (or_introl eq_refl))))))) as (_ & _ & _ & R6). clear Sh.
  set (x := 1 - inner p q) in *. set (y := 1 - inner q r) in *. set (z := 1 - inner p r) in *.
  unfold solid_angle. change (inner p (cross q r)) with (det p q r). rewrite (inner_sym r p).
  set (e := det p q r) in *. set (N := norm2 (normal p q r)) in *.
  assert (Es : 1 + inner p q + inner q r + inner p r = 4 - x - y - z) by (unfold x, y, z; ring). rewrite Es.
  assert (Ps : 0 < 4 - x - y - z) by lra.
  destruct (polar (4 - x - y - z) e Ps D) as (B & k & Pk & C & S). set (t := atan (e / (4 - x - y - z))) in *.
  split.
  - pose proof (plane_distance x y z N X1 Y1 Z1 ltac:(lra) ltac:(lra) ltac:(lra) R1 R2 R3 R4 R5 R6 EN) as PD. rewrite <- ED in PD.
    assert (K2 : k * k = 16 * ((1 - x / 2) * (1 - y / 2) * (1 - z / 2))).
    { assert (k * k = (k * cos t) * (k * cos t) + (k * sin t) * (k * sin t)).
      { transitivity (k * k * (Rsqr (sin t) + Rsqr (cos t))); [rewrite sin2_cos2; ring|unfold Rsqr; ring]. }
      rewrite <- C, <- S, ED, EN in H. rewrite H. field. }
    set (W := (1 - x / 2) * (1 - y / 2) * (1 - z / 2)) in *.
    assert (PN : 0 <= N) by apply norm2_nonneg. pose proof (sqrt_sqrt N PN) as SN. pose proof (sqrt_pos N) as SP.
    assert (sqrt N * k <= 4 * e).
    { apply Rsqr_incr_0_var; [|lra]. unfold Rsqr. replace (sqrt N * k * (sqrt N * k)) with ((sqrt N * sqrt N) * (k * k)) by ring. rewrite SN, K2. lra. }
    rewrite S in H. assert (sqrt N <= 4 * sin t) by (apply Rmult_le_reg_r with k; lra).
    pose proof (sin_lt_x t ltac:(lra)). lra.
  - assert (T : t < e / (4 - x - y - z)) by (apply atan_le, Rdiv_lt_0_compat; assumption).
    assert (P4 : 0 < 4 ^ L) by (apply pow_lt; lra).
    assert (Ew : 1 - 9 / (4 * (4 ^ L + 2)) = 1 - 3 / 4 * widest L) by (unfold widest; field; lra). rewrite Ew.
    assert (T' : t * (4 - x - y - z) < e).
    { apply Rmult_lt_compat_r with (r := 4 - x - y - z) in T; [|assumption]. replace (e / (4 - x - y - z) * (4 - x - y - z)) with e in T by (field; lra). exact T. }
    assert (t * (4 - 3 * widest L) <= t * (4 - x - y - z)) by (apply Rmult_le_compat_l; lra). lra.
Qed.

Theorem volume_area_bounds : forall L b, regular_sphere real_numbers L 1 = Ok b ->
  4 * PI * (1 - 9 / (4 * (4 ^ L + 2))) < 3 * volume b /\ 3 * volume b <= area b /\ area b < 4 * PI.
Proof.
  intros L b E. rewrite <- (solid_angles L b E) at 2. rewrite <- (solid_angles L b E) at 1.
  destruct (sphere_tiling L) as (b0 & E0 & _ & _ & _ & N & _ & _). rewrite E in E0. injection E0 as <-.
  assert (NE : @cells_of vec b <> []).
  { intros Z. assert (N' : length (@cells_of vec b) = (8 * 4 ^ L)%nat) by exact N. rewrite Z in N'. cbn in N'. pose proof (Nat.pow_nonzero 4 L ltac:(lia)). lia. }
  split; [|split; [apply (area_volume L b E)|]].
  - unfold total_angle, volume. rewrite Rmult_comm, <- !total_scale. apply total_lt; [exact NE|]. intros c Hc. now apply (cell_bounds L b c E).
  - unfold total_angle, area. apply total_lt; [exact NE|]. intros c Hc. now apply (cell_bounds L b c E).
Qed.

Lemma squeeze (f : nat -> R) l k : 0 < k -> (forall n, l * (1 - 9 / (4 * (4 ^ n + 2))) < k * f n < l) -> 0 < l -> Un_cv f (l / k).
Proof.
  intros Pk H Pl eps He.
  destruct (archimed_cor1 (eps * k / (l * 9))) as (n0 & Hn & Pn).
  { apply Rdiv_lt_0_compat; [now apply Rmult_lt_0_compat|lra]. }
  exists n0. intros n Hge. unfold R_dist. destruct (H n) as (H1 & H2).
  assert (Q : INR n0 <= 4 ^ n).
  { apply Rle_trans with (INR n); [apply le_INR; lia|]. clear. induction n as [|n IH]; [cbn; lra|]. rewrite S_INR. cbn [pow]. assert (1 <= 4 ^ n) by (apply pow_R1_Rle; lra). lra. }
  assert (P0 : 0 < INR n0) by (apply lt_0_INR; lia).
  assert (D : l * (9 / (4 * (4 ^ n + 2))) < k * eps).
  { apply Rlt_le_trans with (l * (9 * / INR n0)).
    - apply Rmult_lt_compat_l; [assumption|]. unfold Rdiv. apply Rmult_lt_compat_l; [lra|]. apply Rinv_lt_contravar; [apply Rmult_lt_0_compat; lra|lra].
    - apply Rlt_le. apply Rmult_lt_compat_l with (r := l * 9) in Hn; [|lra]. replace (l * 9 * (eps * k / (l * 9))) with (k * eps) in Hn by (field; lra). lra. }
  rewrite Rabs_left1.
  - apply Rmult_lt_reg_l with k; [assumption|]. replace (k * - (f n - l / k)) with (l - k * f n) by (field; lra). lra.
  - apply Rmult_le_reg_l with k; [assumption|]. replace (k * (f n - l / k)) with (k * f n - l) by (field; lra). lra.
Qed.

Theorem volume_limit : forall grids : nat -> builder vec, (forall L, regular_sphere real_numbers L 1 = Ok (grids L)) ->
  Un_cv (fun L => volume (grids L)) (4 / 3 * PI) /\ Un_cv (fun L => area (grids L)) (4 * PI).
Proof.
  intros g Hg. pose proof PI_RGT_0 as PP. split.
  - replace (4 / 3 * PI) with (4 * PI / 3) by field. apply squeeze; [lra| |lra]. intros L. destruct (volume_area_bounds L (g L) (Hg L)) as (A & B & C). lra.
  - replace (4 * PI) with (4 * PI / 1) by field. apply squeeze; [lra| |lra]. intros L. destruct (volume_area_bounds L (g L) (Hg L)) as (A & B & C). rewrite Rmult_1_l. lra.
Qed.

Definition sphere_level (L : nat) : builder vec := match regular_sphere real_numbers L 1 with Ok b => b | _ => mkBuilder 0%nat [] [] end.

Lemma sphere_level_ok : forall L, regular_sphere real_numbers L 1 = Ok (sphere_level L).
Proof. intros L. unfold sphere_level. destruct (sphere_exists real_numbers L) as (b & E). now rewrite E. Qed.
