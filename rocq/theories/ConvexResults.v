(** * Convexity of the sphere and signs of the double layer entries *)
From Coq Require Import Reals Lra Psatz.
From Verif Require Import Base BaseFacts Topology TopologyFacts DofMap Process Space SpecSpace SpecDof Options Adjacency SpecAdjacency Scalar Integrand CellPair Operators SpecLocal SpecOperators
  Interleave Assembly SpecAssembly AssemblyResults AssemblySingular SpecTransfer SpecRounding Shapes SpecShapes ShapesResults SpecSphere SphereFacts SphereSurface SphereResults SphereGeometry SphereTiling
  SpecWidth SpecTurns SpecGauss GaussResults SpecDigits SpecDecay DecayPoints BrokenResults GalerkinResults SpecPlanes SpecConvex ConvexSphere ConvexSigns.

Local Open Scope R_scope.

(** ** Planes *)

Lemma above_height p q r y : 0 < det p q r -> above_plane p q r y = det p q r * (height p q r y - 1).
Proof.
  intros H. unfold above_plane, height. destruct (det_normal p q r) as (N & _ & _). replace (inner (normal p q r) (vsub y p)) with (inner (normal p q r) y - inner p (normal p q r)).
  - rewrite N. field. lra.
  - destruct p as [[? ?] ?], y as [[? ?] ?], (normal _ q r) as [[? ?] ?]. cbn. ring.
Qed.

Lemma above_point p q r p' q' r' s t o : s + t + o = 1 ->
  above_plane p q r (point_of p' q' r' s t o) = s * above_plane p q r p' + t * above_plane p q r q' + o * above_plane p q r r'.
Proof.
  intros H. unfold above_plane, point_of. destruct (normal p q r) as [[? ?] ?]. destruct p as [[? ?] ?], p' as [[? ?] ?], q' as [[? ?] ?], r' as [[? ?] ?]. cbn.
  replace o with (1 - s - t) by lra. ring.
Qed.

Lemma above_own p q r : above_plane p q r p = 0 /\ above_plane p q r q = 0 /\ above_plane p q r r = 0.
Proof. unfold above_plane, normal. destruct p as [[? ?] ?], q as [[? ?] ?], r as [[? ?] ?]. cbn. repeat split; ring. Qed.

(** From any point of the plane of the triangle. *)
Lemma above_from p q r x s t o : s + t + o = 1 -> inner (normal p q r) (vsub x (point_of p q r s t o)) = above_plane p q r x.
Proof.
  intros H. unfold above_plane, point_of, normal. destruct p as [[? ?] ?], q as [[? ?] ?], r as [[? ?] ?], x as [[? ?] ?]. cbn. replace s with (1 - t - o) by lra. ring.
Qed.

(** ** The sphere *)
Section Sphere.
Context (level : nat) (b : builder vec) (E : regular_sphere real_numbers level 1 = Ok b).

Let pos (v : nat) : vec := SpecSphere.position (points_of b) v.

Lemma corners_cell k p q r : corners_of b k p q r -> exists u v w, nth_error (cells_of b) k = Some [u; v; w] /\ In [u; v; w] (cells_of b) /\
  (u < length (points_of b))%nat /\ (v < length (points_of b))%nat /\ (w < length (points_of b))%nat /\ pos u = p /\ pos v = q /\ pos w = r.
Proof.
  intros (u & v & w & Ec & Eu & Ev & Ew). exists u, v, w. split; [exact Ec|]. split; [now apply nth_error_In in Ec|].
  unfold pos, SpecSphere.position. rewrite (nth_error_nth _ _ origin Eu), (nth_error_nth _ _ origin Ev), (nth_error_nth _ _ origin Ew).
  repeat split; apply nth_error_Some; congruence.
Qed.

Theorem sphere_acute k p q r : corners_of b k p q r -> acute p q r.
Proof.
  intros Co. destruct (corners_cell k p q r Co) as (u & v & w & _ & Hc & _ & _ & _ & <- & <- & <-).
  assert (R1 : rot [u; v; w] u v w) by (left; reflexivity). pose proof (rot_turn _ _ _ _ R1) as R2. pose proof (rot_turn _ _ _ _ R2) as R3.
  repeat split; eapply (level_acute level b E); eauto.
Qed.

Lemma vertex_below u v w x : In [u; v; w] (cells_of b) -> (x < length (points_of b))%nat ->
  above_plane (pos u) (pos v) (pos w) (pos x) <= 0 /\ (~ In x [u; v; w] -> above_plane (pos u) (pos v) (pos w) (pos x) < 0).
Proof.
  intros Hc Hx. pose proof (ti_outward _ _ (proj2 (level_surface level b E)) _ u v w Hc (or_introl eq_refl)) as D.
  assert (D' : 0 < det (pos u) (pos v) (pos w)) by exact D. clear D.
  destruct (below_planes level b E _ x Hc Hx) as (A & B).
  assert (A' : height (pos u) (pos v) (pos w) (pos x) <= 1) by exact A. assert (B' : ~ In x [u; v; w] -> height (pos u) (pos v) (pos w) (pos x) < 1) by exact B. clear A B.
  rewrite above_height by exact D'. split; [nra|]. intros N. specialize (B' N). nra.
Qed.

Theorem sphere_convex k p q r : corners_of b k p q r -> forall x, In x (points_of b) -> (x = p \/ x = q \/ x = r) /\ above_plane p q r x = 0 \/ above_plane p q r x < 0.
Proof.
  intros Co x Hx. destruct (corners_cell k p q r Co) as (u & v & w & _ & Hc & _ & _ & _ & <- & <- & <-).
  destruct (In_nth _ _ origin Hx) as (i & Hi & Ei). assert (Ex : pos i = x) by exact Ei. rewrite <- Ex.
  destruct (in_dec Nat.eq_dec i [u; v; w]) as [I|N]; [left|right; now apply vertex_below].
  destruct (above_own (pos u) (pos v) (pos w)) as (A1 & A2 & A3). cbn [In] in I. destruct I as [->|[->|[->|[]]]]; auto 6.
Qed.

Theorem sphere_below k p q r k' p' q' r' s t o : corners_of b k p q r -> corners_of b k' p' q' r' -> weights s t o ->
  above_plane p q r (point_of p' q' r' s t o) <= 0 /\
  (k = k' -> above_plane p q r (point_of p' q' r' s t o) = 0) /\
  (k <> k' -> inner_weights s t o -> above_plane p q r (point_of p' q' r' s t o) < 0).
Proof.
  intros Co Co' (Hs & Ht & Ho & Sum). rewrite above_point by exact Sum.
  destruct (corners_cell k p q r Co) as (u & v & w & Ec & Hc & _ & _ & _ & Pu & Pv & Pw).
  destruct (corners_cell k' p' q' r' Co') as (u' & v' & w' & Ec' & Hc' & Lu & Lv & Lw & Pu' & Pv' & Pw'). subst p q r p' q' r'.
  destruct (vertex_below u v w u' Hc Lu) as (A1 & B1). destruct (vertex_below u v w v' Hc Lv) as (A2 & B2). destruct (vertex_below u v w w' Hc Lw) as (A3 & B3).
  split; [nra|]. split.
  - intros <-. rewrite Ec in Ec'. injection Ec' as <- <- <-. destruct (above_own (pos u) (pos v) (pos w)) as (-> & -> & ->). ring.
  - intros N (Ps & Pt & Po & _). pose proof (proj1 (level_surface level b E)) as SU.
    assert (Nc : [u; v; w] <> [u'; v'; w']).
    { intros Eq. apply N. pose proof (su_nodup _ _ SU) as ND. apply (proj1 (NoDup_nth_error (cells_of b)) ND); [apply nth_error_Some; congruence|]. rewrite Ec, Ec'. now f_equal. }
    destruct (in_dec Nat.eq_dec u' [u; v; w]) as [I1|I1]; [|specialize (B1 I1); nra].
    destruct (in_dec Nat.eq_dec v' [u; v; w]) as [I2|I2]; [|specialize (B2 I2); nra].
    destruct (in_dec Nat.eq_dec w' [u; v; w]) as [I3|I3]; [|specialize (B3 I3); nra].
    exfalso. apply Nc. symmetry. apply (su_sets _ _ SU); [exact Hc'|exact Hc|]. intros x [<-|[<-|[<-|[]]]]; assumption.
Qed.

Lemma positive_norm k p q r : corners_of b k p q r -> 0 < sqrt (inner (normal p q r) (normal p q r)).
Proof. intros Co. pose proof (area_positive level b E k p q r Co) as A. unfold triangle_area in A. lra. Qed.

(** ** The derivatives of the kernel *)
Section Kernel.
Context (X : externals R) (id : nat) (Fl : flat_cells X (built_grid id Triangle b) b) (G : @green R R) (HG : repelling G) (kd : kind) (Hk : kd = Double \/ kd = Adjoint).

Lemma flat_point_of points p q r (x : cell_map R) j : flat_cell points p q r x ->
  SpecLocal.position x j = point_of p q r (1 - nth (2 * j) points 0 - nth (2 * j + 1) points 0) (nth (2 * j) points 0) (nth (2 * j + 1) points 0).
Proof.
  intros F. rewrite (flat_position points p q r x j F). unfold point_of. destruct p as [[? ?] ?], q as [[? ?] ?], r as [[? ?] ?]. cbn. f_equal; [f_equal|]; ring.
Qed.

Lemma chord2_self (x y : vec) : chord2 x y = 0 -> x = y.
Proof. intros H. apply distance_zero. now rewrite distance_chord, H, sqrt_0. Qed.

(** The derivative at a point [x] of the test cell and [y] of the trial cell. *)
Lemma derivative_value points points' p q r p' q' r' (x y : cell_map R) i j : flat_cell points p q r x -> flat_cell points' p' q' r' y ->
  exists psi, 0 < psi /\ normal_derivative reals kd G x i y j =
    match kd with
    | Adjoint => psi / sqrt (inner (normal p q r) (normal p q r)) * above_plane p q r (SpecLocal.position y j)
    | _ => psi / sqrt (inner (normal p' q' r') (normal p' q' r')) * above_plane p' q' r' (SpecLocal.position x i)
    end.
Proof.
  intros F F'. destruct HG as (psi & Ppsi & Val).
  set (a := SpecLocal.position x i) in *. set (c := SpecLocal.position y j) in *.
  assert (Z : chord2 a c = 0 -> vsub a c = (0, 0, 0)).
  { intros Z. rewrite (chord2_self a c Z). destruct c as [[? ?] ?]. cbn. f_equal; [f_equal|]; ring. }
  assert (C : exists k, 0 < k /\ forall i, (i < 3)%nat -> G (1 + i)%nat a c = k * coordinate i (vsub a c)).
  { destruct (Rle_lt_or_eq_dec 0 (chord2 a c) (chord2_nonneg a c)) as [P|N].
    - exists (psi (chord2 a c)). split; [now apply Ppsi|]. intros l Hl. now apply Val.
    - exists 1. split; [lra|]. intros l Hl. rewrite Val by exact Hl. rewrite (Z (eq_sym N)). destruct l as [|[|l]]; cbn; ring. }
  destruct C as (k & Pk & Ck). exists k. split; [exact Pk|].
  unfold normal_derivative, dot. fold a c. rewrite !Ck by lia.
  pose proof (flat_point_of points p q r x i F) as Ea. fold a in Ea. pose proof (flat_point_of points' p' q' r' y j F') as Ec. fold c in Ec.
  destruct Hk as [-> | ->].
  - rewrite <- (above_from p' q' r' a (1 - nth (2 * j) points' 0 - nth (2 * j + 1) points' 0) (nth (2 * j) points' 0) (nth (2 * j + 1) points' 0)) by ring.
    rewrite <- Ec. unfold SpecLocal.normal. rewrite !(fc_normal _ _ _ _ _ F') by lia. cbn [reals s_cast s_mul s_add]. set (m := sqrt _).
    unfold Rdiv. destruct (normal p' q' r') as [[? ?] ?], (vsub a c) as [[? ?] ?]. cbn. ring.
  - rewrite <- (above_from p q r c (1 - nth (2 * i) points 0 - nth (2 * i + 1) points 0) (nth (2 * i) points 0) (nth (2 * i + 1) points 0)) by ring.
    rewrite <- Ea. unfold SpecLocal.normal. rewrite !(fc_normal _ _ _ _ _ F) by lia. cbn [reals s_cast s_mul s_add s_neg]. set (m := sqrt _).
    unfold Rdiv. destruct (normal p q r) as [[? ?] ?]. destruct a as [[? ?] ?], c as [[? ?] ?]. cbn. ring.
Qed.

Context (deg : cell_type -> cell_type -> nat) (pts : cell_type -> nat) (test trial : fspace R R).
Context (Gt : fs_grid test = built_grid id Triangle b) (Gs : fs_grid trial = built_grid id Triangle b) (Ir : inside_rules X Triangle).

Lemma cell_corners c : (c < ent_count (built_grid id Triangle b) 2)%nat -> exists p q r, corners_of b c p q r.
Proof.
  intros Hc. destruct (sphere_cells level id b E) as (Nc & H). destruct (H c) as (p & q & r & Co & _); [|now exists p, q, r].
  exact (eq_ind (ent_count (built_grid id Triangle b) 2) (fun k => (c < k)%nat) Hc _ Nc).
Qed.

Lemma cell_triangle c : g_ctype (built_grid id Triangle b) c = Triangle.
Proof. reflexivity. Qed.

(** The points that are used, with their weights. *)
Lemma used_weights t s x i y j p q r p' q' r' : corners_of b t p q r -> corners_of b s p' q' r' -> used_points X deg pts test trial t s x i y j ->
  exists points points' a c a' c', flat_cell points p q r x /\ flat_cell points' p' q' r' y /\
    SpecLocal.position x i = point_of p q r (1 - a - c) a c /\ SpecLocal.position y j = point_of p' q' r' (1 - a' - c') a' c' /\
    weights (1 - a - c) a c /\ weights (1 - a' - c') a' c' /\
    (inner_rules X -> inner_weights (1 - a - c) a c /\ inner_weights (1 - a' - c') a' c').
Proof.
  intros Co Co' [pairs kind dim qd n Tc Ad Dk Sd Eq Hn|qt qs n n' Nt Et Es Hn Hn']; rewrite ?Gt, ?Gs, ?cell_triangle in *.
  - injection Dk as <-. exists (pq_test qd), (pq_trial qd), (nth (2 * n) (pq_test qd) 0), (nth (2 * n + 1) (pq_test qd) 0), (nth (2 * n) (pq_trial qd) 0), (nth (2 * n + 1) (pq_trial qd) 0).
    pose proof (Fl Triangle (pq_test qd) t p q r Co) as F. pose proof (Fl Triangle (pq_trial qd) s p' q' r' Co') as F'.
    split; [exact F|]. split; [exact F'|]. split; [now apply flat_point_of|]. split; [now apply flat_point_of|].
    destruct (proj2 Ir TriangleDuffy _ _ _ _ _ eq_refl Eq Hn) as ((I1 & I2 & I3) & I4 & I5 & I6).
    split; [repeat split; lra|]. split; [repeat split; lra|]. intros In. destruct (proj2 In _ _ _ _ _ Eq Hn) as (J1 & J2 & J3 & J4 & J5 & J6). split; repeat split; lra.
  - exists (qd_points qt), (qd_points qs), (nth (2 * n) (qd_points qt) 0), (nth (2 * n + 1) (qd_points qt) 0), (nth (2 * n') (qd_points qs) 0), (nth (2 * n' + 1) (qd_points qs) 0).
    pose proof (Fl Triangle (qd_points qt) t p q r Co) as F. pose proof (Fl Triangle (qd_points qs) s p' q' r' Co') as F'.
    split; [exact F|]. split; [exact F'|]. split; [now apply flat_point_of|]. split; [now apply flat_point_of|].
    destruct (proj1 Ir _ _ _ Et Hn) as (I1 & I2 & I3). destruct (proj1 Ir _ _ _ Es Hn') as (I4 & I5 & I6).
    split; [repeat split; lra|]. split; [repeat split; lra|]. intros In. destruct (proj1 In _ _ _ Et Hn) as (J1 & J2 & J3). destruct (proj1 In _ _ _ Es Hn') as (J4 & J5 & J6). split; repeat split; lra.
Qed.

Lemma derivative_sign t s : (t < ent_count (built_grid id Triangle b) 2)%nat -> (s < ent_count (built_grid id Triangle b) 2)%nat ->
  derivative_in reals (fun v => v <= 0) X kd G deg pts test trial t s /\
  (t <> s -> inner_rules X -> derivative_in reals (fun v => v < 0) X kd G deg pts test trial t s).
Proof.
  intros Ht Hs. destruct (cell_corners t Ht) as (p & q & r & Co). destruct (cell_corners s Hs) as (p' & q' & r' & Co').
  pose proof (positive_norm t p q r Co) as N. pose proof (positive_norm s p' q' r' Co') as N'.
  split; [intros x i y j U|intros Ne In x i y j U];
    destruct (used_weights t s x i y j p q r p' q' r' Co Co' U) as (points & points' & a & c & a' & c' & F & F' & Ex & Ey & W & W' & IW);
    destruct (derivative_value points points' p q r p' q' r' x y i j F F') as (psi & Ppsi & ->); rewrite Ex, Ey;
    pose proof (Rdiv_lt_0_compat _ _ Ppsi N) as Q; pose proof (Rdiv_lt_0_compat _ _ Ppsi N') as Q'.
  - destruct Hk as [-> | ->].
    + pose proof (proj1 (sphere_below s p' q' r' t p q r _ _ _ Co' Co W)). nra.
    + pose proof (proj1 (sphere_below t p q r s p' q' r' _ _ _ Co Co' W')). nra.
  - destruct (IW In) as (J & J'). destruct Hk as [-> | ->].
    + pose proof (proj2 (proj2 (sphere_below s p' q' r' t p q r _ _ _ Co' Co W)) (fun e => Ne (eq_sym e)) J). nra.
    + pose proof (proj2 (proj2 (sphere_below t p q r s p' q' r' _ _ _ Co Co' W')) Ne J'). nra.
Qed.

Lemma sphere_data (P : R -> Prop) : (forall x y, P x -> 0 < y -> P (x * y)) -> weights_in P X -> positive_basis P X test -> positive_basis P X trial -> data_in reals P X test trial.
Proof.
  intros HP (W1 & W2) Bt Bs.
  assert (J : forall c t points p, (c < ent_count (built_grid id Triangle b) 2)%nat -> 0 < cm_jdet (x_geometry X (built_grid id Triangle b) t points c) p).
  { intros c t points p Hc. destruct (cell_corners c Hc) as (u & v & w & Co). rewrite (fc_area _ _ _ _ _ (Fl t points c u v w Co)). now apply (positive_norm c). }
  constructor.
  - intros fs t points p a [-> | ->]; [apply Bt|apply Bs].
  - intros fs t n q p w c Hf Eq Hw Hc. cbn [reals s_cast r_mul]. apply HP; [exact (proj1 (Forall_forall _ _) (W1 _ _ _ Eq) w (nth_error_In _ _ Hw))|].
    destruct Hf as [-> | ->]; [rewrite Gt in *|rewrite Gs in *]; now apply J.
  - intros t s kind dim pairs n q p w c d Eq Hw Hc Hd. cbn [reals s_cast r_mul]. rewrite Gt in *. apply HP; [exact (proj1 (Forall_forall _ _) (W2 _ _ _ _ _ Eq) w (nth_error_In _ _ Hw))|].
    apply Rmult_lt_0_compat; now apply J.
Qed.
End Kernel.
End Sphere.

Lemma real_signs : signs reals (fun v => v <= 0) (fun v => v < 0) (Rle 0) (Rlt 0).
Proof. constructor; cbn [reals s_zero s_add s_mul]; intros; try lra; nra. Qed.

Lemma nonneg_times : forall x y : R, 0 <= x -> 0 < y -> 0 <= x * y.
Proof. intros. nra. Qed.

Section Matrices.
Context (X : externals R) (level id wmod : nat) (kd : kind) (Hk : kd = Double \/ kd = Adjoint) (G : @green R R) (HG : repelling G)
  (o : options) (deg : cell_type -> cell_type -> nat) (pts : cell_type -> nat) (b : builder vec) (test trial : fspace R R).
Context (E : regular_sphere real_numbers level 1 = Ok b) (Gt : fs_grid test = built_grid id Triangle b) (Gs : fs_grid trial = built_grid id Triangle b).
Context (D : dense_setting X wmod (laplace_operator kd G) o deg pts Triangle test trial).
Context (Fl : flat_cells X (built_grid id Triangle b) b) (Ir : inside_rules X Triangle).
Context (W : weights_in (Rle 0) X) (Bt : positive_basis (Rle 0) X test) (Bs : positive_basis (Rle 0) X trial).

Let Dn : data_in reals (Rle 0) X test trial := sphere_data level b E X id Fl test trial Gt Gs (Rle 0) nonneg_times W Bt Bs.

Theorem sphere_negative rt : legal_runtime Rplus rt ->
  exists m, assemble reals X rt wmod (laplace_operator kd G) o trial test = Ok m /\ Forall (fun v => v <= 0) m.
Proof.
  intros L. pose proof (dn_proper _ _ _ _ _ _ _ _ _ D) as Hx.
  destruct (signed_entries reals _ _ _ _ real_signs X kd G Hk deg pts test trial Hx wmod o Triangle rt L D Dn) as (m & Em & Len & H).
  exists m. split; [exact Em|]. apply Forall_forall. intros v Hv. destruct (In_nth_error _ _ Hv) as (n & En).
  assert (Ln : (n < global_size (fs_space test) * global_size (fs_space trial))%nat) by (rewrite <- Len; apply nth_error_Some; congruence).
  set (g := global_size (fs_space test)) in *. assert (Pg : g <> 0%nat) by (intros Z; rewrite Z in Ln; cbn in Ln; lia).
  assert (Dm : n = (n mod g + g * (n / g))%nat) by (pose proof (Nat.div_mod n g Pg); lia).
  destruct (H (n mod g) (n / g))%nat as (v' & Ev & Nv & _).
  - now apply Nat.mod_upper_bound.
  - apply Nat.div_lt_upper_bound; lia.
  - intros t s (Ht & _) (Hs & _). rewrite Gt in Ht. rewrite Gs in Hs. now apply (derivative_sign level b E X id Fl G HG kd Hk deg pts test trial Gt Gs Ir t s).
  - rewrite <- Dm in Ev. rewrite En in Ev. now injection Ev as <-.
Qed.

Theorem sphere_strict rt : legal_runtime Rplus rt -> inner_rules X -> some_points X -> weights_in (Rlt 0) X -> positive_basis (Rlt 0) X test -> positive_basis (Rlt 0) X trial ->
  exists m, assemble reals X rt wmod (laplace_operator kd G) o trial test = Ok m /\
  forall i j t s, carried test i t -> carried trial j s -> t <> s -> exists v, nth_error m (i + global_size (fs_space test) * j) = Some v /\ v < 0.
Proof.
  intros L In Sm W' Bt' Bs'. pose proof (dn_proper _ _ _ _ _ _ _ _ _ D) as Hx.
  destruct (signed_entries reals _ _ _ _ real_signs X kd G Hk deg pts test trial Hx wmod o Triangle rt L D Dn) as (m & Em & Len & H).
  exists m. split; [exact Em|]. intros i j t s Ct Cs Ne.
  destruct (H i j) as (v & Ev & _ & Sv).
  - destruct Ct as (Ht & Hi). eapply serial_lt; eauto. apply (dn_test _ _ _ _ _ _ _ _ _ D).
  - destruct Cs as (Hs & Hj). eapply serial_lt; eauto. apply (dn_trial _ _ _ _ _ _ _ _ _ D).
  - intros t' s' (Ht & _) (Hs & _). rewrite Gt in Ht. rewrite Gs in Hs. now apply (derivative_sign level b E X id Fl G HG kd Hk deg pts test trial Gt Gs Ir t' s').
  - exists v. split; [exact Ev|]. apply Sv; [exact Sm| |].
    + apply (sphere_data level b E X id Fl test trial Gt Gs (Rlt 0)); auto. intros. now apply Rmult_lt_0_compat.
    + exists t, s. split; [exact Ct|]. split; [exact Cs|]. destruct Ct as (Ht & _), Cs as (Hs & _). rewrite Gt in Ht. rewrite Gs in Hs.
      now apply (derivative_sign level b E X id Fl G HG kd Hk deg pts test trial Gt Gs Ir t s).
Qed.

Theorem sphere_singular_negative rt : legal_runtime Rplus rt ->
  exists m, assemble_singular_part reals X rt wmod (laplace_operator kd G) o (shape_of test trial) trial test = Ok m /\ Forall (fun v => v <= 0) (sm_data m).
Proof.
  intros L. pose proof (dn_proper _ _ _ _ _ _ _ _ _ D) as Hx.
  apply (signed_singular reals _ _ _ _ real_signs X kd G Hk deg pts test trial Hx wmod o Triangle rt L D Dn).
  - now rewrite Gt, Gs.
  - intros t s Ht Hs. rewrite Gt in Ht. rewrite Gs in Hs. now apply (derivative_sign level b E X id Fl G HG kd Hk deg pts test trial Gt Gs Ir t s).
Qed.
End Matrices.
