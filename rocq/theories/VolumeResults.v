(** * Volume and area of the sphere *)
From Coq Require Import Reals Lra Psatz Permutation.
From Verif Require Import Base BaseFacts Topology TopologyFacts Shapes SpecShapes SphereFacts SphereSurface SphereResults ShapesResults SpecSphere SphereGeometry SphereTiling
  NestedResults SphereWidth SpecWidth WidthResults SphereShort SphereVolume SpecVolume AdjacencyFacts.

Local Open Scope R_scope.

(** ** Sums *)

Lemma vadd_comm p q : vadd p q = vadd q p.
Proof. destruct p as [[? ?] ?], q as [[? ?] ?]. cbn. f_equal; [f_equal|]; ring. Qed.
Lemma vadd_assoc p q r : vadd p (vadd q r) = vadd (vadd p q) r.
Proof. destruct p as [[? ?] ?], q as [[? ?] ?], r as [[? ?] ?]. cbn. f_equal; [f_equal|]; ring. Qed.
Lemma vadd_origin p : vadd origin p = p.
Proof. destruct p as [[? ?] ?]. cbn. f_equal; [f_equal|]; ring. Qed.

Lemma vtotal_cons {A : Type} (f : A -> vec) a l : vtotal f (a :: l) = vadd (f a) (vtotal f l).
Proof. reflexivity. Qed.
Lemma vtotal_app {A : Type} (f : A -> vec) l l' : vtotal f (l ++ l') = vadd (vtotal f l) (vtotal f l').
Proof. induction l as [|a l IH]; [symmetry; apply vadd_origin|]. cbn [app]. now rewrite !vtotal_cons, IH, vadd_assoc. Qed.

Lemma vtotal_perm {A : Type} (f : A -> vec) l l' : Permutation l l' -> vtotal f l = vtotal f l'.
Proof.
  induction 1 as [|a l l' _ IH|a a' l|l l1 l2 _ IH _ IH2]; rewrite ?vtotal_cons; auto.
  - now f_equal.
  - rewrite !vadd_assoc. now rewrite (vadd_comm (f a') (f a)).
  - congruence.
Qed.

Lemma vtotal_ext {A : Type} (f g : A -> vec) l : (forall a, In a l -> f a = g a) -> vtotal f l = vtotal g l.
Proof. induction l as [|a l IH]; intros H; [reflexivity|]. rewrite !vtotal_cons, IH by (intros; apply H; now right). rewrite H by now left. reflexivity. Qed.

Lemma vtotal_flat {A B : Type} (f : B -> vec) (h : A -> list B) l : vtotal f (flat_map h l) = vtotal (fun a => vtotal f (h a)) l.
Proof. induction l as [|a l IH]; [reflexivity|]. cbn [flat_map]. now rewrite vtotal_app, IH, vtotal_cons. Qed.

Lemma vtotal_map {A B : Type} (f : B -> vec) (h : A -> B) l : vtotal f (map h l) = vtotal (fun a => f (h a)) l.
Proof. induction l as [|a l IH]; [reflexivity|]. cbn [map]. now rewrite !vtotal_cons, IH. Qed.

Lemma vtotal_scale {A : Type} (f : A -> vec) s l : vtotal (fun a => vscale s (f a)) l = vscale s (vtotal f l).
Proof.
  induction l as [|a l IH]; [unfold vtotal, origin; cbn; now rewrite Rmult_0_r|]. rewrite !vtotal_cons, IH.
  destruct (f a) as [[? ?] ?], (vtotal f l) as [[? ?] ?]. cbn. f_equal; [f_equal|]; ring.
Qed.

Lemma total_cons {A : Type} (f : A -> R) a l : total f (a :: l) = f a + total f l.
Proof. reflexivity. Qed.
Lemma total_app {A : Type} (f : A -> R) l l' : total f (l ++ l') = total f l + total f l'.
Proof. induction l as [|a l IH]; [cbn [app]; change (total f []) with 0; ring|]. cbn [app]. rewrite !total_cons, IH. ring. Qed.
Lemma total_flat {A B : Type} (f : B -> R) (h : A -> list B) l : total f (flat_map h l) = total (fun a => total f (h a)) l.
Proof. induction l as [|a l IH]; [reflexivity|]. cbn [flat_map]. now rewrite total_app, IH, total_cons. Qed.
Lemma total_le {A : Type} (f g : A -> R) l : (forall a, In a l -> f a <= g a) -> total f l <= total g l.
Proof. induction l as [|a l IH]; intros H; [cbn; lra|]. rewrite !total_cons. apply Rplus_le_compat; [apply H; now left | apply IH; intros; apply H; now right]. Qed.
Lemma total_lt {A : Type} (f g : A -> R) l : l <> [] -> (forall a, In a l -> f a < g a) -> total f l < total g l.
Proof.
  intros N H. destruct l as [|a l]; [congruence|]. rewrite !total_cons.
  apply Rplus_lt_le_compat; [apply H; now left | apply total_le; intros; left; apply H; now right].
Qed.
Lemma total_scale {A : Type} (f : A -> R) s l : total (fun a => s * f a) l = s * total f l.
Proof. induction l as [|a l IH]; [cbn; ring|]. rewrite !total_cons, IH. ring. Qed.

(** ** Closed surfaces *)

Section Closed.
Variables (n : nat) (cells : list (list nat)).
Hypothesis SU : surface n cells.

Lemma edges_reversed : Permutation (flat_map directed_edges cells) (map (fun e => (snd e, fst e)) (flat_map directed_edges cells)).
Proof.
  assert (ND : NoDup (flat_map directed_edges cells)).
  { apply NoDup_flat_map; [apply (su_nodup _ _ SU)| |].
    - intros c Hc. destruct (su_cell _ _ SU c Hc) as (a & b & d & -> & B & N1 & N2 & N3). cbn.
      repeat constructor; cbn; intros C; repeat (destruct C as [C|C]; [injection C as C|]); try contradiction; congruence.
    - intros c c' e Hc Hc'. now apply (su_edge _ _ SU). }
  apply NoDup_Permutation; [exact ND| |].
  - apply NoDup_map_inj_in; [|exact ND]. intros [a b] [a' b'] _ _ E. cbn in E. injection E as -> ->. auto.
  - assert (G : forall u v, In (u, v) (flat_map directed_edges cells) -> In (v, u) (flat_map directed_edges cells)).
    { intros u v H. apply in_flat_map in H. destruct H as (c & Hc & He). destruct (su_closed _ _ SU c u v Hc He) as (c' & Hc' & He'). apply in_flat_map. eauto. }
    intros [u v]. rewrite in_map_iff. split.
    + intros H. exists (v, u). auto.
    + intros ([a b] & E & H). cbn in E. injection E as <- <-. now apply G.
Qed.

Lemma normals_cancel pos : vtotal (cell_normal pos) cells = origin.
Proof.
  set (f := fun e : nat * nat => cross (pos (fst e)) (pos (snd e))).
  assert (S : vtotal (cell_normal pos) cells = vtotal f (flat_map directed_edges cells)).
  { rewrite vtotal_flat. apply vtotal_ext. intros c Hc. destruct (su_cell _ _ SU c Hc) as (a & b & d & -> & _).
    unfold f. cbn. unfold normal. destruct (pos a) as [[? ?] ?], (pos b) as [[? ?] ?], (pos d) as [[? ?] ?]. cbn. f_equal; [f_equal|]; ring. }
  assert (T : vtotal f (flat_map directed_edges cells) = vscale (-1) (vtotal f (flat_map directed_edges cells))).
  { rewrite (vtotal_perm f _ _ edges_reversed) at 1. rewrite vtotal_map, <- vtotal_scale. apply vtotal_ext. intros [u v] _. unfold f. cbn.
    destruct (pos u) as [[? ?] ?], (pos v) as [[? ?] ?]. cbn. f_equal; [f_equal|]; ring. }
  rewrite S. destruct (vtotal f (flat_map directed_edges cells)) as [[x y] z]. cbn in T. injection T as Tx Ty Tz. unfold origin. f_equal; [f_equal|]; lra.
Qed.

Lemma volume_shift pos o : total (cell_volume o pos) cells = total (cell_volume origin pos) cells.
Proof.
  assert (E : total (cell_volume o pos) cells = total (cell_volume origin pos) cells - inner o (vtotal (cell_normal pos) cells) / 6).
  { assert (C : forall c, In c cells -> cell_volume o pos c = cell_volume origin pos c - inner o (cell_normal pos c) / 6).
    { intros c Hc. destruct (su_cell _ _ SU c Hc) as (a & b & d & -> & _). cbn [cell_volume cell_normal]. unfold normal, origin.
      destruct o as [[? ?] ?], (pos a) as [[? ?] ?], (pos b) as [[? ?] ?], (pos d) as [[? ?] ?]. cbn. field. }
    clear SU. induction cells as [|c l IH].
    - destruct o as [[? ?] ?]. unfold origin. cbn. field.
    - rewrite !total_cons, vtotal_cons.
      rewrite IH by (intros; apply C; now right). rewrite (C c) by now left.
      destruct o as [[? ?] ?], (cell_normal pos c) as [[? ?] ?], (vtotal (cell_normal pos) l) as [[? ?] ?]. cbn. field. }
  rewrite E, normals_cancel. destruct o as [[? ?] ?]. unfold origin. cbn. field.
Qed.
End Closed.

Theorem sphere_normals : forall R L b (pos : nat -> vec), regular_sphere R L 1 = Ok b -> vtotal (cell_normal pos) (cells_of b) = origin.
Proof. intros R L b pos E. destruct (sphere_surface R L) as (b' & E' & _ & _ & _ & _ & SU). rewrite E in E'. injection E' as <-. exact (normals_cancel _ _ SU pos). Qed.

Theorem sphere_volume_shift : forall R L b (pos : nat -> vec) o, regular_sphere R L 1 = Ok b ->
  total (cell_volume o pos) (cells_of b) = total (cell_volume origin pos) (cells_of b).
Proof. intros R L b pos o E. destruct (sphere_surface R L) as (b' & E' & _ & _ & _ & _ & SU). rewrite E in E'. injection E' as <-. exact (volume_shift _ _ SU pos o). Qed.

(** ** The volume grows *)

Lemma cell_volume_det pos u v w : cell_volume origin pos [u; v; w] = det (pos u) (pos v) (pos w) / 6.
Proof. cbn [cell_volume]. unfold det, origin. destruct (pos u) as [[? ?] ?], (pos v) as [[? ?] ?], (pos w) as [[? ?] ?]. cbn. field. Qed.

Section Step.
Variables (pts np : list vec) (cells : list (list nat)).
Hypothesis SU : surface (length pts) cells.
Hypothesis TI : tiling pts cells.
Hypothesis MF : Forall2 (made_for real_numbers pts) (grid_edges Triangle cells) np.
Local Notation m := (mid (length pts) (grid_edges Triangle cells)).

Lemma children_volume c : In c cells -> cell_volume origin (position pts) c < total (cell_volume origin (position (pts ++ np))) (children m c).
Proof.
  intros Hc. destruct (su_cell _ _ SU c Hc) as (a & b & d & -> & _). assert (R : rot [a; b; d] a b d) by (unfold rot; auto).
  pose proof (rot_turn _ _ _ _ R) as R1. pose proof (rot_turn _ _ _ _ R1) as R2.
  cbn [children total fold_right]. rewrite !cell_volume_det.
  rewrite (corner_det pts np cells SU TI MF _ _ _ _ Hc R), (corner_det pts np cells SU TI MF _ _ _ _ Hc R1), (corner_det pts np cells SU TI MF _ _ _ _ Hc R2), (center_det pts np cells SU TI MF _ _ _ _ Hc R).
  rewrite <- (det_turn (position pts a) (position pts b) (position pts d)), (det_turn (position pts d) (position pts a) (position pts b)).
  pose proof (factor_lower pts cells SU TI _ _ _ _ Hc R) as F1. pose proof (factor_lower pts cells SU TI _ _ _ _ Hc R1) as F2. pose proof (factor_lower pts cells SU TI _ _ _ _ Hc R2) as F3.
  rewrite (factor_sym (position pts b) (position pts a)), (factor_sym (position pts d) (position pts b)), (factor_sym (position pts a) (position pts d)).
  pose proof (ti_outward _ _ TI _ _ _ _ Hc R) as D.
  set (s := factor (position pts a) (position pts b)) in *. set (t := factor (position pts b) (position pts d)) in *. set (o := factor (position pts d) (position pts a)) in *.
  set (e := det (position pts a) (position pts b) (position pts d)) in *.
  assert (A1 : 1 / 4 < s * o) by nra. assert (A2 : 1 / 4 < t * s) by nra. assert (A3 : 1 / 4 < o * t) by nra. assert (A4 : 1 / 8 < t * o * s) by nra.
  set (k1 := s * o) in *. set (k2 := t * s) in *. set (k3 := o * t) in *. set (k4 := t * o * s) in *. nra.
Qed.
End Step.

Theorem volume_grows : forall L b b', regular_sphere real_numbers L 1 = Ok b -> regular_sphere real_numbers (S L) 1 = Ok b' -> volume b < volume b'.
Proof.
  intros L b b' E E'. destruct (sphere_tiling L) as (b0 & E0 & _ & _ & _ & N & SU & TI). rewrite E in E0. injection E0 as <-.
  destruct (two_levels real_numbers L b b' E E') as (np & P & _ & C & MF). unfold volume.
  assert (P' : @points_of vec b' = @points_of vec b ++ np) by exact P.
  assert (C' : @cells_of vec b' = flat_map (children (mid (length (@points_of vec b)) (grid_edges Triangle (@cells_of vec b)))) (@cells_of vec b)) by exact C.
  rewrite P', C', total_flat.
  apply total_lt; [|intros c Hc; now apply (children_volume _ np _ SU TI MF)].
  intros Z. assert (N' : length (@cells_of vec b) = (8 * 4 ^ L)%nat) by exact N. rewrite Z in N'. cbn in N'. pose proof (Nat.pow_nonzero 4 L ltac:(lia)). lia.
Qed.

Theorem volume_octahedron : forall b, regular_sphere real_numbers 0 1 = Ok b -> volume b = 4 / 3.
Proof.
  intros b E. destruct (sphere_of_levels real_numbers 0 (octahedron_points real_numbers) octahedron_cells eq_refl octahedron_surface) as (b0 & E0 & P & C).
  rewrite E in E0. injection E0 as <-. unfold volume.
  assert (P' : @points_of vec b = (octahedron_points real_numbers : list vec)) by exact P. assert (C' : @cells_of vec b = octahedron_cells) by exact C.
  rewrite P', C'. destruct octa_pos as (P0 & P1 & P2 & P3 & P4 & P5).
  cbn [octahedron_cells total fold_right cell_volume]. rewrite P0, P1, P2, P3, P4, P5. unfold origin. cbn. field.
Qed.

(** ** Area and volume *)

Lemma area_poly a b c w lo : 0 < lo -> lo <= a <= w -> lo <= b <= w -> lo <= c <= w -> w <= 3 * lo ->
  3 * (a * b * c) <= w * (2 * (a * b + b * c + c * a) - a * a - b * b - c * c).
Proof.
  intros Hl Ha Hb Hc Hw.
  assert (K : forall x y z, lo <= x <= w -> lo <= y <= x -> lo <= z <= x -> 3 * (x * y * z) <= w * (2 * (x * y + y * z + z * x) - x * x - y * y - z * z)).
  { intros x y z Hx Hy Hz.
    assert (Q : 3 * (y * z) <= 2 * (x * y + y * z + z * x) - x * x - y * y - z * z).
    { set (s := x - y). set (t := x - z). assert (0 <= s) by (unfold s; lra). assert (0 <= t) by (unfold t; lra).
      assert (s + t / 2 <= x) by (unfold s, t; lra). assert (t + s / 2 <= x) by (unfold s, t; lra).
      assert (0 <= s * (x - (s + t / 2))) by (apply Rmult_le_pos; lra). assert (0 <= t * (x - (t + s / 2))) by (apply Rmult_le_pos; lra).
      replace y with (x - s) by (unfold s; ring). replace z with (x - t) by (unfold t; ring). nra. }
    assert (0 <= y * z) by nra. nra. }
  destruct (Rle_lt_dec a b) as [Hab|Hab]; destruct (Rle_lt_dec b c) as [Hbc|Hbc]; destruct (Rle_lt_dec a c) as [Hac|Hac]; try lra.
  - pose proof (K c a b ltac:(lra) ltac:(lra) ltac:(lra)). lra.
  - pose proof (K b c a ltac:(lra) ltac:(lra) ltac:(lra)). lra.
  - pose proof (K b c a ltac:(lra) ltac:(lra) ltac:(lra)). lra.
  - pose proof (K c a b ltac:(lra) ltac:(lra) ltac:(lra)). lra.
  - pose proof (K a b c ltac:(lra) ltac:(lra) ltac:(lra)). lra.
  - pose proof (K a b c ltac:(lra) ltac:(lra) ltac:(lra)). lra.
Qed.

Lemma normal_det p q r : norm2 p = 1 -> norm2 q = 1 -> norm2 r = 1 ->
  let a := 1 - inner p q in let b := 1 - inner q r in let c := 1 - inner p r in
  norm2 (normal p q r) = 2 * (a * b + b * c + c * a) - a * a - b * b - c * c /\
  det p q r * det p q r = norm2 (normal p q r) - 2 * (a * b * c).
Proof.
  intros Np Nq Nr a b c.
  assert (N : norm2 (normal p q r) = 2 * (a * b + b * c + c * a) - a * a - b * b - c * c).
  { unfold a, b, c. transitivity ((norm2 p + norm2 q - 2 * inner p q) * (norm2 p + norm2 r - 2 * inner p r) - (norm2 p - inner p q - inner p r + inner q r) * (norm2 p - inner p q - inner p r + inner q r)).
    - unfold normal. destruct p as [[? ?] ?], q as [[? ?] ?], r as [[? ?] ?]. unfold norm2. cbn. ring.
    - rewrite Np, Nq, Nr. ring. }
  split; [exact N|]. rewrite (gram p q r Np Nq Nr), N. unfold a, b, c. ring.
Qed.

Lemma cell_ratio L b c : regular_sphere real_numbers L 1 = Ok b -> In c (cells_of b) ->
  3 * cell_volume origin (position (points_of b)) c <= cell_area (position (points_of b)) c /\
  sqrt (4 ^ L / (4 ^ L + 2)) * cell_area (position (points_of b)) c <= 3 * cell_volume origin (position (points_of b)) c.
Proof.
  intros E Hc. destruct (sphere_tiling L) as (b0 & E0 & _ & _ & _ & _ & SU & TI). rewrite E in E0. injection E0 as <-.
  destruct (su_cell _ _ SU c Hc) as (u & v & w & -> & _). assert (R : rot [u; v; w] u v w) by (unfold rot; auto).
  pose proof (rot_turn _ _ _ _ R) as R1. pose proof (rot_turn _ _ _ _ R1) as R2.
  rewrite cell_volume_det. unfold cell_area. cbn [cell_normal].
  pose proof (pos_unit _ _ SU TI _ _ _ _ Hc R) as Np. pose proof (pos_unit _ _ SU TI _ _ _ _ Hc R1) as Nq. pose proof (pos_unit _ _ SU TI _ _ _ _ Hc R2) as Nr.
  pose proof (ti_outward _ _ TI _ _ _ _ Hc R) as D.
  pose proof (sphere_short L b E _ _ _ _ Hc R) as S1. pose proof (sphere_short L b E _ _ _ _ Hc R1) as S2. pose proof (sphere_short L b E _ _ _ _ Hc R2) as S3.
  pose proof (sphere_spread L b E _ _ _ _ Hc R) as (_ & W1). pose proof (sphere_spread L b E _ _ _ _ Hc R1) as (_ & W2). pose proof (sphere_spread L b E _ _ _ _ Hc R2) as (_ & W3).
  set (p := position (points_of b) u) in *. set (q := position (points_of b) v) in *. set (r := position (points_of b) w) in *.
  rewrite (inner_sym r p) in S3, W3. fold (norm2 (normal p q r)).
  destruct (normal_det p q r Np Nq Nr) as (EN & ED).
  assert (Pl : 0 < 1 - cos (arc L)). { pose proof (short_any L). pose proof (pow4_pos L). assert (0 < / 4 ^ L) by (apply Rinv_0_lt_compat; lra). lra. }
  set (x := 1 - inner p q) in *. set (y := 1 - inner q r) in *. set (z := 1 - inner p r) in *.
  pose proof (area_poly x y z (widest L) (1 - cos (arc L)) Pl ltac:(unfold x in *; lra) ltac:(unfold y in *; lra) ltac:(unfold z in *; lra) ltac:(pose proof (wide_short L); lra)) as AP.
  rewrite <- EN in AP. pose proof (norm2_nonneg (normal p q r)) as PN.
  assert (Pxyz : 0 <= x * y * z) by (assert (0 <= x) by (unfold x; lra); assert (0 <= y) by (unfold y; lra); assert (0 <= z) by (unfold z; lra); apply Rmult_le_pos; [now apply Rmult_le_pos|assumption]).
  set (N := norm2 (normal p q r)) in *. set (e := det p q r) in *.
  pose proof (sqrt_sqrt N PN) as SN. pose proof (sqrt_pos N) as SP.
  split.
  - assert (e <= sqrt N) by (apply root_le; lra). lra.
  - assert (Pk : 0 < 4 ^ L) by (apply pow_lt; lra).
    assert (Ek : 4 ^ L / (4 ^ L + 2) = 1 - 2 / 3 * widest L) by (unfold widest; field; lra).
    assert (sqrt (4 ^ L / (4 ^ L + 2)) * sqrt N <= e); [|lra].
    assert (Kp : 0 <= 4 ^ L / (4 ^ L + 2)) by (apply Rmult_le_pos; [lra | left; apply Rinv_0_lt_compat; lra]).
    rewrite <- sqrt_mult by assumption. rewrite <- (sqrt_square e) by lra. apply sqrt_le_1_alt. rewrite Ek. lra.
Qed.

Theorem area_volume : forall L b, regular_sphere real_numbers L 1 = Ok b -> 3 * volume b <= area b /\ sqrt (4 ^ L / (4 ^ L + 2)) * area b <= 3 * volume b.
Proof.
  intros L b E. unfold volume, area. rewrite <- !total_scale. split; apply total_le; intros c Hc; now apply (cell_ratio L b c E).
Qed.
