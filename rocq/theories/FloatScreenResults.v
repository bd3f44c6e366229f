(** * Screens in floating point arithmetic: proofs *)
From Coq Require Import Reals Lra Psatz.
From Verif Require Import Base BaseFacts Topology Shapes SpecShapes SpecSphere SpecScreen SphereGeometry ScreenFacts ScreenGeometry ShapesResults
  SpecRounding RoundingResults RoundingModels SpecFloatSphere FloatSphere FloatSphereResults SpecFloatScreen.

Local Open Scope R_scope.

(** ** Screens with any increasing coordinates *)

Section Placed.
Variable n : nat.
Variable f : nat -> R.
Hypothesis increasing : forall k, (k < n)%nat -> f k < f (k + 1)%nat.

Local Notation m := (INR (n + 1)).
Local Notation id x y := (y * (n + 1) + x)%nat.
Local Notation pts := (map (screen_position n) (square_points (n + 1))).
Local Notation pts' := (map (fun p => (f (fst p), f (snd p), 0)) (square_points (n + 1))).

Lemma increasing_le i j : (i <= j)%nat -> (j <= n)%nat -> f i <= f j.
Proof.
  intros L. induction L as [|j L IH]; intros H; [lra|]. pose proof (increasing j ltac:(lia)) as I. rewrite Nat.add_1_r in I.
  pose proof (IH ltac:(lia)). lra.
Qed.
Lemma increasing_lt i j : (i < j)%nat -> (j <= n)%nat -> f i < f j.
Proof. intros L H. pose proof (increasing i ltac:(lia)). pose proof (increasing_le (i + 1) j ltac:(lia) H). lra. Qed.

Lemma pos_id' x y : (x <= n)%nat -> (y <= n)%nat -> position pts' (id x y) = (f x, f y, 0).
Proof.
  intros Hx Hy. unfold position. apply nth_error_nth_Some. rewrite (map_nth_error _ _ _ (square_point_at (n + 1) x y ltac:(lia) ltac:(lia))). reflexivity.
Qed.

(** The coordinate [a'] is where the coordinate [a / m] of the even screen is moved to. *)
Definition moved (a a' : R) : Prop := exists i s, (i < n)%nat /\ 0 <= s <= 1 /\ a = INR i + s /\ a' = f i + s * (f (i + 1)%nat - f i).

Lemma moved_inj a b a' : moved a a' -> moved b a' -> a = b.
Proof.
  intros (i & s & Hi & Hs & -> & E) (j & t & Hj & Ht & -> & E').
  assert (K : forall i s j t, (i < n)%nat -> (j < n)%nat -> 0 <= s <= 1 -> 0 <= t <= 1 -> (i < j)%nat ->
    f i + s * (f (i + 1)%nat - f i) = f j + t * (f (j + 1)%nat - f j) -> INR i + s = INR j + t).
  { clear - increasing. intros i s j t Hi Hj Hs Ht L E. pose proof (increasing i Hi). pose proof (increasing j Hj).
    destruct (Nat.eq_dec j (i + 1)) as [->|N].
    - rewrite S_INR1. assert (s = 1) by nra. assert (t = 0) by nra. lra.
    - exfalso. pose proof (increasing_lt (i + 1) j ltac:(lia) ltac:(lia)). nra. }
  destruct (lt_eq_lt_dec i j) as [[L| ->]|L].
  - apply K; auto; lra.
  - pose proof (increasing j Hj). assert (s = t) by nra. lra.
  - symmetry. apply K; auto; lra.
Qed.

Lemma moved_fun a a' b' : moved a a' -> moved a b' -> a' = b'.
Proof.
  intros (i & s & Hi & Hs & E & ->) (j & t & Hj & Ht & E' & ->).
  assert (K : forall i s j t, 0 <= s <= 1 -> 0 <= t <= 1 -> (i < j)%nat -> INR i + s = INR j + t -> j = (i + 1)%nat /\ s = 1 /\ t = 0).
  { clear. intros i s j t Hs Ht L E. pose proof (INR_gap _ _ L). destruct (Nat.eq_dec j (i + 1)) as [->|N].
    - rewrite S_INR1 in *. split; auto. lra.
    - exfalso. pose proof (INR_gap (i + 1) j ltac:(lia)). rewrite S_INR1 in *. lra. }
  destruct (lt_eq_lt_dec i j) as [[L| ->]|L].
  - destruct (K i s j t Hs Ht L ltac:(lra)) as (-> & -> & ->). lra.
  - assert (s = t) by lra. subst t. reflexivity.
  - destruct (K j t i s Ht Hs L ltac:(lra)) as (-> & -> & ->). lra.
Qed.

Lemma moved_from a : (0 < n)%nat -> 0 <= a <= INR n -> exists a', moved a a'.
Proof.
  intros Hn H. destruct (cell_between n a Hn H) as (i & Hi & B). exists (f i + (a - INR i) * (f (i + 1)%nat - f i)), i, (a - INR i).
  split; auto. split; [lra|]. split; [lra|reflexivity].
Qed.

Lemma moved_to a' : (0 < n)%nat -> f 0%nat <= a' <= f n -> exists a, 0 <= a <= INR n /\ moved a a'.
Proof.
  intros Hn H. assert (C : exists i, (i < n)%nat /\ f i <= a' <= f (i + 1)%nat).
  { revert Hn H. generalize n as k. clear. intros k. induction k as [|k IH]; intros Hn H; [lia|]. destruct (Rle_dec a' (f k)) as [L|L].
    - destruct k as [|k]; [exists 0%nat; cbn in *; split; [lia|lra]|]. destruct IH as (i & Hi & B); [lia|lra|]. exists i. split; [lia|lra].
    - exists k. rewrite Nat.add_1_r. split; [lia|lra]. }
  destruct C as (i & Hi & B). pose proof (increasing i Hi) as I. set (d := f (i + 1)%nat - f i). assert (D : 0 < d) by (unfold d; lra).
  assert (S : 0 <= (a' - f i) / d <= 1).
  { split.
    - apply Rmult_le_reg_r with d; auto. unfold Rdiv. rewrite Rmult_assoc, Rinv_l by lra. lra.
    - apply Rmult_le_reg_r with d; auto. unfold Rdiv. rewrite Rmult_assoc, Rinv_l by lra. unfold d. lra. }
  exists (INR i + (a' - f i) / d). pose proof (pos_INR i). pose proof (INR_gap _ _ Hi). split; [lra|].
  exists i, ((a' - f i) / d). split; auto. split; auto. split; auto. fold d. field. lra.
Qed.

Lemma moved_range a a' : moved a a' -> f 0%nat <= a' <= f n.
Proof.
  intros (i & s & Hi & Hs & _ & ->). pose proof (increasing i Hi). pose proof (increasing_le 0 i ltac:(lia) ltac:(lia)). pose proof (increasing_le (i + 1) n ltac:(lia) ltac:(lia)). nra.
Qed.

(** [x'] is where the point [x] of the even screen is moved to. *)
Definition moved_point (x x' : vec) : Prop := exists a b a' b', x = (a / m, b / m, 0) /\ x' = (a', b', 0) /\ moved a a' /\ moved b b'.

Lemma moved_point_inj x y x' : moved_point x x' -> moved_point y x' -> x = y.
Proof.
  intros (a & b & a' & b' & -> & -> & A & B) (c & d & c' & d' & -> & E & C & D). apply triple_eq in E. destruct E as (<- & <- & _).
  now rewrite (moved_inj a c a' A C), (moved_inj b d b' B D).
Qed.

Lemma div_inj a b : a / m = b / m -> a = b.
Proof. intros E. pose proof (m_pos n). apply (f_equal (fun z => z * m)) in E. replace (a / m * m) with a in E by (field; lra). replace (b / m * m) with b in E by (field; lra). exact E. Qed.

Lemma moved_point_fun x x' y' : moved_point x x' -> moved_point x y' -> x' = y'.
Proof.
  intros (a & b & a' & b' & -> & -> & A & B) (c & d & c' & d' & E & -> & C & D). apply triple_eq in E. destruct E as (E1 & E2 & _).
  apply div_inj in E1, E2. subst c d. now rewrite (moved_fun a a' c' A C), (moved_fun b b' d' B D).
Qed.

Lemma combination_moves c w : In c (triangle_cells n) -> (forall v, 0 <= w v) -> fold_right Rplus 0 (map w c) = 1 -> moved_point (combination pts w c) (combination pts' w c).
Proof.
  intros Hc W S. apply In_triangle_cells in Hc. destruct Hc as (i & j & Hi & Hj & Hc). destruct (corner_number n i j) as (A & B & C). pose proof (m_pos n) as M.
  destruct Hc as [-> | ->]; [unfold lower in *; rewrite A, B in *|unfold upper in *; rewrite B, C in *]; cbn [combination fold_right map] in *;
    rewrite !pos_id, !pos_id' by lia; rewrite (S_INR1 i), (S_INR1 j); cbn [vadd vscale origin].
  - set (wa := w (id i j)) in *. set (wb := w (id (i + 1) j)) in *. set (wc := w (id (i + 1) (j + 1))) in *.
    assert (Pa : 0 <= wa) by apply W. assert (Pb : 0 <= wb) by apply W. assert (Pc : 0 <= wc) by apply W. assert (Ea : wa = 1 - wb - wc) by lra.
    exists (INR i + (wb + wc)), (INR j + wc), (f i + (wb + wc) * (f (i + 1)%nat - f i)), (f j + wc * (f (j + 1)%nat - f j)).
    split; [rewrite Ea; f_equal; [f_equal|]; field; lra|]. split; [rewrite Ea; f_equal; [f_equal|]; ring|].
    split; eexists _, _; (split; [|split; [|split; reflexivity]]); auto; lra.
  - set (wa := w (id i j)) in *. set (wb := w (id (i + 1) (j + 1))) in *. set (wc := w (id i (j + 1))) in *.
    assert (Pa : 0 <= wa) by apply W. assert (Pb : 0 <= wb) by apply W. assert (Pc : 0 <= wc) by apply W. assert (Ea : wa = 1 - wb - wc) by lra.
    exists (INR i + wb), (INR j + (wb + wc)), (f i + wb * (f (i + 1)%nat - f i)), (f j + (wb + wc) * (f (j + 1)%nat - f j)).
    split; [rewrite Ea; f_equal; [f_equal|]; field; lra|]. split; [rewrite Ea; f_equal; [f_equal|]; ring|].
    split; eexists _, _; (split; [|split; [|split; reflexivity]]); auto; lra.
Qed.

Lemma triangle_moves c w x : In c (triangle_cells n) -> in_triangle pts c w x -> exists x', moved_point x x' /\ in_triangle pts' c w x'.
Proof.
  intros Hc ((W & Z & ->) & S). exists (combination pts' w c). split; [now apply combination_moves|]. split; auto. split; auto.
Qed.
Lemma triangle_moves_back c w x' : In c (triangle_cells n) -> in_triangle pts' c w x' -> exists x, moved_point x x' /\ in_triangle pts c w x.
Proof.
  intros Hc ((W & Z & ->) & S). exists (combination pts w c). split; [now apply combination_moves|]. split; auto. split; auto.
Qed.

Lemma quad_combination_moves c w s t : In c (quad_cells n) -> 0 <= s <= 1 -> 0 <= t <= 1 ->
  map w c = [(1 - s) * (1 - t); s * (1 - t); (1 - s) * t; s * t] -> moved_point (combination pts w c) (combination pts' w c).
Proof.
  intros Hc Hs Ht E. apply In_quad_cells in Hc. destruct Hc as (i & j & Hi & Hj & ->). destruct (corner_number n i j) as (A & B & C). pose proof (m_pos n) as M.
  unfold quad in *. rewrite A, B, C in *. cbn [combination map] in *. injection E as V1 V2 V3 V4. rewrite V1, V2, V3, V4.
  rewrite !pos_id, !pos_id' by lia. rewrite (S_INR1 i), (S_INR1 j). cbn [vadd vscale origin].
  exists (INR i + s), (INR j + t), (f i + s * (f (i + 1)%nat - f i)), (f j + t * (f (j + 1)%nat - f j)).
  split; [f_equal; [f_equal|]; field; lra|]. split; [f_equal; [f_equal|]; ring|].
  split; eexists _, _; (split; [|split; [|split; reflexivity]]); auto; lra.
Qed.

Lemma quad_moves c w x : In c (quad_cells n) -> in_quadrilateral pts c w x -> exists x', moved_point x x' /\ in_quadrilateral pts' c w x'.
Proof.
  intros Hc (s & t & Hs & Ht & E & Z & ->). exists (combination pts' w c). split; [now apply quad_combination_moves with s t|]. exists s, t. repeat split; auto; lra.
Qed.
Lemma quad_moves_back c w x' : In c (quad_cells n) -> in_quadrilateral pts' c w x' -> exists x, moved_point x x' /\ in_quadrilateral pts c w x.
Proof.
  intros Hc (s & t & Hs & Ht & E & Z & ->). exists (combination pts w c). split; [now apply quad_combination_moves with s t|]. exists s, t. repeat split; auto; lra.
Qed.

Lemma moved_in_box x x' : moved_point x x' -> in_box (f 0%nat) (f n) x'.
Proof. intros (a & b & a' & b' & _ & -> & A & B). exists a', b'. split; auto. split; eapply moved_range; eauto. Qed.

Lemma box_source x' : (0 < n)%nat -> in_box (f 0%nat) (f n) x' -> exists X Y, moved_point (X, Y, 0) x' /\ 0 <= X * m <= INR n /\ 0 <= Y * m <= INR n.
Proof.
  intros Hn (u & v & -> & HU & HV). destruct (moved_to u Hn HU) as (a & Ha & A). destruct (moved_to v Hn HV) as (b & Hb & B). pose proof (m_pos n) as M.
  exists (a / m), (b / m). split; [exists a, b, u, v; auto|]. replace (a / m * m) with a by (field; lra). replace (b / m * m) with b by (field; lra). auto.
Qed.

Theorem placed_triangles b : screen_triangles n = Ok b ->
  (forall x, (exists c w, In c (cells_of b) /\ in_triangle (placed f b) c w x) <-> in_box (f 0%nat) (f n) x) /\
  (forall c c' w w' x, In c (cells_of b) -> In c' (cells_of b) ->
     in_triangle (placed f b) c w x -> in_triangle (placed f b) c' w' x ->
     (forall v, w v = w' v) /\ forall v, w v <> 0 -> In v c /\ In v c') /\
  (forall c, In c (cells_of b) -> exists x y, (x < n)%nat /\ (y < n)%nat /\ forall i j k p q r, c = [i; j; k] ->
     nth_error (placed f b) i = Some p -> nth_error (placed f b) j = Some q -> nth_error (placed f b) k = Some r ->
     normal p q r = (0, 0, (f (x + 1)%nat - f x) * (f (y + 1)%nat - f y)) /\
     (vsub q p = (f (x + 1)%nat - f x, 0, 0) /\ vsub r q = (0, f (y + 1)%nat - f y, 0) \/
      vsub q r = (f (x + 1)%nat - f x, 0, 0) /\ vsub r p = (0, f (y + 1)%nat - f y, 0))).
Proof.
  intros E. assert (Hn : (0 < n)%nat) by (destruct n; [discriminate|lia]).
  destruct (screen_triangles_spec n ltac:(lia)) as (b' & E' & P & C & Lc). rewrite E in E'. injection E' as <-.
  assert (Pts : placed f b = pts') by (unfold placed, points_of; rewrite P; now rewrite map_snd_enumerate).
  assert (Cs : cells_of b = triangle_cells n) by (unfold cells_of; rewrite C; apply map_snd_enumerate). rewrite Pts, Cs. split; [|split].
  - intros x. split.
    + intros (c & w & Hc & I). destruct (triangle_moves_back c w x Hc I) as (y & Hy & _). eapply moved_in_box; eauto.
    + intros Hx. destruct (box_source x Hn Hx) as (X & Y & Hm & HX & HY). destruct (triangles_cover n X Y Hn HX HY) as (c & w & Hc & I).
      destruct (triangle_moves c w _ Hc I) as (x' & Hx' & I'). exists c, w. split; auto. now rewrite (moved_point_fun _ _ _ Hm Hx').
  - intros c c' w w' x Hc Hc' I I'.
    assert (EW : forall v, w v = w' v).
    { destruct (triangle_moves_back c w x Hc I) as (y & Hy & J). destruct (triangle_moves_back c' w' x Hc' I') as (y' & Hy' & J').
      assert (y' = y) by (eapply moved_point_inj; eauto). subst y'. exact (triangles_apart n c c' w w' y Hc Hc' J J'). }
    split; auto. intros v Hv. destruct I as ((_ & Z & _) & _), I' as ((_ & Z' & _) & _). split.
    + destruct (in_dec Nat.eq_dec v c) as [|N]; auto. now apply Z in N.
    + destruct (in_dec Nat.eq_dec v c') as [|N]; auto. apply Z' in N. now rewrite <- EW in N.
  - intros c Hc. apply In_triangle_cells in Hc. destruct Hc as (x & y & Hx & Hy & Hc). exists x, y. split; auto. split; auto.
    intros i j k p q r Ec Hp Hq Hr. destruct (corner_number n x y) as (A & B & D).
    apply nth_error_nth_Some with (d := origin) in Hp, Hq, Hr. fold (position pts' i) in Hp. fold (position pts' j) in Hq. fold (position pts' k) in Hr.
    destruct Hc as [-> | ->]; [unfold lower in Ec; rewrite A, B in Ec|unfold upper in Ec; rewrite B, D in Ec]; injection Ec as <- <- <-;
      rewrite !pos_id' in Hp, Hq, Hr by lia; subst p q r; (split; [unfold normal; cbn; f_equal; [f_equal|]; ring|]); [left|right];
      cbn; split; f_equal; try ring; f_equal; ring.
Qed.

Theorem placed_quadrilaterals b : screen_quadrilaterals n = Ok b ->
  (forall x, (exists c w, In c (cells_of b) /\ in_quadrilateral (placed f b) c w x) <-> in_box (f 0%nat) (f n) x) /\
  (forall c c' w w' x, In c (cells_of b) -> In c' (cells_of b) ->
     in_quadrilateral (placed f b) c w x -> in_quadrilateral (placed f b) c' w' x ->
     (forall v, w v = w' v) /\ forall v, w v <> 0 -> In v c /\ In v c') /\
  (forall c, In c (cells_of b) -> exists x y, (x < n)%nat /\ (y < n)%nat /\ forall i j k l p q r s, c = [i; j; k; l] ->
     nth_error (placed f b) i = Some p -> nth_error (placed f b) j = Some q -> nth_error (placed f b) k = Some r -> nth_error (placed f b) l = Some s ->
     vsub q p = (f (x + 1)%nat - f x, 0, 0) /\ vsub r p = (0, f (y + 1)%nat - f y, 0) /\
     vsub s r = (f (x + 1)%nat - f x, 0, 0) /\ vsub s q = (0, f (y + 1)%nat - f y, 0)).
Proof.
  intros E. assert (Hn : (0 < n)%nat) by (destruct n; [discriminate|lia]).
  destruct (screen_quadrilaterals_spec n ltac:(lia)) as (b' & E' & P & C & Lc). rewrite E in E'. injection E' as <-.
  assert (Pts : placed f b = pts') by (unfold placed, points_of; rewrite P; now rewrite map_snd_enumerate).
  assert (Cs : cells_of b = quad_cells n) by (unfold cells_of; rewrite C; apply map_snd_enumerate). rewrite Pts, Cs. split; [|split].
  - intros x. split.
    + intros (c & w & Hc & I). destruct (quad_moves_back c w x Hc I) as (y & Hy & _). eapply moved_in_box; eauto.
    + intros Hx. destruct (box_source x Hn Hx) as (X & Y & Hm & HX & HY). destruct (quads_cover n X Y Hn HX HY) as (c & w & Hc & I).
      destruct (quad_moves c w _ Hc I) as (x' & Hx' & I'). exists c, w. split; auto. now rewrite (moved_point_fun _ _ _ Hm Hx').
  - intros c c' w w' x Hc Hc' I I'.
    assert (EW : forall v, w v = w' v).
    { destruct (quad_moves_back c w x Hc I) as (y & Hy & J). destruct (quad_moves_back c' w' x Hc' I') as (y' & Hy' & J').
      assert (y' = y) by (eapply moved_point_inj; eauto). subst y'. exact (quads_apart n c c' w w' y Hc Hc' J J'). }
    split; auto. intros v Hv. destruct I as (s & t & _ & _ & _ & Z & _), I' as (s' & t' & _ & _ & _ & Z' & _). split.
    + destruct (in_dec Nat.eq_dec v c) as [|N]; auto. now apply Z in N.
    + destruct (in_dec Nat.eq_dec v c') as [|N]; auto. apply Z' in N. now rewrite <- EW in N.
  - intros c Hc. apply In_quad_cells in Hc. destruct Hc as (x & y & Hx & Hy & ->). exists x, y. split; auto. split; auto.
    intros i j k l p q r s Ec Hp Hq Hr Hs. destruct (corner_number n x y) as (A & B & D).
    apply nth_error_nth_Some with (d := origin) in Hp, Hq, Hr, Hs.
    fold (position pts' i) in Hp. fold (position pts' j) in Hq. fold (position pts' k) in Hr. fold (position pts' l) in Hs.
    unfold quad in Ec. rewrite A, B, D in Ec. injection Ec as <- <- <- <-. rewrite !pos_id' in Hp, Hq, Hr, Hs by lia. subst p q r s.
    cbn. repeat split; f_equal; try ring; f_equal; ring.
Qed.

End Placed.

(** ** Rounded coordinates *)

Section Rounded.
Context (u : R) (Hu : 0 <= u < 1) (rnd : R -> R) (Hr : relative u rnd).

Lemma rnd_zero : rnd 0 = 0.
Proof. destruct (rnd_near u Hu rnd Hr 0) as (t & -> & _). ring. Qed.

Lemma coordinate_near n k : exists D s, 0 < D /\ near u 2 s /\ rounded_coordinate rnd n k = INR k * s / D /\ D = rnd (INR (n + 1)) /\ exists t, D = INR (n + 1) * t /\ near u 1 t.
Proof.
  unfold rounded_coordinate, screen_denominator. destruct (rnd_near u Hu rnd Hr (INR (n + 1))) as (t & E & Ht). pose proof (near_pos u Hu _ _ Ht) as Pt. pose proof (m_pos n) as M.
  rewrite E. assert (D : 0 < INR (n + 1) * t) by nra. destruct (rnd_near u Hu rnd Hr (INR k)) as (s & -> & Hs).
  destruct (rnd_near u Hu rnd Hr (INR k * s / (INR (n + 1) * t))) as (e & -> & He).
  exists (INR (n + 1) * t), (s * e). split; auto. split; [exact (near_mul u Hu 1 1 _ _ Hs He)|]. split; [field; lra|]. split; auto. exists t. auto.
Qed.

Theorem coordinate_zero n : rounded_coordinate rnd n 0 = 0.
Proof. destruct (coordinate_near n 0) as (D & s & PD & _ & -> & _). cbn [INR]. field. lra. Qed.

Theorem coordinate_increasing n k : INR n * (growth u 4 - 1) < 1 -> (k < n)%nat -> rounded_coordinate rnd n k < rounded_coordinate rnd n (k + 1).
Proof.
  intros G L. destruct (coordinate_near n k) as (D & s & PD & Hs & -> & ED & _). destruct (coordinate_near n (k + 1)) as (D' & t & PD' & Ht & -> & ED' & _).
  assert (EE : D' = D) by congruence. clear ED ED'. subst D'. apply Rmult_lt_compat_r; [now apply Rinv_0_lt_compat|]. rewrite S_INR1.
  pose proof (growth_ge u Hu 2) as G2. assert (G4 : growth u 4 = growth u 2 * growth u 2) by exact (growth_add u 2 2).
  pose proof (pos_INR k) as Pk. pose proof (INR_gap _ _ L) as Lk. destruct Hs as (_ & Hs), Ht as (Ht & _).
  assert (K : INR k * (growth u 4 - 1) < 1) by nra.
  apply Rle_lt_trans with (INR k * growth u 2); [nra|]. apply Rlt_le_trans with ((INR k + 1) * / growth u 2); [|apply Rmult_le_compat_l; lra].
  apply (Rmult_lt_reg_r (growth u 2)); [lra|]. rewrite !Rmult_assoc, Rinv_l by lra. rewrite <- G4. nra.
Qed.

Theorem coordinate_error n k : Rabs (rounded_coordinate rnd n k - INR k / INR (n + 1)) <= (growth u 3 - 1) * (INR k / INR (n + 1)).
Proof.
  destruct (coordinate_near n k) as (D & s & PD & Hs & -> & _ & t & -> & Ht). pose proof (m_pos n) as M. pose proof (near_pos u Hu _ _ Ht) as Pt.
  pose proof (near_mul u Hu 2 1 _ _ Hs (near_inv u Hu _ _ Ht)) as H. cbn [Nat.add] in H.
  replace (INR k * s / (INR (n + 1) * t)) with (INR k / INR (n + 1) * (s * / t)) by (field; lra).
  eapply Rle_trans; [apply (near_abs u Hu 3 _ _ H)|]. apply Req_le. f_equal. apply Rabs_right, Rle_ge.
  apply Rmult_le_pos; [apply pos_INR|left; now apply Rinv_0_lt_compat].
Qed.

(** The sides of the cells. *)
Theorem side_error n k : (k < n)%nat ->
  Rabs ((rounded_coordinate rnd n (k + 1) - rounded_coordinate rnd n k) * INR (n + 1) - 1) <= 2 * INR n * (growth u 3 - 1).
Proof.
  intros L. pose proof (coordinate_error n k) as A. pose proof (coordinate_error n (k + 1)) as B. pose proof (m_pos n) as M. rewrite S_INR1 in B.
  pose proof (INR_gap _ _ L) as Lk. pose proof (pos_INR k). pose proof (growth_ge u Hu 3) as G. set (g := growth u 3 - 1) in *. assert (Pg : 0 <= g) by (unfold g; lra).
  set (x := rounded_coordinate rnd n k) in *. set (y := rounded_coordinate rnd n (k + 1)) in *. set (N := INR (n + 1)) in *.
  assert (A' : Rabs (x * N - INR k) <= g * INR k).
  { replace (x * N - INR k) with ((x - INR k / N) * N) by (field; lra). rewrite Rabs_mult, (Rabs_right N) by lra.
    replace (g * INR k) with (g * (INR k / N) * N) by (field; lra). apply Rmult_le_compat_r; lra. }
  assert (B' : Rabs (y * N - (INR k + 1)) <= g * (INR k + 1)).
  { replace (y * N - (INR k + 1)) with ((y - (INR k + 1) / N) * N) by (field; lra). rewrite Rabs_mult, (Rabs_right N) by lra.
    replace (g * (INR k + 1)) with (g * ((INR k + 1) / N) * N) by (field; lra). apply Rmult_le_compat_r; lra. }
  replace ((y - x) * N - 1) with ((y * N - (INR k + 1)) - (x * N - INR k)) by ring.
  eapply Rle_trans; [apply Rabs_triang|]. rewrite Rabs_Ropp. nra.
Qed.
End Rounded.

(** Numbers of [p] bits. *)
Lemma bits_fine p n : 4 * INR (n + 1) < 2 ^ p -> 0 <= (/ 2) ^ p < 1 /\ INR n * (growth ((/ 2) ^ p) 4 - 1) < 1.
Proof.
  intros H. rewrite pow_inv. pose proof (pos_INR n) as Pn. rewrite S_INR1 in H. set (q := 2 ^ p) in *. assert (Q : 4 < q) by lra.
  assert (U : 0 < / q) by (apply Rinv_0_lt_compat; lra). assert (U4 : 4 * / q * (INR n + 1) < 1).
  { apply (Rmult_lt_reg_r q); [lra|]. replace (4 * / q * (INR n + 1) * q) with (4 * (INR n + 1)) by (field; lra). lra. }
  set (v := / q) in *. assert (V1 : 4 * v < 1) by nra. split; [lra|].
  unfold growth. assert (G : (/ (1 - v)) ^ 4 <= / (1 - 4 * v)).
  { rewrite pow_inv. apply Rinv_le_contravar; [lra|]. cbn [pow]. nra. }
  apply Rle_lt_trans with (INR n * (/ (1 - 4 * v) - 1)); [nra|].
  apply (Rmult_lt_reg_r (1 - 4 * v)); [lra|]. replace (INR n * (/ (1 - 4 * v) - 1) * (1 - 4 * v)) with (INR n * (4 * v)) by (field; lra). lra.
Qed.

Theorem bits_coordinates p n : 4 * INR (n + 1) < 2 ^ p ->
  rounded_coordinate (fl p) n 0 = 0 /\ (forall k, (k < n)%nat -> rounded_coordinate (fl p) n k < rounded_coordinate (fl p) n (k + 1)).
Proof.
  intros H. destruct (bits_fine p n H) as (Hu & G). split; [exact (coordinate_zero _ Hu _ (fl_relative p) n)|].
  intros k L. exact (coordinate_increasing _ Hu _ (fl_relative p) n k G L).
Qed.

(** ** The tilings *)

Theorem rounded_triangles u rnd n b : 0 <= u < 1 -> relative u rnd -> INR n * (growth u 4 - 1) < 1 -> screen_triangles n = Ok b ->
  let pts := placed (rounded_coordinate rnd n) b in
  (forall x, (exists c w, In c (cells_of b) /\ in_triangle pts c w x) <-> in_square (rounded_coordinate rnd n n) x) /\
  (forall c c' w w' x, In c (cells_of b) -> In c' (cells_of b) -> in_triangle pts c w x -> in_triangle pts c' w' x ->
     (forall v, w v = w' v) /\ forall v, w v <> 0 -> In v c /\ In v c') /\
  (forall c i j k p q r, In c (cells_of b) -> c = [i; j; k] ->
     nth_error pts i = Some p -> nth_error pts j = Some q -> nth_error pts k = Some r ->
     exists a d, 0 < a /\ 0 < d /\ Rabs (a * INR (n + 1) - 1) <= 2 * INR n * (growth u 3 - 1) /\ Rabs (d * INR (n + 1) - 1) <= 2 * INR n * (growth u 3 - 1) /\
       normal p q r = (0, 0, a * d) /\
       (vsub q p = (a, 0, 0) /\ vsub r q = (0, d, 0) \/ vsub q r = (a, 0, 0) /\ vsub r p = (0, d, 0))).
Proof.
  intros Hu Hr G E pts. pose proof (coordinate_increasing u Hu rnd Hr n) as I.
  destruct (placed_triangles n (rounded_coordinate rnd n) (fun k L => I k G L) b E) as (A & B & C). split; [|split; [exact B|]].
  - intros x. unfold pts. rewrite (A x), (coordinate_zero u Hu rnd Hr n). reflexivity.
  - intros c i j k p q r Hc Ec Hp Hq Hk. destruct (C c Hc) as (x & y & Hx & Hy & D). destruct (D i j k p q r Ec Hp Hq Hk) as (D1 & D2).
    exists (rounded_coordinate rnd n (x + 1) - rounded_coordinate rnd n x), (rounded_coordinate rnd n (y + 1) - rounded_coordinate rnd n y).
    pose proof (I x G Hx). pose proof (I y G Hy). split; [lra|]. split; [lra|].
    split; [now apply side_error|]. split; [now apply side_error|]. split; auto.
Qed.

Theorem rounded_quadrilaterals u rnd n b : 0 <= u < 1 -> relative u rnd -> INR n * (growth u 4 - 1) < 1 -> screen_quadrilaterals n = Ok b ->
  let pts := placed (rounded_coordinate rnd n) b in
  (forall x, (exists c w, In c (cells_of b) /\ in_quadrilateral pts c w x) <-> in_square (rounded_coordinate rnd n n) x) /\
  (forall c c' w w' x, In c (cells_of b) -> In c' (cells_of b) -> in_quadrilateral pts c w x -> in_quadrilateral pts c' w' x ->
     (forall v, w v = w' v) /\ forall v, w v <> 0 -> In v c /\ In v c') /\
  (forall c i j k l p q r s, In c (cells_of b) -> c = [i; j; k; l] ->
     nth_error pts i = Some p -> nth_error pts j = Some q -> nth_error pts k = Some r -> nth_error pts l = Some s ->
     exists a d, 0 < a /\ 0 < d /\ Rabs (a * INR (n + 1) - 1) <= 2 * INR n * (growth u 3 - 1) /\ Rabs (d * INR (n + 1) - 1) <= 2 * INR n * (growth u 3 - 1) /\
       vsub q p = (a, 0, 0) /\ vsub r p = (0, d, 0) /\ vsub s r = (a, 0, 0) /\ vsub s q = (0, d, 0)).
Proof.
  intros Hu Hr G E pts. pose proof (coordinate_increasing u Hu rnd Hr n) as I.
  destruct (placed_quadrilaterals n (rounded_coordinate rnd n) (fun k L => I k G L) b E) as (A & B & C). split; [|split; [exact B|]].
  - intros x. unfold pts. rewrite (A x), (coordinate_zero u Hu rnd Hr n). reflexivity.
  - intros c i j k l p q r s Hc Ec Hp Hq Hk Hl. destruct (C c Hc) as (x & y & Hx & Hy & D). pose proof (D i j k l p q r s Ec Hp Hq Hk Hl) as D1.
    exists (rounded_coordinate rnd n (x + 1) - rounded_coordinate rnd n x), (rounded_coordinate rnd n (y + 1) - rounded_coordinate rnd n y).
    pose proof (I x G Hx). pose proof (I y G Hy). split; [lra|]. split; [lra|].
    split; [now apply side_error|]. split; [now apply side_error|]. exact D1.
Qed.

Lemma screen_bits : forall n, INR n <= 2 ^ 21 -> 4 * INR (n + 1) < 2 ^ 24.
Proof. intros n H. rewrite S_INR1. cbn [pow] in *. lra. Qed.

Lemma screen_float_example : exists b bq, screen_triangles 3 = Ok b /\ screen_quadrilaterals 3 = Ok bq /\
  0 <= (/ 2) ^ 24 < 1 /\ relative ((/ 2) ^ 24) (fl 24) /\ INR 3 * (growth ((/ 2) ^ 24) 4 - 1) < 1 /\
  nth_error (cells_of b) 0 = Some [0; 1; 5]%nat /\ nth_error (placed (rounded_coordinate (fl 24) 3) b) 5 = Some (fl 24 (fl 24 (INR 1) / fl 24 (INR (3 + 1))), fl 24 (fl 24 (INR 1) / fl 24 (INR (3 + 1))), 0).
Proof.
  destruct (screen_triangles_spec 3 ltac:(lia)) as (b & E & P & C & _). destruct (screen_quadrilaterals_spec 3 ltac:(lia)) as (bq & Eq & _).
  exists b, bq. split; auto. split; auto. destruct (bits_fine 24 3) as (Hu & G); [apply screen_bits; cbn [INR pow]; lra|].
  split; auto. split; [apply fl_relative|]. split; auto. split; [unfold cells_of; rewrite C; reflexivity|].
  unfold placed, points_of. rewrite P. reflexivity.
Qed.
