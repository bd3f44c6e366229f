(** * Screens: geometry *)
From Coq Require Import Reals Lra Psatz.
From Verif Require Import Base BaseFacts Topology Shapes SpecShapes SpecSphere SpecScreen SphereGeometry ScreenFacts.

Local Open Scope R_scope.

(** The nodal functions of a vertex at the origin. *)
Definition hat (s t : R) : R := Rmax 0 (1 - Rmax (Rmax (Rabs s) (Rabs t)) (Rabs (s - t))).
Definition tent (s : R) : R := Rmax 0 (1 - Rabs s).

Lemma hat_zero s t : s <= -1 \/ 1 <= s \/ t <= -1 \/ 1 <= t \/ s - t <= -1 \/ 1 <= s - t -> hat s t = 0.
Proof.
  intros H. unfold hat. apply Rmax_left. pose proof (Rmax_l (Rmax (Rabs s) (Rabs t)) (Rabs (s - t))). pose proof (Rmax_r (Rmax (Rabs s) (Rabs t)) (Rabs (s - t))).
  pose proof (Rmax_l (Rabs s) (Rabs t)). pose proof (Rmax_r (Rabs s) (Rabs t)).
  pose proof (Rle_abs s). pose proof (Rle_abs t). pose proof (Rle_abs (s - t)). pose proof (Rle_abs (- s)). pose proof (Rle_abs (- t)). pose proof (Rle_abs (- (s - t))).
  rewrite Rabs_Ropp in *. lra.
Qed.

Lemma tent_zero s : s <= -1 \/ 1 <= s -> tent s = 0.
Proof. intros H. unfold tent. apply Rmax_left. pose proof (Rle_abs s). pose proof (Rle_abs (- s)). rewrite Rabs_Ropp in *. lra. Qed.

Ltac hats := unfold hat, tent, Rmax, Rabs; repeat (destruct (Rcase_abs _)); repeat (destruct (Rle_dec _ _)); lra.

Section Screen.
Variable n : nat.
Local Notation m := (INR (n + 1)).
Local Notation id x y := (y * (n + 1) + x)%nat.
Local Notation pts := (map (screen_position n) (square_points (n + 1))).

Lemma m_pos : 0 < m.
Proof. apply lt_0_INR. lia. Qed.

Lemma pos_id x y : (x <= n)%nat -> (y <= n)%nat -> position pts (id x y) = (INR x / m, INR y / m, 0).
Proof.
  intros Hx Hy. unfold position. apply nth_error_nth_Some. rewrite (map_nth_error _ _ _ (square_point_at (n + 1) x y ltac:(lia) ltac:(lia))). reflexivity.
Qed.

Lemma S_INR1 x : INR (x + 1) = INR x + 1.
Proof. rewrite plus_INR. reflexivity. Qed.

Lemma INR_gap p i : (p < i)%nat -> INR p + 1 <= INR i.
Proof. intros H. rewrite <- S_INR1. apply le_INR. lia. Qed.

Lemma triple_eq (a b c d e f : R) : (a, b, c) = (d, e, f) -> a = d /\ b = e /\ c = f.
Proof. intros E. now inversion E. Qed.

Lemma scaled_eq X a : X = a / m -> X * m = a.
Proof. intros ->. field. apply Rgt_not_eq, m_pos. Qed.

(** Weights in a triangle. *)
Lemma lower_point i j w X Y Z : (i < n)%nat -> (j < n)%nat -> in_triangle pts (lower n i j) w (X, Y, Z) ->
  exists wa wb wc, w (id i j) = wa /\ w (id (i + 1) j) = wb /\ w (id (i + 1) (j + 1)) = wc /\
    (forall p q, (p <= n)%nat -> (p, q) <> (i, j) -> (p, q) <> (i + 1, j)%nat -> (p, q) <> (i + 1, j + 1)%nat -> w (id p q) = 0) /\
    0 <= wa /\ 0 <= wb /\ 0 <= wc /\ wa + wb + wc = 1 /\ X * m = INR i + wb + wc /\ Y * m = INR j + wc /\ Z = 0.
Proof.
  intros Hi Hj ((W0 & WZ & E) & S). destruct (corner_number n i j) as (A & B & C). unfold lower in S, E. rewrite A, B in S, E. cbn [combination fold_right map] in S, E.
  rewrite !pos_id in E by lia. rewrite (S_INR1 i), (S_INR1 j) in E. cbn [vadd vscale origin] in E. apply triple_eq in E. destruct E as (E1 & E2 & E3).
  exists (w (id i j)), (w (id (i + 1) j)), (w (id (i + 1) (j + 1))). split; auto. split; auto. split; auto. split.
  { intros p q Hp N1 N2 N3. apply WZ. rewrite In_lower. intros [K|[K|K]]; apply id_inj in K; try lia; destruct K as (-> & ->); congruence. }
  do 4 (split; [auto; lra|]). split; [|split].
  - apply scaled_eq. rewrite E1. unfold Rdiv. replace (w (id i j)) with (1 - w (id (i + 1) j) - w (id (i + 1) (j + 1))) by lra. ring.
  - apply scaled_eq. rewrite E2. unfold Rdiv. replace (w (id i j)) with (1 - w (id (i + 1) j) - w (id (i + 1) (j + 1))) by lra. ring.
  - rewrite E3. ring.
Qed.

Lemma upper_point i j w X Y Z : (i < n)%nat -> (j < n)%nat -> in_triangle pts (upper n i j) w (X, Y, Z) ->
  exists wa wb wc, w (id i j) = wa /\ w (id (i + 1) (j + 1)) = wb /\ w (id i (j + 1)) = wc /\
    (forall p q, (p <= n)%nat -> (p, q) <> (i, j) -> (p, q) <> (i + 1, j + 1)%nat -> (p, q) <> (i, j + 1)%nat -> w (id p q) = 0) /\
    0 <= wa /\ 0 <= wb /\ 0 <= wc /\ wa + wb + wc = 1 /\ X * m = INR i + wb /\ Y * m = INR j + wb + wc /\ Z = 0.
Proof.
  intros Hi Hj ((W0 & WZ & E) & S). destruct (corner_number n i j) as (A & B & C). unfold upper in S, E. rewrite B, C in S, E. cbn [combination fold_right map] in S, E.
  rewrite !pos_id in E by lia. rewrite (S_INR1 i), (S_INR1 j) in E. cbn [vadd vscale origin] in E. apply triple_eq in E. destruct E as (E1 & E2 & E3).
  exists (w (id i j)), (w (id (i + 1) (j + 1))), (w (id i (j + 1))). split; auto. split; auto. split; auto. split.
  { intros p q Hp N1 N2 N3. apply WZ. rewrite In_upper. intros [K|[K|K]]; apply id_inj in K; try lia; destruct K as (-> & ->); congruence. }
  do 4 (split; [auto; lra|]). split; [|split].
  - apply scaled_eq. rewrite E1. unfold Rdiv. replace (w (id i j)) with (1 - w (id (i + 1) (j + 1)) - w (id i (j + 1))) by lra. ring.
  - apply scaled_eq. rewrite E2. unfold Rdiv. replace (w (id i j)) with (1 - w (id (i + 1) (j + 1)) - w (id i (j + 1))) by lra. ring.
  - rewrite E3. ring.
Qed.

Lemma outside_weight c w x v : In c (triangle_cells n) -> in_triangle pts c w x -> ((n + 1) * (n + 1) <= v)%nat -> w v = 0.
Proof.
  intros Hc ((_ & WZ & _) & _) Hv. apply WZ. intros C. destruct (proj2 (triangles_valid n) c Hc) as (_ & _ & B). specialize (B v C). lia.
Qed.

Ltac zero_case H0 := rewrite H0; [symmetry; apply hat_zero|lia|intros Epq; injection Epq; lia..].

Lemma triangle_weight c w X Y Z p q : In c (triangle_cells n) -> in_triangle pts c w (X, Y, Z) -> (p <= n)%nat -> (q <= n)%nat ->
  w (id p q) = hat (X * m - INR p) (Y * m - INR q).
Proof.
  intros Hc I Hp Hq. apply In_triangle_cells in Hc. destruct Hc as (i & j & Hi & Hj & [-> | ->]).
  - destruct (lower_point i j w X Y Z Hi Hj I) as (wa & wb & wc & Ea & Eb & Ec & H0 & Pa & Pb & Pc & S & EX & EY & _). rewrite EX, EY.
    pose proof (S_INR1 i) as Si. pose proof (S_INR1 j) as Sj.
    destruct (lt_eq_lt_dec p i) as [[Lp| ->]|Lp].
    + pose proof (INR_gap _ _ Lp). zero_case H0. lra.
    + destruct (lt_eq_lt_dec q j) as [[Lq| ->]|Lq].
      * pose proof (INR_gap _ _ Lq). zero_case H0. lra.
      * rewrite Ea. hats.
      * pose proof (INR_gap _ _ Lq). zero_case H0. lra.
    + destruct (Nat.eq_dec p (i + 1)) as [->|Np].
      * rewrite Si. destruct (lt_eq_lt_dec q j) as [[Lq| ->]|Lq].
        -- pose proof (INR_gap _ _ Lq). zero_case H0. lra.
        -- rewrite Eb. hats.
        -- destruct (Nat.eq_dec q (j + 1)) as [->|Nq].
           ++ rewrite Sj, Ec. hats.
           ++ pose proof (INR_gap (j + 1) q ltac:(lia)). zero_case H0. lra.
      * pose proof (INR_gap (i + 1) p ltac:(lia)). zero_case H0. lra.
  - destruct (upper_point i j w X Y Z Hi Hj I) as (wa & wb & wc & Ea & Eb & Ec & H0 & Pa & Pb & Pc & S & EX & EY & _). rewrite EX, EY.
    pose proof (S_INR1 i) as Si. pose proof (S_INR1 j) as Sj.
    destruct (lt_eq_lt_dec q j) as [[Lq| ->]|Lq].
    + pose proof (INR_gap _ _ Lq). zero_case H0. lra.
    + destruct (lt_eq_lt_dec p i) as [[Lp| ->]|Lp].
      * pose proof (INR_gap _ _ Lp). zero_case H0. lra.
      * rewrite Ea. hats.
      * pose proof (INR_gap _ _ Lp). zero_case H0. lra.
    + destruct (Nat.eq_dec q (j + 1)) as [->|Nq].
      * rewrite Sj. destruct (lt_eq_lt_dec p i) as [[Lp| ->]|Lp].
        -- pose proof (INR_gap _ _ Lp). zero_case H0. lra.
        -- rewrite Ec. hats.
        -- destruct (Nat.eq_dec p (i + 1)) as [->|Np].
           ++ rewrite Si, Eb. hats.
           ++ pose proof (INR_gap (i + 1) p ltac:(lia)). zero_case H0. lra.
      * pose proof (INR_gap (j + 1) q ltac:(lia)). zero_case H0. lra.
Qed.

Lemma triangles_apart c c' w w' x : In c (triangle_cells n) -> In c' (triangle_cells n) -> in_triangle pts c w x -> in_triangle pts c' w' x -> forall v, w v = w' v.
Proof.
  intros Hc Hc' I I' v. destruct (le_lt_dec ((n + 1) * (n + 1)) v) as [Hv|Hv].
  - now rewrite (outside_weight c w x v), (outside_weight c' w' x v).
  - destruct x as [[X Y] Z]. destruct (number_of (n + 1) v Hv) as (p & q & Hp & Hq & ->).
    rewrite (triangle_weight c w X Y Z), (triangle_weight c' w' X Y Z) by (auto; lia). reflexivity.
Qed.

Lemma cell_between k a : (0 < k)%nat -> 0 <= a <= INR k -> exists i, (i < k)%nat /\ INR i <= a <= INR i + 1.
Proof.
  induction k as [|k IH]; intros Hk Ha; [lia|]. rewrite S_INR in Ha. destruct (Rle_dec a (INR k)) as [L|L].
  - destruct k as [|k]; [exists 0%nat; cbn in *; split; [lia|lra]|]. destruct IH as (i & Hi & B); [lia|lra|]. exists i. split; [lia|lra].
  - exists k. split; [lia|lra].
Qed.

Lemma square_scaled X : 0 <= X <= INR n / m -> 0 <= X * m <= INR n.
Proof.
  intros (A & B). pose proof m_pos as M. split; [apply Rmult_le_pos; lra|]. apply (Rmult_le_compat_r m) in B; [|lra].
  replace (INR n / m * m) with (INR n) in B by (field; lra). exact B.
Qed.
Lemma square_unscaled X : 0 <= X * m <= INR n -> 0 <= X <= INR n / m.
Proof.
  intros (A & B). pose proof m_pos as M. split.
  - apply (Rmult_le_reg_r m); lra.
  - apply (Rmult_le_reg_r m); [exact M|]. replace (INR n / m * m) with (INR n) by (field; lra). exact B.
Qed.

Lemma three_in_triangle u v t p q r x : u <> v -> v <> t -> u <> t -> 0 <= p -> 0 <= q -> 0 <= r -> p + q + r = 1 ->
  x = vadd (vscale p (position pts u)) (vadd (vscale q (position pts v)) (vscale r (position pts t))) ->
  in_triangle pts [u; v; t] (on3 u v t p q r) x.
Proof.
  intros N1 N2 N3 P Q RR S ->. destruct (on3_values u v t p q r N1 N2 N3) as (V1 & V2 & V3). split; [split; [now apply on3_nonneg|split]|].
  - intros y Hy. apply on3_outside; intros ->; apply Hy; cbn; auto.
  - cbn [combination]. rewrite V1, V2, V3. destruct (position pts u) as [[? ?] ?], (position pts v) as [[? ?] ?], (position pts t) as [[? ?] ?].
    unfold origin. cbn. f_equal; [f_equal|]; ring.
  - cbn [map fold_right]. rewrite V1, V2, V3. lra.
Qed.

Lemma unscale X a : X * m = a -> X = a / m.
Proof. intros <-. field. apply Rgt_not_eq, m_pos. Qed.

Lemma triangles_cover X Y : (0 < n)%nat -> 0 <= X * m <= INR n -> 0 <= Y * m <= INR n -> exists c w, In c (triangle_cells n) /\ in_triangle pts c w (X, Y, 0).
Proof.
  intros Hn HX HY. pose proof m_pos as M. destruct (cell_between n _ Hn HX) as (i & Hi & BX). destruct (cell_between n _ Hn HY) as (j & Hj & BY).
  destruct (corner_number n i j) as (A & B & C). pose proof (S_INR1 i) as Si. pose proof (S_INR1 j) as Sj.
  set (s := X * m - INR i). set (t := Y * m - INR j).
  assert (EX : X = (INR i + s) / m) by (apply unscale; unfold s; ring). assert (EY : Y = (INR j + t) / m) by (apply unscale; unfold t; ring).
  destruct (Rle_dec t s) as [L|L].
  - exists (lower n i j), (on3 (id i j) (id (i + 1) j) (id (i + 1) (j + 1)) (1 - s) (s - t) t). split; [apply In_triangle_cells; exists i, j; auto|].
    unfold lower. rewrite A, B. unfold s, t in *. apply three_in_triangle; try lia; try lra.
    rewrite !pos_id by lia. rewrite Si, Sj, EX, EY. cbn [vadd vscale]. fold s t. f_equal; [f_equal|]; field; lra.
  - exists (upper n i j), (on3 (id i j) (id (i + 1) (j + 1)) (id i (j + 1)) (1 - t) s (t - s)). split; [apply In_triangle_cells; exists i, j; auto|].
    unfold upper. rewrite B, C. unfold s, t in *. apply three_in_triangle; try lia; try lra.
    rewrite !pos_id by lia. rewrite Si, Sj, EX, EY. cbn [vadd vscale]. fold s t. f_equal; [f_equal|]; field; lra.
Qed.

Lemma triangles_inside c w x : In c (triangle_cells n) -> in_triangle pts c w x -> in_square (INR n / m) x.
Proof.
  intros Hc I. destruct x as [[X Y] Z]. apply In_triangle_cells in Hc. destruct Hc as (i & j & Hi & Hj & Hc).
  pose proof (INR_gap _ _ Hi). pose proof (INR_gap _ _ Hj). pose proof (pos_INR i). pose proof (pos_INR j).
  destruct Hc as [-> | ->].
  - destruct (lower_point i j w X Y Z Hi Hj I) as (wa & wb & wc & _ & _ & _ & _ & Pa & Pb & Pc & S & EX & EY & ->).
    exists X, Y. split; auto. split; apply square_unscaled; lra.
  - destruct (upper_point i j w X Y Z Hi Hj I) as (wa & wb & wc & _ & _ & _ & _ & Pa & Pb & Pc & S & EX & EY & ->).
    exists X, Y. split; auto. split; apply square_unscaled; lra.
Qed.

(** ** Quadrilaterals *)

Lemma quad_point i j w X Y Z : (i < n)%nat -> (j < n)%nat -> in_quadrilateral pts (quad n i j) w (X, Y, Z) ->
  exists s t, 0 <= s <= 1 /\ 0 <= t <= 1 /\
    w (id i j) = (1 - s) * (1 - t) /\ w (id (i + 1) j) = s * (1 - t) /\ w (id i (j + 1)) = (1 - s) * t /\ w (id (i + 1) (j + 1)) = s * t /\
    (forall p q, (p <= n)%nat -> (p, q) <> (i, j) -> (p, q) <> (i + 1, j)%nat -> (p, q) <> (i, j + 1)%nat -> (p, q) <> (i + 1, j + 1)%nat -> w (id p q) = 0) /\
    X * m = INR i + s /\ Y * m = INR j + t /\ Z = 0.
Proof.
  intros Hi Hj (s & t & Hs & Ht & E0 & WZ & E). destruct (corner_number n i j) as (A & B & C). unfold quad in E0, E. rewrite A, B, C in E0, E. cbn [combination map] in E0, E.
  injection E0 as V1 V2 V3 V4. rewrite !pos_id in E by lia. rewrite (S_INR1 i), (S_INR1 j), V1, V2, V3, V4 in E. cbn [vadd vscale origin] in E. apply triple_eq in E. destruct E as (E1 & E2 & E3).
  exists s, t. do 6 (split; auto). split.
  { intros p q Hp N1 N2 N3 N4. apply WZ. rewrite In_quad. intros [K|[K|[K|K]]]; apply id_inj in K; try lia; destruct K as (-> & ->); congruence. }
  split; [|split].
  - apply scaled_eq. rewrite E1. unfold Rdiv. ring.
  - apply scaled_eq. rewrite E2. unfold Rdiv. ring.
  - rewrite E3. ring.
Qed.

Lemma tent_at a s : 0 <= s <= 1 -> tent (a + s - a) = 1 - s.
Proof. intros H. hats. Qed.
Lemma tent_next a s : 0 <= s <= 1 -> tent (a + s - (a + 1)) = s.
Proof. intros H. hats. Qed.

Lemma quad_weight c w X Y Z p q : In c (quad_cells n) -> in_quadrilateral pts c w (X, Y, Z) -> (p <= n)%nat -> (q <= n)%nat ->
  w (id p q) = tent (X * m - INR p) * tent (Y * m - INR q).
Proof.
  intros Hc I Hp Hq. apply In_quad_cells in Hc. destruct Hc as (i & j & Hi & Hj & ->).
  destruct (quad_point i j w X Y Z Hi Hj I) as (s & t & Hs & Ht & V1 & V2 & V3 & V4 & H0 & EX & EY & _). rewrite EX, EY.
  pose proof (S_INR1 i) as Si. pose proof (S_INR1 j) as Sj.
  assert (Tp : (p = i /\ tent (INR i + s - INR p) = 1 - s) \/ ((p = i + 1)%nat /\ tent (INR i + s - INR p) = s) \/ ((p <> i)%nat /\ (p <> i + 1)%nat /\ tent (INR i + s - INR p) = 0)).
  { destruct (lt_eq_lt_dec p i) as [[L| ->]|L].
    - right. right. split; [lia|]. split; [lia|]. pose proof (INR_gap _ _ L). apply tent_zero. lra.
    - left. split; auto. now apply tent_at.
    - right. destruct (Nat.eq_dec p (i + 1)) as [->|N]; [left; split; auto; rewrite Si; now apply tent_next|].
      right. split; [lia|]. split; [lia|]. pose proof (INR_gap (i + 1) p ltac:(lia)). apply tent_zero. lra. }
  assert (Tq : (q = j /\ tent (INR j + t - INR q) = 1 - t) \/ ((q = j + 1)%nat /\ tent (INR j + t - INR q) = t) \/ ((q <> j)%nat /\ (q <> j + 1)%nat /\ tent (INR j + t - INR q) = 0)).
  { destruct (lt_eq_lt_dec q j) as [[L| ->]|L].
    - right. right. split; [lia|]. split; [lia|]. pose proof (INR_gap _ _ L). apply tent_zero. lra.
    - left. split; auto. now apply tent_at.
    - right. destruct (Nat.eq_dec q (j + 1)) as [->|N]; [left; split; auto; rewrite Sj; now apply tent_next|].
      right. split; [lia|]. split; [lia|]. pose proof (INR_gap (j + 1) q ltac:(lia)). apply tent_zero. lra. }
  destruct Tp as [(-> & ->)|[(-> & ->)|(N1 & N2 & ->)]].
  - destruct Tq as [(-> & ->)|[(-> & ->)|(N1 & N2 & ->)]]; auto. rewrite H0; [ring|lia|intros E; injection E; lia..].
  - destruct Tq as [(-> & ->)|[(-> & ->)|(N1 & N2 & ->)]]; auto. rewrite H0; [ring|lia|intros E; injection E; lia..].
  - rewrite H0; [ring|lia|intros E; injection E; lia..].
Qed.

Lemma quads_apart c c' w w' x : In c (quad_cells n) -> In c' (quad_cells n) -> in_quadrilateral pts c w x -> in_quadrilateral pts c' w' x -> forall v, w v = w' v.
Proof.
  intros Hc Hc' I I' v. destruct (le_lt_dec ((n + 1) * (n + 1)) v) as [Hv|Hv].
  - destruct I as (s & t & _ & _ & _ & Z & _), I' as (s' & t' & _ & _ & _ & Z' & _). rewrite Z, Z'; auto; intros C.
    + destruct (proj2 (quads_valid n) c' Hc') as (_ & _ & B). specialize (B v C). lia.
    + destruct (proj2 (quads_valid n) c Hc) as (_ & _ & B). specialize (B v C). lia.
  - destruct x as [[X Y] Z]. destruct (number_of (n + 1) v Hv) as (p & q & Hp & Hq & ->).
    rewrite (quad_weight c w X Y Z), (quad_weight c' w' X Y Z) by (auto; lia). reflexivity.
Qed.

Definition on4 (a b c d : nat) (p q r s : R) (y : nat) : R :=
  if Nat.eq_dec y a then p else on3 b c d q r s y.

Lemma quads_cover X Y : (0 < n)%nat -> 0 <= X * m <= INR n -> 0 <= Y * m <= INR n -> exists c w, In c (quad_cells n) /\ in_quadrilateral pts c w (X, Y, 0).
Proof.
  intros Hn HX HY. pose proof m_pos as M. destruct (cell_between n _ Hn HX) as (i & Hi & BX). destruct (cell_between n _ Hn HY) as (j & Hj & BY).
  destruct (corner_number n i j) as (A & B & C). pose proof (S_INR1 i) as Si. pose proof (S_INR1 j) as Sj.
  set (s := X * m - INR i). set (t := Y * m - INR j).
  assert (EX : X = (INR i + s) / m) by (apply unscale; unfold s; ring). assert (EY : Y = (INR j + t) / m) by (apply unscale; unfold t; ring).
  set (w := on4 (id i j) (id (i + 1) j) (id i (j + 1)) (id (i + 1) (j + 1)) ((1 - s) * (1 - t)) (s * (1 - t)) ((1 - s) * t) (s * t)).
  exists (quad n i j), w. split; [apply In_quad_cells; exists i, j; auto|].
  assert (V1 : w (id i j) = (1 - s) * (1 - t)) by (unfold w, on4; destruct (Nat.eq_dec (id i j) (id i j)); [reflexivity|congruence]).
  destruct (on3_values (id (i + 1) j) (id i (j + 1)) (id (i + 1) (j + 1)) (s * (1 - t)) ((1 - s) * t) (s * t)) as (V2 & V3 & V4); [lia..|].
  assert (V2' : w (id (i + 1) j) = s * (1 - t)) by (unfold w, on4; destruct (Nat.eq_dec _ (id i j)); [lia|exact V2]).
  assert (V3' : w (id i (j + 1)) = (1 - s) * t) by (unfold w, on4; destruct (Nat.eq_dec _ (id i j)); [lia|exact V3]).
  assert (V4' : w (id (i + 1) (j + 1)) = s * t) by (unfold w, on4; destruct (Nat.eq_dec _ (id i j)); [lia|exact V4]).
  exists s, t. split; [unfold s; lra|]. split; [unfold t; lra|]. unfold quad. rewrite A, B, C. split; [cbn [map]; congruence|]. split.
  - intros v Hv. unfold w, on4. destruct (Nat.eq_dec v (id i j)) as [->|]; [exfalso; apply Hv; now left|]. apply on3_outside; intros ->; apply Hv; cbn [In]; auto.
  - cbn [combination]. rewrite V1, V2', V3', V4', !pos_id by lia. rewrite Si, Sj, EX, EY. unfold origin. cbn [vadd vscale]. f_equal; [f_equal|]; field; lra.
Qed.

Lemma quads_inside c w x : In c (quad_cells n) -> in_quadrilateral pts c w x -> in_square (INR n / m) x.
Proof.
  intros Hc I. destruct x as [[X Y] Z]. apply In_quad_cells in Hc. destruct Hc as (i & j & Hi & Hj & ->).
  pose proof (INR_gap _ _ Hi). pose proof (INR_gap _ _ Hj). pose proof (pos_INR i). pose proof (pos_INR j).
  destruct (quad_point i j w X Y Z Hi Hj I) as (s & t & Hs & Ht & _ & _ & _ & _ & _ & EX & EY & ->).
  exists X, Y. split; auto. split; apply square_unscaled; lra.
Qed.

Lemma triangle_normal c u v w : In c (triangle_cells n) -> c = [u; v; w] ->
  normal (position pts u) (position pts v) (position pts w) = (0, 0, / m * / m).
Proof.
  intros Hc E. pose proof m_pos as M. apply In_triangle_cells in Hc. destruct Hc as (i & j & Hi & Hj & Hc). destruct (corner_number n i j) as (A & B & C).
  destruct Hc as [-> | ->]; [unfold lower in E|unfold upper in E]; rewrite ?A, ?B, ?C in E; injection E as <- <- <-; rewrite !pos_id by lia; rewrite (S_INR1 i), (S_INR1 j);
    unfold normal; cbn; f_equal; [f_equal|..| f_equal|]; field; lra.
Qed.

Lemma quad_square c u v w z : In c (quad_cells n) -> c = [u; v; w; z] ->
  vsub (position pts v) (position pts u) = (/ m, 0, 0) /\ vsub (position pts w) (position pts u) = (0, / m, 0) /\ vsub (position pts z) (position pts u) = (/ m, / m, 0).
Proof.
  intros Hc E. pose proof m_pos as M. apply In_quad_cells in Hc. destruct Hc as (i & j & Hi & Hj & ->). destruct (corner_number n i j) as (A & B & C).
  unfold quad in E. rewrite A, B, C in E. injection E as <- <- <- <-. rewrite !pos_id by lia. rewrite (S_INR1 i), (S_INR1 j). cbn.
  repeat split; f_equal; [f_equal| |f_equal| |f_equal|]; field; lra.
Qed.

End Screen.
