(** * The isometries of the screens: proofs *)
From Coq Require Import Reals Lra Psatz Permutation.
From Verif Require Import Base BaseFacts Topology Shapes SpecShapes ScreenFacts ScreenEdges ShapesResults SpecSphere SpecScreen SpecSymmetry SymmetryResults SpecToeplitz SpecWaves SpecCensus CensusResults SpecFrame.

Local Open Scope R_scope.

(** ** Cells by numerators *)
Section Screen.
Variable n : nat.
Hypothesis Hn : n <> 0%nat.
Local Notation P x y := (screen_position n (x%nat, y%nat)).
Local Notation a := (INR n / INR (n + 1)).

Lemma denominator_pos : 0 < / INR (n + 1).
Proof. apply Rinv_0_lt_compat, lt_0_INR. lia. Qed.

Lemma side_pos : 0 < a.
Proof. apply Rmult_lt_0_compat; [apply lt_0_INR; lia|exact denominator_pos]. Qed.

Lemma point_position b x y : points_of b = square_points (n + 1) -> (x <= n)%nat -> (y <= n)%nat -> nth_error (screen_positions n b) (y * (n + 1) + x) = Some (P x y).
Proof. intros Eb Hx Hy. unfold screen_positions. rewrite Eb. apply map_nth_error, square_point_at; lia. Qed.

Inductive quad_at : list vec -> Prop :=
| quad_at_ : forall x y, (x < n)%nat -> (y < n)%nat -> quad_at [P x y; P (x + 1) y; P x (y + 1); P (x + 1) (y + 1)].
Inductive triangle_at : list vec -> Prop :=
| lower_at : forall x y, (x < n)%nat -> (y < n)%nat -> triangle_at [P x y; P (x + 1) y; P (x + 1) (y + 1)]
| upper_at : forall x y, (x < n)%nat -> (y < n)%nat -> triangle_at [P x y; P (x + 1) (y + 1); P x (y + 1)].

Definition at_cell (ct : cell_type) : list vec -> Prop := match ct with Triangle => triangle_at | _ => quad_at end.

Lemma positions_unique b vs ps ps' : Forall2 (fun v p => nth_error (screen_positions n b) v = Some p) vs ps -> Forall2 (fun v p => nth_error (screen_positions n b) v = Some p) vs ps' -> ps = ps'.
Proof. intros F. revert ps'. induction F as [|v p vs ps H F IH]; intros ps' F'; inversion F'; subst; [reflexivity|]. f_equal; [congruence|auto]. Qed.

Lemma cell_numerators ct b ps : screen n ct b -> ((exists c, cell_positions n b c ps) <-> at_cell ct ps).
Proof.
  intros [b' E|b' E].
  - destruct (screen_triangles_spec n Hn) as (b0 & E0 & Ep & Ec & _). rewrite E in E0. injection E0 as <-.
    assert (Pt : points_of b' = square_points (n + 1)) by (unfold points_of; rewrite Ep; apply map_snd_enumerate). assert (Cs : cells_of b' = triangle_cells n) by (unfold cells_of; rewrite Ec; apply map_snd_enumerate).
    assert (Lo : forall x y, (x < n)%nat -> (y < n)%nat -> Forall2 (fun v p => nth_error (screen_positions n b') v = Some p) (lower n x y) [P x y; P (x + 1) y; P (x + 1) (y + 1)]).
    { intros x y Hx Hy. unfold lower. destruct (corner_number n x y) as (A & B & _). rewrite A, B. repeat constructor; apply point_position; auto; lia. }
    assert (Up : forall x y, (x < n)%nat -> (y < n)%nat -> Forall2 (fun v p => nth_error (screen_positions n b') v = Some p) (upper n x y) [P x y; P (x + 1) (y + 1); P x (y + 1)]).
    { intros x y Hx Hy. unfold upper. destruct (corner_number n x y) as (_ & B & C). rewrite B, C. repeat constructor; apply point_position; auto; lia. }
    split.
    + intros (c & vs & Hc & F). apply nth_error_In in Hc. rewrite Cs in Hc. apply In_triangle_cells in Hc. destruct Hc as (x & y & Hx & Hy & [-> | ->]).
      * rewrite (positions_unique _ _ _ _ F (Lo x y Hx Hy)). now constructor.
      * rewrite (positions_unique _ _ _ _ F (Up x y Hx Hy)). now constructor.
    + intros [x y Hx Hy|x y Hx Hy].
      * destruct (In_nth_error (cells_of b') (lower n x y)) as (c & Hc); [rewrite Cs; apply In_triangle_cells; exists x, y; auto|]. exists c, (lower n x y). auto.
      * destruct (In_nth_error (cells_of b') (upper n x y)) as (c & Hc); [rewrite Cs; apply In_triangle_cells; exists x, y; auto|]. exists c, (upper n x y). auto.
  - destruct (screen_quadrilaterals_spec n Hn) as (b0 & E0 & Ep & Ec & _). rewrite E in E0. injection E0 as <-.
    assert (Pt : points_of b' = square_points (n + 1)) by (unfold points_of; rewrite Ep; apply map_snd_enumerate). assert (Cs : cells_of b' = quad_cells n) by (unfold cells_of; rewrite Ec; apply map_snd_enumerate).
    assert (Qu : forall x y, (x < n)%nat -> (y < n)%nat -> Forall2 (fun v p => nth_error (screen_positions n b') v = Some p) (quad n x y) [P x y; P (x + 1) y; P x (y + 1); P (x + 1) (y + 1)]).
    { intros x y Hx Hy. unfold quad. destruct (corner_number n x y) as (A & B & C). rewrite A, B, C. repeat constructor; apply point_position; auto; lia. }
    split.
    + intros (c & vs & Hc & F). apply nth_error_In in Hc. rewrite Cs in Hc. apply In_quad_cells in Hc. destruct Hc as (x & y & Hx & Hy & ->). rewrite (positions_unique _ _ _ _ F (Qu x y Hx Hy)). now constructor.
    + intros [x y Hx Hy]. destruct (In_nth_error (cells_of b') (quad n x y)) as (c & Hc); [rewrite Cs; apply In_quad_cells; exists x, y; auto|]. exists c, (quad n x y). auto.
Qed.

Lemma mapped_numerators ct b T : screen n ct b -> (screen_mapped n b T <-> forall ps, at_cell ct ps -> exists ps', at_cell ct ps' /\ Permutation ps' (map T ps)).
Proof.
  intros Sn. split.
  - intros H ps Hp. apply (cell_numerators ct b ps Sn) in Hp. destruct Hp as (c & Hc). destruct (H c ps Hc) as (c' & ps' & Hc' & Pm). exists ps'. split; [|exact Pm]. apply (cell_numerators ct b ps' Sn). eauto.
  - intros H c ps Hc. destruct (H ps) as (ps' & Hp & Pm); [apply (cell_numerators ct b ps Sn); eauto|]. apply (cell_numerators ct b ps' Sn) in Hp. destruct Hp as (c' & Hc'). eauto.
Qed.

Lemma at_members ct ps p : ct = Triangle \/ ct = Quadrilateral -> at_cell ct ps -> In p ps -> exists x y, (x <= n)%nat /\ (y <= n)%nat /\ p = P x y.
Proof.
  intros [-> | ->] H I; destruct H; cbn [In] in I; repeat (destruct I as [<-|I]; [do 2 eexists; split; [|split; [|reflexivity]]; lia|]); destruct I.
Qed.

Lemma at_covers ct x y : ct = Triangle \/ ct = Quadrilateral -> (x = 0 \/ x = n)%nat -> (y = 0 \/ y = n)%nat -> exists ps, at_cell ct ps /\ In (P x y) ps.
Proof.
  intros [-> | ->] [-> | ->] [-> | ->]; cbn [at_cell].
  - eexists. split; [apply (lower_at 0 0); lia|]. now left.
  - eexists. split; [apply (upper_at 0 (n - 1)); lia|]. replace (n - 1 + 1)%nat with n by lia. cbn. tauto.
  - eexists. split; [apply (lower_at (n - 1) 0); lia|]. replace (n - 1 + 1)%nat with n by lia. cbn. tauto.
  - eexists. split; [apply (lower_at (n - 1) (n - 1)); lia|]. replace (n - 1 + 1)%nat with n by lia. cbn. tauto.
  - eexists. split; [apply (quad_at_ 0 0); lia|]. now left.
  - eexists. split; [apply (quad_at_ 0 (n - 1)); lia|]. replace (n - 1 + 1)%nat with n by lia. cbn. tauto.
  - eexists. split; [apply (quad_at_ (n - 1) 0); lia|]. replace (n - 1 + 1)%nat with n by lia. cbn. tauto.
  - eexists. split; [apply (quad_at_ (n - 1) (n - 1)); lia|]. replace (n - 1 + 1)%nat with n by lia. cbn. tauto.
Qed.

Lemma in_range x : (x <= n)%nat -> 0 <= INR x / INR (n + 1) <= a.
Proof.
  intros Hx. pose proof denominator_pos as D. split; [apply Rmult_le_pos; [apply pos_INR|lra]|]. apply Rmult_le_compat_r; [lra|]. now apply le_INR.
Qed.

(** ** Rigid maps of the square *)

Lemma extreme s u v : 0 < s -> 0 <= u <= s -> 0 <= v <= s -> (u - v) * (u - v) = s * s -> (u = 0 /\ v = s) \/ (u = s /\ v = 0).
Proof.
  intros Hs Hu Hv H. assert (F : (u - v - s) * (u - v + s) = 0) by lra. apply Rmult_integral in F. destruct F as [F|F]; [right|left]; lra.
Qed.

Lemma diagonal_ends s u v u' v' : 0 < s -> 0 <= u <= s -> 0 <= v <= s -> 0 <= u' <= s -> 0 <= v' <= s -> (u - u') * (u - u') + (v - v') * (v - v') = 2 * (s * s) ->
  ((u = 0 /\ u' = s) \/ (u = s /\ u' = 0)) /\ ((v = 0 /\ v' = s) \/ (v = s /\ v' = 0)).
Proof.
  intros Hs H1 H2 H3 H4 H. assert (A : (u - u') * (u - u') <= s * s) by nra. assert (B : (v - v') * (v - v') <= s * s) by nra.
  split; apply extreme; auto; lra.
Qed.

Ltac solve_coordinates HX HY K1 K2 K3 K4 := cbv iota; match goal with |- ?X = ?cx /\ ?Y = ?cy /\ _ => assert (FX : X = cx) by (apply HX; lra); assert (FY : Y = cy) by (apply HY; lra); rewrite FX, FY in K1; split; [exact FX|split; [exact FY|lra]] end.
Ltac solve_square s := intros X Y Z x y z K1 K2 K3 K4; assert (HX : forall c, s * X = s * c -> X = c) by (intros; apply (Rmult_eq_reg_l s); lra); assert (HY : forall c, s * Y = s * c -> Y = c) by (intros; apply (Rmult_eq_reg_l s); lra); solve [solve_coordinates HX HY K1 K2 K3 K4].

Theorem square_rigid s T : 0 < s -> rigid T -> (forall x y, (x = 0 \/ x = s) -> (y = 0 \/ y = s) -> exists u v, 0 <= u <= s /\ 0 <= v <= s /\ T (x, y, 0) = (u, v, 0)) ->
  exists swap f g h, forall p, T p = square_map s swap f g h p.
Proof.
  intros Hs Rg H. pose proof (fun p q => rigid_inner T p q Rg) as D.
  destruct (H 0 0 ltac:(auto) ltac:(auto)) as (u1 & v1 & A1 & B1 & E1). destruct (H s s ltac:(auto) ltac:(auto)) as (u2 & v2 & A2 & B2 & E2).
  destruct (H s 0 ltac:(auto) ltac:(auto)) as (u3 & v3 & A3 & B3 & E3). destruct (H 0 s ltac:(auto) ltac:(auto)) as (u4 & v4 & A4 & B4 & E4). clear H.
  pose proof (D (0, 0, 0) (s, s, 0)) as D12. rewrite E1, E2 in D12. pose proof (D (s, 0, 0) (0, s, 0)) as D34. rewrite E3, E4 in D34. pose proof (D (0, 0, 0) (s, 0, 0)) as D13. rewrite E1, E3 in D13.
  unfold inner, vsub in D12, D34, D13.
  destruct (diagonal_ends s u1 v1 u2 v2) as (U12 & V12); auto; [lra|]. destruct (diagonal_ends s u3 v3 u4 v4) as (U34 & V34); auto; [lra|].
  destruct (T (0, 0, 1)) as [[X1 Y1] Z1] eqn:EZ.
  assert (K : forall p : vec, let '(x, y, z) := p in let '(X, Y, Z) := T p in
    (X - u1) * (X - u1) + (Y - v1) * (Y - v1) + Z * Z = x * x + y * y + z * z /\
    (X - u2) * (X - u2) + (Y - v2) * (Y - v2) + Z * Z = (x - s) * (x - s) + (y - s) * (y - s) + z * z /\
    (X - u3) * (X - u3) + (Y - v3) * (Y - v3) + Z * Z = (x - s) * (x - s) + y * y + z * z /\
    (X - u4) * (X - u4) + (Y - v4) * (Y - v4) + Z * Z = x * x + (y - s) * (y - s) + z * z /\
    (X - X1) * (X - X1) + (Y - Y1) * (Y - Y1) + (Z - Z1) * (Z - Z1) = x * x + y * y + (z - 1) * (z - 1)).
  { intros [[x y] z]. pose proof (D (x, y, z) (0, 0, 0)) as K1. pose proof (D (x, y, z) (s, s, 0)) as K2. pose proof (D (x, y, z) (s, 0, 0)) as K3. pose proof (D (x, y, z) (0, s, 0)) as K4. pose proof (D (x, y, z) (0, 0, 1)) as K5.
    rewrite E1 in K1. rewrite E2 in K2. rewrite E3 in K3. rewrite E4 in K4. rewrite EZ in K5. destruct (T (x, y, z)) as [[X Y] Z]. unfold inner, vsub in *. repeat split; lra. }
  pose proof (K (0, 0, 1)) as KZ. cbv beta iota in KZ. rewrite EZ in KZ. destruct KZ as (KZ1 & KZ2 & KZ3 & KZ4 & _).
  assert (Can : forall x y, s * x = s * y -> x = y) by (intros x y Exy; apply (Rmult_eq_reg_l s); [exact Exy|lra]).
  assert (Fin : forall swap f g : bool, (forall X Y Z x y z, (X - u1) * (X - u1) + (Y - v1) * (Y - v1) + Z * Z = x * x + y * y + z * z -> (X - u2) * (X - u2) + (Y - v2) * (Y - v2) + Z * Z = (x - s) * (x - s) + (y - s) * (y - s) + z * z ->
    (X - u3) * (X - u3) + (Y - v3) * (Y - v3) + Z * Z = (x - s) * (x - s) + y * y + z * z -> (X - u4) * (X - u4) + (Y - v4) * (Y - v4) + Z * Z = x * x + (y - s) * (y - s) + z * z ->
    X = (if f then s - (if swap then y else x) else (if swap then y else x)) /\ Y = (if g then s - (if swap then x else y) else (if swap then x else y)) /\ Z * Z = z * z) -> exists swap f g h, forall p, T p = square_map s swap f g h p).
  { intros swap f g G. destruct (G _ _ _ _ _ _ KZ1 KZ2 KZ3 KZ4) as (GX & GY & GZ).
    assert (Fz : exists h : bool, Z1 = if h then - (1) else 1). { assert (F : (Z1 - 1) * (Z1 + 1) = 0) by lra. apply Rmult_integral in F. destruct F; [exists false|exists true]; lra. }
    destruct Fz as (h & Hh). exists swap, f, g, h. intros [[x y] z]. pose proof (K (x, y, z)) as Kp. destruct (T (x, y, z)) as [[X Y] Z]. destruct Kp as (K1 & K2 & K3 & K4 & K5).
    destruct (G _ _ _ _ _ _ K1 K2 K3 K4) as (-> & -> & Zz). unfold square_map. apply vec_eq; [reflexivity|reflexivity|]. rewrite GX, GY, Hh in K5.
    destruct swap, f, g, h; lra. }
  clear K KZ1 KZ2 KZ3 KZ4 EZ E1 E2 E3 E4 D D12 D34.
  destruct U12 as [(-> & ->)|(-> & ->)], V12 as [(-> & ->)|(-> & ->)], U34 as [(-> & ->)|(-> & ->)], V34 as [(-> & ->)|(-> & ->)];
    try solve [exfalso; assert (0 < s * s) by (now apply Rmult_lt_0_compat); lra];
    first [apply (Fin false false false); solve_square s | apply (Fin false false true); solve_square s | apply (Fin false true false); solve_square s | apply (Fin false true true); solve_square s
          |apply (Fin true false false); solve_square s | apply (Fin true false true); solve_square s | apply (Fin true true false); solve_square s | apply (Fin true true true); solve_square s].
Qed.

(** ** The maps of the square map the cells *)
Lemma flipped x : (x <= n)%nat -> a - INR x / INR (n + 1) = INR (n - x) / INR (n + 1).
Proof. intros H. rewrite minus_INR by exact H. unfold Rdiv. ring. Qed.

Lemma map_point swap f g h x y : (x <= n)%nat -> (y <= n)%nat ->
  square_map a swap f g h (P x y) = P (if f then n - (if swap then y else x) else (if swap then y else x)) (if g then n - (if swap then x else y) else (if swap then x else y)).
Proof.
  intros Hx Hy. unfold screen_position, square_map, screen_denominator. cbn [fst snd].
  apply vec_eq; [destruct f, swap; try reflexivity; now apply flipped|destruct g, swap; try reflexivity; now apply flipped|destruct h; ring].
Qed.

Lemma flip_low x : (x < n)%nat -> (n - x = (n - 1 - x) + 1)%nat.
Proof. lia. Qed.
Lemma flip_high x : (n - (x + 1) = n - 1 - x)%nat.
Proof. lia. Qed.

Ltac permute := cbn [app]; first [apply perm_nil | refine (Permutation_cons_app [] _ _ _); permute | refine (Permutation_cons_app [_] _ _ _); permute | refine (Permutation_cons_app [_; _] _ _ _); permute | refine (Permutation_cons_app [_; _; _] _ _ _); permute].

Lemma square_maps_cells ct swap f g h ps : ct = Triangle \/ ct = Quadrilateral -> (ct = Triangle -> f = g) -> at_cell ct ps -> exists ps', at_cell ct ps' /\ Permutation ps' (map (square_map a swap f g h) ps).
Proof.
  intros [-> | ->] F H.
  - specialize (F eq_refl). subst g. destruct H as [x y Hx Hy|x y Hx Hy]; cbn [map]; rewrite !map_point by lia; cbn [at_cell];
      pose (X := (if f then n - 1 - (if swap then y else x) else (if swap then y else x))%nat); pose (Y := (if f then n - 1 - (if swap then x else y) else (if swap then x else y))%nat);
      assert (HX : (X < n)%nat) by (subst X; destruct f, swap; lia); assert (HY : (Y < n)%nat) by (subst Y; destruct f, swap; lia);
      pose proof (lower_at X Y HX HY) as Lo; pose proof (upper_at X Y HX HY) as Up; clear HX HY; subst X Y; destruct swap, f; rewrite ?flip_high, ?(flip_low x Hx), ?(flip_low y Hy).
    all: first [eexists; split; [exact Lo|]; permute | eexists; split; [exact Up|]; permute].
  - destruct H as [x y Hx Hy]; cbn [map]; rewrite !map_point by lia; cbn [at_cell];
      pose (X := (if f then n - 1 - (if swap then y else x) else (if swap then y else x))%nat); pose (Y := (if g then n - 1 - (if swap then x else y) else (if swap then x else y))%nat);
      assert (HX : (X < n)%nat) by (subst X; destruct f, swap; lia); assert (HY : (Y < n)%nat) by (subst Y; destruct g, swap; lia);
      pose proof (quad_at_ X Y HX HY) as Q; clear HX HY; subst X Y; destruct swap, f, g; rewrite ?flip_high, ?(flip_low x Hx), ?(flip_low y Hy).
    all: eexists; split; [exact Q|]; permute.
Qed.

(** ** The diagonals of the triangles *)
Lemma diagonals_rise ps p q : triangle_at ps -> In p ps -> In q ps -> 0 <= (fst (fst p) - fst (fst q)) * (snd (fst p) - snd (fst q)).
Proof.
  pose proof denominator_pos as D. assert (D2 : 0 < / INR (n + 1) * / INR (n + 1)) by now apply Rmult_lt_0_compat.
  intros H Ip Iq. destruct H as [x y Hx Hy|x y Hx Hy]; cbn [In] in Ip, Iq; decompose [or False] Ip; decompose [or False] Iq; subst p q;
    unfold screen_position, screen_denominator; cbn [fst snd]; rewrite ?(plus_INR x), ?(plus_INR y); change (INR 1) with 1; unfold Rdiv;
    match goal with |- 0 <= ?e => first [replace e with 0 by ring; lra | replace e with (/ INR (n + 1) * / INR (n + 1)) by ring; lra] end.
Qed.

Lemma first_diagonal T swap f g h : (forall p, T p = square_map a swap f g h p) -> (forall ps, triangle_at ps -> exists ps', triangle_at ps' /\ Permutation ps' (map T ps)) -> f = g.
Proof.
  intros E H. destruct (H _ (lower_at 0 0 ltac:(lia) ltac:(lia))) as (ps & Hp & Pm).
  assert (I1 : In (T (P 0 0)) ps) by (apply (Permutation_in _ (Permutation_sym Pm)); now left).
  assert (I2 : In (T (P 1 1)) ps) by (apply (Permutation_in _ (Permutation_sym Pm)); right; right; now left).
  pose proof (diagonals_rise ps _ _ Hp I2 I1) as K. rewrite !E in K. pose proof denominator_pos as D. assert (D2 : 0 < / INR (n + 1) * / INR (n + 1)) by now apply Rmult_lt_0_compat.
  unfold square_map, screen_position, screen_denominator in K. cbn [fst snd] in K. change (INR 1) with 1 in K. change (INR 0) with 0 in K. unfold Rdiv in K.
  destruct f, g, swap; try reflexivity; exfalso; match type of K with _ <= ?e => replace e with (- (/ INR (n + 1) * / INR (n + 1))) in K by ring end; lra.
Qed.

Lemma corner_real x : x = 0 \/ x = a -> exists k, (k = 0 \/ k = n)%nat /\ x = INR k / INR (n + 1).
Proof. intros [-> | ->]; [exists 0%nat|exists n]; split; auto. change (INR 0) with 0. unfold Rdiv. ring. Qed.

Theorem screen_isometries ct b T : screen n ct b -> rigid T -> (screen_mapped n b T <-> exists swap f g h, (ct = Triangle -> f = g) /\ forall p, T p = square_map a swap f g h p).
Proof.
  intros Sn Rg. assert (Ct : ct = Triangle \/ ct = Quadrilateral) by (destruct Sn; auto). rewrite (mapped_numerators ct b T Sn). split.
  - intros H. destruct (square_rigid a T side_pos Rg) as (swap & f & g & h & E).
    + intros x y Hx Hy. destruct (corner_real x Hx) as (k & Hk & ->). destruct (corner_real y Hy) as (l & Hl & ->).
      destruct (at_covers ct k l Ct Hk Hl) as (ps & Hp & I). destruct (H ps Hp) as (ps' & Hp' & Pm).
      destruct (at_members ct ps' (T (P k l)) Ct Hp') as (u & v & Hu & Hv & E); [apply (Permutation_in _ (Permutation_sym Pm)); now apply in_map|].
      exists (INR u / INR (n + 1)), (INR v / INR (n + 1)). repeat split; try (now apply in_range). exact E.
    + exists swap, f, g, h. split; [|exact E]. intros ->. exact (first_diagonal T swap f g h E H).
  - intros (swap & f & g & h & F & E) ps Hp. rewrite (map_ext _ _ E). now apply square_maps_cells.
Qed.
End Screen.

Lemma square_map_rigid s swap f g h : rigid (square_map s swap f g h).
Proof.
  intros [[x y] z] [[x' y'] z']. rewrite !square_distance. f_equal. unfold inner, vsub, square_map. destruct swap, f, g, h; ring.
Qed.

Lemma square_map_once s swap f g h swap' f' g' h' : 0 < s -> (forall p, square_map s swap f g h p = square_map s swap' f' g' h' p) -> swap = swap' /\ f = f' /\ g = g' /\ h = h'.
Proof.
  intros Hs E. pose proof (E (0, 0, 1)) as E1. pose proof (E (s, 0, 0)) as E2. unfold square_map in E1, E2. injection E1 as A1 A2 A3. injection E2 as B1 B2 B3.
  destruct swap, f, g, h, swap', f', g', h'; auto; exfalso; lra.
Qed.

Lemma screen_census n ct b T : n <> 0%nat -> screen n ct b ->
  (rigid T /\ screen_mapped n b T <-> exists swap f g h, (ct = Triangle -> f = g) /\ forall p, T p = square_map (INR n / INR (n + 1)) swap f g h p).
Proof.
  intros Hn Sn. split.
  - intros [Rg H]. now apply (screen_isometries n Hn ct b T Sn Rg).
  - intros H. assert (Rg : rigid T). { destruct H as (swap & f & g & h & _ & E). intros p q. rewrite !E. apply square_map_rigid. } split; [exact Rg|]. now apply (screen_isometries n Hn ct b T Sn Rg).
Qed.

Lemma square_map_same s swap f g h swap' f' g' h' : 0 < s -> ((forall p, square_map s swap f g h p = square_map s swap' f' g' h' p) <-> swap = swap' /\ f = f' /\ g = g' /\ h = h').
Proof. intros Hs. split; [now apply square_map_once|intros (-> & -> & -> & ->); reflexivity]. Qed.

Lemma screen_count n swap f g h swap' f' g' h' : n <> 0%nat ->
  ((forall p, square_map (INR n / INR (n + 1)) swap f g h p = square_map (INR n / INR (n + 1)) swap' f' g' h' p) <-> swap = swap' /\ f = f' /\ g = g' /\ h = h').
Proof. intros Hn. now apply square_map_same, side_pos. Qed.

Lemma quarter_turn n ct b : n <> 0%nat -> screen n ct b ->
  (screen_mapped n b (fun p => let '(x, y, z) := p in (INR n / INR (n + 1) - y, x, z)) <-> ct = Quadrilateral).
Proof.
  intros Hn Sn. set (s := INR n / INR (n + 1)). set (T := fun p : vec => let '(x, y, z) := p in (s - y, x, z)).
  assert (E : forall p, T p = square_map s true true false false p) by (now intros [[x y] z]).
  change (screen_mapped n b T <-> ct = Quadrilateral).
  assert (Rg : rigid T) by (intros p q; rewrite !E; apply square_map_rigid). rewrite (screen_isometries n Hn ct b T Sn Rg). split.
  - intros (swap & f & g & h & F & E'). destruct Sn; [|reflexivity]. exfalso. specialize (F eq_refl). subst g.
    destruct (square_map_once s true true false false swap f f h (side_pos n Hn)) as (_ & A & B & _); [intros p; rewrite <- E; apply E'|]. congruence.
  - intros ->. exists true, true, false, false. split; [discriminate|exact E].
Qed.

Lemma frame_example : exists bt bq, screen 2 Triangle bt /\ screen 2 Quadrilateral bq /\
  screen_mapped 2 bt (square_map (2 / 3) true true true false) /\ ~ screen_mapped 2 bt (square_map (2 / 3) false true false false) /\ screen_mapped 2 bq (square_map (2 / 3) false true false false) /\
  square_map (2 / 3) true true true false (1 / 3, 0, 0) = (2 / 3, 1 / 3, 0).
Proof.
  assert (H2 : 2%nat <> 0%nat) by discriminate. destruct (screen_triangles_spec 2 H2) as (bt & Et & _). destruct (screen_quadrilaterals_spec 2 H2) as (bq & Eq & _).
  assert (St : screen 2 Triangle bt) by now constructor. assert (Sq : screen 2 Quadrilateral bq) by now constructor.
  assert (Es : 2 / 3 = INR 2 / INR (2 + 1)). { change (2 + 1)%nat with 3%nat. rewrite !S_INR. change (INR 0) with 0. lra. }
  exists bt, bq. split; [exact St|]. split; [exact Sq|]. split; [|split; [|split]].
  - rewrite Es. apply (screen_isometries 2 H2 Triangle bt _ St); [apply square_map_rigid|]. exists true, true, true, false. split; auto.
  - rewrite Es. intros H. apply (screen_isometries 2 H2 Triangle bt _ St) in H; [|apply square_map_rigid]. destruct H as (swap & f & g & h & F & E). specialize (F eq_refl). subst g.
    apply square_map_once in E; [|now apply side_pos]. destruct E as (_ & A & B & _). congruence.
  - rewrite Es. apply (screen_isometries 2 H2 Quadrilateral bq _ Sq); [apply square_map_rigid|]. exists false, true, false, false. split; [discriminate|reflexivity].
  - unfold square_map. apply vec_eq; lra.
Qed.

Lemma unit_square_centre n ct b h : n <> 0%nat -> screen n ct b -> ~ screen_mapped n b (square_map 1 false true true h).
Proof.
  intros Hn Sn H. apply (screen_isometries n Hn ct b _ Sn) in H; [|apply square_map_rigid]. destruct H as (swap & f & g & h' & _ & E).
  assert (L : INR n / INR (n + 1) < 1). { pose proof (denominator_pos n Hn) as D. assert (I : INR (n + 1) * / INR (n + 1) = 1) by (apply Rinv_r, not_0_INR; lia). unfold Rdiv. rewrite <- I. apply Rmult_lt_compat_r; [exact D|]. apply lt_INR. lia. }
  pose proof (side_pos n Hn) as Hs. pose proof (E (0, 0, 0)) as E1. unfold square_map in E1. injection E1 as A B _. destruct f, swap; lra.
Qed.

Lemma in_order_mapped n b T : screen_mapped_in_order n b T -> screen_mapped n b T.
Proof. intros H c ps Hp. destruct (H c ps Hp) as (c' & Hc). exists c', (map T ps). auto. Qed.

(** The step along the first edge of the first cell. *)
Lemma first_steps n ct T : n <> 0%nat -> ct = Triangle \/ ct = Quadrilateral -> (forall ps, at_cell n ct ps -> at_cell n ct (map T ps)) ->
  let h := / INR (n + 1) in
  (exists u v z z', T (0, 0, 0) = (u, v, z) /\ (T (h, 0, 0) = (u + h, v, z') \/ (ct = Triangle /\ T (h, 0, 0) = (u + h, v + h, z')))) /\
  (ct = Quadrilateral -> exists u v z z', T (0, 0, 0) = (u, v, z) /\ T (0, h, 0) = (u, v + h, z')).
Proof.
  intros Hn Ct H h.
  assert (N : forall x y, screen_position n (x, y) = (INR x * h, INR y * h, 0)) by reflexivity.
  assert (N1 : forall x, INR (x + 1) * h = INR x * h + h) by (intros x; rewrite plus_INR; change (INR 1) with 1; ring).
  assert (Z0 : INR 0 * h = 0) by (change (INR 0) with 0; ring). assert (Z1 : INR (0 + 1) * h = h) by (rewrite N1, Z0; ring).
  destruct Ct as [-> | ->].
  - split; [|discriminate]. pose proof (H _ (lower_at n 0 0 ltac:(lia) ltac:(lia))) as K. cbn [map at_cell] in K. rewrite !N, Z1, Z0 in K. inversion K as [x y Hx Hy [E1 E2 E3]|x y Hx Hy [E1 E2 E3]].
    + exists (INR x * h), (INR y * h), 0, 0. split; [apply N|]. left. rewrite N, N1. reflexivity.
    + exists (INR x * h), (INR y * h), 0, 0. split; [apply N|]. right. split; [reflexivity|]. rewrite N, !N1. reflexivity.
  - pose proof (H _ (quad_at_ n 0 0 ltac:(lia) ltac:(lia))) as K. cbn [map at_cell] in K. rewrite !N, Z1, Z0 in K. inversion K as [x y Hx Hy [E1 E2 E3 E4]]. split; [|intros _].
    + exists (INR x * h), (INR y * h), 0, 0. split; [apply N|]. left. rewrite N, N1. reflexivity.
    + exists (INR x * h), (INR y * h), 0, 0. split; [apply N|]. rewrite N, N1. reflexivity.
Qed.

Lemma in_order_census n ct b T : n <> 0%nat -> screen n ct b ->
  (rigid T /\ screen_mapped_in_order n b T <-> (forall p, T p = p) \/ (forall x y z, T (x, y, z) = (x, y, - z))).
Proof.
  intros Hn Sn. assert (Ct : ct = Triangle \/ ct = Quadrilateral) by (destruct Sn; auto). split.
  - intros [Rg H]. destruct (proj1 (screen_census n ct b T Hn Sn) (conj Rg (in_order_mapped n b T H))) as (swap & f & g & k & F & E).
    destruct (first_steps n ct T Hn Ct) as [(u & v & z & z' & E0 & E1) E2].
    { intros ps Hp. apply (cell_numerators n Hn ct b ps Sn) in Hp. destruct Hp as (c & Hc). apply (cell_numerators n Hn ct b _ Sn), (H c ps Hc). }
    pose proof (denominator_pos n Hn) as D. set (h := / INR (n + 1)) in *. set (s := INR n / INR (n + 1)) in *.
    assert (Sf : swap = false /\ f = false).
    { rewrite !E in E0, E1. unfold square_map in E0, E1. injection E0 as A0 B0 _. destruct E1 as [E1|[-> E1]]; injection E1 as A1 B1 _; [|specialize (F eq_refl); subst g]; destruct swap, f; auto; exfalso; try lra; destruct g; lra. }
    destruct Sf as [-> ->]. assert (Gf : g = false).
    { destruct Ct as [-> | ->]; [symmetry; now apply F|]. destruct (E2 eq_refl) as (u' & v' & w & w' & E0' & E3). rewrite !E in E0', E3. unfold square_map in E0', E3. injection E0' as A0 B0 _. injection E3 as A3 B3 _. destruct g; auto; exfalso; lra. }
    subst g. destruct k; [right; intros x y z0; now rewrite E|left; intros [[x y] z0]; now rewrite E].
  - intros H. assert (Em : exists k, forall p, T p = square_map 0 false false false k p). { destruct H as [H|H]; [exists false|exists true]; intros [[x y] z]; now rewrite H. }
    destruct Em as (k & E). split; [intros p q; rewrite !E; apply square_map_rigid|]. intros c ps Hp. exists c.
    enough (Es : map T ps = ps) by now rewrite Es. assert (Q : at_cell n ct ps) by (apply (cell_numerators n Hn ct b ps Sn); eauto).
    rewrite <- (map_id ps) at 2. apply map_ext_in. intros p I. destruct (at_members n Hn ct ps p Ct Q I) as (x & y & _ & _ & ->). rewrite E. unfold square_map, screen_position. apply vec_eq; auto. destruct k; ring.
Qed.

Lemma order_example : exists b, screen 2 Quadrilateral b /\ screen_mapped_in_order 2 b (fun p => let '(x, y, z) := p in (x, y, - z)) /\ ~ screen_mapped_in_order 2 b (square_map (2 / 3) true false false false) /\ screen_mapped 2 b (square_map (2 / 3) true false false false).
Proof.
  assert (H2 : 2%nat <> 0%nat) by discriminate. destruct (screen_quadrilaterals_spec 2 H2) as (b & Eq & _). assert (Sq : screen 2 Quadrilateral b) by now constructor. exists b.
  assert (Es : 2 / 3 = INR 2 / INR (2 + 1)). { change (2 + 1)%nat with 3%nat. rewrite !S_INR. change (INR 0) with 0. lra. }
  split; [exact Sq|]. split; [|split].
  - apply (in_order_census 2 Quadrilateral b _ H2 Sq). right. reflexivity.
  - intros H. destruct (proj1 (in_order_census 2 Quadrilateral b _ H2 Sq) (conj (square_map_rigid _ _ _ _ _) H)) as [E|E].
    + specialize (E (1, 0, 0)). unfold square_map in E. injection E as A _. lra.
    + specialize (E 1 0 0). unfold square_map in E. injection E as A _. lra.
  - rewrite Es. apply (screen_isometries 2 H2 Quadrilateral b _ Sq); [apply square_map_rigid|]. exists true, false, false, false. split; [discriminate|reflexivity].
Qed.
