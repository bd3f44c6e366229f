(** * The distance of cells of the screens *)
From Coq Require Import Reals Lra Psatz.
From Verif Require Import Base BaseFacts Topology TopologyFacts Shapes SpecShapes SpecSphere SpecScreen ScreenFacts ScreenGeometry ShapesResults SphereTiling SpecWidth SpecRounding RoundingModels SpecFloatSphere
  SpecApart Adjacency FloatSphereError ApartResults.

Local Open Scope R_scope.

(** The cells that the assembler does not take for neighbours have no common vertex. *)
Lemma neighbours_apart id t n cells i j : surface_type t -> neighbours (grid_of_cells id t n cells) (grid_of_cells id t n cells) i j = Ok false ->
  exists c d, nth_error cells i = Some c /\ nth_error cells j = Some d /\ apart c d.
Proof.
  intros Ht. unfold neighbours, equal_grids. rewrite Nat.eqb_refl. unfold the_cell, entity_exists.
  assert (C : ent_count (grid_of_cells id t n cells) 2 = length cells) by (destruct Ht as [-> | ->]; unfold ent_count; cbn; lia). rewrite C.
  destruct (Nat.ltb_spec i (length cells)) as [Hi|]; [|discriminate]. destruct (Nat.ltb_spec j (length cells)) as [Hj|]; [|discriminate].
  cbn [bind]. intros H. injection H as H. cbn [g_sub grid_of_cells] in H.
  exists (nth i cells []), (nth j cells []). split; [now apply nth_error_nth'|]. split; [now apply nth_error_nth'|].
  intros v Hv Hv'. assert (T : existsb (fun v => memb v (nth i cells [])) (nth j cells []) = true); [|rewrite T in H; discriminate].
  apply existsb_exists. exists v. split; auto. now apply memb_In.
Qed.

Lemma cells_not_empty {P : Type} id t (b : builder P) i j : surface_type t -> neighbours (built_grid id t b) (built_grid id t b) i j = Ok false ->
  exists c d, nth_error (cells_of b) i = Some c /\ nth_error (cells_of b) j = Some d /\ apart c d.
Proof. apply neighbours_apart. Qed.

Section Screen.
Variable n : nat.
Local Notation m := (INR (n + 1)).
Local Notation id x y := (y * (n + 1) + x)%nat.
Local Notation pts := (map (screen_position n) (square_points (n + 1))).

(** Distance by differences of coordinates, in units of the width of the cells. *)
Lemma far_coordinate X Y Z X' Y' Z' k : 0 <= k -> k * k <= (X - X') * (X - X') * (m * m) + (Y - Y') * (Y - Y') * (m * m) -> k / m <= distance (X, Y, Z) (X', Y', Z').
Proof.
  intros Hk H. pose proof (m_pos n) as M. unfold distance. apply (SphereShort.root_le (k / m)).
  - exact (SphereGeometry.norm2_nonneg (vsub (X, Y, Z) (X', Y', Z'))).
  - apply Rle_trans with ((X - X') * (X - X') + (Y - Y') * (Y - Y')); [|unfold chord2; cbn [inner vsub]; pose proof (Rle_0_sqr (Z - Z')) as SZ; unfold Rsqr in SZ; lra].
    apply Rmult_le_reg_r with (m * m); [now apply Rmult_lt_0_compat|]. replace (k / m * (k / m) * (m * m)) with (k * k) by (field; lra). lra.
Qed.

Lemma one_far (a : R) : 1 <= a \/ a <= -1 -> 1 <= a * a.
Proof. intros [H|H]; nra. Qed.

Lemma INR_far p q : (p + 2 <= q)%nat -> INR p + 2 <= INR q.
Proof. intros H. apply le_INR in H. rewrite plus_INR in H. cbn in H. lra. Qed.

Lemma quads_far c d w w' x y : In c (quad_cells n) -> In d (quad_cells n) -> apart c d -> in_quadrilateral pts c w x -> in_quadrilateral pts d w' y -> 1 / m <= distance x y.
Proof.
  intros Hc Hd A Hx Hy. apply In_quad_cells in Hc, Hd. destruct Hc as (i & j & Hi & Hj & ->), Hd as (i' & j' & Hi' & Hj' & ->).
  destruct x as [[X Y] Z], y as [[X' Y'] Z'].
  destruct (quad_point n i j w X Y Z Hi Hj Hx) as (s & t & Hs & Ht & _ & _ & _ & _ & _ & EX & EY & _).
  destruct (quad_point n i' j' w' X' Y' Z' Hi' Hj' Hy) as (s' & t' & Hs' & Ht' & _ & _ & _ & _ & _ & EX' & EY' & _).
  assert (F : forall p q, In (id p q) (quad n i j) -> In (id p q) (quad n i' j') -> False) by (intros p q; apply A). clear A.
  assert (G : (i + 2 <= i' \/ i' + 2 <= i \/ j + 2 <= j' \/ j' + 2 <= j)%nat).
  { assert (Ei : (i + 2 <= i' \/ i' + 2 <= i \/ i' = i \/ i' = i + 1 \/ i = i' + 1)%nat) by lia. assert (Ej : (j + 2 <= j' \/ j' + 2 <= j \/ j' = j \/ j' = j + 1 \/ j = j' + 1)%nat) by lia.
    destruct Ei as [Ei|[Ei|Ei]]; auto. destruct Ej as [Ej|[Ej|Ej]]; auto. exfalso.
    destruct Ei as [->|[->| ->]], Ej as [->|[->| ->]];
      let tac p q := (apply (F p q); rewrite In_quad; first [left; lia | right; left; lia | right; right; left; lia | right; right; right; lia]) in
      first [tac i j | tac (i + 1)%nat j | tac i (j + 1)%nat | tac (i + 1)%nat (j + 1)%nat | tac (i' + 1)%nat j | tac (i' + 1)%nat (j + 1)%nat
           | tac i (j' + 1)%nat | tac (i + 1)%nat (j' + 1)%nat | tac (i' + 1)%nat (j' + 1)%nat]. }
  apply far_coordinate; [lra|]. replace ((X - X') * (X - X') * (m * m)) with ((X * m - X' * m) * (X * m - X' * m)) by ring. replace ((Y - Y') * (Y - Y') * (m * m)) with ((Y * m - Y' * m) * (Y * m - Y' * m)) by ring.
  rewrite EX, EY, EX', EY'. pose proof (Rle_0_sqr (INR i + s - (INR i' + s'))) as Q1. pose proof (Rle_0_sqr (INR j + t - (INR j' + t'))) as Q2. unfold Rsqr in Q1, Q2.
  destruct G as [G|[G|[G|G]]]; apply INR_far in G.
  - pose proof (one_far (INR i + s - (INR i' + s')) ltac:(right; lra)). lra.
  - pose proof (one_far (INR i + s - (INR i' + s')) ltac:(left; lra)). lra.
  - pose proof (one_far (INR j + t - (INR j' + t')) ltac:(right; lra)). lra.
  - pose proof (one_far (INR j + t - (INR j' + t')) ltac:(left; lra)). lra.
Qed.

(** A triangle is where the numbers [X], [Y] and [X - Y] lie between neighbouring
    integers. *)
Definition third (up : bool) (i j : nat) : Z := (Z.of_nat i - Z.of_nat j - if up then 1 else 0)%Z.
Definition triangle_at (up : bool) (i j : nat) : list nat := if up then upper n i j else lower n i j.

Lemma triangle_between up i j w X Y Z : (i < n)%nat -> (j < n)%nat -> in_triangle pts (triangle_at up i j) w (X, Y, Z) ->
  INR i <= X * m <= INR i + 1 /\ INR j <= Y * m <= INR j + 1 /\ IZR (third up i j) <= X * m - Y * m <= IZR (third up i j) + 1.
Proof.
  intros Hi Hj H. unfold third. rewrite !minus_IZR, <- !INR_IZR_INZ. destruct up; cbn [triangle_at] in H.
  - destruct (upper_point n i j w X Y Z Hi Hj H) as (a & b & c & _ & _ & _ & _ & Pa & Pb & Pc & S & EX & EY & _). rewrite EX, EY. lra.
  - destruct (lower_point n i j w X Y Z Hi Hj H) as (a & b & c & _ & _ & _ & _ & Pa & Pb & Pc & S & EX & EY & _). rewrite EX, EY. lra.
Qed.

Lemma In_triangle_at v up i j : In v (triangle_at up i j) <-> v = id i j \/ v = id (i + 1) (j + 1) \/ v = if up then id i (j + 1) else id (i + 1) j.
Proof. destruct up; cbn [triangle_at]; [rewrite In_upper | rewrite In_lower]; intuition. Qed.

Lemma triangles_strip up up' i j i' j' : apart (triangle_at up i j) (triangle_at up' i' j') ->
  (i + 2 <= i' \/ i' + 2 <= i \/ j + 2 <= j' \/ j' + 2 <= j)%nat \/ (third up i j + 2 <= third up' i' j' \/ third up' i' j' + 2 <= third up i j)%Z.
Proof.
  intros A. assert (F : forall p q, In (id p q) (triangle_at up i j) -> In (id p q) (triangle_at up' i' j') -> False) by (intros p q; apply A). clear A.
  assert (Ei : (i + 2 <= i' \/ i' + 2 <= i \/ i' = i \/ i' = i + 1 \/ i = i' + 1)%nat) by lia. assert (Ej : (j + 2 <= j' \/ j' + 2 <= j \/ j' = j \/ j' = j + 1 \/ j = j' + 1)%nat) by lia.
  destruct Ei as [Ei|[Ei|Ei]]; auto. destruct Ej as [Ej|[Ej|Ej]]; auto 6. unfold third.
  destruct Ei as [->|[->| ->]], Ej as [->|[->| ->]], up, up';
    first [ right; lia | exfalso; 
    let tac p q := (apply (F p q); rewrite In_triangle_at; first [left; lia | right; left; lia | right; right; lia]) in
    first [tac i j | tac (i + 1)%nat j | tac i (j + 1)%nat | tac (i + 1)%nat (j + 1)%nat | tac i' j | tac (i' + 1)%nat j | tac i' (j + 1)%nat | tac (i' + 1)%nat (j + 1)%nat
         | tac i j' | tac (i + 1)%nat j' | tac i (j' + 1)%nat | tac (i + 1)%nat (j' + 1)%nat | tac i' j' | tac (i' + 1)%nat j' | tac i' (j' + 1)%nat | tac (i' + 1)%nat (j' + 1)%nat] ].
Qed.

Lemma triangles_far c d w w' x y : In c (triangle_cells n) -> In d (triangle_cells n) -> apart c d -> in_triangle pts c w x -> in_triangle pts d w' y -> sqrt (1 / 2) / m <= distance x y.
Proof.
  intros Hc Hd A Hx Hy.
  assert (T : forall c, In c (triangle_cells n) -> exists up i j, (i < n)%nat /\ (j < n)%nat /\ c = triangle_at up i j).
  { intros e He. apply In_triangle_cells in He. destruct He as (i & j & Hi & Hj & [-> | ->]); [exists false, i, j | exists true, i, j]; auto. }
  destruct (T c Hc) as (up & i & j & Hi & Hj & ->). destruct (T d Hd) as (up' & i' & j' & Hi' & Hj' & ->). clear T Hc Hd.
  destruct x as [[X Y] Z], y as [[X' Y'] Z'].
  destruct (triangle_between up i j w X Y Z Hi Hj Hx) as (BX & BY & BD). destruct (triangle_between up' i' j' w' X' Y' Z' Hi' Hj' Hy) as (BX' & BY' & BD').
  apply far_coordinate; [apply sqrt_pos|]. rewrite sqrt_sqrt by lra.
  replace ((X - X') * (X - X') * (m * m)) with ((X * m - X' * m) * (X * m - X' * m)) by ring. replace ((Y - Y') * (Y - Y') * (m * m)) with ((Y * m - Y' * m) * (Y * m - Y' * m)) by ring.
  set (u := X * m) in *. set (v := Y * m) in *. set (u' := X' * m) in *. set (v' := Y' * m) in *. clearbody u v u' v'.
  pose proof (Rle_0_sqr (u - u')) as Q1. pose proof (Rle_0_sqr (v - v')) as Q2. pose proof (Rle_0_sqr ((u - u') + (v - v'))) as Q3. unfold Rsqr in Q1, Q2, Q3.
  destruct (triangles_strip up up' i j i' j' A) as [[G|[G|[G|G]]]|[G|G]].
  - apply INR_far in G. pose proof (one_far (u - u') ltac:(right; lra)). lra.
  - apply INR_far in G. pose proof (one_far (u - u') ltac:(left; lra)). lra.
  - apply INR_far in G. pose proof (one_far (v - v') ltac:(right; lra)). lra.
  - apply INR_far in G. pose proof (one_far (v - v') ltac:(left; lra)). lra.
  - apply IZR_le in G. rewrite plus_IZR in G. pose proof (one_far ((u - u') - (v - v')) ltac:(right; lra)). lra.
  - apply IZR_le in G. rewrite plus_IZR in G. pose proof (one_far ((u - u') - (v - v')) ltac:(left; lra)). lra.
Qed.
End Screen.

(** ** The statements *)

Theorem sphere_neighbours : forall L b id i j, regular_sphere real_numbers L 1 = Ok b ->
  neighbours (built_grid id Triangle b) (built_grid id Triangle b) i j = Ok false ->
  cells_distance (in_triangle (points_of b)) (cells_of b) i j (2 / 5 / 2 ^ L).
Proof.
  intros L b id i j E H. destruct (cells_not_empty id Triangle b i j (or_introl eq_refl) H) as (c0 & d0 & Hc0 & Hd0 & A).
  intros c d w w' x y Hc Hd Hx Hy. assert (c = c0) by congruence. assert (d = d0) by congruence. subst c0 d0.
  apply (cells_apart L b E c d w w' x y); eauto using nth_error_In.
Qed.

Theorem rounded_neighbours : forall n L b id i j, (7 <= n)%nat -> 400 * (INR L * 2 ^ L) <= 2 ^ n -> regular_sphere (rounded (fl n)) L 1 = Ok b ->
  neighbours (built_grid id Triangle b) (built_grid id Triangle b) i j = Ok false ->
  cells_distance (in_triangle (points_of b)) (cells_of b) i j (3 / 10 / 2 ^ L).
Proof.
  intros n L b id i j Hn HL E H. destruct (cells_not_empty id Triangle b i j (or_introl eq_refl) H) as (c0 & d0 & Hc0 & Hd0 & A).
  intros c d w w' x y Hc Hd Hx Hy. assert (c = c0) by congruence. assert (d = d0) by congruence. subst c0 d0.
  destruct (sphere_tiling L) as (b0 & E0 & _).
  apply (rounded_cells_apart n L Hn HL b0 b E0 E c d w w' x y); eauto using nth_error_In.
Qed.

Theorem rounded_vertices : forall n L b i j p q, (7 <= n)%nat -> 400 * (INR L * 2 ^ L) <= 2 ^ n -> regular_sphere (rounded (fl n)) L 1 = Ok b ->
  i <> j -> nth_error (points_of b) i = Some p -> nth_error (points_of b) j = Some q -> 3 / 10 / 2 ^ L <= distance p q.
Proof.
  intros n L b i j p q Hn HL E N Hp Hq. destruct (sphere_tiling L) as (b0 & E0 & _).
  exact (rounded_vertices_apart n L Hn HL b0 b E0 E i j p q N Hp Hq).
Qed.

Theorem triangles_neighbours : forall n b id i j, screen_triangles n = Ok b ->
  neighbours (built_grid id Triangle b) (built_grid id Triangle b) i j = Ok false ->
  cells_distance (in_triangle (screen_positions n b)) (cells_of b) i j (sqrt (1 / 2) / INR (n + 1)).
Proof.
  intros n b id i j E H. assert (Hn : (n <> 0)%nat) by (intros ->; discriminate).
  destruct (screen_triangles_spec n Hn) as (b' & E' & P & C & _). rewrite E in E'. injection E' as <-.
  assert (Pts : screen_positions n b = map (screen_position n) (square_points (n + 1))) by (unfold screen_positions, points_of; rewrite P; now rewrite map_snd_enumerate).
  assert (Cs : cells_of b = triangle_cells n) by (unfold cells_of; rewrite C; apply map_snd_enumerate).
  destruct (cells_not_empty id Triangle b i j (or_introl eq_refl) H) as (c0 & d0 & Hc0 & Hd0 & A).
  intros c d w w' x y Hc Hd Hx Hy. assert (c = c0) by congruence. assert (d = d0) by congruence. subst c0 d0.
  rewrite Pts in Hx, Hy. apply nth_error_In in Hc, Hd. rewrite Cs in Hc, Hd. exact (triangles_far n c d w w' x y Hc Hd A Hx Hy).
Qed.

Theorem quads_neighbours : forall n b id i j, screen_quadrilaterals n = Ok b ->
  neighbours (built_grid id Quadrilateral b) (built_grid id Quadrilateral b) i j = Ok false ->
  cells_distance (in_quadrilateral (screen_positions n b)) (cells_of b) i j (1 / INR (n + 1)).
Proof.
  intros n b id i j E H. assert (Hn : (n <> 0)%nat) by (intros ->; discriminate).
  destruct (screen_quadrilaterals_spec n Hn) as (b' & E' & P & C & _). rewrite E in E'. injection E' as <-.
  assert (Pts : screen_positions n b = map (screen_position n) (square_points (n + 1))) by (unfold screen_positions, points_of; rewrite P; now rewrite map_snd_enumerate).
  assert (Cs : cells_of b = quad_cells n) by (unfold cells_of; rewrite C; apply map_snd_enumerate).
  destruct (cells_not_empty id Quadrilateral b i j (or_intror eq_refl) H) as (c0 & d0 & Hc0 & Hd0 & A).
  intros c d w w' x y Hc Hd Hx Hy. assert (c = c0) by congruence. assert (d = d0) by congruence. subst c0 d0.
  rewrite Pts in Hx, Hy. apply nth_error_In in Hc, Hd. rewrite Cs in Hc, Hd. exact (quads_far n c d w w' x y Hc Hd A Hx Hy).
Qed.
