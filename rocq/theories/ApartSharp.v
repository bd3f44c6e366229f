(** * The distances of the cells of the screens are attained *)
From Coq Require Import Reals Lra Psatz.
From Verif Require Import Base BaseFacts Topology TopologyFacts Shapes SpecShapes SpecSphere SpecScreen ScreenFacts ScreenGeometry ShapesResults SphereTiling SpecWidth SpecRounding RoundingModels SpecFloatSphere
  SpecApart Adjacency NestedResults FloatSphereError FloatSphereResults ApartResults ApartScreen.

Local Open Scope R_scope.

Lemma apart_neighbours {P : Type} id t (b : builder P) i j c d : surface_type t -> nth_error (cells_of b) i = Some c -> nth_error (cells_of b) j = Some d -> apart c d ->
  neighbours (built_grid id t b) (built_grid id t b) i j = Ok false.
Proof.
  intros Ht Hi Hj A. unfold built_grid. fold (cells_of b). unfold neighbours, equal_grids. rewrite Nat.eqb_refl. unfold the_cell, entity_exists.
  assert (C : forall n, ent_count (grid_of_cells id t n (cells_of b)) 2 = length (cells_of b)) by (intros n; destruct Ht as [-> | ->]; unfold ent_count; cbn; lia). rewrite !C.
  assert (Li : (i < length (cells_of b))%nat) by (apply nth_error_Some; congruence). assert (Lj : (j < length (cells_of b))%nat) by (apply nth_error_Some; congruence).
  destruct (Nat.ltb_spec i (length (cells_of b))); [|lia]. destruct (Nat.ltb_spec j (length (cells_of b))); [|lia]. cbn [bind]. f_equal. cbn [g_sub grid_of_cells].
  rewrite (nth_error_nth_Some _ _ _ _ Hi), (nth_error_nth_Some _ _ _ _ Hj).
  destruct (existsb _ d) eqn:E; auto. apply existsb_exists in E. destruct E as (v & Hv & M). apply memb_In in M. destruct (A v M Hv).
Qed.

Section Screen.
Variable n : nat.
Local Notation m := (INR (n + 1)).
Local Notation id x y := (y * (n + 1) + x)%nat.
Local Notation pts := (map (screen_position n) (square_points (n + 1))).

Lemma middle_point : (1 <= n)%nat -> exists w, in_triangle pts (lower n 0 0) w (1 / 2 / m, 1 / 2 / m, 0).
Proof.
  intros Hn. exists (fun v => if (v =? id 0 0)%nat then 1 / 2 else if (v =? id 1 1)%nat then 1 / 2 else 0).
  destruct (corner_number n 0 0) as (A & B & C). pose proof (m_pos n) as M.
  assert (I : forall v, In v (lower n 0 0) <-> v = id 0 0 \/ v = id 1 0 \/ v = id 1 1) by (intros v; apply (In_lower n v 0 0)).
  assert (E1 : (id 1 0 =? id 0 0)%nat = false) by (apply Nat.eqb_neq; lia). assert (E2 : (id 1 0 =? id 1 1)%nat = false) by (apply Nat.eqb_neq; lia).
  assert (E3 : (id 1 1 =? id 0 0)%nat = false) by (apply Nat.eqb_neq; lia).
  assert (EL : lower n 0 0 = [id 0 0; id 1 0; id 1 1]) by (unfold lower; rewrite A, B; reflexivity).
  split; [split; [|split]|].
  - intros v. destruct (v =? _)%nat; [|destruct (v =? _)%nat]; lra.
  - intros v Hv. rewrite I in Hv. destruct (Nat.eqb_spec v (id 0 0)); [tauto|]. destruct (Nat.eqb_spec v (id 1 1)); [tauto|]. reflexivity.
  - rewrite EL. cbn [combination fold_right map]. rewrite !pos_id by lia. rewrite E1, E2, E3, !Nat.eqb_refl. cbn [vadd vscale origin INR]. apply f_equal2; [apply f_equal2|]; field; lra.
  - rewrite EL. cbn [fold_right map]. rewrite E1, E2, E3, !Nat.eqb_refl. lra.
Qed.

Lemma corner_point : (2 <= n)%nat -> exists w, in_triangle pts (upper n 0 1) w (0, 1 / m, 0).
Proof.
  intros Hn. exists (fun v => if (v =? id 0 1)%nat then 1 else 0).
  destruct (corner_number n 0 1) as (A & B & C). pose proof (m_pos n) as M.
  assert (I : forall v, In v (upper n 0 1) <-> v = id 0 1 \/ v = id 1 2 \/ v = id 0 2) by (intros v; apply (In_upper n v 0 1)).
  assert (E1 : (id 1 2 =? id 0 1)%nat = false) by (apply Nat.eqb_neq; lia). assert (E2 : (id 0 2 =? id 0 1)%nat = false) by (apply Nat.eqb_neq; lia).
  assert (EL : upper n 0 1 = [id 0 1; id 1 2; id 0 2]) by (unfold upper; rewrite B, C; reflexivity).
  split; [split; [|split]|].
  - intros v. destruct (v =? _)%nat; lra.
  - intros v Hv. rewrite I in Hv. destruct (Nat.eqb_spec v (id 0 1)); [tauto|]. reflexivity.
  - rewrite EL. cbn [combination fold_right map]. rewrite !pos_id by lia. rewrite E1, E2, !Nat.eqb_refl. cbn [vadd vscale origin INR]. apply f_equal2; [apply f_equal2|]; field; lra.
  - rewrite EL. cbn [fold_right map]. rewrite E1, E2, !Nat.eqb_refl. lra.
Qed.

Lemma quad_corner p : (p < n)%nat -> (exists w, in_quadrilateral pts (quad n p 0) w (INR p / m, 0, 0)) /\ exists w, in_quadrilateral pts (quad n p 0) w (INR (p + 1) / m, 0, 0).
Proof.
  intros Hp. destruct (corner_number n p 0) as (A & B & C). pose proof (m_pos n) as M.
  assert (I : forall v, In v (quad n p 0) <-> v = id p 0 \/ v = id (p + 1) 0 \/ v = id p 1 \/ v = id (p + 1) 1) by (intros v; apply (In_quad n v p 0)).
  assert (EL : quad n p 0 = [id p 0; id (p + 1) 0; id p 1; id (p + 1) 1]) by (unfold quad; rewrite A, B, C; reflexivity).
  assert (N1 : (id (p + 1) 0 =? id p 0)%nat = false) by (apply Nat.eqb_neq; lia). assert (N2 : (id p 1 =? id p 0)%nat = false) by (apply Nat.eqb_neq; lia).
  assert (N3 : (id (p + 1) 1 =? id p 0)%nat = false) by (apply Nat.eqb_neq; lia). assert (N4 : (id p 0 =? id (p + 1) 0)%nat = false) by (apply Nat.eqb_neq; lia).
  assert (N5 : (id p 1 =? id (p + 1) 0)%nat = false) by (apply Nat.eqb_neq; lia). assert (N6 : (id (p + 1) 1 =? id (p + 1) 0)%nat = false) by (apply Nat.eqb_neq; lia).
  split.
  - exists (fun v => if (v =? id p 0)%nat then 1 else 0), 0, 0. split; [lra|]. split; [lra|]. split; [|split].
    + rewrite EL. cbn [map]. rewrite N1, N2, N3, Nat.eqb_refl. repeat f_equal; lra.
    + intros v Hv. rewrite I in Hv. destruct (Nat.eqb_spec v (id p 0)); [tauto|]. reflexivity.
    + rewrite EL. cbn [combination fold_right map]. rewrite !pos_id by lia. rewrite N1, N2, N3, Nat.eqb_refl. cbn [vadd vscale origin]. change (INR 0) with 0. apply f_equal2; [apply f_equal2|]; field; lra.
  - exists (fun v => if (v =? id (p + 1) 0)%nat then 1 else 0), 1, 0. split; [lra|]. split; [lra|]. split; [|split].
    + rewrite EL. cbn [map]. rewrite N4, N5, N6, Nat.eqb_refl. repeat f_equal; lra.
    + intros v Hv. rewrite I in Hv. destruct (Nat.eqb_spec v (id (p + 1) 0)); [tauto|]. reflexivity.
    + rewrite EL. cbn [combination fold_right map]. rewrite !pos_id by lia. rewrite N4, N5, N6, Nat.eqb_refl. cbn [vadd vscale origin]. change (INR 0) with 0. apply f_equal2; [apply f_equal2|]; field; lra.
Qed.
End Screen.

Lemma length_by_square s k : 0 <= k -> s = k * k -> sqrt s = k.
Proof. intros Hk ->. now apply sqrt_square. Qed.

Theorem triangles_attained : forall n b id, (2 <= n)%nat -> screen_triangles n = Ok b -> exists i j c d w w' x y,
  neighbours (built_grid id Triangle b) (built_grid id Triangle b) i j = Ok false /\ nth_error (cells_of b) i = Some c /\ nth_error (cells_of b) j = Some d /\
  in_triangle (screen_positions n b) c w x /\ in_triangle (screen_positions n b) d w' y /\ distance x y = sqrt (1 / 2) / INR (n + 1).
Proof.
  intros n b id Hn E. destruct (screen_triangles_spec n ltac:(lia)) as (b' & E' & P & C & _). rewrite E in E'. injection E' as <-.
  assert (Pts : screen_positions n b = map (screen_position n) (square_points (n + 1))) by (unfold screen_positions, points_of; rewrite P; now rewrite map_snd_enumerate).
  assert (Cs : cells_of b = triangle_cells n) by (unfold cells_of; rewrite C; apply map_snd_enumerate).
  destruct (In_nth_error (cells_of b) (lower n 0 0)) as (i & Hi); [rewrite Cs; apply In_triangle_cells; exists 0%nat, 0%nat; repeat split; auto; lia|].
  destruct (In_nth_error (cells_of b) (upper n 0 1)) as (j & Hj); [rewrite Cs; apply In_triangle_cells; exists 0%nat, 1%nat; repeat split; auto; lia|].
  destruct (middle_point n ltac:(lia)) as (w & W). destruct (corner_point n Hn) as (w' & W'). rewrite <- Pts in W, W'.
  exists i, j, (lower n 0 0), (upper n 0 1), w, w', (1 / 2 / INR (n + 1), 1 / 2 / INR (n + 1), 0), (0, 1 / INR (n + 1), 0). split.
  { apply (apart_neighbours id Triangle b i j _ _ (or_introl eq_refl) Hi Hj). intros v. rewrite In_lower, In_upper. intros H1 H2. destruct H1 as [->|[->| ->]], H2 as [H2|[H2|H2]]; lia. }
  repeat (split; auto). pose proof (m_pos n) as M. unfold distance. apply length_by_square.
  - apply Rmult_le_pos; [apply sqrt_pos|]. left. now apply Rinv_0_lt_compat.
  - replace (sqrt (1 / 2) / INR (n + 1) * (sqrt (1 / 2) / INR (n + 1))) with (sqrt (1 / 2) * sqrt (1 / 2) / (INR (n + 1) * INR (n + 1))) by (field; lra).
    rewrite sqrt_sqrt by lra. unfold chord2. cbn [inner vsub]. field. lra.
Qed.

Theorem quads_attained : forall n b id, (3 <= n)%nat -> screen_quadrilaterals n = Ok b -> exists i j c d w w' x y,
  neighbours (built_grid id Quadrilateral b) (built_grid id Quadrilateral b) i j = Ok false /\ nth_error (cells_of b) i = Some c /\ nth_error (cells_of b) j = Some d /\
  in_quadrilateral (screen_positions n b) c w x /\ in_quadrilateral (screen_positions n b) d w' y /\ distance x y = 1 / INR (n + 1).
Proof.
  intros n b id Hn E. destruct (screen_quadrilaterals_spec n ltac:(lia)) as (b' & E' & P & C & _). rewrite E in E'. injection E' as <-.
  assert (Pts : screen_positions n b = map (screen_position n) (square_points (n + 1))) by (unfold screen_positions, points_of; rewrite P; now rewrite map_snd_enumerate).
  assert (Cs : cells_of b = quad_cells n) by (unfold cells_of; rewrite C; apply map_snd_enumerate).
  destruct (In_nth_error (cells_of b) (quad n 0 0)) as (i & Hi); [rewrite Cs; apply In_quad_cells; exists 0%nat, 0%nat; repeat split; auto; lia|].
  destruct (In_nth_error (cells_of b) (quad n 2 0)) as (j & Hj); [rewrite Cs; apply In_quad_cells; exists 2%nat, 0%nat; repeat split; auto; lia|].
  destruct (quad_corner n 0 ltac:(lia)) as (_ & w & W). destruct (quad_corner n 2 ltac:(lia)) as ((w' & W') & _). rewrite <- Pts in W, W'.
  exists i, j, (quad n 0 0), (quad n 2 0), w, w', (INR (0 + 1) / INR (n + 1), 0, 0), (INR 2 / INR (n + 1), 0, 0). split.
  { apply (apart_neighbours id Quadrilateral b i j _ _ (or_intror eq_refl) Hi Hj). intros v. rewrite !In_quad. intros H1 H2. destruct H1 as [->|[->|[->| ->]]], H2 as [H2|[H2|[H2|H2]]]; lia. }
  repeat (split; auto). pose proof (m_pos n) as M. unfold distance. apply length_by_square.
  - apply Rmult_le_pos; [lra|]. left. now apply Rinv_0_lt_compat.
  - unfold chord2. cbn [inner vsub INR Nat.add]. field. cbn [INR Nat.add] in M |- *. lra.
Qed.

(** Two opposite cells at level 1, for the exact sphere and in double precision. *)
Lemma opposite_cells R : exists b : builder (vec3 R), regular_sphere R 1 1 = Ok b /\ neighbours (built_grid 1 Triangle b) (built_grid 1 Triangle b) 0 24 = Ok false.
Proof.
  destruct (sphere_exists R 1) as (b & E). exists b. split; [exact E|].
  assert (EC : neighbours (grid_of_cells 1 Triangle 18 (cells_of b)) (grid_of_cells 1 Triangle 18 (cells_of b)) 0 24 = Ok false).
  { clear - E. vm_compute in E. inversion E as [E0]. clear. vm_compute. reflexivity. }
  exact EC.
Qed.

Lemma apart_example :
  (exists b, regular_sphere real_numbers 1 1 = Ok b /\ neighbours (built_grid 1 Triangle b) (built_grid 1 Triangle b) 0 24 = Ok false) /\
  (exists b, regular_sphere (rounded (fl 53)) 1 1 = Ok b /\ neighbours (built_grid 1 Triangle b) (built_grid 1 Triangle b) 0 24 = Ok false) /\
  (7 <= 53)%nat /\ 400 * (INR 1 * 2 ^ 1) <= 2 ^ 53.
Proof.
  split; [apply opposite_cells|]. split; [apply opposite_cells|]. split; [lia|].
  replace (2 ^ 53) with (2 ^ 43 * 2 ^ 10) by (rewrite <- pow_add; f_equal). assert (2 ^ 10 = 1024) by (cbn; lra). rewrite H. assert (1 <= 2 ^ 43) by (apply pow_R1_Rle; lra). cbn [INR pow]. lra.
Qed.
