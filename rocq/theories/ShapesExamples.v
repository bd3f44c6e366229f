(** * The shapes: concrete cases *)
From Coq Require Import Reals Lra.
From Verif Require Import Base BaseFacts Topology TopologyFacts Shapes SpecShapes SphereResults SpecSphere SphereGeometry SphereTiling SpecScreen ScreenFacts ScreenGeometry
  DofExamples Options Adjacency SpecAdjacency AdjacencyExamples ShapesResults.

(** One refinement, without coordinates. *)
Definition no_numbers : real_ops := mkRealOps unit tt tt tt (fun _ => tt) (fun _ _ => tt) (fun _ _ => tt) (fun _ _ => tt) (fun _ => tt).

Lemma sphere1 : exists b, regular_sphere no_numbers 1 1 = Ok b /\ length (b_points b) = 18 /\ length (b_cells b) = 32 /\
  firstn 8 (cells_of b) = [[0; 8; 7]; [1; 6; 8]; [2; 7; 6]; [6; 7; 8]; [0; 7; 10]; [2; 9; 7]; [3; 10; 9]; [9; 10; 7]] /\
  In (8, 7) (directed_edges [0; 8; 7]) /\ In (7, 8) (directed_edges [6; 7; 8]) /\
  ent_count (built_grid 0 Triangle b) 1 = 48.
Proof.
  eexists. split; [vm_compute; reflexivity|]. split; [reflexivity|]. split; [reflexivity|]. split; [reflexivity|].
  split; [cbn; auto|]. split; [cbn; auto|]. vm_compute. reflexivity.
Qed.

(** The first new point, and the octahedron, for all numbers. *)
Lemma sphere1_point R : exists b, regular_sphere R 1 1 = Ok b /\
  nth_error (points_of b) 6 = Some (edge_midpoint R (ro_one R, ro_zero R, ro_zero R) (ro_zero R, ro_one R, ro_zero R)).
Proof. eexists. split; [vm_compute; reflexivity|]. vm_compute. reflexivity. Qed.

Lemma sphere0 R : exists b, regular_sphere R 0 1 = Ok b /\ points_of b = octahedron_points R.
Proof. eexists. split; [vm_compute; reflexivity|]. vm_compute. reflexivity. Qed.

Local Open Scope R_scope.

(** A refined sphere; a direction in the middle of a cell and one on an edge of the octahedron. *)
Lemma sphere_geometry1 : exists b : builder vec, regular_sphere real_numbers 1 1 = Ok b /\
  nth_error (points_of b) 6 = Some (edge_midpoint real_numbers (1, 0, 0) (0, 1, 0)) /\
  edge_midpoint real_numbers (1, 0, 0) (0, 1, 0) = (/ sqrt 2, / sqrt 2, 0) /\
  inner (1, 0, 0) (normal (0, 0, 1) (1, 0, 0) (0, 1, 0)) = 1.
Proof.
  destruct (sphere1_point real_numbers) as (b & E & P). exists b. split; [exact E|]. split; [exact P|]. split; [|cbn; ring].
  rewrite midpoint_scaled by (unfold norm2; cbn; lra). unfold factor. replace (norm2 (vadd (1, 0, 0) (0, 1, 0))) with 2 by (unfold norm2; cbn; ring).
  cbn. f_equal; [f_equal|]; ring.
Qed.

Lemma octahedron_directions : exists b : builder vec, regular_sphere real_numbers 0 1 = Ok b /\
  (exists w, in_cone (points_of b) [0; 1; 2]%nat w (1, 1, 1) /\ w 0%nat = 1) /\
  (exists w, in_cone (points_of b) [0; 1; 2]%nat w (1, 1, 0) /\ w 0%nat = 0) /\
  (exists w, in_cone (points_of b) [5; 2; 1]%nat w (1, 1, 0) /\ w 5%nat = 0) /\
  (forall w, ~ in_cone (points_of b) [5; 2; 1]%nat w (1, 1, 1)).
Proof.
  destruct (sphere0 real_numbers) as (b & E & P). exists b. split; [exact E|]. change (@points_of vec b = octahedron_points real_numbers) in P. rewrite P.
  assert (G : forall u v t p q r (x : vec), u <> v -> v <> t -> u <> t -> 0 <= p -> 0 <= q -> 0 <= r ->
    x = vadd (vscale p (position (octahedron_points real_numbers) u)) (vadd (vscale q (position (octahedron_points real_numbers) v)) (vscale r (position (octahedron_points real_numbers) t))) ->
    exists w, in_cone (octahedron_points real_numbers) [u; v; t] w x /\ w u = p).
  { intros u v t p q r x N1 N2 N3 Hp Hq Hr ->. destruct (on3_values u v t p q r N1 N2 N3) as (V1 & V2 & V3). exists (on3 u v t p q r). split; auto.
    split; [now apply on3_nonneg|split].
    - intros y Hy. apply on3_outside; intros ->; apply Hy; cbn; auto.
    - rewrite (combination_rot _ _ u v t) by (unfold SphereSurface.rot; auto). now rewrite V1, V2, V3. }
  split; [apply (G 0%nat 1%nat 2%nat 1 1 1); try lia; try lra; cbn; f_equal; [f_equal|]; ring|].
  split; [apply (G 0%nat 1%nat 2%nat 0 1 1); try lia; try lra; cbn; f_equal; [f_equal|]; ring|].
  split; [apply (G 5%nat 2%nat 1%nat 0 1 1); try lia; try lra; cbn; f_equal; [f_equal|]; ring|].
  intros w (W0 & WZ & E2). cbn in E2. apply triple_eq in E2. destruct E2 as (_ & _ & E2). pose proof (W0 5%nat). lra.
Qed.

(** [screen_triangles(2)]: the middle of a cell. *)
Lemma screen2_positions : screen_positions 2 screen2_builder = map (screen_position 2) (square_points 3).
Proof. unfold screen_positions. f_equal. Qed.

Lemma screen2_geometry : screen_triangles 2 = Ok screen2_builder /\
  nth_error (cells_of screen2_builder) 0 = Some [0; 1; 4]%nat /\
  nth_error (screen_positions 2 screen2_builder) 4 = Some (INR 1 / INR 3, INR 1 / INR 3, 0) /\
  in_square (INR 2 / INR (2 + 1)) (2 / 9, 1 / 9, 0) /\
  exists w, in_triangle (screen_positions 2 screen2_builder) [0; 1; 4]%nat w (2 / 9, 1 / 9, 0) /\ w 0%nat = 1 / 3 /\ w 4%nat = 1 / 3.
Proof.
  split; [exact screen2_built|]. split; [reflexivity|]. rewrite screen2_positions. split.
  { rewrite (map_nth_error (screen_position 2) 4 _ (square_point_at 3 1 1 ltac:(lia) ltac:(lia))). reflexivity. }
  assert (I3 : INR 3 = 3) by (simpl; ring). assert (I2 : INR 2 = 2) by (simpl; ring). assert (I1 : INR 1 = 1) by reflexivity. assert (I0 : INR 0 = 0) by reflexivity.
  split.
  { exists (2 / 9), (1 / 9). split; auto. change (2 + 1)%nat with 3%nat. rewrite I2, I3. lra. }
  exists (on3 0 1 4 (1 / 3) (1 / 3) (1 / 3)). destruct (on3_values 0 1 4 (1 / 3) (1 / 3) (1 / 3)) as (V1 & V2 & V3); [lia..|]. split; [|auto].
  apply (three_in_triangle 2 0 1 4); try lia; try lra.
  pose proof (pos_id 2 0 0 ltac:(lia) ltac:(lia)) as P0. pose proof (pos_id 2 1 0 ltac:(lia) ltac:(lia)) as P1. pose proof (pos_id 2 1 1 ltac:(lia) ltac:(lia)) as P4.
  cbn [Nat.add Nat.mul] in P0, P1, P4 |- *. rewrite P0, P1, P4, I0, I1, I3. cbn [vadd vscale]. f_equal; [f_equal|]; field.
Qed.

Local Open Scope nat_scope.

Lemma quads2_example : exists b, screen_quadrilaterals 2 = Ok b /\
  cells_of b = [[0; 1; 3; 4]; [1; 2; 4; 5]; [3; 4; 6; 7]; [4; 5; 7; 8]] /\ length (b_points b) = 9.
Proof. eexists. split; [vm_compute; reflexivity|]. split; reflexivity. Qed.

Lemma screen2_lookup : shape_grid screen2 /\ has_degrees default_options (g_types screen2 2) (fun _ _ => 4) /\
  pairs_fit 256 screen2 /\ touch screen2 0 1.
Proof.
  destruct screen2_adjacency as (_ & _ & H1 & H2 & H3 & _). split; [exact (shape_triangles 2 0 _ screen2_built)|]. auto.
Qed.
