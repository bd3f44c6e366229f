(** * Nested refinement levels of the sphere: proofs *)
From Coq Require Import Reals Lra.
From Verif Require Import Base BaseFacts Topology TopologyFacts Shapes SpecShapes SphereFacts SphereSurface SphereResults ShapesResults ShapesExamples SpecSphere SphereGeometry SphereTiling SpecNested.

Local Open Scope nat_scope.

Section Levels.
Variable R : real_ops.

Lemma refine_levels_last L s : refine_levels R (S L) s = bind (refine_levels R L s) (refine_level R).
Proof.
  revert s. induction L as [|L IH]; intros s.
  - cbn [refine_levels bind]. destruct (refine_level R s); reflexivity.
  - change (refine_levels R (S (S L)) s) with (bind (refine_level R s) (refine_levels R (S L))).
    change (refine_levels R (S L) s) with (bind (refine_level R s) (refine_levels R L)).
    destruct (refine_level R s); cbn [bind]; auto.
Qed.

Lemma sphere_of_levels L pts cells : refine_levels R L (octahedron_points R, 6, octahedron_cells) = Ok (pts, length pts, cells) ->
  surface (length pts) cells -> exists b, regular_sphere R L 1 = Ok b /\ points_of b = pts /\ cells_of b = cells.
Proof.
  intros E SU. unfold regular_sphere. rewrite E. cbn [bind].
  unfold enumerate at 1. rewrite (add_points_spec pts 0 (new_builder Triangle 1)) by reflexivity. cbn [bind new_builder b_ppc b_cells b_points app].
  unfold enumerate at 1. rewrite (add_cells_spec cells 0) by (try reflexivity; intros c Hc; destruct (su_cell _ _ SU c Hc) as (a & b & d & -> & _); reflexivity).
  eexists. split; [reflexivity|]. unfold points_of, cells_of. cbn [b_points b_cells app]. change (combine (seq 0 (length pts)) pts) with (enumerate pts). change (combine (seq 0 (length cells)) cells) with (enumerate cells). now rewrite !map_snd_enumerate.
Qed.

Lemma two_levels L b b' : regular_sphere R L 1 = Ok b -> regular_sphere R (S L) 1 = Ok b' ->
  exists np, points_of b' = points_of b ++ np /\ surface (length (points_of b)) (cells_of b) /\
    cells_of b' = flat_map (children (mid (length (points_of b)) (grid_edges Triangle (cells_of b)))) (cells_of b) /\
    Forall2 (made_for R (points_of b)) (grid_edges Triangle (cells_of b)) np.
Proof.
  intros E E'. destruct (refine_invariant R (fun _ _ => True) ltac:(auto) L (octahedron_points R) octahedron_cells octahedron_surface I) as (pts & cells & H & SU & _).
  cbn [length octahedron_points] in H.
  destruct (sphere_of_levels L pts cells H SU) as (b0 & E0 & P0 & C0). rewrite E in E0. injection E0 as <-.
  destruct (refine_level_spec R pts (length pts) eq_refl cells) as (np & En & F).
  { intros c Hc. destruct (su_cell _ _ SU c Hc) as (a & x & d & -> & B & _). exists a, x, d. tauto. }
  assert (Ln : length (pts ++ np) = length pts + length (grid_edges Triangle cells)).
  { rewrite app_length. f_equal. symmetry. exact (Forall2_same _ _ _ F). }
  destruct (sphere_of_levels (S L) (pts ++ np) (flat_map (children (mid (length pts) (grid_edges Triangle cells))) cells)) as (b1 & E1 & P1 & C1).
  - rewrite refine_levels_last, H. cbn [bind]. rewrite En, <- Ln. reflexivity.
  - rewrite Ln. now apply refined_surface.
  - rewrite E' in E1. injection E1 as <-. rewrite P0, C0, P1, C1. exists np. auto.
Qed.
End Levels.

Lemma blocks_of_four (f : list nat -> list (list nat)) l : (forall c, In c l -> length (f c) = 4) ->
  forall k c j, nth_error l k = Some c -> j < 4 -> nth_error (flat_map f l) (4 * k + j) = nth_error (f c) j.
Proof.
  intros H. induction l as [|c0 l IH]; intros k c j Hk Hj; [destruct k; discriminate|]. cbn [flat_map].
  pose proof (H c0 (or_introl eq_refl)) as L0. destruct k as [|k]; cbn [nth_error] in Hk.
  - injection Hk as ->. rewrite nth_error_app1 by (cbn; lia). f_equal.
  - rewrite nth_error_app2 by lia. rewrite L0. replace (4 * S k + j - 4) with (4 * k + j) by lia. apply IH; auto. intros x Hx. apply H. now right.
Qed.

Lemma nested_levels : forall R L b b', regular_sphere R L 1 = Ok b -> regular_sphere R (S L) 1 = Ok b' ->
  exists np m, points_of b' = points_of b ++ np /\ length np = 12 * 4 ^ L /\ length (cells_of b') = 4 * length (cells_of b) /\
    quartered m (cells_of b) (cells_of b') /\
    (forall c u v, In c (cells_of b) -> In (u, v) (directed_edges c) ->
       exists p q x, nth_error (points_of b) u = Some p /\ nth_error (points_of b) v = Some q /\
         nth_error (points_of b') (m u v) = Some x /\ length (points_of b) <= m u v /\
         (x = edge_midpoint R p q \/ x = edge_midpoint R q p)) /\
    (forall c c' u v u' v', In c (cells_of b) -> In c' (cells_of b) -> In (u, v) (directed_edges c) -> In (u', v') (directed_edges c') ->
       m u v = m u' v' -> (u = u' /\ v = v') \/ (u = v' /\ v = u')).
Proof.
  intros R L b b' E E'. destruct (two_levels R L b b' E E') as (np & P & SU & C & F).
  destruct (sphere_surface R L) as (b0 & E0 & _ & _ & _ & N2 & _). rewrite E in E0. injection E0 as <-.
  pose proof (edge_count _ _ SU) as EC.
  exists np, (mid (length (points_of b)) (grid_edges Triangle (cells_of b))). split; auto. split; [|split; [|split; [|split]]].
  - rewrite <- (Forall2_same _ _ _ F). rewrite N2 in EC. lia.
  - rewrite C. apply (children_count _ _ SU).
  - split; [intros; apply (mid_swap (length (points_of b)) (cells_of b))|].
    intros k c Hk. pose proof (nth_error_In _ _ Hk) as Hc. destruct (su_cell _ _ SU c Hc) as (u & v & w & -> & _).
    exists u, v, w. split; auto. rewrite C.
    assert (B : forall j, j < 4 -> nth_error (flat_map (children (mid (length (points_of b)) (grid_edges Triangle (cells_of b)))) (cells_of b)) (4 * k + j) =
      nth_error (children (mid (length (points_of b)) (grid_edges Triangle (cells_of b))) [u; v; w]) j).
    { intros j Hj. apply (blocks_of_four _ (cells_of b)); auto. intros c Hc'. destruct (su_cell _ _ SU c Hc') as (? & ? & ? & -> & _). reflexivity. }
    rewrite <- (Nat.add_0_r (4 * k)) at 1. rewrite !B by lia. cbn [children nth_error]. auto.
  - intros c u v Hc He. apply (edge_rot_cell _ _ SU) in He; auto. destruct He as (w & Hr). pose proof (keys_edge _ _ SU _ _ _ _ Hc Hr) as Hk.
    destruct (Forall2_at _ _ _ F _ _ (index_of_nth _ _ Hk)) as (x & Hx & i & j & vi & vj & Ek & Hi & Hj & ->).
    assert (Hm : nth_error (points_of b') (mid (length (points_of b)) (grid_edges Triangle (cells_of b)) u v) = Some (edge_midpoint R vi vj)).
    { rewrite P. unfold mid. rewrite nth_error_app2 by lia. rewrite <- Hx. f_equal. lia. }
    apply norm_pair_eq in Ek. destruct Ek as [(-> & ->)|(-> & ->)].
    + exists vi, vj, (edge_midpoint R vi vj). split; auto. split; auto. split; auto. split; [apply (mid_ge (length (points_of b)) (cells_of b))|]. now left.
    + exists vj, vi, (edge_midpoint R vi vj). split; auto. split; auto. split; auto. split; [apply (mid_ge (length (points_of b)) (cells_of b))|]. now right.
  - intros c c' u v u' v' Hc Hc' He He' Em. apply (edge_rot_cell _ _ SU) in He, He'; auto. destruct He as (w & Hr), He' as (w' & Hr').
    apply (mid_inj (length (points_of b)) (cells_of b)) in Em; auto; [exact (keys_edge _ _ SU c u v w Hc Hr)|exact (keys_edge _ _ SU c' u' v' w' Hc' Hr')].
Qed.

(** Memory reserved in a refinement step. *)
Lemma six_four q : 2 ^ q * 4 ^ (2 * q) <= 6 ^ (2 * q).
Proof.
  rewrite !Nat.pow_mul_r, <- Nat.pow_mul_l. apply Nat.pow_le_mono_l. cbn. lia.
Qed.

Lemma reserved_refuted :
  (exists R L b, regular_sphere R (S L) 1 = Ok b /\ new_cells_capacity L < length (cells_of b)) /\
  (forall K, exists L, forall R b, regular_sphere R (S L) 1 = Ok b -> K * length (cells_of b) < new_cells_capacity L).
Proof.
  split.
  - exists no_numbers, 0. destruct (sphere_surface no_numbers 1) as (b & E & _ & _ & _ & N2 & _). exists b. split; auto. rewrite N2. cbn. lia.
  - intros K. exists (2 * (4 * K)). intros R b E. destruct (sphere_surface R (S (2 * (4 * K)))) as (b0 & E0 & _ & _ & _ & N2 & _).
    rewrite E in E0. injection E0 as <-. rewrite N2. unfold new_cells_capacity. pose proof (six_four (4 * K)) as H.
    pose proof (Nat.pow_gt_lin_r 2 (4 * K) ltac:(lia)) as G.
    pose proof (Nat.pow_nonzero 4 (2 * (4 * K)) ltac:(lia)) as Z.
    rewrite Nat.pow_succ_r'. set (f := 4 ^ (2 * (4 * K))) in *. set (s := 6 ^ (2 * (4 * K))) in *. clearbody f s. nia.
Qed.

Lemma reserved_enough : forall R L b, regular_sphere R (S L) 1 = Ok b ->
  (length (cells_of b) <= new_cells_capacity L <-> 4 <= L).
Proof.
  intros R L b E. destruct (sphere_surface R (S L)) as (b0 & E0 & _ & _ & _ & N2 & _).
  rewrite E in E0. injection E0 as <-. rewrite N2. unfold new_cells_capacity. rewrite Nat.pow_succ_r'. split.
  - intros H. destruct L as [|[|[|[|L]]]]; cbn in H; lia.
  - intros H. replace L with (4 + (L - 4)) by lia. generalize (L - 4). intros k. rewrite !Nat.pow_add_r.
    assert (4 ^ k <= 6 ^ k) by (apply Nat.pow_le_mono_l; lia).
    change (6 ^ 4) with (6 * 6 * 36). change (4 ^ 4) with (4 * 64). lia.
Qed.

Local Open Scope R_scope.

Section Cones.
Variables (pts np : list vec) (cells : list (list nat)).
Hypothesis SU : surface (length pts) cells.
Hypothesis TI : tiling pts cells.
Hypothesis MF : Forall2 (made_for real_numbers pts) (grid_edges Triangle cells) np.
Local Notation m := (mid (length pts) (grid_edges Triangle cells)).

Lemma parent_cover c W x : In c cells -> in_cone pts c W x -> exists ch w, In ch (children m c) /\ in_cone (pts ++ np) ch w x.
Proof.
  intros Hc (W0 & _ & Ex). destruct (su_cell _ _ SU c Hc) as (a & b & d & -> & _).
  assert (Corner : forall u v w, rot [a; b; d] u v w -> W v + W w <= W u -> exists ch w', In ch (children m [a; b; d]) /\ in_cone (pts ++ np) ch w' x).
  { intros u v w R Hle. eexists _, _. split; [apply (child_cases _ _ SU); auto; left; exists u, v, w; split; [exact R|reflexivity]|].
    rewrite Ex, (combination_rot _ _ _ _ _ _ R). replace (W u) with ((W u - W v - W w) + W v + W w) by ring. apply (corner_in_cone pts np cells SU TI MF [a; b; d]); auto. lra. }
  destruct (Rle_dec (W b + W d) (W a)) as [H1|H1]; [apply (Corner a b d); unfold rot; auto|].
  destruct (Rle_dec (W d + W a) (W b)) as [H2|H2]; [apply (Corner b d a); unfold rot; auto|].
  destruct (Rle_dec (W a + W b) (W d)) as [H3|H3]; [apply (Corner d a b); unfold rot; auto|].
  eexists _, _. split; [apply (child_cases _ _ SU); auto; right; exists a, b, d; split; reflexivity|].
  pose proof (center_in_cone pts np cells SU TI MF a b d ((W b + W d - W a) / 2) ((W a + W d - W b) / 2) ((W a + W b - W d) / 2) Hc) as G.
  rewrite Ex, (combination_rot _ _ a b d) by (unfold rot; auto).
  replace ((W a + W d - W b) / 2 + (W a + W b - W d) / 2) with (W a) in G by field.
  replace ((W b + W d - W a) / 2 + (W a + W b - W d) / 2) with (W b) in G by field.
  replace ((W b + W d - W a) / 2 + (W a + W d - W b) / 2) with (W d) in G by field.
  apply G; lra.
Qed.
End Cones.

Lemma nested_cones : forall L b b' k c, regular_sphere real_numbers L 1 = Ok b -> regular_sphere real_numbers (S L) 1 = Ok b' ->
  nth_error (cells_of b) k = Some c -> forall x,
  ((exists w, in_cone (points_of b) c w x) <->
   (exists j ch w, (j < 4)%nat /\ nth_error (cells_of b') (4 * k + j) = Some ch /\ in_cone (points_of b') ch w x)).
Proof.
  intros L b b' k c E E' Hk x. destruct (two_levels real_numbers L b b' E E') as (np & P & SU & C & F).
  destruct (sphere_tiling L) as (b0 & E0 & _ & _ & _ & _ & _ & TI). rewrite E in E0. injection E0 as <-.
  pose proof (nth_error_In _ _ Hk) as Hc.
  assert (B : forall j, (j < 4)%nat -> nth_error (cells_of b') (4 * k + j) = nth_error (children (mid (length (points_of b)) (grid_edges Triangle (cells_of b))) c) j).
  { intros j Hj. rewrite C. apply (blocks_of_four _ (cells_of b)); auto. intros c' Hc'. destruct (su_cell _ _ SU c' Hc') as (? & ? & ? & -> & _). reflexivity. }
  rewrite P. split.
  - intros (w & Hw). destruct (parent_cover _ np _ SU TI F c w x Hc Hw) as (ch & w' & Hch & Hw').
    destruct (In_nth_error _ _ Hch) as (j & Hj). assert (Lj : (j < 4)%nat).
    { assert (Hl : (j < length (children (mid (length (points_of b)) (grid_edges Triangle (cells_of b))) c))%nat) by (apply nth_error_Some; intros Z; pose proof (eq_trans (eq_sym Hj) Z); discriminate).
      destruct (su_cell _ _ SU c Hc) as (? & ? & ? & -> & _). exact Hl. }
    exists j, ch, w'. rewrite B; auto.
  - intros (j & ch & w & Lj & Hj & Hw). rewrite B in Hj by auto. apply nth_error_In in Hj.
    destruct (child_split _ np _ SU TI F c ch w x Hc Hj Hw) as (W & _ & HW). eauto.
Qed.

(** The new points over the real numbers. *)
Lemma nested_midpoints : forall L b b', regular_sphere real_numbers L 1 = Ok b -> regular_sphere real_numbers (S L) 1 = Ok b' ->
  exists m, quartered m (cells_of b) (cells_of b') /\
  forall c u v, In c (cells_of b) -> In (u, v) (directed_edges c) ->
  exists (p q x : vec) s, nth_error (points_of b) u = Some p /\ nth_error (points_of b) v = Some q /\ nth_error (points_of b') (m u v) = Some x /\
    0 < s /\ x = vscale s (vadd p q) /\ inner x x = 1.
Proof.
  intros L b b' E E'. destruct (nested_levels real_numbers L b b' E E') as (np & m & P & _ & _ & Q & M & _).
  exists m. split; auto. intros c u v Hc He. destruct (M c u v Hc He) as (p & q & x & Hp & Hq & Hx & _ & K).
  exists p, q, x. destruct (sphere_tiling L) as (b0 & E0 & _ & _ & _ & _ & SU & TI). rewrite E in E0. injection E0 as <-.
  apply (edge_rot_cell _ _ SU) in He; auto. destruct He as (w & Hr).
  assert (Pp : position (points_of b) u = p) by (apply nth_error_nth_Some; exact Hp).
  assert (Pq : position (points_of b) v = q) by (apply nth_error_nth_Some; exact Hq).
  assert (N : 0 < norm2 (vadd p q)).
  { rewrite <- Pp, <- Pq. eapply sum_nonzero, (ti_outward _ _ TI); [exact Hc|exact Hr]. }
  assert (Ex : x = vscale (factor p q) (vadd p q)).
  { destruct K as [->| ->]; [now apply midpoint_scaled|]. rewrite midpoint_scaled.
    - rewrite factor_sym. f_equal. clear. destruct p as [[? ?] ?], q as [[? ?] ?]. cbn. f_equal; [f_equal|]; ring.
    - clear - N. destruct p as [[? ?] ?], q as [[? ?] ?]. unfold norm2 in *. cbn in *. lra. }
  exists (factor p q). split; auto. split; auto. split; auto. split; [now apply factor_pos|]. split; auto.
  rewrite Ex. now apply scaled_unit.
Qed.

(** Non-vacuity: cell 0 of the octahedron and its four cells. *)
Lemma nested_example : forall R, exists b b', regular_sphere R 0 1 = Ok b /\ regular_sphere R 1 1 = Ok b' /\
  nth_error (cells_of b) 0 = Some [0; 1; 2]%nat /\
  firstn 4 (cells_of b') = [[0; 8; 7]; [1; 6; 8]; [2; 7; 6]; [6; 7; 8]]%nat.
Proof.
  intros R. destruct (sphere_of_levels R 0 (octahedron_points R) octahedron_cells eq_refl octahedron_surface) as (b & E & P & Cb).
  destruct (sphere_exists R 1) as (b' & E').
  exists b, b'. split; auto. split; auto.
  destruct (two_levels R 0 b b' E E') as (np & _ & _ & C & _).
  rewrite C, P, Cb. split; [reflexivity|]. vm_compute. reflexivity.
Qed.
