(** * Screens: numbering and topology *)
From Verif Require Import Base BaseFacts Topology TopologyFacts Shapes SpecShapes SpecAdjacency AdjacencyFacts SphereFacts SphereResults.

(** ** Loops *)

Lemma grid_loop_fold {S B : Type} (f : S -> B -> res S) (h : nat -> nat -> list B) m s :
  grid_loop m (fun x y s => foldM f (h x y) s) s = foldM f (flat_map (fun y => flat_map (fun x => h x y) (seq 0 m)) (seq 0 m)) s.
Proof. unfold grid_loop. rewrite foldM_flat_map. apply foldM_ext. intros. symmetry. apply foldM_flat_map. Qed.

Lemma combine_seq_app {A : Type} k (l1 l2 : list A) :
  combine (seq k (length (l1 ++ l2))) (l1 ++ l2) = combine (seq k (length l1)) l1 ++ combine (seq (k + length l1) (length l2)) l2.
Proof.
  revert k. induction l1 as [|a l1 IH]; intros k; cbn [app length seq combine].
  - now rewrite Nat.add_0_r.
  - rewrite IH. f_equal. f_equal. f_equal. f_equal. lia.
Qed.

Lemma numbered_blocks {A : Type} (h : nat -> list A) (g : nat -> list (nat * A)) q m k :
  (forall y, y < k -> length (h y) = m) ->
  (forall y, y < k -> g y = combine (seq (q + y * m) m) (h y)) ->
  flat_map g (seq 0 k) = combine (seq q (length (flat_map h (seq 0 k)))) (flat_map h (seq 0 k)) /\ length (flat_map h (seq 0 k)) = k * m.
Proof.
  induction k as [|k IH]; intros L E; [now split|]. rewrite seq_S. cbn [Nat.add]. rewrite !flat_map_app. cbn [flat_map]. rewrite !app_nil_r.
  destruct IH as (IH1 & IH2); [auto..|]. rewrite combine_seq_app, IH1, IH2, app_length, IH2, !L by lia. split; [f_equal; apply E; lia|lia].
Qed.

(** ** Points *)

Definition square_points (m : nat) : list (nat * nat) := flat_map (fun y => map (fun x => (x, y)) (seq 0 m)) (seq 0 m).

Lemma flat_map_single {A B : Type} (f : A -> B) l : flat_map (fun x => [f x]) l = map f l.
Proof. induction l; cbn; congruence. Qed.

Lemma square_points_length m : length (square_points m) = m * m.
Proof.
  destruct (numbered_blocks (fun y => map (fun x => (x, y)) (seq 0 m)) (fun y => combine (seq (0 + y * m) m) (map (fun x => (x, y)) (seq 0 m))) 0 m m) as (_ & E); auto.
  intros. now rewrite map_length, seq_length.
Qed.

Lemma combine_map_seq {A : Type} (h : nat -> A) (id : nat -> nat) q k m : (forall x, k <= x < k + m -> id x = q + (x - k)) ->
  map (fun x => (id x, h x)) (seq k m) = combine (seq q m) (map h (seq k m)).
Proof.
  revert q k. induction m as [|m IH]; intros q k H; cbn [seq map combine]; [reflexivity|]. rewrite H by lia. f_equal; [f_equal; lia|].
  apply IH. intros x Hx. rewrite H by lia. lia.
Qed.

Lemma screen_points_spec n t : screen_points n (new_builder t 1) =
  Ok (mkBuilder (points_per_cell t 1) (enumerate (square_points (n + 1))) []).
Proof.
  unfold screen_points.
  transitivity (grid_loop (n + 1) (fun x y s => foldM add_point [(y * (n + 1) + x, (x, y))] s) (new_builder (P := nat * nat) t 1)).
  { unfold grid_loop. apply foldM_ext. intros s y _. apply foldM_ext. intros s' x _. cbn [foldM]. now destruct (add_point s' _). }
  rewrite grid_loop_fold.
  destruct (numbered_blocks (fun y => map (fun x => (x, y)) (seq 0 (n + 1))) (fun y => flat_map (fun x => [(y * (n + 1) + x, (x, y))]) (seq 0 (n + 1))) 0 (n + 1) (n + 1)) as (E & _).
  - intros. now rewrite map_length, seq_length.
  - intros y Hy. rewrite flat_map_single. apply combine_map_seq. intros. lia.
  - rewrite E. rewrite add_points_spec by reflexivity. reflexivity.
Qed.

Lemma flat_map_nth {A B : Type} (h : A -> list B) l m : (forall a, In a l -> length (h a) = m) ->
  forall y x a, nth_error l y = Some a -> x < m -> nth_error (flat_map h l) (y * m + x) = nth_error (h a) x.
Proof.
  induction l as [|a0 l IH]; intros L y x a Hy Hx; [destruct y; discriminate|]. cbn [flat_map].
  destruct y as [|y]; cbn [nth_error] in Hy.
  - injection Hy as ->. cbn [Nat.mul Nat.add]. apply nth_error_app1. rewrite L by now left. exact Hx.
  - rewrite nth_error_app2 by (rewrite L by (now left); lia). rewrite L by now left. replace (Datatypes.S y * m + x - m) with (y * m + x) by lia.
    apply IH; auto. intros. apply L. now right.
Qed.

Lemma square_point_at m x y : x < m -> y < m -> nth_error (square_points m) (y * m + x) = Some (x, y).
Proof.
  intros Hx Hy. unfold square_points. rewrite (flat_map_nth _ _ m) with (a := y).
  - rewrite (map_nth_error _ _ _ (nth_error_seq 0 m x Hx)). reflexivity.
  - intros. now rewrite map_length, seq_length.
  - rewrite nth_error_seq; auto.
  - exact Hx.
Qed.

Lemma number_inj m x y x' y' : x < m -> x' < m -> y * m + x = y' * m + x' -> x = x' /\ y = y'.
Proof. intros. destruct (lt_eq_lt_dec y y') as [[C|C]|C]; nia. Qed.

Lemma number_of m v : v < m * m -> exists x y, x < m /\ y < m /\ v = y * m + x.
Proof.
  intros H. assert (m <> 0) by (intros ->; lia). exists (v mod m), (v / m). split; [now apply Nat.mod_upper_bound|].
  split; [now apply Nat.div_lt_upper_bound|]. rewrite Nat.mul_comm. now apply Nat.div_mod.
Qed.

(** ** Cells *)

Section Cells.
Variable n : nat.
Local Notation id x y := (y * (n + 1) + x).

Definition lower (x y : nat) : list nat := [id x y; id x y + 1; id x y + n + 2].
Definition upper (x y : nat) : list nat := [id x y; id x y + n + 2; id x y + n + 1].
Definition quad (x y : nat) : list nat := [id x y; id x y + 1; id x y + n + 1; id x y + n + 2].
Definition triangle_cells : list (list nat) := flat_map (fun y => flat_map (fun x => [lower x y; upper x y]) (seq 0 n)) (seq 0 n).
Definition quad_cells : list (list nat) := flat_map (fun y => flat_map (fun x => [quad x y]) (seq 0 n)) (seq 0 n).

Lemma In_triangle_cells c : In c triangle_cells <-> exists x y, x < n /\ y < n /\ (c = lower x y \/ c = upper x y).
Proof.
  unfold triangle_cells. rewrite in_flat_map. split.
  - intros (y & Hy & H). apply in_flat_map in H. destruct H as (x & Hx & H). apply in_seq in Hx, Hy. exists x, y.
    split; [lia|]. split; [lia|]. cbn [In] in H. intuition.
  - intros (x & y & Hx & Hy & H). exists y. split; [apply in_seq; lia|]. apply in_flat_map. exists x. split; [apply in_seq; lia|]. cbn [In]. intuition.
Qed.

Lemma In_quad_cells c : In c quad_cells <-> exists x y, x < n /\ y < n /\ c = quad x y.
Proof.
  unfold quad_cells. rewrite in_flat_map. split.
  - intros (y & Hy & H). apply in_flat_map in H. destruct H as (x & Hx & H). apply in_seq in Hx, Hy. exists x, y.
    split; [lia|]. split; [lia|]. cbn [In] in H. intuition.
  - intros (x & y & Hx & Hy & ->). exists y. split; [apply in_seq; lia|]. apply in_flat_map. exists x. split; [apply in_seq; lia|]. cbn [In]. intuition.
Qed.

(** A block of cells with its numbers. *)
Lemma numbered_cells {A : Type} (h : nat -> nat -> list A) (ids : nat -> nat -> nat) k :
  (forall x y, length (h x y) = k) -> (forall x y, ids x y = (y * n + x) * k) ->
  flat_map (fun y => flat_map (fun x => combine (seq (ids x y) k) (h x y)) (seq 0 n)) (seq 0 n) =
  combine (seq 0 (length (flat_map (fun y => flat_map (fun x => h x y) (seq 0 n)) (seq 0 n)))) (flat_map (fun y => flat_map (fun x => h x y) (seq 0 n)) (seq 0 n))
  /\ length (flat_map (fun y => flat_map (fun x => h x y) (seq 0 n)) (seq 0 n)) = n * (n * k).
Proof.
  intros L E. assert (Row : forall y, flat_map (fun x => combine (seq (ids x y) k) (h x y)) (seq 0 n) =
    combine (seq (y * (n * k)) (n * k)) (flat_map (fun x => h x y) (seq 0 n)) /\ length (flat_map (fun x => h x y) (seq 0 n)) = n * k).
  { intros y. destruct (numbered_blocks (fun x => h x y) (fun x => combine (seq (ids x y) k) (h x y)) (y * (n * k)) k n) as (A1 & A2); auto.
    - intros x _. rewrite E. do 2 f_equal. lia.
    - split; auto. rewrite A1, A2. reflexivity. }
  apply (numbered_blocks (fun y => flat_map (fun x => h x y) (seq 0 n)) (fun y => flat_map (fun x => combine (seq (ids x y) k) (h x y)) (seq 0 n)) 0 (n * k) n).
  - intros. apply Row.
  - intros. apply Row.
Qed.

Lemma screen_triangles_spec : n <> 0 -> exists b, screen_triangles n = Ok b /\
  b_points b = enumerate (square_points (n + 1)) /\ b_cells b = enumerate triangle_cells /\ length triangle_cells = 2 * n * n.
Proof.
  intros Hn. unfold screen_triangles. apply Nat.eqb_neq in Hn. rewrite Hn, screen_points_spec. cbn [bind].
  destruct (numbered_cells (fun x y => [lower x y; upper x y]) (fun x y => 2 * y * n + 2 * x) 2) as (E & L); [reflexivity|intros; lia|].
  eexists. split; [|split; [|split]].
  - transitivity (grid_loop n (fun x y s => foldM add_cell (combine (seq (2 * y * n + 2 * x) 2) [lower x y; upper x y]) s)
      (mkBuilder (points_per_cell Triangle 1) (enumerate (square_points (n + 1))) [])).
    { unfold grid_loop. apply foldM_ext. intros s y _. apply foldM_ext. intros s' x _. cbn [foldM combine seq]. unfold lower, upper.
      rewrite <- (Nat.add_1_r (2 * y * n + 2 * x)). destruct (add_cell s' _); cbn [bind]; auto. now destruct (add_cell a _). }
    rewrite grid_loop_fold, E. fold triangle_cells. rewrite (add_cells_spec triangle_cells 0); [reflexivity..|].
    intros c Hc. apply In_triangle_cells in Hc. destruct Hc as (x & y & _ & _ & [-> | ->]); reflexivity.
  - reflexivity.
  - reflexivity.
  - fold triangle_cells in L. lia.
Qed.

Lemma screen_quadrilaterals_spec : n <> 0 -> exists b, screen_quadrilaterals n = Ok b /\
  b_points b = enumerate (square_points (n + 1)) /\ b_cells b = enumerate quad_cells /\ length quad_cells = n * n.
Proof.
  intros Hn. unfold screen_quadrilaterals. apply Nat.eqb_neq in Hn. rewrite Hn, screen_points_spec. cbn [bind].
  destruct (numbered_cells (fun x y => [quad x y]) (fun x y => y * n + x) 1) as (E & L); [reflexivity|intros; lia|].
  eexists. split; [|split; [|split]].
  - transitivity (grid_loop n (fun x y s => foldM add_cell (combine (seq (y * n + x) 1) [quad x y]) s)
      (mkBuilder (points_per_cell Quadrilateral 1) (enumerate (square_points (n + 1))) [])).
    { unfold grid_loop. apply foldM_ext. intros s y _. apply foldM_ext. intros s' x _. cbn [foldM combine seq]. unfold quad.
      destruct (add_cell s' _); cbn [bind]; auto. }
    rewrite grid_loop_fold, E. fold quad_cells. rewrite (add_cells_spec quad_cells 0); [reflexivity..|].
    intros c Hc. apply In_quad_cells in Hc. destruct Hc as (x & y & _ & _ & ->); reflexivity.
  - reflexivity.
  - reflexivity.
  - fold quad_cells in L. lia.
Qed.

Lemma triangles_valid : valid_cells Triangle ((n + 1) * (n + 1)) triangle_cells.
Proof.
  split; [now left|]. intros c Hc. apply In_triangle_cells in Hc. destruct Hc as (x & y & Hx & Hy & [-> | ->]).
  - split; [reflexivity|]. split; [repeat constructor; cbn [In lower]; intuition lia|]. cbn [In lower]. intros v Hv. intuition nia.
  - split; [reflexivity|]. split; [repeat constructor; cbn [In upper]; intuition lia|]. cbn [In upper]. intros v Hv. intuition nia.
Qed.

Lemma quads_valid : valid_cells Quadrilateral ((n + 1) * (n + 1)) quad_cells.
Proof.
  split; [now right|]. intros c Hc. apply In_quad_cells in Hc. destruct Hc as (x & y & Hx & Hy & ->).
  split; [reflexivity|]. split; [repeat constructor; cbn [In quad]; intuition lia|]. cbn [In quad]. intros v Hv. intuition nia.
Qed.

(** The vertices of a cell, as coordinates. *)
Lemma corner_number x y : id x y + 1 = id (x + 1) y /\ id x y + n + 2 = id (x + 1) (y + 1) /\ id x y + n + 1 = id x (y + 1).
Proof. lia. Qed.

Lemma In_lower v x y : In v (lower x y) <-> v = id x y \/ v = id (x + 1) y \/ v = id (x + 1) (y + 1).
Proof. destruct (corner_number x y) as (A & B & C). unfold lower. cbn [In]. rewrite A, B. intuition. Qed.
Lemma In_upper v x y : In v (upper x y) <-> v = id x y \/ v = id (x + 1) (y + 1) \/ v = id x (y + 1).
Proof. destruct (corner_number x y) as (A & B & C). unfold upper. cbn [In]. rewrite B, C. intuition. Qed.
Lemma In_quad v x y : In v (quad x y) <-> v = id x y \/ v = id (x + 1) y \/ v = id x (y + 1) \/ v = id (x + 1) (y + 1).
Proof. destruct (corner_number x y) as (A & B & C). unfold quad. cbn [In]. rewrite A, B, C. intuition. Qed.

Lemma id_inj x y x' y' : x <= n -> x' <= n -> id x y = id x' y' -> x = x' /\ y = y'.
Proof. intros. apply (number_inj (n + 1)); lia. Qed.

Ltac coords := repeat match goal with
  | H : ?y * (n + 1) + ?x = ?y' * (n + 1) + ?x' |- _ => apply id_inj in H; [|lia|lia]; destruct H
  end.

(** Two triangles with the same three vertices. *)
Lemma triangle_sets c c' : In c triangle_cells -> In c' triangle_cells -> (forall v, In v c -> In v c') -> c = c'.
Proof.
  intros Hc Hc' H. apply In_triangle_cells in Hc, Hc'.
  destruct Hc as (x & y & Hx & Hy & E), Hc' as (x' & y' & Hx' & Hy' & E').
  destruct E as [-> | ->], E' as [-> | ->].
  - assert (H1 := H (id x y)). assert (H2 := H (id (x + 1) (y + 1))). rewrite !In_lower in H1, H2. specialize (H1 ltac:(auto)). specialize (H2 ltac:(auto)).
    destruct H1 as [H1|[H1|H1]], H2 as [H2|[H2|H2]]; coords; try lia; subst; f_equal; lia.
  - assert (H1 := H (id x y)). assert (H2 := H (id (x + 1) y)). assert (H3 := H (id (x + 1) (y + 1))). rewrite In_lower, In_upper in H1, H2, H3.
    specialize (H1 ltac:(auto)). specialize (H2 ltac:(auto)). specialize (H3 ltac:(auto)).
    destruct H1 as [H1|[H1|H1]], H2 as [H2|[H2|H2]], H3 as [H3|[H3|H3]]; coords; lia.
  - assert (H1 := H (id x y)). assert (H2 := H (id x (y + 1))). assert (H3 := H (id (x + 1) (y + 1))). rewrite In_lower, In_upper in H1, H2, H3.
    specialize (H1 ltac:(auto)). specialize (H2 ltac:(auto)). specialize (H3 ltac:(auto)).
    destruct H1 as [H1|[H1|H1]], H2 as [H2|[H2|H2]], H3 as [H3|[H3|H3]]; coords; lia.
  - assert (H1 := H (id x y)). assert (H2 := H (id (x + 1) (y + 1))). rewrite !In_upper in H1, H2. specialize (H1 ltac:(auto)). specialize (H2 ltac:(auto)).
    destruct H1 as [H1|[H1|H1]], H2 as [H2|[H2|H2]]; coords; try lia; subst; f_equal; lia.
Qed.

Lemma triangles_NoDup : NoDup triangle_cells.
Proof.
  unfold triangle_cells. apply NoDup_flat_map; [apply seq_NoDup| |].
  - intros y Hy. apply in_seq in Hy. apply NoDup_flat_map; [apply seq_NoDup| |].
    + intros x Hx. repeat constructor; cbn [In]; [|intuition]. intros [E|[]]. injection E. intros. lia.
    + intros x x' b Hx Hx' Hb Hb'. apply in_seq in Hx, Hx'. cbn [In] in Hb, Hb'.
      assert (E : nth_error b 0 = Some (id x y) /\ nth_error b 0 = Some (id x' y)) by (destruct Hb as [<-|[<-|[]]]; split; try reflexivity; destruct Hb' as [<-|[<-|[]]]; reflexivity).
      destruct E as (E1 & E2). rewrite E1 in E2. injection E2 as E2. lia.
  - intros y y' b Hy Hy' Hb Hb'. apply in_seq in Hy, Hy'. apply in_flat_map in Hb, Hb'. destruct Hb as (x & Hx & Hb), Hb' as (x' & Hx' & Hb'). apply in_seq in Hx, Hx'. cbn [In] in Hb, Hb'.
    assert (E : nth_error b 0 = Some (id x y) /\ nth_error b 0 = Some (id x' y')) by (destruct Hb as [<-|[<-|[]]]; split; try reflexivity; destruct Hb' as [<-|[<-|[]]]; reflexivity).
    destruct E as (E1 & E2). rewrite E1 in E2. injection E2 as E2. apply id_inj in E2; lia.
Qed.

Lemma quads_NoDup : NoDup quad_cells.
Proof.
  unfold quad_cells. apply NoDup_flat_map; [apply seq_NoDup| |].
  - intros y Hy. apply in_seq in Hy. rewrite flat_map_single. apply NoDup_map_inj_in; [|apply seq_NoDup]. intros x x' Hx Hx' E. injection E. intros. lia.
  - intros y y' b Hy Hy' Hb Hb'. apply in_seq in Hy, Hy'. rewrite flat_map_single in Hb, Hb'. apply in_map_iff in Hb, Hb'.
    destruct Hb as (x & Eb & Hx), Hb' as (x' & Eb' & Hx'). apply in_seq in Hx, Hx'. rewrite <- Eb in Eb'. injection Eb' as E _ _ _. apply id_inj in E; lia.
Qed.

Lemma triangles_conforming i : conforming (grid_of_cells i Triangle ((n + 1) * (n + 1)) triangle_cells).
Proof.
  intros k j v w Hk Hj Hkj Hvw Vk Vj Wk Wj. set (g := grid_of_cells i Triangle ((n + 1) * (n + 1)) triangle_cells) in *.
  change (ent_count g 2) with (length triangle_cells + 0) in Hk, Hj. rewrite Nat.add_0_r in Hk, Hj.
  destruct (nth_error triangle_cells k) as [c|] eqn:Ec; [|apply nth_error_None in Ec; lia]. destruct (nth_error triangle_cells j) as [c'|] eqn:Ec'; [|apply nth_error_None in Ec'; lia].
  pose proof (nth_error_nth_Some _ _ [] _ Ec) as Nc. pose proof (nth_error_nth_Some _ _ [] _ Ec') as Nc'.
  change (g_sub g k 0) with (nth k triangle_cells []) in *. change (g_sub g j 0) with (nth j triangle_cells []) in *.
  assert (Three : forall c, In c triangle_cells -> exists a b d, c = [a; b; d] /\ a <> b /\ b <> d /\ a <> d).
  { intros e He. destruct (proj2 triangles_valid e He) as (L & D & _). destruct e as [|a [|b [|d [|? ?]]]]; try discriminate. exists a, b, d.
    inversion D as [|? ? D1 D2]; subst. inversion D2 as [|? ? D3 D4]; subst. cbn in D1, D3. intuition. }
  assert (G : forall k d, nth k triangle_cells [] = d -> In d triangle_cells -> In v d -> In w d -> edge_of g k v w).
  { intros k0 d Hd He Hv Hw. destruct (Three d He) as (a & b & e & -> & _). unfold edge_of. change (g_ctype g k0) with Triangle.
    change (g_sub g k0 0) with (nth k0 triangle_cells []). rewrite Hd. cbn in Hv, Hw.
    destruct Hv as [<-|[<-|[<-|[]]]], Hw as [<-|[<-|[<-|[]]]]; try congruence.
    - exists 0, 1. split; [cbn; auto|]. left. auto.
    - exists 0, 2. split; [cbn; auto|]. left. auto.
    - exists 0, 1. split; [cbn; auto|]. right. auto.
    - exists 1, 2. split; [cbn; auto|]. left. auto.
    - exists 0, 2. split; [cbn; auto|]. right. auto.
    - exists 1, 2. split; [cbn; auto|]. right. auto. }
  rewrite Nc in Vk, Wk. rewrite Nc' in Vj, Wj. pose proof (nth_error_In _ _ Ec) as Ic. pose proof (nth_error_In _ _ Ec') as Ic'.
  split; [now apply (G k c)|]. split; [now apply (G j c')|]. rewrite Nc, Nc'.
  intros u Ui Uj. destruct (Nat.eq_dec u v); auto. destruct (Nat.eq_dec u w); auto. exfalso. apply Hkj.
  apply (NoDup_nth_error_inj triangle_cells k j c); [apply triangles_NoDup|exact Ec|]. rewrite Ec'. f_equal. symmetry. apply triangle_sets; auto.
  destruct (Three c Ic) as (a & b & d & -> & N1 & N2 & N3). cbn in Vk, Wk, Ui. intros x Hx. cbn in Hx.
  assert (x = u \/ x = v \/ x = w) as [->|[->| ->]]; auto. intuition congruence.
Qed.

Lemma quads_conforming i : conforming (grid_of_cells i Quadrilateral ((n + 1) * (n + 1)) quad_cells).
Proof.
  intros k j v w Hk Hj Hkj Hvw Vk Vj Wk Wj. set (g := grid_of_cells i Quadrilateral ((n + 1) * (n + 1)) quad_cells) in *.
  change (ent_count g 2) with (length quad_cells + 0) in Hk, Hj. rewrite Nat.add_0_r in Hk, Hj.
  destruct (nth_error quad_cells k) as [c|] eqn:Ec; [|apply nth_error_None in Ec; lia]. destruct (nth_error quad_cells j) as [c'|] eqn:Ec'; [|apply nth_error_None in Ec'; lia].
  pose proof (nth_error_nth_Some _ _ [] _ Ec) as Nc. pose proof (nth_error_nth_Some _ _ [] _ Ec') as Nc'.
  change (g_sub g k 0) with (nth k quad_cells []) in *. change (g_sub g j 0) with (nth j quad_cells []) in *. rewrite Nc in Vk, Wk. rewrite Nc' in Vj, Wj.
  assert (D : c <> c').
  { intros ->. apply Hkj. now apply (NoDup_nth_error_inj quad_cells k j c'); [apply quads_NoDup|exact Ec|]. }
  pose proof (nth_error_In _ _ Ec) as Ic. pose proof (nth_error_In _ _ Ec') as Ic'. apply In_quad_cells in Ic, Ic'.
  destruct Ic as (x & y & Hx & Hy & ->), Ic' as (x' & y' & Hx' & Hy' & ->).
  assert (D2 : x <> x' \/ y <> y') by (destruct (Nat.eq_dec x x'), (Nat.eq_dec y y'); auto; subst; congruence). clear D.
  (* corners as offsets *)
  assert (Corner : forall u x y, In u (quad x y) -> exists a b, a <= 1 /\ b <= 1 /\ u = id (x + a) (y + b)).
  { intros u x0 y0 H. apply In_quad in H. destruct H as [->|[->|[->| ->]]]; [exists 0, 0|exists 1, 0|exists 0, 1|exists 1, 1]; repeat split; lia. }
  assert (Edge : forall k x y a b a' b', nth k quad_cells [] = quad x y -> a <= 1 -> b <= 1 -> a' <= 1 -> b' <= 1 -> (a = a' /\ b <> b') \/ (a <> a' /\ b = b') ->
    edge_of g k (id (x + a) (y + b)) (id (x + a') (y + b'))).
  { intros k0 x0 y0 a b a' b' E A B A' B' O. unfold edge_of. change (g_ctype g k0) with Quadrilateral. change (g_sub g k0 0) with (nth k0 quad_cells []). rewrite E. unfold quad.
    assert (K : forall p q, p <= 1 -> q <= 1 -> nth_error [id x0 y0; id x0 y0 + 1; id x0 y0 + n + 1; id x0 y0 + n + 2] (p + 2 * q) = Some (id (x0 + p) (y0 + q))).
    { intros p q Hp Hq. assert (p = 0 \/ p = 1) as [->| ->] by lia; assert (q = 0 \/ q = 1) as [->| ->] by lia; cbn [Nat.add Nat.mul nth_error]; f_equal; lia. }
    destruct O as [(<- & O)|(O & <-)].
    - exists (a + 2 * 0), (a + 2 * 1). rewrite !K by lia. split; [assert (a = 0 \/ a = 1) as [->| ->] by lia; cbn; auto|].
      assert ((b = 0 /\ b' = 1) \/ (b = 1 /\ b' = 0)) as [(-> & ->)|(-> & ->)] by lia; auto.
    - exists (0 + 2 * b), (1 + 2 * b). rewrite !K by lia. split; [assert (b = 0 \/ b = 1) as [->| ->] by lia; cbn; auto|].
      assert ((a = 0 /\ a' = 1) \/ (a = 1 /\ a' = 0)) as [(-> & ->)|(-> & ->)] by lia; auto. }
  apply Corner in Vk, Wk, Vj, Wj.
  destruct Vk as (a & b & A & B & Ev), Wk as (a' & b' & A' & B' & Ew), Vj as (p & q & P & Q & Ev2), Wj as (p' & q' & P' & Q' & Ew2).
  pose proof Ev as F1. rewrite Ev2 in F1. apply id_inj in F1; [|lia..]. pose proof Ew as F2. rewrite Ew2 in F2. apply id_inj in F2; [|lia..].
  assert (N : a <> a' \/ b <> b') by (destruct (Nat.eq_dec a a'), (Nat.eq_dec b b'); auto; subst; congruence).
  rewrite Nc, Nc'.
  split; [rewrite Ev, Ew; apply Edge; auto; lia|]. split; [rewrite Ev2, Ew2; apply Edge; auto; lia|].
  intros u Uk Uj. apply Corner in Uk, Uj. destruct Uk as (s & t & S1 & T1 & Eu), Uj as (s' & t' & S2 & T2 & Eu2).
  pose proof Eu as F3. rewrite Eu2 in F3. apply id_inj in F3; [|lia..].
  assert ((s = a /\ t = b) \/ (s = a' /\ t = b')) as [(-> & ->)|(-> & ->)] by lia; [left|right]; congruence.
Qed.

End Cells.
