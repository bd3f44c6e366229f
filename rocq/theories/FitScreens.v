(** * First-fit colours on the screens *)
From Verif Require Import Base BaseFacts Topology TopologyFacts DofMap DofMapFacts SpecDof DofMapResults DofExamples
  Colouring ColouringFacts SpecColour ColouringResults SpecFit FitResults Shapes SpecShapes ScreenFacts ShapesResults CountsSphere CountsScreen CountsResults.

Lemma lagrange_head p g : wf_grid g -> 1 <= p -> head_dim_pos g (lagrange p).
Proof.
  intros W Hp t0 H. assert (Ht : In t0 (g_types g 2)) by (eapply nth_error_In; eauto).
  destruct (lagrange_lowest (g_types g 2) p (wf_types2_surface g W) Hp) as (_ & L). destruct (L t0 Ht) as (_ & P).
  destruct (P 0) as (x & l & E); [apply ref_count_pos; [now apply (wf_types2_surface g W)|lia]|].
  assert (WE := wff_el _ _ (lagrange_wf_family p (g_types g 2)) t0 Ht). assert (Q := we_lt t0 _ 0 0 (x :: l) 0 x WE E eq_refl). lia.
Qed.

(** With DOFs at the vertices, cells conflict when they have a vertex in common. *)
Lemma lagrange_lowest_dim g p : wf_grid g -> 1 <= p -> lowest_dim (g_types g 2) (lagrange p) 0.
Proof.
  intros W Hp. destruct (lagrange_lowest (g_types g 2) p (wf_types2_surface g W) Hp) as (_ & L).
  constructor; [lia|intros; lia|]. intros t i Ht _ Hi. destruct (L t Ht) as (_ & P). destruct (P i Hi) as (x & l & E).
  unfold el_ndofs. rewrite E. cbn. lia.
Qed.

Lemma app_same_length {A : Type} (l1 l2 m1 m2 : list A) : length l1 = length l2 -> l1 ++ m1 = l2 ++ m2 -> l1 = l2.
Proof.
  revert l2. induction l1 as [|a l1 IH]; intros [|b l2] L E; try discriminate; auto. cbn in E. injection E as -> E. f_equal. apply IH; auto.
Qed.

Section Grid.
Context (i : nat) (t : cell_type) (npts : nat) (cells : list (list nat)) (Ht : t = Triangle \/ t = Quadrilateral).
Local Notation G := (grid_of_cells i t npts cells).
Context (W : wf_grid G) (p : nat) (Hp : 1 <= p) (rank : nat) (dm : dofmap) (HA : assign_dofs rank G (lagrange p) = Ok dm).

Lemma conflict_cells c c' : c < length cells -> c' < length cells -> c <> c' -> (conflict dm c c' <-> touches (nth c cells []) (nth c' cells []) = true).
Proof.
  intros Hc Hc' Ne. assert (WF : wf_family (g_types G 2) (lagrange p)) by apply lagrange_wf_family. rewrite touches_true.
  rewrite <- (cell_total i t npts cells Ht) in Hc, Hc'. split.
  - intros C. apply (conflict_touch rank G (lagrange p) dm 0 W WF HA (lagrange_lowest_dim G p W Hp) c c' Ne C).
  - intros T. apply (touch_conflict rank G (lagrange p) dm 0 W WF HA (lagrange_lowest_dim G p W Hp)); auto.
Qed.

Lemma seq_split n l1 c l2 : seq 0 n = l1 ++ c :: l2 -> l1 = seq 0 c /\ c < n.
Proof.
  intros E. assert (L : length l1 = c).
  { assert (Q : nth_error (seq 0 n) (length l1) = Some c) by (rewrite E, nth_error_app2, Nat.sub_diag by lia; reflexivity).
    assert (B : length l1 < n) by (rewrite <- (seq_length n 0), E, app_length; cbn; lia). rewrite nth_error_seq in Q by exact B. now injection Q as <-. }
  assert (B : c < n) by (rewrite <- (seq_length n 0), E, app_length; cbn; lia). split; auto.
  replace n with (c + (n - c)) in E by lia. rewrite seq_app in E. symmetry. apply (app_same_length _ _ _ _ (eq_trans (seq_length c 0) (eq_sym L)) E).
Qed.

(** First fit in terms of vertex lists. *)
Lemma first_fit_cells colour : first_fit G dm colour <->
  (forall c, c < length cells -> (forall c', c' < c -> touches (nth c cells []) (nth c' cells []) = true -> colour c' <> colour c) /\
     (forall k, k < colour c -> exists c', c' < c /\ touches (nth c cells []) (nth c' cells []) = true /\ colour c' = k)).
Proof.
  assert (Q : forall c, c < length cells -> g_iter G 2 = seq 0 c ++ c :: seq (S c) (length cells - c - 1)).
  { intros c Hc. cbn [g_iter grid_of_cells]. replace (length cells) with (c + S (length cells - c - 1)) at 1 by lia. rewrite seq_app. reflexivity. }
  split.
  - intros F c Hc. destruct (F _ _ _ (Q c Hc)) as (A & B). split.
    + intros c' L T. apply A; [apply in_seq; lia|]. apply conflict_cells; auto; lia.
    + intros k Hk. destruct (B k Hk) as (c' & H1 & H2 & H3). apply in_seq in H1. exists c'. split; [lia|]. split; auto.
      apply conflict_cells in H2; auto; lia.
  - intros H earlier c later E. cbn [g_iter grid_of_cells] in E. apply seq_split in E. destruct E as (-> & Hc). destruct (H c Hc) as (A & B). split.
    + intros c' L C. apply in_seq in L. apply A; [lia|]. apply conflict_cells in C; auto; lia.
    + intros k Hk. destruct (B k Hk) as (c' & H1 & H2 & H3). exists c'. split; [apply in_seq; lia|]. split; auto. apply conflict_cells; auto; lia.
Qed.
End Grid.

(** ** Quadrilaterals *)

Definition chessboard (n c : nat) : nat := (c mod n) mod 2 + 2 * ((c / n) mod 2).

Lemma chessboard_at n x y : x < n -> chessboard n (y * n + x) = x mod 2 + 2 * (y mod 2).
Proof.
  intros H. unfold chessboard. rewrite (Nat.add_comm (y * n)), Nat.mod_add, Nat.div_add by lia. rewrite (Nat.mod_small x n), (Nat.div_small x n) by lia. reflexivity.
Qed.

Lemma quad_at n x y : x < n -> y < n -> nth (y * n + x) (quad_cells n) [] = quad n x y.
Proof.
  intros Hx Hy. apply nth_error_nth. unfold quad_cells. rewrite (flat_map_nth _ _ n) with (a := y).
  - rewrite flat_map_single, (map_nth_error _ _ _ (nth_error_seq 0 n x Hx)). reflexivity.
  - intros. rewrite flat_map_single. now rewrite map_length, seq_length.
  - rewrite nth_error_seq; auto.
  - exact Hx.
Qed.

Lemma quad_touch n x y x' y' : x < n -> x' < n -> touches (quad n x y) (quad n x' y') = true <-> (x' <= x + 1 /\ x <= x' + 1) /\ (y' <= y + 1 /\ y <= y' + 1).
Proof.
  intros Hx Hx'. assert (E := quad_quad n x y x' y' Hx Hx').
  destruct (step_cases x x') as [(Sx & X)|[(Sx & X)|[(Sx & X)|(Sx & X)]]], (step_cases y y') as [(Sy & Y)|[(Sy & Y)|[(Sy & Y)|(Sy & Y)]]];
    rewrite Sx, Sy in E; cbn [squares] in E; destruct (touches (quad n x y) (quad n x' y')); cbn [b2n] in E; try discriminate E; split; intros; try reflexivity; try discriminate; try lia; exfalso; lia.
Qed.

Lemma quads_length n : length (quad_cells n) = n * n.
Proof.
  unfold quad_cells. transitivity (length (seq 0 n) * n); [|now rewrite seq_length].
  induction (seq 0 n) as [|y l IH] at 2 3; [reflexivity|]. cbn [flat_map length]. rewrite app_length, IH, flat_map_single, map_length, seq_length. lia.
Qed.

Lemma parity x : (x mod 2 = 0 /\ exists q, x = 2 * q) \/ (x mod 2 = 1 /\ exists q, x = 2 * q + 1).
Proof.
  pose proof (Nat.div_mod x 2 ltac:(lia)). pose proof (Nat.mod_upper_bound x 2 ltac:(lia)).
  destruct (x mod 2) as [|[|]]; [left|right|lia]; (split; [reflexivity|]); exists (x / 2); lia.
Qed.

Lemma parity_odd q : (2 * q + 1) mod 2 = 1.
Proof. rewrite (Nat.mul_comm 2), Nat.add_comm, Nat.mod_add by lia. reflexivity. Qed.
Lemma parity_even q : (2 * q) mod 2 = 0.
Proof. rewrite (Nat.mul_comm 2). apply Nat.mod_mul. lia. Qed.

Lemma quads_chessboard n : n <> 0 ->
  forall c, c < length (quad_cells n) -> (forall c', c' < c -> touches (nth c (quad_cells n) []) (nth c' (quad_cells n) []) = true -> chessboard n c' <> chessboard n c) /\
     (forall k, k < chessboard n c -> exists c', c' < c /\ touches (nth c (quad_cells n) []) (nth c' (quad_cells n) []) = true /\ chessboard n c' = k).
Proof.
  intros Hn c Hc. rewrite quads_length in Hc. destruct (number_of n c Hc) as (x & y & Hx & Hy & ->). rewrite quad_at, chessboard_at by auto. split.
  - intros c' L T E. destruct (number_of n c' ltac:(lia)) as (x' & y' & Hx' & Hy' & ->). rewrite quad_at in T by auto. rewrite chessboard_at in E by auto.
    apply quad_touch in T; auto.
    destruct (parity x) as [(Px & q & ->)|(Px & q & ->)], (parity y) as [(Py & r & ->)|(Py & r & ->)], (parity x') as [(Px' & q' & ->)|(Px' & q' & ->)], (parity y') as [(Py' & r' & ->)|(Py' & r' & ->)];
      rewrite Px, Py, Px', Py' in E; try lia; assert (q = q') as -> by lia; assert (r = r') as -> by lia; lia.
  - intros k Hk.
    assert (M : forall x' y', x' < n -> y' <= y -> (y' < y \/ x' < x) -> (x' <= x + 1 /\ x <= x' + 1) -> y <= y' + 1 -> x' mod 2 + 2 * (y' mod 2) = k ->
        exists c', c' < y * n + x /\ touches (quad n x y) (nth c' (quad_cells n) []) = true /\ chessboard n c' = k).
    { intros x' y' Hx' Ly O Tx Ty E. exists (y' * n + x'). split; [nia|]. rewrite quad_at, chessboard_at by lia. split; auto. apply quad_touch; auto; lia. }
    destruct (parity x) as [(Px & q & ->)|(Px & q & ->)], (parity y) as [(Py & r & ->)|(Py & r & ->)]; rewrite Px, Py in Hk; cbn in Hk; [lia| | |].
    + destruct k as [|[|]]; [| |lia].
      * apply (M (2 * q) (2 * r)); rewrite ?parity_even; lia.
      * destruct q as [|q]; [apply (M (2 * 0 + 1) (2 * r))|apply (M (2 * q + 1) (2 * r))]; rewrite ?parity_even, ?parity_odd; lia.
    + destruct k; [|lia]. apply (M (2 * q) (2 * r)); rewrite ?parity_even; lia.
    + destruct k as [|[|[|]]]; [| | |lia].
      * apply (M (2 * q) (2 * r)); rewrite ?parity_even; lia.
      * apply (M (2 * q + 1) (2 * r)); rewrite ?parity_even, ?parity_odd; lia.
      * apply (M (2 * q) (2 * r + 1)); rewrite ?parity_even, ?parity_odd; lia.
Qed.

Lemma quads_colours : forall n b i p, screen_quadrilaterals n = Ok b -> 1 <= p ->
  cell_colouring (built_grid i Quadrilateral b) (lagrange p) =
  Ok (classes_of (built_grid i Quadrilateral b) (fun c => (c mod n) mod 2 + 2 * ((c / n) mod 2)) (if n =? 1 then 1 else 4)).
Proof.
  intros n b i p E Hp. destruct (built_quads n b i E) as (Hn & ->).
  assert (W : wf_grid (grid_of_cells i Quadrilateral ((n + 1) * (n + 1)) (quad_cells n))) by apply grid_of_cells_wf, quads_valid.
  assert (WF : wf_family (g_types (grid_of_cells i Quadrilateral ((n + 1) * (n + 1)) (quad_cells n)) 2) (lagrange p)) by apply lagrange_wf_family.
  destruct (assign_dofs_total 0 _ (lagrange p) W WF) as (dm & HA).
  apply (first_fit_determines 0 _ _ dm); auto; [now apply lagrange_head| |].
  - apply (first_fit_cells i Quadrilateral _ _ (or_intror eq_refl) W p Hp 0 dm HA). now apply (quads_chessboard n).
  - unfold colours_used. rewrite (cell_total i Quadrilateral _ _ (or_intror eq_refl)), quads_length.
    destruct (Nat.eqb_spec n 1) as [-> | N1]; split.
    + intros c Hc. assert (c = 0) as -> by lia. cbn. lia.
    + intros k Hk. exists 0. split; [lia|]. assert (k = 0) as -> by lia. reflexivity.
    + intros c Hc. pose proof (Nat.mod_upper_bound (c mod n) 2 ltac:(lia)). pose proof (Nat.mod_upper_bound (c / n) 2 ltac:(lia)). lia.
    + intros k Hk. assert (M : forall x y, x < 2 -> y < 2 -> x mod 2 + 2 * (y mod 2) = k -> exists c, c < n * n /\ (c mod n) mod 2 + 2 * ((c / n) mod 2) = k).
      { intros x y Hx Hy Q. exists (y * n + x). split; [nia|]. rewrite <- Q. apply (chessboard_at n x y). lia. }
      destruct k as [|[|[|[|]]]]; [apply (M 0 0)|apply (M 1 0)|apply (M 0 1)|apply (M 1 1)|lia]; cbn; lia.
Qed.

(** ** Triangles *)

(** The triangle number [(y n + x) 2 + h]: the lower ([h = 0]) or the upper one in square [(x, y)]. *)
Definition triangle (n : nat) (q : nat * nat * nat) : list nat :=
  let '(x, y, h) := q in match h with 0 => lower n x y | _ => upper n x y end.
Definition triangle_number (n : nat) (q : nat * nat * nat) : nat := let '(x, y, h) := q in (y * n + x) * 2 + h.
Definition triangle_inside (n : nat) (q : nat * nat * nat) : Prop := let '(x, y, h) := q in x < n /\ y < n /\ h < 2.

Lemma triangles_length n : length (triangle_cells n) = n * n * 2.
Proof.
  unfold triangle_cells. transitivity (length (seq 0 n) * (n * 2)); [|rewrite seq_length; lia].
  induction (seq 0 n) as [|y l IH] at 2 3; [reflexivity|]. cbn [flat_map length]. rewrite app_length, IH.
  assert (Q : forall m, length (flat_map (fun x => [lower n x y; upper n x y]) m) = length m * 2) by (induction m as [|z m IHm]; cbn [flat_map app length]; lia).
  rewrite Q, seq_length. lia.
Qed.

Lemma triangle_at n q : triangle_inside n q -> nth (triangle_number n q) (triangle_cells n) [] = triangle n q.
Proof.
  destruct q as ((x, y), h). cbn [triangle_inside triangle_number triangle]. intros (Hx & Hy & Hh). apply nth_error_nth. unfold triangle_cells.
  replace ((y * n + x) * 2 + h) with (y * (n * 2) + (x * 2 + h)) by lia. rewrite (flat_map_nth _ _ (n * 2)) with (a := y).
  - rewrite (flat_map_nth _ _ 2) with (a := x); auto; [|rewrite nth_error_seq; auto]. destruct h as [|[|h]]; try lia; reflexivity.
  - intros a _. transitivity (length (seq 0 n) * 2); [|now rewrite seq_length].
    generalize (seq 0 n). intros m. induction m as [|z m IHm]; cbn [flat_map app length]; lia.
  - rewrite nth_error_seq; auto.
  - nia.
Qed.

Lemma triangle_of n c : c < length (triangle_cells n) -> exists q, triangle_inside n q /\ c = triangle_number n q.
Proof.
  rewrite triangles_length. intros H. pose proof (Nat.div_mod c 2 ltac:(lia)). pose proof (Nat.mod_upper_bound c 2 ltac:(lia)).
  destruct (number_of n (c / 2)) as (x & y & Hx & Hy & E); [apply Nat.div_lt_upper_bound; lia|].
  exists (x, y, c mod 2). cbn [triangle_inside triangle_number]. split; [auto|]. lia.
Qed.

(** The earlier triangles with a common vertex. *)
Definition earlier_triangles (n : nat) (q : nat * nat * nat) : list (nat * nat * nat) :=
  let '(x, y, h) := q in
  match h with
  | 0 =>
      (if 0 <? x then [(x - 1, y, 0)] else []) ++
      (if 0 <? y then
         (if 0 <? x then [(x - 1, y - 1, 0); (x - 1, y - 1, 1)] else []) ++ [(x, y - 1, 0); (x, y - 1, 1)] ++
         (if x + 1 <? n then [(x + 1, y - 1, 1)] else [])
       else [])
  | _ =>
      [(x, y, 0)] ++ (if 0 <? x then [(x - 1, y, 0); (x - 1, y, 1)] else []) ++
      (if 0 <? y then (if 0 <? x then [(x - 1, y - 1, 0); (x - 1, y - 1, 1)] else []) ++ [(x, y - 1, 1)] else [])
  end.

Lemma earlier_inside n q q' : triangle_inside n q -> In q' (earlier_triangles n q) -> triangle_inside n q' /\ triangle_number n q' < triangle_number n q.
Proof.
  destruct q as ((x, y), h). cbn [triangle_inside]. intros (Hx & Hy & Hh) H. unfold earlier_triangles in H.
  destruct h as [|[|]]; [| |lia]; destruct (Nat.ltb_spec 0 x), (Nat.ltb_spec 0 y), (Nat.ltb_spec (x + 1) n); cbn [app In] in H;
    repeat (destruct H as [<-|H]; [cbn [triangle_inside triangle_number]; split; [lia|nia]|]); destruct H.
Qed.

Lemma earlier_touch n q q' : triangle_inside n q -> triangle_inside n q' -> triangle_number n q' < triangle_number n q ->
  (touches (triangle n q) (triangle n q') = true <-> In q' (earlier_triangles n q)).
Proof.
  destruct q as ((x, y), h), q' as ((x', y'), h'). cbn [triangle_inside triangle_number]. intros (Hx & Hy & Hh) (Hx' & Hy' & Hh') L.
  assert (L' : y' < y \/ (y' = y /\ (x' < x \/ (x' = x /\ h' < h)))) by nia. clear L.
  assert (Q : forall a b c : nat, (a, b, c) = (x', y', h') <-> a = x' /\ b = y' /\ c = h').
  { intros. split; [intros E; injection E; auto|intros (-> & -> & ->); reflexivity]. }
  assert (B : touches (triangle n (x, y, h)) (triangle n (x', y', h')) = true <->
     (match h, h' with 0, 0 => same_kind | S _, S _ => same_kind | 0, S _ => low_up | S _, 0 => up_low end) (step x x') (step y y') = 1).
  { destruct h as [|[|]], h' as [|[|]]; try lia; cbn [triangle].
    - rewrite <- (low_low n x y x' y' Hx Hx'). destruct (touches _ _); cbn [b2n]; split; auto; discriminate.
    - rewrite <- (low_upper n x y x' y' Hx Hx'). destruct (touches _ _); cbn [b2n]; split; auto; discriminate.
    - rewrite <- (up_lower n x y x' y' Hx Hx'). destruct (touches _ _); cbn [b2n]; split; auto; discriminate.
    - rewrite <- (up_up n x y x' y' Hx Hx'). destruct (touches _ _); cbn [b2n]; split; auto; discriminate. }
  rewrite B. clear B. unfold earlier_triangles.
  destruct h as [|[|]], h' as [|[|]]; try lia;
  destruct (step_cases x x') as [(Sx & X)|[(Sx & X)|[(Sx & X)|(Sx & X)]]], (step_cases y y') as [(Sy & Y)|[(Sy & Y)|[(Sy & Y)|(Sy & Y)]]];
    rewrite Sx, Sy; cbn [same_kind low_up up_low]; clear Sx Sy; try (exfalso; lia);
    destruct (Nat.ltb_spec 0 x), (Nat.ltb_spec 0 y), (Nat.ltb_spec (x + 1) n); cbn [app In]; rewrite ?Q; try lia.
Qed.

Lemma earlier_six n q : length (earlier_triangles n q) <= 6.
Proof.
  destruct q as ((x, y), h). unfold earlier_triangles. destruct h; destruct (0 <? x), (0 <? y), (x + 1 <? n); cbn [app length]; lia.
Qed.

(** First fit on triangles: the smallest number that no earlier touching triangle has. *)
Lemma triangle_fit n colour :
  (forall c, c < length (triangle_cells n) -> (forall c', c' < c -> touches (nth c (triangle_cells n) []) (nth c' (triangle_cells n) []) = true -> colour c' <> colour c) /\
     (forall k, k < colour c -> exists c', c' < c /\ touches (nth c (triangle_cells n) []) (nth c' (triangle_cells n) []) = true /\ colour c' = k)) ->
  forall q, triangle_inside n q ->
    (forall q', In q' (earlier_triangles n q) -> colour (triangle_number n q') <> colour (triangle_number n q)) /\
    (forall k, k < colour (triangle_number n q) -> exists q', In q' (earlier_triangles n q) /\ colour (triangle_number n q') = k).
Proof.
  intros F q Hq.
  assert (B : forall q, triangle_inside n q -> triangle_number n q < length (triangle_cells n)).
  { intros ((x, y), h). rewrite triangles_length. cbn. intros. nia. }
  destruct (F _ (B q Hq)) as (A & C). rewrite triangle_at in A, C by auto. split.
  - intros q' H. destruct (earlier_inside n q q' Hq H) as (I & L). apply A; auto. rewrite triangle_at by auto. now apply earlier_touch.
  - intros k Hk. destruct (C k Hk) as (c' & H1 & H2 & H3). destruct (triangle_of n c') as (q' & I & ->); [specialize (B q Hq); lia|].
    exists q'. split; auto. rewrite triangle_at in H2 by auto. now apply earlier_touch in H2.
Qed.

Lemma covered_bound {A : Type} (f : A -> nat) (l : list A) m : (forall k, k < m -> exists a, In a l /\ f a = k) -> m <= length l.
Proof.
  intros H. rewrite <- (map_length f), <- (seq_length m 0). apply NoDup_incl_length; [apply seq_NoDup|].
  intros k Hk. apply in_seq in Hk. destruct (H k ltac:(lia)) as (a & Ha & <-). now apply in_map.
Qed.

Definition least_free (l : list nat) : nat := match find (fun k => negb (memb k l)) (seq 0 (S (length l))) with Some k => k | None => 0 end.

Lemma fit_least (l : list nat) c : (forall x, In x l -> x <> c) -> (forall k, k < c -> In k l) -> least_free l = c.
Proof.
  intros N B. assert (L : c <= length l).
  { apply (covered_bound (fun x => x)). intros k Hk. exists k. auto. }
  assert (G : forall m s, s <= c -> c < s + m -> find (fun k => negb (memb k l)) (seq s m) = Some c).
  { induction m as [|m IH]; intros s H1 H2; [lia|]. cbn [seq find]. destruct (Nat.eq_dec s c) as [->|Ne].
    - assert (E : memb c l = false).
      { destruct (memb c l) eqn:E; auto. apply memb_In in E. exfalso. now apply (N c E). }
      now rewrite E.
    - assert (E : memb s l = true) by (apply memb_In, B; lia). rewrite E. cbn [negb]. apply IH; lia. }
  unfold least_free. rewrite G; auto; lia.
Qed.

(** The colours near a corner, as far as they depend on nothing else. *)
Definition same_triangle (q r : nat * nat * nat) : bool :=
  let '(x, y, h) := q in let '(a, b, c) := r in (x =? a) && (y =? b) && (h =? c).
Definition known (acc : list (nat * nat * nat * nat)) (q : nat * nat * nat) : option nat := option_map snd (find (fun e => same_triangle (fst e) q) acc).
Definition known_or_zero acc q : nat := match known acc q with Some k => k | None => 0 end.

Definition corner_colours : list (nat * nat * nat * nat) := Eval compute in
  fold_left (fun acc q => acc ++ [(q, least_free (map (known_or_zero acc) (earlier_triangles 6 q)))])
    (flat_map (fun y => flat_map (fun x => [(x, y, 0); (x, y, 1)]) (seq 0 (6 - y))) (seq 0 4)) [].

Definition same_corner (q : nat * nat * nat) : bool := let '(x, y, h) := q in (x <? 6) && (y <? 6) && (h <? 2) && ((y =? 0) || (x + 1 <? 6)).

Fixpoint corner_check (acc l : list (nat * nat * nat * nat)) : bool :=
  match l with
  | [] => true
  | (q, k) :: r =>
      same_corner q && forallb (fun q' => match known acc q' with Some _ => true | None => false end) (earlier_triangles 6 q) &&
      (least_free (map (known_or_zero acc) (earlier_triangles 6 q)) =? k) && corner_check ((q, k) :: acc) r
  end.

Lemma known_In acc q k : known acc q = Some k -> In (q, k) acc.
Proof.
  unfold known. destruct (find _ acc) as [(r, j)|] eqn:E; [|discriminate]. intros Q. injection Q as <-. apply find_some in E. destruct E as (I & E).
  destruct q as ((x, y), h), r as ((a, b), c). cbn [fst same_triangle] in E. rewrite !andb_true_iff, !Nat.eqb_eq in E. destruct E as ((-> & ->) & ->). exact I.
Qed.

Lemma same_corner_earlier n q : 6 <= n -> same_corner q = true -> triangle_inside n q /\ earlier_triangles n q = earlier_triangles 6 q.
Proof.
  intros Hn H. destruct q as ((x, y), h). cbn [same_corner] in H. rewrite !andb_true_iff, orb_true_iff, !Nat.ltb_lt, Nat.eqb_eq in H.
  split; [cbn; lia|]. unfold earlier_triangles. destruct h; [|reflexivity]. destruct (Nat.ltb_spec 0 y); [|reflexivity].
  assert (E : (x + 1 <? n) = (x + 1 <? 6)); [|now rewrite E]. transitivity true; [|symmetry]; apply Nat.ltb_lt; lia.
Qed.

Section Corner.
Context (n : nat) (colour : nat -> nat) (Hn : 6 <= n).
Hypothesis F : forall q, triangle_inside n q ->
    (forall q', In q' (earlier_triangles n q) -> colour (triangle_number n q') <> colour (triangle_number n q)) /\
    (forall k, k < colour (triangle_number n q) -> exists q', In q' (earlier_triangles n q) /\ colour (triangle_number n q') = k).

Lemma corner_checked l : forall acc, (forall q k, In (q, k) acc -> colour (triangle_number n q) = k) -> corner_check acc l = true ->
  forall q k, In (q, k) l -> colour (triangle_number n q) = k.
Proof.
  induction l as [|(q, k) l IH]; intros acc A C q0 k0 I; [destruct I|]. cbn [corner_check] in C. rewrite !andb_true_iff in C.
  destruct C as (((C1 & C2) & C3) & C4). apply Nat.eqb_eq in C3.
  assert (E : colour (triangle_number n q) = k).
  { destruct (same_corner_earlier n q Hn C1) as (I1 & I2). destruct (F q I1) as (N & B). rewrite I2 in N, B. rewrite <- C3. symmetry. apply fit_least.
    - intros x Hx. apply in_map_iff in Hx. destruct Hx as (q' & <- & Hq'). assert (K := proj1 (forallb_forall _ _) C2 q' Hq'). cbv beta in K.
      specialize (N q' Hq'). unfold known_or_zero. destruct (known acc q') as [j|] eqn:Ej; [|discriminate]. apply known_In in Ej. now rewrite <- (A q' j Ej).
    - intros j Hj. destruct (B j Hj) as (q' & Hq' & <-). assert (K := proj1 (forallb_forall _ _) C2 q' Hq'). cbv beta in K.
      apply in_map_iff. exists q'. split; auto. unfold known_or_zero. destruct (known acc q') as [j|] eqn:Ej; [|discriminate]. apply known_In in Ej. now rewrite (A q' j Ej). }
  destruct I as [I|I]; [now injection I as <- <-|]. apply (IH ((q, k) :: acc)); auto. intros q1 k1 [Q|Q]; [now injection Q as <- <-|auto].
Qed.

Lemma corner_seven : colour (triangle_number n (2, 3, 1)) = 6.
Proof. apply (corner_checked corner_colours []); [intros q k []|vm_compute; reflexivity|]. unfold corner_colours. cbn [In]. tauto. Qed.
End Corner.

Lemma triangles_colours : forall n b i p col K, screen_triangles n = Ok b -> 1 <= p ->
  cell_colouring (built_grid i Triangle b) (lagrange p) = Ok col -> class_count col K -> K <= 7 /\ (4 <= n -> K = 7).
Proof.
  intros n b i p col K E Hp HC HK. destruct (built_triangles n b i E) as (Hn & Eg). rewrite Eg in HC.
  assert (W : wf_grid (grid_of_cells i Triangle ((n + 1) * (n + 1)) (triangle_cells n))) by apply grid_of_cells_wf, triangles_valid.
  assert (WF : wf_family (g_types (grid_of_cells i Triangle ((n + 1) * (n + 1)) (triangle_cells n)) 2) (lagrange p)) by apply lagrange_wf_family.
  destruct (assign_dofs_total 0 _ (lagrange p) W WF) as (dm & HA).
  destruct (first_fit_holds 0 _ (lagrange p) dm W WF (lagrange_head p _ W Hp) HA) as (colour & K' & F & U & E').
  assert (K = K') as ->.
  { rewrite E' in HC. injection HC as <-. specialize (HK Triangle _ eq_refl). now rewrite map_length, seq_length in HK. }
  destruct U as (U1 & U2). rewrite (cell_total i Triangle _ _ (or_introl eq_refl)) in U1, U2.
  rewrite (first_fit_cells i Triangle _ _ (or_introl eq_refl) W p Hp 0 dm HA) in F. assert (T := triangle_fit n colour F).
  assert (Six : forall q, triangle_inside n q -> colour (triangle_number n q) <= 6).
  { intros q Hq. destruct (T q Hq) as (_ & B). apply Nat.le_trans with (2 := earlier_six n q). eapply covered_bound. exact B. }
  assert (Le : K' <= 7).
  { destruct K' as [|K']; [lia|]. destruct (U2 K') as (c & Hc & <-); [lia|]. destruct (triangle_of n c Hc) as (q & Hq & ->). specialize (Six q Hq). lia. }
  split; [exact Le|]. intros H4. assert (K' >= 7); [|lia].
  assert (Ge : 6 <= n -> 6 < K').
  { intros H6. rewrite <- (corner_seven n colour H6 T). apply U1. rewrite triangles_length. cbn [triangle_number]. nia. }
  destruct (le_lt_dec 6 n) as [H6|H6]; [specialize (Ge H6); lia|]. assert (N : n = 4 \/ n = 5) by lia. clear Ge H6 H4 T U1 U2 Six F Le.
  rewrite (same_lowest_same_colours _ (lagrange p) (lagrange 1) 0 W) in E' by (apply lagrange_lowest; auto; apply (wf_types2_surface _ W)).
  assert (Z : forall k, match cell_colouring (grid_of_cells i Triangle ((n + 1) * (n + 1)) (triangle_cells n)) (lagrange 1) with Ok ((_, l) :: _) => length l = k | _ => False end -> K' = k).
  { intros k. rewrite E'. cbn [classes_of g_types grid_of_cells map]. now rewrite map_length, seq_length. }
  rewrite (Z 7); [lia|]. destruct N as [-> | ->]; vm_compute; reflexivity.
Qed.
