(** * The edges of the screens *)
From Verif Require Import Base BaseFacts Topology TopologyFacts Shapes SpecShapes SpecDof ScreenFacts.

(** [f x y] for x below [m] and y below [k]. *)
Definition block {A : Type} (f : nat -> nat -> A) (m k : nat) : list A := flat_map (fun y => map (fun x => f x y) (seq 0 m)) (seq 0 k).

Lemma block_In {A : Type} (f : nat -> nat -> A) m k a : In a (block f m k) <-> exists x y, x < m /\ y < k /\ a = f x y.
Proof.
  unfold block. rewrite in_flat_map. split.
  - intros (y & Hy & H). apply in_map_iff in H. destruct H as (x & <- & Hx). apply in_seq in Hx, Hy. exists x, y. repeat split; lia.
  - intros (x & y & Hx & Hy & ->). exists y. split; [apply in_seq; lia|]. apply in_map_iff. exists x. split; auto. apply in_seq; lia.
Qed.

Lemma block_length {A : Type} (f : nat -> nat -> A) m k : length (block f m k) = m * k.
Proof.
  unfold block. generalize 0 at 2 as s. induction k; intros s; cbn [seq flat_map]; [cbn; lia|].
  rewrite app_length, map_length, seq_length, IHk. lia.
Qed.

Lemma block_NoDup {A : Type} (f : nat -> nat -> A) m k :
  (forall x y x' y', x < m -> x' < m -> f x y = f x' y' -> x = x' /\ y = y') -> NoDup (block f m k).
Proof.
  intros I. unfold block. generalize 0 at 2 as s. induction k; intros s; cbn [seq flat_map]; [constructor|].
  apply NoDup_app_iff. split.
  - apply NoDup_map_inj_in; [|apply seq_NoDup]. intros x x' Hx Hx' E. apply in_seq in Hx, Hx'. apply (I x s x' s); lia || auto.
  - split; [apply IHk|]. intros a Ha Hb. apply in_map_iff in Ha. destruct Ha as (x & <- & Hx). apply in_flat_map in Hb.
    destruct Hb as (y & Hy & Hb). apply in_map_iff in Hb. destruct Hb as (x' & E & Hx'). apply in_seq in Hx, Hx', Hy.
    destruct (I x' y x s) as (_ & E'); auto; lia.
Qed.

Lemma norm_le a b : a <= b -> norm_pair (a, b) = (a, b).
Proof. intros H. unfold norm_pair. now rewrite (proj2 (Nat.leb_le a b) H). Qed.
Lemma norm_gt a b : b < a -> norm_pair (a, b) = (b, a).
Proof. intros H. unfold norm_pair. now rewrite (proj2 (Nat.leb_gt a b) H). Qed.

Lemma same_set_length {A : Type} (l m : list A) : NoDup l -> NoDup m -> (forall a, In a l <-> In a m) -> length l = length m.
Proof.
  intros N M E. apply Nat.le_antisymm; apply NoDup_incl_length; auto; intros a H; now apply E.
Qed.

Lemma pair_eq (a b c d : nat) : a = c -> b = d -> (a, b) = (c, d).
Proof. congruence. Qed.
Lemma cons_eq {A : Type} (a b : A) l m : a = b -> l = m -> a :: l = b :: m.
Proof. congruence. Qed.

Section Edges.
Variable n : nat.
Hypothesis n_pos : 0 < n.
Local Notation id x y := (y * (n + 1) + x).

Definition across (x y : nat) : nat * nat := (id x y, id x y + 1).
Definition upwards (x y : nat) : nat * nat := (id x y, id x y + n + 1).
Definition slanted (x y : nat) : nat * nat := (id x y, id x y + n + 2).

Lemma lower_edges x y : cell_edges Triangle (lower n x y) = [upwards (x + 1) y; slanted x y; across x y].
Proof.
  unfold cell_edges, lower, upwards, slanted, across. cbn [ref_edges map fst snd nth]. rewrite !norm_le by lia. repeat (apply cons_eq; [apply pair_eq; lia|]); reflexivity.
Qed.
Lemma upper_edges x y : cell_edges Triangle (upper n x y) = [across x (y + 1); upwards x y; slanted x y].
Proof.
  unfold cell_edges, upper, upwards, slanted, across. cbn [ref_edges map fst snd nth]. rewrite norm_gt, !norm_le by lia. repeat (apply cons_eq; [apply pair_eq; lia|]); reflexivity.
Qed.
Lemma quad_edges x y : cell_edges Quadrilateral (quad n x y) = [across x y; upwards x y; upwards (x + 1) y; across x (y + 1)].
Proof.
  unfold cell_edges, quad, upwards, slanted, across. cbn [ref_edges map fst snd nth]. rewrite !norm_le by lia. repeat (apply cons_eq; [apply pair_eq; lia|]); reflexivity.
Qed.

Definition triangle_edges : list (nat * nat) := block across n (n + 1) ++ block upwards (n + 1) n ++ block slanted n n.
Definition quadrilateral_edges : list (nat * nat) := block across n (n + 1) ++ block upwards (n + 1) n.

Lemma id_injective x y x' y' : x < n + 1 -> x' < n + 1 -> id x y = id x' y' -> x = x' /\ y = y'.
Proof. intros. apply (number_inj (n + 1)); lia. Qed.

Lemma across_NoDup : NoDup (block across n (n + 1)).
Proof. apply block_NoDup. intros x y x' y' Hx Hx' E. unfold across in E. injection E as E _. apply id_injective; lia. Qed.
Lemma upwards_NoDup : NoDup (block upwards (n + 1) n).
Proof. apply block_NoDup. intros x y x' y' Hx Hx' E. unfold upwards in E. injection E as E _. apply id_injective; lia. Qed.
Lemma slanted_NoDup : NoDup (block slanted n n).
Proof. apply block_NoDup. intros x y x' y' Hx Hx' E. unfold slanted in E. injection E as E _. apply id_injective; lia. Qed.

Lemma triangle_edges_NoDup : NoDup triangle_edges.
Proof.
  unfold triangle_edges. apply NoDup_app_iff. split; [apply across_NoDup|]. split.
  - apply NoDup_app_iff. split; [apply upwards_NoDup|]. split; [apply slanted_NoDup|].
    intros a H K. apply block_In in H, K. destruct H as (x & y & _ & _ & ->), K as (x' & y' & _ & _ & E).
    unfold upwards, slanted in E. injection E as E1 E2. lia.
  - intros a H K. apply in_app_iff in K. apply block_In in H. destruct H as (x & y & _ & _ & ->).
    destruct K as [K|K]; apply block_In in K; destruct K as (x' & y' & _ & _ & E); unfold across, upwards, slanted in E; injection E as E1 E2; lia.
Qed.

Lemma quadrilateral_edges_NoDup : NoDup quadrilateral_edges.
Proof.
  unfold quadrilateral_edges. apply NoDup_app_iff. split; [apply across_NoDup|]. split; [apply upwards_NoDup|].
  intros a H K. apply block_In in H, K. destruct H as (x & y & _ & _ & ->), K as (x' & y' & _ & _ & E).
  unfold across, upwards in E. injection E as E1 E2. lia.
Qed.

Lemma triangles_edge_set e : In e (grid_edges Triangle (triangle_cells n)) <-> In e triangle_edges.
Proof.
  unfold grid_edges, triangle_edges. rewrite dedup_In, in_flat_map, !in_app_iff, !block_In. split.
  - intros (c & Hc & He). apply In_triangle_cells in Hc. destruct Hc as (x & y & Hx & Hy & [-> | ->]).
    + rewrite lower_edges in He. cbn [In] in He. destruct He as [<-|[<-|[<-|[]]]].
      * right. left. exists (x + 1), y. repeat split; lia.
      * right. right. exists x, y. repeat split; lia.
      * left. exists x, y. repeat split; lia.
    + rewrite upper_edges in He. cbn [In] in He. destruct He as [<-|[<-|[<-|[]]]].
      * left. exists x, (y + 1). repeat split; lia.
      * right. left. exists x, y. repeat split; lia.
      * right. right. exists x, y. repeat split; lia.
  - intros [(x & y & Hx & Hy & ->)|[(x & y & Hx & Hy & ->)|(x & y & Hx & Hy & ->)]].
    + destruct (Nat.eq_dec y n) as [->|Hn].
      * exists (upper n x (n - 1)). split; [apply In_triangle_cells; exists x, (n - 1); repeat split; auto; lia|].
        rewrite upper_edges. replace (n - 1 + 1) with n by lia. now left.
      * exists (lower n x y). split; [apply In_triangle_cells; exists x, y; repeat split; auto; lia|]. rewrite lower_edges. cbn [In]. auto.
    + destruct (Nat.eq_dec x n) as [->|Hn].
      * exists (lower n (n - 1) y). split; [apply In_triangle_cells; exists (n - 1), y; repeat split; auto; lia|].
        rewrite lower_edges. replace (n - 1 + 1) with n by lia. now left.
      * exists (upper n x y). split; [apply In_triangle_cells; exists x, y; repeat split; auto; lia|]. rewrite upper_edges. cbn [In]. auto.
    + exists (lower n x y). split; [apply In_triangle_cells; exists x, y; repeat split; auto; lia|]. rewrite lower_edges. cbn [In]. auto.
Qed.

Lemma quads_edge_set e : In e (grid_edges Quadrilateral (quad_cells n)) <-> In e quadrilateral_edges.
Proof.
  unfold grid_edges, quadrilateral_edges. rewrite dedup_In, in_flat_map, !in_app_iff, !block_In. split.
  - intros (c & Hc & He). apply In_quad_cells in Hc. destruct Hc as (x & y & Hx & Hy & ->).
    rewrite quad_edges in He. cbn [In] in He. destruct He as [<-|[<-|[<-|[<-|[]]]]].
    + left. exists x, y. repeat split; lia.
    + right. exists x, y. repeat split; lia.
    + right. exists (x + 1), y. repeat split; lia.
    + left. exists x, (y + 1). repeat split; lia.
  - intros [(x & y & Hx & Hy & ->)|(x & y & Hx & Hy & ->)].
    + destruct (Nat.eq_dec y n) as [->|Hn].
      * exists (quad n x (n - 1)). split; [apply In_quad_cells; exists x, (n - 1); repeat split; auto; lia|].
        rewrite quad_edges. replace (n - 1 + 1) with n by lia. cbn [In]. auto.
      * exists (quad n x y). split; [apply In_quad_cells; exists x, y; repeat split; auto; lia|]. rewrite quad_edges. cbn [In]. auto.
    + destruct (Nat.eq_dec x n) as [->|Hn].
      * exists (quad n (n - 1) y). split; [apply In_quad_cells; exists (n - 1), y; repeat split; auto; lia|].
        rewrite quad_edges. replace (n - 1 + 1) with n by lia. cbn [In]. auto.
      * exists (quad n x y). split; [apply In_quad_cells; exists x, y; repeat split; auto; lia|]. rewrite quad_edges. cbn [In]. auto.
Qed.

Lemma triangles_edge_count : length (grid_edges Triangle (triangle_cells n)) = 3 * n * n + 2 * n.
Proof.
  etransitivity; [exact (same_set_length _ _ (dedup_NoDup _) triangle_edges_NoDup triangles_edge_set)|].
  unfold triangle_edges. rewrite !app_length, !block_length. lia.
Qed.
Lemma quads_edge_count : length (grid_edges Quadrilateral (quad_cells n)) = 2 * n * (n + 1).
Proof.
  etransitivity; [exact (same_set_length _ _ (dedup_NoDup _) quadrilateral_edges_NoDup quads_edge_set)|].
  unfold quadrilateral_edges. rewrite !app_length, !block_length. lia.
Qed.

Lemma corner_cell v : v < (n + 1) * (n + 1) -> exists x y, x < n /\ y < n /\
  (v = id x y \/ v = id (x + 1) y \/ v = id x (y + 1) \/ v = id (x + 1) (y + 1)).
Proof.
  intros H. destruct (number_of _ _ H) as (x & y & Hx & Hy & ->).
  exists (if x =? n then n - 1 else x), (if y =? n then n - 1 else y).
  destruct (Nat.eqb_spec x n), (Nat.eqb_spec y n); subst; replace (n - 1 + 1) with n by lia; repeat split; auto; lia.
Qed.

Lemma triangles_used v : v < (n + 1) * (n + 1) -> exists c, In c (triangle_cells n) /\ In v c.
Proof.
  intros H. destruct (corner_cell v H) as (x & y & Hx & Hy & K).
  destruct K as [K|[K|[K|K]]]; [exists (lower n x y)|exists (lower n x y)|exists (upper n x y)|exists (lower n x y)];
    (split; [apply In_triangle_cells; exists x, y; auto|]); rewrite ?In_lower, ?In_upper; auto.
Qed.
Lemma quads_used v : v < (n + 1) * (n + 1) -> exists c, In c (quad_cells n) /\ In v c.
Proof.
  intros H. destruct (corner_cell v H) as (x & y & Hx & Hy & K). exists (quad n x y).
  split; [apply In_quad_cells; exists x, y; auto|]. rewrite In_quad. auto.
Qed.
End Edges.

(** Every entity of a grid belongs to a cell if every vertex does. *)
Lemma grid_of_cells_used id t npts cells : t = Triangle \/ t = Quadrilateral ->
  (forall v, v < npts -> exists c, In c cells /\ In v c) ->
  forall d e, d <= 2 -> e < ent_count (grid_of_cells id t npts cells) d -> exists c, contains (grid_of_cells id t npts cells) c d e.
Proof.
  intros Ht U d e Hd He.
  assert (E2 : ent_count (grid_of_cells id t npts cells) 2 = length cells) by (destruct Ht as [-> | ->]; cbn; lia).
  assert (E1 : ent_count (grid_of_cells id t npts cells) 1 = length (grid_edges t cells)) by (cbn; lia).
  assert (E0 : ent_count (grid_of_cells id t npts cells) 0 = npts) by (cbn; lia).
  unfold contains. rewrite E2. destruct d as [|[|[|d]]]; [rewrite E0 in He|rewrite E1 in He|rewrite E2 in He|lia]; cbn [g_sub grid_of_cells].
  - destruct (U e He) as (c & Hc & Hv). apply In_nth_error in Hc. destruct Hc as (k & Hk). exists k.
    assert (k < length cells) by (apply nth_error_Some; congruence). rewrite (nth_error_nth _ _ [] Hk). auto.
  - destruct (nth_error (grid_edges t cells) e) as [p|] eqn:Ep; [|apply nth_error_None in Ep; lia].
    assert (Hp : In p (grid_edges t cells)) by (eapply nth_error_In; eauto).
    assert (Hp' := Hp). unfold grid_edges in Hp'. rewrite dedup_In, in_flat_map in Hp'. destruct Hp' as (c & Hc & Hcp).
    apply In_nth_error in Hc. destruct Hc as (k & Hk). exists k.
    assert (k < length cells) by (apply nth_error_Some; congruence). rewrite (nth_error_nth _ _ [] Hk). split; auto. split; auto.
    apply in_map_iff. exists p. split; auto. pose proof (index_of_nth _ _ Hp) as En. 
    apply (proj1 (NoDup_nth_error (grid_edges t cells)) (dedup_NoDup _)); [apply index_of_lt; auto|congruence].
  - exists e. cbn. auto.
Qed.
