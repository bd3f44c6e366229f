(** * Refinement of the sphere: what one level does *)
From Verif Require Import Base BaseFacts Topology TopologyFacts Shapes.

(** The number of the midpoint of an edge. *)
Definition mid (n : nat) (keys : list (nat * nat)) (u v : nat) : nat := n + index_of (norm_pair (u, v)) keys.

(** The four cells that replace a cell. *)
Definition children (m : nat -> nat -> nat) (c : list nat) : list (list nat) :=
  match c with
  | [a; b; d] => [[a; m a b; m a d]; [b; m b d; m b a]; [d; m d a; m d b]; [m b d; m d a; m a b]]
  | _ => []
  end.

Lemma key_norm i j : (if j <? i then (j, i) else (i, j)) = norm_pair (i, j).
Proof. unfold norm_pair. destruct (Nat.ltb_spec j i), (Nat.leb_spec i j); auto; lia. Qed.

Lemma assoc_keys k keys n : assoc pair_eqb k (combine keys (seq n (length keys))) =
  if existsb (pair_eqb k) keys then Some (n + index_of k keys) else None.
Proof.
  revert n. induction keys as [|k' keys IH]; intros n; [reflexivity|]. cbn [length seq combine assoc existsb index_of].
  destruct (pair_eqb k k') eqn:E; cbn [orb]; [f_equal; lia|]. rewrite IH. destruct (existsb _ _); [f_equal; lia|reflexivity].
Qed.

Lemma index_of_app k l m : In k l -> index_of k (l ++ m) = index_of k l.
Proof.
  induction l as [|x l IH]; [intros []|]. cbn. intros [->|H].
  - now rewrite (proj2 (pair_eqb_eq k k) eq_refl).
  - destruct (pair_eqb k x); auto.
Qed.

Lemma index_of_last k l : ~ In k l -> index_of k (l ++ [k]) = length l.
Proof.
  induction l as [|x l IH]; intros H; cbn.
  - now rewrite (proj2 (pair_eqb_eq k k) eq_refl).
  - destruct (pair_eqb k x) eqn:E; [apply pair_eqb_eq in E; subst; exfalso; apply H; now left|]. rewrite IH; auto. intros C. apply H. now right.
Qed.

Lemma combine_snoc {A B} (l : list A) (m : list B) x y : length l = length m -> combine (l ++ [x]) (m ++ [y]) = combine l m ++ [(x, y)].
Proof. revert m. induction l as [|a l IH]; intros [|b m] H; cbn in *; try lia; [reflexivity|]. f_equal. apply IH. lia. Qed.

Lemma add_new_app l x : exists m, add_new l x = l ++ m.
Proof. unfold add_new. destruct (existsb _ _); [exists []; now rewrite app_nil_r|now exists [x]]. Qed.

Lemma fold_new_app l acc : exists m, fold_left add_new l acc = acc ++ m.
Proof.
  revert acc. induction l as [|x l IH]; intros acc; cbn; [exists []; now rewrite app_nil_r|].
  destruct (add_new_app acc x) as (m & E). rewrite E. destruct (IH (acc ++ m)) as (m' & E'). rewrite E'. exists (m ++ m'). now rewrite app_assoc.
Qed.

Lemma In_add_new l x y : In y (add_new l x) <-> y = x \/ In y l.
Proof.
  unfold add_new. destruct (existsb (pair_eqb x) l) eqn:E.
  - apply existsb_pair_In in E. split; [auto|]. intros [->|H]; auto.
  - rewrite in_app_iff. cbn. split; intros; intuition.
Qed.

Section Level.
Variable R : real_ops.
Variable pts : list (vec3 R).
Variable n : nat.
Hypothesis Hn : n = length pts.

(** The point made for an edge. *)
Definition made_for (k : nat * nat) (p : vec3 R) : Prop :=
  exists i j vi vj, norm_pair (i, j) = k /\ nth_error pts i = Some vi /\ nth_error pts j = Some vj /\ p = edge_midpoint R vi vj.

Record reached (keys : list (nat * nat)) (cells : list (list nat)) (st : sphere_state R) : Prop := mkReached {
  re_points : exists np, sp_points R st = pts ++ np /\ Forall2 made_for keys np;
  re_n : sp_n R st = n + length keys;
  re_edges : sp_edges R st = combine keys (seq n (length keys));
  re_cells : sp_cells R st = cells
}.

Lemma edge_reached keys cells st i j vi vj : reached keys cells st ->
  nth_error pts i = Some vi -> nth_error pts j = Some vj ->
  exists st', edge_entry R st i j vi vj = (st', mid n (add_new keys (norm_pair (i, j))) i j) /\
    reached (add_new keys (norm_pair (i, j))) cells st'.
Proof.
  intros [(np & Ep & F) En Ee Ec] Hi Hj. unfold edge_entry. cbn zeta. rewrite key_norm, Ee, assoc_keys. unfold add_new, mid.
  destruct (existsb _ _) eqn:E.
  - eexists. split; [reflexivity|]. constructor; eauto.
  - assert (N : ~ In (norm_pair (i, j)) keys) by (rewrite <- existsb_pair_In; congruence).
    eexists. split; [rewrite index_of_last, <- En by exact N; reflexivity|]. constructor; cbn [sp_points sp_n sp_edges sp_cells].
    + exists (np ++ [edge_midpoint R vi vj]). rewrite Ep, app_assoc. split; auto. apply Forall2_app; auto. constructor; [|constructor].
      exists i, j, vi, vj. auto.
    + rewrite app_length. cbn. lia.
    + rewrite app_length. cbn [length]. rewrite Nat.add_1_r, seq_S.
      rewrite En, combine_snoc; auto. now rewrite seq_length.
    + exact Ec.
Qed.

Lemma children_ext m m' a b d : m a b = m' a b -> m b d = m' b d -> m d a = m' d a ->
  m b a = m' b a -> m d b = m' d b -> m a d = m' a d -> children m [a; b; d] = children m' [a; b; d].
Proof. intros. unfold children. congruence. Qed.

Lemma mid_sym k u v : mid n k u v = mid n k v u.
Proof. unfold mid. now rewrite norm_pair_swap. Qed.

Lemma mid_stable k k' u v : In (norm_pair (u, v)) k -> mid n (k ++ k') u v = mid n k u v.
Proof. intros H. unfold mid. now rewrite index_of_app. Qed.

Lemma refine_cell_reached keys cells st a b d : reached keys cells st -> a < n -> b < n -> d < n ->
  let keys' := fold_left add_new (cell_edges Triangle [a; b; d]) keys in
  exists st', refine_cell R st [a; b; d] = Ok st' /\ reached keys' (cells ++ children (mid n keys') [a; b; d]) st'.
Proof.
  intros H Ha Hb Hd. cbn zeta.
  destruct (vget_lt pts a) as (va & _ & Ea); [lia|]. destruct (vget_lt pts b) as (vb & _ & Eb); [lia|]. destruct (vget_lt pts d) as (vd & _ & Ed); [lia|].
  assert (G : forall i v, nth_error pts i = Some v -> vget (sp_points R st) i = Ok v).
  { intros i v Hi. destruct (re_points _ _ _ H) as (np & -> & _). apply vget_Ok. rewrite nth_error_app1; auto. apply nth_error_Some. congruence. }
  destruct (edge_reached keys cells st b d vb vd H Eb Ed) as (st0 & E0 & H0).
  destruct (edge_reached _ cells st0 a d va vd H0 Ea Ed) as (st1 & E1 & H1).
  destruct (edge_reached _ cells st1 a b va vb H1 Ea Eb) as (st2 & E2 & H2).
  change (cell_edges Triangle [a; b; d]) with [norm_pair (b, d); norm_pair (a, d); norm_pair (a, b)]. cbn [fold_left].
  set (k0 := add_new keys (norm_pair (b, d))) in *. set (k1 := add_new k0 (norm_pair (a, d))) in *. set (k2 := add_new k1 (norm_pair (a, b))) in *.
  unfold refine_cell, vget at 1 2 3. cbn [nth_error unwrap bind]. rewrite (G a va Ea), (G b vb Eb), (G d vd Ed). cbn [bind].
  rewrite E0, E1, E2. eexists. split; [reflexivity|].
  assert (M0 : mid n k0 b d = mid n k2 b d).
  { unfold k2, k1. destruct (add_new_app k0 (norm_pair (a, d))) as (x & Ex). rewrite Ex.
    destruct (add_new_app (k0 ++ x) (norm_pair (a, b))) as (y & Ey). rewrite Ey, <- app_assoc.
    symmetry. apply mid_stable. apply In_add_new. now left. }
  assert (M1 : mid n k1 a d = mid n k2 a d).
  { unfold k2. destruct (add_new_app k1 (norm_pair (a, b))) as (y & Ey). rewrite Ey. symmetry. apply mid_stable. apply In_add_new. now left. }
  destruct H2 as [P2 N2 Ed2 C2]. constructor; cbn [sp_points sp_n sp_edges sp_cells]; auto.
  rewrite C2, M0, M1. cbn [children].
  now rewrite (mid_sym k2 b a), (mid_sym k2 d b), (mid_sym k2 d a).
Qed.

Lemma mid_children keys keys' c : (forall k, In k (cell_edges Triangle c) -> In k keys) -> children (mid n (keys ++ keys')) c = children (mid n keys) c.
Proof.
  destruct c as [|a [|b [|d [|x c]]]]; try reflexivity. intros H.
  change (cell_edges Triangle [a; b; d]) with [norm_pair (b, d); norm_pair (a, d); norm_pair (a, b)] in H.
  assert (A : In (norm_pair (b, d)) keys) by (apply H; cbn; auto). assert (B : In (norm_pair (a, d)) keys) by (apply H; cbn; auto).
  assert (C : In (norm_pair (a, b)) keys) by (apply H; cbn; auto).
  apply children_ext; apply mid_stable; auto; rewrite norm_pair_swap; auto.
Qed.

Lemma refine_fold cells done keys st :
  (forall c, In c cells -> exists a b d, c = [a; b; d] /\ a < n /\ b < n /\ d < n) ->
  (forall c k, In c done -> In k (cell_edges Triangle c) -> In k keys) ->
  reached keys (flat_map (children (mid n keys)) done) st ->
  let keys' := fold_left add_new (flat_map (cell_edges Triangle) cells) keys in
  exists st', foldM (refine_cell R) cells st = Ok st' /\ reached keys' (flat_map (children (mid n keys')) (done ++ cells)) st'.
Proof.
  revert done keys st. induction cells as [|c cells IH]; intros done keys st Hc Hd H; cbn zeta.
  - cbn. rewrite app_nil_r. eauto.
  - destruct (Hc c (or_introl eq_refl)) as (a & b & d & -> & A & B & D).
    destruct (refine_cell_reached keys _ st a b d H A B D) as (st' & E & H').
    cbn [foldM]. rewrite E. cbn [bind flat_map]. rewrite fold_left_app.
    set (keys1 := fold_left add_new (cell_edges Triangle [a; b; d]) keys) in *.
    destruct (fold_new_app (cell_edges Triangle [a; b; d]) keys) as (m & Em).
    assert (Inc : forall c k, In c (done ++ [[a; b; d]]) -> In k (cell_edges Triangle c) -> In k keys1).
    { intros c k Hi Hk. apply in_app_iff in Hi. destruct Hi as [Hi|[<-|[]]].
      - unfold keys1. rewrite Em. apply in_app_iff. left. eapply Hd; eauto.
      - unfold keys1. assert (G : forall l acc, In k acc \/ In k l -> In k (fold_left add_new l acc)).
        { induction l as [|x l IHl]; intros acc [G|G]; cbn; auto; try contradiction.
          - apply IHl. left. apply In_add_new. now right.
          - apply IHl. destruct G as [->|G]; [left; apply In_add_new; now left|now right]. }
        apply G. now right. }
    destruct (IH (done ++ [[a; b; d]]) keys1 st') as (st'' & E'' & H'').
    + intros c Hi. apply Hc. now right.
    + exact Inc.
    + rewrite flat_map_app. cbn [flat_map]. rewrite app_nil_r.
      rewrite (flat_map_ext_in (children (mid n keys1)) (children (mid n keys)) done); [exact H'|].
      intros c Hi. unfold keys1. rewrite Em. apply mid_children. intros k. now apply Hd.
    + exists st''. split; auto. now rewrite <- app_assoc in H''.
Qed.

(** One refinement. *)
Lemma refine_level_spec cells :
  (forall c, In c cells -> exists a b d, c = [a; b; d] /\ a < n /\ b < n /\ d < n) ->
  exists np, refine_level R (pts, n, cells) =
      Ok (pts ++ np, n + length (grid_edges Triangle cells), flat_map (children (mid n (grid_edges Triangle cells))) cells) /\
    Forall2 made_for (grid_edges Triangle cells) np.
Proof.
  intros Hc. destruct (refine_fold cells [] [] (mkSphere R pts n [] []) Hc) as (st & E & [(np & Ep & F) En Ee Ec]).
  - intros c k [].
  - constructor; cbn; auto. exists []. rewrite app_nil_r. auto.
  - cbn zeta in *. fold (dedup (flat_map (cell_edges Triangle) cells)) in *. fold (grid_edges Triangle cells) in *. exists np. split; auto.
    unfold refine_level. rewrite E. cbn [bind]. rewrite Ep, En, Ec. reflexivity.
Qed.

End Level.
