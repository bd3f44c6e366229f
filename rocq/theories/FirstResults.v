(** * DOF numbers follow the order of first appearance *)
From Verif Require Import Base BaseFacts Topology TopologyFacts DofMap DofMapFacts DofMapResults SpecDof SpecFirst.

Section Before.
Context {A : Type}.
Implicit Types (l : list A) (a b : A).

Lemma before_In l a b : appears_before l a b -> In a l.
Proof. intros (l1 & l2 & -> & _). apply in_elt. Qed.

Lemma before_neq l a b : appears_before l a b -> a <> b.
Proof. intros (l1 & l2 & _ & H) ->. apply H, in_elt. Qed.

Lemma before_app l l' a b : appears_before l a b -> appears_before (l ++ l') a b.
Proof.
  intros (l1 & l2 & -> & H). exists l1, (l2 ++ l'). split; auto. now rewrite <- app_assoc.
Qed.

Lemma before_new l l' a b : In a l -> ~ In b l -> appears_before (l ++ l') a b.
Proof.
  intros Ha Hb. apply before_app. apply in_split in Ha. destruct Ha as (l1 & l2 & ->).
  exists l1, l2. split; auto. intros H. apply Hb. apply in_app_or in H. apply in_or_app.
  destruct H as [H|[H|[]]]; [now left|right; now left].
Qed.

(** Once [b] has appeared nothing later matters. *)
Lemma before_prefix l l' a b : In b l -> appears_before (l ++ l') a b -> appears_before l a b.
Proof.
  intros Hb (l1 & l2 & E & N).
  revert l1 E N Hb. induction l as [|x l IH]; intros l1 E N Hb; [destruct Hb|].
  destruct l1 as [|y l1]; simpl in E; inversion E; subst.
  - exists [], l. split; auto.
  - destruct (IH l1) as (m1 & m2 & -> & M); auto.
    + intros H. apply N. now right.
    + destruct Hb as [->|Hb]; auto. exfalso. apply N. now left.
    + exists (y :: m1), m2. split; auto. intros [->|H]; [apply N; now left|]. auto.
Qed.
End Before.

Section First.
Variables (rank : nat) (g : grid) (fam : family).
Hypothesis W : wf_grid g.
Hypothesis WF : wf_family (g_types g 2) fam.

(** What holds of the entity table after the DOFs [w] have been met. *)
Record Met (w : list (nat * nat * nat)) (st : dofmap) : Prop := {
  met_shape : Shape g st;
  met_iff : forall d e k, (exists n, nth_error (edof st d e) k = Some n) <-> In (d, e, k) w;
  met_lt : forall d e k n, nth_error (edof st d e) k = Some n -> n < dm_size st;
  met_order : forall d e k n d' e' k' n', nth_error (edof st d e) k = Some n -> nth_error (edof st d' e') k' = Some n' ->
    (n < n' <-> appears_before w (d, e, k) (d', e', k'))
}.

Lemma met_In w st d e k n : Met w st -> nth_error (edof st d e) k = Some n -> In (d, e, k) w.
Proof. intros M H. apply (met_iff _ _ M). eauto. Qed.

Lemma tag_dec (x y : nat * nat * nat) : {x = y} + {x <> y}.
Proof. repeat decide equality. Qed.

Lemma push_met w st d e :
  Met w st -> d <= 2 -> e < ent_count g d ->
  exists st', push_dof rank g d e st (length (edof st d e)) = Ok st' /\ Met (w ++ [(d, e, length (edof st d e))]) st' /\
    length (edof st' d e) = S (length (edof st d e)) /\
    (forall d' e', (d', e') <> (d, e) -> edof st' d' e' = edof st d' e').
Proof.
  intros M Hd He. set (K := length (edof st d e)).
  destruct (push_dof_Ok rank g st d e K (met_shape _ _ M) Hd He) as (st' & E & S' & _ & Z & _ & D & O).
  exists st'. split; [exact E|].
  assert (Old : forall d' e' k' n', nth_error (edof st' d' e') k' = Some n' <->
    nth_error (edof st d' e') k' = Some n' \/ ((d', e', k') = (d, e, K) /\ n' = dm_size st)).
  { intros d' e' k' n'. destruct (Nat.eq_dec d' d) as [->|Hdd]; [destruct (Nat.eq_dec e' e) as [->|Hee]|].
    - rewrite D. destruct (lt_dec k' K).
      + rewrite nth_error_app1 by auto. split; [auto|]. intros [H|[H _]]; auto. inversion H. lia.
      + rewrite nth_error_app2 by (unfold K in *; lia). split.
        * intros H. destruct (k' - length (edof st d e)) as [|j] eqn:Ej; simpl in H; [|destruct j; discriminate].
          inversion H. right. split; auto. f_equal. unfold K in *. lia.
        * intros [H|[H ->]].
          -- assert (k' < length (edof st d e)) by (apply nth_error_Some; congruence). unfold K in *. lia.
          -- inversion H. unfold K. rewrite Nat.sub_diag. reflexivity.
    - rewrite O by congruence. split; auto. intros [H|[H _]]; auto. inversion H; congruence.
    - rewrite O by congruence. split; auto. intros [H|[H _]]; auto. inversion H; congruence. }
  assert (Fresh : ~ In (d, e, K) w).
  { intros H. apply (met_iff _ _ M) in H. destruct H as (n & H).
    assert (K < length (edof st d e)) by (apply nth_error_Some; congruence). unfold K in *. lia. }
  split; [|split]; [|rewrite D, app_length; simpl; unfold K; lia|exact O].
  constructor.
  - exact S'.
  - intros d' e' k'. rewrite in_app_iff, <- (met_iff _ _ M). simpl. split.
    + intros (n & H). apply Old in H. destruct H as [H|[H _]]; eauto.
    + intros [(n & H)|[H|[]]].
      * exists n. apply Old. auto.
      * exists (dm_size st). apply Old. auto.
  - intros d' e' k' n' H. apply Old in H. destruct H as [H|[_ ->]]; [apply (met_lt _ _ M) in H|]; lia.
  - intros d1 e1 k1 n1 d2 e2 k2 n2 H1 H2. apply Old in H1, H2.
    destruct H1 as [H1|[T1 ->]], H2 as [H2|[T2 ->]].
    + rewrite (met_order _ _ M _ _ _ _ _ _ _ _ H1 H2). split; [apply before_app|].
      apply before_prefix. eapply met_In; eauto.
    + rewrite T2. split; intros _; [|eapply met_lt; eauto].
      apply before_new; auto. eapply met_In; eauto.
    + rewrite T1. split; intros H.
      * assert (n2 < dm_size st) by (eapply met_lt; eauto). lia.
      * exfalso. apply Fresh. eapply before_In. eapply before_prefix; [|exact H]. eapply met_In; eauto.
    + rewrite T1, T2. split; [lia|]. intros H. now apply before_neq in H.
Qed.

(** DOFs met again change nothing. *)
Lemma met_again w w' st : Met w st -> (forall x, In x w' -> In x w) -> Met (w ++ w') st.
Proof.
  intros [H1 H2 H3 H4] Hw. constructor; auto.
  - intros d e k. rewrite in_app_iff, H2. firstorder.
  - intros d e k n d' e' k' n' E E'. rewrite (H4 _ _ _ _ _ _ _ _ E E'). split; [apply before_app|].
    apply before_prefix. apply H2. eauto.
Qed.

Lemma met_ents w st st' : Met w st -> Shape g st' -> dm_ents st' = dm_ents st -> dm_size st' = dm_size st -> Met w st'.
Proof.
  intros [H1 H2 H3 H4] S' E Z. unfold edof in *. constructor; unfold edof; rewrite ?E, ?Z; auto.
Qed.

Lemma write_keeps c l : forall st st', foldM (write_dof c) l st = Ok st' ->
  dm_ents st' = dm_ents st /\ dm_size st' = dm_size st /\ length (dm_cells st') = length (dm_cells st).
Proof.
  induction l as [|p l IH]; intros st st' H; cbn [foldM] in H.
  - inversion H. auto.
  - apply bind_Ok_inv in H. destruct H as (s1 & H1 & H2). apply IH in H2.
    unfold write_dof in H1.
    apply bind_Ok_inv in H1. destruct H1 as (row & _ & H1).
    apply bind_Ok_inv in H1. destruct H1 as (row' & _ & H1).
    apply bind_Ok_inv in H1. destruct H1 as (cs & H1 & H3).
    inversion H3; subst s1; cbn [dm_ents dm_size dm_cells] in *.
    destruct H2 as (-> & -> & ->). repeat split.
    unfold vset in H1. destruct (_ <? _); [|discriminate]. inversion H1. apply length_set_nth.
Qed.

Definition full (st : dofmap) : Prop := forall d e, edof st d e = [] \/ length (edof st d e) = ent_ndofs g fam d e.

Lemma visit_sub_met w c d i e st st' :
  Met w st -> full st -> c < ent_count g 2 -> d <= 2 -> nth_error (g_sub g c d) i = Some e ->
  visit_sub rank g c (fam (g_ctype g c)) d st (i, e) = Ok st' ->
  Met (w ++ map (fun k => (d, e, k)) (seq 0 (el_ndofs (fam (g_ctype g c)) d i))) st' /\ full st'.
Proof.
  intros M F Hc Hd Hi H. unfold visit_sub in H. unfold el_ndofs.
  destruct (el_edofs (fam (g_ctype g c)) d i) as [l|] eqn:El; [|discriminate].
  cbn [unwrap bind] in H.
  assert (Hl := ent_ndofs_ok g fam W WF c d i e l Hc Hd Hi El).
  assert (He : e < ent_count g d).
  { apply (wf_sub_lt g W c d e Hc Hd). eapply nth_error_In; eauto. }
  destruct (is_empty l) eqn:Hie.
  { destruct l; [|discriminate]. inversion H; subst. simpl. now rewrite app_nil_r. }
  destruct (met_shape _ _ M) as [S1 S2 S3 S4].
  rewrite (vget_nth _ _ []) in H by lia. cbn [bind] in H.
  rewrite (vget_nth _ _ []) in H by (rewrite S2; lia). cbn [bind] in H.
  change (nth e (nth d (dm_ents st) []) []) with (edof st d e) in H.
  apply bind_Ok_inv in H. destruct H as (st1 & H1 & H).
  apply bind_Ok_inv in H. destruct H as (r1 & _ & H).
  apply bind_Ok_inv in H. destruct H as (r2 & _ & H).
  apply write_keeps in H. destruct H as (Qe & Qs & Qc).
  assert (G : Met (w ++ map (fun k => (d, e, k)) (seq 0 (length l))) st1 /\ full st1).
  { destruct (edof st d e) as [|n0 r0] eqn:Eed; cbn [is_empty] in H1.
    - assert (P : forall m, exists s, foldM (push_dof rank g d e) (seq 0 m) st = Ok s /\
        Met (w ++ map (fun k => (d, e, k)) (seq 0 m)) s /\ length (edof s d e) = m /\
        (forall d' e', (d', e') <> (d, e) -> edof s d' e' = edof st d' e')).
      { induction m as [|m (s & P1 & P2 & P3 & P4)].
        - exists st. simpl. rewrite app_nil_r, Eed. auto.
        - rewrite seq_S, foldM_app, P1. cbn [bind foldM]. change (0 + m) with m.
          destruct (push_met _ s d e P2 Hd He) as (s' & Q1 & Q2 & Q3 & Q4). rewrite P3 in *.
          rewrite Q1. cbn [bind]. exists s'. split; auto. split; [|split; auto].
          + rewrite map_app, app_assoc. exact Q2.
          + intros d' e' Hne. rewrite Q4, P4; auto. }
      destruct (P (length l)) as (s & P1 & P2 & P3 & P4). rewrite H1 in P1. inversion P1; subst s.
      split; auto. intros d' e'.
      destruct (Nat.eq_dec d' d) as [->|Hdd]; [destruct (Nat.eq_dec e' e) as [->|Hee]|].
      + right. congruence.
      + rewrite P4 by congruence. apply F.
      + rewrite P4 by congruence. apply F.
    - inversion H1; subst st1. split; auto. apply met_again; auto.
      intros x Hx. apply in_map_iff in Hx. destruct Hx as (k & <- & Hk). apply in_seq in Hk.
      apply (met_iff _ _ M). destruct (nth_error (edof st d e) k) as [n|] eqn:En; [eauto|].
      apply nth_error_None in En. destruct (F d e) as [F1|F1]; rewrite ?F1 in *; [discriminate|lia]. }
  destruct G as (G1 & G2). split.
  - eapply met_ents; eauto. destruct (met_shape _ _ G1) as [U1 U2 U3 U4].
    constructor; rewrite ?Qe; auto. now rewrite Qc.
  - intros d' e'. unfold edof. rewrite Qe. apply G2.
Qed.

Lemma visit_cell_met w c st st' :
  Met w st -> full st -> c < ent_count g 2 ->
  visit_cell rank g (map (fun t => (t, fam t)) (g_types g 2)) st c = Ok st' ->
  Met (w ++ cell_walk g fam c) st' /\ full st'.
Proof.
  intros M F Hc H. unfold visit_cell in H.
  rewrite (assoc_map ct_eqb fam) in H by (auto using ct_eqb_eq, wf_ctype). cbn [unwrap bind] in H.
  destruct (met_shape _ _ M) as [S1 S2 S3 S4].
  rewrite vset_lt in H by (rewrite S4; exact Hc). cbn [bind] in H.
  rewrite (wf_tdim g W) in H. change (2 + 1) with 3 in H.
  unfold cell_walk.
  apply (foldM_Ok_inv _ (fun ds s => Met (w ++ flat_map (fun d =>
    flat_map (fun ie => map (fun k => (d, snd ie, k)) (seq 0 (el_ndofs (fam (g_ctype g c)) d (fst ie))))
             (enumerate (g_sub g c d))) ds) s /\ full s)) with (3 := H).
  - simpl. rewrite app_nil_r. split; auto. eapply met_ents; eauto.
    constructor; cbn [dm_ents dm_cells]; auto. now rewrite length_set_nth.
  - intros pre d post s0 s1 Hs (M0 & F0) E0.
    assert (Hd : d <= 2).
    { assert (In d (seq 0 3)) by (rewrite Hs; apply in_elt). apply in_seq in H0. lia. }
    rewrite flat_map_app. cbn [flat_map]. rewrite app_nil_r, app_assoc.
    apply (foldM_Ok_inv _ (fun ies s => Met ((w ++ flat_map (fun d =>
      flat_map (fun ie => map (fun k => (d, snd ie, k)) (seq 0 (el_ndofs (fam (g_ctype g c)) d (fst ie))))
             (enumerate (g_sub g c d))) pre) ++
      flat_map (fun ie => map (fun k => (d, snd ie, k)) (seq 0 (el_ndofs (fam (g_ctype g c)) d (fst ie)))) ies) s /\ full s)) with (3 := E0).
    + simpl. rewrite app_nil_r. auto.
    + intros ipre [i e] ipost s2 s3 Hs2 (M2 & F2) E2.
      rewrite flat_map_app. cbn [flat_map fst snd]. rewrite app_nil_r, app_assoc.
      eapply visit_sub_met; eauto. apply In_enumerate. rewrite Hs2. apply in_elt.
Qed.

Theorem assign_met dm : assign_dofs rank g fam = Ok dm -> Met (cells_walk g fam (g_iter g 2)) dm.
Proof.
  unfold assign_dofs. rewrite (wf_tdim g W). change (2 <? 2) with false. cbv iota zeta. intros H.
  unfold cells_walk.
  apply (foldM_Ok_inv _ (fun cs s => Met (flat_map (cell_walk g fam) cs) s /\ full s)) with (3 := H).
  - set (st0 := mkDofmap _ _ _ _).
    assert (Hz : forall d e, edof st0 d e = []).
    { intros d e. unfold edof, st0. cbn [dm_ents].
      destruct d as [|[|[|[|d]]]]; cbn [seq map nth Nat.leb]; try apply nth_repeat_any.
      - now destruct e.
      - destruct d; now destruct e. }
    split; [|intros d e; now left]. constructor.
    + constructor; cbn [dm_ents dm_cells st0]; auto.
      * intros d Hd. destruct d as [|[|[|d]]]; try lia; cbn [seq map nth Nat.leb]; apply repeat_length.
      * apply repeat_length.
    + intros d e k. rewrite Hz. split; [intros (n & Hn); destruct k; discriminate|intros []].
    + intros d e k n. rewrite Hz. destruct k; discriminate.
    + intros d e k n d' e' k' n'. rewrite Hz. destruct k; discriminate.
  - intros pre c post s0 s1 Hs (M & F) E.
    rewrite flat_map_app. cbn [flat_map]. rewrite app_nil_r.
    eapply visit_cell_met; eauto. apply (wf_iter_In g W 2 c); auto. rewrite Hs. apply in_elt.
Qed.

Variable dm : dofmap.
Hypothesis HA : assign_dofs rank g fam = Ok dm.

Lemma listed_met d e k : (exists n, listed dm d e k n) <-> In (d, e, k) (cells_walk g fam (g_iter g 2)).
Proof.
  rewrite <- (met_iff _ _ (assign_met dm HA)).
  split; intros (n & H); exists n; now apply (listed_edof rank g fam dm W WF HA).
Qed.

Lemma first_order d e k n d' e' k' n' : listed dm d e k n -> listed dm d' e' k' n' ->
  (n < n' <-> appears_before (cells_walk g fam (g_iter g 2)) (d, e, k) (d', e', k')).
Proof.
  rewrite !(listed_edof rank g fam dm W WF HA). apply (met_order _ _ (assign_met dm HA)).
Qed.

(** A strictly increasing function from [0 .. s-1] to itself is the identity. *)
Lemma increasing_id (f : nat -> nat -> Prop) s :
  (forall n, n < s -> exists y, f n y /\ y < s) ->
  (forall n n' y y', f n y -> f n' y' -> n < n' -> y < y') ->
  (forall n y, f n y -> n < s /\ y < s) ->
  forall n y, f n y -> y = n.
Proof.
  intros T I B.
  assert (L : forall n y, f n y -> n <= y).
  { induction n as [|n IH]; intros y H; [lia|].
    destruct (T n) as (y' & Hy' & _); [apply B in H; lia|].
    assert (y' < y) by (eapply I; eauto). apply IH in Hy'. lia. }
  assert (U : forall j n y, f n y -> n + j = s - 1 -> y <= n).
  { induction j as [|j IH]; intros n y H Hj.
    - apply B in H. lia.
    - destruct (T (S n)) as (y' & Hy' & _); [lia|].
      assert (y < y') by (eapply I; eauto). apply IH in Hy'; lia. }
  intros n y H. apply Nat.le_antisymm; [|eapply L; eauto].
  apply (U (s - 1 - n) n y H). apply B in H. lia.
Qed.

Lemma first_determined (num : nat * nat * nat -> nat) :
  (forall a, In a (cells_walk g fam (g_iter g 2)) -> num a < dm_size dm) ->
  (forall a b, In a (cells_walk g fam (g_iter g 2)) -> In b (cells_walk g fam (g_iter g 2)) ->
     appears_before (cells_walk g fam (g_iter g 2)) a b -> num a < num b) ->
  forall d e k n, listed dm d e k n -> num (d, e, k) = n.
Proof.
  intros B O d e k n H.
  assert (R := increasing_id (fun n y => exists d e k, listed dm d e k n /\ y = num (d, e, k)) (dm_size dm)).
  apply R; eauto.
  - intros m Hm. apply (listed_lt_iff rank g fam dm W WF HA) in Hm. destruct Hm as (d1 & e1 & k1 & H1).
    exists (num (d1, e1, k1)). split; eauto 6. apply B. apply listed_met. eauto.
  - intros m m' y y' (d1 & e1 & k1 & H1 & ->) (d2 & e2 & k2 & H2 & ->) Hlt.
    apply O; try (apply listed_met; eauto). now apply (first_order _ _ _ _ _ _ _ _ H1 H2).
  - intros m y (d1 & e1 & k1 & H1 & ->). split.
    + apply (listed_lt_iff rank g fam dm W WF HA). eauto.
    + apply B. apply listed_met. eauto.
Qed.

(** ** Cells *)

Lemma In_cell_walk c d e k : c < ent_count g 2 ->
  In (d, e, k) (cell_walk g fam c) <-> exists i, sub_at g c d i e /\ k < el_ndofs (fam (g_ctype g c)) d i.
Proof.
  intros Hc. unfold cell_walk, sub_at. rewrite in_flat_map. split.
  - intros (d0 & Hd & H). apply in_flat_map in H. destruct H as ([i e0] & Hi & H).
    apply in_map_iff in H. destruct H as (k0 & E & Hk). cbn [fst snd] in *. inversion E; subst.
    apply in_seq in Hk, Hd. apply In_enumerate in Hi. exists i. split; [split; [|split]|]; auto; lia.
  - intros (i & (_ & Hd & Hi) & Hk). exists d. split; [apply in_seq; lia|].
    apply in_flat_map. exists (i, e). split; [now apply In_enumerate|].
    apply in_map_iff. exists k. split; auto. apply in_seq. cbn [fst]. lia.
Qed.

Lemma cell_met c n : c < ent_count g 2 ->
  In n (nth c (dm_cells dm) []) <-> exists d e k, listed dm d e k n /\ In (d, e, k) (cell_walk g fam c).
Proof.
  intros Hc. split.
  - intros H. apply In_nth_error in H. destruct H as (x & Hx).
    destruct (cell_row_origin rank g fam dm W WF HA c x n Hc Hx) as (d & i & e & l & k & Hs & El & Ek & Hn).
    exists d, e, k. split; [now apply (listed_edof rank g fam dm W WF HA)|].
    apply In_cell_walk; auto. exists i. split; auto. unfold el_ndofs. rewrite El. apply nth_error_Some. congruence.
  - intros (d & e & k & H & Hw). apply In_cell_walk in Hw; auto. destruct Hw as (i & Hs & Hk).
    unfold el_ndofs in Hk. destruct (el_edofs _ d i) as [l|] eqn:El; [|lia].
    destruct (nth_error l k) as [x|] eqn:Ex; [|apply nth_error_None in Ex; lia].
    destruct (cell_row_entity rank g fam dm W WF HA c d i e l k x Hs El Ex) as (n' & H1 & H2).
    apply (listed_edof rank g fam dm W WF HA) in H. rewrite H in H2. inversion H2; subst.
    eapply nth_error_In; eauto.
Qed.

Lemma bounded_threshold (P : nat -> Prop) s : (forall n, {P n} + {~ P n}) ->
  (forall n, P n -> n < s) -> (forall n n', P n -> n' < n -> P n') -> exists m, forall n, P n <-> n < m.
Proof.
  intros D B C. induction s as [|s IH] in B |- *.
  - exists 0. intros n. split; [apply B|lia].
  - destruct (D s) as [Hs|Hs].
    + exists (S s). intros n. split; [apply B|]. intros Hn. destruct (Nat.eq_dec n s); [now subst|].
      apply (C s n); auto. lia.
    + apply IH. intros n Hn. assert (n < S s) by auto. assert (n <> s) by congruence. lia.
Qed.

(** The DOFs of the cells met so far are always [0 .. m-1]. *)
Theorem first_prefix pre post : g_iter g 2 = pre ++ post ->
  exists m, forall n, (exists c, In c pre /\ In n (nth c (dm_cells dm) [])) <-> n < m.
Proof.
  intros Hs.
  assert (Hc : forall c, In c pre -> c < ent_count g 2).
  { intros c H. apply (wf_iter_In g W 2 c); auto. rewrite Hs. apply in_or_app. now left. }
  apply (bounded_threshold _ (dm_size dm)).
  - intros n. destruct (in_dec Nat.eq_dec n (flat_map (fun c => nth c (dm_cells dm) []) pre)) as [H|H].
    + left. now apply in_flat_map in H.
    + right. intros H'. apply H. now apply in_flat_map.
  - intros n (c & H & Hn). eapply (cell_row_lt rank g fam dm W WF HA); eauto.
  - intros n n' (c & Hin & Hn) Hlt.
    assert (Hn' : n' < dm_size dm).
    { assert (n < dm_size dm) by (eapply (cell_row_lt rank g fam dm W WF HA); eauto). lia. }
    apply (cell_met c n (Hc c Hin)) in Hn. destruct Hn as (d & e & k & Hl & Hw).
    apply (listed_lt_iff rank g fam dm W WF HA) in Hn'. destruct Hn' as (d' & e' & k' & Hl').
    apply (first_order _ _ _ _ _ _ _ _ Hl' Hl) in Hlt.
    unfold cells_walk in Hlt. rewrite Hs, flat_map_app in Hlt.
    apply before_prefix in Hlt; [|apply in_flat_map; eauto].
    apply before_In in Hlt. apply in_flat_map in Hlt. destruct Hlt as (c' & Hc' & Hw').
    exists c'. split; auto. apply cell_met; eauto.
Qed.

Theorem first_prefix_dofs pre post : g_iter g 2 = pre ++ post ->
  exists m, forall n, (exists c l, In c pre /\ has_cell_dofs dm c l /\ In n l) <-> n < m.
Proof.
  intros Hs. destruct (first_prefix pre post Hs) as (m & Hm). exists m. intros n. rewrite <- Hm. split.
  - intros (c & l & Hc & Hl & Hn). apply (has_cell_dofs_iff rank g fam dm W WF HA) in Hl. destruct Hl as (_ & ->). eauto.
  - intros (c & Hc & Hn). exists c, (nth c (dm_cells dm) []). split; auto. split; auto.
    apply (cell_row rank g fam dm W WF HA). apply (wf_iter_In g W 2 c); auto. rewrite Hs. apply in_or_app. now left.
Qed.
End First.
