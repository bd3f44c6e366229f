(** * Adjacency: the statements of C22-C24 *)
From Verif Require Import Base BaseFacts Topology TopologyFacts Options OptionsResults Batch SpecBatch BatchFacts BatchResults
  Adjacency SpecAdjacency AdjacencyFacts.

(** ** Inversion of successful runs *)

Lemma foldM_steps {S A} (f : S -> A -> res S) (P : S -> Prop) l : forall s s',
  (forall s x s', P s -> f s x = Ok s' -> P s') -> P s -> foldM f l s = Ok s' ->
  P s' /\ forall x, In x l -> exists s1 s2, P s1 /\ f s1 x = Ok s2.
Proof.
  induction l as [|a l IH]; intros s s' Hp H0 H; cbn in H.
  - inversion H; subst. split; auto. intros x [].
  - apply bind_Ok_inv in H. destruct H as (s1 & E & H).
    destruct (IH s1 s' Hp (Hp _ _ _ H0 E) H) as [Q R]. split; auto.
    intros x [<-|Hx]; eauto.
Qed.

Lemma visit_pair_Ok f g v t s cp cp' : visit_pair f g v t cp s = Ok cp' ->
  length cp' = length cp /\
  forall p, get_pairs_if_smallest g t s v = Some p -> exists i, f (g_ctype g t) (g_ctype g s) p = Ok i /\ i < length cp.
Proof.
  unfold visit_pair. intros H. apply bind_Ok_inv in H. destruct H as (u & _ & H).
  destruct (get_pairs_if_smallest g t s v) as [p|].
  - apply bind_Ok_inv in H. destruct H as (i & E & H). apply bind_Ok_inv in H. destruct H as (row & Er & H).
    apply vset_Ok in H. destruct H as [Hi ->]. rewrite length_set_nth. split; auto.
    intros q Hq. inversion Hq; subst. eauto.
  - inversion H; subst. split; auto. intros p Hp. discriminate.
Qed.

Lemma visit_test_Ok f g v t cp cp' : visit_test f g v cp t = Ok cp' ->
  length cp' = length cp /\
  (is_owned (g_own g 2 t) = true -> forall s p, In s (g_conn g v) -> get_pairs_if_smallest g t s v = Some p ->
     exists i, f (g_ctype g t) (g_ctype g s) p = Ok i /\ i < length cp).
Proof.
  unfold visit_test. intros H. apply bind_Ok_inv in H. destruct H as (u & _ & H).
  destruct (is_owned (g_own g 2 t)).
  - destruct (foldM_steps (visit_pair f g v t) (fun c => length c = length cp) (g_conn g v) cp cp') as [L St]; auto.
    { intros s x s' Hs E. apply visit_pair_Ok in E. destruct E; congruence. }
    split; auto. intros _ s p Hs Hp. destruct (St s Hs) as (s1 & s2 & Hl & E).
    apply visit_pair_Ok in E. destruct E as [_ E]. destruct (E p Hp) as (i & Hi & Hlt). exists i. split; auto. lia.
  - inversion H; subst. split; auto. discriminate.
Qed.

Lemma collect_pairs_Ok f size g cp : wf_grid g -> collect_pairs f size g = Ok cp ->
  exists idx, (forall t s, In (t, s) (events g) -> idx (t, s) < size /\
       f (g_ctype g t) (g_ctype g s) (pairs_of g (t, s)) = Ok (idx (t, s))) /\
    cp = rows_of idx size (events g).
Proof.
  intros W H. assert (H' := H). unfold collect_pairs in H'.
  destruct (foldM_steps (fun cp v => foldM (visit_test f g v) (g_conn g v) cp) (fun c => length c = size)
     (g_iter g 0) (repeat [] size) cp) as [L St]; auto.
  { intros s v s' Hs E.
    apply (foldM_steps (visit_test f g v) (fun c => length c = size) (g_conn g v) s s'); auto.
    intros s1 x s2 H1 E1. apply visit_test_Ok in E1. destruct E1; congruence. }
  { apply repeat_length. }
  set (idx := fun p : nat * nat => match f (g_ctype g (fst p)) (g_ctype g (snd p)) (pairs_of g p) with Ok i => i | _ => 0 end).
  assert (Hidx : forall t s, In (t, s) (events g) -> idx (t, s) < size /\
       f (g_ctype g t) (g_ctype g s) (pairs_of g (t, s)) = Ok (idx (t, s))).
  { intros t s Hin. unfold events in Hin. apply in_flat_map in Hin. destruct Hin as (v & Hv & Hin).
    apply in_flat_map in Hin. destruct Hin as (t' & Ht & Hin). apply in_flat_map in Hin. destruct Hin as (s' & Hs & Hin).
    destruct (get_pairs_if_smallest g t' s' v) as [p|] eqn:Ep; [|destruct Hin].
    destruct Hin as [Hin|[]]. inversion Hin; subst t' s'. clear Hin.
    apply filter_In in Ht. destruct Ht as [Ht Ho].
    destruct (St v Hv) as (s1 & s2 & Hl & E).
    destruct (foldM_steps (visit_test f g v) (fun c => length c = size) (g_conn g v) s1 s2) as [_ St2]; auto.
    { intros s3 x s4 H1 E1. apply visit_test_Ok in E1. destruct E1; congruence. }
    destruct (St2 t Ht) as (s3 & s4 & Hl3 & E3). apply visit_test_Ok in E3. destruct E3 as [_ E3].
    destruct (E3 Ho s p Hs Ep) as (i & Hi & Hlt).
    apply get_pairs_Some in Ep. destruct Ep as [_ ->].
    unfold idx. cbn [fst snd]. unfold pairs_of. cbn [fst snd]. rewrite Hi. split; auto. lia. }
  exists idx. split; auto.
  rewrite (collect_pairs_spec f size g idx W Hidx) in H. now inversion H.
Qed.

Lemma block_loop_concat {A} wmod batch (l : list A) : forall fuel start bs,
  block_loop fuel wmod batch l start = Ok bs -> concat bs = skipn start l.
Proof.
  induction fuel as [|fuel IH]; intros start bs H; cbn [block_loop] in H;
    destruct (Nat.ltb_spec start (length l)) as [Hs|Hs]; try discriminate.
  - inversion H. rewrite skipn_all2; auto.
  - apply bind_Ok_inv in H. destruct H as (e & _ & H). apply bind_Ok_inv in H. destruct H as (b & Eb & H).
    apply bind_Ok_inv in H. destruct H as (rest & Er & H). inversion H; subst. cbn [concat].
    rewrite (IH _ _ Er). unfold slice in Eb. destruct ((start <=? e) && (e <=? length l)) eqn:E; [|discriminate].
    inversion Eb; subst. apply andb_true_iff in E. destruct E as [E _]. apply Nat.leb_le in E.
    now apply firstn_skipn_rest.
  - inversion H. rewrite skipn_all2; auto.
Qed.

Lemma cell_blocks_concat {A} fuel wmod batch (cp : list (list A)) blocks :
  cell_blocks_from fuel wmod batch cp = Ok blocks ->
  flat_map (fun ib => map (fun x => (fst ib, x)) (snd ib)) blocks =
  flat_map (fun ic => map (fun x => (fst ic, x)) (snd ic)) (enumerate cp).
Proof.
  unfold cell_blocks_from, enumerate. intros H. apply bind_Ok_inv in H. destruct H as (bss & E & H). inversion H; subst.
  clear H. revert bss E.
  set (F := fun ic : nat * list A => b <- block_loop fuel wmod batch (snd ic) 0 ;; Ok (map (fun x => (fst ic, x)) b)).
  generalize 0 as k. induction cp as [|c cp IH]; intros k bss E.
  - cbn in E. inversion E. reflexivity.
  - cbn [length seq combine mapM fst snd] in E. apply bind_Ok_inv in E. destruct E as (y & Ey & E).
    unfold F in Ey. cbn [fst snd] in Ey. apply bind_Ok_inv in Ey. destruct Ey as (b & Eb & Ey). inversion Ey; subst y.
    apply bind_Ok_inv in E. destruct E as (ys & Eys & E). inversion E; subst bss.
    cbn [concat length seq combine flat_map fst snd]. rewrite flat_map_app, (IH _ _ Eys). f_equal.
    rewrite concat_map_pair, (block_loop_concat _ _ _ _ _ _ Eb). reflexivity.
Qed.

(** The visited pairs, with the index of their rule. *)
Definition indexed (idx : nat * nat -> nat) (size : nat) (l : list (nat * nat)) : list (nat * (nat * nat)) :=
  flat_map (fun ic => map (fun x => (fst ic, x)) (snd ic)) (enumerate (rows_of idx size l)).

Lemma snd_indexed {A} (l : list (nat * list A)) :
  map snd (flat_map (fun ic => map (fun x => (fst ic, x)) (snd ic)) l) = flat_map snd l.
Proof.
  induction l as [|[i c] l IH]; cbn; auto. rewrite map_app, IH, map_map. cbn. now rewrite map_id.
Qed.

Lemma flat_map_snd_concat {A} (l : list (nat * list A)) : flat_map snd l = concat (map snd l).
Proof. induction l as [|[i c] l IH]; cbn; auto. now rewrite IH. Qed.

Lemma blocks_spec wmod f size g batch blocks : wf_grid g -> make_cell_blocks wmod f size g batch = Ok blocks ->
  exists idx, (forall t s, In (t, s) (events g) -> idx (t, s) < size /\
       f (g_ctype g t) (g_ctype g s) (pairs_of g (t, s)) = Ok (idx (t, s))) /\
    flat_map (fun ib => map (fun x => (fst ib, x)) (snd ib)) blocks = indexed idx size (events g).
Proof.
  intros W H. unfold make_cell_blocks in H. apply bind_Ok_inv in H. destruct H as (cp & Ec & H).
  destruct (collect_pairs_Ok f size g cp W Ec) as (idx & Hi & ->).
  exists idx. split; auto. now apply cell_blocks_concat in H.
Qed.

Lemma In_indexed idx size l i p : (forall p, In p l -> idx p < size) ->
  (In (i, p) (indexed idx size l) <-> In p l /\ i = idx p).
Proof.
  intros Hl. unfold indexed. rewrite in_flat_map. split.
  - intros ([j c] & Hj & Hin). cbn [fst snd] in Hin. apply in_map_iff in Hin. destruct Hin as (x & E & Hx). inversion E; subst.
    apply In_enumerate in Hj. unfold rows_of in Hj. rewrite nth_error_map in Hj.
    destruct (nth_error (seq 0 size) i) as [k|] eqn:Ek; [|discriminate].
    assert (i < size) by (rewrite <- (seq_length size 0); apply nth_error_Some; congruence).
    rewrite nth_error_seq in Ek by auto. inversion Ek; subst k. cbn in Hj. inversion Hj; subst c.
    apply filter_In in Hx. destruct Hx as [Hx E2]. apply Nat.eqb_eq in E2. split; auto.
  - intros [Hp ->]. exists (idx p, filter (fun q => idx q =? idx p) l). split.
    + apply In_enumerate. unfold rows_of. rewrite nth_error_map, nth_error_seq by auto. reflexivity.
    + cbn. apply in_map_iff. exists p. split; auto. apply filter_In. split; auto. apply Nat.eqb_refl.
Qed.

(** ** C22 *)

Lemma blocks_once : forall wmod f size g batch blocks,
  wf_grid g -> make_cell_blocks wmod f size g batch = Ok blocks ->
  NoDup (flat_map snd blocks) /\
  forall t s, In (t, s) (flat_map snd blocks) <->
    t < ent_count g 2 /\ s < ent_count g 2 /\ g_own g 2 t = Owned /\ touch g t s.
Proof.
  intros wmod f size g batch blocks W H. destruct (blocks_spec _ _ _ _ _ _ W H) as (idx & Hi & E).
  assert (P : Permutation (flat_map snd blocks) (events g)).
  { rewrite <- snd_indexed, E. unfold indexed. rewrite snd_indexed, flat_map_snd_concat, map_snd_enumerate.
    apply Permutation_rows. intros [t s] Hp. now apply Hi. }
  split.
  - eapply Permutation_NoDup; [symmetry; exact P|]. now apply NoDup_events.
  - intros t s. rewrite <- (In_events g t s W). split; apply Permutation_in; [|symmetry]; exact P.
Qed.

(** ** C23 *)

Lemma events_fit wmod g idx size c : wf_grid g -> pairs_fit wmod g -> In c (rows_of idx size (events g)) -> fits wmod c.
Proof.
  intros W Hf Hc. unfold rows_of in Hc. apply in_map_iff in Hc. destruct Hc as (i & <- & _).
  apply Hf.
  - apply NoDup_filter. now apply NoDup_events.
  - intros t s Hin. apply filter_In in Hin. destruct Hin as [Hin _]. apply In_events in Hin; tauto.
Qed.

Lemma length_le_sum {A} (l : list (list A)) c : In c l -> length c <= sum_list (map (@length A) l).
Proof.
  unfold sum_list. induction l as [|x l IH]; intros []; cbn [map fold_right].
  - subst. lia.
  - apply IH in H. lia.
Qed.

Lemma touching_pairs_have_rules {D} (make : cell_type -> cell_type -> vpairs -> nat -> res D) deg (st : rule_state D) g t s :
  wf_grid g -> rules_inv make deg (all_keys (g_types g 2)) st ->
  t < ent_count g 2 -> s < ent_count g 2 -> In (pairs_of g (t, s)) (possible_pairs (g_ctype g t) (g_ctype g s)) ->
  exists i d, look_up st (g_ctype g t) (g_ctype g s) (pairs_of g (t, s)) = Ok i /\ i < length (rs_indices st) /\
    nth_error (rs_test st) i = Some (g_ctype g t) /\ nth_error (rs_trial st) i = Some (g_ctype g s) /\
    nth_error (rs_data st) i = Some d /\
    make (g_ctype g t) (g_ctype g s) (pairs_of g (t, s)) (deg (g_ctype g t) (g_ctype g s)) = Ok d.
Proof.
  intros W I Ht Hs Hp. apply (look_up_spec make deg (g_types g 2)); auto.
  - apply (wf_types2_nodup g W).
  - apply (wf_types2_surface g W).
  - now apply (wf_ctype g W).
  - now apply (wf_ctype g W).
Qed.

Lemma pairs_of_adjacency g t s : wf_grid g -> t < ent_count g 2 -> adjacency g t s (pairs_of g (t, s)).
Proof. intros W Ht. apply common_pairs_adjacency. apply (wf_sub_nodup g W); auto; lia. Qed.

Lemma right_rules {D} (make : cell_type -> cell_type -> vpairs -> nat -> res D) : forall wmod o g deg,
  wf_grid g -> has_degrees o (g_types g 2) deg ->
  (forall t s p, In t (g_types g 2) -> In s (g_types g 2) -> In p (possible_pairs t s) ->
     exists d, make t s p (deg t s) = Ok d) ->
  (forall t s, t < ent_count g 2 -> s < ent_count g 2 -> g_own g 2 t = Owned -> touch g t s -> has_rule g t s) ->
  0 < get_batch_size o -> get_batch_size o < wmod -> pairs_fit wmod g ->
  exists st blocks, singular_rules make o (g_types g 2) = Ok st /\ singular_blocks wmod st o g = Ok blocks /\
    forall i cells t s, In (i, cells) blocks -> In (t, s) cells ->
      exists pairs d, adjacency g t s pairs /\
        nth_error (rs_test st) i = Some (g_ctype g t) /\ nth_error (rs_trial st) i = Some (g_ctype g s) /\
        nth_error (rs_data st) i = Some d /\
        make (g_ctype g t) (g_ctype g s) pairs (deg (g_ctype g t) (g_ctype g s)) = Ok d.
Proof.
  intros wmod o g deg W Hd Hm Hr Hb Hw Hf.
  destruct (singular_rules_spec make o (g_types g 2) deg (wf_types2_nodup g W) (wf_types2_surface g W) Hd Hm) as (st & Est & I).
  assert (Hl : forall t s, In (t, s) (events g) -> exists i d,
    look_up st (g_ctype g t) (g_ctype g s) (pairs_of g (t, s)) = Ok i /\ i < length (rs_indices st) /\
    nth_error (rs_test st) i = Some (g_ctype g t) /\ nth_error (rs_trial st) i = Some (g_ctype g s) /\
    nth_error (rs_data st) i = Some d /\
    make (g_ctype g t) (g_ctype g s) (pairs_of g (t, s)) (deg (g_ctype g t) (g_ctype g s)) = Ok d).
  { intros t s Hin. apply (In_events g t s W) in Hin. destruct Hin as (Ht & Hs & Ho & Hto).
    apply (touching_pairs_have_rules make deg); auto. apply (Hr t s Ht Hs Ho Hto). now apply pairs_of_adjacency. }
  set (idx := fun p : nat * nat => match look_up st (g_ctype g (fst p)) (g_ctype g (snd p)) (pairs_of g p) with Ok i => i | _ => 0 end).
  assert (Hidx : forall t s, In (t, s) (events g) -> idx (t, s) < length (rs_indices st) /\
       look_up st (g_ctype g t) (g_ctype g s) (pairs_of g (t, s)) = Ok (idx (t, s))).
  { intros t s Hin. destruct (Hl t s Hin) as (i & d & E & Hi & _). unfold idx. cbn [fst snd]. rewrite E. auto. }
  assert (Ec := collect_pairs_spec (look_up st) (length (rs_indices st)) g idx W Hidx).
  destruct (batches_tile (nat * nat) wmod (o_batch_size o) Hb Hw) as [Bt _].
  destruct (Bt (rows_of idx (length (rs_indices st)) (events g))) with
    (fuel := S (sum_list (map (@length _) (rows_of idx (length (rs_indices st)) (events g))))) as (blocks & Eb & Hsz & Hc).
  { intros c Hcin. eapply events_fit; eauto. }
  { intros c Hcin. apply length_le_sum in Hcin. lia. }
  exists st, blocks. split; [exact Est|]. split.
  - unfold singular_blocks, make_cell_blocks. rewrite Ec. cbn [bind]. exact Eb.
  - intros i cells t s Hin Hts.
    assert (Hind : In (i, (t, s)) (indexed idx (length (rs_indices st)) (events g))).
    { unfold indexed. rewrite <- Hc. apply in_flat_map. exists (i, cells). split; auto. cbn. apply in_map_iff. eauto. }
    apply In_indexed in Hind; [|intros [x y] Hp; now apply Hidx].
    destruct Hind as [Hev Hi]. destruct (Hl t s Hev) as (j & d & E & _ & H1 & H2 & H3 & H4).
    assert (Eij : i = j). { rewrite Hi. unfold idx. cbn [fst snd]. now rewrite E. }
    subst j. exists (pairs_of g (t, s)), d. split; auto.
    apply (In_events g t s W) in Hev. now apply pairs_of_adjacency.
Qed.

Lemma conforming_has_rule g t s : wf_grid g -> conforming g -> t < ent_count g 2 -> s < ent_count g 2 ->
  touch g t s -> has_rule g t s.
Proof. intros W C Ht Hs Hto p Hp. eapply adjacency_possible; eauto. Qed.

Lemma right_rules_conforming {D} (make : cell_type -> cell_type -> vpairs -> nat -> res D) : forall wmod o g deg,
  wf_grid g -> conforming g -> has_degrees o (g_types g 2) deg ->
  (forall t s p, In t (g_types g 2) -> In s (g_types g 2) -> In p (possible_pairs t s) ->
     exists d, make t s p (deg t s) = Ok d) ->
  0 < get_batch_size o -> get_batch_size o < wmod -> pairs_fit wmod g ->
  exists st blocks, singular_rules make o (g_types g 2) = Ok st /\ singular_blocks wmod st o g = Ok blocks /\
    forall i cells t s, In (i, cells) blocks -> In (t, s) cells ->
      exists pairs d, adjacency g t s pairs /\
        nth_error (rs_test st) i = Some (g_ctype g t) /\ nth_error (rs_trial st) i = Some (g_ctype g s) /\
        nth_error (rs_data st) i = Some d /\
        make (g_ctype g t) (g_ctype g s) pairs (deg (g_ctype g t) (g_ctype g s)) = Ok d.
Proof.
  intros wmod o g deg W C Hd Hm Hb Hw Hf. apply right_rules; auto.
  intros t s Ht Hs _ Hto. now apply conforming_has_rule.
Qed.

(** The rule asked for is the one for the types and for the dimension of what the
    cells share. *)
Lemma duffy_choice {Q} (ext : duffy -> nat -> vpairs -> nat -> option Q) : forall g t s pairs n,
  wf_grid g -> conforming g -> t < ent_count g 2 -> s < ent_count g 2 -> touch g t s -> adjacency g t s pairs ->
  exists kind dim, duffy_for (g_ctype g t) (g_ctype g s) = Some kind /\ shared_dimension g t s dim /\
    get_singular_quadrature_rule ext (g_ctype g t) (g_ctype g s) pairs n = unwrap (ext kind dim pairs n).
Proof.
  intros g t s pairs n W C Ht Hs Hto Ha.
  assert (Hk : exists kind, duffy_for (g_ctype g t) (g_ctype g s) = Some kind /\
     (pairs <> [] -> get_singular_quadrature_rule ext (g_ctype g t) (g_ctype g s) pairs n =
       unwrap (ext kind (connectivity_dimension pairs) pairs n))).
  { destruct (wf_cell_surface g t W Ht) as [-> | ->], (wf_cell_surface g s W Hs) as [-> | ->]; cbn [duffy_for];
      eexists; (split; [reflexivity|]); intros Hne; destruct pairs; congruence || reflexivity. }
  destruct Hk as (kind & Hk & He). exists kind, (connectivity_dimension pairs). split; auto.
  destruct Hto as [v [Hv1 Hv2]].
  assert (Hne : pairs <> []).
  { destruct (vertex_index g t v W Ht Hv1) as (i & _ & Ei). destruct (vertex_index g s v W Hs Hv2) as (j & _ & Ej).
    assert (Hin : In (i, j) pairs) by (apply Ha; exists v; auto). intros ->. destruct Hin. }
  split; [|now apply He].
  destruct (Nat.eq_dec t s) as [->|Hts].
  - left. split; auto. assert (E := adjacency_unique g s s pairs _ Ha (adjacency_same g s W Hs)). subst pairs.
    unfold connectivity_dimension. rewrite map_length, seq_length.
    destruct (wf_cell_surface g s W Hs) as [-> | ->]; reflexivity.
  - right. assert (Nt := wf_sub_nodup g W t 0 Ht (Nat.le_0_l 2)). assert (Ns := wf_sub_nodup g W s 0 Hs (Nat.le_0_l 2)).
    destruct Ha as [Ha Hsort]. destruct pairs as [|[i j] rest]; [congruence|].
    destruct (proj1 (Ha i j) (or_introl eq_refl)) as (u & Hu1 & Hu2).
    destruct rest as [|[i2 j2] rest].
    + right. split; auto. split; auto. exists u. intros x. split.
      * intros [Hx1 Hx2]. destruct (vertex_index g t x W Ht Hx1) as (a & _ & Ea). destruct (vertex_index g s x W Hs Hx2) as (b & _ & Eb).
        assert (Hin : In (a, b) [(i, j)]) by (apply Ha; exists x; auto).
        destruct Hin as [E|[]]. inversion E; subst. congruence.
      * intros ->. split; eapply nth_error_In; eauto.
    + left. destruct (proj1 (Ha i2 j2) (or_intror (or_introl eq_refl))) as (w & Hw1 & Hw2).
      inversion Hsort as [|? ? Hs1 Hfa]; subst. rewrite Forall_forall in Hfa.
      assert (Hlt : j < j2) by (apply (Hfa (i2, j2)); now left).
      assert (Huw : u <> w).
      { intros E. rewrite E in Hu2. assert (j = j2) by exact (NoDup_nth_error_inj _ _ _ _ Ns Hu2 Hw2). lia. }
      assert (Iu1 := nth_error_In _ _ Hu1). assert (Iu2 := nth_error_In _ _ Hu2).
      assert (Iw1 := nth_error_In _ _ Hw1). assert (Iw2 := nth_error_In _ _ Hw2).
      destruct rest as [|[i3 j3] rest].
      * split; auto. split; auto. exists u, w. auto.
      * exfalso. destruct (proj1 (Ha i3 j3) (or_intror (or_intror (or_introl eq_refl)))) as (x & Hx1 & Hx2).
        inversion Hs1 as [|? ? _ Hfb]; subst. rewrite Forall_forall in Hfb.
        assert (Hlt2 : j2 < j3) by (apply (Hfb (i3, j3)); now left).
        destruct (C t s u w Ht Hs Hts Huw Iu1 Iu2 Iw1 Iw2) as (_ & _ & Honly).
        destruct (Honly x (nth_error_In _ _ Hx1) (nth_error_In _ _ Hx2)) as [E|E]; rewrite E in Hx2.
        -- assert (j = j3) by exact (NoDup_nth_error_inj _ _ _ _ Ns Hu2 Hx2). lia.
        -- assert (j2 = j3) by exact (NoDup_nth_error_inj _ _ _ _ Ns Hw2 Hx2). lia.
Qed.

(** ** C24 *)

Definition ok_or_panic {A} (r : res A) : Prop := r = Panic \/ exists a, r = Ok a.

Lemma foldM_ok_or_panic {S A} (f : S -> A -> res S) l : (forall s x, ok_or_panic (f s x)) -> forall s, ok_or_panic (foldM f l s).
Proof.
  intros H. induction l as [|x l IH]; intros s; cbn; [right; eauto|].
  destruct (H s x) as [-> | [a ->]]; cbn; [now left|apply IH].
Qed.

Lemma ok_or_panic_bind {A B} (r : res A) (k : A -> res B) : ok_or_panic r -> (forall a, ok_or_panic (k a)) -> ok_or_panic (bind r k).
Proof. intros [-> | [a ->]] H; cbn; [now left|apply H]. Qed.

Lemma ok_or_panic_vget {A} (l : list A) i : ok_or_panic (vget l i).
Proof. unfold vget. destruct (nth_error l i); cbn; [right; eauto|now left]. Qed.

Lemma ok_or_panic_vset {A} (l : list A) i x : ok_or_panic (vset l i x).
Proof. unfold vset. destruct (i <? length l); [right; eauto|now left]. Qed.

Lemma collect_ok_or_panic f size g : (forall t s p, ok_or_panic (f t s p)) -> ok_or_panic (collect_pairs f size g).
Proof.
  intros H. unfold collect_pairs. apply foldM_ok_or_panic. intros cp v. apply foldM_ok_or_panic. intros cp' t.
  unfold visit_test. apply ok_or_panic_bind; [unfold the_cell; destruct (entity_exists g 2 t); [right; eauto|now left]|].
  intros _. destruct (is_owned (g_own g 2 t)); [|right; eauto].
  apply foldM_ok_or_panic. intros cp2 s. unfold visit_pair.
  apply ok_or_panic_bind; [unfold the_cell; destruct (entity_exists g 2 s); [right; eauto|now left]|].
  intros _. destruct (get_pairs_if_smallest g t s v); [|right; eauto].
  apply ok_or_panic_bind; [apply H|]. intros i. apply ok_or_panic_bind; [apply ok_or_panic_vget|]. intros row. apply ok_or_panic_vset.
Qed.

Lemma look_up_missing {D} make deg types (st : rule_state D) t s p :
  rules_inv make deg (all_keys types) st -> In t types -> In s types -> ~ In p (possible_pairs t s) ->
  look_up st t s p = Panic.
Proof.
  intros (I1 & _) Ht Hs Hp. unfold look_up.
  destruct (assoc key_eqb ((t, s), p) (rs_indices st)) as [i|] eqn:E; auto. exfalso.
  apply assoc_Some_In in E; [|apply key_eqb_eq]. rewrite I1 in E. apply in_combine_l in E.
  unfold all_keys in E. apply in_flat_map in E. destruct E as ([t' s'] & _ & E). unfold keys_for in E.
  apply in_map_iff in E. destruct E as (q & E & Hq). inversion E; subst. cbn [fst snd] in Hq. contradiction.
Qed.

Lemma lookup_exactly {D} (make : cell_type -> cell_type -> vpairs -> nat -> res D) : forall wmod o g deg,
  wf_grid g -> has_degrees o (g_types g 2) deg ->
  (forall t s p, In t (g_types g 2) -> In s (g_types g 2) -> In p (possible_pairs t s) ->
     exists d, make t s p (deg t s) = Ok d) ->
  0 < get_batch_size o -> get_batch_size o < wmod -> pairs_fit wmod g ->
  exists st, singular_rules make o (g_types g 2) = Ok st /\
    ((exists blocks, singular_blocks wmod st o g = Ok blocks) \/ singular_blocks wmod st o g = Panic) /\
    (singular_blocks wmod st o g <> Panic <->
     forall t s, t < ent_count g 2 -> s < ent_count g 2 -> g_own g 2 t = Owned -> touch g t s -> has_rule g t s).
Proof.
  intros wmod o g deg W Hd Hm Hb Hw Hf.
  destruct (singular_rules_spec make o (g_types g 2) deg (wf_types2_nodup g W) (wf_types2_surface g W) Hd Hm) as (st & Est & I).
  exists st. split; auto.
  assert (Hback : (forall t s, t < ent_count g 2 -> s < ent_count g 2 -> g_own g 2 t = Owned -> touch g t s -> has_rule g t s) ->
      exists blocks, singular_blocks wmod st o g = Ok blocks).
  { intros Hr. destruct (right_rules make wmod o g deg W Hd Hm Hr Hb Hw Hf) as (st' & blocks & E & Eb & _).
    rewrite Est in E. inversion E; subst st'. eauto. }
  destruct (collect_ok_or_panic (look_up st) (length (rs_indices st)) g) as [Ec|[cp Ec]].
  - intros t s p. unfold look_up. destruct (assoc _ _ _); cbn; [right; eauto|now left].
  - assert (Ep : singular_blocks wmod st o g = Panic) by (unfold singular_blocks, make_cell_blocks; now rewrite Ec).
    split; [now right|]. split; [congruence|]. intros Hr. destruct (Hback Hr) as [b Eb]. congruence.
  - assert (Hr : forall t s, t < ent_count g 2 -> s < ent_count g 2 -> g_own g 2 t = Owned -> touch g t s -> has_rule g t s).
    { intros t s Ht Hs Ho Hto p Hp. destruct (collect_pairs_Ok _ _ _ _ W Ec) as (idx & Hi & _).
      assert (Hev : In (t, s) (events g)) by (apply In_events; auto).
      destruct (Hi t s Hev) as [_ El].
      assert (E := adjacency_unique g t s p _ Hp (pairs_of_adjacency g t s W Ht)). subst p.
      destruct (in_dec (list_eq_dec (fun x y : nat * nat => ltac:(decide equality; apply Nat.eq_dec)))
         (pairs_of g (t, s)) (possible_pairs (g_ctype g t) (g_ctype g s))) as [|Hn]; auto.
      exfalso. rewrite (look_up_missing make deg (g_types g 2)) in El; auto; try (apply (wf_ctype g W); auto). discriminate. }
    destruct (Hback Hr) as [b Eb]. split; [left; eauto|]. split; auto. intros _. congruence.
Qed.

(** Two quadrilaterals that share two opposite corners. *)
Definition diagonal_quads : grid := grid_of_cells 0 Quadrilateral 6 [[0; 1; 2; 3]; [0; 4; 5; 3]].

Lemma diagonal_wf : wf_grid diagonal_quads.
Proof.
  apply grid_of_cells_wf. split; [now right|]. intros vs [<-|[<-|[]]]; (split; [reflexivity|]); split;
    try (apply (NoDup_dec_ok Nat.eqb Nat.eqb_eq); reflexivity); intros v Hv; cbn in Hv; intuition lia.
Qed.

Lemma nonconforming_refuted : exists g,
  wf_grid g /\ (exists cells, valid_cells Quadrilateral 6 cells /\ g = grid_of_cells 0 Quadrilateral 6 cells) /\
  forall D (make : cell_type -> cell_type -> vpairs -> nat -> res D) wmod st,
    singular_rules make default_options (g_types g 2) = Ok st ->
    singular_blocks wmod st default_options g = Panic.
Proof.
  exists diagonal_quads. split; [apply diagonal_wf|]. split.
  - exists [[0; 1; 2; 3]; [0; 4; 5; 3]]. split; auto.
    split; [now right|]. intros vs [<-|[<-|[]]]; (split; [reflexivity|]); split;
      try (apply (NoDup_dec_ok Nat.eqb Nat.eqb_eq); reflexivity); intros v Hv; cbn in Hv; intuition lia.
  - intros D make wmod st H.
    assert (Hd : has_degrees default_options (g_types diagonal_quads 2) (fun _ _ => 4)).
    { intros t s [<-|[]] [<-|[]]. reflexivity. }
    assert (Hm : forall t s p, In t (g_types diagonal_quads 2) -> In s (g_types diagonal_quads 2) ->
        In p (possible_pairs t s) -> exists d, make t s p 4 = Ok d).
    { intros t s p [<-|[]] [<-|[]] Hp. unfold singular_rules in H.
      cbn [g_types diagonal_quads grid_of_cells list_prod map app foldM] in H.
      apply bind_Ok_inv in H. destruct H as (st1 & H & _). unfold rules_for in H.
      apply bind_Ok_inv in H. destruct H as (d0 & Ed & H). cbn in Ed. inversion Ed; subst d0.
      destruct (foldM_steps _ (fun _ => True) _ _ _ (fun _ _ _ _ _ => I) I H) as [_ St].
      destruct (St p Hp) as (s1 & s2 & _ & E). unfold push_rule in E. apply bind_Ok_inv in E. destruct E as (d & E & _). eauto. }
    destruct (singular_rules_spec make default_options (g_types diagonal_quads 2) (fun _ _ => 4)) as (st' & E & I); auto.
    { repeat constructor. intros []. }
    { intros t [<-|[]]. now right. }
    rewrite H in E. inversion E; subst st'.
    destruct (collect_ok_or_panic (look_up st) (length (rs_indices st)) diagonal_quads) as [Ec|[cp Ec]].
    + intros t s p. unfold look_up. destruct (assoc _ _ _); cbn; [right; eauto|now left].
    + unfold singular_blocks, make_cell_blocks. now rewrite Ec.
    + exfalso. destruct (collect_pairs_Ok _ _ _ _ diagonal_wf Ec) as (idx & Hi & _).
      assert (Hev : In (0, 1) (events diagonal_quads)) by (vm_compute; auto).
      destruct (Hi 0 1 Hev) as [_ El].
      rewrite (look_up_missing make (fun _ _ => 4) (g_types diagonal_quads 2)) in El; auto.
      * discriminate.
      * now left.
      * now left.
      * intros Hin. assert (Hb : existsb (vpairs_eqb (pairs_of diagonal_quads (0, 1))) (possible_pairs Quadrilateral Quadrilateral) = true).
        { apply existsb_exists. eexists. split; [exact Hin|]. now apply vpairs_eqb_eq. }
        vm_compute in Hb. discriminate.
Qed.
