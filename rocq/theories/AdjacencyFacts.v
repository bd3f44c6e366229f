(** * Facts about adjacency *)
From Verif Require Import Base BaseFacts Topology TopologyFacts Options OptionsResults Batch SpecBatch BatchFacts
  Adjacency SpecAdjacency.

Lemma vpairs_eqb_eq p : forall q, vpairs_eqb p q = true <-> p = q.
Proof.
  induction p as [|x p IH]; intros [|y q]; cbn; split; intros H; try discriminate; auto.
  - apply andb_true_iff in H. destruct H as [H1 H2]. apply pair_eqb_eq in H1. apply IH in H2. congruence.
  - inversion H; subst. apply andb_true_iff. split; [now apply pair_eqb_eq|now apply IH].
Qed.

Lemma key_eqb_eq a b : key_eqb a b = true <-> a = b.
Proof.
  destruct a, b. unfold key_eqb. cbn [fst snd]. rewrite andb_true_iff, ctp_eqb_eq, vpairs_eqb_eq.
  split; [intros [-> ->]; auto|intros H; inversion H; auto].
Qed.

(** ** The coinciding vertices *)

Definition common_pairs (test trial : list (nat * nat)) : vpairs :=
  flat_map (fun y => map (fun x => (fst x, fst y)) (filter (fun x => snd x =? snd y) test)) trial.

Lemma scan_test_spec vertex ti tv test : forall acc,
  scan_test vertex ti tv test acc =
  if existsb (fun x => snd x =? tv) test && (tv <? vertex) then None
  else Some (acc ++ map (fun x => (fst x, ti)) (filter (fun x => snd x =? tv) test)).
Proof.
  induction test as [|[i v] t IH]; intros acc; cbn [scan_test existsb filter snd fst map].
  - now rewrite app_nil_r.
  - destruct (Nat.eqb_spec v tv) as [->|Hne]; cbn [orb].
    + rewrite IH. destruct (tv <? vertex); cbn [andb]; auto.
      rewrite andb_false_r. cbn [map fst]. now rewrite <- app_assoc.
    + now rewrite IH.
Qed.

Lemma scan_trial_spec vertex test trial : forall acc,
  scan_trial vertex test trial acc =
  if existsb (fun y => existsb (fun x => snd x =? snd y) test && (snd y <? vertex)) trial then None
  else Some (acc ++ common_pairs test trial).
Proof.
  unfold common_pairs. induction trial as [|[j w] t IH]; intros acc; cbn [scan_trial existsb flat_map snd fst].
  - now rewrite app_nil_r.
  - rewrite scan_test_spec. destruct (existsb (fun x => snd x =? w) test && (w <? vertex)); cbn [orb]; auto.
    rewrite IH. destruct (existsb _ t); auto. now rewrite <- app_assoc.
Qed.

Lemma enumerate_snd {A} (l : list A) x : In x (map snd (enumerate l)) <-> In x l.
Proof. now rewrite map_snd_enumerate. Qed.

Lemma In_common_pairs l l' i j :
  In (i, j) (common_pairs (enumerate l) (enumerate l')) <->
  exists v, nth_error l i = Some v /\ nth_error l' j = Some v.
Proof.
  unfold common_pairs. rewrite in_flat_map. split.
  - intros ([j' w] & Hy & Hin). apply in_map_iff in Hin. destruct Hin as ([i' v] & E & Hx).
    cbn in E. inversion E; subst i' j'. apply filter_In in Hx. destruct Hx as [Hx Hv]. cbn in Hv.
    apply Nat.eqb_eq in Hv. subst w. apply In_enumerate in Hx. apply In_enumerate in Hy.
    exists v. auto.
  - intros (v & H1 & H2). exists (j, v). split; [now apply In_enumerate|].
    apply in_map_iff. exists (i, v). split; auto. apply filter_In. split; [now apply In_enumerate|].
    cbn. apply Nat.eqb_refl.
Qed.

Lemma get_pairs_Some g t s vertex pairs :
  get_pairs_if_smallest g t s vertex = Some pairs ->
  (forall v, In v (g_sub g t 0) -> In v (g_sub g s 0) -> vertex <= v) /\
  pairs = common_pairs (enumerate (g_sub g t 0)) (enumerate (g_sub g s 0)).
Proof.
  unfold get_pairs_if_smallest. rewrite scan_trial_spec.
  destruct (existsb _ _) eqn:E; [discriminate|]. intros H. inversion H; subst. split; auto.
  intros v H1 H2. destruct (Nat.le_gt_cases vertex v) as [|Hlt]; auto. exfalso.
  assert (Hc : existsb (fun y => existsb (fun x => snd x =? snd y) (enumerate (g_sub g t 0)) && (snd y <? vertex))
             (enumerate (g_sub g s 0)) = true); [|congruence].
  apply existsb_exists. apply enumerate_snd in H2. apply in_map_iff in H2. destruct H2 as (y & <- & Hy).
  exists y. split; auto. apply andb_true_iff. split; [|now apply Nat.ltb_lt].
  apply existsb_exists. apply enumerate_snd in H1. apply in_map_iff in H1. destruct H1 as (x & E1 & Hx).
  exists x. split; auto. rewrite E1. apply Nat.eqb_refl.
Qed.

Lemma get_pairs_smallest g t s vertex :
  (forall v, In v (g_sub g t 0) -> In v (g_sub g s 0) -> vertex <= v) ->
  get_pairs_if_smallest g t s vertex = Some (common_pairs (enumerate (g_sub g t 0)) (enumerate (g_sub g s 0))).
Proof.
  intros H. unfold get_pairs_if_smallest. rewrite scan_trial_spec.
  destruct (existsb _ _) eqn:E; auto. exfalso.
  apply existsb_exists in E. destruct E as (y & Hy & E). apply andb_true_iff in E. destruct E as [E1 E2].
  apply existsb_exists in E1. destruct E1 as (x & Hx & E1). apply Nat.eqb_eq in E1. apply Nat.ltb_lt in E2.
  assert (vertex <= snd y); [|lia].
  apply H.
  - rewrite <- E1. apply (proj1 (enumerate_snd _ _)). now apply in_map.
  - apply (proj1 (enumerate_snd _ _)). now apply in_map.
Qed.

Lemma StronglySorted_app {A} (R : A -> A -> Prop) l1 l2 :
  StronglySorted R l1 -> StronglySorted R l2 -> (forall x y, In x l1 -> In y l2 -> R x y) ->
  StronglySorted R (l1 ++ l2).
Proof.
  induction l1 as [|a l1 IH]; intros H1 H2 H; cbn; auto.
  inversion H1; subst. constructor.
  - apply IH; auto. intros; apply H; auto. now right.
  - apply Forall_app. split; auto. apply Forall_forall. intros y Hy. apply H; auto. now left.
Qed.

Lemma filter_NoDup_le1 (l : list (nat * nat)) w :
  NoDup (map snd l) -> filter (fun x => snd x =? w) l = [] \/ exists x, filter (fun x => snd x =? w) l = [x].
Proof.
  induction l as [|[i v] l IH]; cbn [map snd filter]; intros H; auto.
  inversion H; subst. destruct (Nat.eqb_spec v w) as [->|]; auto.
  right. exists (i, w). f_equal. 
  assert (E : forall y, In y (filter (fun x => snd x =? w) l) -> False).
  { intros y Hy. apply filter_In in Hy. destruct Hy as [Hy E]. apply Nat.eqb_eq in E. subst w. apply H2. now apply in_map. }
  destruct (filter _ l) as [|y t]; auto. exfalso. apply (E y). now left.
Qed.

Lemma common_pairs_sorted l l' : NoDup l ->
  StronglySorted (fun p q => snd p < snd q) (common_pairs (enumerate l) (enumerate l')).
Proof.
  intros Hnd. unfold common_pairs, enumerate at 2.
  assert (G : forall k, StronglySorted (fun p q : nat * nat => snd p < snd q)
      (flat_map (fun y => map (fun x => (fst x, fst y)) (filter (fun x => snd x =? snd y) (enumerate l)))
         (combine (seq k (length l')) l')) /\
      forall p, In p (flat_map (fun y => map (fun x => (fst x, fst y)) (filter (fun x => snd x =? snd y) (enumerate l)))
         (combine (seq k (length l')) l')) -> k <= snd p); [|apply G].
  induction l' as [|w l' IH]; intros k; cbn [length seq combine flat_map fst snd].
  - split; [constructor|intros p []].
  - destruct (IH (S k)) as [IH1 IH2]. split.
    + apply StronglySorted_app; auto.
      * destruct (filter_NoDup_le1 (enumerate l) w) as [-> | [x ->]]; [now rewrite map_snd_enumerate| |]; cbn; repeat constructor.
      * intros x y Hx Hy. apply IH2 in Hy. apply in_map_iff in Hx. destruct Hx as (z & <- & _). cbn. lia.
    + intros p Hp. apply in_app_or in Hp. destruct Hp as [Hp|Hp].
      * apply in_map_iff in Hp. destruct Hp as (z & <- & _). cbn. lia.
      * apply IH2 in Hp. lia.
Qed.

Lemma common_pairs_adjacency g t s : NoDup (g_sub g t 0) ->
  adjacency g t s (common_pairs (enumerate (g_sub g t 0)) (enumerate (g_sub g s 0))).
Proof.
  intros H. split.
  - intros i j. apply In_common_pairs.
  - now apply common_pairs_sorted.
Qed.

Lemma StronglySorted_unique (l l' : vpairs) :
  StronglySorted (fun p q => snd p < snd q) l -> StronglySorted (fun p q => snd p < snd q) l' ->
  (forall x, In x l <-> In x l') -> l = l'.
Proof.
  revert l'. induction l as [|a l IH]; intros l' H1 H2 H.
  - destruct l' as [|b l']; auto. exfalso. apply (proj2 (H b)). now left.
  - inversion H1 as [|? ? H1a H1b]; subst.
    destruct l' as [|b l']; [exfalso; apply (proj1 (H a)); now left|].
    inversion H2 as [|? ? H2a H2b]; subst.
    rewrite Forall_forall in H1b, H2b.
    assert (E : a = b).
    { destruct (proj1 (H a) (or_introl eq_refl)) as [E|E]; auto.
      destruct (proj2 (H b) (or_introl eq_refl)) as [E'|E']; auto.
      apply H2b in E. apply H1b in E'. lia. }
    subst b. f_equal. apply IH; auto. intros x. split; intros Hx.
    + destruct (proj1 (H x) (or_intror Hx)) as [<-|]; auto. apply H1b in Hx. lia.
    + destruct (proj2 (H x) (or_intror Hx)) as [<-|]; auto. apply H2b in Hx. lia.
Qed.

Lemma adjacency_unique g t s p q : adjacency g t s p -> adjacency g t s q -> p = q.
Proof.
  intros [H1 S1] [H2 S2]. apply StronglySorted_unique; auto. intros [i j]. now rewrite H1, H2.
Qed.

(** ** The pairs of cells, in the order of the visits *)

Definition events (g : grid) : list (nat * nat) :=
  flat_map (fun v =>
    flat_map (fun t =>
      flat_map (fun s => match get_pairs_if_smallest g t s v with Some _ => [(t, s)] | None => [] end) (g_conn g v))
      (filter (fun t => is_owned (g_own g 2 t)) (g_conn g v))) (g_iter g 0).

Definition pairs_of (g : grid) (p : nat * nat) : vpairs :=
  common_pairs (enumerate (g_sub g (fst p) 0)) (enumerate (g_sub g (snd p) 0)).

Lemma In_conn g v c : wf_grid g -> In v (g_iter g 0) -> (In c (g_conn g v) <-> c < ent_count g 2 /\ In v (g_sub g c 0)).
Proof. intros W H. apply (wf_conn_In g W). now apply (wf_iter_In g W 0 v (Nat.le_0_l 2)). Qed.

Lemma least_common g t s : touch g t s ->
  exists v, In v (g_sub g t 0) /\ In v (g_sub g s 0) /\
    forall w, In w (g_sub g t 0) -> In w (g_sub g s 0) -> v <= w.
Proof.
  intros [v0 [H1 H2]].
  induction v0 as [v0 IH] using lt_wf_ind.
  destruct (existsb (fun w => memb w (g_sub g s 0) && (w <? v0)) (g_sub g t 0)) eqn:E.
  - apply existsb_exists in E. destruct E as (w & Hw & E). apply andb_true_iff in E. destruct E as [E1 E2].
    apply memb_In in E1. apply Nat.ltb_lt in E2. eapply IH; eauto.
  - exists v0. split; auto. split; auto. intros w Hw1 Hw2.
    destruct (Nat.le_gt_cases v0 w); auto. exfalso.
    assert (existsb (fun w => memb w (g_sub g s 0) && (w <? v0)) (g_sub g t 0) = true); [|congruence].
    apply existsb_exists. exists w. split; auto. apply andb_true_iff. split; [now apply memb_In|now apply Nat.ltb_lt].
Qed.

Lemma In_events g t s : wf_grid g ->
  (In (t, s) (events g) <->
   t < ent_count g 2 /\ s < ent_count g 2 /\ g_own g 2 t = Owned /\ touch g t s).
Proof.
  intros W. unfold events. split.
  - intros H. apply in_flat_map in H. destruct H as (v & Hv & H). apply in_flat_map in H. destruct H as (t' & Ht & H).
    apply in_flat_map in H. destruct H as (s' & Hs & H).
    destruct (get_pairs_if_smallest g t' s' v); [|destruct H].
    destruct H as [H|[]]. inversion H; subst t' s'.
    apply filter_In in Ht. destruct Ht as [Ht Ho].
    apply (In_conn g v t W Hv) in Ht. apply (In_conn g v s W Hv) in Hs.
    destruct Ht, Hs. split; [auto|]. split; [auto|]. split.
    + destruct (g_own g 2 t); auto; discriminate.
    + exists v. auto.
  - intros (Ht & Hs & Ho & Htouch). destruct (least_common g t s Htouch) as (v & H1 & H2 & Hmin).
    assert (Hv : In v (g_iter g 0)).
    { apply (wf_iter_In g W 0 v (Nat.le_0_l 2)). apply (wf_sub_lt g W t 0 v Ht (Nat.le_0_l 2) H1). }
    apply in_flat_map. exists v. split; auto. apply in_flat_map. exists t. split.
    { apply filter_In. split; [apply (In_conn g v t W Hv); auto|]. now rewrite Ho. }
    apply in_flat_map. exists s. split; [apply (In_conn g v s W Hv); auto|].
    rewrite (get_pairs_smallest g t s v Hmin). now left.
Qed.

Lemma NoDup_flat_map {A B} (f : A -> list B) l :
  NoDup l -> (forall x, In x l -> NoDup (f x)) ->
  (forall x y b, In x l -> In y l -> In b (f x) -> In b (f y) -> x = y) ->
  NoDup (flat_map f l).
Proof.
  induction l as [|a l IH]; intros Hn H1 H2; cbn; [constructor|].
  inversion Hn; subst. apply NoDup_app_iff. split; [apply H1; now left|]. split.
  - apply IH; auto; [intros; apply H1; now right|]. intros x y b Hx Hy. apply H2; now right.
  - intros b Hb Hc. apply in_flat_map in Hc. destruct Hc as (y & Hy & Hc).
    assert (a = y) by (eapply (H2 a y b); eauto; [now left|now right]). subst y. contradiction.
Qed.

Lemma NoDup_events g : wf_grid g -> NoDup (events g).
Proof.
  intros W. unfold events. apply NoDup_flat_map.
  - apply (wf_iter_nodup g W). lia.
  - intros v Hv. assert (Hlt : v < ent_count g 0) by (now apply (wf_iter_In g W 0 v (Nat.le_0_l 2))).
    apply NoDup_flat_map.
    + apply NoDup_filter, (wf_conn_nodup g W v Hlt).
    + intros t _. apply NoDup_flat_map.
      * apply (wf_conn_nodup g W v Hlt).
      * intros s _. destruct (get_pairs_if_smallest g t s v); repeat constructor. intros [].
      * intros s s' b _ _ H1 H2. destruct (get_pairs_if_smallest g t s v), (get_pairs_if_smallest g t s' v);
          cbn in *; intuition congruence.
    + intros t t' b _ _ H1 H2. apply in_flat_map in H1. destruct H1 as (s1 & _ & H1).
      apply in_flat_map in H2. destruct H2 as (s2 & _ & H2).
      destruct (get_pairs_if_smallest g t s1 v), (get_pairs_if_smallest g t' s2 v); cbn in *; intuition congruence.
  - intros v v' [t s] Hv Hv' H1 H2.
    assert (G : forall x y, In x (g_iter g 0) -> In y (g_iter g 0) ->
      In (t, s) (flat_map (fun t => flat_map (fun s => match get_pairs_if_smallest g t s x with Some _ => [(t, s)] | None => [] end)
         (g_conn g x)) (filter (fun t => is_owned (g_own g 2 t)) (g_conn g x))) ->
      In (t, s) (flat_map (fun t => flat_map (fun s => match get_pairs_if_smallest g t s y with Some _ => [(t, s)] | None => [] end)
         (g_conn g y)) (filter (fun t => is_owned (g_own g 2 t)) (g_conn g y))) -> x <= y).
    { intros x y Hx Hy A1 A2.
      apply in_flat_map in A1. destruct A1 as (t1 & _ & A1). apply in_flat_map in A1. destruct A1 as (s1 & _ & A1).
      destruct (get_pairs_if_smallest g t1 s1 x) as [px|] eqn:E; [|destruct A1].
      destruct A1 as [A1|[]]. inversion A1; subst t1 s1.
      apply get_pairs_Some in E. destruct E as [E _].
      apply in_flat_map in A2. destruct A2 as (t2 & Ht & A2). apply in_flat_map in A2. destruct A2 as (s2 & Hs & A2).
      destruct (get_pairs_if_smallest g t2 s2 y) as [py|]; [|destruct A2].
      destruct A2 as [A2|[]]. inversion A2; subst t2 s2.
      apply filter_In in Ht. destruct Ht as [Ht _].
      apply (In_conn g y t W Hy) in Ht. apply (In_conn g y s W Hy) in Hs. apply E; tauto. }
    apply Nat.le_antisymm; apply G; auto.
Qed.

(** ** Collecting the pairs *)

Lemma nth_map_lt {A B} (f : A -> B) l i d d' : i < length l -> nth i (map f l) d = f (nth i l d').
Proof. intros H. rewrite (nth_indep _ d (f d')) by (now rewrite map_length). apply map_nth. Qed.

Definition rows_of (idx : nat * nat -> nat) (size : nat) (l : list (nat * nat)) : list (list (nat * nat)) :=
  map (fun i => filter (fun p => idx p =? i) l) (seq 0 size).

Lemma rows_of_snoc idx size l p : idx p < size ->
  (row <- vget (rows_of idx size l) (idx p) ;; vset (rows_of idx size l) (idx p) (row ++ [p])) =
  Ok (rows_of idx size (l ++ [p])).
Proof.
  intros H.
  assert (E : vget (rows_of idx size l) (idx p) = Ok (filter (fun q => idx q =? idx p) l)).
  { unfold rows_of. apply vget_Ok. rewrite nth_error_map, nth_error_seq by auto. reflexivity. }
  rewrite E. cbn [bind]. rewrite vset_lt by (unfold rows_of; now rewrite map_length, seq_length).
  f_equal. apply nth_error_ext. intros i. rewrite nth_error_set_nth.
  unfold rows_of. rewrite map_length, seq_length, !nth_error_map.
  destruct (Nat.lt_ge_cases i size) as [Hi|Hi].
  - rewrite !nth_error_seq by auto. cbn [option_map]. rewrite Nat.add_0_l, filter_app. cbn [filter].
    destruct (Nat.eqb_spec (idx p) i) as [<-|Hne]; cbn [andb].
    + destruct (Nat.ltb_spec (idx p) size); [|lia]. reflexivity.
    + now rewrite app_nil_r.
  - assert (N : nth_error (seq 0 size) i = None) by (apply nth_error_None; now rewrite seq_length).
    rewrite N. destruct (Nat.eqb_spec (idx p) i); [lia|]. reflexivity.
Qed.

Lemma collect_pairs_spec f size g idx : wf_grid g ->
  (forall t s, In (t, s) (events g) -> idx (t, s) < size /\
     f (g_ctype g t) (g_ctype g s) (pairs_of g (t, s)) = Ok (idx (t, s))) ->
  collect_pairs f size g = Ok (rows_of idx size (events g)).
Proof.
  intros W H. unfold collect_pairs.
  assert (E0 : repeat [] size = rows_of idx size []).
  { unfold rows_of. cbn [filter]. apply nth_error_ext. intros i. rewrite nth_error_map.
    destruct (Nat.lt_ge_cases i size) as [Hi|Hi].
    - now rewrite nth_error_repeat, nth_error_seq.
    - rewrite !(proj2 (nth_error_None _ _)); auto; [now rewrite seq_length|now rewrite repeat_length]. }
  rewrite E0. unfold events in *.
  set (ev_v := fun v => flat_map (fun t => flat_map (fun s => match get_pairs_if_smallest g t s v with Some _ => [(t, s)] | None => [] end)
         (g_conn g v)) (filter (fun t => is_owned (g_own g 2 t)) (g_conn g v))) in *.
  assert (Gs : forall v t (Hv : In v (g_iter g 0)) (Ht : In t (g_conn g v)) ss, incl ss (g_conn g v) ->
     (forall s, In s ss -> forall p, get_pairs_if_smallest g t s v = Some p -> idx (t, s) < size /\
        f (g_ctype g t) (g_ctype g s) (pairs_of g (t, s)) = Ok (idx (t, s))) -> forall acc,
     foldM (visit_pair f g v t) ss (rows_of idx size acc) =
     Ok (rows_of idx size (acc ++ flat_map (fun s => match get_pairs_if_smallest g t s v with Some _ => [(t, s)] | None => [] end) ss))).
  { intros v t Hv Ht. induction ss as [|s ss IH]; intros Hi Hf acc; cbn [foldM flat_map]; [now rewrite app_nil_r|].
    assert (Ex : the_cell g s = Ok tt).
    { unfold the_cell, entity_exists. assert (Hs : In s (g_conn g v)) by (apply Hi; now left).
      apply (In_conn g v s W Hv) in Hs. destruct Hs as [Hs _]. apply Nat.ltb_lt in Hs. now rewrite Hs. }
    unfold visit_pair at 1. rewrite Ex. cbn [bind].
    destruct (get_pairs_if_smallest g t s v) as [p|] eqn:E.
    - destruct (Hf s (or_introl eq_refl) p E) as [H1 H2].
      apply get_pairs_Some in E. destruct E as [_ ->]. fold (pairs_of g (t, s)). 
      change (common_pairs (enumerate (g_sub g t 0)) (enumerate (g_sub g s 0))) with (pairs_of g (t, s)).
      rewrite H2. cbn [bind].
      rewrite rows_of_snoc by auto. cbn [bind]. rewrite IH.
      + now rewrite <- app_assoc.
      + intros x Hx. apply Hi. now right.
      + intros x Hx. apply Hf. now right.
    - cbn [bind]. rewrite IH.
      + reflexivity.
      + intros x Hx. apply Hi. now right.
      + intros x Hx. apply Hf. now right. }
  assert (Gt : forall v (Hv : In v (g_iter g 0)) ts, incl ts (g_conn g v) ->
     (forall t s, In t ts -> is_owned (g_own g 2 t) = true -> In s (g_conn g v) -> forall p, get_pairs_if_smallest g t s v = Some p -> idx (t, s) < size /\
        f (g_ctype g t) (g_ctype g s) (pairs_of g (t, s)) = Ok (idx (t, s))) -> forall acc,
     foldM (visit_test f g v) ts (rows_of idx size acc) =
     Ok (rows_of idx size (acc ++ flat_map (fun t => flat_map (fun s => match get_pairs_if_smallest g t s v with Some _ => [(t, s)] | None => [] end) (g_conn g v))
        (filter (fun t => is_owned (g_own g 2 t)) ts)))).
  { intros v Hv. induction ts as [|t ts IH]; intros Hi Hf acc; cbn [foldM filter flat_map]; [now rewrite app_nil_r|].
    assert (Ht : In t (g_conn g v)) by (apply Hi; now left).
    assert (Ex : the_cell g t = Ok tt).
    { unfold the_cell, entity_exists. assert (Hs := Ht).
      apply (In_conn g v t W Hv) in Hs. destruct Hs as [Hs _]. apply Nat.ltb_lt in Hs. now rewrite Hs. }
    unfold visit_test at 1. rewrite Ex. cbn [bind].
    destruct (is_owned (g_own g 2 t)) eqn:Eo.
    - rewrite (Gs v t Hv Ht); [|apply incl_refl|intros s Hs; apply Hf; auto; now left].
      cbn [bind flat_map]. rewrite IH.
      + now rewrite <- app_assoc.
      + intros x Hx. apply Hi. now right.
      + intros x s Hx. apply Hf. now right.
    - cbn [bind]. rewrite IH; auto.
      + intros x Hx. apply Hi. now right.
      + intros x s Hx. apply Hf. now right. }
  assert (Gv : forall vs, incl vs (g_iter g 0) -> forall acc,
     foldM (fun cp v => foldM (visit_test f g v) (g_conn g v) cp) vs (rows_of idx size acc) =
     Ok (rows_of idx size (acc ++ flat_map ev_v vs))).
  { induction vs as [|v vs IH]; intros Hi acc; cbn [foldM flat_map]; [now rewrite app_nil_r|].
    assert (Hv : In v (g_iter g 0)) by (apply Hi; now left).
    rewrite (Gt v Hv); [|apply incl_refl|].
    - cbn [bind]. rewrite IH; [|intros x Hx; apply Hi; now right]. rewrite <- app_assoc. reflexivity.
    - intros t s Ht Ho Hs p Hp. apply H. apply in_flat_map. exists v. split; auto.
      unfold ev_v. apply in_flat_map. exists t. split; [apply filter_In; auto|].
      apply in_flat_map. exists s. split; auto. rewrite Hp. now left. }
  rewrite (Gv (g_iter g 0)); [reflexivity|apply incl_refl].
Qed.

(** Rows make up the list they come from. *)
Lemma Permutation_rows idx size l : (forall p, In p l -> idx p < size) -> Permutation (concat (rows_of idx size l)) l.
Proof.
  unfold rows_of. induction l as [|p l IH]; intros H.
  - cbn [filter]. clear H. generalize 0. induction size; intros k; cbn; auto.
  - assert (Hp : idx p < size) by (apply H; now left).
    etransitivity; [|apply perm_skip, IH; intros; apply H; now right]. clear IH H.
    assert (Es : seq 0 size = seq 0 (idx p) ++ idx p :: seq (S (idx p)) (size - S (idx p))).
    { replace size with (idx p + S (size - S (idx p))) at 1 by lia. rewrite seq_app. reflexivity. }
    rewrite Es, !map_app, !concat_app. cbn [map concat filter].
    assert (E1 : forall a n, (forall i, a <= i < a + n -> i <> idx p) ->
       map (fun i => if idx p =? i then p :: filter (fun q => idx q =? i) l else filter (fun q => idx q =? i) l) (seq a n) =
       map (fun i => filter (fun q => idx q =? i) l) (seq a n)).
    { intros a n Hi. apply map_ext_in. intros i Hin. apply in_seq in Hin.
      destruct (Nat.eqb_spec (idx p) i) as [<-|]; auto. exfalso. apply (Hi (idx p)); auto. }
    rewrite !E1 by (intros i Hi; lia). rewrite Nat.eqb_refl. cbn [app].
    symmetry. apply Permutation_middle.
Qed.

(** ** The rules *)

Lemma NoDup_dec_ok {A} (eqb : A -> A -> bool) (Heq : forall a b, eqb a b = true <-> a = b) (l : list A) :
  (fix go l := match l with [] => true | x :: t => negb (existsb (eqb x) t) && go t end) l = true -> NoDup l.
Proof.
  induction l as [|x t IH]; intros H; [constructor|].
  apply andb_true_iff in H. destruct H as [H1 H2]. constructor; auto.
  intros Hin. apply negb_true_iff in H1. assert (existsb (eqb x) t = true); [|congruence].
  apply existsb_exists. exists x. split; auto. now apply Heq.
Qed.

Lemma possible_pairs_NoDup t s : surface_type t -> surface_type s -> NoDup (possible_pairs t s).
Proof.
  intros [-> | ->] [-> | ->]; apply (NoDup_dec_ok vpairs_eqb); try (intros; apply vpairs_eqb_eq); vm_compute; reflexivity.
Qed.

Lemma assoc_insert_new {K V} (eqb : K -> K -> bool) (k : K) (v : V) m :
  (forall a b, eqb a b = true <-> a = b) -> ~ In k (map fst m) -> assoc_insert eqb k v m = m ++ [(k, v)].
Proof.
  intros H. induction m as [|[k' v'] m IH]; cbn; intros Hn; auto.
  destruct (eqb k k') eqn:E; [apply H in E; exfalso; apply Hn; now left|].
  rewrite IH; auto.
Qed.

(** Keys of the rules, in order. *)
Definition keys_for (tp : cell_type * cell_type) : list rule_key := map (fun p => (tp, p)) (possible_pairs (fst tp) (snd tp)).
Definition all_keys (types : list cell_type) : list rule_key := flat_map keys_for (list_prod types types).

Lemma NoDup_list_prod {A B} (l : list A) (l' : list B) : NoDup l -> NoDup l' -> NoDup (list_prod l l').
Proof.
  intros H H'. induction H as [|a l Ha H IH]; cbn; [constructor|].
  apply NoDup_app_iff. split; [|split; auto].
  - apply FinFun.Injective_map_NoDup; auto. intros x y E. now inversion E.
  - intros [x y] H1 H2. apply in_map_iff in H1. destruct H1 as (z & E & _). inversion E; subst.
    apply in_prod_iff in H2. tauto.
Qed.

Lemma NoDup_all_keys types : NoDup types -> (forall t, In t types -> surface_type t) -> NoDup (all_keys types).
Proof.
  intros Hn Hs. unfold all_keys, keys_for. apply NoDup_flat_map.
  - now apply NoDup_list_prod.
  - intros [t s] H. apply in_prod_iff in H. destruct H as [Ht Hs'].
    apply FinFun.Injective_map_NoDup; [intros x y E; now inversion E|]. now apply possible_pairs_NoDup; apply Hs.
  - intros a b k _ _ H1 H2. apply in_map_iff in H1. destruct H1 as (x & <- & _).
    apply in_map_iff in H2. destruct H2 as (y & E & _). now inversion E.
Qed.

(** The state reached after the keys [ks], whose data are [ds]. *)
Definition rules_inv {D} (make : cell_type -> cell_type -> vpairs -> nat -> res D) (deg : cell_type -> cell_type -> nat)
    (ks : list rule_key) (st : rule_state D) : Prop :=
  rs_indices st = combine ks (seq 0 (length ks)) /\
  rs_test st = map (fun k => fst (fst k)) ks /\
  rs_trial st = map (fun k => snd (fst k)) ks /\
  length (rs_data st) = length ks /\
  forall i k, nth_error ks i = Some k ->
    exists d, nth_error (rs_data st) i = Some d /\
      make (fst (fst k)) (snd (fst k)) (snd k) (deg (fst (fst k)) (snd (fst k))) = Ok d.

Lemma combine_snoc {A B} (l : list A) (m : list B) a b : length l = length m ->
  combine (l ++ [a]) (m ++ [b]) = combine l m ++ [(a, b)].
Proof. revert m. induction l; intros [|y m] H; try discriminate; cbn; auto. cbn in H. rewrite IHl; auto. Qed.

Lemma push_keys_spec {D} t s : forall pp ks (st : rule_state D) offset,
  NoDup (ks ++ map (fun p => ((t, s), p)) pp) ->
  rs_indices st = combine ks (seq 0 (length ks)) ->
  rs_test st = map (fun k : rule_key => fst (fst k)) ks ->
  rs_trial st = map (fun k : rule_key => snd (fst k)) ks ->
  forall j, offset + j = length ks ->
  let st' := fold_left (push_key t s offset) (combine (seq j (length pp)) pp) st in
  let ks' := ks ++ map (fun p => ((t, s), p)) pp in
  rs_indices st' = combine ks' (seq 0 (length ks')) /\
  rs_test st' = map (fun k : rule_key => fst (fst k)) ks' /\
  rs_trial st' = map (fun k : rule_key => snd (fst k)) ks' /\
  rs_data st' = rs_data st.
Proof.
  induction pp as [|p pp IH]; intros ks st offset Hn H1 H2 H3 j Hj.
  - cbn. rewrite app_nil_r. auto.
  - cbn [map length seq combine fold_left]. 
    replace (ks ++ (t, s, p) :: map (fun p => ((t, s), p)) pp)
      with ((ks ++ [((t, s), p)]) ++ map (fun p => ((t, s), p)) pp) by (now rewrite <- app_assoc).
    assert (E : rs_data st = rs_data (push_key t s offset st (j, p))) by reflexivity.
    rewrite E. apply IH.
    + rewrite <- app_assoc. exact Hn.
    + unfold push_key. cbn [rs_indices fst snd]. rewrite H1, assoc_insert_new.
      * rewrite app_length. cbn [length]. rewrite seq_app. cbn [seq].
        rewrite combine_snoc by (now rewrite seq_length). rewrite Nat.add_0_l, Hj. reflexivity.
      * apply key_eqb_eq.
      * rewrite map_fst_combine by (now rewrite seq_length).
        cbn [map] in Hn. apply NoDup_remove_2 in Hn. intros Hin. apply Hn. apply in_or_app. now left.
    + unfold push_key. cbn [rs_test]. rewrite H2, map_app. reflexivity.
    + unfold push_key. cbn [rs_trial]. rewrite H3, map_app. reflexivity.
    + rewrite app_length. cbn. lia.
Qed.

Lemma push_rules_spec {D} (make : cell_type -> cell_type -> vpairs -> nat -> res D) t s degree :
  forall pp (st : rule_state D), (forall p, In p pp -> exists d, make t s p degree = Ok d) ->
  exists ds, foldM (push_rule make t s degree) pp st = Ok (mkRules (rs_indices st) (rs_test st) (rs_trial st) (rs_data st ++ ds)) /\
    length ds = length pp /\
    forall i p, nth_error pp i = Some p -> exists d, nth_error ds i = Some d /\ make t s p degree = Ok d.
Proof.
  induction pp as [|p pp IH]; intros st H.
  - exists []. cbn. rewrite app_nil_r. destruct st. split; auto. split; auto. intros [|i] p; discriminate.
  - destruct (H p (or_introl eq_refl)) as [d Hd]. cbn [foldM]. unfold push_rule at 1. rewrite Hd. cbn [bind].
    destruct (IH (mkRules (rs_indices st) (rs_test st) (rs_trial st) (rs_data st ++ [d]))) as (ds & E & L & N).
    { intros; apply H. now right. }
    exists (d :: ds). split; [|split; [cbn; lia|]].
    + rewrite E. cbn [rs_indices rs_test rs_trial rs_data]. now rewrite <- app_assoc.
    + intros [|i] q Hq; cbn in *; [inversion Hq; subst; eauto|auto].
Qed.

Lemma singular_rules_spec {D} (make : cell_type -> cell_type -> vpairs -> nat -> res D) o types deg :
  NoDup types -> (forall t, In t types -> surface_type t) -> has_degrees o types deg ->
  (forall t s p, In t types -> In s types -> In p (possible_pairs t s) -> exists d, make t s p (deg t s) = Ok d) ->
  exists st, singular_rules make o types = Ok st /\ rules_inv make deg (all_keys types) st.
Proof.
  intros Hn Hs Hd Hm. unfold singular_rules.
  assert (Hnd := NoDup_all_keys types Hn Hs). unfold all_keys in *.
  assert (Hin : forall tp, In tp (list_prod types types) -> In (fst tp) types /\ In (snd tp) types).
  { intros [t s] H. now apply in_prod_iff in H. }
  assert (G : forall tps ks st, incl tps (list_prod types types) -> NoDup (ks ++ flat_map keys_for tps) ->
    rules_inv make deg ks st ->
    exists st', foldM (rules_for make o) tps st = Ok st' /\ rules_inv make deg (ks ++ flat_map keys_for tps) st').
  { induction tps as [|[t s] tps IH]; intros ks st Hi Hnk Hinv.
    - exists st. cbn. now rewrite app_nil_r.
    - cbn [flat_map] in *. rewrite app_assoc in Hnk |- *.
      destruct (Hin (t, s)) as [Ht Hs']; [apply Hi; now left|]. cbn [fst snd] in Ht, Hs'.
      destruct Hinv as (I1 & I2 & I3 & I4 & I5).
      assert (Hnk' : NoDup (ks ++ map (fun p => ((t, s), p)) (possible_pairs t s))).
      { change (map (fun p => ((t, s), p)) (possible_pairs t s)) with (keys_for (t, s)).
        apply NoDup_app_iff in Hnk. tauto. }
      destruct (push_keys_spec t s (possible_pairs t s) ks st (length (rs_data st)) Hnk' I1 I2 I3 0) as (J1 & J2 & J3 & J4); [exact (eq_trans (Nat.add_0_r _) I4)|].
      set (st1 := fold_left (push_key t s (length (rs_data st))) (combine (seq 0 (length (possible_pairs t s))) (possible_pairs t s)) st) in *.
      destruct (push_rules_spec make t s (deg t s) (possible_pairs t s) st1) as (ds & E & L & N).
      { intros p Hp. now apply Hm. }
      cbn [foldM]. unfold rules_for at 1. 
      assert (Ed : assoc ctp_eqb (t, s) (o_singular_degrees o) = Some (deg t s)) by (apply Hd; auto).
      rewrite Ed. cbn [unwrap bind]. unfold enumerate. fold st1. rewrite E. cbn [bind].
      apply IH.
      + intros x Hx. apply Hi. now right.
      + exact Hnk.
      + unfold rules_inv. cbn [rs_indices rs_test rs_trial rs_data].
        change (keys_for (t, s)) with (map (fun p => ((t, s), p)) (possible_pairs t s)).
        split; [exact J1|]. split; [exact J2|]. split; [exact J3|]. split.
        * rewrite !app_length, J4, I4, L, map_length. reflexivity.
        * intros i k Hk. rewrite J4. destruct (Nat.lt_ge_cases i (length ks)) as [Hlt|Hge].
          -- rewrite nth_error_app1 in Hk by auto. rewrite nth_error_app1 by lia. now apply I5.
          -- rewrite nth_error_app2 in Hk by auto. rewrite nth_error_app2 by lia. rewrite I4.
             rewrite nth_error_map in Hk. destruct (nth_error (possible_pairs t s) (i - length ks)) as [p|] eqn:Ep; [|discriminate].
             inversion Hk; subst k. cbn [fst snd]. now apply N. }
  destruct (G (list_prod types types) [] (mkRules [] [] [] [])) as (st & E & I).
  - apply incl_refl.
  - exact Hnd.
  - unfold rules_inv. cbn. repeat split; auto. intros [|i] k; discriminate.
  - exists st. auto.
Qed.

Lemma assoc_combine_nth {K} (eqb : K -> K -> bool) (ks : list K) k i a :
  (forall a b, eqb a b = true <-> a = b) -> NoDup ks -> nth_error ks i = Some k ->
  assoc eqb k (combine ks (seq a (length ks))) = Some (a + i).
Proof.
  intros H. revert i a. induction ks as [|x ks IH]; intros i a Hn Hi; [destruct i; discriminate|].
  inversion Hn; subst. cbn [length seq combine assoc]. destruct i as [|i]; cbn in Hi.
  - inversion Hi; subst. rewrite (proj2 (H k k) eq_refl). f_equal. lia.
  - destruct (eqb k x) eqn:E.
    + apply H in E. subst x. exfalso. apply nth_error_In in Hi. contradiction.
    + rewrite (IH i (S a)); auto. f_equal. lia.
Qed.

Lemma look_up_spec {D} make deg types (st : rule_state D) t s p :
  NoDup types -> (forall t, In t types -> surface_type t) ->
  rules_inv make deg (all_keys types) st -> In t types -> In s types -> In p (possible_pairs t s) ->
  exists i d, look_up st t s p = Ok i /\ i < length (rs_indices st) /\
    nth_error (rs_test st) i = Some t /\ nth_error (rs_trial st) i = Some s /\
    nth_error (rs_data st) i = Some d /\ make t s p (deg t s) = Ok d.
Proof.
  intros Hn Hs (I1 & I2 & I3 & I4 & I5) Ht Hs' Hp.
  assert (Hk : @In rule_key ((t, s), p) (all_keys types)).
  { unfold all_keys. apply in_flat_map. exists (t, s). split; [now apply in_prod_iff|].
    unfold keys_for. cbn [fst snd]. apply in_map_iff. eauto. }
  apply In_nth_error in Hk. destruct Hk as [i Hi].
  destruct (I5 i _ Hi) as (d & Hd & Em). exists i, d.
  split.
  - unfold look_up. rewrite I1.
    assert (E := assoc_combine_nth key_eqb (all_keys types) ((t, s), p) i 0 key_eqb_eq (NoDup_all_keys types Hn Hs) Hi).
    rewrite E. reflexivity.
  - split.
    + assert (Hlt : i < length (all_keys types)) by (apply nth_error_Some; rewrite Hi; discriminate).
      rewrite I1, combine_length, seq_length, Nat.min_id. exact Hlt.
    + rewrite I2, I3. split; [exact (map_nth_error (fun k : rule_key => fst (fst k)) i _ Hi)|].
      split; [exact (map_nth_error (fun k : rule_key => snd (fst k)) i _ Hi)|]. auto.
Qed.

(** ** Conforming grids *)

Lemma vertex_index g c v : wf_grid g -> c < ent_count g 2 -> In v (g_sub g c 0) ->
  exists i, i < ref_count (g_ctype g c) 0 /\ nth_error (g_sub g c 0) i = Some v.
Proof.
  intros W Hc Hv. apply In_nth_error in Hv. destruct Hv as [i Hi]. exists i. split; auto.
  rewrite <- (wf_sub_length g W c 0) by (auto; lia). apply nth_error_Some. congruence.
Qed.

Lemma edges_ascending t a b : surface_type t -> In (a, b) (ref_edges t) -> a < b /\ b < ref_count t 0.
Proof.
  intros [-> | ->] H; cbn [ref_edges In] in H;
    repeat (destruct H as [H|H]; [inversion H; subst; cbn [ref_count]; lia|]); destruct H.
Qed.

Lemma in_possible_vertex t s i j : i < ref_count t 0 -> j < ref_count s 0 -> In [(i, j)] (possible_pairs t s).
Proof.
  intros Hi Hj. unfold possible_pairs. apply in_or_app. left. apply in_flat_map. exists i. split; [apply in_seq; lia|].
  apply in_map_iff. exists j. split; auto. apply in_seq; lia.
Qed.

Lemma in_possible_edge t s a b c d : In (a, b) (ref_edges t) -> In (c, d) (ref_edges s) ->
  In [(a, c); (b, d)] (possible_pairs t s) /\ In [(b, c); (a, d)] (possible_pairs t s).
Proof.
  intros H1 H2. unfold possible_pairs. split; apply in_or_app; right; apply in_or_app; left;
    apply in_flat_map; exists (a, b); (split; [auto|]); apply in_flat_map; exists (c, d); (split; [auto|]); cbn; auto.
Qed.

Lemma adjacency_same g c : wf_grid g -> c < ent_count g 2 ->
  adjacency g c c (map (fun i => (i, i)) (seq 0 (ref_count (g_ctype g c) 0))).
Proof.
  intros W Hc. assert (L := wf_sub_length g W c 0 Hc (Nat.le_0_l 2)).
  assert (N := wf_sub_nodup g W c 0 Hc (Nat.le_0_l 2)). split.
  - intros i j. rewrite in_map_iff. split.
    + intros (k & E & Hk). inversion E; subst. apply in_seq in Hk.
      destruct (nth_error (g_sub g c 0) j) as [v|] eqn:Ev; [|apply nth_error_None in Ev; lia].
      exists v. auto.
    + intros (v & H1 & H2). exists i. split.
      * f_equal. eapply NoDup_nth_error_inj; eauto.
      * apply in_seq. assert (i < length (g_sub g c 0)) by (apply nth_error_Some; congruence). lia.
  - clear. generalize (ref_count (g_ctype g c) 0) as m. generalize 0 as k. intros k m. revert k.
    induction m as [|n IH]; intros k; cbn [seq map]; constructor; auto.
    apply Forall_forall. intros [x y] Hx. apply in_map_iff in Hx. destruct Hx as (z & E & Hz). inversion E; subst.
    apply in_seq in Hz. cbn. lia.
Qed.

Lemma adjacency_possible g t s p : wf_grid g -> conforming g -> t < ent_count g 2 -> s < ent_count g 2 ->
  touch g t s -> adjacency g t s p -> In p (possible_pairs (g_ctype g t) (g_ctype g s)).
Proof.
  intros W C Ht Hs [v [Hv1 Hv2]] Ha.
  destruct (Nat.eq_dec t s) as [->|Hne].
  - assert (E := adjacency_unique g s s p _ Ha (adjacency_same g s W Hs)). subst p.
    unfold possible_pairs. rewrite ct_eqb_refl. apply in_or_app; right. apply in_or_app; right. now left.
  - destruct (vertex_index g t v W Ht Hv1) as (i & Hi & Ei). destruct (vertex_index g s v W Hs Hv2) as (j & Hj & Ej).
    assert (Hin : In (i, j) p) by (apply Ha; exists v; auto).
    destruct Ha as [Ha Hsort].
    assert (Nt := wf_sub_nodup g W t 0 Ht (Nat.le_0_l 2)). assert (Ns := wf_sub_nodup g W s 0 Hs (Nat.le_0_l 2)).
    (* is there a second common vertex? *)
    assert (Hcase : (forall i' j', In (i', j') p -> i' = i /\ j' = j) \/
      exists i' j' w, In (i', j') p /\ w <> v /\ nth_error (g_sub g t 0) i' = Some w /\ nth_error (g_sub g s 0) j' = Some w).
    { destruct (existsb (fun x => negb (pair_eqb x (i, j))) p) eqn:E.
      - right. apply existsb_exists in E. destruct E as ([i' j'] & Hx & E).
        destruct (proj1 (Ha i' j') Hx) as (w & H1 & H2). exists i', j', w. split; auto. split; auto.
        intros Ewv. rewrite Ewv in H1, H2. assert (i' = i) by exact (NoDup_nth_error_inj _ _ _ _ Nt H1 Ei).
        assert (j' = j) by exact (NoDup_nth_error_inj _ _ _ _ Ns H2 Ej). subst i' j'.
        rewrite (proj2 (pair_eqb_eq (i, j) (i, j)) eq_refl) in E. discriminate.
      - left. intros i' j' Hx. destruct (pair_eqb (i', j') (i, j)) eqn:E2.
        + apply pair_eqb_eq in E2. now inversion E2.
        + assert (existsb (fun x => negb (pair_eqb x (i, j))) p = true); [|congruence].
          apply existsb_exists. exists (i', j'). now rewrite E2. }
    destruct Hcase as [Hone|(i' & j' & w & Hin' & Hw & Ei' & Ej')].
    + assert (E : p = [(i, j)]).
      { apply StronglySorted_unique; auto; [repeat constructor|].
        intros [x y]. split; intros Hx; [apply Hone in Hx; destruct Hx; subst; now left|].
        destruct Hx as [E|[]]. inversion E; subst. auto. }
      subst p. now apply in_possible_vertex.
    + assert (Hw1 : In w (g_sub g t 0)) by (eapply nth_error_In; eauto).
      assert (Hw2 : In w (g_sub g s 0)) by (eapply nth_error_In; eauto).
      assert (Hvw : v <> w) by congruence.
      destruct (C t s v w Ht Hs Hne Hvw Hv1 Hv2 Hw1 Hw2) as (Et & Es & Honly).
      (* edges in terms of local numbers *)
      assert (Loc : forall c x y k l, c < ent_count g 2 -> NoDup (g_sub g c 0) -> edge_of g c x y ->
         nth_error (g_sub g c 0) k = Some x -> nth_error (g_sub g c 0) l = Some y ->
         In (k, l) (ref_edges (g_ctype g c)) \/ In (l, k) (ref_edges (g_ctype g c))).
      { intros c x y k l Hc Nc (a & b & Hab & [[H1 H2]|[H1 H2]]) Hk Hl.
        - left. assert (a = k) by exact (NoDup_nth_error_inj _ _ _ _ Nc H1 Hk).
          assert (b = l) by exact (NoDup_nth_error_inj _ _ _ _ Nc H2 Hl). now subst.
        - right. assert (a = l) by exact (NoDup_nth_error_inj _ _ _ _ Nc H1 Hl).
          assert (b = k) by exact (NoDup_nth_error_inj _ _ _ _ Nc H2 Hk). now subst. }
      assert (Hmem : forall x y, In (x, y) p -> (x = i /\ y = j) \/ (x = i' /\ y = j')).
      { intros x y Hx. destruct (proj1 (Ha x y) Hx) as (u & H1 & H2).
        destruct (Honly u (nth_error_In _ _ H1) (nth_error_In _ _ H2)) as [E|E]; rewrite E in H1, H2.
        - left. split; [exact (NoDup_nth_error_inj _ _ _ _ Nt H1 Ei)|exact (NoDup_nth_error_inj _ _ _ _ Ns H2 Ej)].
        - right. split; [exact (NoDup_nth_error_inj _ _ _ _ Nt H1 Ei')|exact (NoDup_nth_error_inj _ _ _ _ Ns H2 Ej')]. }
      destruct (Loc t v w i i' Ht Nt Et Ei Ei') as [Lt|Lt]; destruct (Loc s v w j j' Hs Ns Es Ej Ej') as [Ls|Ls].
      * assert (E : p = [(i, j); (i', j')]).
        { destruct (edges_ascending _ _ _ (wf_cell_surface g s W Hs) Ls) as [Hlt _].
          apply StronglySorted_unique; auto.
          - repeat constructor; cbn; auto.
          - intros [x y]. split; intros Hx.
            + apply Hmem in Hx. destruct Hx as [[-> ->]|[-> ->]]; cbn; auto.
            + destruct Hx as [E|[E|[]]]; inversion E; subst; auto. }
        subst p. exact (proj1 (in_possible_edge _ _ _ _ _ _ Lt Ls)).
      * assert (E : p = [(i', j'); (i, j)]).
        { destruct (edges_ascending _ _ _ (wf_cell_surface g s W Hs) Ls) as [Hlt _].
          apply StronglySorted_unique; auto.
          - repeat constructor; cbn; auto.
          - intros [x y]. split; intros Hx.
            + apply Hmem in Hx. destruct Hx as [[-> ->]|[-> ->]]; cbn; auto.
            + destruct Hx as [E|[E|[]]]; inversion E; subst; auto. }
        subst p. exact (proj2 (in_possible_edge _ _ _ _ _ _ Lt Ls)).
      * assert (E : p = [(i, j); (i', j')]).
        { destruct (edges_ascending _ _ _ (wf_cell_surface g s W Hs) Ls) as [Hlt _].
          apply StronglySorted_unique; auto.
          - repeat constructor; cbn; auto.
          - intros [x y]. split; intros Hx.
            + apply Hmem in Hx. destruct Hx as [[-> ->]|[-> ->]]; cbn; auto.
            + destruct Hx as [E|[E|[]]]; inversion E; subst; auto. }
        subst p. exact (proj2 (in_possible_edge _ _ _ _ _ _ Lt Ls)).
      * assert (E : p = [(i', j'); (i, j)]).
        { destruct (edges_ascending _ _ _ (wf_cell_surface g s W Hs) Ls) as [Hlt _].
          apply StronglySorted_unique; auto.
          - repeat constructor; cbn; auto.
          - intros [x y]. split; intros Hx.
            + apply Hmem in Hx. destruct Hx as [[-> ->]|[-> ->]]; cbn; auto.
            + destruct Hx as [E|[E|[]]]; inversion E; subst; auto. }
        subst p. exact (proj1 (in_possible_edge _ _ _ _ _ _ Lt Ls)).
Qed.
