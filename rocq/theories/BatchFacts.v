(** * Facts about batches *)
From Verif Require Import Base BaseFacts Batch SpecBatch.

Lemma skipn_skipn' {A} n m (l : list A) : skipn n (skipn m l) = skipn (m + n) l.
Proof.
  revert l. induction m as [|m IH]; intros l; simpl; auto.
  destruct l; simpl; [now rewrite skipn_nil|apply IH].
Qed.

Lemma batch_end_min_eq wmod batch start len :
  batch_end_min wmod batch start len = batch_end wmod batch start len.
Proof.
  unfold batch_end_min, batch_end. destruct (usize_add wmod start batch) as [s| | |]; cbn [bind]; auto.
  destruct (Nat.ltb_spec s len); f_equal; lia.
Qed.

Lemma batch_end_Ok wmod batch start len :
  0 < batch -> batch < wmod -> 2 * len <= wmod -> start < len -> (start = 0 \/ batch <= start) ->
  batch_end wmod batch start len = Ok (Nat.min (start + batch) len).
Proof.
  intros Hb Hw Hl Hs H0. unfold batch_end, usize_add.
  destruct (Nat.ltb_spec (start + batch) wmod); [|lia].
  cbn [bind]. destruct (Nat.ltb_spec (start + batch) len); f_equal; lia.
Qed.

Lemma slice_Ok {A} (l : list A) a b : a <= b -> b <= length l -> slice l a b = Ok (firstn (b - a) (skipn a l)).
Proof.
  intros H1 H2. unfold slice. destruct (Nat.leb_spec a b); [|lia]. destruct (Nat.leb_spec b (length l)); [|lia]. auto.
Qed.

Lemma firstn_skipn_rest {A} (l : list A) a b : a <= b ->
  firstn (b - a) (skipn a l) ++ skipn b l = skipn a l.
Proof.
  intros H. assert (E : skipn b l = skipn (b - a) (skipn a l)) by (rewrite skipn_skipn'; f_equal; lia).
  rewrite E. apply firstn_skipn.
Qed.

Lemma block_loop_tiles {A} wmod batch (l : list A) :
  0 < batch -> batch < wmod -> fits wmod l ->
  forall fuel start, length l - start <= fuel -> (start = 0 \/ batch <= start \/ length l <= start) ->
  exists bs, block_loop fuel wmod batch l start = Ok bs /\ tiles batch (skipn start l) bs.
Proof.
  intros Hb Hw Hf. unfold fits in Hf. induction fuel as [|fuel IH]; intros start Hlen H0.
  - exists []. cbn [block_loop]. destruct (Nat.ltb_spec start (length l)); [lia|].
    split; auto. rewrite skipn_all2 by lia. split; auto. intros b [].
  - cbn [block_loop]. destruct (Nat.ltb_spec start (length l)) as [Hs|Hs].
    + rewrite batch_end_min_eq, batch_end_Ok by (auto; lia). cbn [bind].
      set (e := Nat.min (start + batch) (length l)).
      rewrite slice_Ok by lia. cbn [bind].
      destruct (IH e) as (bs & Hbs & Hc & Hl); [lia|lia|].
      rewrite Hbs. cbn [bind]. eexists; split; [reflexivity|]. split.
      * cbn [concat]. rewrite Hc. apply firstn_skipn_rest. lia.
      * intros b [<-|Hin]; auto. rewrite firstn_length, skipn_length. lia.
    + exists []. split; auto. rewrite skipn_all2 by lia. split; auto. intros b [].
Qed.

Lemma trial_loop_block {A} wmod batch (tb l : list A) : forall fuel start,
  trial_loop fuel wmod batch tb l start =
  (bs <- block_loop fuel wmod batch l start ;; Ok (map (fun b => (tb, b)) bs)).
Proof.
  induction fuel as [|fuel IH]; intros start; cbn [trial_loop block_loop];
    destruct (start <? length l); auto.
  rewrite batch_end_min_eq. destruct (batch_end wmod batch start (length l)) as [e| | |]; cbn [bind]; auto.
  destruct (slice l start e) as [b| | |]; cbn [bind]; auto.
  rewrite IH. destruct (block_loop fuel wmod batch l e); cbn [bind]; auto.
Qed.

Lemma test_loop_block {A} wmod batch (tc l : list A) bt :
  block_loop (S (length l)) wmod batch l 0 = Ok bt ->
  forall fuel start,
  test_loop fuel wmod batch tc l start =
  (bs <- block_loop fuel wmod batch tc start ;; Ok (flat_map (fun a => map (fun b => (a, b)) bt) bs)).
Proof.
  intros Ht. induction fuel as [|fuel IH]; intros start; cbn [test_loop]; rewrite ?trial_loop_block, ?Ht;
    cbn [block_loop]; destruct (start <? length tc); auto.
  rewrite batch_end_min_eq. destruct (batch_end wmod batch start (length tc)) as [e| | |]; cbn [bind]; auto.
  destruct (slice tc start e) as [b| | |]; cbn [bind]; auto.
  rewrite trial_loop_block, Ht. cbn [bind]. rewrite IH.
  destruct (block_loop fuel wmod batch tc e); cbn [bind flat_map]; auto.
Qed.

(** The dense tasks are all the pairs of a test batch and a trial batch. *)
Lemma dense_tasks_spec {A} wmod batch (tc l : list A) :
  0 < batch -> batch < wmod -> fits wmod tc -> fits wmod l ->
  exists bs bt, tiles batch tc bs /\ tiles batch l bt /\
    dense_tasks wmod batch tc l = Ok (list_prod bs bt).
Proof.
  intros Hb Hw H1 H2.
  destruct (block_loop_tiles wmod batch l Hb Hw H2 (S (length l)) 0) as (bt & E2 & T2); [lia|auto|].
  destruct (block_loop_tiles wmod batch tc Hb Hw H1 (S (length tc)) 0) as (bs & E1 & T1); [lia|auto|].
  exists bs, bt. split; [exact T1|]. split; [exact T2|].
  unfold dense_tasks. rewrite (test_loop_block _ _ _ _ _ E2), E1. cbn [bind]. f_equal.
  clear. induction bs; cbn; auto. now rewrite IHbs.
Qed.

(** Every pair of cells is in exactly one task, as often as it is in the product. *)
Lemma tiles_product {A} (bs bt : list (list A)) :
  Permutation (flat_map (fun p => list_prod (fst p) (snd p)) (list_prod bs bt))
              (list_prod (concat bs) (concat bt)).
Proof.
  assert (Hr : forall (a : list A) (bt : list (list A)), Permutation (flat_map (fun b => list_prod a b) bt) (list_prod a (concat bt))).
  { intros a bt0. induction bt0 as [|b t IH]; cbn [flat_map concat].
    - induction a; cbn; auto.
    - rewrite IH. clear. induction a as [|x a IH]; cbn [list_prod]; auto.
      rewrite map_app. rewrite <- IH. rewrite <- !app_assoc. apply Permutation_app_head.
      rewrite !app_assoc. apply Permutation_app_tail. apply Permutation_app_comm. }
  induction bs as [|a bs IH]; cbn [list_prod concat flat_map]; auto.
  rewrite flat_map_app, IH.
  assert (E : list_prod (a ++ concat bs) (concat bt) = list_prod a (concat bt) ++ list_prod (concat bs) (concat bt)).
  { clear. induction a; cbn; auto. now rewrite IHa, app_assoc. }
  rewrite E. apply Permutation_app_tail. rewrite <- Hr.
  clear. induction bt; cbn; auto. now rewrite IHbt.
Qed.

Lemma block_loop_zero {A} wmod (l : list A) : 0 < wmod -> forall fuel start, start < length l -> start < wmod ->
  block_loop fuel wmod 0 l start = Hang.
Proof.
  intros Hw. induction fuel as [|fuel IH]; intros start Hs Hm; cbn [block_loop];
    destruct (Nat.ltb_spec start (length l)); auto; try lia.
  unfold batch_end_min, usize_add. rewrite Nat.add_0_r. destruct (Nat.ltb_spec start wmod); [|lia].
  cbn [bind]. rewrite Nat.min_l by lia. rewrite slice_Ok by lia. cbn [bind]. now rewrite IH.
Qed.

Lemma test_loop_zero {A} wmod (tc l : list A) : 0 < wmod -> l <> [] -> forall fuel start, start < length tc -> start < wmod ->
  test_loop fuel wmod 0 tc l start = Hang.
Proof.
  intros Hw Hl fuel start Hs Hm. destruct fuel as [|fuel]; cbn [test_loop];
    destruct (Nat.ltb_spec start (length tc)); auto; try lia.
  unfold batch_end, usize_add. rewrite Nat.add_0_r. destruct (Nat.ltb_spec start wmod); [|lia].
  cbn [bind]. destruct (Nat.ltb_spec start (length tc)); [|lia]. rewrite slice_Ok by lia. cbn [bind].
  rewrite trial_loop_block, block_loop_zero; auto. destruct l; cbn; [congruence|lia].
Qed.

Lemma trial_loop_zero {A} wmod (tb l : list A) : 0 < wmod -> l <> [] -> forall fuel,
  trial_loop fuel wmod 0 tb l 0 = Hang.
Proof.
  intros Hw Hl fuel. rewrite trial_loop_block, block_loop_zero; auto. destruct l; cbn; [congruence|lia].
Qed.

Lemma concat_map_pair {A} (i : nat) (bs : list (list A)) :
  flat_map (fun x : nat * list A => map (fun y => (fst x, y)) (snd x)) (map (fun b => (i, b)) bs) =
  map (fun y => (i, y)) (concat bs).
Proof. induction bs; cbn; auto. now rewrite IHbs, map_app. Qed.

Lemma cell_blocks_from_spec {A} fuel wmod batch (cp : list (list A)) :
  0 < batch -> batch < wmod -> (forall c, In c cp -> fits wmod c /\ length c <= fuel) ->
  exists bss, length bss = length cp /\
    (forall i c, nth_error cp i = Some c -> exists bs, nth_error bss i = Some (map (fun b => (i, b)) bs) /\ tiles batch c bs) /\
    cell_blocks_from fuel wmod batch cp = Ok (concat bss).
Proof.
  intros Hb Hw H. unfold cell_blocks_from, enumerate.
  assert (G : forall k, exists bss, length bss = length cp /\
    (forall i c, nth_error cp i = Some c -> exists bs, nth_error bss i = Some (map (fun b => (k + i, b)) bs) /\ tiles batch c bs) /\
    mapM (fun ic => b <- block_loop fuel wmod batch (snd ic) 0 ;; Ok (map (fun x => (fst ic, x)) b))
      (combine (seq k (length cp)) cp) = Ok bss).
  { induction cp as [|c cp IH]; intros k.
    - exists []. split; auto. split; auto. intros [|i] c; discriminate.
    - destruct (H c (or_introl eq_refl)) as [Hc Hl].
      destruct (block_loop_tiles wmod batch c Hb Hw Hc fuel 0) as (bs & E & T); [lia|auto|].
      destruct IH with (k := S k) as (bss & L & N & M); [intros; apply H; now right|].
      exists (map (fun b => (k, b)) bs :: bss). split; [cbn; lia|]. split.
      + intros [|i] c' Hi; cbn in *.
        * inversion Hi; subst. exists bs. rewrite Nat.add_0_r. auto.
        * rewrite <- plus_n_Sm. apply N in Hi. exact Hi.
      + cbn [length seq combine mapM fst snd]. rewrite E. cbn [bind]. rewrite M. reflexivity. }
  destruct (G 0) as (bss & L & N & M). exists bss. split; auto. split; auto.
  rewrite M. reflexivity.
Qed.
