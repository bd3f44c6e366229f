(** * Facts about outcomes, vectors and loops *)
From Verif Require Import Base.

Lemma bind_Ok_inv {A B : Type} (r : res A) (k : A -> res B) (b : B) :
  bind r k = Ok b -> exists a, r = Ok a /\ k a = Ok b.
Proof. destruct r; simpl; try discriminate. intros H. eauto. Qed.

Lemma vget_Ok {A : Type} (l : list A) i a : vget l i = Ok a <-> nth_error l i = Some a.
Proof.
  unfold vget, unwrap. destruct (nth_error l i); split; intros H; inversion H; reflexivity.
Qed.

Lemma vget_lt {A : Type} (l : list A) i : i < length l -> exists a, vget l i = Ok a /\ nth_error l i = Some a.
Proof.
  intros H. destruct (nth_error l i) as [a|] eqn:E.
  - exists a. split; [now apply vget_Ok | reflexivity].
  - apply nth_error_None in E. lia.
Qed.

Lemma vget_nth {A : Type} (l : list A) i d : i < length l -> vget l i = Ok (nth i l d).
Proof. intros H. apply vget_Ok. now apply nth_error_nth'. Qed.

Lemma uget_nth {A : Type} (l : list A) i d : i < length l -> uget l i = Ok (nth i l d).
Proof.
  intros H. unfold uget. now rewrite (nth_error_nth' l d H).
Qed.

Lemma uget_Ok {A : Type} (l : list A) i a : uget l i = Ok a <-> nth_error l i = Some a.
Proof.
  unfold uget. destruct (nth_error l i); split; intros H; inversion H; reflexivity.
Qed.

Lemma length_set_nth {A : Type} (l : list A) i x : length (set_nth l i x) = length l.
Proof. revert i. induction l as [|h t IH]; intros [|i]; simpl; auto. Qed.

Lemma nth_error_set_nth {A : Type} (l : list A) i j x :
  nth_error (set_nth l i x) j =
  if (i =? j) && (i <? length l) then Some x else nth_error l j.
Proof.
  revert i j. induction l as [|h t IH]; intros [|i] [|j]; simpl; auto.
  - now rewrite andb_false_r.
  - rewrite IH. change (S i <? S (length t)) with (i <? length t). reflexivity.
Qed.

Lemma nth_error_set_nth_eq {A : Type} (l : list A) i x :
  i < length l -> nth_error (set_nth l i x) i = Some x.
Proof.
  intros H. rewrite nth_error_set_nth, Nat.eqb_refl. simpl.
  now rewrite (proj2 (Nat.ltb_lt _ _) H).
Qed.

Lemma nth_error_set_nth_neq {A : Type} (l : list A) i j x :
  i <> j -> nth_error (set_nth l i x) j = nth_error l j.
Proof.
  intros H. rewrite nth_error_set_nth.
  now rewrite (proj2 (Nat.eqb_neq _ _) H).
Qed.

Lemma nth_set_nth {A : Type} (l : list A) i j x d :
  nth j (set_nth l i x) d = if (i =? j) && (i <? length l) then x else nth j l d.
Proof.
  revert i j. induction l as [|h t IH]; intros [|i] [|j]; simpl; auto.
  - now rewrite andb_false_r.
  - rewrite IH. change (S i <? S (length t)) with (i <? length t). reflexivity.
Qed.

Lemma vset_lt {A : Type} (l : list A) i x : i < length l -> vset l i x = Ok (set_nth l i x).
Proof. intros H. unfold vset. now rewrite (proj2 (Nat.ltb_lt _ _) H). Qed.

Lemma vset_Ok {A : Type} (l l' : list A) i x :
  vset l i x = Ok l' -> i < length l /\ l' = set_nth l i x.
Proof.
  unfold vset. destruct (i <? length l) eqn:E; intros H; inversion H.
  apply Nat.ltb_lt in E. auto.
Qed.

Lemma foldM_app {S A : Type} (f : S -> A -> res S) l1 l2 s :
  foldM f (l1 ++ l2) s = (s' <- foldM f l1 s ;; foldM f l2 s').
Proof.
  revert s. induction l1 as [|x t IH]; intros s; simpl; auto.
  destruct (f s x); simpl; auto.
Qed.

(** Invariant rule for loops: the invariant speaks about the processed prefix. *)
Lemma foldM_inv {S A : Type} (f : S -> A -> res S) (P : list A -> S -> Prop) l s :
  P [] s ->
  (forall pre x post s0, l = pre ++ x :: post -> P pre s0 ->
     exists s1, f s0 x = Ok s1 /\ P (pre ++ [x]) s1) ->
  exists s', foldM f l s = Ok s' /\ P l s'.
Proof.
  intros H0 Hstep.
  assert (G : forall post pre s0, l = pre ++ post -> P pre s0 ->
             exists s', foldM f post s0 = Ok s' /\ P l s').
  { induction post as [|x post IH]; intros pre s0 Hl HP; simpl.
    - exists s0. split; auto. rewrite app_nil_r in Hl. now subst.
    - destruct (Hstep pre x post s0 Hl HP) as (s1 & E & HP1).
      rewrite E. simpl. apply (IH (pre ++ [x])); auto.
      rewrite <- app_assoc. exact Hl. }
  exact (G l [] s eq_refl H0).
Qed.

(** Partial-correctness version: what holds if the loop returns. *)
Lemma foldM_Ok_inv {S A : Type} (f : S -> A -> res S) (P : list A -> S -> Prop) l s s' :
  P [] s ->
  (forall pre x post s0 s1, l = pre ++ x :: post -> P pre s0 -> f s0 x = Ok s1 -> P (pre ++ [x]) s1) ->
  foldM f l s = Ok s' -> P l s'.
Proof.
  intros H0 Hstep.
  assert (G : forall post pre s0, l = pre ++ post -> P pre s0 ->
             foldM f post s0 = Ok s' -> P l s').
  { induction post as [|x post IH]; intros pre s0 Hl HP HF; simpl in HF.
    - inversion HF; subst. now rewrite app_nil_r.
    - apply bind_Ok_inv in HF. destruct HF as (s1 & E & HF).
      apply (IH (pre ++ [x]) s1); auto.
      + rewrite <- app_assoc. exact Hl.
      + eapply Hstep; eauto. }
  exact (G l [] s eq_refl H0).
Qed.

Lemma foldM_pure {S A : Type} (f : S -> A -> S) l s :
  foldM (fun s x => Ok (f s x)) l s = Ok (fold_left f l s).
Proof. revert s. induction l as [|x t IH]; intros s; simpl; auto. Qed.

Lemma foldM_ext {S A : Type} (f g : S -> A -> res S) l s :
  (forall s x, In x l -> f s x = g s x) -> foldM f l s = foldM g l s.
Proof.
  revert s. induction l as [|x t IH]; intros s H; simpl; auto.
  rewrite H by now left. destruct (g s x); simpl; auto.
  apply IH. intros. apply H. now right.
Qed.

Lemma foldM_map {S A B : Type} (f : S -> B -> res S) (h : A -> B) l s :
  foldM f (map h l) s = foldM (fun s a => f s (h a)) l s.
Proof.
  revert s. induction l as [|x t IH]; intros s; simpl; auto.
  destruct (f s (h x)); simpl; auto.
Qed.

Lemma foldM_flat_map {S A B : Type} (f : S -> B -> res S) (h : A -> list B) l s :
  foldM f (flat_map h l) s = foldM (fun s a => foldM f (h a) s) l s.
Proof.
  revert s. induction l as [|x t IH]; intros s; simpl; auto.
  rewrite foldM_app. destruct (foldM f (h x) s); simpl; auto.
Qed.

Lemma mapM_Ok_length {A B : Type} (f : A -> res B) l ys : mapM f l = Ok ys -> length ys = length l.
Proof.
  revert ys. induction l as [|x t IH]; intros ys H; simpl in H.
  - inversion H. reflexivity.
  - apply bind_Ok_inv in H. destruct H as (y & _ & H).
    apply bind_Ok_inv in H. destruct H as (ys' & H1 & H).
    inversion H; subst. simpl. f_equal. auto.
Qed.

Lemma mapM_Ok_all {A B : Type} (f : A -> res B) (g : A -> B) l :
  (forall x, In x l -> f x = Ok (g x)) -> mapM f l = Ok (map g l).
Proof.
  induction l as [|x t IH]; intros H; simpl; auto.
  rewrite H by now left. simpl. rewrite IH; auto.
  intros. apply H. now right.
Qed.

Lemma mapM_Ok_nth {A B : Type} (f : A -> res B) l ys :
  mapM f l = Ok ys -> forall i x, nth_error l i = Some x ->
  exists y, nth_error ys i = Some y /\ f x = Ok y.
Proof.
  revert ys. induction l as [|a t IH]; intros ys H i x Hi; simpl in H.
  - destruct i; discriminate.
  - apply bind_Ok_inv in H. destruct H as (y & E & H).
    apply bind_Ok_inv in H. destruct H as (ys' & H1 & H).
    inversion H; subst. destruct i as [|i]; simpl in *.
    + inversion Hi; subst. eauto.
    + eauto.
Qed.

Lemma length_enumerate {A : Type} (l : list A) : length (enumerate l) = length l.
Proof. unfold enumerate. rewrite combine_length, seq_length. lia. Qed.

Lemma nth_error_combine {A B : Type} (l1 : list A) (l2 : list B) i a b :
  nth_error (combine l1 l2) i = Some (a, b) <-> nth_error l1 i = Some a /\ nth_error l2 i = Some b.
Proof.
  revert l2 i. induction l1 as [|x t IH]; intros [|y l2] [|i]; simpl; try (split; [discriminate | intros [? ?]; discriminate]).
  - split.
    + intros H. inversion H. auto.
    + intros [H1 H2]. inversion H1; inversion H2. reflexivity.
  - apply IH.
Qed.

Lemma nth_error_seq a n i : i < n -> nth_error (seq a n) i = Some (a + i).
Proof.
  revert a i. induction n as [|n IH]; intros a i H; [lia|].
  destruct i as [|i]; simpl.
  - f_equal. lia.
  - rewrite IH by lia. f_equal. lia.
Qed.

Lemma nth_error_enumerate {A : Type} (l : list A) i k x :
  nth_error (enumerate l) i = Some (k, x) <-> k = i /\ nth_error l i = Some x.
Proof.
  unfold enumerate. rewrite nth_error_combine. split.
  - intros [H1 H2]. split; auto.
    assert (i < length l) by (apply nth_error_Some; congruence).
    rewrite nth_error_seq in H1 by auto. inversion H1. lia.
  - intros [-> H]. split; auto.
    assert (i < length l) by (apply nth_error_Some; congruence).
    now rewrite nth_error_seq.
Qed.

Lemma In_enumerate {A : Type} (l : list A) k x :
  In (k, x) (enumerate l) <-> nth_error l k = Some x.
Proof.
  split.
  - intros H. apply In_nth_error in H. destruct H as (i & H).
    apply nth_error_enumerate in H. destruct H; subst. auto.
  - intros H. apply (nth_error_In _ k). apply nth_error_enumerate. auto.
Qed.

Lemma map_snd_enumerate {A : Type} (l : list A) : map snd (enumerate l) = l.
Proof.
  unfold enumerate.
  assert (H : length (seq 0 (length l)) = length l) by apply seq_length.
  revert H. generalize (seq 0 (length l)). induction l as [|x t IH]; intros [|n s] H; simpl in *; try lia; auto.
  f_equal. apply IH. lia.
Qed.

Lemma memb_In x l : memb x l = true <-> In x l.
Proof.
  unfold memb. rewrite existsb_exists. split.
  - intros (y & H & E). apply Nat.eqb_eq in E. now subst.
  - intros H. exists x. split; auto. apply Nat.eqb_refl.
Qed.

Lemma memb_false x l : memb x l = false <-> ~ In x l.
Proof. rewrite <- memb_In. destruct (memb x l); split; intros; try discriminate; auto. now exfalso. Qed.

Lemma assoc_Some_In {K V : Type} (eqb : K -> K -> bool) k (m : list (K * V)) v :
  (forall a b, eqb a b = true <-> a = b) -> assoc eqb k m = Some v -> In (k, v) m.
Proof.
  intros Heq. induction m as [|[k' v'] t IH]; simpl; try discriminate.
  destruct (eqb k k') eqn:E.
  - intros H. inversion H; subst. apply Heq in E. subst. now left.
  - auto.
Qed.

Lemma assoc_map {K V : Type} (eqb : K -> K -> bool) (f : K -> V) k l :
  (forall a b, eqb a b = true <-> a = b) -> In k l -> assoc eqb k (map (fun x => (x, f x)) l) = Some (f k).
Proof.
  intros Heq. induction l as [|x t IH]; simpl; [tauto|].
  intros H. destruct (eqb k x) eqn:E.
  - apply Heq in E. now subst.
  - destruct H as [->|H]; auto.
    assert (eqb k k = true) by now apply Heq. congruence.
Qed.

Lemma assoc_None {K V : Type} (eqb : K -> K -> bool) k (m : list (K * V)) :
  (forall a b, eqb a b = true <-> a = b) -> (~ In k (map fst m)) -> assoc eqb k m = None.
Proof.
  intros Heq. induction m as [|[k' v'] t IH]; simpl; auto.
  intros H. destruct (eqb k k') eqn:E.
  - apply Heq in E. subst. tauto.
  - apply IH. tauto.
Qed.

Lemma sum_list_app l1 l2 : sum_list (l1 ++ l2) = sum_list l1 + sum_list l2.
Proof. unfold sum_list. induction l1; simpl; lia. Qed.

Lemma nth_error_nth_Some {A : Type} (l : list A) i d a : nth_error l i = Some a -> nth i l d = a.
Proof. apply nth_error_nth. Qed.

Lemma nth_error_ext {A : Type} (l1 l2 : list A) :
  (forall i, nth_error l1 i = nth_error l2 i) -> l1 = l2.
Proof.
  revert l2. induction l1 as [|x t IH]; intros [|y l2] H; auto.
  - specialize (H 0). discriminate.
  - specialize (H 0). discriminate.
  - f_equal.
    + specialize (H 0). now inversion H.
    + apply IH. intros i. exact (H (S i)).
Qed.

Lemma NoDup_nth_error_inj {A : Type} (l : list A) i j a :
  NoDup l -> nth_error l i = Some a -> nth_error l j = Some a -> i = j.
Proof.
  intros H Hi Hj. eapply NoDup_nth_error; eauto; try congruence.
  apply nth_error_Some. congruence.
Qed.

Lemma nth_error_repeat {A : Type} (x : A) n i : i < n -> nth_error (repeat x n) i = Some x.
Proof.
  revert i. induction n as [|n IH]; intros i H; [lia|].
  destruct i; simpl; auto. apply IH. lia.
Qed.

Lemma nth_error_repeat_inv {A : Type} (x y : A) n i : nth_error (repeat x n) i = Some y -> y = x /\ i < n.
Proof.
  intros H. assert (i < length (repeat x n)) by (apply nth_error_Some; congruence).
  rewrite repeat_length in H0. rewrite nth_error_repeat in H by auto. inversion H. auto.
Qed.

Lemma nth_repeat_any {A : Type} (x : A) n i : nth i (repeat x n) x = x.
Proof. revert i. induction n; intros [|i]; simpl; auto. Qed.

Lemma nth_error_app_last {A : Type} (l : list A) x : nth_error (l ++ [x]) (length l) = Some x.
Proof. rewrite nth_error_app2, Nat.sub_diag by lia. reflexivity. Qed.

Lemma NoDup_app_iff {A : Type} (l1 l2 : list A) :
  NoDup (l1 ++ l2) <-> NoDup l1 /\ NoDup l2 /\ (forall z, In z l1 -> ~ In z l2).
Proof.
  induction l1 as [|a t IH]; simpl.
  - split.
    + intros H. repeat split; auto. constructor.
    + tauto.
  - split.
    + intros H. inversion H as [|? ? H1 H2]; subst. apply IH in H2. destruct H2 as (H2 & H3 & H4).
      rewrite in_app_iff in H1.
      repeat split; auto.
      * constructor; tauto.
      * intros z [<-|Hz]; auto.
    + intros (H1 & H2 & H3). inversion H1; subst. constructor.
      * rewrite in_app_iff. intros [H|H]; auto. apply (H3 a); auto.
      * apply IH. auto.
Qed.

Lemma map_fst_combine {A B : Type} (l : list A) (m : list B) :
  length l = length m -> map fst (combine l m) = l.
Proof. revert m. induction l as [|x t IH]; intros [|y m] H; simpl in *; try discriminate; auto. f_equal. auto. Qed.

Lemma map_fst_enumerate {A : Type} (l : list A) : map fst (enumerate l) = seq 0 (length l).
Proof. apply map_fst_combine. now rewrite seq_length. Qed.
