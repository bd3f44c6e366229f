(** * Facts about parallel execution *)
From Verif Require Import Base BaseFacts Interleave SpecAssembly.

Section Facts.
Context {T : Type} (add : T -> T -> T).
Local Notation effect := (effect add).
Local Notation after_ops := (after_ops add).

Lemma effect_app x l1 l2 v : effect x (l1 ++ l2) v = effect x l2 (effect x l1 v).
Proof. unfold SpecAssembly.effect. apply fold_left_app. Qed.

Lemma effect_none x l v : ~ In x (map fst l) -> effect x l v = v.
Proof.
  revert v. induction l as [|[a d] l IH]; intros v H; [reflexivity|].
  cbn in H. unfold SpecAssembly.effect in *. cbn [fold_left fst snd].
  destruct (Nat.eqb_spec a x); [exfalso; apply H; now left|]. apply IH. tauto.
Qed.

Lemma effect_one x d l1 l2 v : ~ In x (map fst l1) -> ~ In x (map fst l2) -> effect x (l1 ++ (x, d) :: l2) v = add v d.
Proof.
  intros H1 H2. rewrite effect_app, (effect_none x l1) by auto.
  change ((x, d) :: l2) with ([(x, d)] ++ l2). rewrite effect_app, effect_none by auto.
  unfold SpecAssembly.effect. cbn. now rewrite Nat.eqb_refl.
Qed.

(** With different addresses the order of the additions does not matter. *)
Lemma effect_perm x l l' v : NoDup (map fst l) -> Permutation l l' -> effect x l v = effect x l' v.
Proof.
  intros N P. assert (N' : NoDup (map fst l')) by (eapply Permutation_NoDup; [apply Permutation_map, P|auto]).
  destruct (in_dec Nat.eq_dec x (map fst l)) as [H|H].
  - apply in_map_iff in H. destruct H as [[a d] [E H]]. cbn in E. subst a.
    pose proof (Permutation_in _ P H) as H'.
    apply in_split in H. destruct H as (p & q & ->). apply in_split in H'. destruct H' as (p' & q' & ->).
    rewrite map_app in N, N'. cbn in N, N'.
    pose proof (NoDup_remove_2 _ _ _ N) as A. pose proof (NoDup_remove_2 _ _ _ N') as B.
    rewrite in_app_iff in A, B. rewrite !effect_one; tauto.
  - rewrite !effect_none; auto. intros H'. apply H. eapply Permutation_in; [|exact H'].
    apply Permutation_map. now apply Permutation_sym.
Qed.

Lemma length_after_ops ops m : length (after_ops ops m) = length m.
Proof. unfold SpecAssembly.after_ops. now rewrite map_length, length_enumerate. Qed.

Lemma nth_error_after_ops ops m x : nth_error (after_ops ops m) x = option_map (effect x ops) (nth_error m x).
Proof.
  unfold SpecAssembly.after_ops. destruct (nth_error m x) as [v|] eqn:E.
  - rewrite (map_nth_error _ x (enumerate m) (d := (x, v))); [reflexivity|]. now apply nth_error_enumerate.
  - cbn. apply nth_error_None in E. apply nth_error_None. now rewrite map_length, length_enumerate.
Qed.

Lemma after_ops_app l1 l2 m : after_ops (l1 ++ l2) m = after_ops l2 (after_ops l1 m).
Proof.
  apply nth_error_ext. intros x. rewrite !nth_error_after_ops. destruct (nth_error m x); cbn; [|reflexivity].
  now rewrite effect_app.
Qed.

Lemma after_ops_perm l l' m : NoDup (map fst l) -> Permutation l l' -> after_ops l m = after_ops l' m.
Proof.
  intros N P. apply nth_error_ext. intros x. rewrite !nth_error_after_ops. destruct (nth_error m x); cbn; [|reflexivity].
  now rewrite (effect_perm x l l').
Qed.

Lemma after_ops_nil m : after_ops [] m = m.
Proof. apply nth_error_ext. intros x. rewrite nth_error_after_ops. destruct (nth_error m x); reflexivity. Qed.

(** ** Executions of tasks on disjoint addresses *)

Section Run.
Variable tasks : list (list (@op T)).
Variable m0 : list T.
(** tasks do not share addresses *)
Hypothesis disjoint : forall i j l l' a, i <> j -> nth_error tasks i = Some l -> nth_error tasks j = Some l' ->
  In a (map fst l) -> ~ In a (map fst l').
Hypothesis inside : forall l a, In l tasks -> In a (map fst l) -> a < length m0.

(** What holds throughout: [dones] are the finished operations. *)
Record invariant (c : config) (dones : list (list (@op T))) : Prop := {
  iv_len : length (cf_threads c) = length tasks;
  iv_dlen : length dones = length tasks;
  iv_split : forall i t l d, nth_error (cf_threads c) i = Some t -> nth_error tasks i = Some l ->
    nth_error dones i = Some d -> l = d ++ th_ops t;
  iv_loaded : forall i t x, nth_error (cf_threads c) i = Some t -> th_loaded t = Some x ->
    exists a v rest, th_ops t = (a, v) :: rest /\ nth_error (cf_memory c) a = Some x;
  iv_memory : cf_memory c = after_ops (concat dones) m0
}.

Lemma concat_repeat_nil {A : Type} n : concat (repeat (@nil A) n) = [].
Proof. induction n; cbn; auto. Qed.

Lemma launch_invariant : invariant (launch tasks m0) (map (fun _ => []) tasks).
Proof.
  split; cbn [launch cf_threads cf_memory].
  - now rewrite map_length.
  - now rewrite map_length.
  - intros i t l d Ht Hl Hd. rewrite (map_nth_error _ i tasks Hl) in Ht. rewrite (map_nth_error _ i tasks Hl) in Hd. inversion Ht; inversion Hd; reflexivity.
  - intros i t x Ht Hx. exfalso. apply nth_error_In, in_map_iff in Ht. destruct Ht as (l & <- & _). discriminate.
  - replace (concat (map (fun _ : list op => []) tasks)) with (@nil (@op T)).
    + symmetry. apply after_ops_nil.
    + clear. induction tasks; cbn; auto.
Qed.

Lemma concat_set_nth {A : Type} (ll : list (list A)) i d : nth_error ll i = Some d ->
  exists p q, concat ll = p ++ d ++ q /\ (forall d', concat (set_nth ll i d') = p ++ d' ++ q) /\
    (forall x, In x p \/ In x q -> exists j l, j <> i /\ nth_error ll j = Some l /\ In x l).
Proof.
  revert i. induction ll as [|h ll IH]; intros i H; [destruct i; discriminate|].
  destruct i as [|i]; cbn in H.
  - inversion H; subst h. exists [], (concat ll). cbn. split; [reflexivity|]. split; [reflexivity|].
    intros x [[]|Hx]. apply in_concat in Hx. destruct Hx as (l & Hl & Hx). apply In_nth_error in Hl. destruct Hl as (j & Hj).
    exists (S j), l. auto.
  - destruct (IH i H) as (p & q & E & F & G). exists (h ++ p), q. cbn. rewrite E, <- app_assoc. split; [reflexivity|]. split.
    + intros d'. now rewrite F, <- app_assoc.
    + intros x Hx. rewrite in_app_iff in Hx. destruct Hx as [[Hx|Hx]|Hx].
      * exists 0, h. auto.
      * destruct (G x (or_introl Hx)) as (j & l & ? & ? & ?). exists (S j), l. auto.
      * destruct (G x (or_intror Hx)) as (j & l & ? & ? & ?). exists (S j), l. auto.
Qed.

Lemma step_invariant c dones c' : invariant c dones -> mstep add c c' -> exists dones', invariant c' dones'.
Proof.
  intros IV H. inversion H as [c1 i a v rest x Ht Hx E1 E2 | c1 i a v rest x Ht Hx E1 E2]; subst c1 c'; clear H.
  - exists dones. destruct IV as [L DL SP LO ME]. split; cbn [cf_threads cf_memory]; auto.
    + now rewrite length_set_nth.
    + intros j t l d Hj Hl Hd. destruct (Nat.eq_dec i j) as [<-|N].
      * rewrite nth_error_set_nth_eq in Hj by (apply nth_error_Some; congruence). inversion Hj; subst t. cbn.
        exact (SP _ _ _ _ Ht Hl Hd).
      * rewrite nth_error_set_nth_neq in Hj by auto. eauto.
    + intros j t y Hj Hy. destruct (Nat.eq_dec i j) as [<-|N].
      * rewrite nth_error_set_nth_eq in Hj by (apply nth_error_Some; congruence). inversion Hj; subst t. cbn in Hy. inversion Hy; subst y.
        exists a, v, rest. auto.
      * rewrite nth_error_set_nth_neq in Hj by auto. eauto.
  - destruct IV as [L DL SP LO ME].
    assert (Hi : i < length tasks) by (rewrite <- L; apply nth_error_Some; congruence).
    destruct (nth_error tasks i) as [l|] eqn:Hl; [|apply nth_error_None in Hl; lia].
    destruct (nth_error dones i) as [d|] eqn:Hd; [|apply nth_error_None in Hd; lia].
    pose proof (SP _ _ _ _ Ht Hl Hd) as Spl. cbn in Spl.
    exists (set_nth dones i (d ++ [(a, v)])).
    destruct (concat_set_nth dones i d Hd) as (p & q & Ec & Fc & Gc).
    assert (Own : forall j l', j <> i -> nth_error tasks j = Some l' -> ~ In a (map fst l')).
    { intros j l' N Hj. apply (disjoint i j l l' a); auto. rewrite Spl, map_app, in_app_iff. right. now left. }
    assert (Out : forall o, In o p \/ In o q -> fst o <> a).
    { intros o Ho E. destruct (Gc o Ho) as (j & l' & N & Hj & Io).
      assert (Hj' : j < length tasks) by (rewrite <- DL; apply nth_error_Some; congruence).
      destruct (nth_error tasks j) as [lj|] eqn:Hlj; [|apply nth_error_None in Hlj; lia].
      destruct (nth_error (cf_threads c) j) as [tj|] eqn:Htj; [|apply nth_error_None in Htj; lia].
      apply (Own j lj N Hlj). rewrite (SP _ _ _ _ Htj Hlj Hj), map_app, in_app_iff. left. apply in_map_iff. exists o. auto. }
    assert (Np : ~ In a (map fst p)) by (intros X; apply in_map_iff in X; destruct X as (o & E & X); apply (Out o); auto).
    assert (Nq : ~ In a (map fst q)) by (intros X; apply in_map_iff in X; destruct X as (o & E & X); apply (Out o); auto).
    split; cbn [cf_threads cf_memory].
    + now rewrite length_set_nth.
    + now rewrite length_set_nth.
    + intros j t lj dj Hj Hlj Hdj. destruct (Nat.eq_dec i j) as [<-|N].
      * rewrite nth_error_set_nth_eq in Hj by (apply nth_error_Some; congruence). inversion Hj; subst t.
        rewrite nth_error_set_nth_eq in Hdj by (apply nth_error_Some; congruence). inversion Hdj; subst dj.
        cbn [th_ops]. rewrite <- app_assoc. cbn [app]. assert (lj = l) by congruence. now subst lj.
      * rewrite nth_error_set_nth_neq in Hj by auto. rewrite nth_error_set_nth_neq in Hdj by auto. eauto.
    + intros j t y Hj Hy. destruct (Nat.eq_dec i j) as [<-|N].
      * rewrite nth_error_set_nth_eq in Hj by (apply nth_error_Some; congruence). inversion Hj; subst t. discriminate.
      * rewrite nth_error_set_nth_neq in Hj by auto. destruct (LO j t y Hj Hy) as (b & w & r & E & F).
        exists b, w, r. split; auto. rewrite nth_error_set_nth_neq; auto. intros <-.
        assert (Hj' : j < length tasks) by (rewrite <- L; apply nth_error_Some; congruence).
        destruct (nth_error tasks j) as [lj|] eqn:Hlj; [|apply nth_error_None in Hlj; lia].
        destruct (nth_error dones j) as [dj|] eqn:Hdj; [|apply nth_error_None in Hdj; lia].
        apply (Own j lj); auto. rewrite (SP _ _ _ _ Hj Hlj Hdj), map_app, in_app_iff. right. rewrite E. now left.
    + rewrite Fc. apply nth_error_ext. intros y. rewrite nth_error_after_ops.
      rewrite ME, Ec. destruct (Nat.eq_dec a y) as [<-|N].
      * assert (La : a < length (after_ops (p ++ d ++ q) m0)) by (rewrite <- Ec, <- ME; auto).
        rewrite nth_error_set_nth_eq by auto.
        destruct (LO i _ x Ht eq_refl) as (b & w & r & E & F). cbn in E. inversion E; subst b w r.
        rewrite ME, Ec, nth_error_after_ops in F. destruct (nth_error m0 a) as [v0|]; [|discriminate]. cbn in F |- *.
        inversion F as [F']. f_equal.
        rewrite !effect_app, !(effect_none a p), !(effect_none a q) by auto.
        unfold SpecAssembly.effect. cbn. now rewrite Nat.eqb_refl.
      * rewrite nth_error_set_nth_neq by auto. rewrite nth_error_after_ops. destruct (nth_error m0 y); cbn; [|reflexivity].
        f_equal. rewrite !effect_app. f_equal. cbn. unfold SpecAssembly.effect at 2. cbn.
        destruct (Nat.eqb_spec a y); [contradiction|reflexivity].
Qed.

Lemma reach_invariant n c : msteps add n (launch tasks m0) c -> exists dones, invariant c dones.
Proof.
  intros H. remember (launch tasks m0) as c0 eqn:E. revert E. induction H as [c|n c1 c2 c3 H IH Hs]; intros E.
  - subst. eexists. apply launch_invariant.
  - destruct (IH E) as (d & D). eapply step_invariant; eauto.
Qed.

Lemma next_in c dones i t a : invariant c dones -> nth_error (cf_threads c) i = Some t -> next_address t = Some a ->
  exists l, nth_error tasks i = Some l /\ In a (map fst l).
Proof.
  intros [L DL SP LO ME] Ht Ha.
  assert (Hi : i < length tasks) by (rewrite <- L; apply nth_error_Some; congruence).
  destruct (nth_error tasks i) as [l|] eqn:Hl; [|apply nth_error_None in Hl; lia].
  destruct (nth_error dones i) as [d|] eqn:Hd; [|apply nth_error_None in Hd; lia].
  exists l. split; auto. rewrite (SP _ _ _ _ Ht Hl Hd), map_app, in_app_iff. right.
  unfold next_address in Ha. destruct (th_ops t) as [|[b v] r]; inversion Ha; subst. now left.
Qed.

Lemma no_race n c : msteps add n (launch tasks m0) c -> ~ race c.
Proof.
  intros H (i & j & t & u & a & N & Ht & Hu & At & Au). destruct (reach_invariant n c H) as (d & IV).
  destruct (next_in _ _ _ _ _ IV Ht At) as (l & Hl & Il). destruct (next_in _ _ _ _ _ IV Hu Au) as (l' & Hl' & Il').
  exact (disjoint i j l l' a N Hl Hl' Il Il').
Qed.

Lemma not_faulty n c : msteps add n (launch tasks m0) c -> ~ faulty c.
Proof.
  intros H (t & a & v & r & Ht & E & Ho). destruct (reach_invariant n c H) as (d & IV).
  apply In_nth_error in Ht. destruct Ht as (i & Ht).
  destruct (next_in _ _ i t a IV Ht) as (l & Hl & Il); [unfold next_address; now rewrite E|].
  pose proof (inside l a (nth_error_In _ _ Hl) Il). rewrite (iv_memory _ _ IV), length_after_ops in Ho. lia.
Qed.

Lemma complete_memory n c : msteps add n (launch tasks m0) c -> complete c -> cf_memory c = after_ops (concat tasks) m0.
Proof.
  intros H C. destruct (reach_invariant n c H) as (d & [L DL SP LO ME]). rewrite ME. f_equal. f_equal.
  apply nth_error_ext. intros i. destruct (nth_error d i) as [di|] eqn:Hd.
  - assert (Hi : i < length tasks) by (rewrite <- DL; apply nth_error_Some; congruence).
    destruct (nth_error tasks i) as [l|] eqn:Hl; [|apply nth_error_None in Hl; lia].
    destruct (nth_error (cf_threads c) i) as [t|] eqn:Ht; [|apply nth_error_None in Ht; lia].
    rewrite (SP _ _ _ _ Ht Hl Hd), (C t (nth_error_In _ _ Ht)). cbn. now rewrite app_nil_r.
  - apply nth_error_None in Hd. symmetry. apply nth_error_None. lia.
Qed.

Lemma outcome_unique r : outcome add tasks m0 r -> r = Ok (after_ops (concat tasks) m0).
Proof.
  intros [n c H C|n c H F].
  - now rewrite (complete_memory n c).
  - exfalso. exact (not_faulty n c H F).
Qed.

(** A configuration that is not complete goes on, and every step reduces the number
    of loads and stores left. *)
Definition work (t : @thread T) : nat := 2 * length (th_ops t) - match th_loaded t with Some _ => 1 | None => 0 end.

Lemma progress n c : msteps add n (launch tasks m0) c -> complete c \/ exists c', mstep add c c'.
Proof.
  intros H. destruct (reach_invariant n c H) as (d & IV).
  assert (D : forall l : list (@thread T), (forall t, In t l -> t = mkThread [] None) \/ exists t, In t l /\ t <> mkThread [] None).
  { induction l as [|t l IH]; [left; intros ? []|]. destruct IH as [IH|(u & Hu & Nu)].
    - destruct t as [[|o r] [x|]].
      + right. exists (mkThread [] (Some x)). split; [now left|discriminate].
      + left. intros u [<-|Hu]; auto.
      + right. eexists. split; [now left|discriminate].
      + right. eexists. split; [now left|discriminate].
    - right. exists u. split; [now right|auto]. }
  destruct (D (cf_threads c)) as [C|(t & Ht & Nt)]; [left; exact C|]. right.
  apply In_nth_error in Ht. destruct Ht as (i & Ht).
  destruct t as [[|[a v] r] ld].
  - destruct ld as [x|]; [|congruence]. destruct (iv_loaded _ _ IV i _ x Ht eq_refl) as (a & v & r & E & _). discriminate.
  - destruct (next_in _ _ i _ a IV Ht eq_refl) as (l & Hl & Il).
    pose proof (inside l a (nth_error_In _ _ Hl) Il) as La.
    assert (Lc : a < length (cf_memory c)) by (rewrite (iv_memory _ _ IV), length_after_ops; auto).
    destruct ld as [x|].
    + eexists. eapply mstep_store; eauto.
    + destruct (nth_error (cf_memory c) a) as [x|] eqn:E; [|apply nth_error_None in E; lia].
      eexists. eapply mstep_load; eauto.
Qed.

Lemma sum_set_nth (l : list (@thread T)) i t t' : nth_error l i = Some t -> work t = S (work t') ->
  sum_list (map work l) = S (sum_list (map work (set_nth l i t'))).
Proof.
  revert i. induction l as [|h l IH]; intros i H E; [destruct i; discriminate|].
  destruct i as [|i]; cbn in H; cbn [set_nth map].
  - inversion H; subst h. unfold sum_list. cbn [fold_right]. lia.
  - unfold sum_list in *. cbn [fold_right]. rewrite (IH i H E). lia.
Qed.

Lemma step_work c c' : mstep add c c' -> sum_list (map work (cf_threads c)) = S (sum_list (map work (cf_threads c'))).
Proof.
  intros H. inversion H as [c1 i a v rest x Ht Hx E1 E2 | c1 i a v rest x Ht Hx E1 E2]; subst c1 c'; cbn [cf_threads].
  - eapply sum_set_nth; [exact Ht|]. unfold work. cbn [th_ops th_loaded length]. lia.
  - eapply sum_set_nth; [exact Ht|]. unfold work. cbn [th_ops th_loaded length]. lia.
Qed.

Lemma steps_work n c c' : msteps add n c c' -> sum_list (map work (cf_threads c)) = n + sum_list (map work (cf_threads c')).
Proof. induction 1 as [c|n c1 c2 c3 H IH Hs]; [reflexivity|]. rewrite IH, (step_work _ _ Hs). lia. Qed.

Lemma launch_work : sum_list (map work (cf_threads (launch tasks m0))) = 2 * length (concat tasks).
Proof.
  cbn [launch cf_threads]. rewrite map_map. unfold work. cbn [th_ops th_loaded].
  clear. induction tasks as [|l t IH]; [reflexivity|]. cbn [map concat]. rewrite app_length.
  unfold sum_list in *. cbn [fold_right]. rewrite IH. lia.
Qed.

(** Every execution ends after exactly one load and one store per operation. *)
Lemma bounded n c : msteps add n (launch tasks m0) c -> n <= 2 * length (concat tasks).
Proof. intros H. pose proof (steps_work _ _ _ H) as W. rewrite launch_work in W. lia. Qed.

Lemma run_exists_from k : forall n c, msteps add n (launch tasks m0) c -> 2 * length (concat tasks) - n <= k ->
  exists n' c', msteps add n' (launch tasks m0) c' /\ complete c'.
Proof.
  induction k as [|k IH]; intros n c H L; destruct (progress n c H) as [C|(c' & St)]; eauto.
  - pose proof (bounded _ _ (msteps_S _ _ _ _ _ H St)). lia.
  - apply (IH (S n) c'); [econstructor; eauto|lia].
Qed.

Lemma run_exists : outcome add tasks m0 (Ok (after_ops (concat tasks) m0)).
Proof.
  destruct (run_exists_from (2 * length (concat tasks)) 0 (launch tasks m0) (msteps_0 _ _)) as (n & c & H & C); [lia|].
  rewrite <- (complete_memory n c H C). eapply outcome_ok; eauto.
Qed.

End Run.

(** Different addresses: the hypothesis of the section holds. *)
Lemma addresses_disjoint (tasks : list (list (@op T))) : NoDup (addresses tasks) ->
  forall i j l l' a, i <> j -> nth_error tasks i = Some l -> nth_error tasks j = Some l' ->
  In a (map fst l) -> ~ In a (map fst l').
Proof.
  unfold addresses. induction tasks as [|h t IH]; intros N i j l l' a Nij Hi Hj Il Il'; [destruct i; discriminate|].
  cbn [concat] in N. rewrite map_app in N. apply NoDup_app_iff in N. destruct N as (Nh & Nt & D).
  assert (C : forall k u, nth_error t k = Some u -> In a (map fst u) -> In a (map fst (concat t))).
  { intros k u Hk Iu. apply in_map_iff in Iu. destruct Iu as (o & E & Io). apply in_map_iff. exists o. split; auto.
    apply in_concat. exists u. split; auto. eapply nth_error_In; eauto. }
  destruct i as [|i], j as [|j]; cbn in Hi, Hj.
  - congruence.
  - inversion Hi; subst h. exact (D a Il (C _ _ Hj Il')).
  - inversion Hj; subst h. exact (D a Il' (C _ _ Hi Il)).
  - apply (IH Nt i j l l' a); auto.
Qed.

End Facts.

(** ** Reductions *)

Lemma reduces_concat {A B : Type} (identity : A) join (f : A -> list B) :
  f identity = [] -> (forall a b, f (join a b) = f a ++ f b) ->
  forall l r, reduces identity join l r -> f r = flat_map f l.
Proof.
  intros F0 F1 l r H. induction H as [|x|l1 l2 a b H1 IH1 H2 IH2]; cbn.
  - exact F0.
  - now rewrite app_nil_r.
  - now rewrite F1, flat_map_app, IH1, IH2.
Qed.
